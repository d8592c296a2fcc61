(** * The density of the observations under the discretised diffusion. *)
From Coq Require Import Reals Arith List.
From Verif Require Import Spec_Utils Spec_Gauss.
Local Open Scope R_scope.

Fixpoint Rprod (n : nat) (f : nat -> R) : R :=
  match n with O => 1 | S n' => Rprod n' f * f n' end.

(** Density of the observations made at the point k of the grid, given the state x there: the j-th value y_j is
    observed at the point t_j with noise variance r. *)
Definition obs_density (y : list R) (t : list nat) (r : R) (k : nat) (x : R) : R :=
  Rprod (length t) (fun j => if Nat.eqb (nth j t O) k then normal_density x r (nth j y 0) else 1).

(** [evidence f sigma n dt mu tau y t r Z]: Z is the density of all observations when the states at the n points of the grid
    follow the Euler-Maruyama discretisation x_{k+1} ~ N(x_k + dt f(x_k), sigma dt) of dx = f(x) dt + sqrt(sigma) dW, from
    x_0 ~ N(mu, tau). w k x is the density of the observations at the points k, ..., n-1, given the state x at point k. *)
Definition evidence (f : R -> R) (sigma : R) (n : nat) (dt mu tau : R) (y : list R) (t : list nat) (r Z : R) : Prop :=
  exists w : nat -> R -> R,
  (forall x, w (n - 1)%nat x = obs_density y t r (n - 1) x) /\
  (forall k x, (k + 1 < n)%nat ->
     exists e, E_normal (x + dt * f x) (sigma * dt) (w (k + 1)%nat) e /\ w k x = obs_density y t r k x * e) /\
  E_normal mu tau (w O) Z.

(** slope for which one Euler-Maruyama step of a linear drift multiplies the variance by 1 - 2 dt a, as a step of Euler's
    method for the variance with slope a does: (1 - dt (aslope dt a))^2 = 1 - 2 dt a *)
Definition aslope (dt a : R) : R := (1 - sqrt (1 - 2 * (dt * a))) / dt.
