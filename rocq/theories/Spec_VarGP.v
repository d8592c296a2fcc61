(** * Independent specification for the variational objective. *)
From Coq Require Import Reals Arith List.
From Verif Require Import Spec_Utils.
Local Open Scope R_scope.

(** (f - g)' P (f - g) / 2 at the point x *)
Definition mismatch_n (n : nat) (P : nat -> nat -> R) (f g : (nat -> R) -> nat -> R) (x : nat -> R) : R :=
  1 / 2 * Rsum n (fun i => Rsum n (fun j => P i j * ((f x i - g x i) * (f x j - g x j)))).
(** A with the entry (i,j) replaced *)
Definition mset (i j : nat) (t : R) (A : nat -> nat -> R) : nat -> nat -> R :=
  fun a b => if andb (Nat.eqb a i) (Nat.eqb b j) then t else A a b.

(** ** Euler paths of the mean and the variance, and objectives built on them (one dimension) *)
Fixpoint path_m (dt : R) (a b : nat -> R) (m0 : R) (k : nat) : R :=
  match k with
  | O => m0
  | S k' => let m := path_m dt a b m0 k' in m + dt * (- a k' * m + b k')
  end.
Fixpoint path_s (dt : R) (a : nat -> R) (sigma s0 : R) (k : nat) : R :=
  match k with
  | O => s0
  | S k' => let s := path_s dt a sigma s0 k' in s + dt * (- 2 * a k' * s + sigma)
  end.

(** Along the Euler paths of (a, b): the left rectangle sum over all n grid points of the
    energy density e, plus linear terms that charge the mean and variance at point k + 1 with
    om k and os k. *)
Definition rect_objective (e : R -> R -> R -> R -> R) (n : nat) (dt sigma m0 s0 : R) (om os a b : nat -> R) : R :=
  let m := path_m dt a b m0 in
  let s := path_s dt a sigma s0 in
  dt * Rsum n (fun k => e (a k) (b k) (m k) (s k)) +
  Rsum (n - 1) (fun k => om k * m (k + 1)%nat + os k * s (k + 1)%nat).

(** the flat vector x of n values a followed by n values b, moved by h in the direction (ua, ub) *)
Definition move (n : nat) (x : list R) (ua ub : nat -> R) (h : R) : list R :=
  (map (fun k => nth k x 0 + h * ua k) (seq 0 n) ++ map (fun k => nth (n + k) x 0 + h * ub k) (seq 0 n))%list.
