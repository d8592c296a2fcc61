(** * The continuous-time variational free energy of a d-dimensional diffusion.
    Independent of the model of the code. *)
From Coq Require Import List Reals Arith.
From Coquelicot Require Import Coquelicot.
From Verif Require Import Spec_Utils Spec_Gauss Spec_GaussN Spec_L63 Spec_VarGP Spec_Prior Spec_TimeVar Spec_GradN Spec_Limit.
Import ListNotations.
Local Open Scope R_scope.

(** mean and covariance of dx = (- A x + b) dt + Sigma^(1/2) dW from x(0) ~ N(m0, s0), on [0,T] *)
Definition moments_n (d : nat) (T : R) (Sigma : nat -> nat -> R) (m0 : nat -> R) (s0 : nat -> nat -> R)
    (A : R -> nat -> nat -> R) (b m : R -> nat -> R) (S : R -> nat -> nat -> R) : Prop :=
  (forall i, (i < d)%nat -> m 0 i = m0 i) /\ (forall i j, (i < d)%nat -> (j < d)%nat -> S 0 i j = s0 i j) /\
  (forall t i, 0 <= t <= T -> (i < d)%nat -> is_derive (fun u => m u i) t (glin d (A t) (b t) (m t) i)) /\
  (forall t i j, 0 <= t <= T -> (i < d)%nat -> (j < d)%nat ->
     is_derive (fun u => S u i j) t (- Rsum d (fun k => A t i k * S t k j) - Rsum d (fun k => S t i k * A t j k) + Sigma i j)).

(** KL divergence at time 0, integral over [0,T] of the expected drift mismatch, expected
    negative log-likelihood of the observations [(time, vector); ..] with noise covariance Rn *)
Definition cont_free_energy_n (f : (nat -> R) -> nat -> R) (d : nat) (T : R) (Sigma : nat -> nat -> R) (m0 : nat -> R) (s0 : nat -> nat -> R)
    (mu : nat -> R) (tau Rn : nat -> nat -> R) (obs : list (R * (nat -> R))) (A : R -> nat -> nat -> R) (b : R -> nat -> R) (v : R) : Prop :=
  exists (m : R -> nat -> R) (S : R -> nat -> nat -> R) (e : R -> R) (l : R * (nat -> R) -> R) (k : R),
  moments_n d T Sigma m0 s0 A b m S /\ KLn d m0 s0 mu tau k /\
  (forall P t, is_inv d Sigma P -> 0 <= t <= T -> E_mvn d (m t) (S t) (mismatch_n d P f (glin d (A t) (b t))) (e t)) /\
  (forall Ri o, is_inv d Rn Ri -> In o obs ->
     E_mvn d (m (fst o)) (S (fst o)) (fun x => - ln (mvn_density d x Rn Ri (snd o))) (l o)) /\
  v = k + RInt e 0 T + total (map l obs).

(** the times of the observations, in the form used in one dimension *)
Definition clock (obs : list (R * (nat -> R))) : list (R * R) := map (fun o => (fst o, 0)) obs.
(** x is the argument of free_energy: the values of A and b on the grid 0, dt, .., n dt *)
Definition sampled_n (d : nat) (dt : R) (n : nat) (A : R -> nat -> nat -> R) (b : R -> nat -> R) (x : list R) : Prop :=
  length x = ((n + 1) * d * (d + 1))%nat /\
  forall k, (k <= n)%nat ->
    (forall i j, (i < d)%nat -> (j < d)%nat -> part_a d (entry x) k i j = A (INR k * dt) i j) /\
    (forall i, (i < d)%nat -> part_b (n + 1) d (entry x) k i = b (INR k * dt) i).
(** [gb] is its derivative with respect to the function b: along every direction k *)
Definition cont_gradient_b (f : (nat -> R) -> nat -> R) (d : nat) (T : R) (Sigma : nat -> nat -> R) (m0 : nat -> R) (s0 : nat -> nat -> R)
    (mu : nat -> R) (tau Rn : nat -> nat -> R) (obs : list (R * (nat -> R))) (A : R -> nat -> nat -> R) (b gb : R -> nat -> R) : Prop :=
  forall k : R -> nat -> R, (forall i, (i < d)%nat -> smooth 1 T (fun t => k t i)) ->
  ex_RInt (fun t => Rsum d (fun i => gb t i * k t i)) 0 T /\
  forall F, (forall x, cont_free_energy_n f d T Sigma m0 s0 mu tau Rn obs A (fun t i => b t i + x * k t i) (F x)) ->
  is_derive F 0 (RInt (fun t => Rsum d (fun i => gb t i * k t i)) 0 T).
