(** * The continuous-time variational free energy of a one-dimensional diffusion.
    Independent of the model of the code. *)
From Coq Require Import List Reals.
From Coquelicot Require Import Coquelicot.
From Verif Require Import Spec_Gauss Spec_Sde1 Spec_Prior Spec_TimeVar.
Import ListNotations.
Local Open Scope R_scope.

(** mean and variance of dx = (-a x + b) dt + sqrt(sigma) dW from x(0) ~ N(m0, s0), on [0,T] *)
Definition moments (T sigma m0 s0 : R) (a b m s : R -> R) : Prop :=
  m 0 = m0 /\ s 0 = s0 /\ forall t, 0 <= t <= T ->
  is_derive m t (- a t * m t + b t) /\ is_derive s t (- 2 * a t * s t + sigma).

Definition total (l : list R) : R := fold_right Rplus 0 l.

(** KL divergence at time 0, integral over [0,T] of the expected drift mismatch, expected
    negative log-likelihood of the observations [(time, value); ..] with noise variance r *)
Definition cont_free_energy (f : R -> R) (T sigma m0 s0 mu tau r : R) (obs : list (R * R)) (a b : R -> R) (v : R) : Prop :=
  exists (m s e : R -> R) (l : R * R -> R) (k : R),
  moments T sigma m0 s0 a b m s /\ KL1 m0 s0 mu tau k /\
  (forall t, 0 <= t <= T -> E_normal (m t) (s t) (mismatch f sigma (a t) (b t)) (e t)) /\
  (forall o, In o obs -> E_normal (m (fst o)) (s (fst o)) (fun x => - ln (normal_density x r (snd o))) (l o)) /\
  v = k + RInt e 0 T + total (map l obs).

(** [ga] and [gb] are its derivatives with respect to the functions a and b: along every direction (h, k) *)
Definition cont_gradient (f : R -> R) (T sigma m0 s0 mu tau r : R) (obs : list (R * R)) (a b ga gb : R -> R) : Prop :=
  forall h k, smooth 1 T h -> smooth 1 T k -> ex_RInt (fun t => ga t * h t + gb t * k t) 0 T /\
  forall F, (forall x, cont_free_energy f T sigma m0 s0 mu tau r obs (fun t => a t + x * h t) (fun t => b t + x * k t) (F x)) ->
  is_derive F 0 (RInt (fun t => ga t * h t + gb t * k t) 0 T).

(** observation times: strictly increasing, in [0,T) *)
Fixpoint times_ok (lo T : R) (obs : list (R * R)) : Prop :=
  match obs with
  | [] => True
  | o :: r => lo <= fst o < T /\ (match r with [] => True | o' :: _ => fst o < fst o' end) /\ times_ok lo T r
  end.
(** they are points of the grid, with indexes [t] *)
Definition at_index (dt : R) (obs : list (R * R)) (t : list nat) : Prop :=
  Forall2 (fun o k => fst o = INR k * dt) obs t.
