(** * Expected negative log-likelihood of a set of observations. *)
From Coq Require Import Reals Arith List.
From Coquelicot Require Import Coquelicot.
From Verif Require Import Spec_Utils Spec_Det Spec_Gauss Spec_GaussN Spec_Prior.
Local Open Scope R_scope.

(** Scalar observations y_j at the grid indexes t_j, noise variance r:
    e = sum_j E[-ln N(y_j; x, r)], x normal with mean m[t_j] and variance s[t_j] *)
Definition obs_energy_1d (y : list R) (t : list nat) (r : R) (m s : list R) (e : R) : Prop :=
  exists c : nat -> R,
  (forall j, (j < length t)%nat ->
     E_normal (nth (nth j t O) m 0) (nth (nth j t O) s 0)
       (fun x => - ln (normal_density x r (nth j y 0))) (c j)) /\
  e = Rsum (length t) c.

(** the same with an observation operator h: y_j is observed from h x *)
Definition obs_energy_1d_op (h : R) (y : list R) (t : list nat) (r : R) (m s : list R) (e : R) : Prop :=
  exists c : nat -> R,
  (forall j, (j < length t)%nat ->
     E_normal (nth (nth j t O) m 0) (nth (nth j t O) s 0)
       (fun x => - ln (normal_density (h * x) r (nth j y 0))) (c j)) /\
  e = Rsum (length t) c.

Definition zvec : nat -> R := fun _ => 0.
Definition zmat : nat -> nat -> R := fun _ _ => 0.

(** Observations in R^d with noise covariance Rn *)
Definition obs_energy_nd (d : nat) (y : list (nat -> R)) (t : list nat) (Rn : nat -> nat -> R)
  (m : list (nat -> R)) (s : list (nat -> nat -> R)) (e : R) : Prop :=
  forall Ri, is_inv d Rn Ri ->
  exists c : nat -> R,
  (forall j, (j < length t)%nat ->
     E_mvn d (nth (nth j t O) m zvec) (nth (nth j t O) s zmat)
       (fun x => - ln (mvn_density d x Rn Ri (nth j y zvec))) (c j)) /\
  e = Rsum (length t) c.
