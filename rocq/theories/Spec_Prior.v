(** * Kullback-Leibler divergence between normal distributions. *)
From Coq Require Import Reals Arith.
From Coquelicot Require Import Coquelicot.
From Verif Require Import Spec_Utils Spec_Det Spec_Gauss Spec_GaussN.
Local Open Scope R_scope.

(** KL(N(m,s) || N(mu,tau)) = k : expectation of the log density ratio *)
Definition KL1 (m s mu tau k : R) : Prop :=
  E_normal m s (fun x => ln (normal_density m s x / normal_density mu tau x)) k.

Definition is_inv (d : nat) (S P : nat -> nat -> R) : Prop :=
  is_prod d S P ident /\ is_prod d P S ident.

(** Density of N(m,S) in dimension d; P is the inverse of S *)
Definition mvn_density (d : nat) (m : nat -> R) (S P : nat -> nat -> R) (x : nat -> R) : R :=
  exp (- (1 / 2) * Rsum d (fun i => Rsum d (fun j => (x i - m i) * P i j * (x j - m j))))
  / sqrt ((2 * PI) ^ d * detR d S).

Definition KLn (d : nat) (m : nat -> R) (S : nat -> nat -> R) (mu : nat -> R) (T : nat -> nat -> R) (k : R) : Prop :=
  forall Si Ti, is_inv d S Si -> is_inv d T Ti ->
  E_mvn d m S (fun x => ln (mvn_density d m S Si x / mvn_density d mu T Ti x)) k.

(** S T = T S *)
Definition commute (d : nat) (S T : nat -> nat -> R) : Prop :=
  forall i j, (i < d)%nat -> (j < d)%nat ->
  Rsum d (fun k => S i k * T k j) = Rsum d (fun k => T i k * S k j).
