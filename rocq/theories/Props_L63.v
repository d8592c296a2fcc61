(** * Property C22: the Lorenz-63 energy. *)
From Coq Require Import ZArith Bool Reals List Lra Lia Arith Sorted.
From Coquelicot Require Import Coquelicot.
From Verif Require Import Num Arr M_Utils M_Sde1 M_L63 Spec_Utils Spec_Gauss Spec_GaussN
  Spec_Sde1 Spec_L63 P_GaussN P_L63.
Import ListNotations.
Local Open Scope R_scope.

(** Well-formed input: arrays of one length, sorted observation indexes, symmetric
    covariances. *)
Definition wf3 (A : list (nat -> nat -> R)) (B M : list (nat -> R)) (S : list (nat -> nat -> R))
  (obs : option (list nat)) : Prop :=
  length B = length A /\ length M = length A /\ length S = length A /\
  (forall o, obs = Some o -> Sorted le o) /\
  (forall k, (k < length A)%nat -> symm 3 (nth k S (fun _ _ => 0))).

(** the drift function *)
Theorem C22_drift :
  forall (x th : nat -> R) i, (i < 3)%nat ->
  l63 (K:=RNum) x th i = f63 (th 0%nat) (th 1%nat) (th 2%nat) x i.
Proof. intros x th i Hi. destruct i as [|[|[|i]]]; [| | |lia]; unfold l63, vec3, f63; rnum; ring. Qed.
Print Assumptions C22_drift.

(** every component of Efg is E[(f_i - g_i)^2] *)
Theorem C22_components :
  forall (th : nat -> R) A b m S w i, (i < 3)%nat -> symm 3 S ->
  E_mvn 3 m S (fun x => (f63 (th 0%nat) (th 1%nat) (th 2%nat) x i - glin 3 A b x i) ^ 2)
        (fst (fst (energy_dm_ds (K:=RNum) th A b m S w)) i).
Proof. exact Efg_E. Qed.
Print Assumptions C22_components.

(** [E_mvn] speaks about existing distributions *)
Theorem C22_root_exists :
  forall S, symm 3 S -> posdef 3 S -> exists L, is_root 3 L S.
Proof. exact (posdef_root 3). Qed.
Print Assumptions C22_root_exists.

(** gradients of half the weighted sum at one time point; the entry (i,j) of dEsde_ds is
    the derivative with respect to the covariance of coordinates i and j, i.e. moving
    both symmetric entries of the matrix. *)
Theorem C22_point_dm :
  forall th A b (m : nat -> R) S w i, (i < 3)%nat ->
  is_derive (fun t => 1 / 2 * Rsum 3 (fun c => w c * fst (fst (energy_dm_ds (K:=RNum) th A b (vset i t m) S w)) c))
    (m i) (snd (fst (energy_dm_ds (K:=RNum) th A b m S w)) i).
Proof. exact e63_dm. Qed.
Print Assumptions C22_point_dm.
Theorem C22_point_ds :
  forall th A b (m : nat -> R) S w i j, (i < 3)%nat -> (j < 3)%nat -> symm 3 S ->
  is_derive (fun t => 1 / 2 * Rsum 3 (fun c => w c * fst (fst (energy_dm_ds (K:=RNum) th A b m (sset i j t S) w)) c))
    (S i j) (snd (energy_dm_ds (K:=RNum) th A b m S w) i j).
Proof. exact e63_ds. Qed.
Print Assumptions C22_point_ds.

(** the drift-parameter expectations *)
Theorem C22_theta_components :
  forall (th : nat -> R) A b m S i, (i < 3)%nat -> symm 3 S ->
  E_mvn 3 m S (fun x => (f63 (th 0%nat) (th 1%nat) (th 2%nat) x i - glin 3 A b x i) * df63_dth x i)
        (Efg_drift_theta (K:=RNum) th A b m S i) /\
  forall x, is_derive (fun t => f63 (vset i t th 0%nat) (vset i t th 1%nat) (vset i t th 2%nat) x i) (th i) (df63_dth x i).
Proof.
  intros th A b m S i Hi Hs. split; [exact (theta_E th A b m S i Hi Hs)|].
  intros x. destruct i as [|[|[|i]]]; [| | |lia]; unfold vset; cbn [Nat.eqb f63 df63_dth]; auto_derive; auto; ring.
Qed.
Print Assumptions C22_theta_components.

(** averages of the drift and of its Jacobian *)
Theorem C22_averages :
  forall (th : nat -> R) P dt A B M S obs k, wf3 A B M S obs -> (k < length A)%nat ->
  let r := l63_energy (K:=RNum) th P dt A B M S obs in
  let m := nth k M (fun _ => 0) in let s := nth k S (fun _ _ => 0) in
  forall i, (i < 3)%nat ->
  E_mvn 3 m s (fun x => f63 (th 0%nat) (th 1%nat) (th 2%nat) x i) (nth k (n_f r) (fun _ => 0) i) /\
  forall j, (j < 3)%nat ->
    E_mvn 3 m s (fun x => jac63 th x i j) (nth k (n_df r) (fun _ _ => 0) i j) /\
    forall x : nat -> R,
      is_derive (fun t => f63 (th 0%nat) (th 1%nat) (th 2%nat) (vset j t x) i) (x j) (jac63 th x i j).
Proof.
  intros th P dt A B M S obs k (H1 & H2 & H3 & Ho & Hs) Hk r m s i Hi. subst r. split.
  - rewrite l63_f_nth by assumption. apply Ef_E; auto.
  - intros j Hj. split.
    + rewrite l63_df_nth by assumption. apply Edf_E; assumption.
    + intros x. apply jac63_is; assumption.
Qed.
Print Assumptions C22_averages.

(** the total energy *)
Theorem C22_energy :
  forall (th : nat -> R) P dt A B M S obs, wf3 A B M S obs ->
  exists e : nat -> R,
    (forall k, (k < length A)%nat ->
       E_mvn 3 (nth k M (fun _ => 0)) (nth k S (fun _ _ => 0))
         (fun x => 1 / 2 * Rsum 3 (fun i => P i i *
            (f63 (th 0%nat) (th 1%nat) (th 2%nat) x i
             - glin 3 (nth k A (fun _ _ => 0)) (nth k B (fun _ => 0)) x i) ^ 2)) (e k)) /\
    n_sde (l63_energy (K:=RNum) th P dt A B M S obs) = trap (length A) e dt.
Proof.
  intros th P dt A B M S obs (H1 & H2 & H3 & Ho & Hs).
  exact (l63_energy_E th P dt A B M S obs Ho H1 H2 H3 Hs).
Qed.
Print Assumptions C22_energy.
(** and its gradients (entries of the arrays are per unit of integration weight) *)
Theorem C22_dm :
  forall (th : nat -> R) P dt A B M S obs k i, wf3 A B M S obs -> (k < length A)%nat -> (i < 3)%nat ->
  is_derive (fun t => n_sde (l63_energy (K:=RNum) th P dt A B (lset k (vset i t (nth k M (fun _ => 0))) M) S obs))
    (nth k M (fun _ => 0) i)
    (tweight (length A) k dt * nth k (n_dm (l63_energy (K:=RNum) th P dt A B M S obs)) (fun _ => 0) i).
Proof.
  intros th P dt A B M S obs k i (H1 & H2 & H3 & Ho & Hs).
  exact (l63_dm_correct th P dt A B M S obs k i Ho H1 H2 H3).
Qed.
Print Assumptions C22_dm.
Theorem C22_ds :
  forall (th : nat -> R) P dt A B M S obs k i j, wf3 A B M S obs -> (k < length A)%nat -> (i < 3)%nat -> (j < 3)%nat ->
  is_derive (fun t => n_sde (l63_energy (K:=RNum) th P dt A B M (lset k (sset i j t (nth k S (fun _ _ => 0))) S) obs))
    (nth k S (fun _ _ => 0) i j)
    (tweight (length A) k dt * nth k (n_ds (l63_energy (K:=RNum) th P dt A B M S obs)) (fun _ _ => 0) i j).
Proof.
  intros th P dt A B M S obs k i j (H1 & H2 & H3 & Ho & Hs) Hk Hi Hj.
  exact (l63_ds_correct th P dt A B M S obs k i j Ho H1 H2 H3 Hk Hi Hj (Hs k Hk)).
Qed.
Print Assumptions C22_ds.
Theorem C22_dtheta :
  forall (th : nat -> R) P dt A B M S obs i, wf3 A B M S obs -> (i < 3)%nat ->
  is_derive (fun t => n_sde (l63_energy (K:=RNum) (vset i t th) P dt A B M S obs)) (th i)
            (n_dth (l63_energy (K:=RNum) th P dt A B M S obs) i).
Proof.
  intros th P dt A B M S obs i (H1 & H2 & H3 & Ho & Hs).
  exact (l63_dth_correct th P dt A B M S obs i Ho H1 H2 H3).
Qed.
Print Assumptions C22_dtheta.
(** Along every differentiable curve Sg of noise matrices with differentiable symmetric
    inverse P, the returned energy changes at the rate <dEsde_dsigma, Sg'>. *)
Theorem C22_dsigma :
  forall (th : nat -> R) dt A B M S obs (Sg P : R -> nat -> nat -> R) (Sg' P' : nat -> nat -> R) (t0 : R),
  wf3 A B M S obs ->
  locally t0 (fun t => is_prod 3 (P t) (Sg t) ident) -> is_prod 3 (Sg t0) (P t0) ident ->
  symm 3 (P t0) ->
  (forall i j, (i < 3)%nat -> (j < 3)%nat -> is_derive (fun t => Sg t i j) t0 (Sg' i j)) ->
  (forall i j, (i < 3)%nat -> (j < 3)%nat -> is_derive (fun t => P t i j) t0 (P' i j)) ->
  is_derive (fun t => n_sde (l63_energy (K:=RNum) th (P t) dt A B M S obs)) t0
    (Rsum 3 (fun i => Rsum 3 (fun j => n_dsig (l63_energy (K:=RNum) th (P t0) dt A B M S obs) i j * Sg' i j))).
Proof.
  intros th dt A B M S obs Sg P Sg' P' t0 (H1 & H2 & H3 & Ho & Hs).
  exact (l63_dsig_curve th dt A B M S obs Ho H1 H2 H3 Sg P Sg' P' t0).
Qed.
Print Assumptions C22_dsigma.

(** Outside the claim (noise that is not diagonal): the energy keeps only the diagonal of
    the inverse noise, so it is not the expected squared mismatch weighted by the inverse. *)
Theorem C22_full_noise_refuted :
  exists (th : nat -> R) P dt A B M S obs (e : nat -> R), wf3 A B M S obs /\ symm 3 P /\ posdef 3 P /\
    (forall k, (k < length A)%nat ->
       E_mvn 3 (nth k M (fun _ => 0)) (nth k S (fun _ _ => 0))
         (fun x => 1 / 2 * Rsum 3 (fun i => Rsum 3 (fun j => P i j *
            ((f63 (th 0%nat) (th 1%nat) (th 2%nat) x i - glin 3 (nth k A (fun _ _ => 0)) (nth k B (fun _ => 0)) x i) *
             (f63 (th 0%nat) (th 1%nat) (th 2%nat) x j - glin 3 (nth k A (fun _ _ => 0)) (nth k B (fun _ => 0)) x j))))) (e k)) /\
    (exists L, is_root 3 L (nth 0 S (fun _ _ => 0))) /\
    n_sde (l63_energy (K:=RNum) th P dt A B M S obs) <> trap (length A) e dt.
Proof. exact full_noise_witness. Qed.
Print Assumptions C22_full_noise_refuted.

Example C22_instance :
  fst (fst (energy_dm_ds (K:=RNum) (fun _ => 1) (fun _ _ => 2) (fun _ => 3) (fun i => INR i)
     (fun i j => if Nat.eqb i j then 2 else 1) (fun _ => 1))) 1%nat = 28.
Proof. unfold energy_dm_ds, vec3. cbn. ring. Qed.
