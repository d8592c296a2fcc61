(** * Properties C50, C51: the Lorenz-96 energy and its gradients. *)
From Coq Require Import ZArith Bool Reals List Lra Lia Arith Sorted.
From Coquelicot Require Import Coquelicot.
From Verif Require Import Num Arr M_LinAlg M_Utils M_Sde1 M_L63 M_L96 M_L96E Spec_Utils Spec_GaussN Spec_Sde1
  Spec_L63 Spec_L96 Spec_L96E P_GaussN P_L63 P_L96 P_RMat P_L96E P_L96F P_L96G P_L96H P_L96I.
Import ListNotations.
Local Open Scope R_scope.
(** np.linalg.solve is a parameter of the statements; [solver_ok] is what is assumed of it. *)
Notation solver := (nat -> (nat -> nat -> R) -> result ((nat -> R) -> nat -> R)).

(** ** C50 *)
Theorem C50_result :
  forall (solve : solver) d th P dt A B M S obs, solver_ok solve -> wf96 d A B M S obs ->
  exists e, l96_energy (K:=RNum) solve d th P dt A B M S obs = Ok e /\
    length (n_f e) = length A /\ length (n_df e) = length A /\
    length (n_dm e) = length A /\ length (n_ds e) = length A.
Proof. exact l96_result. Qed.
Print Assumptions C50_result.
Theorem C50_indefinite :
  forall (solve : solver) d th P dt A B M S obs k, solver_ok solve ->
  (0 < d)%nat -> length B = length A -> length M = length A -> length S = length A ->
  (forall k, (k < length A)%nat -> symm d (gm S k)) ->
  (k < length A)%nat -> ~ posdef d (gm S k) ->
  l96_energy (K:=RNum) solve d th P dt A B M S obs = Err LinAlgError.
Proof. exact l96_indef. Qed.
Print Assumptions C50_indefinite.
(** the sigma points: the root exists and is unique, and the weighted points have the mean m
    and the covariance S *)
Theorem C50_root_exists :
  forall d S, (0 < d)%nat -> symm d S -> posdef d S -> exists L, scaled_root d S L.
Proof. intros d S Hd Hs Hp. exists (rootf d S). apply rootf_ok; assumption. Qed.
Print Assumptions C50_root_exists.
Theorem C50_root_unique :
  forall d S L L', (0 < d)%nat -> symm d S -> posdef d S -> scaled_root d S L -> scaled_root d S L' ->
  forall i j, (i < d)%nat -> (j < d)%nat -> L i j = L' i j.
Proof.
  intros d S L L' Hd Hs Hp H H' i j Hi Hj.
  rewrite <- (rootf_eq d S L Hd Hs Hp H i j Hi Hj). apply rootf_eq; assumption.
Qed.
Print Assumptions C50_root_unique.
Theorem C50_points :
  forall d S L m, (0 < d)%nat -> scaled_root d S L ->
  is_expectation d (fun f => uavg d (fun r => f (sig_pt d m L r))) m S.
Proof. intros d S L m Hd HL. apply uavg_expect; assumption. Qed.
Print Assumptions C50_points.
(** what Esde is: the points are put on one ring *)
Theorem C50_energy_partial :
  forall (solve : solver) d th P dt A B M S obs e (L : nat -> nat -> nat -> R), solver_ok solve ->
  wf96 d A B M S obs -> l96_energy (K:=RNum) solve d th P dt A B M S obs = Ok e ->
  (forall k, (k < length A)%nat -> scaled_root d (gm S k) (L k)) ->
  n_sde e = trap (length A) (fun k => uavg d (hring d th P (gm A k) (gv B k) (gv M k) (L k))) dt.
Proof. exact l96_sde. Qed.
Print Assumptions C50_energy_partial.
Theorem C50_nonneg :
  forall (solve : solver) d th P dt A B M S obs e, solver_ok solve ->
  wf96 d A B M S obs -> l96_energy (K:=RNum) solve d th P dt A B M S obs = Ok e ->
  0 <= dt -> (forall j, (j < d)%nat -> 0 <= P j j) -> 0 <= n_sde e.
Proof. exact l96_nonneg. Qed.
Print Assumptions C50_nonneg.
Theorem C50_diagonal_only :
  forall (solve : solver) d th P P' dt A B M S obs e e', solver_ok solve ->
  wf96 d A B M S obs -> l96_energy (K:=RNum) solve d th P dt A B M S obs = Ok e ->
  l96_energy (K:=RNum) solve d th P' dt A B M S obs = Ok e' ->
  (forall j, (j < d)%nat -> P j j = P' j j) -> n_sde e = n_sde e'.
Proof. intros solve d th P P' dt A B M S obs e e'. apply l96_diag. Qed.
Print Assumptions C50_diagonal_only.
(** averages of the drift and of its Jacobian *)
Theorem C50_averages :
  forall (solve : solver) d th P dt A B M S obs e k i, solver_ok solve ->
  wf96 d A B M S obs -> l96_energy (K:=RNum) solve d th P dt A B M S obs = Ok e ->
  (k < length A)%nat -> (i < d)%nat ->
  E_mvn d (gv M k) (gm S k) (fun x => f96 d th x i) (nth k (n_f e) vz i) /\
  ((4 <= d)%nat -> forall j, is_derive (fun t => f96 d th (vset j t (gv M k)) i) (gv M k j) (nth k (n_df e) mz i j)).
Proof. exact l96_avg. Qed.
Print Assumptions C50_averages.
(** the drift gradient: the Gaussian mean of the misfit, for every column; the derivative of
    the returned Esde for the interior columns *)
Theorem C50_dtheta_mean :
  forall (solve : solver) d th P dt A B M S obs e j, solver_ok solve ->
  wf96 d A B M S obs -> l96_energy (K:=RNum) solve d th P dt A B M S obs = Ok e -> (j < d)%nat ->
  exists g : nat -> R,
    (forall k, (k < length A)%nat ->
       E_mvn d (gv M k) (gm S k) (fun x => f96 d th x j - glin d (gm A k) (gv B k) x j) (g k)) /\
    n_dth e j = P j j * trap (length A) g dt.
Proof. exact l96_dth_mean. Qed.
Print Assumptions C50_dtheta_mean.
Theorem C50_dtheta_partial :
  forall (solve : solver) d th P dt A B M S obs i e, solver_ok solve -> wf96 d A B M S obs ->
  (2 <= i)%nat -> (i + 1 < d)%nat ->
  l96_energy (K:=RNum) solve d th P dt A B M S obs = Ok e ->
  is_derive (fun t => esde_of (l96_energy (K:=RNum) solve d (vset i t th) P dt A B M S obs)) (th i) (n_dth e i).
Proof. intros solve d th P dt A B M S obs i e Hs. apply l96_dth_curve; assumption. Qed.
Print Assumptions C50_dtheta_partial.
(** Finding: for column 0 it is not, whenever the noise weight of that column is not zero. *)
Theorem C50_dtheta_refuted :
  forall (solve : solver) d P, solver_ok solve -> (4 <= d)%nat -> P 0%nat 0%nat <> 0 ->
  exists th dt A B M S obs e, wf96 d A B M S obs /\
    l96_energy (K:=RNum) solve d th P dt A B M S obs = Ok e /\
    ~ is_derive (fun t => esde_of (l96_energy (K:=RNum) solve d (vset 0 t th) P dt A B M S obs)) (th 0%nat) (n_dth e 0%nat).
Proof. intros solve d P Hs Hd. exact (dth_wrong solve Hs d Hd P). Qed.
Print Assumptions C50_dtheta_refuted.
(** along every differentiable curve of noise matrices the returned Esde changes at the rate
    given by dEsde_dSig *)
Theorem C50_dsigma :
  forall (solve : solver) d (th : nat -> R) dt A B M S obs (Sg P : R -> nat -> nat -> R) (Sg' P' : nat -> nat -> R) (t0 : R) e,
  solver_ok solve -> wf96 d A B M S obs -> l96_energy (K:=RNum) solve d th (P t0) dt A B M S obs = Ok e ->
  locally t0 (fun t => is_prod d (P t) (Sg t) ident) -> is_prod d (Sg t0) (P t0) ident ->
  symm d (P t0) ->
  (forall i j, (i < d)%nat -> (j < d)%nat -> is_derive (fun t => Sg t i j) t0 (Sg' i j)) ->
  (forall i j, (i < d)%nat -> (j < d)%nat -> is_derive (fun t => P t i j) t0 (P' i j)) ->
  is_derive (fun t => esde_of (l96_energy (K:=RNum) solve d th (P t) dt A B M S obs)) t0
    (Rsum d (fun i => Rsum d (fun j => n_dsig e i j * Sg' i j))).
Proof. intros solve d th dt A B M S obs Sg P Sg' P' t0 e Hs. apply l96_dsig_curve; assumption. Qed.
Print Assumptions C50_dsigma.
(** Finding: Esde is not the average of the misfits of the points (each with its own ring) ... *)
Theorem C50_energy_refuted :
  forall (solve : solver) d, solver_ok solve -> (4 <= d)%nat ->
  exists th P dt A B M S obs L e,
    wf96 d A B M S obs /\ symm d P /\ posdef d P /\
    (forall k, (k < length A)%nat -> scaled_root d (gm S k) (L k)) /\
    l96_energy (K:=RNum) solve d th P dt A B M S obs = Ok e /\
    n_sde e <> trap (length A) (fun k => let x := sig_pt d (gv M k) (L k) in
                  uavg d (hmis d P (gm A k) (gv B k) (own_drift d th x) x)) dt.
Proof. intros solve d Hs Hd. exact (own_wrong solve Hs d Hd). Qed.
Print Assumptions C50_energy_refuted.
(** ... nor the Gaussian expectation of the misfit. *)
Theorem C50_gaussian_refuted :
  forall (solve : solver) d, solver_ok solve -> (4 <= d)%nat ->
  exists th P dt A B M S obs g e,
    wf96 d A B M S obs /\ symm d P /\ posdef d P /\
    (forall k, (k < length A)%nat -> E_mvn d (gv M k) (gm S k)
       (fun x => 1 / 2 * Rsum d (fun j => P j j * (f96 d th x j - glin d (gm A k) (gv B k) x j) ^ 2)) (g k)) /\
    (forall k, (k < length A)%nat -> exists L, is_root d L (gm S k)) /\
    l96_energy (K:=RNum) solve d th P dt A B M S obs = Ok e /\ n_sde e <> trap (length A) g dt.
Proof. intros solve d Hs Hd. exact (gauss_wrong solve Hs d Hd). Qed.
Print Assumptions C50_gaussian_refuted.
(** a solver as assumed exists *)
Example C50_solver_exists : exists solve : solver, solver_ok solve.
Proof. exact solver_exists. Qed.
Example C50_input_exists : wf96 4 [ident; ident] [vz; vz] [vz; vz] [ident; ident] (Some [1%nat]).
Proof. exact wf_ident. Qed.
Example C50_instance :
  forall (solve : solver), solver_ok solve -> exists e,
  l96_energy (K:=RNum) solve 4 (fun _ => 8) (dg (fun _ => 2)) 1 [ident; ident] [vz; vz] [vz; vz] [ident; ident] None = Ok e /\
  n_dth e 2%nat = 16.
Proof. exact inst96. Qed.

(** ** C51 *)
(** What dEsde_dm and dEsde_ds are: weighted averages over the points (Bi is the inverse of the
    covariance at grid point k, h the misfit of a point) ... *)
Theorem C51_score_partial :
  forall (solve : solver) d th P dt A B M S obs e k L Bi, solver_ok solve -> wf96 d A B M S obs ->
  l96_energy (K:=RNum) solve d th P dt A B M S obs = Ok e -> (k < length A)%nat ->
  scaled_root d (gm S k) L -> is_prod d Bi (gm S k) ident ->
  let h := hring d th P (gm A k) (gv B k) (gv M k) L in
  let z := fun r i => Rsum d (fun a => Bi i a * (sig_pt d (gv M k) L r a - gv M k a)) in
  (forall i, (i < d)%nat -> nth k (n_dm e) vz i = uavg d (fun r => h r * z r i)) /\
  (forall i j, (i < d)%nat -> (j < d)%nat -> nth k (n_ds e) mz i j =
     1 / 2 * (uavg d (fun r => h r * (z r i * z r j)) - uavg d h * Bi i j)).
Proof. exact l96_score. Qed.
Print Assumptions C51_score_partial.
(** ... that is, in the coordinates of the root: central differences of the misfit along its
    columns for the mean, and a diagonal matrix for the covariance. *)
Theorem C51_dm_columns_partial :
  forall (solve : solver) d th P dt A B M S obs e k L c, solver_ok solve -> wf96 d A B M S obs ->
  l96_energy (K:=RNum) solve d th P dt A B M S obs = Ok e -> (k < length A)%nat ->
  scaled_root d (gm S k) L -> (c < d)%nat ->
  let h := hring d th P (gm A k) (gv B k) (gv M k) L in
  Rsum d (fun i => L i c * nth k (n_dm e) vz i) = (h (1 + c)%nat - h (1 + d + c)%nat) / 2.
Proof. exact l96_dm_cols. Qed.
Print Assumptions C51_dm_columns_partial.
Theorem C51_ds_columns_partial :
  forall (solve : solver) d th P dt A B M S obs e k L a b, solver_ok solve -> wf96 d A B M S obs ->
  l96_energy (K:=RNum) solve d th P dt A B M S obs = Ok e -> (k < length A)%nat ->
  scaled_root d (gm S k) L -> (a < d)%nat -> (b < d)%nat ->
  let h := hring d th P (gm A k) (gv B k) (gv M k) L in
  Rsum d (fun i => Rsum d (fun j => L i a * nth k (n_ds e) mz i j * L j b)) =
  if Nat.eqb a b then 41 / 40 * INR d * ((h (1 + a)%nat + h (1 + d + a)%nat) / 2 - uavg d h) else 0.
Proof. exact l96_ds_cols. Qed.
Print Assumptions C51_ds_columns_partial.
(** Finding: they are not the derivatives of the returned Esde. *)
Theorem C51_dm_refuted :
  forall (solve : solver) d, solver_ok solve -> (4 <= d)%nat ->
  exists th P dt A B M S obs k i e,
    wf96 d A B M S obs /\ symm d P /\ posdef d P /\ (k < length A)%nat /\ (i < d)%nat /\
    l96_energy (K:=RNum) solve d th P dt A B M S obs = Ok e /\
    ~ is_derive (fun t => esde_of (l96_energy (K:=RNum) solve d th P dt A B (lset k (vset i t (gv M k)) M) S obs))
        (gv M k i) (tweight (length A) k dt * nth k (n_dm e) vz i).
Proof. intros solve d Hs Hd. exact (dm_wrong solve Hs d Hd). Qed.
Print Assumptions C51_dm_refuted.
Theorem C51_ds_refuted :
  forall (solve : solver) d, solver_ok solve -> (4 <= d)%nat ->
  exists th P dt A B M S obs k i j e,
    wf96 d A B M S obs /\ symm d P /\ posdef d P /\ (k < length A)%nat /\ (i < d)%nat /\ (j < d)%nat /\
    l96_energy (K:=RNum) solve d th P dt A B M S obs = Ok e /\
    ~ is_derive (fun t => esde_of (l96_energy (K:=RNum) solve d th P dt A B M (lset k (sset i j t (gm S k)) S) obs))
        (gm S k i j) (tweight (length A) k dt * nth k (n_ds e) mz i j).
Proof. intros solve d Hs Hd. exact (ds_wrong solve Hs d Hd). Qed.
Print Assumptions C51_ds_refuted.
