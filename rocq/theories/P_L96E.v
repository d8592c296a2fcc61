(** * Proofs about Lorenz96.energy. *)
From Coq Require Import ZArith List Bool Arith Reals Lra Lia Sorted FunctionalExtensionality.
From Coquelicot Require Import Coquelicot.
From Verif Require Import Num Arr ArrFacts M_LinAlg M_Utils M_Sde1 M_L63 M_L96 M_L96E Spec_Utils Spec_L96 Spec_L96E
  Spec_GaussN P_Trapz P_LinAlg P_Utils P_Ut P_L96 P_RMat P_Det.
Import ListNotations.
Local Open Scope R_scope.

(** ** the root *)
Definition rootf (d : nat) (S : nat -> nat -> R) : nat -> nat -> R :=
  match cholesky (K:=RNum) d (mscale (K:=RNum) (41 / 20 * INR d) S) with Ok L => L | Err _ => fun _ _ => 0 end.

Lemma scale_sym d (S : Rmat) c : symm d S -> msym d (mscale (K:=RNum) c S).
Proof. intros Hs i j Hi Hj. unfold mscale. rewrite Hs by assumption. reflexivity. Qed.
Lemma scale_posdef d (S : Rmat) c : 0 < c -> posdef d S <-> posdef d (mscale (K:=RNum) c S).
Proof.
  intros Hc. rewrite !posdef_qf.
  assert (E : forall v, qf d (mscale (K:=RNum) c S) v = c * qf d S v).
  { intros v. unfold qf. rewrite <- sumn_scal. apply sumn_ext; intros i Hi. rewrite <- sumn_scal.
    apply sumn_ext; intros j Hj. unfold mscale. rring. }
  split; intros H v Hv; specialize (H v Hv).
  - rewrite E. apply Rmult_lt_0_compat; assumption.
  - rewrite E in H. nra.
Qed.
Lemma d_pos d : (0 < d)%nat -> 0 < 41 / 20 * INR d.
Proof. intros H. apply lt_0_INR in H. lra. Qed.

Lemma rootf_chol d S : (0 < d)%nat -> symm d S -> posdef d S ->
  cholesky (K:=RNum) d (mscale (K:=RNum) (41 / 20 * INR d) S) = Ok (rootf d S).
Proof.
  intros Hd Hs Hp. destruct (chol_succeeds d _ (scale_sym d S _ Hs) (proj1 (scale_posdef d S _ (d_pos d Hd)) Hp)) as [L HL].
  unfold rootf. rewrite HL. reflexivity.
Qed.
Lemma rootf_ok d S : (0 < d)%nat -> symm d S -> posdef d S -> scaled_root d S (rootf d S).
Proof.
  intros Hd Hs Hp. pose proof (rootf_chol d S Hd Hs Hp) as H.
  apply chol_fact_sym in H as [Ht HL]; [|apply scale_sym, Hs]. split.
  - split; [exact (proj1 Ht)|exact (proj2 Ht)].
  - intros i j Hi Hj. exact (HL i j Hi Hj).
Qed.
Lemma root_of_scaled d S L : scaled_root d S L -> root_of d S L.
Proof. intros [_ H] i j Hi Hj. exact (H i j Hi Hj). Qed.

Lemma sig_pts d m L r i : pts d m L r i = sig_pt d m L r i.
Proof.
  unfold pts, ut_chi, mtr, sig_pt. destruct r as [|r]; [reflexivity|]. cbn [Nat.eqb].
  replace (S r - 1)%nat with r by lia.
  destruct (Nat.leb_spec (S r) d); destruct (Nat.ltb_spec r d); try lia; reflexivity.
Qed.
Lemma pts_fun d m L : pts d m L = sig_pt d m L.
Proof. do 2 (apply functional_extensionality; intros). apply sig_pts. Qed.
Lemma wt_sig d r : wt d r = sig_w d r.
Proof. destruct r; reflexivity. Qed.

Lemma ut_sig d (m : Rvec) (S : Rmat) fn : (0 < d)%nat -> symm d S -> posdef d S ->
  exists y c, ut_approx (K:=RNum) fn d m S = Ok (y, c) /\
    forall j, y j = uavg d (fun r => fn (sig_pt d m (rootf d S)) r j).
Proof.
  intros Hd Hs Hp. unfold ut_approx, ut_root. rewrite scale_eq.
  change (nmul (n:=RNum)) with Rmult. rewrite rootf_chol by assumption. cbn [bind].
  eexists; eexists. split; [reflexivity|]. intros j.
  change (ut_chi d m (mtr (rootf d S))) with (pts d m (rootf d S)). rewrite pts_fun.
  rewrite ut_mean_out by assumption. apply sumn_ext. intros r Hr. rewrite wt_sig. reflexivity.
Qed.

(** ** the batch of states is one ring *)
Lemma batch_ring N d (x : nat -> nat -> R) u r j : (r < N)%nat -> (j < d)%nat ->
  l96_batch (K:=RNum) N d x u r j = ring_drift N d u x r j.
Proof.
  intros Hr Hj. unfold l96_batch, ring_drift, f96, roll2, flat.
  assert (Hp : (r * d + j < N * d)%nat) by nia.
  rewrite roll_fwd, roll_bwd1, roll_bwd2 by exact Hp.
  rewrite (div_row d r j Hj), (mod_row d r j Hj). reflexivity.
Qed.
Lemma sq_res_misfit N d u (x A : nat -> nat -> R) b r j : (r < N)%nat -> (j < d)%nat ->
  sq_res (K:=RNum) N d u x A b r j = misfit d A b (ring_drift N d u x) x r j ^ 2.
Proof.
  intros Hr Hj. unfold sq_res, misfit. rewrite batch_ring by assumption.
  unfold mmul, mtr. cbn [npow]. rnum.
  assert (E : rsum d (fun k => x r k * A j k) = Rsum d (fun k => A j k * x r k)).
  { apply sumn_ext. intros; rring. }
  rewrite E. rring.
Qed.

(** ** inverses *)
Ltac toR := change (@sumn RNum) with Rsum in *.
Lemma ident_sum d (g : nat -> R) i : (i < d)%nat -> Rsum d (fun k => ident i k * g k) = g i.
Proof.
  intros Hi. rewrite (Rsum_single d (fun k => ident i k * g k) i Hi).
  - unfold ident. rewrite Nat.eqb_refl. ring.
  - intros k _ Hk. unfold ident. destruct (Nat.eqb_spec i k); [lia|ring].
Qed.
Lemma ident_sum_r d (g : nat -> R) j : (j < d)%nat -> Rsum d (fun k => g k * ident k j) = g j.
Proof.
  intros Hi. rewrite (Rsum_single d (fun k => g k * ident k j) j Hi).
  - unfold ident. rewrite Nat.eqb_refl. ring.
  - intros k _ Hk. unfold ident. destruct (Nat.eqb_spec k j); [lia|ring].
Qed.
Lemma inv_apply d (S B : nat -> nat -> R) (x b : nat -> R) : is_prod d B S ident ->
  (forall i, (i < d)%nat -> Rsum d (fun k => S i k * x k) = b i) ->
  forall i, (i < d)%nat -> x i = Rsum d (fun k => B i k * b k).
Proof.
  intros HB Hx i Hi. rewrite <- (ident_sum d x i Hi).
  transitivity (Rsum d (fun k => Rsum d (fun l => B i l * S l k * x k))).
  - apply Rsum_ext; intros k Hk. rewrite <- (HB i k Hi Hk), Rsum_scal_r. reflexivity.
  - rewrite Rsum_swap. apply Rsum_ext. intros l Hl. rewrite <- (Hx l Hl), <- Rsum_scal.
    apply Rsum_ext; intros; ring.
Qed.
Lemma inv_unique d (S B C : nat -> nat -> R) : is_prod d B S ident -> is_prod d S C ident ->
  forall i j, (i < d)%nat -> (j < d)%nat -> C i j = B i j.
Proof.
  intros HB HC i j Hi Hj.
  rewrite (inv_apply d S B (fun k => C k j) (fun k => ident k j) HB (fun i Hi => HC i j Hi Hj) i Hi).
  apply ident_sum_r, Hj.
Qed.
Lemma chol_inv_ok d (S : nat -> nat -> R) : symm d S -> posdef d S ->
  exists y c, chol_inv_fast (K:=RNum) d S = Ok (y, c) /\ is_prod d S y ident /\ is_prod d y S ident /\ symm d y.
Proof.
  intros Hs Hp. destruct (chol_succeeds d S Hs Hp) as [L HL].
  destruct (chol_inv_fast (K:=RNum) d S) as [[y c]|e] eqn:E.
  - destruct (chol_inv_fast_spec d S y c Hs E) as (L' & _ & _ & _ & _ & _ & _ & H1 & H2 & H3).
    exists y, c. split; [reflexivity|]. rewrite !ident_eye.
    split; [apply is_prod_mmul, H1|]. split; [apply is_prod_mmul, H2|exact H3].
  - unfold chol_inv_fast in E. rewrite HL in E. discriminate.
Qed.

(** ** one time point *)
Lemma uavg_ext d f g : (forall r, (r < 2 * d + 1)%nat -> f r = g r) -> uavg d f = uavg d g.
Proof. intros H. apply Rsum_ext. intros r Hr. rewrite H by exact Hr. reflexivity. Qed.
Lemma uavg_plus d f g : uavg d (fun r => f r + g r) = uavg d f + uavg d g.
Proof. unfold uavg. rewrite <- Rsum_plus. apply Rsum_ext. intros; ring. Qed.
Lemma uavg_scal d f a : uavg d (fun r => a * f r) = a * uavg d f.
Proof. unfold uavg. rewrite <- Rsum_scal. apply Rsum_ext. intros; ring. Qed.
Lemma uavg_sum d n f : uavg d (fun r => Rsum n (fun k => f k r)) = Rsum n (fun k => uavg d (f k)).
Proof.
  unfold uavg. rewrite Rsum_swap. apply Rsum_ext. intros r Hr. rewrite Rsum_scal. reflexivity.
Qed.

Section Point.
Variable solve : nat -> (nat -> nat -> R) -> result ((nat -> R) -> nat -> R).
Hypothesis Hsol : solver_ok solve.

Definition mpt (d : nat) (u : nat -> R) (A : nat -> nat -> R) (b m : nat -> R) (S : nat -> nat -> R) (r j : nat) : R :=
  let x := sig_pt d m (rootf d S) in misfit d A b (ring_drift (2 * d + 1) d u x) x r j.
Definition hpt (d : nat) (u q : nat -> R) (A : nat -> nat -> R) (b m : nat -> R) (S : nat -> nat -> R) (r : nat) : R :=
  1 / 2 * Rsum d (fun j => q j * mpt d u A b m S r j ^ 2).
Definition zpt (d : nat) (m : nat -> R) (S B : nat -> nat -> R) (r i : nat) : R :=
  Rsum d (fun k => B i k * (sig_pt d m (rootf d S) r k - m k)).

Lemma l96_point_spec d u q A b m S B : (0 < d)%nat -> symm d S -> posdef d S -> is_prod d B S ident ->
  exists pt, l96_point (K:=RNum) solve d u q A b m S = Ok pt /\
    q_e pt = uavg d (hpt d u q A b m S) /\
    q_f pt = E96_drift (K:=RNum) d u m S /\ q_df pt = E96_drift_dx (K:=RNum) d m /\
    (forall i, q_th pt i = E96_drift (K:=RNum) d u m S i + Rsum d (fun k => A i k * m k) - b i) /\
    (forall j, (j < d)%nat -> q_sig pt j = uavg d (fun r => mpt d u A b m S r j ^ 2)) /\
    (forall i, (i < d)%nat -> q_dm pt i = uavg d (fun r => hpt d u q A b m S r * zpt d m S B r i)) /\
    (forall i j, (i < d)%nat -> (j < d)%nat -> q_ds pt i j =
       1 / 2 * (uavg d (fun r => hpt d u q A b m S r * (zpt d m S B r i * zpt d m S B r j))
                - uavg d (hpt d u q A b m S) * B i j)).
Proof.
  intros Hd Hs Hp HB. destruct Hsol as [Hs1 _]. destruct (Hs1 d S Hs Hp) as (sol & Es & Hsl).
  destruct (chol_inv_ok d S Hs Hp) as (y & c & Ec & Hy1 & Hy2 & Hy3).
  pose proof (inv_unique d S B y HB Hy1) as HyB.
  assert (HBs : forall i j, (i < d)%nat -> (j < d)%nat -> B i j = B j i).
  { intros i j Hi Hj. rewrite <- !HyB by assumption. apply Hy3; assumption. }
  assert (Hsb : forall bb i, (i < d)%nat -> sol bb i = Rsum d (fun k => B i k * bb k)).
  { intros bb i Hi. apply (inv_apply d S B (sol bb) bb HB); [|exact Hi]. intros; apply Hsl; assumption. }
  set (x := sig_pt d m (rootf d S)).
  destruct (ut_sig d m S (fun x => sq_res (K:=RNum) (2 * d + 1) d u x A b) Hd Hs Hp) as (mb & c1 & E1 & V1).
  destruct (ut_sig d m S (grad_rows (K:=RNum) (2 * d + 1) d u m A b q sol y) Hd Hs Hp) as (dms & c2 & E2 & V2).
  set (var := fun r => 2 * hpt d u q A b m S r).
  assert (Ev : forall r, (r < 2 * d + 1)%nat -> vdot (K:=RNum) d q (sq_res (K:=RNum) (2 * d + 1) d u x A b r) = var r).
  { intros r Hr. unfold var, hpt. unfold vdot. toR.
    transitivity (Rsum d (fun j => q j * mpt d u A b m S r j ^ 2)); [|rfield].
    apply Rsum_ext. intros j Hj. rewrite sq_res_misfit by assumption. reflexivity. }
  assert (Emb : forall j, (j < d)%nat -> mb j = uavg d (fun r => mpt d u A b m S r j ^ 2)).
  { intros j Hj. rewrite V1. apply uavg_ext. intros r Hr. apply sq_res_misfit; assumption. }
  assert (Ee : nlit (n:=RNum) 1 2 * vdot (K:=RNum) d q mb = uavg d (hpt d u q A b m S)).
  { unfold hpt. rewrite uavg_scal, uavg_sum. unfold vdot. toR. rnum. f_equal. apply Rsum_ext. intros j Hj.
    rewrite uavg_scal, <- Emb by exact Hj. reflexivity. }
  unfold l96_point. unfold mat, vec in *. change (car RNum) with R in *.
  rewrite E1. cbn [bind]. rewrite Es. cbn [bind]. rewrite Ec. cbn [bind]. rewrite E2. cbn [bind].
  eexists. split; [reflexivity|]. cbn [q_e q_f q_df q_th q_sig q_dm q_ds].
  fold x in V1, V2.
  change (nmul (n:=RNum)) with Rmult. rewrite Ee.
  split; [reflexivity|]. split; [reflexivity|]. split; [reflexivity|].
  split; [|split; [exact Emb|split]].
  - intros i. unfold vecm, mtr. rnum. f_equal. f_equal. apply Rsum_ext. intros; ring.
  - intros i Hi. rewrite V2. unfold grad_rows. apply Nat.ltb_lt in Hi as Hi'. rewrite Hi'.
    rewrite Hsb by exact Hi.
    rewrite (uavg_ext d _ (fun r => hpt d u q A b m S r * zpt d m S B r i + Rsum d (fun k => B i k * m k) * hpt d u q A b m S r)).
    { rewrite uavg_plus, uavg_scal. rring. }
    intros r Hr. rewrite Hsb by exact Hi. fold x. rewrite Ev by exact Hr. unfold var, zpt. fold x. rnum.
    set (h := hpt d u q A b m S r).
    rewrite (Rsum_ext d (fun k => B i k * (2 * h * x r k)) (fun k => 2 * h * (B i k * x r k))) by (intros; ring).
    rewrite (Rsum_ext d (fun k => B i k * (x r k - m k)) (fun k => B i k * x r k - B i k * m k)) by (intros; ring).
    rewrite Rsum_scal, Rsum_minus. rfield.
  - intros i j Hi Hj. rewrite V2. unfold grad_rows.
    destruct (Nat.ltb_spec (d + (i * d + j)) d); [lia|].
    replace (d + (i * d + j) - d)%nat with (i * d + j)%nat by lia.
    rewrite (div_row d i j Hj), (mod_row d i j Hj).
    rewrite Hsb by exact Hi. change (meye (K:=RNum)) with ident. rewrite (ident_sum_r d (B i) j Hj).
    rewrite (uavg_ext d _ (fun r => hpt d u q A b m S r * (zpt d m S B r i * zpt d m S B r j))); [rnum; rfield|].
    intros r Hr. rewrite Ev by exact Hr. unfold var.
    change (nmul (n:=RNum)) with Rmult.
    match goal with |- @eq _ (Rmult _ (Rmult _ ?mm)) _ => replace mm with (zpt d m S B r i * zpt d m S B r j); [rnum; rfield|] end.
    unfold mmul. toR. rewrite Rmult_comm. unfold zpt at 1. fold x. rewrite <- Rsum_scal_r.
    apply Rsum_ext. intros k Hk. rewrite Hsb by exact Hi. rewrite HyB by assumption.
    rewrite (HBs j k) by assumption. unfold mouter. rnum. unfold zpt. fold x.
    rewrite (Rsum_ext d (fun k0 => B i k0 * ((x r k0 - m k0) * (x r k - m k)))
       (fun k0 => B i k0 * (x r k0 - m k0) * (x r k - m k))) by (intros; ring).
    rewrite Rsum_scal_r. ring.
Qed.
End Point.
