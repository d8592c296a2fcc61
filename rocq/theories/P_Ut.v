(** * Proofs about the unscented transform. *)
From Coq Require Import ZArith List Bool Arith Reals Lra Lia.
From Verif Require Import Num Arr ArrFacts M_LinAlg M_Utils Spec_Utils P_Trapz P_LinAlg P_Utils.
Import ListNotations.
Local Open Scope R_scope.

(** weights, with n = d + k = (41/20) d *)
Definition W0 : R := 21 / 41.
Definition W1 (d : nat) : R := 10 / (41 * INR d).
Definition wt (d r : nat) : R := if Nat.eqb r 0 then W0 else W1 d.

Lemma INR_pos d : (0 < d)%nat -> 0 < INR d.
Proof. intros; apply lt_0_INR; assumption. Qed.

Lemma scale_eq d : @nadd RNum (nZ (Z.of_nat d)) (ut_k d) = 41 / 20 * INR d.
Proof. unfold ut_k; rnum. rewrite <- INR_IZR_INZ. rfield. Qed.

Lemma ut_weight_eq d r : (0 < d)%nat -> ut_weight (K:=RNum) d r = wt d r.
Proof.
  intros Hd. pose proof (INR_pos d Hd). unfold ut_weight, wt. rewrite scale_eq.
  destruct (Nat.eqb r 0); unfold ut_k, W0, W1; rnum; rewrite <- ?INR_IZR_INZ; rfield; lra.
Qed.

(** sums over the 2 d + 1 points *)
Lemma sum_points d (f : nat -> R) :
  rsum (2 * d + 1) f =
  f 0%nat + rsum d (fun i => f (1 + i)%nat) + rsum d (fun i => f (1 + d + i)%nat).
Proof.
  replace (2 * d + 1)%nat with (S (d + d)) by lia. rewrite sumn_shift, sumn_split. 
  rewrite <- Rplus_assoc. reflexivity.
Qed.

Definition pts (d : nat) (m : Rvec) (L : Rmat) : nat -> nat -> R := ut_chi (K:=RNum) d m (mtr L).
Lemma pts_0 d m L c : pts d m L 0 c = m c.
Proof. reflexivity. Qed.
Lemma pts_p d m L i c : (i < d)%nat -> pts d m L (1 + i) c = m c + L c i.
Proof.
  intros Hi. unfold pts, ut_chi. cbn [Nat.eqb Nat.add]. destruct (Nat.leb_spec (S i) d); [|lia].
  unfold mtr. replace (S i - 1)%nat with i by lia. reflexivity.
Qed.
Lemma pts_m d m L i c : (i < d)%nat -> pts d m L (1 + d + i) c = m c - L c i.
Proof.
  intros Hi. unfold pts, ut_chi. cbn [Nat.eqb Nat.add]. destruct (Nat.leb_spec (S (d + i)) d); [lia|].
  unfold mtr. replace (S (d + i) - 1 - d)%nat with i by lia. reflexivity.
Qed.

Lemma wt_0 d : wt d 0 = W0. Proof. reflexivity. Qed.
Lemma wt_S d i : wt d (1 + i) = W1 d. Proof. reflexivity. Qed.

(** weighted sums of values of the form y_0, u_i + v_i, u_i - v_i *)
Lemma wsum d (f : nat -> R) :
  rsum (2 * d + 1) (fun r => wt d r * f r) =
  W0 * f 0%nat + W1 d * rsum d (fun i => f (1 + i)%nat + f (1 + d + i)%nat).
Proof.
  rewrite sum_points. cbn [Nat.add]. rewrite wt_0.
  rewrite (sumn_ext d (fun i => wt d (S i) * f (S i)) (fun i => W1 d * f (S i))) by reflexivity.
  rewrite (sumn_ext d (fun i => wt d (S (d + i)) * f (S (d + i))) (fun i => W1 d * f (S (d + i)))) by reflexivity.
  rewrite !sumn_scal, sumn_plus. rring.
Qed.

Lemma weights_sum d : (0 < d)%nat -> Rsum (2 * d + 1) (wt d) = 1.
Proof.
  intros Hd. pose proof (INR_pos d Hd). rewrite Rsum_rsum.
  rewrite (sumn_ext _ _ (fun r => wt d r * 1)) by (intros; rring).
  rewrite wsum, sumn_const. unfold W0, W1. rfield. lra.
Qed.

Lemma pts_affine_mean d (m : Rvec) (L : Rmat) (b : nat -> R) c0 : (0 < d)%nat ->
  rsum (2 * d + 1) (fun r => wt d r * (rsum d (fun l => b l * pts d m L r l) + c0)) =
  rsum d (fun l => b l * m l) + c0.
Proof.
  intros Hd. pose proof (INR_pos d Hd).
  set (F := fun r => rsum d (fun l => b l * pts d m L r l) + c0).
  change (rsum (2 * d + 1) (fun r => wt d r * F r) = rsum d (fun l => b l * m l) + c0). rewrite (wsum d F).
  rewrite (sumn_ext d (fun i => F (1 + i)%nat + F (1 + d + i)%nat) (fun _ => 2 * (rsum d (fun l => b l * m l) + c0))).
  2:{ intros i Hi. unfold F.
      rewrite (sumn_ext d (fun l => b l * pts d m L (1 + i) l) (fun l => b l * m l + b l * L l i))
        by (intros; rewrite pts_p by assumption; rring).
      rewrite (sumn_ext d (fun l => b l * pts d m L (1 + d + i) l) (fun l => b l * m l - b l * L l i))
        by (intros; rewrite pts_m by assumption; rring).
      rewrite sumn_plus, sumn_minus. rring. }
  rewrite sumn_const. unfold F.
  change (rsum d (fun l => b l * pts d m L 0 l)) with (rsum d (fun l => b l * m l)).
  unfold W0, W1. rfield. lra.
Qed.

Lemma pts_mean d (m : Rvec) (L : Rmat) c : (0 < d)%nat ->
  wmean (2 * d + 1) (wt d) (pts d m L) c = m c.
Proof.
  intros Hd. pose proof (INR_pos d Hd). unfold wmean. rewrite Rsum_rsum, wsum.
  rewrite (sumn_ext d _ (fun _ => 2 * m c)).
  2:{ intros i Hi. rewrite pts_p, pts_m by assumption. rring. }
  rewrite sumn_const, pts_0. unfold W0, W1. rfield. lra.
Qed.

Definition root_of (d : nat) (S L : Rmat) : Prop :=
  forall i j, (i < d)%nat -> (j < d)%nat -> rsum d (fun k => L i k * L j k) = 41 / 20 * INR d * S i j.

Lemma pts_cov d (m : Rvec) (S L : Rmat) i j : (0 < d)%nat -> root_of d S L ->
  (i < d)%nat -> (j < d)%nat -> wcov (2 * d + 1) (wt d) (pts d m L) i j = S i j.
Proof.
  intros Hd HL Hi Hj. pose proof (INR_pos d Hd). unfold wcov. rewrite Rsum_rsum.
  rewrite (sumn_ext _ _ (fun r => wt d r * ((pts d m L r i - m i) * (pts d m L r j - m j)))).
  2:{ intros r Hr. rewrite !pts_mean by assumption. rring. }
  rewrite wsum.
  rewrite (sumn_ext d _ (fun k => 2 * (L i k * L j k))).
  2:{ intros k Hk. rewrite !pts_p, !pts_m by assumption. rring. }
  rewrite sumn_scal, HL, !pts_0 by assumption. unfold W0, W1. rfield. lra.
Qed.

(** quadratic maps *)
Lemma pts_quad d (m : Rvec) (S L : Rmat) (q : nat -> nat -> R) : (0 < d)%nat -> root_of d S L ->
  rsum (2 * d + 1) (fun r => wt d r * rsum d (fun l => rsum d (fun k => q l k * (pts d m L r l * pts d m L r k)))) =
  rsum d (fun l => rsum d (fun k => q l k * (S l k + m l * m k))).
Proof.
  intros Hd HL. pose proof (INR_pos d Hd).
  transitivity (rsum d (fun l => rsum d (fun k => q l k *
     rsum (2 * d + 1) (fun r => wt d r * (pts d m L r l * pts d m L r k))))).
  - transitivity (rsum (2 * d + 1) (fun r => rsum d (fun l => rsum d (fun k => q l k * (wt d r * (pts d m L r l * pts d m L r k)))))).
    + apply sumn_ext; intros r Hr. rewrite <- sumn_scal. apply sumn_ext; intros l Hl.
      rewrite <- sumn_scal. apply sumn_ext; intros; rring.
    + rewrite sumn_swap. apply sumn_ext; intros l Hl. rewrite sumn_swap. apply sumn_ext; intros k Hk.
      rewrite sumn_scal. reflexivity.
  - apply sumn_ext; intros l Hl. apply sumn_ext; intros k Hk. f_equal.
    rewrite wsum. rewrite (sumn_ext d _ (fun i => 2 * (L l i * L k i) + 2 * (m l * m k))).
    2:{ intros i Hi. rewrite !pts_p, !pts_m by assumption. rring. }
    rewrite sumn_plus, sumn_scal, sumn_const, HL, !pts_0 by assumption.
    unfold W0, W1. rfield. lra.
Qed.

(** ** the two outputs for arbitrary functions *)
Lemma ut_ok d (x_bar : Rvec) (x_cov : Rmat) : (0 < d)%nat -> symm d x_cov -> posdef d x_cov ->
  exists L, root_of d x_cov L /\
    forall fn, ut_approx (K:=RNum) fn d x_bar x_cov =
      Ok (vecm (2 * d + 1) (ut_weight d) (fn (pts d x_bar L)),
          mmul (2 * d + 1) (mmul (2 * d + 1) (mtr (fn (pts d x_bar L))) (ut_Q d)) (fn (pts d x_bar L))).
Proof.
  intros Hd Hs Hp. pose proof (INR_pos d Hd).
  assert (Hs' : msym d (mscale (K:=RNum) (41 / 20 * INR d) x_cov)).
  { intros i j Hi Hj. unfold mscale. rewrite Hs by assumption. reflexivity. }
  assert (Hp' : posdef d (mscale (K:=RNum) (41 / 20 * INR d) x_cov)).
  { apply posdef_qf. intros v Hv. apply posdef_qf in Hp. specialize (Hp v Hv).
    replace (qf d (mscale (K:=RNum) (41 / 20 * INR d) x_cov) v) with (41 / 20 * INR d * qf d x_cov v).
    - apply Rmult_lt_0_compat; [lra|exact Hp].
    - unfold qf. rewrite <- sumn_scal. apply sumn_ext; intros i Hi. rewrite <- sumn_scal.
      apply sumn_ext; intros j Hj. unfold mscale. rring. }
  destruct (chol_succeeds _ _ Hs' Hp') as [L HL].
  exists L. split.
  - apply chol_fact_sym in HL as [_ HL]; [|exact Hs'].
    intros i j Hi Hj. exact (HL i j Hi Hj).
  - intros fn. unfold ut_approx, ut_root. rewrite scale_eq, HL. reflexivity.
Qed.

Lemma ut_mean_out d (y : Rmat) j : (0 < d)%nat ->
  vecm (2 * d + 1) (ut_weight d) y j = rsum (2 * d + 1) (fun r => wt d r * y r j).
Proof. intros Hd. unfold vecm. apply sumn_ext; intros. rewrite ut_weight_eq by assumption. reflexivity. Qed.

Definition ysum (d : nat) (y : Rmat) (j : nat) : R := rsum (2 * d + 1) (fun r => y r j).

Lemma ut_cov_out d (y : Rmat) i j : (0 < d)%nat ->
  mmul (2 * d + 1) (mmul (2 * d + 1) (mtr y) (ut_Q d)) y i j =
  rsum (2 * d + 1) (fun r => wt d r * ((y r i - wt d r * ysum d y i) * (y r j - wt d r * ysum d y j))).
Proof.
  intros Hd. set (N := (2 * d + 1)%nat).
  set (Wm := ut_wm (K:=RNum) d). set (D := mdiag (K:=RNum) (ut_weight d)).
  assert (HP : forall c r, (r < N)%nat -> mmul N (mtr y) Wm c r = y r c - wt d r * ysum d y c).
  { intros c r Hr. unfold mmul, mtr, Wm, ut_wm; rnum.
    rewrite (sumn_ext N _ (fun k => y k c * meye (K:=RNum) k r - wt d r * y k c)).
    2:{ intros k Hk. rewrite ut_weight_eq by assumption. rring. }
    rewrite sumn_minus, sumn_scal. unfold ysum. fold N. f_equal.
    rewrite (sumn_single N _ r Hr).
    - unfold meye. rewrite Nat.eqb_refl. rring.
    - intros k Hk Hne. unfold meye. destruct (Nat.eqb_spec k r); [lia|rring]. }
  assert (HD : forall (A : Rmat) a r, (r < N)%nat -> mmul N A D a r = A a r * wt d r).
  { intros A a r Hr. unfold mmul, D, mdiag; rnum. rewrite (sumn_single N _ r Hr).
    - rewrite Nat.eqb_refl, ut_weight_eq by assumption. reflexivity.
    - intros k Hk Hne. destruct (Nat.eqb_spec k r); [lia|rring]. }
  change (ut_Q d) with (mmul N (mmul N Wm D) (mtr Wm)).
  transitivity (mmul N (mmul N (mmul N (mtr y) (mmul N Wm D)) (mtr Wm)) y i j).
  { unfold mmul at 1 4. apply sumn_ext; intros k Hk. f_equal. apply mmul_assoc. }
  rewrite <- mmul_assoc. unfold mmul at 1. apply sumn_ext; intros r Hr.
  rewrite mmul_assoc, HD, HP by assumption.
  assert (Hq : mmul N (mtr Wm) y r j = mmul N (mtr y) Wm j r).
  { unfold mmul, mtr. apply sumn_ext; intros; rring. }
  rewrite Hq, HP by assumption. rring.
Qed.

(** ** affine maps: the covariance that comes out *)
Definition kappa (d : nat) : R :=
  W0 * (1 - (2 * INR d + 1) * W0) ^ 2 + 2 * INR d * W1 d * (1 - (2 * INR d + 1) * W1 d) ^ 2.

Lemma kappa_pos d : (0 < d)%nat -> 0 < kappa d.
Proof.
  intros Hd. pose proof (INR_pos d Hd). unfold kappa.
  assert (H1 : 1 <= INR d) by (change 1 with (INR 1); apply le_INR; lia).
  assert (0 < (1 - (2 * INR d + 1) * W0) ^ 2).
  { assert (Hlt : 1 - (2 * INR d + 1) * W0 < 0) by (unfold W0; lra). nra. }
  assert (0 < W0) by (unfold W0; lra).
  assert (0 < W1 d) by (unfold W1; apply Rdiv_lt_0_compat; lra).
  assert (0 <= (1 - (2 * INR d + 1) * W1 d) ^ 2) by (apply pow2_ge_0).
  assert (0 < W0 * (1 - (2 * INR d + 1) * W0) ^ 2) by (apply Rmult_lt_0_compat; assumption).
  assert (0 <= 2 * INR d * W1 d * (1 - (2 * INR d + 1) * W1 d) ^ 2).
  { apply Rmult_le_pos; [|assumption]. apply Rmult_le_pos; lra. }
  lra.
Qed.

Lemma affine_rsum d B c x i : affine d B c x i = rsum d (fun l => B i l * x l) + c i.
Proof. unfold affine. rewrite Rsum_rsum. reflexivity. Qed.

Lemma sandwich_rsum d (B S : nat -> nat -> R) i j :
  sandwich d B S i j = rsum d (fun l => rsum d (fun k => B i l * S l k * B j k)).
Proof. unfold sandwich. rewrite Rsum_rsum. apply sumn_ext; intros. apply Rsum_rsum. Qed.

Lemma ut_affine_cov d (m : Rvec) (S L : Rmat) (B : nat -> nat -> R) (c : nat -> R) (y : Rmat) i j :
  (0 < d)%nat -> root_of d S L ->
  (forall r k, y r k = affine d B c (pts d m L r) k) ->
  mmul (2 * d + 1) (mmul (2 * d + 1) (mtr y) (ut_Q d)) y i j =
  sandwich d B S i j + kappa d * (affine d B c m i * affine d B c m j).
Proof.
  intros Hd HL Hy. pose proof (INR_pos d Hd). rewrite ut_cov_out by assumption.
  set (BL := fun k l => rsum d (fun a => B k a * L a l)).
  assert (Y0 : forall k, y 0%nat k = affine d B c m k).
  { intros k. rewrite Hy. reflexivity. }
  assert (Yp : forall l k, (l < d)%nat -> y (1 + l)%nat k = affine d B c m k + BL k l).
  { intros l k Hl. rewrite Hy, !affine_rsum. unfold BL.
    rewrite (sumn_ext d _ (fun a => B k a * m a + B k a * L a l)) by (intros; rewrite pts_p by assumption; rring).
    rewrite sumn_plus. rring. }
  assert (Ym : forall l k, (l < d)%nat -> y (1 + d + l)%nat k = affine d B c m k - BL k l).
  { intros l k Hl. rewrite Hy, !affine_rsum. unfold BL.
    rewrite (sumn_ext d _ (fun a => B k a * m a - B k a * L a l)) by (intros; rewrite pts_m by assumption; rring).
    rewrite sumn_minus. rring. }
  assert (Ys : forall k, ysum d y k = (2 * INR d + 1) * affine d B c m k).
  { intros k. unfold ysum. rewrite sum_points.
    rewrite (sumn_ext d (fun i => y (1 + i)%nat k) (fun l => affine d B c m k + BL k l)) by (intros; apply Yp; assumption).
    rewrite (sumn_ext d (fun i => y (1 + d + i)%nat k) (fun l => affine d B c m k - BL k l)) by (intros; apply Ym; assumption).
    rewrite sumn_plus, sumn_minus, sumn_const, Y0. rring. }
  rewrite !Ys.
  rewrite wsum.
  change (wt d 0) with W0. rewrite Y0, Y0.
  set (ai := affine d B c m i). set (aj := affine d B c m j). set (N := 2 * INR d + 1).
  rewrite (sumn_ext d _ (fun l => 2 * (BL i l * BL j l) + 2 * ((1 - N * W1 d) ^ 2 * (ai * aj)))).
  2:{ intros l Hl. change (wt d (1 + l)) with (W1 d). change (wt d (1 + d + l)) with (W1 d).
      rewrite !Yp, !Ym by assumption. fold ai aj. rring. }
  rewrite sumn_plus, sumn_scal, sumn_const.
  assert (HB : rsum d (fun l => BL i l * BL j l) = 41 / 20 * INR d * sandwich d B S i j).
  { rewrite sandwich_rsum. unfold BL.
    transitivity (rsum d (fun l => rsum d (fun a => rsum d (fun b => B i a * B j b * (L a l * L b l))))).
    - apply sumn_ext; intros l Hl. rewrite <- sumn_scal_r. apply sumn_ext; intros a Ha.
      rewrite <- sumn_scal. apply sumn_ext; intros; rring.
    - rewrite sumn_swap. rewrite <- sumn_scal. apply sumn_ext; intros a Ha.
      rewrite sumn_swap. rewrite <- sumn_scal. apply sumn_ext; intros b Hb.
      rewrite sumn_scal, HL by assumption. rring. }
  rewrite HB. unfold kappa. fold N. unfold W0, W1. rfield. lra.
Qed.

(** ** assembled *)
Lemma ut_points d (x_bar : nat -> R) (x_cov : nat -> nat -> R) :
  (0 < d)%nat -> symm d x_cov -> posdef d x_cov ->
  exists (w : nat -> R) (p : nat -> nat -> R),
    Rsum (2 * d + 1) w = 1 /\
    (forall i, (i < d)%nat -> wmean (2 * d + 1) w p i = x_bar i) /\
    (forall i j, (i < d)%nat -> (j < d)%nat -> wcov (2 * d + 1) w p i j = x_cov i j) /\
    forall fn : (nat -> nat -> R) -> nat -> nat -> R, exists y_bar y_cov,
      ut_approx (K:=RNum) fn d x_bar x_cov = Ok (y_bar, y_cov) /\
      forall j, y_bar j = wmean (2 * d + 1) w (fn p) j.
Proof.
  intros Hd Hs Hp. destruct (ut_ok d x_bar x_cov Hd Hs Hp) as (L & HL & Hut).
  exists (wt d), (pts d x_bar L). split; [apply weights_sum, Hd|].
  split; [intros; apply pts_mean, Hd|].
  split; [intros; apply (pts_cov d x_bar x_cov L); assumption|].
  intros fn. eexists; eexists. split; [apply Hut|].
  intros j. rewrite ut_mean_out by assumption. unfold wmean. symmetry. apply Rsum_rsum.
Qed.

Lemma ut_affine d (x_bar : nat -> R) (x_cov : nat -> nat -> R) B c (fn : (nat -> nat -> R) -> nat -> nat -> R) :
  (0 < d)%nat -> symm d x_cov -> posdef d x_cov ->
  (forall p r k, fn p r k = affine d B c (p r) k) ->
  exists y_bar y_cov : _,
    ut_approx (K:=RNum) fn d x_bar x_cov = Ok (y_bar, y_cov) /\
    (forall k, y_bar k = affine d B c x_bar k) /\
    (forall i j, y_cov i j = sandwich d B x_cov i j + kappa d * (affine d B c x_bar i * affine d B c x_bar j)).
Proof.
  intros Hd Hs Hp Hfn. destruct (ut_ok d x_bar x_cov Hd Hs Hp) as (L & HL & Hut).
  eexists; eexists. split; [apply Hut|]. split.
  - intros k. rewrite ut_mean_out by assumption.
    rewrite (sumn_ext _ _ (fun r => wt d r * (rsum d (fun l => B k l * pts d x_bar L r l) + c k))).
    2:{ intros r Hr. rewrite Hfn, affine_rsum. reflexivity. }
    rewrite pts_affine_mean by assumption. rewrite affine_rsum. reflexivity.
  - intros i j. apply (ut_affine_cov d x_bar x_cov L); auto.
Qed.

Lemma ut_quadratic d (x_bar : nat -> R) (x_cov : nat -> nat -> R) q B c (fn : (nat -> nat -> R) -> nat -> nat -> R) :
  (0 < d)%nat -> symm d x_cov -> posdef d x_cov ->
  (forall p r k, fn p r k = quadr d q B c (p r) k) ->
  exists y_bar y_cov,
    ut_approx (K:=RNum) fn d x_bar x_cov = Ok (y_bar, y_cov) /\
    (forall k, y_bar k = quadr_mean d q B c x_bar x_cov k).
Proof.
  intros Hd Hs Hp Hfn. destruct (ut_ok d x_bar x_cov Hd Hs Hp) as (L & HL & Hut).
  eexists; eexists. split; [apply Hut|].
  intros k. rewrite ut_mean_out by assumption. unfold quadr_mean.
  rewrite (sumn_ext _ _ (fun r => wt d r * rsum d (fun l => rsum d (fun a => q k l a * (pts d x_bar L r l * pts d x_bar L r a)))
       + wt d r * (rsum d (fun l => B k l * pts d x_bar L r l) + c k))).
  2:{ intros r Hr. rewrite Hfn. unfold quadr. rewrite affine_rsum, Rsum_rsum.
      rewrite (sumn_ext d (fun l => Rsum d _) (fun l => rsum d (fun a => q k l a * (pts d x_bar L r l * pts d x_bar L r a))))
        by (intros; apply Rsum_rsum). rring. }
  rewrite sumn_plus, pts_affine_mean, (pts_quad d x_bar x_cov L) by assumption.
  rewrite affine_rsum. reflexivity.
Qed.

(** witness: the identity map in dimension 1 at mean 1, variance 1 *)
Lemma ut_cov_wrong :
  exists (d : nat) (x_bar : nat -> R) (x_cov : nat -> nat -> R) B c fn y_bar y_cov,
    (0 < d)%nat /\ symm d x_cov /\ posdef d x_cov /\
    (forall (p : nat -> nat -> R) r k, fn p r k = affine d B c (p r) k) /\
    ut_approx (K:=RNum) fn d x_bar x_cov = Ok (y_bar, y_cov) /\
    y_cov 0%nat 0%nat <> sandwich d B x_cov 0%nat 0%nat.
Proof.
  set (B := fun i j : nat => 1). set (c := fun i : nat => 0).
  set (fn := fun (p : nat -> nat -> R) r k => affine 1 B c (p r) k).
  assert (Hs : symm 1 B) by (intros i j _ _; reflexivity).
  assert (Hp : posdef 1 B).
  { intros v (i & Hi & Hv). assert (i = 0)%nat by lia. subst i. cbn. unfold B.
    assert (0 < v 0%nat * v 0%nat) by nra. lra. }
  destruct (ut_affine 1 (fun _ => 1) B B c fn ltac:(lia) Hs Hp ltac:(reflexivity))
    as (yb & yc & H & _ & Hc).
  exists 1%nat, (fun _ => 1), B, B, c, fn, yb, yc.
  split; [lia|]. split; [exact Hs|]. split; [exact Hp|]. split; [reflexivity|]. split; [exact H|].
  rewrite Hc. pose proof (kappa_pos 1 ltac:(lia)) as Hk.
  assert (Ha : affine 1 B c (fun _ => 1) 0 = 1) by (unfold affine, B, c; cbn; lra).
  rewrite Ha. lra.
Qed.
