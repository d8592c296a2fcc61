(** * Observation operators: the likelihood with a vector as operator *)
From Coq Require Import Reals Lra Lia Arith Bool List.
From Verif Require Import Num Arr ArrFacts M_LinAlg M_Like Spec_Utils Spec_Det Spec_GaussN Spec_Prior Spec_L63 Spec_Like P_Trapz P_LinAlg P_Det P_Utils P_L63 P_RMat P_Prior P_Like.
Import ListNotations.
Local Open Scope R_scope.

Lemma like_nd_vec_loop_val d (g : nat -> R) (s : list (nat -> nat -> R)) (Z : list R) : forall n (e : R), (n + length Z <= length s)%nat ->
  like_nd_vec_loop (K:=RNum) d g s n Z e =
  Ok (e + Rsum (length Z) (fun j => nth j Z 0 * nth j Z 0 + Rsum d (fun i => g i * nth (n + j) s zmat i i))).
Proof.
  induction Z as [|z Z IH]; intros n e H; cbn [like_nd_vec_loop length] in *.
  - rnum. f_equal. cbn. ring.
  - change (car RNum) with R in *. rewrite (nth_error_nth' s zmat) by lia. rewrite (IH (Datatypes.S n)) by lia. f_equal. rewrite Rsum_shift. cbn [nth].
    rewrite (Rsum_ext (length Z) _ (fun j => nth j Z 0 * nth j Z 0 +
                                      Rsum d (fun i => g i * nth (n + Datatypes.S j) s zmat i i))).
    + rewrite Nat.add_0_r. rewrite (vdot_R d g). unfold diagv. rnum. ring.
    + intros j Hj. rewrite Nat.add_succ_r. reflexivity.
Qed.

Section Vec.
Variables (d : nat) (y : list (nat -> R)) (t : list nat) (Rn : nat -> nat -> R) (H : nat -> R)
          (m : list (nat -> R)) (s : list (nat -> nat -> R)).
Hypothesis Hrs : symm d Rn.
Hypothesis Hrp : posdef d Rn.
Hypothesis Hy : length y = length t.
Hypothesis Hms : length s = length m.
Hypothesis Ht : List.Forall (fun i => (i < length m)%nat) t.
Hypothesis Hn : NoDup t.
(** one number for each observation *)
Definition along (j : nat) : R := Rsum d (fun i => (nth j y zvec i - nth (nth j t O) m zvec i) * H i).

Let W : list R := map2 (A:=nat -> R) (B:=nat -> R) (C:=R) (fun y x => vdot (K:=RNum) d (vsubv (K:=RNum) y x) H) y (map (fun i => nth i m zvec) t).
Lemma W_len : length W = length t.
Proof. unfold W. rewrite map2_length, map_length, Hy. apply Nat.min_id. Qed.
Lemma W_val j : (j < length t)%nat -> nth j W 0 = along j.
Proof.
  intros Hj. unfold W. rewrite (nth_map2 _ _ _ j zvec zvec) by (rewrite ?map_length; lia).
  rewrite (nth_map_lt _ t j O) by lia. unfold along. rewrite vdot_R. reflexivity.
Qed.
Lemma vec_fails : length t <> d -> like_nd_vec (K:=RNum) ln PI d y t Rn H m s = Err ValueError.
Proof.
  intros Hne. destruct (chol_inv_fast_ok d Rn Hrs Hrp) as (Ri & c & Ef & _).
  unfold like_nd_vec, vec, mat. change (car RNum) with R. rewrite (take_ok m t zvec Ht). cbn [bind].
  unfold same_len. rewrite map_length, Hy, Nat.eqb_refl. cbn [bind]. rewrite Ef. cbn [bind].
  pose proof W_len as L. unfold W in L. change (car RNum) with R in L.
  match goal with |- context [Nat.eqb ?a d] => replace a with (length t) by (symmetry; exact L) end.
  destruct (Nat.eqb_spec (length t) d); [contradiction|reflexivity].
Qed.
(** the value with as many observations as components *)
Lemma vec_val : length t = d -> exists Ri, is_inv d Rn Ri /\
  like_nd_vec (K:=RNum) ln PI d y t Rn H m s =
  Ok (1 / 2 * (quad d Ri along + Rsum d (fun j => Rsum d (fun i => Ri i i * nth j s zmat i i))
        + INR d * (INR d * ln (2 * PI) + ln (detR d Rn)))).
Proof.
  intros Hd. destruct (chol_inv_matrix d Rn Hrs) as [HH _].
  destruct (HH Hrp) as (Ri & c & L & E & H1 & H2 & Hsy & Hcc & _). clear HH.
  cbn [chol_inv] in E. rewrite Nat.eqb_refl in E.
  destruct (chol_inv_fast d Rn) as [[Ri' c']|e] eqn:Ef; [|discriminate]. cbn [bind] in E.
  assert (Ri' = Ri) by congruence. assert (c' = c) by congruence. subst Ri' c'.
  exists Ri. split; [split; assumption|].
  assert (Hlm : (d <= length m)%nat) by (rewrite <- Hd; apply nodup_range; assumption).
  unfold like_nd_vec, vec, mat. change (car RNum) with R in *. rewrite (take_ok m t zvec Ht). cbn [bind].
  unfold same_len. rewrite map_length, Hy, Nat.eqb_refl. cbn [bind]. rewrite Ef. cbn [bind].
  pose proof W_len as WL. unfold W in WL. change (car RNum) with R in WL.
  match goal with |- context [Nat.eqb ?a d] => replace a with d by (rewrite <- Hd at 1; symmetry; exact WL) end.
  rewrite Nat.eqb_refl. cbn [bind].
  rewrite like_nd_vec_loop_val by (rewrite map_length, seq_length; cbn; lia). cbn [bind].
  assert (Hld : log_det_mat (K:=RNum) ln d Rn = Ok (ln (detR d Rn))).
  { destruct (log_det_matrix d Rn Hrs) as [Q _]. specialize (Q Hrp). unfold log_det in Q. rewrite Nat.eqb_refl in Q. exact Q. }
  rewrite Hld. cbn [bind]. f_equal. unfold log2pi. rewrite map_length, seq_length. rnum. rewrite <- !INR_IZR_INZ.
  rewrite Hd.
  f_equal. f_equal. rewrite Rplus_0_l, Rsum_plus. f_equal.
  transitivity (quad d (mmul (K:=RNum) d (mtr c) c) (fun i => nth i W 0)).
  - rewrite <- quad_gram, vdot_R. apply Rsum_ext. intros j Hj.
    rewrite (nth_map_lt _ (seq 0 d) j O) by (rewrite seq_length; exact Hj). rewrite seq_nth by exact Hj. reflexivity.
  - apply quad_ext.
    + intros a b Ha Hb. rewrite <- (Hcc a b Ha Hb). apply mmul_R.
    + intros a Ha. apply W_val. lia.
Qed.
Lemma vec_grad : exists Ri gm gs sh, is_inv d Rn Ri /\
  like_grad_nd_vec (K:=RNum) d y t Rn H m = Ok (gm, gs, sh) /\ length gm = length m /\ length gs = length m /\
  forall j, (j < length t)%nat ->
    (forall i, (i < d)%nat -> nth (nth j t O) gm zvec i = - (Rsum d (fun k => H k * Ri k i) * along j)) /\
    (forall i k, nth (nth j t O) gs zmat i k = 1 / 2 * quad d Ri H).
Proof.
  destruct (chol_inv_fast_ok d Rn Hrs Hrp) as (Ri & c & Ef & HRi & HRis & _).
  exists Ri. unfold like_grad_nd_vec, vec, mat. change (car RNum) with R. rewrite (take_ok m t zvec Ht). cbn [bind].
  unfold same_len. rewrite map_length, Hy, Nat.eqb_refl. cbn [bind]. rewrite Ef. cbn [bind].
  eexists. eexists. eexists. split; [exact HRi|]. split; [reflexivity|].
  rewrite !scatter_length, !repeat_length. do 2 (split; [reflexivity|]).
  intros j Hj. assert (Hjm : (nth j t O < length m)%nat) by (rewrite Forall_forall in Ht; apply Ht, nth_In, Hj).
  rewrite !scatter_in by (rewrite ?repeat_length, ?map_length, ?map2_length, ?map_length, ?Hy, ?Nat.min_id; auto).
  split.
  - intros i Hi. fold W. rewrite (nth_map_lt _ _ j 0) by (rewrite W_len; exact Hj).
    pose proof (W_val j Hj) as Q. unfold W in Q. change (- (vecm (K:=RNum) d H Ri i * nth j W 0) = - (Rsum d (fun k => H k * Ri k i) * along j)).
    unfold W. rewrite Q, vecm_R. reflexivity.
  - intros i k. rewrite (nth_map_lt _ t j O) by lia. rnum. f_equal. rewrite vdot_R. unfold quad.
    transitivity (Rsum d (fun a => Rsum d (fun b => H b * Ri b a * H a))).
    + apply Rsum_ext. intros a Ha. rewrite vecm_R, <- Rsum_scal_r. reflexivity.
    + rewrite Rsum_swap. reflexivity.
Qed.
End Vec.

Lemma Rsum_zero n (f : nat -> R) : (forall i, (i < n)%nat -> f i = 0) -> Rsum n f = 0.
Proof. intros H. rewrite (Rsum_ext n f (fun _ => 0) H). induction n as [|n IH]; cbn; [reflexivity|]. rewrite IH; [ring|]. intros i Hi. apply H. lia. Qed.
Lemma nth_repeat_lt {A} (a z : A) n i : (i < n)%nat -> nth i (repeat a n) z = a.
Proof. revert i. induction n as [|n IH]; intros i Hi; [lia|]. destruct i; cbn; [reflexivity|]. apply IH. lia. Qed.
(** every component observed: the residuals are added up before they are squared *)
Lemma mask_witness d (H : nat -> R) : (2 <= d)%nat -> (forall i, (i < d)%nat -> H i = 1) -> exists (y : list (nat -> R)) t (Rn : nat -> nat -> R) m s v1 v2, symm d Rn /\ posdef d Rn /\ length y = d /\ length m = d /\ length s = d /\
  like_nd (K:=RNum) ln PI d y t Rn meye m s = Ok v1 /\ like_nd_vec (K:=RNum) ln PI d y t Rn H m s = Ok v2 /\ v1 = v2 + INR d.
Proof.
  intros Hd HH. set (e := fun i : nat => match i with O => 1 | 1%nat => - (1) | _ => 0 end : R).
  exists (repeat e d), (seq 0 d), ident, (repeat zvec d), (repeat zmat d).
  assert (Hy : length (repeat e d) = length (seq 0 d)) by (rewrite repeat_length, seq_length; reflexivity).
  assert (Hs : length (repeat zmat d) = length (repeat zvec d)) by (rewrite !repeat_length; reflexivity).
  assert (Ht : List.Forall (fun i => (i < length (repeat zvec d))%nat) (seq 0 d)).
  { rewrite Forall_forall, repeat_length. intros i Hi. apply in_seq in Hi. lia. }
  destruct (like_nd_val d (repeat e d) (seq 0 d) ident (repeat zvec d) (repeat zmat d) (ident_symm d) (ident_posdef d) Hy Hs Ht (seq_NoDup d 0))
    as (Ri & [HR1 HR2] & E1).
  destruct (vec_val d (repeat e d) (seq 0 d) ident H (repeat zvec d) (repeat zmat d) (ident_symm d) (ident_posdef d) Hy Hs Ht (seq_NoDup d 0)
    (seq_length d 0)) as (Ri2 & [HS1 HS2] & E2).
  eexists _, _. split; [apply ident_symm|]. split; [apply ident_posdef|]. rewrite !repeat_length. do 3 (split; [reflexivity|]).
  split; [exact E1|]. split; [exact E2|].
  assert (HR : forall i j, (i < d)%nat -> (j < d)%nat -> Ri i j = ident i j).
  { destruct (ident_inv d) as [I1 I2]. apply (inv_unique d ident Ri ident HR2 I1). }
  assert (HS : forall i j, (i < d)%nat -> (j < d)%nat -> Ri2 i j = ident i j).
  { destruct (ident_inv d) as [I1 I2]. apply (inv_unique d ident Ri2 ident HS2 I1). }
  assert (Zm : forall j, nth j (repeat zmat d) zmat = zmat) by (intros j; apply nth_repeat).
  assert (Zv : forall j, nth j (repeat zvec d) zvec = zvec) by (intros j; apply nth_repeat).
  assert (Q0 : quad d Ri2 (along d (repeat e d) (seq 0 d) H (repeat zvec d)) = 0).
  { apply Rsum_zero. intros a Ha. apply Rsum_zero. intros b Hb. unfold along at 1.
    assert (Z : Rsum d (fun i => (nth a (repeat e d) zvec i - nth (nth a (seq 0 d) 0%nat) (repeat zvec d) zvec i) * H i) = 0).
    { rewrite (Rsum_ext d _ e). 2:{ intros i Hi. rewrite (nth_repeat_lt) by lia. rewrite Zv, HH by exact Hi. unfold zvec. ring. }
      destruct d as [|[|d']]; [lia|lia|]. rewrite !Rsum_shift. rewrite (Rsum_ext d' _ (fun _ => 0)) by reflexivity.
      rewrite Rsum_const. cbn. ring. }
    rewrite Z. ring. }
  assert (T1 : forall j, (j < d)%nat -> nth (nth j (seq 0 d) 0%nat) (repeat zmat d) zmat = zmat) by (intros; apply Zm).
  assert (Qe : quad d ident e = 2).
  { unfold quad. rewrite (Rsum_ext d _ (fun i => e i * e i)).
    - destruct d as [|[|d']]; [lia|lia|]. rewrite !Rsum_shift. rewrite (Rsum_zero d') by (intros; cbn; ring). cbn. ring.
    - intros i Hi. rewrite (Rsum_single d _ i Hi).
      + unfold ident. rewrite Nat.eqb_refl. ring.
      + intros j _ Hne. unfold ident. destruct (Nat.eqb_spec i j); [congruence|ring]. }
  set (c := INR d * ln (2 * PI) + ln (detR d ident)) in *.
  rewrite Q0. rewrite (Rsum_zero d (fun j => Rsum d (fun i => Ri2 i i * nth j (repeat zmat d) zmat i i)))
    by (intros j _; apply Rsum_zero; intros i _; rewrite Zm; unfold zmat; ring).
  rewrite seq_length. rewrite (Rsum_ext d _ (fun _ => 1 + 1 / 2 * c)).
  - rewrite Rsum_const. lra.
  - intros j Hj. rewrite T1 by exact Hj. unfold nterm. fold c.
    rewrite (quad_ext d Ri ident _ e) by first [exact HR|intros i Hi; rewrite nth_repeat_lt by exact Hj; rewrite Zv; unfold zvec; ring].
    rewrite Qe. rewrite (Rsum_zero d) by (intros i _; rewrite Zm; unfold zmat; ring).
    unfold frob. rewrite (Rsum_zero d) by (intros i _; apply Rsum_zero; intros k _; unfold zmat; ring). lra.
Qed.
