(** * Quadratic objectives: rate, exit, the sphere function, finite differences *)
From Coq Require Import List Bool Arith ZArith Reals Lra Lia FunctionalExtensionality.
From Verif Require Import Num Arr ArrFacts M_Utils M_Scg Spec_Utils Spec_Scg Spec_Quad P_Det P_RMat P_Spectral P_Utils P_Scg P_ScgPure P_ScgR P_Quad P_Quad2.
Import ListNotations.
Local Open Scope R_scope.

Lemma rate_range l L : 0 < l <= L -> 0 <= quad_rate l L < 1.
Proof.
  intros H. unfold quad_rate. assert (HR : 0 < L / l) by (apply Rdiv_lt_0_compat; lra). set (r := L / l) in *.
  assert (H1 : 1 <= (1 + r) ^ 2) by (cbn [pow]; nra).
  assert (HD : 0 < (L + 1) * (1 + r) ^ 2) by (apply Rmult_lt_0_compat; lra).
  assert (0 < l / ((L + 1) * (1 + r) ^ 2)) by (apply Rdiv_lt_0_compat; lra).
  assert (l / ((L + 1) * (1 + r) ^ 2) <= 1).
  { apply Rmult_le_reg_r with ((L + 1) * (1 + r) ^ 2); [exact HD|].
    replace (l / ((L + 1) * (1 + r) ^ 2) * ((L + 1) * (1 + r) ^ 2)) with l by (field; split; lra). nra. }
  lra.
Qed.
(** the direction of steepest descent *)
Lemma dot_lopp (g : list R) : dot (lopp (K:=RNum) g) (lopp (K:=RNum) g) = dot g g.
Proof. apply ldot_opp_opp. Qed.
Lemma sumsq_dot n x : length x = n -> sumsq n x = dot x x.
Proof. intros H. rewrite (dot_rdot n) by assumption. apply Rsum_ext; intros. unfold vf. ring. Qed.

Section Gen.
Variables (n : nat) (Q : nat -> nat -> R) (b : nat -> R) (c l L : R).
Hypothesis HQ : between n l L Q.
Notation F := (quadratic n Q b c). Notation G := (quad_grad n Q b).
Definition Pgen (d g : list R) : Prop := dot d d <= (1 + L / l) ^ 2 * dot g g.
Definition refgen (v : R) : Prop := exists z, length z = n /\ v = F z.
Lemma gen_P0 : forall x, length x = n -> Pgen (lopp (K:=RNum) (G x)) (G x).
Proof.
  intros x _. unfold Pgen. rewrite dot_lopp. pose proof (Hl n Q l L HQ). pose proof (HL n Q l L HQ).
  assert (0 < L / l) by (apply Rdiv_lt_0_compat; lra). assert (0 <= dot (G x) (G x)) by apply ldot_self.
  assert (1 <= (1 + L / l) ^ 2) by (cbn [pow]; nra). nra.
Qed.
Lemma gen_run {W} f df (Hf : forall x (w : W), length x = n -> fst (f x w) = Ok (F x))
  (Hdf : forall x e (w : W), length x = n -> fst (df x e w) = Ok (G x)) o x0 : length x0 = n -> forall w,
  exists x fx st w', scg_run (K:=RNum) f df o x0 w = (Ok (x, fx), st, w') /\ done n Q b c refgen (quad_rate l L) o x0 (x, fx) st.
Proof.
  intros Lx0 w. apply (run_q n Q b c l L HQ Pgen refgen (quad_rate l L)) with (5 := Hdf); try assumption.
  - exact gen_P0.
  - intros x d be H1 H2 H3 H4 H5 H6 H7 _. exact (s_d n Q b l L HQ x d be H1 H2 H3 H5 H6 H7).
  - intros x d be H1 H2 H3 H4 H5 H6 H7 H8 v (z & _ & ->). exact (s_rate n Q b c l L HQ x d be H1 H2 H3 H5 H6 H7 z H4 H8).
Qed.
Lemma gap x z : F x - F z <= dot (G x) (G x) / (2 * l).
Proof. rewrite !F_qF, dot_GG. apply (F_gap n Q b c l L HQ). Qed.
Lemma dist x z : length x = n -> length z = n -> (forall i, (i < n)%nat -> nth i (G z) 0 = 0) ->
  l / 2 * Rsum n (fun i => (nth i x 0 - nth i z 0) ^ 2) <= F x - F z.
Proof.
  intros Hx Hz H0. rewrite !F_qF. replace (Rsum n (fun i => (nth i x 0 - nth i z 0) ^ 2)) with (rdot n (rvsub (vf x) (vf z)) (rvsub (vf x) (vf z)))
    by (apply Rsum_ext; intros; unfold rvsub, vf; ring).
  apply (F_dist n Q b c l L HQ). intros i Hi. rewrite <- (G_qG n Q b z i Hi). apply H0, Hi.
Qed.
End Gen.

Lemma hist_pow n Q b c (ref : R -> Prop) q o x0 r st v : 0 <= q -> ref v -> hist n Q b c ref q o x0 r st ->
  forall k, (k <= r)%nat -> before n Q b c x0 st k - v <= q ^ k * (quadratic n Q b c x0 - v).
Proof.
  intros Hq Hv (_ & _ & _ & H) k. induction k as [|k IH]; intros Hk.
  - cbn [before pow]. lra.
  - destruct (H k ltac:(lia)) as (_ & H2 & _). specialize (H2 v Hv). specialize (IH ltac:(lia)).
    eapply Rle_trans; [exact H2|]. rewrite <- tech_pow_Rmult, Rmult_assoc. apply Rmult_le_compat_l; assumption.
Qed.

(** ** every positive definite matrix has bounds *)
Lemma posdef_between n Q : symm n Q -> posdef n Q -> exists l L, between n l L Q.
Proof.
  intros Hs Hp. destruct (pd_coercive n Q Hs Hp) as (l & Pl & H).
  exists l, (Rmax l (Rsum n (fun i => Rsum n (fun j => Rabs (Q i j))))). split; [exact Hs|]. split; [split; [exact Pl|apply Rmax_l]|].
  intros v. replace (Rsum n (fun i => v i ^ 2)) with (rdot n v v) by (apply Rsum_ext; intros; ring). rewrite <- rdot_rmv. split; [apply H|].
  eapply Rle_trans; [apply qf_bound|]. apply Rmult_le_compat_r; [apply rdot_self_nonneg|apply Rmax_r].
Qed.

(** ** finite differences *)
Lemma vf_move i t : forall x, (i < length x)%nat -> vf (move i t x) = vax (vf x) t (fun k => ident k i).
Proof.
  induction i as [|i IH]; intros [|a x] H; cbn [length] in H; try lia; apply functional_extensionality; intros k; unfold vax, ident.
  - destruct k; cbn; ring.
  - destruct k as [|k]; [cbn; ring|]. exact (f_equal (fun h => h k) (IH x ltac:(lia))).
Qed.
Lemma rdot_unit n u i : (i < n)%nat -> rdot n (fun k => ident k i) u = u i.
Proof.
  intros Hi. unfold rdot. rewrite (Rsum_single n _ i Hi).
  - unfold ident. rewrite Nat.eqb_refl. ring.
  - intros j Hj Hne. unfold ident. destruct (Nat.eqb_spec j i); [contradiction|ring].
Qed.
Lemma fd_quadratic n Q b c l L (x : list R) : between n l L Q -> length x = n -> n <> 1%nat ->
  fst (finite_diff (K:=RNum) (quadratic n Q b c) (Ve x)) = Ve (quad_grad n Q b x).
Proof.
  intros HQ Lx Hn. destruct (finite_diff_spec (quadratic n Q b c) x) as (g & Lg & -> & Hg). cbn [fst].
  destruct (Nat.eqb_spec (length x) 1) as [E|E]; [exfalso; apply Hn; rewrite <- Lx; exact E|]. apply (f_equal (@Ve RNum)).
  change (g = quad_grad n Q b x).
  apply nth_ext with (d := 0) (d' := 0); [rewrite len_grad; etransitivity; [exact Lg|exact Lx]|]. intros i Hi. change (i < @length R g)%nat in Hi. rewrite Lg in Hi. change (nth i g 0 = vf (quad_grad n Q b x) i).
  rewrite Hg by exact Hi. rewrite G_qG by lia.
  apply (cdiff_quadratic (quadratic n Q b c) x i (quadratic n Q b c x) _ (/ 2 * rdot n (fun k => ident k i) (rmv n Q (fun k => ident k i)))).
  intros t. rewrite !F_qF, vf_move by exact Hi. rewrite (F_ax n Q b c l L HQ), (rdot_unit n (qG n Q b (vf x)) i) by lia. field.
Qed.

(** ** the sphere function *)
Section Sphere.
Variable n : nat.
Definition Qs (i j : nat) : R := 2 * ident i j.
Notation F := (quadratic n Qs (fun _ => 0) 0). Notation G := (quad_grad n Qs (fun _ => 0)).
Lemma rmv_Qs v i : (i < n)%nat -> rmv n Qs v i = 2 * v i.
Proof.
  intros Hi. unfold rmv. rewrite (Rsum_single n _ i Hi).
  - unfold Qs, ident. rewrite Nat.eqb_refl. ring.
  - intros j Hj Hne. unfold Qs, ident. destruct (Nat.eqb_spec i j); [congruence|ring].
Qed.
Lemma dot_Qs u v : rdot n u (rmv n Qs v) = 2 * rdot n u v.
Proof. unfold rdot. rewrite <- Rsum_scal. apply Rsum_ext. intros i Hi. rewrite (rmv_Qs v i Hi). ring. Qed.
Lemma Qs_between : between n 2 2 Qs.
Proof.
  split; [|split; [lra|]].
  - intros i j _ _. unfold Qs, ident. rewrite Nat.eqb_sym. reflexivity.
  - intros v. rewrite <- rdot_rmv, dot_Qs. replace (Rsum n (fun i => v i ^ 2)) with (rdot n v v) by (apply Rsum_ext; intros; ring). lra.
Qed.
Lemma sphere_F x : F x = sumsq n x.
Proof.
  rewrite F_qF. unfold qF. rewrite dot_Qs. replace (rdot n (fun _ => 0) (vf x)) with 0 by (symmetry; apply Rsum_z; intros; ring).
  unfold sumsq, rdot. rewrite (Rsum_ext n (fun i => nth i x 0 ^ 2) (fun k => vf x k * vf x k)) by (intros; unfold vf; ring). field.
Qed.
Lemma sphere_G x i : (i < n)%nat -> vf (G x) i = 2 * vf x i.
Proof. intros Hi. rewrite (G_qG n Qs (fun _ => 0) x i Hi). unfold qG. rewrite (rmv_Qs _ i Hi). ring. Qed.
Definition Psph (d g : list R) : Prop := exists k, 0 < k /\ forall i, (i < n)%nat -> vf d i = - k * vf g i.
Section Step.
Variables (x d : list R) (be k : R).
Hypothesis Lx : length x = n. Hypothesis Ld : length d = n. Hypothesis Hbe : 0 < be. Hypothesis Hk : 0 < k.
Hypothesis Hg : 0 < dot (G x) (G x). Hypothesis Hd : forall i, (i < n)%nat -> vf d i = - k * vf (G x) i.
Lemma sph_alpha : alpha_of n Qs (fun _ => 0) x d be = / ((2 + be) * k).
Proof.
  unfold alpha_of, theta_of. rewrite dot_Qs.
  assert (E1 : dot d (G x) = - k * dot (G x) (G x)).
  { rewrite !(dot_rdot n) by (try apply len_grad; assumption). unfold rdot. rewrite <- Rsum_scal. apply Rsum_ext. intros i Hi. rewrite Hd by exact Hi. ring. }
  assert (E2 : dot d d = k * k * dot (G x) (G x)).
  { rewrite !(dot_rdot n) by (try apply len_grad; assumption). unfold rdot. rewrite <- Rsum_scal. apply Rsum_ext. intros i Hi. rewrite Hd by exact Hi. ring. }
  rewrite <- (dot_rdot n d d Ld Ld), E1, E2. set (gg := dot (G x) (G x)) in *.
  replace (2 * (k * k * gg) + be * (k * k * gg)) with ((2 + be) * k * (k * gg)) by ring. field. repeat split; lra.
Qed.
Lemma sph_next i : (i < n)%nat -> vf (next_x n Qs (fun _ => 0) x d be) i = be / (2 + be) * vf x i.
Proof.
  intros Hi. rewrite (vf_next n Qs (fun _ => 0) x d be Lx Ld), sph_alpha. unfold vax. rewrite Hd, sphere_G by exact Hi. field. lra.
Qed.
Lemma sph_rate : be <= 1 -> F (next_x n Qs (fun _ => 0) x d be) - 0 <= / 9 * (F x - 0).
Proof.
  intros Hb. rewrite !sphere_F, !Rminus_0_r. unfold sumsq. rewrite <- Rsum_scal. apply Rsum_le. intros i Hi.
  pose proof (sph_next i Hi) as E. unfold vf in E. rewrite E.
  assert (0 <= be / (2 + be)) by (apply Rlt_le, Rdiv_lt_0_compat; lra).
  assert (be / (2 + be) <= / 3).
  { apply Rmult_le_reg_r with (2 + be); [lra|]. replace (be / (2 + be) * (2 + be)) with be by (field; lra). lra. }
  rewrite Rpow_mult_distr. apply Rmult_le_compat_r; [apply pow2_ge_0|]. replace (/ 9) with ((/ 3) ^ 2) by field. apply pow_incr. lra.
Qed.
Lemma sph_P : Psph (next_d n Qs (fun _ => 0) x d be) (G (next_x n Qs (fun _ => 0) x d be)).
Proof.
  set (ga := gamma_of n Qs (fun _ => 0) x d be). assert (Hga : 0 <= ga) by apply Rmax_r.
  set (r := be / (2 + be)). assert (Hr : 0 < r) by (apply Rdiv_lt_0_compat; lra).
  exists ((ga * k + r) / r). split; [apply Rdiv_lt_0_compat; [|exact Hr]; assert (0 <= ga * k) by (apply Rmult_le_pos; lra); lra|].
  intros i Hi. unfold next_d. fold ga. rewrite vf_lsub by (rewrite len_grad, len_lscale; lia). unfold rvsub. rewrite vf_lscale.
  rewrite (Hd i Hi), !(sphere_G _ i Hi), (sph_next i Hi). fold r. field. lra.
Qed.
End Step.
Lemma sphere_run {W} f df (Hf : forall x (w : W), length x = n -> fst (f x w) = Ok (F x))
  (Hdf : forall x e (w : W), length x = n -> fst (df x e w) = Ok (G x)) o x0 : length x0 = n -> forall w,
  exists x fx st w', scg_run (K:=RNum) f df o x0 w = (Ok (x, fx), st, w') /\
    done n Qs (fun _ => 0) 0 (fun v => v = 0) (/ 9) o x0 (x, fx) st.
Proof.
  intros Lx0 w. apply (run_q n Qs (fun _ => 0) 0 2 2 Qs_between Psph (fun v => v = 0) (/ 9)) with (5 := Hdf); try assumption.
  - intros x Hx. exists 1. split; [lra|]. intros i Hi. rewrite vf_lopp. ring.
  - intros x d be H1 H2 H3 H4 H5 H6 H7 (k & K1 & K2). exact (sph_P x d be k H1 H2 H3 K1 H7 K2).
  - intros x d be H1 H2 H3 H4 H5 H6 H7 (k & K1 & K2) v ->. exact (sph_rate x d be k H1 H2 H3 K1 H7 K2 H4).
Qed.
End Sphere.

(** ** the objective and the gradient of test_scg.py *)
Lemma sphere_sumsq x : sphere x = sumsq (length x) x.
Proof. unfold sphere, sumsq. induction x as [|a x IH]; [reflexivity|]. cbn [map fold_right length]. rewrite IH, Rsum_shift. reflexivity. Qed.
Lemma sphere_move i t : forall x, (i < length x)%nat -> sphere (move i t x) = sphere x + 2 * nth i x 0 * t + 1 * t ^ 2.
Proof.
  induction i as [|i IH]; intros [|a x] H; cbn [length] in H; try lia; unfold sphere in *; cbn [move map fold_right nth].
  - ring.
  - rewrite IH by lia. ring.
Qed.
Lemma sphere_fd (x : list R) : length x <> 1%nat ->
  fst (finite_diff (K:=RNum) sphere (Ve x)) = Ve (quad_grad (length x) Qs (fun _ => 0) x).
Proof.
  intros Hn. destruct (finite_diff_spec sphere x) as (g & Lg & -> & Hg). cbn [fst].
  destruct (Nat.eqb_spec (length x) 1) as [E|E]; [contradiction|]. apply (f_equal (@Ve RNum)).
  change (g = quad_grad (length x) Qs (fun _ => 0) x).
  apply nth_ext with (d := 0) (d' := 0); [rewrite len_grad; exact Lg|]. intros i Hi. rewrite Lg in Hi.
  change (nth i g 0 = vf (quad_grad (length x) Qs (fun _ => 0) x) i). rewrite Hg by exact Hi. rewrite sphere_G by exact Hi.
  apply (cdiff_quadratic sphere x i (sphere x) _ 1). intros t. apply sphere_move. exact Hi.
Qed.
Lemma pow9 : (/ 9) ^ 150 * 10 ^ 130 <= / 10 ^ 9.
Proof.
  rewrite <- Rinv_pow by lra.
  assert (H : 10 ^ 139 <= 9 ^ 150).
  { rewrite !pow_IZR. apply IZR_le. vm_compute. discriminate. }
  assert (P9 : 0 < 9 ^ 150) by (apply pow_lt; lra). assert (P10 : 0 < 10 ^ 9) by (apply pow_lt; lra).
  apply Rmult_le_reg_l with (9 ^ 150); [exact P9|]. apply Rmult_le_reg_r with (10 ^ 9); [exact P10|].
  replace (9 ^ 150 * (/ 9 ^ 150 * 10 ^ 130) * 10 ^ 9) with (10 ^ 130 * 10 ^ 9) by (field; apply Rgt_not_eq; exact P9).
  replace (9 ^ 150 * / 10 ^ 9 * 10 ^ 9) with (9 ^ 150) by (field; apply Rgt_not_eq; exact P10).
  rewrite <- pow_add. exact H.
Qed.
