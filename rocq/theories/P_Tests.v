(** * The assertions of the shipped unit tests in exact arithmetic. *)
From Coq Require Import Reals List Arith ZArith Lra Lia SpecFloat.
From Verif Require Import Num Arr ArrFacts M_LinAlg M_Utils M_Moments Spec_Utils Spec_Det Spec_Tests P_RMat P_Det P_Utils P_LinAlg P_Trapz P_Check.
Import ListNotations.
Local Open Scope R_scope.

(** ** Small angles *)
Lemma sin_small t : 0 <= t <= 1 -> t - t ^ 3 / 6 <= sin t <= t.
Proof.
  intros [H0 H1]. destruct (pre_sin_bound t 0 H0) as [L _]; [lra|].
  split.
  - refine (Rle_trans _ _ _ _ L). unfold sin_approx, sin_term. cbn [sum_f_R0 Nat.mul Nat.add fact pow]. cbn [INR]. simpl. lra.
  - destruct H0 as [H0| <-]; [apply Rlt_le, sin_lt_x, H0|rewrite sin_0; lra].
Qed.
Lemma abs_sin t : Rabs (sin t) <= Rabs t.
Proof.
  assert (P : forall t, 0 <= t -> Rabs (sin t) <= t).
  { intros u [Hu| <-]; [|rewrite sin_0, Rabs_R0; lra]. destruct (Rle_dec u 1) as [H1|H1].
    - destruct (sin_small u) as [A B]; [lra|]. rewrite Rabs_right; [exact B|]. apply Rle_ge. refine (Rle_trans _ _ _ _ A).
      assert (u ^ 3 <= u) by (replace u with (u * 1) at 2 by ring; replace (u ^ 3) with (u * (u * u)) by ring; apply Rmult_le_compat_l; [lra|nra]). lra.
    - destruct (SIN_bound u). apply Rle_trans with 1; [apply Rabs_le; lra|lra]. }
  destruct (Rle_dec 0 t) as [H|H]; [rewrite (Rabs_right t) by lra; apply P, H|].
  rewrite (Rabs_left t) by lra. rewrite <- (Rabs_Ropp (sin t)), <- sin_neg. apply P. lra.
Qed.
Lemma cos_lip x y : Rabs (cos x - cos y) <= Rabs (x - y).
Proof.
  rewrite form2. rewrite !Rabs_mult. replace (Rabs (-2)) with 2 by (rewrite Rabs_left; lra).
  pose proof (abs_sin ((x - y) / 2)) as A. pose proof (SIN_bound ((x + y) / 2)) as B.
  assert (B' : Rabs (sin ((x + y) / 2)) <= 1) by (apply Rabs_le; lra).
  unfold Rdiv in A at 2. rewrite Rabs_mult, (Rabs_right (/ 2)) in A by lra.
  pose proof (Rabs_pos (sin ((x - y) / 2))). pose proof (Rabs_pos (sin ((x + y) / 2))). nra.
Qed.
(** sin(c h)/h is close to c *)
Lemma sinc_near c h : 0 < h -> 0 <= c * h <= 1 -> Rabs (sin (c * h) / h - c) <= c ^ 3 * h ^ 2 / 6.
Proof.
  intros Hh Hc. destruct (sin_small (c * h) Hc) as [A B].
  assert (E : sin (c * h) / h - c = (sin (c * h) - c * h) / h) by (field; lra). rewrite E.
  unfold Rdiv. rewrite Rabs_mult, (Rabs_right (/ h)) by (apply Rle_ge, Rlt_le, Rinv_0_lt_compat, Hh).
  apply (Rmult_le_reg_r h); [exact Hh|]. rewrite Rmult_assoc, Rinv_l, Rmult_1_r by lra.
  rewrite Rabs_left1 by lra. replace (c ^ 3 * h ^ 2 * / 6 * h) with ((c * h) ^ 3 / 6) by field. lra.
Qed.
Definition hh : R := / 10 ^ 6.
Lemma hh_val : hh = 1 / 1000000. Proof. unfold hh. field. Qed.

(** ** test_finite_diff *)
Lemma sin_diff a b : sin (a + b) - sin (a - b) = 2 * (cos a * sin b).
Proof. rewrite sin_plus, sin_minus. ring. Qed.
Lemma fd_cos : (cos (0 + hh) - cos (0 + - hh)) / (2 * hh) = 0.
Proof. rewrite !Rplus_0_l, cos_neg. unfold Rdiv. ring. Qed.
Lemma fd_exp : close ((exp (0 + hh) - exp (0 + - hh)) / (2 * hh)) 1.
Proof.
  rewrite !Rplus_0_l. unfold close. rewrite (Rabs_right 1) by lra.
  pose proof (exp_ineq1_le hh) as A. pose proof (exp_ineq1_le (- hh)) as B.
  assert (P : exp hh * exp (- hh) = 1) by (rewrite <- exp_plus, Rplus_opp_r; apply exp_0).
  rewrite hh_val in *. set (u := exp (1 / 1000000)) in *. set (v := exp (- (1 / 1000000))) in *.
  assert (U : u <= 1000001 / 1000000 + / 10 ^ 11) by nra.
  assert (V : v <= 999999 / 1000000 + / 10 ^ 11) by nra.
  apply Rabs_le. lra.
Qed.
Lemma fd_sin5 : close ((sin (5 * (1 + hh)) - sin (5 * (1 + - hh))) / (2 * hh)) (5 * cos (5 * 1)).
Proof.
  replace (5 * (1 + hh)) with (5 * 1 + 5 * hh) by ring. replace (5 * (1 + - hh)) with (5 * 1 - 5 * hh) by ring.
  rewrite sin_diff. unfold close.
  replace (2 * (cos (5 * 1) * sin (5 * hh)) / (2 * hh) - 5 * cos (5 * 1)) with (cos (5 * 1) * (sin (5 * hh) / hh - 5))
    by (field; rewrite hh_val; lra).
  rewrite Rabs_mult. pose proof (sinc_near 5 hh) as S. rewrite hh_val in S. specialize (S ltac:(lra) ltac:(lra)). rewrite <- hh_val in S.
  pose proof (COS_bound (5 * 1)). assert (Rabs (cos (5 * 1)) <= 1) by (apply Rabs_le; lra).
  pose proof (Rabs_pos (cos (5 * 1))). pose proof (Rabs_pos (sin (5 * hh) / hh - 5)). pose proof (Rabs_pos (5 * cos (5 * 1))).
  assert (5 ^ 3 * hh ^ 2 / 6 <= / 10 ^ 8) by (rewrite hh_val; lra). nra.
Qed.
Lemma fd_sq c a h T : 0 < h -> 0 <= c -> 0 <= a -> 0 <= 2 * c * a * h <= 1 -> (2 * c * a) ^ 3 * h ^ 2 / 6 + 2 * c * a * (c * h ^ 2) <= T ->
  Rabs ((sin (c * (a + h) ^ 2) - sin (c * (a + - h) ^ 2)) / (2 * h) - cos (c * a ^ 2) * (2 * c * a)) <= T.
Proof.
  intros Hh Hc Ha Hs HT.
  replace (c * (a + h) ^ 2) with ((c * a ^ 2 + c * h ^ 2) + (2 * c * a) * h) by ring.
  replace (c * (a + - h) ^ 2) with ((c * a ^ 2 + c * h ^ 2) - (2 * c * a) * h) by ring.
  rewrite sin_diff. set (p := c * a ^ 2). set (q := 2 * c * a) in *.
  replace (2 * (cos (p + c * h ^ 2) * sin (q * h)) / (2 * h) - cos p * q)
    with (cos (p + c * h ^ 2) * (sin (q * h) / h - q) + (cos (p + c * h ^ 2) - cos p) * q) by (field; lra).
  eapply Rle_trans; [apply Rabs_triang|]. rewrite !Rabs_mult.
  pose proof (sinc_near q h Hh Hs) as S. pose proof (cos_lip (p + c * h ^ 2) p) as L.
  replace (p + c * h ^ 2 - p) with (c * h ^ 2) in L by ring.
  assert (Hq : 0 <= q) by (unfold q; nra). assert (Hh2 : 0 <= h ^ 2) by apply pow2_ge_0.
  rewrite (Rabs_right (c * h ^ 2)) in L by (apply Rle_ge; nra). rewrite (Rabs_right q) by lra.
  pose proof (COS_bound (p + c * h ^ 2)). assert (Rabs (cos (p + c * h ^ 2)) <= 1) by (apply Rabs_le; lra).
  pose proof (Rabs_pos (cos (p + c * h ^ 2))). pose proof (Rabs_pos (sin (q * h) / h - q)). nra.
Qed.

(** ** log_det and chol_inv *)
Lemma log_det_bad_diag d (v : nat -> R) i : (i < d)%nat -> v i <= 0 -> log_det (K:=RNum) ln (A1 d v) = Err LinAlgError.
Proof.
  intros Hi Hv. destruct (log_det_matrix d (mdiag (K:=RNum) v) (mdiag_sym d v)) as [_ Hn].
  unfold log_det in *. rewrite Nat.eqb_refl in Hn. apply Hn. rewrite mdiag_posdef. intros H. specialize (H i Hi). change (0 < v i) in H. lra.
Qed.
Lemma diagm_eq v : diagm v = mdiag (K:=RNum) v. Proof. reflexivity. Qed.
Lemma chol_inv_diag d (v : nat -> R) : (forall i, (i < d)%nat -> 0 < v i) -> exists y c : nat -> nat -> R,
  chol_inv (K:=RNum) (A2 d d (diagm v)) = Ok (A2 d d y, A2 d d c) /\ is_prod d (diagm v) y ident.
Proof.
  intros H. destruct (chol_inv_matrix d (diagm v) (mdiag_sym d v)) as [Hp _].
  destruct Hp as (y & c & L & E & P & _); [rewrite diagm_eq; apply mdiag_posdef, H|]. exists y, c. split; [exact E|exact P].
Qed.
Lemma chol_inv_diag_bad d (v : nat -> R) i : (i < d)%nat -> v i <= 0 -> chol_inv (K:=RNum) (A2 d d (diagm v)) = Err LinAlgError.
Proof.
  intros Hi Hv. destruct (chol_inv_matrix d (diagm v) (mdiag_sym d v)) as [_ Hn]. apply Hn.
  rewrite diagm_eq, mdiag_posdef. intros H. specialize (H i Hi). change (0 < v i) in H. lra.
Qed.
Lemma test_entry n i j : (2 <= n)%nat -> test_matrix n i j = / 2 + (INR i + INR j) / (2 * (INR n - 1)) + ident i j * INR n.
Proof.
  intros Hn. unfold test_matrix, linspace. rewrite !plus_INR, !mult_INR, minus_INR, mult_INR by nia.
  assert (H : 2 <= INR n) by (apply (le_INR 2) in Hn; cbn [INR] in Hn; lra). cbn [INR]. field. split; nra.
Qed.
Lemma test_symm n : (2 <= n)%nat -> symm n (test_matrix n).
Proof. intros Hn i j _ _. rewrite !test_entry by exact Hn. unfold ident. rewrite (Nat.eqb_sym j i). rewrite (Rplus_comm (INR j)). reflexivity. Qed.
Lemma test_form n v : (2 <= n)%nat ->
  Rsum n (fun i => Rsum n (fun j => v i * test_matrix n i j * v j)) =
  INR n * Rsum n (fun i => v i ^ 2) + / 2 * Rsum n v ^ 2 + Rsum n v * Rsum n (fun i => INR i * v i) / (INR n - 1).
Proof.
  intros Hn. assert (H : 2 <= INR n) by (apply (le_INR 2) in Hn; cbn [INR] in Hn; lra).
  set (a := Rsum n v). set (b := Rsum n (fun i => INR i * v i)). set (c := / (2 * (INR n - 1))).
  rewrite (Rsum_ext n _ (fun i => (/ 2 * a + c * b) * v i + (c * a) * (INR i * v i) + INR n * v i ^ 2)).
  2:{ intros i Hi.
    rewrite (Rsum_ext n _ (fun j => ((/ 2 + c * INR i) * v i) * v j + (c * v i) * (INR j * v j) + INR n * (v i * (ident i j * v j)))).
    2:{ intros j _. rewrite test_entry by exact Hn. unfold c. field. lra. }
    rewrite !Rsum_plus, !Rsum_scal. fold a b.
    replace (Rsum n (fun j => ident i j * v j)) with (v i); [ring|]. symmetry.
    etransitivity; [apply (Rsum_single n _ i Hi)|].
    - intros j _ Hj. unfold ident. destruct (Nat.eqb_spec i j); [congruence|ring].
    - unfold ident. rewrite Nat.eqb_refl. ring. }
  rewrite !Rsum_plus, !Rsum_scal. fold a b. unfold c. field. lra.
Qed.
Lemma test_posdef n : (2 <= n)%nat -> posdef n (test_matrix n).
Proof.
  intros Hn v (i & Hi & Hv). rewrite test_form by exact Hn.
  assert (H : 2 <= INR n) by (apply (le_INR 2) in Hn; cbn [INR] in Hn; lra).
  set (a := Rsum n v). set (b := Rsum n (fun i => INR i * v i)). set (q := Rsum n (fun i => v i ^ 2)).
  assert (Q : 0 < q).
  { apply Rlt_le_trans with (v i ^ 2); [replace (v i ^ 2) with (Rsqr (v i)) by (unfold Rsqr; ring); apply Rsqr_pos_lt, Hv|].
    apply (Rsum_ge_term n (fun i => v i ^ 2) i); [intros; apply pow2_ge_0|exact Hi]. }
  assert (B : b ^ 2 <= INR n * (INR n - 1) ^ 2 * q).
  { eapply Rle_trans; [exact (cauchy_rsum n INR v)|]. fold q. apply Rmult_le_compat_r; [lra|].
    rewrite <- Rsum_const. apply Rsum_le. intros k Hk. apply pow_incr. split; [apply pos_INR|].
    replace (INR n - 1) with (INR (n - 1)) by (rewrite minus_INR by lia; reflexivity). apply le_INR. lia. }
  set (m := INR n - 1) in *. assert (Hm : 0 < m) by (unfold m; lra).
  assert (S : 0 <= / 2 * (a + b / m) ^ 2) by (pose proof (pow2_ge_0 (a + b / m)); lra).
  assert (B2 : (b / m) ^ 2 <= INR n * q).
  { replace ((b / m) ^ 2) with (b ^ 2 * / m ^ 2) by (field; lra). apply (Rmult_le_reg_r (m ^ 2)); [apply pow_lt, Hm|].
    rewrite Rmult_assoc, Rinv_l, Rmult_1_r by (apply pow_nonzero; lra). lra. }
  replace (INR n * q + / 2 * a ^ 2 + a * b / m) with (INR n * q + / 2 * (a + b / m) ^ 2 - / 2 * (b / m) ^ 2) by (field; lra).
  assert (0 < INR n * q) by nra. lra.
Qed.
Lemma chol_inv_test n : (2 <= n)%nat -> exists y c : nat -> nat -> R,
  chol_inv (K:=RNum) (A2 n n (test_matrix n)) = Ok (A2 n n y, A2 n n c) /\ is_prod n y (test_matrix n) ident.
Proof.
  intros Hn. destruct (chol_inv_matrix n (test_matrix n) (test_symm n Hn)) as [Hp _].
  destruct (Hp (test_posdef n Hn)) as (y & c & L & E & _ & P & _). exists y, c. split; [exact E|exact P].
Qed.

(** ** binary64 *)
Lemma f64_self x : finite64 x -> nsub (n:=FNum) x x = S754_zero false.
Proof.
  destruct x as [s|s| |s m e]; intros H; try contradiction; [destruct s; reflexivity|].
  cbn -[binary_normalize shl_align cond_Zopp Z.sub]. rewrite Z.sub_diag. reflexivity.
Qed.
