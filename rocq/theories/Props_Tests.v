(** * Property C62: the shipped unit tests of the utilities and of the Gaussian moments. *)
From Coq Require Import Reals List Arith ZArith Lra Lia SpecFloat Sorted.
From Verif Require Import Num Arr M_LinAlg M_Utils M_Moments Spec_Utils Spec_Det Spec_Tests P_RMat P_Det P_Utils P_LinAlg P_Trapz P_Moments P_Tests Props_Utils.
Import ListNotations.
Local Open Scope R_scope.

(** ** test_utilities.py *)
(** test_finite_diff: the four assertions *)
Theorem C62_finite_diff :
  (exists g, fst (finite_diff (K:=RNum) (fun x => cos (nth 0 x 0)) (Sc (0 : RNum))) = Sc (g : RNum) /\ close g 0) /\
  (exists g, fst (finite_diff (K:=RNum) (fun x => exp (nth 0 x 0)) (Sc (0 : RNum))) = Sc (g : RNum) /\ close g 1) /\
  (exists g, fst (finite_diff (K:=RNum) (fun x => sin (5 * nth 0 x 0)) (Sc (1 : RNum))) = Sc (g : RNum) /\ close g (5 * cos (5 * 1))) /\
  (exists g : list R, fst (finite_diff (K:=RNum) sin_sq (Ve [3 / 2; 2])) = Ve g /\ length g = 2%nat /\
     forall i, (i < 2)%nat -> close (nth i g 0) (nth i sin_sq_grad 0)).
Proof.
  assert (P : forall (fn : list R -> R) x, fst (finite_diff (K:=RNum) fn (Sc (x : RNum))) =
     Sc (((fn [x + hh] - fn [x + - hh]) / (2 * hh) : R) : RNum)).
  { intros fn x. destruct (C09_evaluations fn [x]) as (g & Lg & E & Hg). rewrite C09_scalar_input. rewrite E. cbn [fst Datatypes.length Nat.eqb].
    rewrite (Hg 0%nat) by (cbn; lia). reflexivity. }
  split; [|split; [|split]].
  - eexists. split; [apply P|]. cbn [nth]. rewrite fd_cos. unfold close. rewrite Rminus_0_r, !Rabs_R0. lra.
  - eexists. split; [apply P|]. cbn [nth]. apply fd_exp.
  - eexists. split; [apply P|]. cbn [nth]. apply fd_sin5.
  - destruct (C09_evaluations sin_sq [3 / 2; 2]) as (g & Lg & E & Hg). exists g. rewrite E. cbn [fst Datatypes.length Nat.eqb].
    split; [reflexivity|]. split; [exact Lg|]. intros i Hi.
    assert (Q : forall a b, Rabs (a - b) <= / 10 ^ 8 -> close a b) by (intros a b H; unfold close; pose proof (Rabs_pos b); lra).
    apply Q. rewrite Hg by exact Hi. fold hh.
    destruct i as [|[|i]]; [| |lia]; unfold sin_sq, sin_sq_grad; cbn [move nth].
    + replace ((3 / 2 + hh) ^ 2 * 2 ^ 2) with (4 * (3 / 2 + hh) ^ 2) by ring.
      replace ((3 / 2 + - hh) ^ 2 * 2 ^ 2) with (4 * (3 / 2 + - hh) ^ 2) by ring.
      replace ((3 / 2) ^ 2 * 2 ^ 2) with (4 * (3 / 2) ^ 2) by ring.
      replace (cos (4 * (3 / 2) ^ 2) * 2 * (3 / 2) * 2 ^ 2) with (cos (4 * (3 / 2) ^ 2) * (2 * 4 * (3 / 2))) by ring.
      apply fd_sq; try rewrite hh_val; lra.
    + replace ((3 / 2) ^ 2 * (2 + hh) ^ 2) with (9 / 4 * (2 + hh) ^ 2) by field.
      replace ((3 / 2) ^ 2 * (2 + - hh) ^ 2) with (9 / 4 * (2 + - hh) ^ 2) by field.
      replace (cos ((3 / 2) ^ 2 * 2 ^ 2) * 2 * (3 / 2) ^ 2 * 2) with (cos (9 / 4 * 2 ^ 2) * (2 * (9 / 4) * 2))
        by (replace ((3 / 2) ^ 2 * 2 ^ 2) with (9 / 4 * 2 ^ 2) by field; field).
      apply fd_sq; try rewrite hh_val; lra.
Qed.
Print Assumptions C62_finite_diff.

(** test_safe_log, with np.log any function in binary64: the literals 1.0E-330 and 1.0E+330 of the test are the binary64
    numbers 0 and infinity. *)
Theorem C62_safe_log :
  safe_log (K:=RNum) ln (39457 / 10000) = ln (39457 / 10000) /\
  safe_log (K:=RNum) ln (/ 10 ^ 330) = ln (/ 10 ^ 300) /\
  safe_log (K:=RNum) ln (10 ^ 330) = ln (10 ^ 300) /\
  forall log64 : spec_float -> spec_float,
  safe_log (K:=FNum) log64 (S754_zero false) = log64 (nlit (n:=FNum) 1 (10 ^ 300)%positive) /\
  safe_log (K:=FNum) log64 (S754_infinity false) = log64 (nZ (K:=FNum) (10 ^ 300)).
Proof.
  assert (T : forall k, 1 <= 10 ^ k) by (intros k; apply pow_R1_Rle; lra).
  assert (A : forall x, / 10 ^ 300 <= x <= 10 ^ 300 -> safe_log (K:=RNum) ln x = ln x) by (intros x; apply C08_bounds).
  assert (B300 : 10 <= 10 ^ 300). { replace (10 ^ 300) with (10 * 10 ^ 299) by (rewrite tech_pow_Rmult; reflexivity). pose proof (T 299%nat). lra. }
  assert (I300 : 0 < / 10 ^ 300 <= 1).
  { split; [apply Rinv_0_lt_compat; lra|]. apply Rle_trans with (/ 1); [apply Rinv_le_contravar; lra|rewrite Rinv_1; lra]. }
  split; [apply A; lra|].
  assert (L : / 10 ^ 330 <= / 10 ^ 300) by (apply Rinv_le_contravar; [lra|apply Rle_pow; [lra|lia]]).
  assert (U : 10 ^ 300 <= 10 ^ 330) by (apply Rle_pow; [lra|lia]).
  split; [|split].
  - apply Rle_antisym; [|apply C08_bounds]. rewrite <- (A (/ 10 ^ 300)) by lra. apply C08_monotone, L.
  - apply Rle_antisym; [apply C08_bounds|]. rewrite <- (A (10 ^ 300)) by lra. apply C08_monotone, U.
  - intros log64. split; unfold safe_log; f_equal; vm_compute; reflexivity.
Qed.
Print Assumptions C62_safe_log.

(** test_log_det, for every draw x1 of numpy.random.rand: the assertion holds with equality when no number is zero and the
    call raises LinAlgError otherwise. *)
Theorem C62_log_det_partial :
  log_det (K:=RNum) ln (A0 ((39457 / 10000 : R) : RNum)) = Ok (ln (39457 / 10000)) /\
  forall x1 : nat -> R, (forall i, (i < 3)%nat -> 0 <= x1 i < 1) ->
  ((forall i, (i < 3)%nat -> x1 i <> 0) -> log_det (K:=RNum) ln (A1 3 x1) = Ok (ln (detR 3 (diagm x1)))) /\
  ((exists i, (i < 3)%nat /\ x1 i = 0) -> log_det (K:=RNum) ln (A1 3 x1) = Err LinAlgError).
Proof.
  split; [apply C07_scalar|]. intros x1 Hx. split.
  - intros H. apply (C07_vector 3 x1). intros i Hi. specialize (Hx i Hi). specialize (H i Hi). lra.
  - intros (i & Hi & E). apply (log_det_bad_diag 3 x1 i Hi). lra.
Qed.
Print Assumptions C62_log_det_partial.

(** test_my_trapezoid, for every draw of the four arrays: my_trapz is the trapezoidal rule of scipy, with the seven
    observation times as well. *)
Theorem C62_trapz :
  (forall fxs : list R, length fxs = 1000%nat ->
     my_trapz (V := scalV RNum) fxs (1 / 100) None = trap 1000 (fun k => nth k fxs 0) (1 / 100) /\
     my_trapz (V := scalV RNum) fxs (1 / 100) (Some [10; 20; 30; 40; 50; 60; 500]%nat) = trap 1000 (fun k => nth k fxs 0) (1 / 100)) /\
  (forall fxv : list (nat -> R), length fxv = 1000%nat -> forall i, (i < 2)%nat ->
     (my_trapz (V := vecV RNum) fxv (1 / 100) None : nat -> R) i = trap 1000 (fun k => nth k fxv (fun _ => 0) i) (1 / 100)) /\
  (forall fxm : list (nat -> nat -> R), length fxm = 1000%nat -> forall i j, (i < 2)%nat -> (j < 2)%nat ->
     (my_trapz (V := matV RNum) fxm (1 / 100) None : nat -> nat -> R) i j = trap 1000 (fun k => nth k fxm (fun _ _ => 0) i j) (1 / 100)).
Proof.
  split; [|split].
  - intros fxs Hl. rewrite <- Hl. split; apply C04_scalar; intros o E; [discriminate|]. injection E as <-.
    repeat (constructor; [|repeat constructor; lia]). constructor.
  - intros fxv Hl i _. rewrite <- Hl. apply C04_vector. discriminate.
  - intros fxm Hl i j _ _. rewrite <- Hl. apply C04_matrix. discriminate.
Qed.
Print Assumptions C62_trapz.

(** test_chol_inv, for every draw of the diagonal; the matrix of the last assertion is positive definite in every size. *)
Theorem C62_chol_inv_partial :
  (exists y c : R, chol_inv (K:=RNum) (A0 ((1 / 5 : R) : RNum)) = Ok (A0 (y : RNum), A0 (c : RNum)) /\ 1 / 5 * y = 1) /\
  (forall v : nat -> R, (forall i, (i < 3)%nat -> 0 <= v i < 1) ->
     ((forall i, (i < 3)%nat -> v i <> 0) -> exists y c : nat -> nat -> R,
        chol_inv (K:=RNum) (A2 3 3 (diagm v)) = Ok (A2 3 3 y, A2 3 3 c) /\ is_prod 3 (diagm v) y ident) /\
     ((exists i, (i < 3)%nat /\ v i = 0) -> chol_inv (K:=RNum) (A2 3 3 (diagm v)) = Err LinAlgError)) /\
  (forall n, (2 <= n)%nat -> exists y c p : nat -> nat -> R,
     chol_inv (K:=RNum) (A2 n n (test_matrix n)) = Ok (A2 n n y, A2 n n c) /\
     is_prod n y (test_matrix n) p /\ mat_mean n (fun i j => p i j - ident i j) = 0).
Proof.
  split; [|split].
  - destruct (C06_scalar (1 / 5)) as (y & c & E & H & _); [lra|]. exists y, c. split; [exact E|exact H].
  - intros v Hv. split.
    + intros H. apply chol_inv_diag. intros i Hi. specialize (Hv i Hi). specialize (H i Hi). lra.
    + intros (i & Hi & E). apply (chol_inv_diag_bad 3 v i Hi). lra.
  - intros n Hn. destruct (chol_inv_test n Hn) as (y & c & E & P). exists y, c, ident. split; [exact E|]. split; [exact P|].
    unfold mat_mean. rewrite Rsum_z; [unfold Rdiv; ring|]. intros i _. apply Rsum_z. intros j _. ring.
Qed.
Print Assumptions C62_chol_inv_partial.

(** A draw with a zero (which rand may return) makes both tests fail with LinAlgError. *)
Theorem C62_tests_refuted :
  exists v : nat -> R, (forall i, (i < 3)%nat -> 0 <= v i < 1) /\
  log_det (K:=RNum) ln (A1 3 v) = Err LinAlgError /\ chol_inv (K:=RNum) (A2 3 3 (diagm v)) = Err LinAlgError.
Proof.
  exists (fun i => INR i / 4). split; [|split].
  - intros [|[|[|i]]] Hi; cbn [INR]; try lra. lia.
  - apply (log_det_bad_diag 3 _ 0); [lia|]. cbn [INR]. lra.
  - apply (chol_inv_diag_bad 3 _ 0); [lia|]. cbn [INR]. lra.
Qed.
Print Assumptions C62_tests_refuted.

(** ** test_gaussian_moments.py *)
(** In binary64, for every array of finite means and any variances of the same size: every difference of which the tests
    take the sum is zero, and the orders 9 and 0 raise ValueError. *)
Theorem C62_moments :
  forall show n (m v : nat -> spec_float), (forall i, (i < n)%nat -> finite64 (m i)) ->
  let zero := fun (r : result (arr FNum)) (t : nat -> spec_float) =>
    exists out : nat -> spec_float, r = Ok (A1 (K:=FNum) n out) /\ forall i, (i < n)%nat -> nsub (n:=FNum) (out i) (t i) = S754_zero false in
  let c := fun (z : Z) (_ : nat) => binary_normalize 53 1024 z 0 false in
  exists g, gm_init (K:=FNum) show (A1 (K:=FNum) n m) (A1 (K:=FNum) n v) = Ok g /\
  zero (gm_call g 0) (c 1%Z) /\ zero (gm_call g 1) m /\ gm_call g 9 = Err ValueError /\
  zero (gm_dm g 1) (c 1%Z) /\
  (exists out, gm_dm g 2 = Ok (A1 (K:=FNum) n out) /\ forall i, out i = SFmul 53 1024 (c 2%Z i) (m i)) /\ gm_dm g 0 = Err ValueError /\
  zero (gm_ds g 1) (c 0%Z) /\ zero (gm_ds g 2) (c 1%Z) /\ gm_ds g 0 = Err ValueError.
Proof.
  intros show n m v Hm zero c. destruct (match_ok FNum show (A1 (K:=FNum) n m) (A1 (K:=FNum) n v)) as (g & E & Em & Ev); [reflexivity|].
  cbn [atleast_1d] in Em, Ev. exists g. split; [exact E|].
  assert (En : n_size g = n).
  { unfold gm_init in E. cbn [atleast_1d] in E. match type of E with (if ?b then _ else _) = _ => replace b with false in E end.
    - injection E as <-. reflexivity.
    - unfold shape_eqb. cbn [shape]. destruct (list_eq_dec Nat.eq_dec [n] [n]); [reflexivity|congruence]. }
  assert (C : forall z, (z = 0 \/ z = 1)%Z -> zero (Ok (const_arr g (nZ (K:=FNum) z))) (c z)).
  { intros z Hz. exists (fun _ => nZ (K:=FNum) z). unfold const_arr. rewrite En. split; [reflexivity|]. intros i _.
    destruct Hz as [-> | ->]; vm_compute; reflexivity. }
  split; [apply (C 1%Z); auto|]. split; [|split; [reflexivity|]].
  { exists m. unfold gm_call. cbn [Z.leb Z.eqb andb Z.to_nat]. rewrite Em, Ev. split; [reflexivity|]. intros i Hi. apply f64_self, Hm, Hi. }
  split; [apply (C 1%Z); auto|]. split; [|split; [reflexivity|]].
  { eexists. unfold gm_dm. cbn. rewrite Em, Ev. split; [reflexivity|]. intros i. reflexivity. }
  split; [apply (C 0%Z); auto|]. split; [apply (C 1%Z); auto|reflexivity].
Qed.
Print Assumptions C62_moments.
(** the diagonal 1/2, 1/4, 1/8 and the 10 x 10 matrix of the test: its first entry is 10.5 *)
Example C62_instance :
  log_det (K:=RNum) ln (A1 3 (fun i => (/ 2) ^ (S i))) = Ok (ln (/ 64)) /\ test_matrix 10 0 0 = 21 / 2 /\ test_matrix 10 9 8 = 13 / 9 + 0 /\ posdef 10 (test_matrix 10).
Proof.
  split; [|split; [|split]].
  - destruct C62_log_det_partial as [_ H]. rewrite (proj1 (H (fun i => (/ 2) ^ (S i)) ltac:(intros [|[|[|i]]] Hi; cbn [pow]; try lra; lia))).
    + f_equal. f_equal. cbn. field.
    + intros i _. apply pow_nonzero. lra.
  - rewrite test_entry by lia. cbn [INR ident Nat.eqb]. simpl. lra.
  - rewrite test_entry by lia. unfold ident. cbn [Nat.eqb]. simpl. field.
  - apply test_posdef. lia.
Qed.
