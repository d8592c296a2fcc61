(** * Properties C04 - C10: the numerical utilities. *)
From Coq Require Import ZArith Bool Reals List Lra Lia Sorted Arith.
From Coquelicot Require Import Coquelicot.
From Verif Require Import Num Arr ArrFacts M_LinAlg M_Utils Spec_Utils Spec_Det
  P_Trapz P_LinAlg P_Det P_Utils P_Ut.
Import ListNotations.
Local Open Scope R_scope.

(** ** C04 *)
Theorem C04_scalar :
  forall (fx : list R) (dx : R) obs,
  (forall o, obs = Some o -> Sorted le o) ->
  my_trapz (V := scalV RNum) fx dx obs = trap (length fx) (fun k => nth k fx 0) dx.
Proof. exact trapz_scalar. Qed.
Print Assumptions C04_scalar.
Theorem C04_vector :
  forall (fx : list (nat -> R)) (dx : R) obs i,
  (forall o, obs = Some o -> Sorted le o) ->
  (my_trapz (V := vecV RNum) fx dx obs : nat -> R) i =
  trap (length fx) (fun k => nth k fx (fun _ => 0) i) dx.
Proof. exact trapz_vector. Qed.
Print Assumptions C04_vector.
Theorem C04_matrix :
  forall (fx : list (nat -> nat -> R)) (dx : R) obs i j,
  (forall o, obs = Some o -> Sorted le o) ->
  (my_trapz (V := matV RNum) fx dx obs : nat -> nat -> R) i j =
  trap (length fx) (fun k => nth k fx (fun _ _ => 0) i j) dx.
Proof. exact trapz_matrix. Qed.
Print Assumptions C04_matrix.
(** repeated indexes, both ends, and an index beyond the array *)
Example C04_instance :
  my_trapz (V := scalV RNum) [1; 3; 5; 11] (1/2) (Some [0; 0; 2; 2; 3; 9]%nat) = 7.
Proof.
  rewrite C04_scalar.
  - unfold trap. cbn. field.
  - intros o [= <-]. repeat constructor.
Qed.

(** ** C05 *)
Theorem C05_linear :
  forall (fx gx : list R) (a b dx : R) obs,
  (forall o, obs = Some o -> Sorted le o) -> length fx = length gx ->
  my_trapz (V := scalV RNum) (map2 (fun u v => a * u + b * v) fx gx) dx obs =
  a * my_trapz (V := scalV RNum) fx dx obs + b * my_trapz (V := scalV RNum) gx dx obs.
Proof. exact trapz_linear. Qed.
Print Assumptions C05_linear.
Theorem C05_nonneg :
  forall (fx : list R) (dx : R) obs,
  (forall o, obs = Some o -> Sorted le o) ->
  0 <= dx -> (forall y, In y fx -> 0 <= y) -> 0 <= my_trapz (V := scalV RNum) fx dx obs.
Proof. exact trapz_nonneg. Qed.
Print Assumptions C05_nonneg.
Theorem C05_affine :
  forall (n : nat) (al be t0 dx : R) obs,
  (forall o, obs = Some o -> Sorted le o) -> (0 < n)%nat ->
  is_RInt (fun t => al + be * t) t0 (t0 + INR (n - 1) * dx)
    (my_trapz (V := scalV RNum) (map (fun k => al + be * (t0 + INR k * dx)) (seq 0 n)) dx obs).
Proof. exact trapz_affine. Qed.
Print Assumptions C05_affine.
Example C05_instance :
  my_trapz (V := scalV RNum) (map2 (fun u v => 2 * u + 3 * v) [1; 2; 4] [5; 7; 6]) 1 (Some [1%nat]) =
  2 * my_trapz (V := scalV RNum) [1; 2; 4] 1 (Some [1%nat]) +
  3 * my_trapz (V := scalV RNum) [5; 7; 6] 1 (Some [1%nat]).
Proof. apply C05_linear; [|reflexivity]. intros o [= <-]. repeat constructor. Qed.

(** ** C06 *)
Theorem C06_inverse :
  forall d (x : nat -> nat -> R), symm d x ->
  (posdef d x -> exists y c L : nat -> nat -> R,
     chol_inv (K:=RNum) (A2 d d x) = Ok (A2 d d y, A2 d d c) /\
     is_prod d x y ident /\ is_prod d y x ident /\ symm d y /\ is_prod d (transp c) c y /\
     lower_tri d L /\ is_prod d L (transp L) x /\ is_prod d L c ident /\ is_prod d c L ident) /\
  (~ posdef d x -> chol_inv (K:=RNum) (A2 d d x) = Err LinAlgError).
Proof. exact chol_inv_matrix. Qed.
Print Assumptions C06_inverse.
Theorem C06_scalar :
  forall x : R, 0 < x -> exists y c : R,
  chol_inv (K:=RNum) (A0 (x : RNum)) = Ok (A0 (y : RNum), A0 (c : RNum)) /\ x * y = 1 /\ y = c * c /\ c * sqrt x = 1.
Proof. exact chol_inv_scalar. Qed.
Print Assumptions C06_scalar.
(** The system L X = B has no other solution than the one the model computes. *)
Theorem C06_solve_unique :
  forall d (L B X : nat -> nat -> R), lower_tri d L ->
  (forall r c, (r < d)%nat -> (c < d)%nat -> Rsum d (fun k => L r k * X k c) = B r c) ->
  forall r c, (r < d)%nat -> (c < d)%nat -> X r c = solve_lower (K:=RNum) d L B r c.
Proof. exact (fun d L B X H1 H2 r c Hr Hc => solve_lower_unique d L B X H1 H2 r c Hr Hc). Qed.
Print Assumptions C06_solve_unique.
Definition m22 (a b c : R) : nat -> nat -> R :=
  fun i j => match i, j with O, O => a | S O, S O => c | _, _ => b end.
Lemma m22_symm a b c : symm 2 (m22 a b c).
Proof. intros [|[|i]] [|[|j]]; intros; try reflexivity; lia. Qed.
Lemma m22_posdef a b c : 0 < a -> b * b < a * c -> posdef 2 (m22 a b c).
Proof.
  intros Ha Hd v (i & Hi & Hv). cbn.
  replace (0 + (0 + v 0%nat * a * v 0%nat + v 0%nat * b * v 1%nat) +
           (0 + v 1%nat * b * v 0%nat + v 1%nat * c * v 1%nat))
    with ((a * v 0%nat + b * v 1%nat) ^ 2 / a + (a * c - b * b) / a * (v 1%nat) ^ 2) by (field; lra).
  assert (0 < (a * c - b * b) / a) by (apply Rdiv_lt_0_compat; lra).
  assert (Hia : 0 < / a) by (apply Rinv_0_lt_compat, Ha).
  assert (0 <= (a * v 0%nat + b * v 1%nat) ^ 2 / a).
  { apply Rmult_le_pos; [apply pow2_ge_0|lra]. }
  destruct (Req_dec (v 1%nat) 0) as [E|E].
  - assert (v 0%nat <> 0) by (destruct i as [|[|i]]; [assumption|congruence|lia]).
    rewrite E in *. replace ((a * v 0%nat + b * 0) ^ 2 / a) with (a * (v 0%nat) ^ 2) by (field; lra).
    assert (0 < v 0%nat ^ 2) by (apply pow2_gt_0; assumption). nra.
  - assert (0 < v 1%nat ^ 2) by (apply pow2_gt_0; assumption). nra.
Qed.
Example C06_instance : exists y c L : nat -> nat -> R,
  chol_inv (K:=RNum) (A2 2 2 (m22 2 1 3)) = Ok (A2 2 2 y, A2 2 2 c) /\
  is_prod 2 (m22 2 1 3) y ident /\ is_prod 2 L (transp L) (m22 2 1 3).
Proof.
  destruct (C06_inverse 2 (m22 2 1 3) (m22_symm _ _ _)) as [H _].
  destruct (H ltac:(apply m22_posdef; lra)) as (y & c & L & H1 & H2 & _ & _ & _ & _ & H3 & _).
  exists y, c, L. auto.
Qed.

(** ** C07 *)
Theorem C07_matrix :
  forall d (x : nat -> nat -> R), symm d x ->
  (posdef d x -> log_det (K:=RNum) ln (A2 d d x) = Ok (ln (detR d x))) /\
  (~ posdef d x -> log_det (K:=RNum) ln (A2 d d x) = Err LinAlgError).
Proof. exact log_det_matrix. Qed.
Print Assumptions C07_matrix.
Theorem C07_vector :
  forall d (v : nat -> R), (forall i, (i < d)%nat -> 0 < v i) ->
  log_det (K:=RNum) ln (A1 d v) = Ok (ln (detR d (fun i j => if Nat.eqb i j then v i else 0))).
Proof. exact log_det_vector. Qed.
Print Assumptions C07_vector.
Theorem C07_scalar : forall x : R, log_det (K:=RNum) ln (A0 (x : RNum)) = Ok (ln x).
Proof. exact log_det_scalar. Qed.
Print Assumptions C07_scalar.
Theorem C07_not_square :
  forall r c (x : nat -> nat -> R), r <> c -> log_det (K:=RNum) ln (A2 r c x) = Err RuntimeError.
Proof. exact log_det_bad. Qed.
Print Assumptions C07_not_square.
Example C07_instance : log_det (K:=RNum) ln (A2 2 2 (m22 2 1 3)) = Ok (ln 5).
Proof.
  replace 5 with (detR 2 (m22 2 1 3)) by (cbn; ring).
  apply C07_matrix; [apply m22_symm|apply m22_posdef; lra].
Qed.

(** ** C08 *)
Theorem C08_bounds :
  forall x : R,
  ln (/ 10 ^ 300) <= safe_log (K:=RNum) ln x <= ln (10 ^ 300) /\
  (/ 10 ^ 300 <= x <= 10 ^ 300 -> safe_log (K:=RNum) ln x = ln x).
Proof. exact safe_log_spec. Qed.
Print Assumptions C08_bounds.
Theorem C08_monotone :
  forall x y : R, x <= y -> safe_log (K:=RNum) ln x <= safe_log (K:=RNum) ln y.
Proof. exact safe_log_mono. Qed.
Print Assumptions C08_monotone.
Example C08_instance : safe_log (K:=RNum) ln (-5) <= safe_log (K:=RNum) ln 2.
Proof. apply C08_monotone. lra. Qed.

(** ** C09 *)
(** [move i h x] is x with h added to coordinate i. *)
Theorem C09_evaluations :
  forall (fn : list R -> R) (x : list R),
  let n := length x in
  let h := / 10 ^ 6 in
  exists g : list R,
    length g = n /\
    finite_diff (K:=RNum) fn (Ve x) =
      (if Nat.eqb n 1 then Sc (nth 0 g 0 : RNum) else Ve g,
       flat_map (fun k => [move k h x; move k (- h) x]) (seq 0 n)) /\
    forall i, (i < n)%nat ->
      nth i g 0 = (fn (move i h x) - fn (move i (- h) x)) / (2 * h).
Proof. exact finite_diff_spec. Qed.
Print Assumptions C09_evaluations.
Theorem C09_scalar_input :
  forall (fn : list R -> R) (x : R),
  finite_diff (K:=RNum) fn (Sc (x : RNum)) = finite_diff (K:=RNum) fn (Ve [x : RNum]).
Proof. exact finite_diff_scalar. Qed.
Print Assumptions C09_scalar_input.
Theorem C09_quadratic_exact :
  forall (fn : list R -> R) x i a b c,
  let h := / 10 ^ 6 in
  (forall t, fn (move i t x) = a + b * t + c * t ^ 2) ->
  (fn (move i h x) - fn (move i (- h) x)) / (2 * h) = b /\
  is_derive (fun t => fn (move i t x)) 0 ((fn (move i h x) - fn (move i (- h) x)) / (2 * h)).
Proof. exact cdiff_quadratic. Qed.
Print Assumptions C09_quadratic_exact.
Theorem C09_second_order :
  forall (fn : list R -> R) x i M r,
  let h := / 10 ^ 6 in
  let g := fun t => fn (move i t x) in
  h < r ->
  (forall t k, Rabs t < r -> (k <= 3)%nat -> ex_derive_n g k t) ->
  (forall t, Rabs t <= h -> Rabs (Derive_n g 3 t) <= M) ->
  Rabs ((fn (move i h x) - fn (move i (- h) x)) / (2 * h) - Derive g 0) <= M * h ^ 2 / 6.
Proof. exact cdiff_error. Qed.
Print Assumptions C09_second_order.
(** x0^2 + 3 x0 x1 is quadratic along each coordinate *)
Example C09_instance :
  let fn := fun x : list R => nth 0 x 0 ^ 2 + 3 * nth 0 x 0 * nth 1 x 0 in
  let h := / 10 ^ 6 in
  (fn (move 0 h [2; 5]) - fn (move 0 (- h) [2; 5])) / (2 * h) = 19.
Proof. intros fn h. apply (C09_quadratic_exact fn [2; 5] 0 34 19 1). intros t. unfold fn. cbn. ring. Qed.

(** ** C10 *)
Theorem C10_sigma_points :
  forall d (x_bar : nat -> R) (x_cov : nat -> nat -> R),
  (0 < d)%nat -> symm d x_cov -> posdef d x_cov ->
  exists (w : nat -> R) (p : nat -> nat -> R),
    Rsum (2 * d + 1) w = 1 /\
    (forall i, (i < d)%nat -> wmean (2 * d + 1) w p i = x_bar i) /\
    (forall i j, (i < d)%nat -> (j < d)%nat -> wcov (2 * d + 1) w p i j = x_cov i j) /\
    forall fn : (nat -> nat -> R) -> nat -> nat -> R, exists y_bar y_cov,
      ut_approx (K:=RNum) fn d x_bar x_cov = Ok (y_bar, y_cov) /\
      forall j, y_bar j = wmean (2 * d + 1) w (fn p) j.
Proof. exact ut_points. Qed.
Print Assumptions C10_sigma_points.
(** The mean is exact; the covariance is the exact one plus a positive multiple of
    y_bar y_bar', with the positive factor [kappa d]. *)
Theorem C10_affine_partial :
  forall d (x_bar : nat -> R) (x_cov : nat -> nat -> R) B c (fn : (nat -> nat -> R) -> nat -> nat -> R),
  (0 < d)%nat -> symm d x_cov -> posdef d x_cov ->
  (forall p r k, fn p r k = affine d B c (p r) k) ->
  exists y_bar y_cov : _,
    ut_approx (K:=RNum) fn d x_bar x_cov = Ok (y_bar, y_cov) /\
    (forall k, y_bar k = affine d B c x_bar k) /\
    (forall i j, y_cov i j = sandwich d B x_cov i j + kappa d * (affine d B c x_bar i * affine d B c x_bar j)).
Proof. exact ut_affine. Qed.
Print Assumptions C10_affine_partial.
Theorem C10_kappa_pos : forall d, (0 < d)%nat -> 0 < kappa d.
Proof. exact kappa_pos. Qed.
Print Assumptions C10_kappa_pos.
Theorem C10_quadratic_mean :
  forall d (x_bar : nat -> R) (x_cov : nat -> nat -> R) q B c (fn : (nat -> nat -> R) -> nat -> nat -> R),
  (0 < d)%nat -> symm d x_cov -> posdef d x_cov ->
  (forall p r k, fn p r k = quadr d q B c (p r) k) ->
  exists y_bar y_cov,
    ut_approx (K:=RNum) fn d x_bar x_cov = Ok (y_bar, y_cov) /\
    (forall k, y_bar k = quadr_mean d q B c x_bar x_cov k).
Proof. exact ut_quadratic. Qed.
Print Assumptions C10_quadratic_mean.
Theorem C10_covariance_refuted :
  exists (d : nat) (x_bar : nat -> R) (x_cov : nat -> nat -> R) B c fn y_bar y_cov,
    (0 < d)%nat /\ symm d x_cov /\ posdef d x_cov /\
    (forall (p : nat -> nat -> R) r k, fn p r k = affine d B c (p r) k) /\
    ut_approx (K:=RNum) fn d x_bar x_cov = Ok (y_bar, y_cov) /\
    y_cov 0%nat 0%nat <> sandwich d B x_cov 0%nat 0%nat.
Proof. exact ut_cov_wrong. Qed.
Print Assumptions C10_covariance_refuted.
Example C10_instance :
  exists y_bar y_cov,
    ut_approx (K:=RNum) (fun p r k => affine 2 (m22 1 2 3) (fun _ => 1) (p r) k) 2
      (fun _ => 4) (m22 2 1 3) = Ok (y_bar, y_cov) /\ y_bar 0%nat = 13.
Proof.
  destruct (C10_affine_partial 2 (fun _ => 4) (m22 2 1 3) (m22 1 2 3) (fun _ => 1)
    (fun p r k => affine 2 (m22 1 2 3) (fun _ => 1) (p r) k)) as (yb & yc & H & Hm & _).
  - lia.
  - apply m22_symm.
  - apply m22_posdef; lra.
  - reflexivity.
  - exists yb, yc. split; [exact H|]. rewrite Hm. unfold affine. cbn. ring.
Qed.
