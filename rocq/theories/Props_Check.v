(** * C49: what SCG.check_gradient_function reports *)
From Coq Require Import ZArith List Bool Reals Lra Lia.
From Coquelicot Require Import Coquelicot.
From Verif Require Import Num Arr M_Scg M_Check Spec_Utils Spec_Check P_Check.
Import ListNotations.
Local Open Scope R_scope.

(** fn and gr are the values of objective and gradient, stf and std what the calls do to the
    objective's state: the gradient is asked for once, at x with eval_fun, then the objective
    at the points of the central differences in order; the statistics s are unchanged *)
Theorem C49_outcome :
  forall W (fn : list R -> R) (gr : list R -> list R) (stf std : list R -> W -> W)
   (f : list R -> W -> result R * W) (df : list R -> bool -> W -> result (list R) * W) (x : list R) tol s w,
  (forall p w, f p w = (Ok (fn p), stf p w)) -> (forall p w, df p true w = (Ok (gr p), std p w)) ->
  length (gr x) = length x ->
  let n := length x in
  let h := / 10 ^ 6 in
  let g := fun i => nth i (gr x) 0 in
  let c := central h fn x in
  let dist := enorm n (fun i => g i - c i) in
  exists passed,
  check_gradient (K := RNum) f df x tol s w =
    (Ok (dist / (enorm n g + enorm n c), passed), s, fold_left (fun w p => stf p w) (central_points h x) (std x w)) /\
  (passed = true <-> dist / INR n <= match tol with Some t => t | None => / 10 ^ 4 end).
Proof. exact @check_result. Qed.
Print Assumptions C49_outcome.

(** the relative difference lies in [0, 1] *)
Theorem C49_relative_difference :
  forall n (g c : nat -> R), 0 < enorm n g + enorm n c ->
  0 <= enorm n (fun i => g i - c i) / (enorm n g + enorm n c) <= 1.
Proof.
  intros n g c H. pose proof (enorm_triangle n g c). pose proof (enorm_nonneg n (fun i => g i - c i)). split.
  - apply Rmult_le_pos; [assumption|]. left. apply Rinv_0_lt_compat, H.
  - apply (Rmult_le_reg_r (enorm n g + enorm n c)); [exact H|]. unfold Rdiv. rewrite Rmult_assoc, Rinv_l by lra. lra.
Qed.
Print Assumptions C49_relative_difference.

(** a gradient that passes has every entry within n tol + M h^2 / 6 of the partial derivative *)
Theorem C49_passed_is_accurate :
  forall (fn : list R -> R) (x g : list R) M T,
  let n := length x in let h := / 10 ^ 6 in
  (0 < n)%nat -> (forall i, (i < n)%nat -> smooth_along fn x i M) ->
  enorm n (fun i => nth i g 0 - central h fn x i) / INR n <= T ->
  forall i, (i < n)%nat -> Rabs (nth i g 0 - Derive (fun t => fn (move i t x)) 0) <= INR n * T + M * h ^ 2 / 6.
Proof. exact dist_sound. Qed.
Print Assumptions C49_passed_is_accurate.

(** the exact gradient passes when the third derivatives are at most 6 tol / h^2 *)
Theorem C49_exact_gradient_passes :
  forall (fn : list R -> R) (x g : list R) M T,
  let n := length x in let h := / 10 ^ 6 in
  (0 < n)%nat -> 0 <= T -> (forall i, (i < n)%nat -> smooth_along fn x i M) -> M * h ^ 2 / 6 <= T ->
  (forall i, (i < n)%nat -> nth i g 0 = Derive (fun t => fn (move i t x)) 0) ->
  enorm n (fun i => nth i g 0 - central h fn x i) / INR n <= T.
Proof. exact dist_complete. Qed.
Print Assumptions C49_exact_gradient_passes.

(** in every arithmetic, whatever the objective does, exceptions included *)
Theorem C49_statistics_untouched :
  forall (K : Num) W (f : list K -> W -> result K * W) df x tol s w r s' w',
  check_gradient f df x tol s w = (r, s', w') -> s' = s.
Proof. exact @check_stats. Qed.
Print Assumptions C49_statistics_untouched.
Theorem C49_gradient_exception :
  forall W (f : list R -> W -> result R * W) (df : list R -> bool -> W -> result (list R) * W) x tol s w e w',
  df x true w = (Err e, w') -> check_gradient (K := RNum) f df x tol s w = (Err e, s, w').
Proof. exact @check_err_df. Qed.
Print Assumptions C49_gradient_exception.

(** Finding: the last evaluation is at x - h e_(n-1), so an objective that keeps state (VarGP does)
    is left at that point and not at x. *)
Theorem C49_state_left_behind :
  forall W (stf : list R -> W -> W) h x w, (0 < length x)%nat ->
  exists w', fold_left (fun w p => stf p w) (central_points h x) w = stf (move (length x - 1) (- h) x) w'.
Proof. exact @check_last. Qed.
Print Assumptions C49_state_left_behind.
(** x^2 with a remembered point: after f([1]) the gradient at [1] is [2]; after a check at [1],
    which passes, df([1]) is not [2] *)
Theorem C49_state_preserved_refuted :
  forall s, exists r w1,
  cf [1] 0 = (Ok (1 ^ 2), 1) /\ fst (cdf [1] false 1) = Ok [2 * 1] /\
  check_gradient (K := RNum) cf cdf [1] None s 1 = (Ok r, s, w1) /\ snd r = true /\
  fst (cdf [1] false w1) <> Ok [2 * 1].
Proof. exact check_stale. Qed.
Print Assumptions C49_state_preserved_refuted.

(** x0^2 + 3 x0 x1 at (2, 5): the gradient (19, 6) passes *)
Example C49_instance :
  let fn := fun x : list R => nth 0 x 0 ^ 2 + 3 * nth 0 x 0 * nth 1 x 0 in
  enorm 2 (fun i => nth i [19; 6] 0 - central (/ 10 ^ 6) fn [2; 5] i) / INR 2 <= / 10 ^ 4.
Proof.
  intros fn.
  assert (H0 : forall t, fn (move 0 t [2; 5]) = 34 + 19 * t + 1 * t ^ 2) by (intros; unfold fn; cbn; ring).
  assert (H1 : forall t, fn (move 1 t [2; 5]) = 34 + 6 * t + 0 * t ^ 2) by (intros; unfold fn; cbn; ring).
  assert (HT : 0 <= / 10 ^ 4) by (left; apply Rinv_0_lt_compat, pow_lt; lra).
  refine (C49_exact_gradient_passes fn [2; 5] [19; 6] 0 (/ 10 ^ 4) _ HT _ _ _).
  - cbn; lia.
  - intros [|[|i]] Hi; [apply (smooth_poly _ _ _ _ _ _ H0)|apply (smooth_poly _ _ _ _ _ _ H1)|cbn in Hi; lia].
  - unfold Rdiv. rewrite !Rmult_0_l. exact HT.
  - intros [|[|i]] Hi; [| |cbn in Hi; lia]; symmetry; apply is_derive_unique.
    + apply (is_derive_ext (fun t => 34 + 19 * t + 1 * t ^ 2)); [intros; symmetry; apply H0|]. auto_derive; [exact I|cbn; ring].
    + apply (is_derive_ext (fun t => 34 + 6 * t + 0 * t ^ 2)); [intros; symmetry; apply H1|]. auto_derive; [exact I|cbn; ring].
Qed.
