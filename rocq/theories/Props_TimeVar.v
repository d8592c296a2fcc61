(** * Property C59: the sweeps on coefficients that vary in time converge to the differential equations. *)
From Coq Require Import List Reals Lra Lia.
From Coquelicot Require Import Coquelicot.
From Verif Require Import Num Arr ArrFacts M_Ode Spec_Ode Spec_TimeVar P_Ode P_OdeR
  P_TimeVar P_TimeVar5 P_TimeVar7 P_TimeVar8 P_TimeVar9 P_TimeVar10.
Import ListNotations.
Local Open Scope R_scope.

(** the order of the error in the step: 1 for Euler, 2 for the other three *)
Notation rate mtd := (match mtd with Euler => 1 | _ => 2 end)%nat.

(** ** Forward: mean and covariance *)
(** dm/dt = - a m + b with twice differentiable a, b: at every grid time the error of the computed mean is at most
    K dt (Euler), K dt^2 (the others), with one K for all steps and all methods. *)
Theorem C59_mean_1d_partial :    (* missing: fourth order for RungeKutta4, refuted below *)
  forall T (a b m : R -> R),
  0 <= T ->
  smooth 2 T a -> smooth 2 T b ->
  (forall t, 0 <= t <= T -> is_derive m t (mean_rhs1 (a t) (b t) (m t))) ->
  exists K, forall mtd dt n (m0 s0 sigma : R) (mt st : list R),
    0 < dt -> INR n * dt <= T -> m0 = m 0 ->
    solve_fwd S1 mtd dt (grid dt (n + 1) a) (grid dt (n + 1) b) m0 s0 sigma = Ok (mt, st) ->
    forall k, (k <= n)%nat -> Rabs (nth k mt 0 - m (INR k * dt)) <= K * dt ^ (rate mtd).
Proof. exact mean_conv_1. Qed.
Print Assumptions C59_mean_1d_partial.

(** The same in d dimensions, componentwise. *)
Theorem C59_mean_nd_partial :    (* missing: fourth order for RungeKutta4, refuted below *)
  forall d T (A : R -> Rmat) (b m : R -> Rvec),
  0 <= T ->
  (forall i j, (i < d)%nat -> (j < d)%nat -> smooth 2 T (fun t => A t i j)) ->
  (forall i, (i < d)%nat -> smooth 2 T (fun t => b t i)) ->
  (forall t i, 0 <= t <= T -> (i < d)%nat -> is_derive (fun s => m s i) t (mean_rhsn d (A t) (b t) (m t) i)) ->
  exists K, forall mtd dt n (m0 : Rvec) (s0 sigma : Rmat) (mt : list Rvec) st,
    0 < dt -> INR n * dt <= T -> (forall i, (i < d)%nat -> m0 i = m 0 i) ->
    solve_fwd (Sn d) mtd dt (grid dt (n + 1) A) (grid dt (n + 1) b) m0 s0 sigma = Ok (mt, st) ->
    forall k i, (k <= n)%nat -> (i < d)%nat ->
    Rabs (nth k mt (fun _ => 0) i - m (INR k * dt) i) <= K * dt ^ (rate mtd).
Proof. exact mean_conv_n. Qed.
Print Assumptions C59_mean_nd_partial.

(** dS/dt = - 2 a S + sigma. *)
Theorem C59_cov_1d_partial :    (* missing: RungeKutta2, next theorem; fourth order for RungeKutta4, refuted below *)
  forall T (a s : R -> R) sigma,
  0 <= T ->
  smooth 2 T a ->
  (forall t, 0 <= t <= T -> is_derive s t (cov_rhs1 (a t) sigma (s t))) ->
  exists K, forall mtd dt n (b : R -> R) (m0 s0 : R) (mt st : list R),
    mtd <> RK2 -> 0 < dt -> INR n * dt <= T -> s0 = s 0 ->
    solve_fwd S1 mtd dt (grid dt (n + 1) a) (grid dt (n + 1) b) m0 s0 sigma = Ok (mt, st) ->
    forall k, (k <= n)%nat -> Rabs (nth k st 0 - s (INR k * dt)) <= K * dt ^ (rate mtd).
Proof. exact cov_conv_1. Qed.
Print Assumptions C59_cov_1d_partial.

(** RungeKutta2, whose predictor for the covariance is not that of the equation (C12): for small steps the computed
    covariance still converges, but only the first order is claimed. *)
Theorem C59_cov_1d_rk2_partial :    (* missing: second order, which fails (C14) *)
  forall T (a s : R -> R) sigma,
  0 <= T ->
  smooth 2 T a ->
  (forall t, 0 <= t <= T -> is_derive s t (cov_rhs1 (a t) sigma (s t))) ->
  exists K dt0, 0 < dt0 /\ forall dt n (b : R -> R) (m0 s0 : R) (mt st : list R),
    0 < dt < dt0 -> INR n * dt <= T -> s0 = s 0 ->
    solve_fwd S1 RK2 dt (grid dt (n + 1) a) (grid dt (n + 1) b) m0 s0 sigma = Ok (mt, st) ->
    forall k, (k <= n)%nat -> Rabs (nth k st 0 - s (INR k * dt)) <= K * dt.
Proof. exact rk2_cov_first. Qed.
Print Assumptions C59_cov_1d_rk2_partial.

(** dS/dt = - A S - S A' + Sigma. *)
Theorem C59_cov_nd_partial :    (* missing: RungeKutta2, next theorem; fourth order for RungeKutta4, refuted below *)
  forall d T (A : R -> Rmat) (s : R -> Rmat) (sigma : Rmat),
  0 <= T ->
  (forall i j, (i < d)%nat -> (j < d)%nat -> smooth 2 T (fun t => A t i j)) ->
  (forall t i j, 0 <= t <= T -> (i < d)%nat -> (j < d)%nat ->
     is_derive (fun u => s u i j) t (cov_rhsn d (A t) sigma (s t) i j)) ->
  exists K, forall mtd dt n (b : R -> Rvec) (m0 : Rvec) (s0 : Rmat) mt (st : list Rmat),
    mtd <> RK2 -> 0 < dt -> INR n * dt <= T -> (forall i j, (i < d)%nat -> (j < d)%nat -> s0 i j = s 0 i j) ->
    solve_fwd (Sn d) mtd dt (grid dt (n + 1) A) (grid dt (n + 1) b) m0 s0 sigma = Ok (mt, st) ->
    forall k i j, (k <= n)%nat -> (i < d)%nat -> (j < d)%nat ->
    Rabs (nth k st (fun _ _ => 0) i j - s (INR k * dt) i j) <= K * dt ^ (rate mtd).
Proof. exact cov_conv_n. Qed.
Print Assumptions C59_cov_nd_partial.

Theorem C59_cov_nd_rk2_partial :    (* missing: second order, which fails (C14) *)
  forall d T (A : R -> Rmat) (s : R -> Rmat) (sigma : Rmat),
  0 <= T ->
  (forall i j, (i < d)%nat -> (j < d)%nat -> smooth 2 T (fun t => A t i j)) ->
  (forall t i j, 0 <= t <= T -> (i < d)%nat -> (j < d)%nat ->
     is_derive (fun u => s u i j) t (cov_rhsn d (A t) sigma (s t) i j)) ->
  exists K dt0, 0 < dt0 /\ forall dt n (b : R -> Rvec) (m0 : Rvec) (s0 : Rmat) mt (st : list Rmat),
    0 < dt < dt0 -> INR n * dt <= T -> (forall i j, (i < d)%nat -> (j < d)%nat -> s0 i j = s 0 i j) ->
    solve_fwd (Sn d) RK2 dt (grid dt (n + 1) A) (grid dt (n + 1) b) m0 s0 sigma = Ok (mt, st) ->
    forall k i j, (k <= n)%nat -> (i < d)%nat -> (j < d)%nat ->
    Rabs (nth k st (fun _ _ => 0) i j - s (INR k * dt) i j) <= K * dt.
Proof. exact rk2_cov_first_n. Qed.
Print Assumptions C59_cov_nd_rk2_partial.

(** ** Backward: multipliers, with the jumps of the observations *)
(** lam: zero at the end, d lam/dt = - dE/dm + a lam between observations, and the jump of an observation added at its
    time; the arrays of jumps hold them at the grid times where they occur. *)
Theorem C59_lam_1d_partial :    (* missing: fourth order for RungeKutta4, refuted below *)
  forall T (a g l : R -> R) ps,
  0 <= T ->
  smooth 2 T a -> smooth 2 T g -> l T = 0 ->
  fits (fun u v y => forall t, u <= t <= v -> is_derive y t (lam_rhs1 (g t) (a t) (y t))) (fun v u c => v = u + c) T l ps ->
  exists K, forall mtd dt n (ds om os lam psi : list R),
    0 < dt -> INR n * dt = T -> on_grid dt ps -> (forall k, (k < n)%nat -> nth k om 0 = jump_at 0 ps (INR k * dt)) ->
    solve_bwd S1 mtd dt (grid dt (n + 1) a) (grid dt (n + 1) g) ds om os = Ok (lam, psi) ->
    forall k, (k <= n)%nat -> Rabs (nth k lam 0 - with_jumps l ps (INR k * dt)) <= K * dt ^ (rate mtd).
Proof. exact lam_conv_1. Qed.
Print Assumptions C59_lam_1d_partial.

(** psi: d psi/dt = - dE/dS + 2 a psi. *)
Theorem C59_psi_1d_partial :    (* missing: fourth order for RungeKutta4, refuted below *)
  forall T (a g p : R -> R) ps,
  0 <= T ->
  smooth 2 T a -> smooth 2 T g -> p T = 0 ->
  fits (fun u v y => forall t, u <= t <= v -> is_derive y t (psi_rhs1 (g t) (a t) (y t))) (fun v u c => v = u + c) T p ps ->
  exists K, forall mtd dt n (dm om os lam psi : list R),
    0 < dt -> INR n * dt = T -> on_grid dt ps -> (forall k, (k < n)%nat -> nth k os 0 = jump_at 0 ps (INR k * dt)) ->
    length dm = (n + 1)%nat ->
    solve_bwd S1 mtd dt (grid dt (n + 1) a) dm (grid dt (n + 1) g) om os = Ok (lam, psi) ->
    forall k, (k <= n)%nat -> Rabs (nth k psi 0 - with_jumps p ps (INR k * dt)) <= K * dt ^ (rate mtd).
Proof. exact psi_conv_1. Qed.
Print Assumptions C59_psi_1d_partial.

(** d psi/dt = - dE/dS + psi A + A' psi. *)
Theorem C59_psi_nd_partial :    (* missing: fourth order for RungeKutta4, refuted below *)
  forall d T (A g p : R -> Rmat) ps,
  0 <= T ->
  (forall i j, (i < d)%nat -> (j < d)%nat -> smooth 2 T (fun t => A t i j)) ->
  (forall i j, (i < d)%nat -> (j < d)%nat -> smooth 2 T (fun t => g t i j)) ->
  (forall i j, (i < d)%nat -> (j < d)%nat -> p T i j = 0) ->
  fits (fun u v y => forall t i j, u <= t <= v -> (i < d)%nat -> (j < d)%nat ->
          is_derive (fun s => y s i j) t (psi_rhsn d (g t) (A t) (y t) i j))
       (fun v u c => forall i j, (i < d)%nat -> (j < d)%nat -> v i j = u i j + c i j) T p ps ->
  exists K, forall mtd dt n (dm : list Rvec) (om : list Rvec) (os : list Rmat) (lam : list Rvec) (psi : list Rmat),
    0 < dt -> INR n * dt = T -> on_grid dt ps ->
    (forall k i j, (k < n)%nat -> (i < d)%nat -> (j < d)%nat ->
       nth k os (fun _ _ => 0) i j = jump_at (fun _ _ => 0) ps (INR k * dt) i j) ->
    length dm = (n + 1)%nat ->
    solve_bwd (Sn d) mtd dt (grid dt (n + 1) A) dm (grid dt (n + 1) g) om os = Ok (lam, psi) ->
    forall k i j, (k <= n)%nat -> (i < d)%nat -> (j < d)%nat ->
    Rabs (nth k psi (fun _ _ => 0) i j - with_jumps p ps (INR k * dt) i j) <= K * dt ^ (rate mtd).
Proof. exact psi_conv_n. Qed.
Print Assumptions C59_psi_nd_partial.

(** d lam/dt = - dE/dm + A' lam, for symmetric A. *)
Theorem C59_lam_nd_partial :    (* missing: A that is not symmetric, refuted below; fourth order for RungeKutta4, refuted below *)
  forall d T (A : R -> Rmat) (g l : R -> Rvec) ps,
  0 <= T ->
  (forall t i j, 0 <= t <= T -> A t i j = A t j i) ->
  (forall i j, (i < d)%nat -> (j < d)%nat -> smooth 2 T (fun t => A t i j)) ->
  (forall i, (i < d)%nat -> smooth 2 T (fun t => g t i)) ->
  (forall i, (i < d)%nat -> l T i = 0) ->
  fits (fun u v y => forall t i, u <= t <= v -> (i < d)%nat -> is_derive (fun s => y s i) t (lam_rhsn d (g t) (A t) (y t) i))
       (fun v u c => forall i, (i < d)%nat -> v i = u i + c i) T l ps ->
  exists K, forall mtd dt n (ds : list Rmat) (om : list Rvec) (os : list Rmat) (lam : list Rvec) (psi : list Rmat),
    0 < dt -> INR n * dt = T -> on_grid dt ps ->
    (forall k i, (k < n)%nat -> (i < d)%nat -> nth k om (fun _ => 0) i = jump_at (fun _ => 0) ps (INR k * dt) i) ->
    solve_bwd (Sn d) mtd dt (grid dt (n + 1) A) (grid dt (n + 1) g) ds om os = Ok (lam, psi) ->
    forall k i, (k <= n)%nat -> (i < d)%nat ->
    Rabs (nth k lam (fun _ => 0) i - with_jumps l ps (INR k * dt) i) <= K * dt ^ (rate mtd).
Proof. exact lam_conv_n_sym. Qed.
Print Assumptions C59_lam_nd_partial.

(** For any A the computed lam converges to the solution of the equation with A in place of A'. *)
Theorem C59_lam_nd_code :
  forall d T (A : R -> Rmat) (g l : R -> Rvec) ps,
  0 <= T ->
  (forall i j, (i < d)%nat -> (j < d)%nat -> smooth 2 T (fun t => A t i j)) ->
  (forall i, (i < d)%nat -> smooth 2 T (fun t => g t i)) ->
  (forall i, (i < d)%nat -> l T i = 0) ->
  fits (fun u v y => forall t i, u <= t <= v -> (i < d)%nat -> is_derive (fun s => y s i) t (lam_rhsn d (g t) (mtr (A t)) (y t) i))
       (fun v u c => forall i, (i < d)%nat -> v i = u i + c i) T l ps ->
  exists K, forall mtd dt n (ds : list Rmat) (om : list Rvec) (os : list Rmat) (lam : list Rvec) (psi : list Rmat),
    0 < dt -> INR n * dt = T -> on_grid dt ps ->
    (forall k i, (k < n)%nat -> (i < d)%nat -> nth k om (fun _ => 0) i = jump_at (fun _ => 0) ps (INR k * dt) i) ->
    solve_bwd (Sn d) mtd dt (grid dt (n + 1) A) (grid dt (n + 1) g) ds om os = Ok (lam, psi) ->
    forall k i, (k <= n)%nat -> (i < d)%nat ->
    Rabs (nth k lam (fun _ => 0) i - with_jumps l ps (INR k * dt) i) <= K * dt ^ (rate mtd).
Proof. exact lam_conv_n. Qed.
Print Assumptions C59_lam_nd_code.

(** ** What does not hold *)
(** A not symmetric: d lam/dt = - dE/dm + A' lam with A = [[0,1],[0,0]], dE/dm = (1,0) on [0,1] has a solution, but
    whatever the method, lam at time 0 stays at a distance of at least 1/4 from it for all small steps. *)
Theorem C59_lam_nd_refuted : exists (A : R -> Rmat) (g l : R -> Rvec),
  (forall i j, smooth 2 1 (fun t => A t i j)) /\ (forall i, smooth 2 1 (fun t => g t i)) /\
  (forall i, (i < 2)%nat -> l 1 i = 0) /\
  (forall t i, 0 <= t <= 1 -> (i < 2)%nat -> is_derive (fun s => l s i) t (lam_rhsn 2 (g t) (A t) (l t) i)) /\
  exists dt0, 0 < dt0 /\ forall mtd dt n ds om os lam psi,
    0 < dt < dt0 -> INR n * dt = 1 -> (forall k i, nth k om (fun _ => 0) i = 0) ->
    solve_bwd (Sn 2) mtd dt (grid dt (n + 1) A) (grid dt (n + 1) g) ds om os = Ok (lam, psi) ->
    1 / 4 <= Rabs (nth 0 lam (fun _ => 0) 1%nat - l 0 1%nat).
Proof.
  exists cA, cg, cl. split; [intros i j; unfold cA; apply smooth_const|]. split; [intros i; unfold cg; apply smooth_const|].
  split; [intros [|[|i]] Hi; unfold cl; cbn; lra|]. split; [intros t i _; apply cl_solves|]. exact lam_wrong_limit.
Qed.
Print Assumptions C59_lam_nd_refuted.

(** RungeKutta4 takes averages of neighbouring grid values for the coefficients in the middle of a step: on
    dm/dt = 3 t^2, m(0) = 0 its error at time 1 is not even of third order. *)
Theorem C59_rk4_refuted : forall C : R, exists n mt st, let dt := / INR n in
  (0 < n)%nat /\
  solve_fwd S1 RK4 dt (grid dt (n + 1) (fun _ => 0)) (grid dt (n + 1) (fun t => 3 * t ^ 2)) 0 1 1 = Ok (mt, st) /\
  C * dt ^ 3 < Rabs (nth n mt 0 - (INR n * dt) ^ 3).
Proof. exact rk4_only_second. Qed.
Print Assumptions C59_rk4_refuted.

(** ** Concrete cases *)
(** dm/dt = - t m + t, m(0) = 2, whose solution is 1 + exp(-t^2/2): with n steps on [0,1] every method returns, and the
    error at time 1 is at most K / n (Euler), K / n^2 (the others). *)
Example C59_mean_case : exists K, forall mtd n, (0 < n)%nat -> exists mt st,
  solve_fwd S1 mtd (/ INR n) (grid (/ INR n) (n + 1) (fun t => t)) (grid (/ INR n) (n + 1) (fun t => t)) 2 1 1 = Ok (mt, st) /\
  Rabs (nth n mt 0 - (1 + exp (- 1 / 2))) <= K * (/ INR n) ^ (rate mtd).
Proof.
  destruct (C59_mean_1d_partial 1 (fun t => t) (fun t => t) (fun t => 1 + exp (- t ^ 2 / 2)) ltac:(lra)
    (smooth_id 2 1 ltac:(lra)) (smooth_id 2 1 ltac:(lra)) (fun t _ => mean_case t)) as (K & HK).
  exists K. intros mtd n Hn. assert (H0 : 0 < INR n) by (apply lt_0_INR; lia).
  destruct (solve_fwd_total S1 mtd (/ INR n) (grid (/ INR n) (n + 1) (fun t => t)) (grid (/ INR n) (n + 1) (fun t => t)) 2 1 1)
    as (mt & st & Hs); [rewrite !grid_len; lia|rewrite grid_len; lia|].
  exists mt, st. split; [exact Hs|].
  assert (E1 : INR n * / INR n = 1) by (apply Rinv_r; lra).
  assert (P : 0 < / INR n) by (apply Rinv_0_lt_compat; lra).
  assert (M0 : (2 : R) = 1 + exp (- 0 ^ 2 / 2)).
  { replace (- 0 ^ 2 / 2) with 0 by field. rewrite exp_0. ring. }
  pose proof (HK mtd (/ INR n) n 2 1 1 mt st P ltac:(lra) M0 Hs n (le_n n)) as H. rewrite E1 in H.
  replace (- 1 ^ 2 / 2) with (- 1 / 2) in H by field. exact H.
Qed.
(** one observation at time 1/2 with jump 3, a = 1, dE/dm = 0: lam is 0 after 1/2 and 3 exp(t - 1/2) up to 1/2 *)
Example C59_jump_case :
  fits (fun u v y => forall t, u <= t <= v -> is_derive y t (lam_rhs1 0 1 (y t))) (fun v u c => v = u + c)
    1 (fun _ => 0) [(1/2, 3, fun t => 3 * exp (t - 1/2))] /\
  with_jumps (fun _ => 0) [(1/2, 3, fun t => 3 * exp (t - 1/2))] 0 = 3 * exp (- (1/2)) /\
  on_grid (1/4) [(1/2, 3, fun t => 3 * exp (t - 1/2))].
Proof. exact jump_case. Qed.
