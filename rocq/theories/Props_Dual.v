(** * C48: the multipliers are sensitivities *)
From Coq Require Import ZArith List Reals Lra Lia.
From Verif Require Import Num Arr ArrFacts M_Ode Spec_Ode Spec_Dual P_Ode P_OdeRK P_OdeR P_Dual P_Dual2.
Import ListNotations.
Local Open Scope R_scope.

(** Two forward sweeps with the same A, b and Sigma and different initial moments; one
    backward sweep.  The Euler sweep: the multiplier at j times the change of the moment
    at j + 1 is the change of the accumulated cost
      dt dm_k . m_k + om_(k-1) . m_k   over the grid points k = j+1 .. n-1. *)
Theorem C48_euler_1d :
  forall (dt : R) (A b : list R) (m0 m0' s0 s0' sigma : R) (mt st mt' st' dm ds om os lam psi : list R) j,
  solve_fwd S1 Euler dt A b m0 s0 sigma = Ok (mt, st) ->
  solve_fwd S1 Euler dt A b m0' s0' sigma = Ok (mt', st') ->
  solve_bwd S1 Euler dt A dm ds om os = Ok (lam, psi) ->
  length A = length b -> length dm = length b -> length ds = length b -> (j + 1 < length b)%nat ->
  nth j lam 0 * (nth (j + 1) mt' 0 - nth (j + 1) mt 0) =
    rsum (length b - 1 - j) (fun i => (dt * nth (j + i + 1) dm 0 + nth (j + i) om 0) * (nth (j + i + 1) mt' 0 - nth (j + i + 1) mt 0)) /\
  nth j psi 0 * (nth (j + 1) st' 0 - nth (j + 1) st 0) =
    rsum (length b - 1 - j) (fun i => (dt * nth (j + i + 1) ds 0 + nth (j + i) os 0) * (nth (j + i + 1) st' 0 - nth (j + i + 1) st 0)).
Proof. exact euler_dual_1. Qed.
Print Assumptions C48_euler_1d.

Theorem C48_euler_covariance_nd :
  forall d (dt : R) (A : list Rmat) (b : list Rvec) (m0 m0' : Rvec) (s0 s0' sigma : Rmat)
  (mt mt' : list Rvec) (st st' : list Rmat) (dm : list Rvec) (ds : list Rmat) (om : list Rvec) (os : list Rmat) (lam : list Rvec) (psi : list Rmat) j,
  solve_fwd (Sn d) Euler dt A b m0 s0 sigma = Ok (mt, st) ->
  solve_fwd (Sn d) Euler dt A b m0' s0' sigma = Ok (mt', st') ->
  solve_bwd (Sn d) Euler dt A dm ds om os = Ok (lam, psi) ->
  length A = length b -> length dm = length b -> length ds = length b -> (j + 1 < length b)%nat ->
  frobp d (atm psi j) (mdiff (atm st' (j + 1)) (atm st (j + 1))) =
    rsum (length b - 1 - j) (fun i =>
      dt * frobp d (atm ds (j + i + 1)) (mdiff (atm st' (j + i + 1)) (atm st (j + i + 1))) +
      frobp d (atm os (j + i)) (mdiff (atm st' (j + i + 1)) (atm st (j + i + 1)))).
Proof. exact euler_dual_cov_n. Qed.
Print Assumptions C48_euler_covariance_nd.

(** missing: A not symmetric, refuted below *)
Theorem C48_euler_mean_nd_partial :
  forall d (dt : R) (A : list Rmat) (b : list Rvec) (m0 m0' : Rvec) (s0 s0' sigma : Rmat)
  (mt mt' : list Rvec) (st st' : list Rmat) (dm : list Rvec) (ds : list Rmat) (om : list Rvec) (os : list Rmat) (lam : list Rvec) (psi : list Rmat) j,
  solve_fwd (Sn d) Euler dt A b m0 s0 sigma = Ok (mt, st) ->
  solve_fwd (Sn d) Euler dt A b m0' s0' sigma = Ok (mt', st') ->
  solve_bwd (Sn d) Euler dt A dm ds om os = Ok (lam, psi) ->
  length A = length b -> length dm = length b -> (j + 1 < length b)%nat ->
  (forall a, In a A -> symmetric d a) ->
  dotp d (atv lam j) (vdiff (atv mt' (j + 1)) (atv mt (j + 1))) =
    rsum (length b - 1 - j) (fun i =>
      dt * dotp d (atv dm (j + i + 1)) (vdiff (atv mt' (j + i + 1)) (atv mt (j + i + 1))) +
      dotp d (atv om (j + i)) (vdiff (atv mt' (j + i + 1)) (atv mt (j + i + 1)))).
Proof. exact euler_dual_mean_n. Qed.
Print Assumptions C48_euler_mean_nd_partial.

(** lam_t.dot(at.T) is A lam and not A' lam: with an upper triangular A the two sides are -1 and -2 *)
Theorem C48_euler_mean_nd_refuted :
  exists (mt mt' lam : list Rvec) (st st' psi : list Rmat),
  solve_fwd (Sn 2) Euler (1 : RNum) [Aup; Aup; Aup] [z2; z2; z2] z2 zz2 zz2 = Ok (mt, st) /\
  solve_fwd (Sn 2) Euler (1 : RNum) [Aup; Aup; Aup] [z2; z2; z2] e2v zz2 zz2 = Ok (mt', st') /\
  solve_bwd (Sn 2) Euler (1 : RNum) [Aup; Aup; Aup] [z2; z2; z2] [zz2; zz2; zz2] [z2; e1v; z2] [zz2; zz2; zz2] = Ok (lam, psi) /\
  dotp 2 (atv lam 0) (vdiff (atv mt' 1) (atv mt 1)) = -1 /\
  rsum 2 (fun i => 1 * dotp 2 (atv [z2; z2; z2] (i + 1)) (vdiff (atv mt' (i + 1)) (atv mt (i + 1))) +
      dotp 2 (atv [z2; e1v; z2] i) (vdiff (atv mt' (i + 1)) (atv mt (i + 1)))) = -2.
Proof. exact mean_dual_wrong. Qed.
Print Assumptions C48_euler_mean_nd_refuted.

(** Heun and RK4, no running cost: the multiplier at j times the change of the moment at j is
    the change of the sum of om_k . m_k over k = j .. n-2 *)
Theorem C48_jumps_1d :
  forall mtd (dt : R) (A b : list R) (m0 m0' s0 s0' sigma : R) (mt st mt' st' dm ds om os lam psi : list R) j,
  mtd = Heun \/ mtd = RK4 ->
  solve_fwd S1 mtd dt A b m0 s0 sigma = Ok (mt, st) ->
  solve_fwd S1 mtd dt A b m0' s0' sigma = Ok (mt', st') ->
  solve_bwd S1 mtd dt A dm ds om os = Ok (lam, psi) ->
  length A = length b -> length dm = length b -> length ds = length b -> (j < length b)%nat ->
  (forall u, In u dm -> u = 0) -> (forall u, In u ds -> u = 0) ->
  nth j lam 0 * (nth j mt' 0 - nth j mt 0) =
    rsum (length b - 1 - j) (fun i => nth (j + i) om 0 * (nth (j + i) mt' 0 - nth (j + i) mt 0)) /\
  nth j psi 0 * (nth j st' 0 - nth j st 0) =
    rsum (length b - 1 - j) (fun i => nth (j + i) os 0 * (nth (j + i) st' 0 - nth (j + i) st 0)).
Proof. exact jumps_dual_1. Qed.
Print Assumptions C48_jumps_1d.

(** missing: the mean part for A not symmetric *)
Theorem C48_jumps_nd_partial :
  forall d mtd (dt : R) (A : list Rmat) (b : list Rvec) (m0 m0' : Rvec) (s0 s0' sigma : Rmat)
  (mt mt' : list Rvec) (st st' : list Rmat) (dm : list Rvec) (ds : list Rmat) (om : list Rvec) (os : list Rmat) (lam : list Rvec) (psi : list Rmat) j,
  mtd = Heun \/ mtd = RK4 ->
  solve_fwd (Sn d) mtd dt A b m0 s0 sigma = Ok (mt, st) ->
  solve_fwd (Sn d) mtd dt A b m0' s0' sigma = Ok (mt', st') ->
  solve_bwd (Sn d) mtd dt A dm ds om os = Ok (lam, psi) ->
  length A = length b -> length dm = length b -> length ds = length b -> (j < length b)%nat ->
  (forall u, In u dm -> u = fun _ => 0) -> (forall u, In u ds -> u = fun _ _ => 0) ->
  ((forall a, In a A -> symmetric d a) ->
   dotp d (atv lam j) (vdiff (atv mt' j) (atv mt j)) =
     rsum (length b - 1 - j) (fun i => dotp d (atv om (j + i)) (vdiff (atv mt' (j + i)) (atv mt (j + i))))) /\
  frobp d (atm psi j) (mdiff (atm st' j) (atm st j)) =
     rsum (length b - 1 - j) (fun i => frobp d (atm os (j + i)) (mdiff (atm st' (j + i)) (atm st (j + i)))).
Proof. exact jumps_dual_n. Qed.
Print Assumptions C48_jumps_nd_partial.

(** Heun and RK4 with running costs: the cost of each step is the integral of dm . m by the scheme that
    integrates the moments *)
Theorem C48_costs_1d :
  forall mtd T (dt : R) (A b : list R) (m0 m0' s0 s0' sigma : R) (mt st mt' st' dm ds om os lam psi : list R) j,
  mtd = Heun /\ T = tab_heun \/ mtd = RK4 /\ T = tab_rk4 ->
  solve_fwd S1 mtd dt A b m0 s0 sigma = Ok (mt, st) ->
  solve_fwd S1 mtd dt A b m0' s0' sigma = Ok (mt', st') ->
  solve_bwd S1 mtd dt A dm ds om os = Ok (lam, psi) ->
  length A = length b -> length dm = length b -> length ds = length b -> (j < length b)%nat ->
  nth j lam 0 * (nth j mt' 0 - nth j mt 0) =
    rsum (length b - 1 - j) (fun i => nth (j + i) om 0 * (nth (j + i) mt' 0 - nth (j + i) mt 0) +
      (mean_cost1 T A b dm dt (j + i) (nth (j + i) mt' 0) - mean_cost1 T A b dm dt (j + i) (nth (j + i) mt 0))) /\
  nth j psi 0 * (nth j st' 0 - nth j st 0) =
    rsum (length b - 1 - j) (fun i => nth (j + i) os 0 * (nth (j + i) st' 0 - nth (j + i) st 0) +
      (cov_cost1 T A ds sigma dt (j + i) (nth (j + i) st' 0) - cov_cost1 T A ds sigma dt (j + i) (nth (j + i) st 0))).
Proof.
  intros mtd T dt A b m0 m0' s0 s0' sigma mt st mt' st' dm ds om os lam psi j Hm F F' Bw LA Ld Ls Hj.
  assert (HT : T = tab_of mtd) by (destruct Hm as [[-> ->]|[-> ->]]; reflexivity). subst T.
  assert (Hm' : mtd = Heun \/ mtd = RK4) by tauto. split.
  - etransitivity; [apply (both_m_cost S1 scalEv scalEv mtd dt A b m0 m0' s0 s0' sigma mt mt' st st' dm om lam ds os psi F F' Bw LA Ld
      Rmult _ _ _ j pair1 adj_m1 Hm' (fun _ _ => I) (fun _ _ => I) Hj)|].
    apply sumn_ext. intros i Hi. cbv zeta. unfold mean_cost1. cbv zeta.
    apply f_equal2; [reflexivity|]. apply f_equal2; apply (rk_integral_ext (V := sV)); intros th u; try reflexivity;
    unfold Fm, mean_rhs1, ga, gm; cbn -[interp]; unfold fun_mt_1; rnum; ring.
  - etransitivity; [apply (both_s_cost S1 scalEv mtd dt A b m0 m0' s0 s0' sigma mt mt' st st' dm om lam ds os psi F F' Bw LA Ld Ls
      Rmult _ _ _ j pair1 adj_s1 Hm' (fun _ _ => I) (fun _ _ => I) Hj)|].
    apply sumn_ext. intros i Hi. cbv zeta. unfold cov_cost1. cbv zeta.
    apply f_equal2; [reflexivity|]. apply f_equal2; apply (rk_integral_ext (V := sV)); intros th u; try reflexivity;
    unfold Fs, cov_rhs1, ga; cbn -[interp]; unfold fun_st_1; rnum; ring.
Qed.
Print Assumptions C48_costs_1d.
(** missing: the mean part for A not symmetric *)
Theorem C48_costs_nd_partial :
  forall d mtd T (dt : R) (A : list Rmat) (b : list Rvec) (m0 m0' : Rvec) (s0 s0' sigma : Rmat)
  (mt mt' : list Rvec) (st st' : list Rmat) (dm : list Rvec) (ds : list Rmat) (om : list Rvec) (os : list Rmat) (lam : list Rvec) (psi : list Rmat) j,
  mtd = Heun /\ T = tab_heun \/ mtd = RK4 /\ T = tab_rk4 ->
  solve_fwd (Sn d) mtd dt A b m0 s0 sigma = Ok (mt, st) ->
  solve_fwd (Sn d) mtd dt A b m0' s0' sigma = Ok (mt', st') ->
  solve_bwd (Sn d) mtd dt A dm ds om os = Ok (lam, psi) ->
  length A = length b -> length dm = length b -> length ds = length b -> (j < length b)%nat ->
  ((forall a, In a A -> symmetric d a) ->
   dotp d (atv lam j) (vdiff (atv mt' j) (atv mt j)) =
     rsum (length b - 1 - j) (fun i => dotp d (atv om (j + i)) (vdiff (atv mt' (j + i)) (atv mt (j + i))) +
       (mean_costn d T A b dm dt (j + i) (atv mt' (j + i)) - mean_costn d T A b dm dt (j + i) (atv mt (j + i))))) /\
  frobp d (atm psi j) (mdiff (atm st' j) (atm st j)) =
     rsum (length b - 1 - j) (fun i => frobp d (atm os (j + i)) (mdiff (atm st' (j + i)) (atm st (j + i))) +
       (cov_costn d T A ds sigma dt (j + i) (atm st' (j + i)) - cov_costn d T A ds sigma dt (j + i) (atm st (j + i)))).
Proof.
  intros d mtd T dt A b m0 m0' s0 s0' sigma mt mt' st st' dm ds om os lam psi j Hm F F' Bw LA Ld Ls Hj.
  assert (HT : T = tab_of mtd) by (destruct Hm as [[-> ->]|[-> ->]]; reflexivity). subst T.
  assert (Hm' : mtd = Heun \/ mtd = RK4) by tauto. split.
  - intros HS.
    assert (LA' : forall q, (q < @length Rvec b)%nat -> symmetric d (ga (Sn d) A q)).
    { intros q Hq. apply HS, nth_In. change (q < @length Rmat A)%nat. rewrite LA. exact Hq. }
    etransitivity; [apply (both_m_cost (Sn d) vecEv matEv mtd dt A b m0 m0' s0 s0' sigma mt mt' st st' dm om lam ds os psi F F' Bw LA Ld
      (dotp d) _ _ _ j (pairv d) (adj_mn d) Hm')|reflexivity].
    + exact LA'.
    + intros k Hk. change (k + 1 < @length Rvec b)%nat in Hk. apply mid_sym; apply LA'; lia.
    + exact Hj.
  - exact (both_s_cost (Sn d) matEv mtd dt A b m0 m0' s0 s0' sigma mt mt' st st' dm om lam ds os psi F F' Bw LA Ld Ls
      (frobp d) _ _ _ j (pairm d) (adj_sn d) Hm' (fun _ _ => I) (fun _ _ => I) Hj).
Qed.
Print Assumptions C48_costs_nd_partial.
(** with the trapezoidal sum of dm . m over the grid points instead, the two sides differ: for Heun on two
    points they are 0 and 1/4 *)
Theorem C48_trapezoid_refuted :
  exists (mt mt' lam st st' psi : list R),
  solve_fwd S1 Heun (1 : RNum) [1; 1] [0; 0] 0 0 0 = Ok (mt, st) /\
  solve_fwd S1 Heun (1 : RNum) [1; 1] [0; 0] 1 0 0 = Ok (mt', st') /\
  solve_bwd S1 Heun (1 : RNum) [1; 1] [0; 1] [0; 0] [0; 0] [0; 0] = Ok (lam, psi) /\
  nth 0 lam 0 * (nth 0 mt' 0 - nth 0 mt 0) = 0 /\
  1 / 2 * (0 * (nth 0 mt' 0 - nth 0 mt 0) + 1 * (nth 1 mt' 0 - nth 1 mt 0)) = 1 / 4.
Proof.
  do 6 eexists. split; [reflexivity|]. split; [reflexivity|]. split; [reflexivity|].
  split; cbv -[Rplus Rminus Rmult Ropp Rdiv IZR]; lra.
Qed.
Print Assumptions C48_trapezoid_refuted.

(** the RK2 sweeps are not adjoint to each other *)
Theorem C48_rk2_refuted :
  exists (mt mt' lam st st' psi : list R),
  solve_fwd S1 RK2 (1 : RNum) [0; 2; 0] [0; 0; 0] 0 0 0 = Ok (mt, st) /\
  solve_fwd S1 RK2 (1 : RNum) [0; 2; 0] [0; 0; 0] 1 0 0 = Ok (mt', st') /\
  solve_bwd S1 RK2 (1 : RNum) [0; 2; 0] [0; 0; 0] [0; 0; 0] [0; 1; 0] [0; 0; 0] = Ok (lam, psi) /\
  nth 0 lam 0 * (nth 0 mt' 0 - nth 0 mt 0) = 1 /\
  rsum 2 (fun i => nth i [0; 1; 0] 0 * (nth i mt' 0 - nth i mt 0)) = 0.
Proof. exact rk2_dual_wrong. Qed.
Print Assumptions C48_rk2_refuted.

(** the hypotheses hold: three grid points, both sweeps and the backward sweep succeed, and the
    multiplier at 0 is not zero *)
Example C48_instance :
  exists mt st mt' st' lam psi,
    solve_fwd S1 Euler (1/10 : RNum) [1; 2; 3] [1; 0; 1] 0 1 1 = Ok (mt, st) /\
    solve_fwd S1 Euler (1/10 : RNum) [1; 2; 3] [1; 0; 1] 5 2 1 = Ok (mt', st') /\
    solve_bwd S1 Euler (1/10 : RNum) [1; 2; 3] [4; 5; 6] [1; 1; 2] [0; 7; 0] [0; 1; 0] = Ok (lam, psi) /\
    nth 0 lam 0 = 658 / 100 /\ nth 1 mt' 0 - nth 1 mt 0 = 45 / 10 /\ nth 2 mt' 0 - nth 2 mt 0 = 36 / 10 /\
    658 / 100 * (45 / 10) = (1 / 10 * 5 + 0) * (45 / 10) + (1 / 10 * 6 + 7) * (36 / 10).
Proof.
  do 6 eexists. split; [reflexivity|]. split; [reflexivity|]. split; [reflexivity|].
  repeat split; cbv -[Rplus Rminus Rmult Ropp Rdiv IZR]; lra.
Qed.
(** Heun on three points with running costs: multiplier, change of the moment, and the costs of the two steps *)
Example C48_costs_instance :
  exists mt st mt' st' lam psi,
    solve_fwd S1 Heun (1 : RNum) [1; 2; 1] [0; 0; 0] 0 1 1 = Ok (mt, st) /\
    solve_fwd S1 Heun (1 : RNum) [1; 2; 1] [0; 0; 0] 4 2 1 = Ok (mt', st') /\
    solve_bwd S1 Heun (1 : RNum) [1; 2; 1] [4; 5; 6] [1; 1; 2] [3; 7; 0] [0; 1; 0] = Ok (lam, psi) /\
    nth 0 lam 0 = 33 / 4 /\ nth 0 mt' 0 - nth 0 mt 0 = 4 /\ nth 1 mt' 0 - nth 1 mt 0 = 2 /\
    mean_cost1 tab_heun [1; 2; 1] [0; 0; 0] [4; 5; 6] 1 0 (nth 0 mt' 0) = 8 /\
    mean_cost1 tab_heun [1; 2; 1] [0; 0; 0] [4; 5; 6] 1 1 (nth 1 mt' 0) = -1 /\
    33 / 4 * 4 = 3 * 4 + 8 + (7 * 2 + -1).
Proof.
  do 6 eexists. split; [reflexivity|]. split; [reflexivity|]. split; [reflexivity|].
  repeat split; cbv -[Rplus Rminus Rmult Ropp Rdiv IZR]; lra.
Qed.
