(** * Properties C11 - C19: the ODE solvers. *)
From Coq Require Import ZArith Bool String Reals List Lra.
From Coq.Floats Require Import SpecFloat.
From Coquelicot Require Import Coquelicot.
From Verif Require Import Num Arr ArrFacts M_Ode Spec_Ode P_Ode P_OdeRK P_OdeR P_OdeSel P_Conv.
Import ListNotations.
Local Open Scope R_scope.

(** ** C11 *)
Theorem C11_fwd_shape_boundary :
  forall (K : Num) (P : Sys K) mtd dt lin_a off_b m0 s0 sigma mt st,
  solve_fwd P mtd dt lin_a off_b m0 s0 sigma = Ok (mt, st) ->
  length mt = length off_b /\ length st = length off_b /\
  nth_error mt 0 = Some m0 /\ nth_error st 0 = Some s0.
Proof. exact (fun K => @solve_fwd_shape K). Qed.
Print Assumptions C11_fwd_shape_boundary.

Theorem C11_fwd_total :
  forall (K : Num) (P : Sys K) mtd dt lin_a off_b m0 s0 sigma,
  (length off_b <= length lin_a)%nat -> (0 < length off_b)%nat ->
  exists mt st, solve_fwd P mtd dt lin_a off_b m0 s0 sigma = Ok (mt, st).
Proof. exact (fun K => @solve_fwd_total K). Qed.
Print Assumptions C11_fwd_total.

Theorem C11_bwd_shape_boundary :
  forall (K : Num) (P : Sys K) mtd dt lin_a dm ds om os lam psi,
  solve_bwd P mtd dt lin_a dm ds om os = Ok (lam, psi) ->
  length lam = length dm /\ length psi = length dm /\
  (dm <> [] -> nth_error lam (length dm - 1) = Some (vzero (VM P)) /\
               nth_error psi (length dm - 1) = Some (vzero (VS P))).
Proof. exact (fun K => @solve_bwd_shape K). Qed.
Print Assumptions C11_bwd_shape_boundary.

Theorem C11_bwd_total :
  forall (K : Num) (P : Sys K) mtd dt lin_a dm ds om os,
  (length dm <= length lin_a)%nat -> (length dm <= length ds)%nat ->
  (length dm - 1 <= length om)%nat -> (length dm - 1 <= length os)%nat ->
  exists lam psi, solve_bwd P mtd dt lin_a dm ds om os = Ok (lam, psi).
Proof. exact (fun K => @solve_bwd_total K). Qed.
Print Assumptions C11_bwd_total.

(** arrays of other lengths: the exact condition; otherwise IndexError *)
Theorem C11_fwd_lengths :
  forall (K : Num) (P : Sys K) mtd dt lin_a off_b m0 s0 sigma,
  let enough := (1 <= length off_b)%nat /\
    (length off_b = 1 \/ length off_b <= length lin_a \/ (mtd = Euler /\ length off_b = length lin_a + 1))%nat in
  (enough -> exists mt st, solve_fwd P mtd dt lin_a off_b m0 s0 sigma = Ok (mt, st)) /\
  (~ enough -> solve_fwd P mtd dt lin_a off_b m0 s0 sigma = Err IndexError).
Proof. exact (fun K => @solve_fwd_lengths K). Qed.
Print Assumptions C11_fwd_lengths.
Theorem C11_bwd_lengths :
  forall (K : Num) (P : Sys K) mtd dt lin_a dm ds om os,
  let enough := (length dm <= 1 \/
    (length dm <= length lin_a /\ length dm <= length ds /\ length dm <= length om + 1 /\ length dm <= length os + 1))%nat in
  (enough -> exists lam psi, solve_bwd P mtd dt lin_a dm ds om os = Ok (lam, psi)) /\
  (~ enough -> solve_bwd P mtd dt lin_a dm ds om os = Err IndexError).
Proof. exact (fun K => @solve_bwd_lengths K). Qed.
Print Assumptions C11_bwd_lengths.

(** binary64 instance, RK4, three grid points *)
Example C11_instance :
  exists mt st,
    solve_fwd (sys1 FNum) RK4 (nlit (n:=FNum) 1 10)
      [nlit (n:=FNum) 1 2; nlit (n:=FNum) 3 2; nlit (n:=FNum) 5 2] [nZ (K:=FNum) 1; nZ 2; nZ 3] (nZ 1) (nZ 2) (nZ 3) = Ok (mt, st)
    /\ nth_error mt 0 = Some (nZ (K:=FNum) 1).
Proof. eexists; eexists. split; [vm_compute; reflexivity|reflexivity]. Qed.

(** ** C12 *)
Theorem C12_mean_1d :
  forall mtd (dt : R) (A b : list R) (m0 s0 sigma : R) (mt st : list R) k,
  solve_fwd S1 mtd dt A b m0 s0 sigma = Ok (mt, st) ->
  length A = length b -> (k + 1 < length b)%nat ->
  nth (k+1) mt 0 =
  rk_step (V := sV) (tab_of mtd)
    (fun th m => mean_rhs1 (interp (V:=sV) th (nth k A 0) (nth (k+1) A 0))
                           (interp (V:=sV) th (nth k b 0) (nth (k+1) b 0)) m)
    dt (nth k mt 0).
Proof. exact fwd_mean_1. Qed.
Print Assumptions C12_mean_1d.

Theorem C12_mean_nd :
  forall d mtd (dt : R) (A : list Rmat) (b : list Rvec) m0 s0 sigma (mt : list Rvec) st k,
  solve_fwd (Sn d) mtd dt A b m0 s0 sigma = Ok (mt, st) ->
  length A = length b -> (k + 1 < length b)%nat ->
  nth (k+1) mt (vzero vV) =
  rk_step (V := vV) (tab_of mtd)
    (fun th m => mean_rhsn d (interp (V:=mV) th (nth k A (vzero mV)) (nth (k+1) A (vzero mV)))
                           (interp (V:=vV) th (nth k b (vzero vV)) (nth (k+1) b (vzero vV))) m)
    dt (nth k mt (vzero vV)).
Proof. exact fwd_mean_n. Qed.
Print Assumptions C12_mean_nd.

Theorem C12_cov_1d_partial :    (* missing: RK2, refuted below *)
  forall mtd (dt : R) (A b : list R) (m0 s0 sigma : R) (mt st : list R) k,
  mtd <> RK2 ->
  solve_fwd S1 mtd dt A b m0 s0 sigma = Ok (mt, st) ->
  length A = length b -> (k + 1 < length b)%nat ->
  nth (k+1) st 0 =
  rk_step (V := sV) (tab_of mtd)
    (fun th s => cov_rhs1 (interp (V:=sV) th (nth k A 0) (nth (k+1) A 0)) sigma s)
    dt (nth k st 0).
Proof. exact fwd_cov_1. Qed.
Print Assumptions C12_cov_1d_partial.

Theorem C12_cov_nd_partial :    (* missing: RK2, refuted below *)
  forall d mtd (dt : R) (A : list Rmat) (b : list Rvec) m0 s0 sigma mt (st : list Rmat) k,
  mtd <> RK2 ->
  solve_fwd (Sn d) mtd dt A b m0 s0 sigma = Ok (mt, st) ->
  length A = length b -> (k + 1 < length b)%nat ->
  nth (k+1) st (vzero mV) =
  rk_step (V := mV) (tab_of mtd)
    (fun th s => cov_rhsn d (interp (V:=mV) th (nth k A (vzero mV)) (nth (k+1) A (vzero mV))) sigma s)
    dt (nth k st (vzero mV)).
Proof. exact fwd_cov_n. Qed.
Print Assumptions C12_cov_nd_partial.

(** runge_kutta2.py:96 passes the covariance where the coefficient belongs. *)
Theorem C12_rk2_covariance_refuted :
  exists (dt : R) (A b : list R) (m0 s0 sigma : R) mt st,
    solve_fwd S1 RK2 dt A b m0 s0 sigma = Ok (mt, st) /\ length A = length b /\
    0 < dt /\ 0 < s0 /\ 0 < sigma /\
    nth 1 st 0 <>
    rk_step (V := sV) tab_midpoint
      (fun th s => cov_rhs1 (interp (V:=sV) th (nth 0 A 0) (nth 1 A 0)) sigma s) dt (nth 0 st 0).
Proof. exact rk2_cov_wrong. Qed.
Print Assumptions C12_rk2_covariance_refuted.

(** two 2 x 2 systems, non-constant non-symmetric coefficients: the hypotheses hold *)
Example C12_instance :
  exists mt st,
    solve_fwd (Sn 2) RK4 (1/10) [m2 1 2 3 4; m2 0 1 5 2; m2 1 1 0 1] [v2 1 2; v2 3 4; v2 5 6]
              (v2 1 1) (m2 1 0 0 1) (m2 1 0 0 1) = Ok (mt, st) /\ (1 + 1 < 3)%nat.
Proof.
  destruct (C11_fwd_total RNum (Sn 2) RK4 (1/10) [m2 1 2 3 4; m2 0 1 5 2; m2 1 1 0 1]
              [v2 1 2; v2 3 4; v2 5 6] (v2 1 1) (m2 1 0 0 1) (m2 1 0 0 1)) as (mt & st & H);
    [cbn; auto|cbn; auto with arith|].
  exists mt, st. split; [exact H|auto].
Qed.

(** ** C13 *)
Theorem C13_lam_1d :
  forall mtd (dt : R) (A dm ds om os lam psi : list R) t,
  solve_bwd S1 mtd dt A dm ds om os = Ok (lam, psi) ->
  (t + 1 < length dm)%nat ->
  nth t lam 0 =
  rk_step (V := sV) (tab_of mtd)
    (fun th l => lam_rhs1 (interp (V:=sV) th (nth (t+1) dm 0) (nth t dm 0))
                          (interp (V:=sV) th (nth (t+1) A 0) (nth t A 0)) l)
    (- dt) (nth (t+1) lam 0) + nth t om 0.
Proof. exact bwd_lam_1. Qed.
Print Assumptions C13_lam_1d.

Theorem C13_psi_1d :
  forall mtd (dt : R) (A dm ds om os lam psi : list R) t,
  solve_bwd S1 mtd dt A dm ds om os = Ok (lam, psi) ->
  (t + 1 < length dm)%nat ->
  nth t psi 0 =
  rk_step (V := sV) (tab_of mtd)
    (fun th p => psi_rhs1 (interp (V:=sV) th (nth (t+1) ds 0) (nth t ds 0))
                          (interp (V:=sV) th (nth (t+1) A 0) (nth t A 0)) p)
    (- dt) (nth (t+1) psi 0) + nth t os 0.
Proof. exact bwd_psi_1. Qed.
Print Assumptions C13_psi_1d.

Theorem C13_psi_nd :
  forall d mtd (dt : R) (A : list Rmat) (dm : list Rvec) (ds : list Rmat) (om : list Rvec)
         (os : list Rmat) (lam : list Rvec) (psi : list Rmat) t,
  solve_bwd (Sn d) mtd dt A dm ds om os = Ok (lam, psi) ->
  (t + 1 < length dm)%nat ->
  nth t psi (vzero mV) =
  vadd (rk_step (V := mV) (tab_of mtd)
    (fun th p => psi_rhsn d (interp (V:=mV) th (nth (t+1) ds (vzero mV)) (nth t ds (vzero mV)))
           (interp (V:=mV) th (nth (t+1) A (vzero mV)) (nth t A (vzero mV))) p)
    (- dt) (nth (t+1) psi (vzero mV))) (nth t os (vzero mV)).
Proof. exact bwd_psi_n. Qed.
Print Assumptions C13_psi_nd.

Theorem C13_lam_nd_partial :    (* missing: non-symmetric A, refuted below *)
  forall d mtd (dt : R) (A : list Rmat) (dm : list Rvec) (ds : list Rmat) (om : list Rvec)
         (os : list Rmat) (lam : list Rvec) (psi : list Rmat) t,
  (forall a, In a A -> forall i j, a i j = a j i) ->
  solve_bwd (Sn d) mtd dt A dm ds om os = Ok (lam, psi) ->
  (t + 1 < length dm)%nat ->
  nth t lam (vzero vV) =
  vadd (rk_step (V := vV) (tab_of mtd)
    (fun th l => lam_rhsn d (interp (V:=vV) th (nth (t+1) dm (vzero vV)) (nth t dm (vzero vV)))
           (interp (V:=mV) th (nth (t+1) A (vzero mV)) (nth t A (vzero mV))) l)
    (- dt) (nth (t+1) lam (vzero vV))) (nth t om (vzero vV)).
Proof. exact bwd_lam_n_sym. Qed.
Print Assumptions C13_lam_nd_partial.

(** what the code integrates for every A: the equation with A in place of its transpose *)
Theorem C13_lam_nd_code :
  forall d mtd (dt : R) (A : list Rmat) (dm : list Rvec) (ds : list Rmat) (om : list Rvec)
         (os : list Rmat) (lam : list Rvec) (psi : list Rmat) t,
  solve_bwd (Sn d) mtd dt A dm ds om os = Ok (lam, psi) ->
  (t + 1 < length dm)%nat ->
  nth t lam (vzero vV) =
  vadd (rk_step (V := vV) (tab_of mtd)
    (fun th l => lam_rhsn d (interp (V:=vV) th (nth (t+1) dm (vzero vV)) (nth t dm (vzero vV)))
           (mtr (interp (V:=mV) th (nth (t+1) A (vzero mV)) (nth t A (vzero mV)))) l)
    (- dt) (nth (t+1) lam (vzero vV))) (nth t om (vzero vV)).
Proof. exact bwd_lam_n_code. Qed.
Print Assumptions C13_lam_nd_code.

Theorem C13_lam_nd_refuted :
  exists (dt : R) (A : list Rmat) dm ds om os lam psi,
    solve_bwd (Sn 2) Euler dt A dm ds om os = Ok (lam, psi) /\ 0 < dt /\
    length dm = 3%nat /\
    nth 0 lam (vzero vV) 0%nat <>
    (vadd (rk_step (V := vV) tab_euler
      (fun th l => lam_rhsn 2 (interp (V:=vV) th (nth 1 dm (vzero vV)) (nth 0 dm (vzero vV)))
           (interp (V:=mV) th (nth 1 A (vzero mV)) (nth 0 A (vzero mV))) l)
      (- dt) (nth 1 lam (vzero vV))) (nth 0 om (vzero vV)) : Rvec) 0%nat.
Proof. exact lam_n_wrong. Qed.
Print Assumptions C13_lam_nd_refuted.

Example C13_instance :
  exists lam psi, solve_bwd S1 Heun (1/10) [1;2;3] [4;5;6] [1;1;2] [0;7;0] [0;1;0] = Ok (lam, psi)
  /\ (1 + 1 < 3)%nat.
Proof. eexists; eexists; split; [reflexivity|auto]. Qed.

(** ** C14 *)
Theorem C14_mean_closed_form :
  forall mtd (dt a b : R) (A B : list R) (m0 s0 sigma : R) (mt st : list R) k,
  a <> 0 -> constl a A -> constl b B -> length A = length B ->
  solve_fwd S1 mtd dt A B m0 s0 sigma = Ok (mt, st) ->
  (k < length B)%nat ->
  nth k mt 0 = b / a + texp (order mtd) (- a * dt) ^ k * (m0 - b / a).
Proof. exact mean_step_const. Qed.
Print Assumptions C14_mean_closed_form.

Theorem C14_var_closed_form_partial :    (* missing: RK2, refuted below *)
  forall mtd (dt a b : R) (A B : list R) (m0 s0 sigma : R) (mt st : list R) k,
  mtd <> RK2 -> a <> 0 -> constl a A -> constl b B -> length A = length B ->
  solve_fwd S1 mtd dt A B m0 s0 sigma = Ok (mt, st) ->
  (k < length B)%nat ->
  nth k st 0 = sigma / (2 * a) + texp (order mtd) (- (2 * a) * dt) ^ k * (s0 - sigma / (2 * a)).
Proof. exact cov_step_const. Qed.
Print Assumptions C14_var_closed_form_partial.

(** [y] is any solution of the exact equation; the error at final time T = k dt is at
    most a constant (depending on T but not on k and dt separately) times dt^p. *)
Theorem C14_error_bound :
  forall p (r c y0 dt : R) k (y : R -> R),
  r <> 0 -> 0 < dt ->
  y 0 = y0 -> (forall t, is_derive y t (- r * y t + c)) ->
  Rabs (c / r + texp p (- r * dt) ^ k * (y0 - c / r) - y (INR k * dt)) <=
  err_const p r (y0 - c / r) (INR k * dt) * dt ^ p.
Proof. exact conv_bound. Qed.
Print Assumptions C14_error_bound.

Theorem C14_rk2_variance_refuted :
  forall C : R, exists (n : nat) mt st,
    let dt := / INR n in
    (0 < n)%nat /\
    solve_fwd S1 RK2 dt (repeat (1/2) (n+1)) (repeat 0 (n+1)) 0 1 1 = Ok (mt, st) /\
    (* the exact variance is constant, equal to 1 *)
    C * dt ^ 2 < Rabs (nth n st 0 - 1).
Proof. exact rk2_not_second_order. Qed.
Print Assumptions C14_rk2_variance_refuted.

(** an exact solution exists, so the error bound is not vacuous *)
Example C14_instance :
  exists y : R -> R, y 0 = 5 /\ forall t, is_derive y t (- 2 * y t + 3).
Proof.
  exists (fun t => 3 / 2 + exp (- 2 * t) * (5 - 3 / 2)).
  apply (ode_solution 2 3 5). lra.
Qed.

(** ** C15 *)
Theorem C15_covariance_symmetric :
  forall d mtd (dt : R) (A : list Rmat) (b : list Rvec) (m0 : Rvec) (s0 sigma : Rmat) mt (st : list Rmat),
  solve_fwd (Sn d) mtd dt A b m0 s0 sigma = Ok (mt, st) ->
  msym d s0 -> msym d sigma ->
  forall s, In s st -> msym d s.
Proof. exact fwd_sym. Qed.
Print Assumptions C15_covariance_symmetric.

Theorem C15_psi_symmetric :
  forall d mtd (dt : R) (A : list Rmat) (dm : list Rvec) (ds : list Rmat) (om : list Rvec)
         (os : list Rmat) (lam : list Rvec) (psi : list Rmat),
  solve_bwd (Sn d) mtd dt A dm ds om os = Ok (lam, psi) ->
  (forall a, In a ds -> msym d a) -> (forall a, In a os -> msym d a) ->
  forall p, In p psi -> msym d p.
Proof. exact bwd_sym. Qed.
Print Assumptions C15_psi_symmetric.

Example C15_instance : msym 2 (m2 1 3 3 2) /\ ~ msym 2 (m2 1 3 4 2).
Proof.
  split.
  - intros [|[|i]] [|[|j]] Hi Hj; try reflexivity; exfalso; auto with arith; Lia.lia.
  - intros H. specialize (H 0%nat 1%nat ltac:(auto) ltac:(auto)). cbn in H. lra.
Qed.

(** ** C16 *)
(** [rate_ok]: 2 a dt <= 1 for Euler; in [0,2) for Heun, in [0,2] for RK4, in [0,1] for the
    RK2 of the code. *)
Theorem C16_variance_positive :
  forall mtd (dt : R) (A b : list R) (m0 s0 sigma : R) (mt st : list R),
  solve_fwd S1 mtd dt A b m0 s0 sigma = Ok (mt, st) ->
  length A = length b ->
  0 < dt -> 0 < s0 -> 0 < sigma ->
  (forall a, In a A -> rate_ok mtd dt a) ->
  forall s, In s st -> 0 < s.
Proof. exact fwd_pos. Qed.
Print Assumptions C16_variance_positive.

(** On the interval [0,2), where the mid-point rule keeps the variance positive, the
    RK2 of the code does not. *)
Theorem C16_rk2_refuted :
  exists (dt : R) (A b : list R) (m0 s0 sigma : R) mt st,
    solve_fwd S1 RK2 dt A b m0 s0 sigma = Ok (mt, st) /\ length A = length b /\
    0 < dt /\ 0 < s0 /\ 0 < sigma /\
    (forall a, In a A -> 0 <= 2 * a * dt < 2) /\ nth 1 st 0 < 0.
Proof. exact rk2_negative. Qed.
Print Assumptions C16_rk2_refuted.

Theorem C16_midpoint_rule_positive :
  forall dt a a' sigma s : R,
  0 < dt -> 0 < sigma -> 0 < s -> 0 <= 2 * a * dt < 2 -> 0 <= 2 * a' * dt < 2 ->
  0 < rk_step (V := sV) tab_midpoint (fun th s => cov_rhs1 (interp (V:=sV) th a a') sigma s) dt s.
Proof. exact midpoint_pos. Qed.
Print Assumptions C16_midpoint_rule_positive.

Example C16_instance : rate_ok RK4 (1/10) 9 /\ rate_ok Heun (1/10) 9 /\ rate_ok Euler (1/10) 4.
Proof. cbn; lra. Qed.

(** ** C17 *)
Theorem C17_jump_1d :
  forall mtd (dt : R) (A dm ds om om' os os' lam psi lam' psi' : list R) j,
  solve_bwd S1 mtd dt A dm ds om os = Ok (lam, psi) ->
  solve_bwd S1 mtd dt A dm ds om' os' = Ok (lam', psi') ->
  (j + 1 < length dm)%nat ->
  (forall t, (t + 1 < length dm)%nat -> t <> j -> gm S1 om t = gm S1 om' t /\ ga S1 os t = ga S1 os' t) ->
  (forall t, (j < t < length dm)%nat -> gm S1 lam t = gm S1 lam' t /\ ga S1 psi t = ga S1 psi' t) /\
  (vsub (gm S1 lam' j) (gm S1 lam j) = vsub (gm S1 om' j) (gm S1 om j) /\
   vsub (ga S1 psi' j) (ga S1 psi j) = vsub (ga S1 os' j) (ga S1 os j)) /\
  (forall t, (t < j)%nat ->
     vsub (gm S1 lam' t) (gm S1 lam t) =
       rk_step (tab_of mtd) (Hl S1 A (t+1)) (- dt) (vsub (gm S1 lam' (t+1)) (gm S1 lam (t+1))) /\
     vsub (ga S1 psi' t) (ga S1 psi t) =
       rk_step (tab_of mtd) (Hp S1 A (t+1)) (- dt) (vsub (ga S1 psi' (t+1)) (ga S1 psi (t+1)))).
Proof. exact (bwd_jump S1 scalEv scalEv f_lam_lin_1 f_psi_lin_1). Qed.
Print Assumptions C17_jump_1d.

Theorem C17_jump_nd :
  forall d mtd (dt : R) (A : list Rmat) (dm : list Rvec) (ds : list Rmat) (om om' : list Rvec)
    (os os' : list Rmat) (lam : list Rvec) (psi : list Rmat) (lam' : list Rvec) (psi' : list Rmat) j,
  let P := Sn d in
  solve_bwd P mtd dt A dm ds om os = Ok (lam, psi) ->
  solve_bwd P mtd dt A dm ds om' os' = Ok (lam', psi') ->
  (j + 1 < length dm)%nat ->
  (forall t, (t + 1 < length dm)%nat -> t <> j -> gm P om t = gm P om' t /\ ga P os t = ga P os' t) ->
  (forall t, (j < t < length dm)%nat -> gm P lam t = gm P lam' t /\ ga P psi t = ga P psi' t) /\
  (vsub (gm P lam' j) (gm P lam j) = vsub (gm P om' j) (gm P om j) /\
   vsub (ga P psi' j) (ga P psi j) = vsub (ga P os' j) (ga P os j)) /\
  (forall t, (t < j)%nat ->
     vsub (gm P lam' t) (gm P lam t) =
       rk_step (tab_of mtd) (Hl P A (t+1)) (- dt) (vsub (gm P lam' (t+1)) (gm P lam (t+1))) /\
     vsub (ga P psi' t) (ga P psi t) =
       rk_step (tab_of mtd) (Hp P A (t+1)) (- dt) (vsub (ga P psi' (t+1)) (ga P psi (t+1)))).
Proof. exact (fun d => bwd_jump (Sn d) vecEv matEv (f_lam_lin_n d) (f_psi_lin_n d)). Qed.
Print Assumptions C17_jump_nd.

(** Refutation for the last grid point, any arithmetic: what is supplied there is never used. *)
Theorem C17_last_point_refuted :
  forall (K : Num) (P : Sys K) mtd dt A dm ds om om' os os' r r',
  (forall t, (t + 1 < length dm)%nat -> gm P om t = gm P om' t /\ ga P os t = ga P os' t) ->
  solve_bwd P mtd dt A dm ds om os = Ok r ->
  solve_bwd P mtd dt A dm ds om' os' = Ok r' ->
  r = r'.
Proof. exact @bwd_last_ignored. Qed.
Print Assumptions C17_last_point_refuted.

Example C17_instance :
  exists r r', solve_bwd S1 RK4 (1/10) [1;2;3] [4;5;6] [1;1;2] [0;7;0] [0;1;0] = Ok r /\
               solve_bwd S1 RK4 (1/10) [1;2;3] [4;5;6] [1;1;2] [0;9;0] [0;5;0] = Ok r'.
Proof. eexists; eexists; split; reflexivity. Qed.

(** ** C18 *)
Theorem C18_causal :
  forall (K : Num) (P : Sys K) mtd dt A A' b b' m0 s0 sigma mt st mt' st' k,
  length A = length b -> length A' = length b' ->
  (k < length b)%nat -> (k < length b')%nat ->
  (forall j, (j <= k)%nat -> ga P A j = ga P A' j /\ gm P b j = gm P b' j) ->
  solve_fwd P mtd dt A b m0 s0 sigma = Ok (mt, st) ->
  solve_fwd P mtd dt A' b' m0 s0 sigma = Ok (mt', st') ->
  gm P mt k = gm P mt' k /\ ga P st k = ga P st' k.
Proof. exact @solve_fwd_causal. Qed.
Print Assumptions C18_causal.

(** linear (hence affine) in the pair (initial mean, offsets) *)
Theorem C18_linear_1d :
  forall mtd (dt : R) (A b b' : list R) (al be m0 m0' s0 s0' s0'' sigma sigma' sigma'' : R)
         (mt st mt' st' mt'' st'' : list R),
  length A = length b -> length b' = length b ->
  solve_fwd S1 mtd dt A b m0 s0 sigma = Ok (mt, st) ->
  solve_fwd S1 mtd dt A b' m0' s0' sigma' = Ok (mt', st') ->
  solve_fwd S1 mtd dt A (map2 (fun u v => al * u + be * v) b b') (al * m0 + be * m0') s0'' sigma''
    = Ok (mt'', st'') ->
  mt'' = map2 (fun u v => al * u + be * v) mt mt'.
Proof. exact (fwd_mean_linear S1 scalEv scalEv f_mt_lin_1). Qed.
Print Assumptions C18_linear_1d.

Theorem C18_linear_nd :
  forall d mtd (dt : R) (A : list Rmat) (b b' : list Rvec) (al be : R) (m0 m0' : Rvec)
         (s0 s0' s0'' sigma sigma' sigma'' : Rmat) mt st mt' st' mt'' st'',
  length A = length b -> length b' = length b ->
  solve_fwd (Sn d) mtd dt A b m0 s0 sigma = Ok (mt, st) ->
  solve_fwd (Sn d) mtd dt A b' m0' s0' sigma' = Ok (mt', st') ->
  solve_fwd (Sn d) mtd dt A (map2 (fun u v i => al * u i + be * v i) b b')
    (fun i => al * m0 i + be * m0' i) s0'' sigma'' = Ok (mt'', st'') ->
  mt'' = map2 (fun u v i => al * u i + be * v i) mt mt'.
Proof. exact (fun d => fwd_mean_linear (Sn d) vecEv matEv (f_mt_lin_n d)). Qed.
Print Assumptions C18_linear_nd.

Example C18_instance :
  exists r, solve_fwd S1 RK2 (1/10) [1;2;3] [4;5;6] 1 2 3 = Ok r.
Proof. eexists; reflexivity. Qed.

(** ** C19 *)
Theorem C19_selection_partial :    (* exact numbers; binary64 nan: refuted below *)
  forall (dt : R) name single,
  let ok := 0 < dt /\ exists m, same_up_to_case name (method_name m) in
  ((exists s, fwd_ode_init (K:=RNum) dt name single = Ok s) <-> ok) /\
  ((exists s, bwd_ode_init (K:=RNum) dt name single = Ok s) <-> ok) /\
  (~ ok -> fwd_ode_init (K:=RNum) dt name single = Err ValueError /\
           bwd_ode_init (K:=RNum) dt name single = Err ValueError) /\
  (forall m, 0 < dt -> same_up_to_case name (method_name m) ->
     fwd_ode_init (K:=RNum) dt name single = Ok (mkSolver m dt single) /\
     bwd_ode_init (K:=RNum) dt name single = Ok (mkSolver m dt single)).
Proof. exact sel_R. Qed.
Print Assumptions C19_selection_partial.

(** any arithmetic: success exactly when dt <= 0 is false and the name is known *)
Theorem C19_selection_any_arithmetic :
  forall (K : Num) (dt : K) name single s,
  fwd_ode_init dt name single = Ok s <->
  (nle dt (nZ 0) = false /\
   exists m, same_up_to_case name (method_name m) /\ s = mkSolver m dt single).
Proof. exact @fwd_ode_init_iff. Qed.
Print Assumptions C19_selection_any_arithmetic.

(** calling the object is the sweep of that method with that step, for numbers and for vectors *)
Theorem C19_calls :
  forall (K : Num) (dt : K) name single m, same_up_to_case name (method_name m) ->
  (forall s, fwd_ode_init dt name single = Ok s ->
     fwd_ode_call1 s = solve_fwd (sys1 K) m dt /\ forall d, fwd_ode_calln d s = solve_fwd (sysn K d) m dt) /\
  (forall s, bwd_ode_init dt name single = Ok s ->
     bwd_ode_call1 s = solve_bwd (sys1 K) m dt /\ forall d, bwd_ode_calln d s = solve_bwd (sysn K d) m dt).
Proof.
  intros K dt name single m Hm. apply lookup_lower in Hm.
  assert (U : forall s, fwd_ode_init dt name single = Ok s -> s = mkSolver m dt single).
  { intros s Hs. unfold fwd_ode_init, ode_solver_init in Hs. destruct (nle dt (nZ 0)); [discriminate|]. rewrite Hm in Hs. congruence. }
  split; intros s Hs; rewrite (U s Hs); split; reflexivity.
Qed.
Print Assumptions C19_calls.

Theorem C19_nan_refuted :
  SFltb (S754_zero false) S754_nan = false /\
  fwd_ode_init (K:=FNum) S754_nan "euler" true = Ok (mkSolver (K:=FNum) Euler S754_nan true) /\
  bwd_ode_init (K:=FNum) S754_nan "euler" true = Ok (mkSolver (K:=FNum) Euler S754_nan true).
Proof. exact sel_nan. Qed.
Print Assumptions C19_nan_refuted.

Example C19_instance : same_up_to_case "RK4" (method_name RK4) /\ same_up_to_case "eUlEr" (method_name Euler).
Proof.
  split; apply lower_spec; try apply method_name_lower; reflexivity.
Qed.
