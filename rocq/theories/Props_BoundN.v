(** * Property C54 for the Lorenz systems: is the objective of the optimisation bounded below? *)
From Coq Require Import ZArith List Bool Arith Reals Lra Lia Sorted.
From Verif Require Import Num Arr M_LinAlg M_Utils M_Ode M_Moments M_Sde1 M_L63 M_L96 M_L96E M_Prior M_Like M_VarGP
  Spec_Utils Spec_Det Spec_L96E Spec_Prior Spec_GradN P_Ode P_RMat P_Spectral P_Like P_Prior P_GradL63T P_BoundN Props_L63 Props_L96E.
From Verif Require P_SinkHeun P_SinkRK4.
Import ListNotations.
Local Open Scope R_scope.

(** a problem with n grid points in dimension d: symmetric noise matrix, initial covariance and observation
    noise, distinct observation times in increasing order on the grid *)
Definition obs_okn (n d : nat) (C s0 Rn : nat -> nat -> R) (y : list (nat -> R)) (t : list nat) : Prop :=
  (0 < n)%nat /\ symm d C /\ symm d s0 /\ symm d Rn /\ posdef d Rn /\ length y = length t /\
  List.Forall (fun i => (i < n)%nat) t /\ NoDup t /\ Sorted le t.
(** the least value of the observation terms when all residuals and variances are 0 *)
Definition floor_obsn (d : nat) (Rn : nat -> nat -> R) (t : list nat) : R :=
  INR (length t) * (1 / 2 * (INR d * ln (2 * PI) + ln (detR d Rn))).

Notation obj63 mtd th n dt C P m0 s0 mu tau Rn y t :=
  (vgpn (K:=RNum) ln PI (fun a b m s o => Ok (l63_energy (K:=RNum) th P dt a b m s o)) mtd n 3 dt C P m0 s0 mu tau y t Rn (meye (K:=RNum))).
Notation obj96 solve mtd th n d dt C P m0 s0 mu tau Rn y t :=
  (vgpn (K:=RNum) ln PI (l96_energy (K:=RNum) solve d th P dt) mtd n d dt C P m0 s0 mu tau y t Rn (meye (K:=RNum))).

(** ** Lorenz 63 *)
(** Whatever the method of integration: as long as the covariances of the approximation stay positive definite,
    the objective is bounded by a number that does not depend on x. *)
Theorem C54_l63_partial :    (* missing: covariances that are not positive definite, refuted below *)
  forall mtd (th : nat -> R) n dt C P (m0 : nat -> R) s0 (mu : nat -> R) tau Rn y t, 0 <= dt -> (forall i, (i < 3)%nat -> 0 <= P i i) ->
  obs_okn n 3 C s0 Rn y t ->
  let E := obj63 mtd th n dt C P m0 s0 mu tau Rn y t in
  forall (x : list R) s (v : R) (o : Out E), free_energy E x s = (Ok v, Some o) ->
  (forall k, (k < n)%nat -> posdef 3 (nth k (o_st o : list (nat -> nat -> R)) (fun _ _ => 0))) ->
  exists k0, kl0_nd (K:=RNum) ln 3 mu tau m0 s0 = Ok k0 /\ k0 + floor_obsn 3 Rn t <= v.
Proof.
  intros mtd th n dt C P m0 s0 mu tau Rn y t Hdt HP (Hn & HC & Hs0 & Hrs & Hrp & Hy & Ht & Hnd & Hst) E x s v o H Hs.
  apply (belown (fun a b m s o => Ok (l63_energy (K:=RNum) th P dt a b m s o)) mtd n 3 dt C P m0 s0 mu tau Rn y t Hn Hs0 HC Hrs Hrp Hy Ht Hnd (posdef 3)
    (fun s Hs i Hi => Rlt_le _ _ (posdef_diag_pos 3 s i Hs Hi))) with (x := x) (s := s) (o := o); [|exact H|exact Hs].
  intros A B M S en LA LB LM LS Hsy Hp [= <-]. apply l63_nonneg; [|exact Hdt|exact HP|rewrite LA; exact Hp].
  split; [congruence|]. split; [congruence|]. split; [congruence|]. split; [intros o' [= <-]; exact Hst|]. rewrite LA. exact Hsy.
Qed.
Print Assumptions C54_l63_partial.
(** Finding: nothing keeps the covariances of the forward sweep positive definite, and energy() accepts them.
    With Euler's method the objective has no lower bound, whatever the data. *)
Theorem C54_l63_refuted :
  forall (th : nat -> R) n dt C P (m0 : nat -> R) s0 (mu : nat -> R) tau Rn y t,
  0 < dt -> (2 <= n)%nat -> diag_only 3 P -> 0 < P 0%nat 0%nat -> 0 <= C 0%nat 0%nat ->
  posdef 3 s0 -> symm 3 tau -> posdef 3 tau -> commute 3 s0 tau -> obs_okn n 3 C s0 Rn y t ->
  let E := obj63 Euler th n dt C P m0 s0 mu tau Rn y t in
  forall bound : R, exists (x : list R) (v : R), length x = (n * 3 * (3 + 1))%nat /\
  (forall s, fst (free_energy E x s) = Ok v) /\ v < bound.
Proof.
  intros th n dt C P m0 s0 mu tau Rn y t Hdt Hn HP HP0 HC0 Hs0p Htau Htaup Hcm (_ & HC & Hs0 & Hrs & Hrp & Hy & Ht & Hnd & Hst) E bound.
  assert (exists N, n = (N + 2)%nat) as (N & ->) by (exists (n - 2)%nat; lia).
  exact (l63_sink N dt th P C s0 m0 mu tau Rn y t HP HP0 Hdt HC0 HC Hs0 Hs0p Htau Htaup Hcm Hrs Hrp Hy Ht Hnd Hst bound).
Qed.
Print Assumptions C54_l63_refuted.
(** The same with Heun's method, and with RungeKutta2 unless the first entry of the covariance that its last step
    starts from (which is not the mid-point rule, C12) is 0. *)
Definition rk2_pull_n (n : nat) (dt : R) (C s0 : nat -> nat -> R) : R :=
  let s := fun i j => s0 i j + INR (n - 2) * dt * C i j in
  s 0%nat 0%nat + dt / 2 * (C 0%nat 0%nat - 2 * Rsum 3 (fun k => s 0%nat k * s 0%nat k)).
Theorem C54_l63_methods_refuted :
  forall mtd (th : nat -> R) n dt C P (m0 : nat -> R) s0 (mu : nat -> R) tau Rn y t,
  mtd = Heun \/ (mtd = RK2 /\ rk2_pull_n n dt C s0 <> 0) ->
  0 < dt -> (2 <= n)%nat -> diag_only 3 P -> 0 < P 0%nat 0%nat -> 0 <= C 0%nat 0%nat ->
  posdef 3 s0 -> symm 3 tau -> posdef 3 tau -> commute 3 s0 tau -> obs_okn n 3 C s0 Rn y t ->
  let E := obj63 mtd th n dt C P m0 s0 mu tau Rn y t in
  forall bound : R, exists (x : list R) (v : R), length x = (n * 3 * (3 + 1))%nat /\
  (forall s, fst (free_energy E x s) = Ok v) /\ v < bound.
Proof.
  intros mtd th n dt C P m0 s0 mu tau Rn y t Hm Hdt Hn HP HP0 HC0 Hs0p Htau Htaup Hcm (_ & HC & Hs0 & Hrs & Hrp & Hy & Ht & Hnd & Hst) E bound.
  assert (exists N, n = (N + 2)%nat) as (N & ->) by (exists (n - 2)%nat; lia).
  apply (P_SinkHeun.sink63 N dt th P C s0 m0 mu tau Rn y t HP HP0 Hdt Hs0 Hs0p Htau Htaup Hcm Hrs Hrp Hy Ht Hnd Hst mtd bound); [tauto|].
  destruct Hm as [->|[-> Hq]]; unfold P_SinkHeun.qq, P_SinkHeun.sk.
  - pose proof (posdef_diag_pos 3 s0 0 Hs0p ltac:(lia)). pose proof (pos_INR (N + 1)).
    assert (0 <= INR (N + 1) * dt * C 0%nat 0%nat) by (apply Rmult_le_pos; [apply Rmult_le_pos; lra|exact HC0]). lra.
  - intros Z. apply Hq. unfold rk2_pull_n. replace (N + 2 - 2)%nat with N by lia. rewrite <- Z. cbn [Rsum].
    rewrite (Hs0 1%nat 0%nat), (Hs0 2%nat 0%nat), (HC 1%nat 0%nat), (HC 2%nat 0%nat) by lia. field.
Qed.
Print Assumptions C54_l63_methods_refuted.
(** With RungeKutta4 at least if the first component is correlated with the others neither in the initial covariance
    nor in the noise. *)
Theorem C54_l63_rk4_refuted :
  forall (th : nat -> R) n dt C P (m0 : nat -> R) s0 (mu : nat -> R) tau Rn y t,
  s0 0%nat 1%nat = 0 -> s0 0%nat 2%nat = 0 -> C 0%nat 1%nat = 0 -> C 0%nat 2%nat = 0 ->
  0 < dt -> (2 <= n)%nat -> diag_only 3 P -> 0 < P 0%nat 0%nat -> 0 <= C 0%nat 0%nat ->
  posdef 3 s0 -> symm 3 tau -> posdef 3 tau -> commute 3 s0 tau -> obs_okn n 3 C s0 Rn y t ->
  let E := obj63 RK4 th n dt C P m0 s0 mu tau Rn y t in
  forall bound : R, exists (x : list R) (v : R), length x = (n * 3 * (3 + 1))%nat /\
  (forall s, fst (free_energy E x s) = Ok v) /\ v < bound.
Proof.
  intros th n dt C P m0 s0 mu tau Rn y t U1 U2 U3 U4 Hdt Hn HP HP0 HC0 Hs0p Htau Htaup Hcm (_ & HC & Hs0 & Hrs & Hrp & Hy & Ht & Hnd & Hst) E bound.
  assert (exists N, n = (N + 2)%nat) as (N & ->) by (exists (n - 2)%nat; lia).
  assert (U : forall j, (0 < j < 3)%nat -> s0 0%nat j = 0 /\ s0 j 0%nat = 0 /\ C 0%nat j = 0 /\ C j 0%nat = 0).
  { intros j Hj. rewrite (Hs0 j 0%nat), (HC j 0%nat) by lia. assert (j = 1%nat \/ j = 2%nat) as [->| ->] by lia; auto. }
  exact (P_SinkRK4.sink4 N dt th P C s0 m0 mu tau Rn y t U HP HP0 Hdt HC0 Hs0 Hs0p Htau Htaup Hcm Hrs Hrp Hy Ht Hnd Hst bound).
Qed.
Print Assumptions C54_l63_rk4_refuted.
(** two grid points, one observation, unit matrices: the first covariance is 1 + 1/20 (1 - 2) for the step 1/10 *)
Example C54_l63_methods_instance :
  rk2_pull_n 2 (1 / 10) ident ident = 19 / 20 /\
  forall mtd, mtd = Heun \/ mtd = RK2 \/ mtd = RK4 ->
  let E := obj63 mtd (fun _ => 1) 2 (1 / 10) ident ident (fun _ => 0) ident (fun _ => 0) ident ident [(fun _ => 1)] [1%nat] in
  exists x v, length x = 24%nat /\ fst (free_energy E x None) = Ok v /\ v < -1000000.
Proof.
  assert (Q : rk2_pull_n 2 (1 / 10) ident ident = 19 / 20) by (unfold rk2_pull_n; cbn; unfold ident; cbn; field).
  split; [exact Q|]. intros mtd Hm E.
  assert (Hob : obs_okn 2 3 ident ident ident [(fun _ => 1)] [1%nat]).
  { split; [lia|]. split; [apply ident_symm|]. split; [apply ident_symm|]. split; [apply ident_symm|]. split; [apply ident_posdef|].
    split; [reflexivity|]. split; [repeat constructor|]. split; [repeat constructor; auto|repeat constructor]. }
  assert (Hcm : commute 3 ident ident) by (intros i j _ _; reflexivity).
  assert (H4 : mtd = RK4 \/ (mtd = Heun \/ mtd = RK2)) by tauto. clear Hm. destruct H4 as [H4|Hm].
  { destruct (C54_l63_rk4_refuted (fun _ => 1) 2 (1 / 10) ident ident (fun _ => 0) ident (fun _ => 0) ident ident [(fun _ => 1)] [1%nat]) with (bound := -1000000)
      as (x & v & H1 & H2 & H3); try assumption; try reflexivity; try lra; try lia.
    - exact ident_diag.
    - unfold ident; cbn; lra.
    - unfold ident; cbn; lra.
    - apply ident_posdef.
    - apply ident_symm.
    - apply ident_posdef.
    - subst E mtd. exists x, v. split; [exact H1|]. split; [apply H2|exact H3]. }
  destruct (C54_l63_methods_refuted mtd (fun _ => 1) 2 (1 / 10) ident ident (fun _ => 0) ident (fun _ => 0) ident ident [(fun _ => 1)] [1%nat]) with (bound := -1000000)
    as (x & v & H1 & H2 & H3); try assumption; try lra; try lia.
  - rewrite Q. destruct Hm; [left|right; split]; try assumption. lra.
  - exact ident_diag.
  - unfold ident; cbn; lra.
  - unfold ident; cbn; lra.
  - apply ident_posdef.
  - apply ident_symm.
  - apply ident_posdef.
  - exists x, v. split; [exact H1|]. split; [apply H2|exact H3].
Qed.
(** two grid points, one observation, unit matrices: both theorems apply *)
Example C54_l63_instance :
  let E := obj63 Euler (fun _ => 1) 2 1 ident ident (fun _ => 0) ident (fun _ => 0) ident ident [(fun _ => 1)] [1%nat] in
  (exists x v, length x = 24%nat /\ fst (free_energy E x None) = Ok v /\ v < -1000000) /\
  (exists v k0, fst (free_energy E (repeat 0 24) None) = Ok v /\ kl0_nd (K:=RNum) ln 3 (fun _ => 0) ident (fun _ => 0) ident = Ok k0 /\
     k0 + 3 / 2 * ln (2 * PI) <= v).
Proof.
  assert (Hob : obs_okn 2 3 ident ident ident [(fun _ => 1)] [1%nat]).
  { split; [lia|]. split; [apply ident_symm|]. split; [apply ident_symm|]. split; [apply ident_symm|]. split; [apply ident_posdef|].
    split; [reflexivity|]. split; [repeat constructor|]. split; [repeat constructor; auto|repeat constructor]. }
  assert (Hcm : commute 3 ident ident) by (intros i j _ _; reflexivity).
  intros E. split.
  - destruct (C54_l63_refuted (fun _ => 1) 2 1 ident ident (fun _ => 0) ident (fun _ => 0) ident ident [(fun _ => 1)] [1%nat] Rlt_0_1 (le_n 2)
      ident_diag Rlt_0_1 Rle_0_1 (ident_posdef 3) (ident_symm 3) (ident_posdef 3) Hcm Hob (-1000000)) as (x & v & H1 & H2 & H3).
    exists x, v. split; [exact H1|]. split; [apply H2|exact H3].
  - destruct (bound63 (fun _ => 1) ident ident) as (v & o & Hv & Hs); [intros i; unfold ident; rewrite Nat.eqb_refl; lra|apply ident_symm|exact ident_diag|exact ident_diag|].
    destruct (C54_l63_partial Euler (fun _ => 1) 2 1 ident ident (fun _ => 0) ident (fun _ => 0) ident ident [(fun _ => 1)] [1%nat] Rle_0_1) with (x := repeat 0 24) (s := @None (Out E)) (v := v) (o := o)
      as (k0 & K1 & K2); [intros i _; unfold ident; rewrite Nat.eqb_refl; lra|exact Hob|exact Hv|exact Hs|].
    exists v, k0. split; [exact (f_equal fst Hv)|]. split; [exact K1|].
    unfold floor_obsn in K2. rewrite det_ident, ln_1 in K2. cbn [length INR] in K2. lra.
Qed.

(** ** Lorenz 96 *)
(** Here energy() itself refuses covariances that are not positive definite, so the bound holds for every x and
    every method: free_energy returns a number above the bound or raises. *)
Theorem C54_l96 :
  forall (solve : solver) mtd (th : nat -> R) n d dt C P (m0 : nat -> R) s0 (mu : nat -> R) tau Rn y t, solver_ok solve ->
  (0 < d)%nat -> 0 <= dt -> (forall i, (i < d)%nat -> 0 <= P i i) -> obs_okn n d C s0 Rn y t ->
  let E := obj96 solve mtd th n d dt C P m0 s0 mu tau Rn y t in
  forall (x : list R) s (v : R), fst (free_energy E x s) = Ok v ->
  exists k0, kl0_nd (K:=RNum) ln d mu tau m0 s0 = Ok k0 /\ k0 + floor_obsn d Rn t <= v.
Proof.
  intros solve mtd th n d dt C P m0 s0 mu tau Rn y t Hsol Hd Hdt HP (Hn & HC & Hs0 & Hrs & Hrp & Hy & Ht & Hnd & Hst) E x s v H.
  assert (Hf : exists o : Out E, free_energy E x s = (Ok v, Some o)).
  { unfold free_energy in *. destruct (fe_core E x) as [[v' o]|]; cbn [fst] in H; [injection H as ->; exists o; reflexivity|discriminate]. }
  destruct Hf as [o Hf].
  destruct (belown (l96_energy (K:=RNum) solve d th P dt) mtd n d dt C P m0 s0 mu tau Rn y t Hn Hs0 HC Hrs Hrp Hy Ht Hnd (posdef d)
    (fun s Hs i Hi => Rlt_le _ _ (posdef_diag_pos d s i Hs Hi))) with (x := x) (s := s) (v := v) (o := o) as (M1 & M2 & Hsy & (A & B & en & LA & LB & Een) & Q); [|exact Hf|].
  - intros A B M S en LA LB LM LS Hsy Hp Een. apply (C50_nonneg solve d th P dt A B M S (Some t) en Hsol); [|exact Een|exact Hdt|exact HP].
    split; [exact Hd|]. split; [congruence|]. split; [congruence|]. split; [congruence|]. split; [intros o' [= <-]; exact Hst|].
    rewrite LA. intros k Hk. split; [apply Hsy, Hk|apply Hp, Hk].
  - apply Q. intros k Hk. destruct (Classical_Prop.classic (posdef d (nth k (o_st o : list (nat -> nat -> R)) (fun _ _ => 0)))) as [Hp|Hp]; [exact Hp|].
    exfalso. pose proof (C50_indefinite solve d th P dt A B (o_mt o) (o_st o) (Some t) k Hsol Hd) as I.
    assert (LA' : length A = n) by exact LA. clear LA.
    specialize (I ltac:(transitivity n; [exact LB|symmetry; exact LA']) ltac:(transitivity n; [exact M1|symmetry; exact LA']) ltac:(transitivity n; [exact M2|symmetry; exact LA'])).
    specialize (I (fun q Hq => Hsy q (eq_ind _ (fun z => (q < z)%nat) Hq n LA')) (eq_ind_r (fun z => (k < z)%nat) Hk LA') Hp).
    pose proof (eq_trans (eq_sym Een) I). discriminate.
Qed.
Print Assumptions C54_l96.

(** and it raises exactly when a covariance is not positive definite *)
Theorem C54_l96_returns :
  forall (solve : solver) mtd (th : nat -> R) n d dt C P (m0 : nat -> R) s0 (mu : nat -> R) tau Rn y t (x : list R), solver_ok solve ->
  (0 < d)%nat -> obs_okn n d C s0 Rn y t -> posdef d s0 -> symm d tau -> posdef d tau -> commute d s0 tau ->
  length x = (n * d * (d + 1))%nat ->
  let E := obj96 solve mtd th n d dt C P m0 s0 mu tau Rn y t in
  exists A B mt (st : list (nat -> nat -> R)), unpackn (K:=RNum) n d x = Ok (A, B) /\ solve_fwd (sysn RNum d) mtd dt A B m0 s0 C = Ok (mt, st) /\ length st = n /\
  (((forall k, (k < n)%nat -> posdef d (nth k st (fun _ _ => 0))) /\ exists v o, forall s, free_energy E x s = (Ok v, Some o)) \/
   ((exists k, (k < n)%nat /\ ~ posdef d (nth k st (fun _ _ => 0))) /\ forall s, free_energy E x s = (Err LinAlgError, s))).
Proof.
  intros solve mtd th n d dt C P m0 s0 mu tau Rn y t x Hsol Hd (Hn & HC & Hs0 & Hrs & Hrp & Hy & Ht & Hnd & Hst) Hs0p Htau Htaup Hcm Hx E.
  destruct (kl0_commute d mu tau m0 s0 Hs0 Hs0p Htau Htaup Hcm) as [k0 Hk0].
  destruct (fe_dich (l96_energy (K:=RNum) solve d th P dt) mtd n d dt C P m0 s0 mu tau Rn y t k0 Hn Hs0 HC Hrs Hrp Hy Ht Hnd Hk0 x Hx)
    as (A & B & mt & st & EU & Hf & L1 & L2 & M1 & M2 & Hsy & Q1 & Q2).
  exists A, B, mt, st. split; [exact EU|]. split; [exact Hf|]. split; [exact M2|].
  destruct (Classical_Prop.classic (exists k, (k < n)%nat /\ ~ posdef d (nth k st (fun _ _ => 0)))) as [(k & Hk & Hp)|Hall].
  - right. split; [exists k; auto|]. apply Q2.
    apply (C50_indefinite solve d th P dt A B mt st (Some t) k Hsol Hd); [exact (eq_trans L2 (eq_sym L1))|exact (eq_trans M1 (eq_sym L1))|exact (eq_trans M2 (eq_sym L1))| |exact (eq_ind_r (fun z => (k < z)%nat) Hk L1)|exact Hp].
    exact (fun q Hq => Hsy q (eq_ind _ (fun z => (q < z)%nat) Hq n L1)).
  - left. assert (Hp : forall k, (k < n)%nat -> posdef d (nth k st (fun _ _ => 0))).
    { intros k Hk. destruct (Classical_Prop.classic (posdef d (nth k st (fun _ _ => 0)))); [assumption|]. exfalso. apply Hall. exists k. auto. }
    split; [exact Hp|].
    destruct (C50_result solve d th P dt A B mt st (Some t) Hsol) as (en & Een & _ & _ & D1 & D2).
    { split; [exact Hd|]. split; [exact (eq_trans L2 (eq_sym L1))|]. split; [exact (eq_trans M1 (eq_sym L1))|]. split; [exact (eq_trans M2 (eq_sym L1))|].
      split; [intros o' [= <-]; exact Hst|]. intros k Hk. pose proof (eq_ind _ (fun z => (k < z)%nat) Hk n L1). split; [apply Hsy; assumption|apply Hp; assumption]. }
    destruct (Q1 en Een) as (v & o & Ho & _); [exact (eq_trans D1 L1)|exact (eq_trans D2 L1)|]. exists v, o. exact Ho.
Qed.
Print Assumptions C54_l96_returns.
(** one grid point and one observation, unit matrices: a number comes back, and it is above the bound *)
Example C54_l96_instance :
  forall (solve : solver) d, solver_ok solve -> (0 < d)%nat ->
  let E := obj96 solve RK4 (fun _ => 8) 1 d 1 ident ident (fun _ => 0) ident (fun _ => 0) ident ident [(fun _ => 1)] [0%nat] in
  exists v k0, fst (free_energy E (repeat 0 (1 * d * (d + 1))) None) = Ok v /\ kl0_nd (K:=RNum) ln d (fun _ => 0) ident (fun _ => 0) ident = Ok k0 /\
     k0 + 1 / 2 * (INR d * ln (2 * PI)) <= v.
Proof.
  intros solve d Hsol Hd E.
  assert (Hob : obs_okn 1 d ident ident ident [(fun _ => 1)] [0%nat]).
  { split; [lia|]. split; [apply ident_symm|]. split; [apply ident_symm|]. split; [apply ident_symm|]. split; [apply ident_posdef|].
    split; [reflexivity|]. split; [repeat constructor|]. split; [repeat constructor; auto|repeat constructor]. }
  destruct (C54_l96_returns solve RK4 (fun _ => 8) 1 d 1 ident ident (fun _ => 0) ident (fun _ => 0) ident ident [(fun _ => 1)] [0%nat] (repeat 0 (1 * d * (d + 1)))
    Hsol Hd Hob (ident_posdef d) (ident_symm d) (ident_posdef d) ltac:(intros i j _ _; reflexivity) (repeat_length _ _)) as (A & B & mt & st & _ & Hf & L & [(_ & v & o & Hv)|((k & Hk & Hp) & _)]).
  - destruct (C54_l96 solve RK4 (fun _ => 8) 1 d 1 ident ident (fun _ => 0) ident (fun _ => 0) ident ident [(fun _ => 1)] [0%nat] Hsol Hd Rle_0_1) with (x := repeat 0 (1 * d * (d + 1))) (s := @None (Out E)) (v := v)
      as (k0 & K1 & K2); [intros i _; unfold ident; rewrite Nat.eqb_refl; lra|exact Hob|exact (f_equal fst (Hv None))|].
    exists v, k0. split; [exact (f_equal fst (Hv None))|]. split; [exact K1|].
    unfold floor_obsn in K2. rewrite det_ident, ln_1 in K2. cbn [length INR] in K2. lra.
  - exfalso. apply Hp. assert (k = 0%nat) by lia. subst k. destruct (solve_fwd_ok (sysn RNum d) RK4 1 A B (fun _ => 0) ident ident mt st Hf) as (H1 & _ & _ & H).
    specialize (H O H1). cbn [traj] in H. apply (f_equal snd) in H. cbn [snd] in H.
    assert (H' : nth 0 st (fun _ _ => 0) = ident) by exact H. rewrite H'. apply ident_posdef.
Qed.
