(** * Property C57, continued: smooth slopes and offsets, every method, small steps. *)
From Coq Require Import ZArith List Bool Arith Reals Lra Lia Psatz Sorted.
From Coquelicot Require Import Coquelicot.
From Verif Require Import Num Arr M_Utils M_Ode M_Moments M_Sde1 M_Prior M_Like M_VarGP
  Spec_Utils Spec_Gauss Spec_Ode Spec_TimeVar Spec_Prior Spec_Sde1 Spec_VarGP Spec_Evid P_Trapz P_Moments P_Sde1 P_RMat P_Det P_Oper P_Expect P_Prior P_Like P_VarGP P_Adjoint P_Grad1
  P_TimeVar P_TimeVar5 P_Limit6 P_Bound P_Bound2 P_Evid P_Evid2 P_Evid3 P_Evid4 P_Evid5 Props_Bound Props_Evid.
Import ListNotations.
Local Open Scope R_scope.

(** For slopes and offsets that are samples of smooth functions on [0, T] there is one constant C for the four methods, all
    small steps and all data such that the objective v plus ln(s0)/2 plus C dt bounds -ln Z from above. *)
Theorem C57_ou_limit_partial :
  forall sigma theta T m0 s0 a b, 0 < sigma -> 0 <= T -> 0 < s0 -> smooth 2 T a -> smooth 2 T b -> exists C d0 : R, 0 < d0 /\
  forall mtd n dt mu tau r y t, 0 < dt < d0 -> INR n * dt <= T -> 0 < tau -> obs_ok (n + 1) r y t ->
  forall Z, evidence (f_ou theta) sigma (n + 1) dt mu tau y t r Z ->
  exists v : R, (forall s, fst (free_energy (ou_obj mtd sigma theta (n + 1) dt m0 s0 mu tau r y t) (grid dt (n + 1) a ++ grid dt (n + 1) b) s) = Ok v) /\
  - ln Z <= v + 1 / 2 * ln s0 + C * dt.
Proof.
  intros sigma theta T m0 s0 a b Hsg HT Hs0 Ha Hb.
  destruct (limit_bound (f_ou theta) (e_ou sigma theta) (lq_ou sigma theta) T sigma m0 s0 HT Hsg Hs0 ltac:(intros; cbn; lia) (fun a b z => lq_ou_eval sigma theta a b z Hsg)
    (fun a b m s => lq_ou_mom sigma theta a b m s Hsg) (proj1 (isp_ou sigma theta)) a b Ha Hb) as (C & d0 & Hd0 & H).
  exists C, d0. split; [exact Hd0|]. intros mtd n dt mu tau r y t Hdt Hn Htau (Hr & Hy & Ht & Hst) Z HZ.
  destruct (fe_val_out _ _ (e_ou sigma theta) _ _ _ _ (ou_energy_ok sigma theta dt) mtd (n + 1) dt sigma m0 s0 mu tau r y t ltac:(lia) Hr Hy Ht
    (fun A B M S => ou_sde sigma theta dt t A B M S Hsg Hst) (grid dt (n + 1) a) (grid dt (n + 1) b) (grid_len _ _ _) (grid_len _ _ _)) as (mt & st & o & Hf & _ & Ef).
  eexists. split; [intros s; exact (f_equal fst (Ef s))|].
  destruct (H mtd dt n mu tau r y t mt st Hdt Hn Htau Hr Ht Hf) as (_ & HB). destruct (HB Z HZ) as [_ B].
  rewrite (kl0_1d_val mu tau m0 s0) by lra. lra.
Qed.
Print Assumptions C57_ou_limit_partial.
(** the double well, where the missing half of the sixth moment is added *)
Theorem C57_dw_limit_partial :
  forall sigma theta T m0 s0 a b, 0 < sigma -> 0 <= T -> 0 < s0 -> smooth 2 T a -> smooth 2 T b -> exists C d0 : R, 0 < d0 /\
  forall mtd n dt mu tau r y t, 0 < dt < d0 -> INR n * dt <= T -> 0 < tau -> obs_ok (n + 1) r y t ->
  let E := dw_obj mtd sigma theta (n + 1) dt m0 s0 mu tau r y t in
  forall Z, evidence (f_dw theta) sigma (n + 1) dt mu tau y t r Z ->
  exists (v : R) (o : Out E) (x6 : nat -> R), (forall s, free_energy E (grid dt (n + 1) a ++ grid dt (n + 1) b) s = (Ok v, Some o)) /\
  (forall k, (k <= n)%nat -> E_normal (nth k (o_mt o : list R) 0) (nth k (o_st o : list R) 0) (fun z => z ^ 6) (x6 k)) /\
  - ln Z <= v + 1 / 2 * ln s0 + trap (n + 1) (fun k => 4 * x6 k / sigma) dt + C * dt.
Proof.
  intros sigma theta T m0 s0 a b Hsg HT Hs0 Ha Hb.
  destruct (limit_bound (f_dw theta) (e_dw sigma theta) (lq_dw sigma theta) T sigma m0 s0 HT Hsg Hs0 ltac:(intros; cbn; lia) (fun a b z => lq_dw_eval sigma theta a b z Hsg)
    (fun a b m s => lq_dw_mom sigma theta a b m s Hsg) (proj1 (isp_dw sigma theta)) a b Ha Hb) as (C & d0 & Hd0 & H).
  exists C, d0. split; [exact Hd0|]. intros mtd n dt mu tau r y t Hdt Hn Htau (Hr & Hy & Ht & Hst) E Z HZ. subst E.
  destruct (fe_val_out _ _ (e_dwc sigma theta) _ _ _ _ (dw_energy_ok sigma theta dt) mtd (n + 1) dt sigma m0 s0 mu tau r y t ltac:(lia) Hr Hy Ht
    (fun A B M S => dw_sde sigma theta dt t A B M S Hsg Hst) (grid dt (n + 1) a) (grid dt (n + 1) b) (grid_len _ _ _) (grid_len _ _ _)) as (mt & st & o & Hf & (O1 & O2) & Ef).
  destruct (H mtd dt n mu tau r y t mt st Hdt Hn Htau Hr Ht Hf) as (SP & HB). destruct (HB Z HZ) as [_ B].
  eexists. exists o, (fun k => mom_elt (K:=RNum) 6 (nth k mt 0) (nth k st 0)). split; [exact Ef|].
  split; [intros k Hk; rewrite O1, O2; apply mom_elt_E; [exact (SP k Hk)|lia]|].
  rewrite (kl0_1d_val mu tau m0 s0) by lra.
  rewrite (dw_trap sigma theta (n + 1) dt (fun k => nth k (grid dt (n + 1) a) 0) (fun k => nth k (grid dt (n + 1) b) 0) (fun k => nth k mt 0) (fun k => nth k st 0) Hsg) in B. lra.
Qed.
Print Assumptions C57_dw_limit_partial.

(** the unit interval in N steps, slope t and offset 1 - t, starting at N(0, 1), one observation at the end: for each method
    the objective is a bound up to a constant over N, once N is large enough *)
Example C57_limit_instance : exists (C : R) (N0 : nat), forall mtd N y, (N0 <= N)%nat ->
  exists v Z, evidence (f_ou 1) 1 (N + 1) (/ INR N) 0 1 [y] [N] 1 Z /\
  fst (free_energy (ou_obj mtd 1 1 (N + 1) (/ INR N) 0 1 0 1 1 [y] [N]) (grid (/ INR N) (N + 1) (fun t => t) ++ grid (/ INR N) (N + 1) (fun t => 1 - t)) None) = Ok v /\
  - ln Z <= v + C / INR N.
Proof.
  assert (S1 : smooth 2 1 (fun t => t)).
  { split; [exists 1; intros t Ht; apply Rabs_le; lra|]. exists (fun _ => 1). split; [intros t _; apply @is_derive_id|apply (smooth_const 1 1 1)]. }
  assert (S2 : smooth 2 1 (fun t => 1 - t)) by (apply (smooth_plus 2 1 (fun _ => 1) (fun t => - t)); [apply smooth_const|apply smooth_opp, S1]).
  destruct (C57_ou_limit_partial 1 1 1 0 1 _ _ ltac:(lra) ltac:(lra) ltac:(lra) S1 S2) as (C & d0 & Hd0 & H).
  destruct (archimed (/ d0)) as [HA _]. assert (P0 : 0 < / d0) by (apply Rinv_0_lt_compat, Hd0).
  exists C, (Z.to_nat (up (/ d0))). intros mtd N y HN.
  assert (HI : / d0 < INR N).
  { apply Rlt_le_trans with (INR (Z.to_nat (up (/ d0)))); [|apply le_INR, HN]. rewrite INR_IZR_INZ, Z2Nat.id; [lra|]. apply le_IZR. lra. }
  assert (Hd : 0 < / INR N) by (apply Rinv_0_lt_compat; lra).
  assert (Hh : / INR N < d0). { rewrite <- (Rinv_inv d0). apply Rinv_lt_contravar; [apply Rmult_lt_0_compat; lra|exact HI]. }
  assert (Hobs : obs_ok (N + 1) 1 [y] [N]). { split; [lra|]. split; [reflexivity|]. split; [constructor; [lia|constructor]|repeat constructor]. }
  destruct (C57_ou_partial 1 1 (N + 1) (/ INR N) 0 1 0 1 1 [y] [N] ltac:(lra) Hd ltac:(lia) ltac:(lra) ltac:(lra) Hobs (repeat 0 (N + 1 + (N + 1))) ltac:(apply repeat_length)) as (Z & PZ & UZ & _).
  { intros k Hk. rewrite nth_repeat. lra. }
  assert (HZ : evidence (f_ou 1) 1 (N + 1) (/ INR N) 0 1 [y] [N] 1 Z) by (apply UZ; reflexivity).
  destruct (H mtd N (/ INR N) 0 1 1 [y] [N]) with (Z := Z) as (v & Hv & B); try assumption; try lra.
  { right. field. lra. }
  exists v, Z. split; [exact HZ|]. split; [exact (Hv None)|]. rewrite ln_1 in B. unfold Rdiv. lra.
Qed.
