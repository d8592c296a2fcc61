(** * Property C60, continued: free_energy of Lorenz 63 as the grid is refined. *)
From Coq Require Import List Arith Reals Lra Lia.
From Coquelicot Require Import Coquelicot.
From Verif Require Import Num Arr M_Utils M_Ode M_L63 M_Prior M_Like M_VarGP
  Spec_Utils Spec_Det Spec_GaussN Spec_L63 Spec_Prior Spec_VarGP Spec_TimeVar Spec_Limit Spec_GradN Spec_LimitN
  P_TimeVar P_TimeVar4 P_RMat P_Prior P_GradL63 P_GradL63T P_Limit1 P_Limit6 P_LimitN1 P_LimitN2 P_LimitN3 P_LimitN6 P_LimitN7 P_LimitN8.
Import ListNotations.
Local Open Scope R_scope.

Notation l63_obj mtd th P n dt Sigma m0 s0 mu tau Rn y t :=
  (vgpn (K:=RNum) ln PI (fun a b m s o => Ok (l63_energy (K:=RNum) th P dt a b m s o)) mtd n 3 dt Sigma P m0 s0 mu tau y t Rn (meye (K:=RNum))).
Notation smooth_mat k T A := (forall i j, (i < 3)%nat -> (j < 3)%nat -> smooth k T (fun t => A t i j)).
Notation smooth_vec k T b := (forall i, (i < 3)%nat -> smooth k T (fun t => b t i)).
(** noise with a diagonal inverse covariance P; prior and initial covariances; observation noise *)
Definition setting (T : R) (Sigma P s0 tau Ti Rn Ri : nat -> nat -> R) (obs : list (R * (nat -> R))) : Prop :=
  0 <= T /\ symm 3 Sigma /\ posdef 3 Sigma /\ is_inv 3 Sigma P /\ diag_only 3 P /\ symm 3 s0 /\ posdef 3 s0 /\
  symm 3 tau /\ posdef 3 tau /\ is_inv 3 tau Ti /\ symm 3 Rn /\ posdef 3 Rn /\ is_inv 3 Rn Ri /\ times_ok 0 T (clock obs).

Theorem C60_l63_defined :
  forall th T Sigma P m0 s0 mu tau Ti Rn Ri obs A b, setting T Sigma P s0 tau Ti Rn Ri obs -> smooth_mat 1 T A -> smooth_vec 1 T b ->
  exists v, forall w, cont_free_energy_n (f63 (th 0%nat) (th 1%nat) (th 2%nat)) 3 T Sigma m0 s0 mu tau Rn obs A b w <-> w = v.
Proof.
  intros th T Sigma P m0 s0 mu tau Ti Rn Ri obs A b (H1 & H2 & H3 & H4 & H5 & H6 & H7 & H8 & H9 & H10 & H11 & H12 & H13 & H14) HA Hb.
  apply (cfe_exists_n 3 P (de63 th (fun i => P i i)) (isq_de63 _ _) (f63 (th 0%nat) (th 1%nat) (th 2%nat))
    (fun A b m S HS => e63_mis th P A b m S H5 HS) T Sigma s0 m0 mu tau Ti Rn Ri obs); assumption.
Qed.
Print Assumptions C60_l63_defined.

(** The values converge, with every integration method, but to the continuous free energy plus
    two terms: the broadcast mean of the initial divergence, and observation covariances taken
    from the first grid points (in the limit: from time 0) with only the diagonal of Ri. *)
Theorem C60_l63_value_partial :
  forall th T Sigma P m0 s0 mu tau Ti Rn Ri obs A b, setting T Sigma P s0 tau Ti Rn Ri obs -> commute 3 s0 tau -> smooth_mat 2 T A -> smooth_vec 2 T b ->
  exists m S, moments_n 3 T Sigma m0 s0 A b m S /\
  forall v, cont_free_energy_n (f63 (th 0%nat) (th 1%nat) (th 2%nat)) 3 T Sigma m0 s0 mu tau Rn obs A b v ->
  exists K dt0, 0 < dt0 /\ forall mtd dt n t x, 0 < dt < dt0 -> INR n * dt = T -> at_index dt (clock obs) t -> sampled_n 3 dt n A b x ->
  exists w : R, (forall st, fst (free_energy (l63_obj mtd th P (n + 1) dt Sigma m0 s0 mu tau Rn (map snd obs) t) x st) = Ok w) /\
  Rabs (w - (v
     + (1 / 2 * (Rsum 3 (fun i => (m0 i - mu i) ^ 2) * Rsum 3 (fun i => Rsum 3 (fun j => Ti i j))
                 - Rsum 3 (fun i => Rsum 3 (fun j => (m0 i - mu i) * Ti i j * (m0 j - mu j))))
        + total (map (fun o => 1 / 2 * (Rsum 3 (fun i => Ri i i * s0 i i) - Rsum 3 (fun i => Rsum 3 (fun j => Ri i j * S (fst o) i j)))) obs)))) <= K * dt.
Proof.
  intros th T Sigma P m0 s0 mu tau Ti Rn Ri obs A b (H1 & H2 & H3 & H4 & H5 & H6 & H7 & H8 & H9 & H10 & H11 & H12 & H13 & H14) Hc HA Hb.
  destruct (moments_n_ex 3 T Sigma s0 m0 A b H1 (fun i j Hi Hj => smooth_pred 1 T _ (HA i j Hi Hj)) (fun i Hi => smooth_pred 1 T _ (Hb i Hi))) as (m & S & HM).
  exists m, S. split; [exact HM|]. intros v Hv.
  apply (limit_value_n 3 P (de63 th (fun i => P i i)) (isq_de63 _ _) (f63 (th 0%nat) (th 1%nat) (th 2%nat))
    (fun dt a b m s o => Ok (l63_energy (K:=RNum) th P dt a b m s o)) (fun dt A B M S o => l63_val th P dt A B M S o)
    (fun A b m S HS => e63_mis th P A b m S H5 HS) T Sigma s0 m0 mu tau Ti Rn Ri obs H1 H2 H3 H4 H6 H7 H8 H9 Hc H10 H11 H12 H13 H14 A b HA Hb m S v HM Hv).
Qed.
Print Assumptions C60_l63_value_partial.

(** Finding: the limit is wrong already for unit covariances, equal prior and initial
    distributions, A = b = 0 and one observation at time 1/2 of [0,1]. *)
Theorem C60_l63_refuted :
  exists T Sigma P m0 s0 mu tau Ti Rn Ri obs A b, setting T Sigma P s0 tau Ti Rn Ri obs /\ commute 3 s0 tau /\ smooth_mat 2 T A /\ smooth_vec 2 T b /\
  forall th v, cont_free_energy_n (f63 (th 0%nat) (th 1%nat) (th 2%nat)) 3 T Sigma m0 s0 mu tau Rn obs A b v ->
  exists d dt0, 0 < d /\ 0 < dt0 /\ forall mtd dt n t x, 0 < dt < dt0 -> INR n * dt = T -> at_index dt (clock obs) t -> sampled_n 3 dt n A b x ->
  exists w : R, (forall st, fst (free_energy (l63_obj mtd th P (n + 1) dt Sigma m0 s0 mu tau Rn (map snd obs) t) x st) = Ok w) /\ d <= Rabs (w - v).
Proof.
  exists 1, ident, ident, (fun _ => 0), ident, (fun _ => 0), ident, ident, ident, ident, ow, (fun _ _ _ => 0), (fun _ _ => 0).
  pose proof (ident_symm 3) as Hs. pose proof (ident_posdef 3) as Hp. pose proof (ident_inv 3) as Hi.
  assert (Hd : diag_only 3 ident) by (intros i j _ _ Hij; unfold ident; destruct (Nat.eqb_spec i j); [contradiction|reflexivity]).
  assert (Hc : commute 3 ident ident) by (intros i j _ _; reflexivity).
  assert (HA : smooth_mat 2 1 (fun (_ : R) (_ _ : nat) => 0)) by (intros; apply smooth_const).
  assert (Hb : smooth_vec 2 1 (fun (_ : R) (_ : nat) => 0)) by (intros; apply smooth_const).
  assert (HS : setting 1 ident ident ident ident ident ident ident ow) by (repeat (split; [first [assumption|lra]|]); exact ow_times).
  split; [exact HS|]. split; [exact Hc|]. split; [exact HA|]. split; [exact Hb|]. intros th v Hv.
  destruct (limit_value_n 3 ident (de63 th (fun i => ident i i)) (isq_de63 _ _) (f63 (th 0%nat) (th 1%nat) (th 2%nat))
    (fun dt a b m s o => Ok (l63_energy (K:=RNum) th ident dt a b m s o)) (fun dt A B M S o => l63_val th ident dt A B M S o)
    (fun A b m S HS => e63_mis th ident A b m S Hd HS) 1 ident ident (fun _ => 0) (fun _ => 0) ident ident ident ident ow ltac:(lra) Hs Hp Hi Hs Hp Hs Hp Hc Hi Hs Hp Hi ow_times _ _ HA Hb _ _ v Sw_moments Hv) as (K & dt0 & Hd0 & H).
  rewrite gap_w in H.
  destruct (apart K dt0 v (3 / 4) Hd0 ltac:(lra)) as (dd & dt1 & D1 & D2 & HAp).
  exists dd, dt1. split; [exact D1|]. split; [apply D2|]. intros mtd dt n t x Hdt Hn Ht Hx.
  destruct (H mtd dt n t x ltac:(lra) Hn Ht Hx) as (w & Hw & B). exists w. split; [exact Hw|].
  apply (HAp 1%nat dt w); [lia|exact Hdt|]. rewrite pow_1. exact B.
Qed.
Print Assumptions C60_l63_refuted.

(** the arguments sampled from any A and b exist, and so do grids that contain the observation *)
Example C60_l63_nonvacuous : forall k : nat, (0 < k)%nat ->
  let dt := / (2 * INR k) in INR (2 * k) * dt = 1 /\ at_index dt (clock [(1 / 2, fun _ => 0)]) [k] /\
  sampled_n 3 dt (2 * k) (fun _ _ _ => 0) (fun _ _ => 0) (repeat 0 ((2 * k + 1) * 3 * (3 + 1))).
Proof.
  intros k Hk dt. assert (0 < INR k) by (apply lt_0_INR; exact Hk). assert (E : INR (2 * k) * dt = 1) by (unfold dt; rewrite mult_INR; cbn [INR]; field; lra).
  split; [exact E|]. split.
  - constructor; [|constructor]. unfold dt. cbn [fst]. field. lra.
  - split; [apply repeat_length|]. intros j Hj. unfold part_a, part_b, entry. split; intros; rewrite nth_repeat; reflexivity.
Qed.

(** Where A(t) is symmetric, the entries of gradient for b, divided by dt, converge with every
    integration method to the derivative of the continuous free energy with respect to b. *)
Theorem C60_l63_gradient_partial :
  forall th T Sigma P m0 s0 mu tau Ti Rn Ri obs A b, setting T Sigma P s0 tau Ti Rn Ri obs -> commute 3 s0 tau -> smooth_mat 2 T A -> smooth_vec 2 T b ->
  (forall t, 0 <= t <= T -> symm 3 (A t)) ->
  exists gb, cont_gradient_b (f63 (th 0%nat) (th 1%nat) (th 2%nat)) 3 T Sigma m0 s0 mu tau Rn obs A b gb /\
  exists K dt0, 0 < dt0 /\ forall mtd dt n t x, 0 < dt < dt0 -> INR n * dt = T -> at_index dt (clock obs) t -> sampled_n 3 dt n A b x ->
  exists g : list R, (forall st, fst (gradient (l63_obj mtd th P (n + 1) dt Sigma m0 s0 mu tau Rn (map snd obs) t) x true st) = Ok g) /\
  length g = ((n + 1) * 3 * (3 + 1))%nat /\
  forall k i, (k <= n)%nat -> (i < 3)%nat -> Rabs (part_b (n + 1) 3 (entry g) k i / dt - gb (INR k * dt) i) <= K * dt.
Proof.
  intros th T Sigma P m0 s0 mu tau Ti Rn Ri obs A b (H1 & H2 & H3 & H4 & H5 & H6 & H7 & H8 & H9 & H10 & H11 & H12 & H13 & H14) Hc HA Hb Hs.
  apply (both_b th T Sigma P m0 s0 mu tau Ti Rn Ri obs A b); assumption.
Qed.
Print Assumptions C60_l63_gradient_partial.

(** Finding: without symmetry the limit is wrong, because the multipliers are propagated with A
    instead of its transpose.  Here A is constant with the single entry A_02 = 1, b = 0, all
    covariances are the identity and there are no observations: the entry of gradient for b_2 at
    time 0 stays away from the derivative on every fine grid. *)
Theorem C60_l63_gradient_refuted :
  exists th T Sigma P m0 s0 mu tau Ti Rn Ri obs A b gb, setting T Sigma P s0 tau Ti Rn Ri obs /\ commute 3 s0 tau /\ smooth_mat 2 T A /\ smooth_vec 2 T b /\
  cont_gradient_b (f63 (th 0%nat) (th 1%nat) (th 2%nat)) 3 T Sigma m0 s0 mu tau Rn obs A b gb /\
  (forall t i, 0 <= t <= T -> (i < 3)%nat -> continuous (fun t => gb t i) t) /\
  exists d dt0, 0 < d /\ 0 < dt0 /\ forall mtd dt n t x, 0 < dt < dt0 -> INR n * dt = T -> at_index dt (clock obs) t -> sampled_n 3 dt n A b x ->
  exists g : list R, (forall st, fst (gradient (l63_obj mtd th P (n + 1) dt Sigma m0 s0 mu tau Rn (map snd obs) t) x true st) = Ok g) /\
  d <= Rabs (part_b (n + 1) 3 (entry g) 0 2 / dt - gb 0 2%nat).
Proof.
  pose proof (ident_symm 3) as Hs. pose proof (ident_posdef 3) as Hp. pose proof (ident_inv 3) as Hi.
  assert (Hd : diag_only 3 ident) by (intros i j _ _ Hij; unfold ident; destruct (Nat.eqb_spec i j); [contradiction|reflexivity]).
  assert (Hc : commute 3 ident ident) by (intros i j _ _; reflexivity).
  assert (HA : smooth_mat 2 1 Aw) by (intros i j _ _; exact (smooth_const 2 1 (Aw 0 i j))).
  assert (Hb : smooth_vec 2 1 bw) by (intros i _; exact (smooth_const 2 1 0)).
  assert (H01 : 0 <= 1) by lra. assert (Hn : times_ok 0 1 (clock [])) by exact I.
  set (eb := eB (eb63 thw (fun i => ident i i)) Aw bw (fun _ _ => 0) Swn).
  exists thw, 1, ident, ident, (fun _ => 0), ident, (fun _ => 0), ident, ident, ident, ident, [], Aw, bw, (fun t i => eb t i + lw t i).
  split; [repeat (split; [assumption|]); exact Hn|]. split; [exact Hc|]. split; [exact HA|]. split; [exact Hb|].
  split. { apply (exact_b thw 1 ident ident (fun _ => 0) ident (fun _ => 0) ident ident ident ident [] Aw bw H01 Hs Hp Hi Hd Hs Hp Hs Hp Hi Hs Hp Hi Hn HA Hb _ _ lw [] Swn_moments lw_end lw_sol eq_refl). }
  split.
  { intros t i Ht Hi3. apply (continuous_plus (fun t => eb t i) (fun t => lw t i)).
    - apply (smooth_cont 1); [|exact Ht]. apply (eB_smooth 3 (eb63 thw (fun i => ident i i)) (fun i Hi => isq_eb63 thw _ i Hi) 1 ident ident (fun _ => 0) H01 Aw bw HA Hb (fun _ _ => 0) Swn Swn_moments i Hi3).
    - eapply der_cont. apply (lw_sol t i Ht Hi3). }
  destruct (code_b thw 1 ident ident (fun _ => 0) ident (fun _ => 0) ident ident ident [] Aw bw H01 Hs Hd Hs Hp Hs Hp Hs Hp Hi Hn Hc HA Hb _ _ lw' [] Swn_moments lw'_end lw'_sol eq_refl) as (K & dt0 & D0 & H).
  destruct (apart K dt0 (eb 0 2%nat + lw 0 2%nat) (- (11 / 12)) D0 ltac:(lra)) as (dd & dt1 & D1 & D2 & HAp).
  exists dd, dt1. split; [exact D1|]. split; [apply D2|]. intros mtd dt n t x Hdt HnT Ht Hx.
  destruct (H mtd dt n t x ltac:(lra) HnT Ht Hx) as (g & Hg & _ & B). exists g. split; [exact Hg|].
  specialize (B 0%nat 2%nat ltac:(lia) ltac:(lia)). cbn [INR with_jumps] in B. rewrite Rmult_0_l in B. fold eb in B.
  apply (HAp 1%nat dt); [lia|exact Hdt|]. rewrite pow_1. replace (eb 0 2%nat + lw 0 2%nat - - (11 / 12)) with (eb 0 2%nat + lw' 0 2%nat) by (pose proof lw_apart; lra). exact B.
Qed.
Print Assumptions C60_l63_gradient_refuted.

(** fine grids exist, and every A and b can be sampled on them *)
Example C60_l63_gradient_nonvacuous : forall A b eps, 0 < eps ->
  exists dt n x, 0 < dt < eps /\ INR n * dt = 1 /\ at_index dt (clock []) [] /\ sampled_n 3 dt n A b x.
Proof.
  intros A b eps He. destruct (nfloor_ex (/ eps)) as (n & _ & Hn); [left; apply Rinv_0_lt_compat; exact He|].
  assert (N0 : 0 < INR n + 1) by (pose proof (pos_INR n); lra).
  destruct (sampled_ex 3 (/ (INR n + 1)) (n + 1) A b) as (x & Hx). exists (/ (INR n + 1)), (n + 1)%nat, x.
  split; [split; [apply Rinv_0_lt_compat; exact N0|]|].
  - rewrite <- (Rinv_inv eps). apply Rinv_lt_contravar; [|lra]. apply Rmult_lt_0_compat; [apply Rinv_0_lt_compat; exact He|exact N0].
  - split; [rewrite plus_INR; cbn [INR]; apply Rinv_r; lra|]. split; [constructor|exact Hx].
Qed.
