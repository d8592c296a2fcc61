(** * Convergence of the offset part of [gradient] in several dimensions, for any method. *)
From Coq Require Import List Arith Reals Lra Lia Psatz Sorted.
From Coquelicot Require Import Coquelicot.
From Verif Require Import Num Arr ArrFacts M_LinAlg M_Utils M_Ode M_Moments M_Sde1 M_L63 M_Prior M_Like M_VarGP
  Spec_Utils Spec_Det Spec_Ode Spec_Gauss Spec_GaussN Spec_Sde1 Spec_L63 Spec_Prior Spec_Like Spec_VarGP Spec_TimeVar Spec_Limit Spec_GradN Spec_LimitN
  P_Ode P_OdeR P_OdeRK P_Conv P_Trapz P_Sde1 P_Det P_RMat P_Prior P_Like P_L63 P_VarGP P_Grad1 P_Adjoint P_GaussN P_Expect P_GradN P_GradN2 P_GradN3 P_GradL63 P_GradL63T
  P_TimeVar P_TimeVar2 P_TimeVar3 P_TimeVar4 P_TimeVar5 P_TimeVar6 P_TimeVar7 P_TimeVar10 P_Limit1 P_Limit3 P_Limit4 P_Limit5 P_LinOde P_LimitN0 P_LimitN1 P_LimitN2 P_LimitN3 P_LimitN4 P_LimitN5 P_LimitN6.
Import ListNotations.
Local Open Scope R_scope.

(** ** the jumps of a list of pieces *)
Section Jumps.
Context (c : R * (nat -> R) -> nat -> R).
Lemma jump_none (l : list (R * (nat -> R))) : forall ps t, map fst ps = map (fun o => (fst o, c o)) l -> (forall o, In o l -> fst o <> t) -> jump_at vz ps t = vz.
Proof.
  induction l as [|o l IH]; intros [|[[tau c0] y] ps] t E H; try discriminate E; [reflexivity|]. cbn [map fst] in E. injection E as E1 E2 E3.
  cbn [jump_at]. destruct (Req_EM_T t tau) as [Q|Q]; [exfalso; apply (H o); [left; reflexivity|congruence]|]. apply IH; [exact E3|]. intros o' Ho. apply H. right; exact Ho.
Qed.
Lemma jump_some (l : list (R * (nat -> R))) : forall T2 ps o, map fst ps = map (fun o => (fst o, c o)) l -> dec T2 (clock l) -> In o l -> jump_at vz ps (fst o) = c o.
Proof.
  induction l as [|o1 l IH]; intros T2 [|[[tau c0] y] ps] o E Hd Ho; try discriminate E; [destruct Ho|]. cbn [map fst] in E. injection E as E1 E2 E3.
  cbn [clock map dec fst] in Hd. destruct Hd as [H1 Hd]. cbn [jump_at]. destruct Ho as [<-|Ho].
  - destruct (Req_EM_T (fst o1) tau) as [Q|Q]; [congruence|exfalso; apply Q; symmetry; exact E1].
  - pose proof (dec_lt _ _ (fst o, 0) Hd (in_map (fun o : R * (nat -> R) => (fst o, 0)) l o Ho)) as L. cbn [fst] in L.
    destruct (Req_EM_T (fst o) tau); [lra|]. apply (IH (fst o1)); assumption.
Qed.
Lemma jump_grid dt (l : list (R * (nat -> R))) ps : map fst ps = map (fun o => (fst o, c o)) l -> (forall o, In o l -> exists k, fst o = INR k * dt) -> on_grid dt ps.
Proof.
  intros E H q Hq. apply (in_map fst) in Hq. rewrite E in Hq. apply in_map_iff in Hq. destruct Hq as (o & Eo & Ho). destruct (H o Ho) as (k & Ek). exists k. rewrite <- Eo. exact Ek.
Qed.
End Jumps.
Lemma at_index_ex dt l t : at_index dt l t -> forall o, In o l -> exists k, fst o = INR k * dt.
Proof. intros H. induction H as [|o' k l t E H' IH]; intros o Ho; [destruct Ho|]. destruct Ho as [<-|Ho]; [exists k; exact E|apply IH, Ho]. Qed.

Section Gb.
Context (d : nat) (P : nat -> nat -> R) (e : dens R) (ea es : dens (nat -> nat -> R)) (eb em : dens (nat -> R)).
Context (energy : R -> list (nat -> nat -> R) -> list (nat -> R) -> list (nat -> R) -> list (nat -> nat -> R) -> option (list nat) -> result (EnergyN RNum)).
Context (EO : forall dt, energy_okn d (energy dt) P dt e ea es eb em).
Context (Heb : forall i, (i < d)%nat -> isq d (fun A b m S => eb A b m S i)) (Hem : forall i, (i < d)%nat -> isq d (fun A b m S => em A b m S i)).
Context (T : R) (Sigma s0 : nat -> nat -> R) (m0 mu : nat -> R) (tau Rn Ri : nat -> nat -> R) (obs : list (R * (nat -> R))) (k0 : R).
Context (HT : 0 <= T) (HSs : symm d Sigma) (H0s : symm d s0) (Hrs : symm d Rn) (Hrp : posdef d Rn) (HRi : is_inv d Rn Ri) (Hobs : times_ok 0 T (clock obs))
  (Hk0 : kl0_nd (K:=RNum) ln d mu tau m0 s0 = Ok k0).
Context (A : R -> nat -> nat -> R) (b m : R -> nat -> R) (S : R -> nat -> nat -> R).
Context (HA : forall i j, (i < d)%nat -> (j < d)%nat -> smooth 2 T (fun t => A t i j)) (Hb : forall i, (i < d)%nat -> smooth 2 T (fun t => b t i)).
Context (HM : moments_n d T Sigma m0 s0 A b m S).
Notation EE mtd dt n t := (vgpn (K:=RNum) ln PI (energy dt) mtd (n + 1) d dt Sigma P m0 s0 mu tau (map snd obs) t Rn (meye (K:=RNum))).
Notation gM := (gm em A b m S).
Notation eBt := (eB eb A b m S).

Context (y0 : R -> nat -> R) (ps : list (piece (nat -> R))) (Y0 : forall i, y0 T i = 0) (Hfit : fits (solq d A gM) (glueq d) T y0 ps)
  (Em : map fst ps = map (fun o => (fst o, cb d Ri m o)) (rev obs)).

Lemma gM_smooth i : (i < d)%nat -> smooth 2 T (fun t => gM t i).
Proof.
  intros Hi. destruct (Sms_n d T Sigma s0 m0 HT A b m S HA Hb HM) as [Q1 Q2].
  apply (isq_smooth d (fun A b m S => em A b m S i)); auto.
Qed.

Lemma code_b_conv : exists K dt0, 0 < dt0 /\ forall mtd dt n t x, 0 < dt < dt0 -> INR n * dt = T -> at_index dt (clock obs) t -> sampled_n d dt n A b x ->
  exists g o, (forall st, gradient (EE mtd dt n t) x true st = (Ok g, Some o)) /\ length g = ((n + 1) * d * (d + 1))%nat /\
  forall k i, (k <= n)%nat -> (i < d)%nat -> Rabs (part_b (n + 1) d (entry g) k i - dt * (eBt (INR k * dt) i + with_jumps y0 ps (INR k * dt) i)) <= dt * (K * dt).
Proof.
  destruct (fwd_err_n d T Sigma s0 m0 HT A b m S HA Hb HM) as (Kf & d0 & Kf0 & (D0 & D1) & HKf).
  destruct (all_bd d T Sigma s0 m0 HT A b m S HA Hb HM) as (B & B0 & HB).
  destruct (finite_bound (fun i C => forall A b m S A' b' m' S' e0, 0 <= e0 <= 1 -> bd d B A b m S -> near d e0 A b m S A' b' m' S' ->
     Rabs (eb A' b' m' S' i - eb A b m S i) <= C * e0 /\ Rabs (em A' b' m' S' i - em A b m S i) <= C * e0) d) as (C & C0 & HC).
  { intros i x y H Hxy a1 b1 m1 s1 a2 b2 m2 s2 e0 He H1 H2. destruct (H a1 b1 m1 s1 a2 b2 m2 s2 e0 He H1 H2) as [Q1 Q2].
    split; (eapply Rle_trans; [eassumption|]; apply Rmult_le_compat_r; lra). }
  { intros i Hi. destruct (isq_lip d _ (Heb i Hi) B B0) as (C1 & C10 & H1). destruct (isq_lip d _ (Hem i Hi) B B0) as (C2 & C20 & H2).
    exists (C1 + C2). intros a1 b1 m1 s1 a2 b2 m2 s2 e0 He Q1 Q2.
    pose proof (proj2 (H1 a1 b1 m1 s1 a2 b2 m2 s2 e0 He Q1 Q2)) as X1. pose proof (proj2 (H2 a1 b1 m1 s1 a2 b2 m2 s2 e0 He Q1 Q2)) as X2. cbv beta in X1, X2.
    assert (0 <= C1 * e0) by (apply Rmult_le_pos; lra). assert (0 <= C2 * e0) by (apply Rmult_le_pos; lra). split; lra. }
  destruct (fin_pair d (fun p M => Rabs (Ri (fst p) (snd p)) <= M)) as (RB & RB0 & HRB); [intros i x y H Hxy; lra|intros p _; eexists; apply Rle_refl|].
  destruct (lam_conv_n d T A gM y0 ps HT HA gM_smooth (fun i _ => Y0 i)) as (K1 & HK1).
  { revert Hfit. apply fits_mono; [|intros v u c H; exact H]. intros u v y H t i Ht Hi. eapply d_eq; [apply (H t i Ht Hi)|]. unfold lam_rhsn, mtr. change rsum with Rsum. ring. }
  set (N := INR (length obs)). assert (N0 : 0 <= N) by apply pos_INR.
  set (W := INR d * (RB * Kf)). assert (W0 : 0 <= W) by (unfold W; apply Rmult_le_pos; [apply pos_INR|apply Rmult_le_pos; assumption]).
  set (E1 := exp (T * (INR d * B + 1)) * (C * Kf + N * W)).
  assert (E10 : 0 <= E1).
  { unfold E1. apply Rmult_le_pos; [left; apply exp_pos|]. apply Rplus_le_le_0_compat; apply Rmult_le_pos; assumption. }
  exists (C * Kf + E1 + Rabs K1), (Rmin d0 (/ (Kf + 1))). split; [apply Rmin_pos; [lra|apply Rinv_0_lt_compat; lra]|].
  pose proof (Rabs_pos K1) as K10. pose proof (Rle_abs K1) as K11.
  intros mtd dt n t x Hdt Hn Hidx Hx.
  assert (X : dt < d0 /\ dt < / (Kf + 1)) by (split; eapply Rlt_le_trans; try apply Hdt; [apply Rmin_l|apply Rmin_r]).
  assert (Hdp : 0 < dt) by lra. assert (Hd1 : dt <= 1) by lra.
  assert (Dl : Kf * dt <= 1).
  { assert (Q : (Kf + 1) * dt <= (Kf + 1) * / (Kf + 1)) by (apply Rmult_le_compat_l; lra). rewrite Rinv_r in Q by lra. lra. }
  assert (Dl0 : 0 <= Kf * dt) by (apply Rmult_le_pos; lra).
  destruct (at_index_sorted dt T (clock obs) t Hdp Hobs Hidx) as [St Nd]. pose proof (at_index_len dt (clock obs) t Hidx) as Lt. rewrite clock_len in Lt.
  pose proof (at_index_lt dt T (clock obs) t n Hdp Hn Hobs Hidx) as Ft0.
  assert (Ft : List.Forall (fun i => (i < n + 1)%nat) t) by (eapply Forall_impl; [|exact Ft0]; intros; cbn in *; lia).
  destruct Hx as [Hxl Hxs].
  destruct (grad_anyn d (energy dt) P dt e ea es eb em (EO dt) mtd (n + 1) Sigma s0 m0 mu tau Rn (map snd obs) t k0 ltac:(lia) H0s HSs Hrs Hrp
    ltac:(rewrite map_length; symmetry; exact Lt) Ft Nd St Hk0 x Ri Hxl HRi)
    as (al & ds & gs & psi & st & bl & mt & dm & gl & lam & g & o & L1 & L2 & L3 & L4 & L5 & L6 & L7 & L8 & L9 & EA & EB & Hf & Hdm & Gz & Gv & Hbw & HG & Lg & Pb).
  exists g, o. split; [exact HG|]. split; [exact Lg|].
  assert (Tk : forall k, (k <= n)%nat -> 0 <= INR k * dt <= T).
  { intros k Hk. split; [apply Rmult_le_pos; [apply pos_INR|lra]|]. rewrite <- Hn. apply Rmult_le_compat_r; [lra|]. apply le_INR, Hk. }
  assert (Ra : lrel (V:=mV) (relm d) al (grid dt (n + 1) A)).
  { split; [rewrite grid_len; exact L1|]. intros k. destruct (Nat.lt_ge_cases k (n + 1)) as [Hk|Hk].
    - intros i j Hi Hj. rewrite grid_nth by exact Hk. etransitivity; [exact (EA k Hk i j Hi Hj)|]. apply (proj1 (Hxs k ltac:(lia)) i j Hi Hj).
    - intros i j _ _. rewrite !nth_overflow by (first [rewrite grid_len; exact Hk|apply Nat.le_trans with (n + 1)%nat; [apply Nat.eq_le_incl; exact L1|exact Hk]]). reflexivity. }
  assert (Rb : lrel (V:=vV) (relv d) bl (grid dt (n + 1) b)).
  { split; [rewrite grid_len; exact L2|]. intros k. destruct (Nat.lt_ge_cases k (n + 1)) as [Hk|Hk].
    - intros i Hi. rewrite grid_nth by exact Hk. etransitivity; [exact (EB k Hk i Hi)|]. apply (proj2 (Hxs k ltac:(lia)) i Hi).
    - intros i _. rewrite !nth_overflow by (first [rewrite grid_len; exact Hk|apply Nat.le_trans with (n + 1)%nat; [apply Nat.eq_le_incl; exact L2|exact Hk]]). reflexivity. }
  destruct (solve_n d mtd dt al (grid dt (n + 1) A) bl (grid dt (n + 1) b) m0 m0 s0 s0 Sigma Sigma mt st Ra Rb
    (fun i _ => eq_refl) (fun i j _ _ => eq_refl) (fun i j _ _ => eq_refl) Hf) as (mt' & st' & Hf' & [_ Rm] & [_ Rs]).
  pose proof (HKf mtd dt n mt' st' ltac:(lra) Hn Hf') as HE'.
  assert (HE : forall k, (k <= n)%nat -> (forall i, (i < d)%nat -> Rabs (nth k mt vz i - m (INR k * dt) i) <= Kf * dt) /\
    (forall i j, (i < d)%nat -> (j < d)%nat -> Rabs (nth k st mz i j - S (INR k * dt) i j) <= Kf * dt)).
  { intros k Hk. destruct (HE' k Hk) as [Q1 Q2]. split.
    - intros i Hi. specialize (Rm k i Hi). change (nth k mt vz i = nth k mt' vz i) in Rm. rewrite Rm. apply Q1, Hi.
    - intros i j Hi Hj. specialize (Rs k i j Hi Hj). change (nth k st mz i j = nth k st' mz i j) in Rs. rewrite Rs. apply Q2; assumption. }
  clear HE' Rm Rs Hf' Ra Rb.
  assert (Nr : forall k, (k <= n)%nat -> near d (Kf * dt) (A (INR k * dt)) (b (INR k * dt)) (m (INR k * dt)) (S (INR k * dt)) (nth k al mz) (nth k bl vz) (nth k mt vz) (nth k st mz)).
  { intros k Hk. destruct (HE k Hk) as [Q1 Q2]. split.
    - intros i j Hi Hj. split; [|apply Q2; assumption]. rewrite (EA k ltac:(lia) i j Hi Hj), (proj1 (Hxs k Hk) i j Hi Hj), Rminus_diag_eq by reflexivity. rewrite Rabs_R0. lra.
    - intros i Hi. split; [|apply Q1; assumption]. rewrite (EB k ltac:(lia) i Hi), (proj2 (Hxs k Hk) i Hi), Rminus_diag_eq by reflexivity. rewrite Rabs_R0. lra. }
  (* the sweep on the exact functions *)
  set (om := map (fun i => jump_at vz ps (INR i * dt)) (seq 0 (n + 1))).
  set (zs := map (fun _ : nat => mz) (seq 0 (n + 1))).
  assert (Lom : length om = (n + 1)%nat) by (unfold om; rewrite map_length, seq_length; reflexivity).
  assert (Lzs : length zs = (n + 1)%nat) by (unfold zs; rewrite map_length, seq_length; reflexivity).
  assert (Nom : forall i, (i < n + 1)%nat -> nth i om vz = jump_at vz ps (INR i * dt)).
  { intros i Hi. unfold om. rewrite (nth_indep _ vz (jump_at vz ps (INR 0 * dt))) by (rewrite map_length, seq_length; exact Hi).
    rewrite (map_nth (fun i => jump_at vz ps (INR i * dt)) (seq 0 (n + 1)) O i), seq_nth by exact Hi. reflexivity. }
  destruct (solve_bwd_total (Sn d) mtd dt (grid dt (n + 1) A) (grid dt (n + 1) gM) zs om zs) as (lam' & psi' & Hb').
  { exact (Nat.eq_le_incl _ _ (eq_trans (grid_len dt (n + 1) gM) (eq_sym (grid_len dt (n + 1) A)))). }
  { exact (Nat.eq_le_incl _ _ (eq_trans (grid_len dt (n + 1) gM) (eq_sym Lzs))). }
  { change (length (grid dt (n + 1) gM) - 1 <= length om)%nat. rewrite grid_len, Lom. lia. }
  { change (length (grid dt (n + 1) gM) - 1 <= length zs)%nat. rewrite grid_len, Lzs. lia. }
  change (list (nat -> R)) in lam'. change (list (nat -> nat -> R)) in psi'.
  assert (Og : on_grid dt ps).
  { apply (jump_grid (cb d Ri m) dt (rev obs) ps Em). intros o' Ho. rewrite <- in_rev in Ho.
    exact (at_index_ex dt (clock obs) t Hidx (fst o', 0) (in_map (fun o : R * (nat -> R) => (fst o, 0)) obs o' Ho)). }
  (* jumps *)
  set (c := fun k => if in_dec Nat.eq_dec k t then W * dt else 0).
  assert (c0 : forall k, 0 <= c k) by (intros k; unfold c; destruct (in_dec Nat.eq_dec k t); [apply Rmult_le_pos; lra|lra]).
  assert (Jc : forall k, (k < n)%nat -> nrv d (c k) (nth k gl vz) (nth k om vz)).
  { intros k Hk i Hi. rewrite (Nom k) by lia. unfold c. destruct (in_dec Nat.eq_dec k t) as [Hin|Hni].
    - destruct (in_index t k Hin) as (j & Hjt & Ej). rewrite <- Ej, (Gv j i Hjt Hi).
      pose proof (at_index_nth dt (clock obs) t Hidx j Hjt) as Q. rewrite clock_nth in Q. set (oj := nth j obs (0, vz)) in *. rewrite <- Q.
      assert (Ho : In oj (rev obs)) by (rewrite <- in_rev; apply nth_In; lia).
      rewrite (jump_some (cb d Ri m) (rev obs) T ps oj Em); [|rewrite clock_rev; apply times_dec, Hobs|exact Ho]. unfold cb.
      replace (nth j (map snd obs) vz) with (snd oj) by (unfold oj; symmetry; exact (map_nth snd obs (0, vz) j)).
      rewrite Ej. rewrite Ej in Q. rewrite Q.
      replace (- Rsum d (fun l => Ri i l * (snd oj l - nth k mt vz l)) - - Rsum d (fun l => Ri i l * (snd oj l - m (INR k * dt) l)))
        with (Rsum d (fun l => Ri i l * (nth k mt vz l - m (INR k * dt) l))).
      2: { transitivity (Rsum d (fun l => Ri i l * (snd oj l - m (INR k * dt) l)) - Rsum d (fun l => Ri i l * (snd oj l - nth k mt vz l))); [|ring].
        rewrite <- Rsum_minus. apply Rsum_ext. intros; ring. }
      apply Rle_trans with (INR d * (RB * (Kf * dt))); [|right; unfold W; ring]. apply Rsum_abs. intros l Hl. rewrite Rabs_mult.
      apply Rmult_le_compat; auto using Rabs_pos; [apply (HRB (i, l) (conj Hi Hl))|apply (proj1 (HE k ltac:(lia)) l Hl)].
    - rewrite (Gz k Hni). rewrite (jump_none (cb d Ri m) (rev obs) ps (INR k * dt) Em); [rewrite Rminus_diag_eq by reflexivity; rewrite Rabs_R0; lra|].
      intros o' Ho. rewrite <- in_rev in Ho. apply (at_index_in dt (clock obs) t k Hdp Hidx Hni (fst o', 0)). exact (in_map (fun o : R * (nat -> R) => (fst o, 0)) obs o' Ho). }
  assert (Sc : Rsum n c <= N * (W * dt)).
  { rewrite (Rsum_ext n c (fun i => c i * 1)) by (intros; ring).
    rewrite <- (Rsum_index n t c (fun _ => 1) Nd Ft0).
    2:{ intros i Hni. unfold c. destruct (in_dec Nat.eq_dec i t); [contradiction|reflexivity]. }
    unfold N. rewrite <- Lt, <- Rsum_const. apply Rsum_le. intros j Hjt. rewrite Rmult_1_r. unfold c.
    destruct (in_dec Nat.eq_dec (nth j t O) t); [lra|apply Rmult_le_pos; lra]. }
  assert (LE : forall k, (k <= n)%nat -> nrv d (exp (T * (INR d * B + 1)) * (C * (Kf * dt) + Rsum n c)) (nth k lam vz) (nth k lam' vz)).
  { apply (lam_err d mtd dt T B (C * (Kf * dt)) n c al (grid dt (n + 1) A) dm (grid dt (n + 1) gM) gl om lam lam' ds zs gs zs psi psi' Hdp Hn B0); auto.
    - apply Rmult_le_pos; assumption.
    - apply grid_len.
    - intros k i j Hk Hi Hj. rewrite grid_nth by lia. split; [rewrite (EA k ltac:(lia) i j Hi Hj); apply (proj1 (Hxs k Hk) i j Hi Hj)|].
      destruct (HB (INR k * dt) (Tk k Hk)) as [Q _]. apply (Q i j Hi Hj).
    - intros k Hk i Hi. rewrite (Hdm k ltac:(lia) i Hi), grid_nth by lia. unfold gm.
      apply (proj2 (HC i Hi _ _ _ _ _ _ _ _ (Kf * dt) (conj Dl0 Dl) (HB _ (Tk k Hk)) (Nr k Hk))). }
  intros k i Hk Hi.
  assert (CL : Rabs (nth k lam' vz i - with_jumps y0 ps (INR k * dt) i) <= K1 * dt ^ ordv mtd).
  { apply (HK1 mtd dt n zs om zs lam' psi' Hdp Hn Og); auto. intros k' i' Hk' Hi'. exact (f_equal (fun u : nat -> R => u i') (Nom k' ltac:(lia))). }
  rewrite (Pb k i ltac:(lia) Hi).
  pose proof (proj1 (HC i Hi _ _ _ _ _ _ _ _ (Kf * dt) (conj Dl0 Dl) (HB _ (Tk k Hk)) (Nr k Hk))) as QB.
  pose proof (LE k Hk i Hi) as QL.
  assert (QL' : Rabs (nth k lam vz i - nth k lam' vz i) <= E1 * dt).
  { eapply Rle_trans; [exact QL|]. unfold E1. rewrite Rmult_assoc. apply Rmult_le_compat_l; [left; apply exp_pos|]. lra. }
  pose proof (ordc_pow mtd dt ltac:(lra)) as (P1 & P2 & P3).
  assert (V0 : 0 <= dt ^ ordv mtd) by (apply pow_le; lra).
  assert (VL : dt ^ ordv mtd <= dt) by lra.
  assert (QC : Rabs (nth k lam' vz i - with_jumps y0 ps (INR k * dt) i) <= Rabs K1 * dt).
  { eapply Rle_trans; [exact CL|]. apply Rle_trans with (Rabs K1 * dt ^ ordv mtd); [apply Rmult_le_compat_r; auto|apply Rmult_le_compat_l; auto]. }
  unfold eB. set (e1 := eb (nth k al mz) (nth k bl vz) (nth k mt vz) (nth k st mz) i) in *.
  set (e2 := eb (A (INR k * dt)) (b (INR k * dt)) (m (INR k * dt)) (S (INR k * dt)) i) in *.
  replace (dt * (e1 + nth k lam vz i) - dt * (e2 + with_jumps y0 ps (INR k * dt) i))
    with (dt * ((e1 - e2) + (nth k lam vz i - nth k lam' vz i) + (nth k lam' vz i - with_jumps y0 ps (INR k * dt) i))) by ring.
  rewrite Rabs_mult, (Rabs_pos_eq dt) by lra. apply Rmult_le_compat_l; [lra|].
  eapply Rle_trans; [apply Rabs_triang|]. eapply Rle_trans; [apply Rplus_le_compat_r, Rabs_triang|]. lra.
Qed.
End Gb.
