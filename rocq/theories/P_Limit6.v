(** * The limits for the two one-dimensional models. *)
From Coq Require Import List Arith Reals Lra Lia Psatz Sorted.
From Coquelicot Require Import Coquelicot.
From Verif Require Import Num Arr ArrFacts M_LinAlg M_Utils M_Ode M_Moments M_Sde1 M_Prior M_Like M_VarGP
  Spec_Utils Spec_Gauss Spec_Ode Spec_TimeVar Spec_Limit Spec_Sde1 Spec_Prior Spec_VarGP P_Ode P_OdeR P_OdeRK P_Conv P_Trapz P_Prior P_Like P_VarGP P_RMat P_Det P_Moments P_Sde1 P_Adjoint P_Grad1
  P_TimeVar P_TimeVar2 P_TimeVar3 P_TimeVar4 P_TimeVar5 P_TimeVar7 P_TimeVar9 P_Expect P_Stein P_Limit1 P_Limit2 P_Limit3 P_Limit4 P_Limit5.
Import ListNotations.
Local Open Scope R_scope.

(** ** polynomials *)
Definition isp (f : R -> R -> R -> R -> R) : Prop := exists p, repr p f.
Lemma isp_c c : isp (fun _ _ _ _ => c). Proof. exists (Pc c). intros a b m s. reflexivity. Qed.
Lemma isp_a : isp (fun a _ _ _ => a). Proof. exists (Pv 0). intros a b m s. reflexivity. Qed.
Lemma isp_b : isp (fun _ b _ _ => b). Proof. exists (Pv 1). intros a b m s. reflexivity. Qed.
Lemma isp_m : isp (fun _ _ m _ => m). Proof. exists (Pv 2). intros a b m s. reflexivity. Qed.
Lemma isp_s : isp (fun _ _ _ s => s). Proof. exists (Pv 3). intros a b m s. reflexivity. Qed.
Lemma isp_add f g : isp f -> isp g -> isp (fun a b m s => f a b m s + g a b m s).
Proof. intros [p Hp] [q Hq]. exists (Padd p q). intros a b m s. cbn [pev]. rewrite Hp, Hq. reflexivity. Qed.
Lemma isp_mul f g : isp f -> isp g -> isp (fun a b m s => f a b m s * g a b m s).
Proof. intros [p Hp] [q Hq]. exists (Pmul p q). intros a b m s. cbn [pev]. rewrite Hp, Hq. reflexivity. Qed.
Lemma isp_opp f : isp f -> isp (fun a b m s => - f a b m s).
Proof. intros [p Hp]. exists (Pmul (Pc (-1)) p). intros a b m s. cbn [pev]. rewrite Hp. ring. Qed.
Lemma isp_sub f g : isp f -> isp g -> isp (fun a b m s => f a b m s - g a b m s).
Proof. intros Hf Hg. unfold Rminus. apply isp_add; [exact Hf|apply isp_opp, Hg]. Qed.
Lemma isp_div f c : isp f -> isp (fun a b m s => f a b m s / c).
Proof. intros Hf. unfold Rdiv. apply isp_mul; [exact Hf|apply isp_c]. Qed.
Lemma isp_pow f n : isp f -> isp (fun a b m s => f a b m s ^ n).
Proof. intros Hf. induction n; cbn [pow]; [apply isp_c|apply isp_mul; assumption]. Qed.
Ltac isp := repeat first [apply isp_c|apply isp_a|apply isp_b|apply isp_m|apply isp_s|apply isp_add|apply isp_mul|apply isp_sub|apply isp_opp|apply isp_div|apply isp_pow].

Section Inst.
Context (f : R -> R) (e ec ea eb em es : R -> R -> R -> R -> R) (sigma : R).
Context (Hsg : 0 < sigma) (HE : forall a b m s, 0 < s -> E_normal m s (mismatch f sigma a b) (e a b m s)).
Context (PE : isp e) (PC : isp ec) (PA : isp ea) (PB : isp eb) (PM : isp em) (PS : isp es) (G4 : grad4 e ea eb em es).
Context (energy : R -> list R -> list R -> list R -> list R -> option (list nat) -> Energy1 RNum) (isig : R).
Context (EO : forall dt, energy_ok (energy dt) isig ea eb em es).
Context (Hsde : forall dt t A B M S, Sorted le t -> length B = length A -> length M = length A -> length S = length A ->
  e_sde (energy dt A B M S (Some t)) = trap (length A) (fun k => ec (nth k A 0) (nth k B 0) (nth k M 0) (nth k S 0)) dt).
Context (T m0 s0 mu tau r : R) (HT : 0 <= T) (Hs0 : 0 < s0) (Htau : 0 < tau) (Hr : 0 < r) (obs : list (R * R)) (Hobs : times_ok 0 T obs).

Lemma obs_in o : In o obs -> 0 <= fst o <= T.
Proof. intros Ho. pose proof (dec_lt _ _ o (times_dec T obs Hobs)) as Q. rewrite <- in_rev in Q. specialize (Q Ho). lra. Qed.

(** the continuous free energy is a function of the coefficients *)
Lemma cfe_iff a b m s v : smooth 1 T a -> smooth 1 T b -> moments T sigma m0 s0 a b m s ->
  (cont_free_energy f T sigma m0 s0 mu tau r obs a b v <-> v = Fval e T r (kl1 m0 s0 mu tau) obs a b m s).
Proof.
  intros Ha Hb Hms. pose proof (moments_pos T sigma m0 s0 HT a b Ha m s Hsg Hs0 Hms) as Hpos. split.
  - intros (m' & s' & e' & l & k & Hm & Hk & He & Hl & ->).
    pose proof (moments_unique T sigma m0 s0 a b Ha m s m' s' Hms Hm) as U.
    unfold Fval. f_equal; [f_equal|].
    + apply KL1_unique; assumption.
    + apply RInt_ext. intros t Ht. rewrite Rmin_left, Rmax_right in Ht by exact HT. destruct (U t ltac:(lra)) as [U1 U2].
      pose proof (He t ltac:(lra)) as Q. rewrite <- U1, <- U2 in Q. apply (E_normal_unique _ _ _ _ _ Q). apply HE, Hpos. lra.
    + apply total_ext. intros o Ho. pose proof (obs_in o Ho) as I. destruct (U _ I) as [U1 U2].
      pose proof (Hl o Ho) as Q. rewrite <- U1, <- U2 in Q. apply (E_normal_unique _ _ _ _ _ Q). apply lterm_E; auto.
  - intros ->. exists m, s, (fun t => e (a t) (b t) (m t) (s t)), (fun o => lterm r (snd o) (m (fst o)) (s (fst o))), (kl1 m0 s0 mu tau).
    split; [exact Hms|]. split; [apply KL1_val; assumption|]. split; [intros t Ht; apply HE, Hpos, Ht|].
    split; [|reflexivity]. intros o Ho. apply lterm_E; [exact Hr|apply Hpos, obs_in, Ho].
Qed.
Lemma cfe_exists a b : smooth 1 T a -> smooth 1 T b -> exists v, forall w, cont_free_energy f T sigma m0 s0 mu tau r obs a b w <-> w = v.
Proof.
  intros Ha Hb. destruct (moments_ex T sigma m0 s0 HT a b Ha Hb) as (m & s & Hms). eexists. intros w. apply cfe_iff; eassumption.
Qed.

Context (a b : R -> R) (Ha : smooth 2 T a) (Hb : smooth 2 T b).
Notation EE mtd dt n t := (vgp1 (K:=RNum) ln PI (energy dt) mtd (n + 1) dt sigma isig m0 s0 mu tau (map snd obs) t r 1).
Notation x_ dt n := (grid dt (n + 1) a ++ grid dt (n + 1) b).

Lemma smooth_line h k x : smooth 1 T h -> smooth 1 T k -> smooth 1 T (fun t => h t + x * k t).
Proof. intros Hh Hk. apply smooth_plus; [exact Hh|]. apply smooth_mult; [apply smooth_const|exact Hk]. Qed.

Theorem limit_value : exists m s, moments T sigma m0 s0 a b m s /\ (forall t, 0 <= t <= T -> 0 < s t) /\
  (forall v, cont_free_energy f T sigma m0 s0 mu tau r obs a b v -> exists K dt0, 0 < dt0 /\ forall mtd dt n t, 0 < dt < dt0 -> INR n * dt = T -> at_index dt obs t ->
  exists w o, (forall st, free_energy (EE mtd dt n t) (x_ dt n) st = (Ok w, Some o)) /\
  Rabs (w - (v - 1 / 2 * ln s0 - RInt (fun t => e (a t) (b t) (m t) (s t) - ec (a t) (b t) (m t) (s t)) 0 T)) <= K * dt ^ ordc mtd).
Proof.
  pose proof (smooth_pred 1 T a Ha) as Ha1. pose proof (smooth_pred 1 T b Hb) as Hb1.
  destruct (moments_ex T sigma m0 s0 HT a b Ha1 Hb1) as (m & s & Hms). exists m, s. split; [exact Hms|].
  split; [exact (moments_pos T sigma m0 s0 HT a b Ha1 m s Hsg Hs0 Hms)|]. intros v Hv.
  apply (cfe_iff a b m s v Ha1 Hb1 Hms) in Hv.
  destruct PC as [pC RC]. destruct PE as [pE RE].
  destruct (value_conv ec ea eb em es pC RC energy isig EO Hsde T sigma m0 s0 mu tau r HT Hr obs Hobs a b m s Ha Hb Hms) as (K & dt0 & Hd & H).
  exists K, dt0. split; [exact Hd|]. intros mtd dt n t Hdt Hn Hi. destruct (H mtd dt n t Hdt Hn Hi) as (w & o & Hw & Hb_). exists w, o. split; [exact Hw|].
  rewrite Hv. unfold Fval in *. rewrite (kl0_1d_val mu tau m0 s0) in Hb_ by lra.
  pose proof (Sm T sigma m0 s0 HT a b m s Ha1 Hb1 Hms) as [Sm1 Sm2].
  assert (X : forall p g, repr p g -> ex_RInt (fun t => g (a t) (b t) (m t) (s t)) 0 T).
  { intros p g Hg. apply (@ex_RInt_continuous R_CompleteNormedModule). intros z Hz. rewrite Rmin_left, Rmax_right in Hz by exact HT.
    apply (repr_cont p g a b m s z Hg); apply (smooth_cont T); auto using smooth_pred. }
  assert (RM : RInt (fun t => e (a t) (b t) (m t) (s t) - ec (a t) (b t) (m t) (s t)) 0 T = RInt (fun t => e (a t) (b t) (m t) (s t)) 0 T - RInt (fun t => ec (a t) (b t) (m t) (s t)) 0 T).
  { apply is_RInt_unique. apply (is_RInt_minus (fun t => e (a t) (b t) (m t) (s t)) (fun t => ec (a t) (b t) (m t) (s t))); apply (@RInt_correct R_CompleteNormedModule); [apply (X pE e RE)|apply (X pC ec RC)]. }
  rewrite RM.
  match type of Hb_ with Rabs ?u <= _ => match goal with |- Rabs ?v <= _ => replace v with u; [exact Hb_|] end end. ring.
Qed.

Theorem limit_gradient : exists ga gb, cont_gradient f T sigma m0 s0 mu tau r obs a b ga gb /\
  exists K dt0, 0 < dt0 /\ forall mtd dt n t, 0 < dt < dt0 -> INR n * dt = T -> at_index dt obs t ->
  exists g o, (forall st, gradient (EE mtd dt n t) (x_ dt n) true st = (Ok g, Some o)) /\ length g = (n + 1 + (n + 1))%nat /\
  forall k, (k <= n)%nat -> Rabs (nth k g 0 - dt * ga (INR k * dt)) <= dt * (K * dt ^ ordc mtd) /\
                            Rabs (nth (n + 1 + k) g 0 - dt * gb (INR k * dt)) <= dt * (K * dt ^ ordc mtd).
Proof.
  pose proof (smooth_pred 1 T a Ha) as Ha1. pose proof (smooth_pred 1 T b Hb) as Hb1.
  destruct (moments_ex T sigma m0 s0 HT a b Ha1 Hb1) as (m & s & Hms).
  destruct PE as [pE RE]. destruct PA as [pA RA]. destruct PB as [pB RB]. destruct PM as [pM RM]. destruct PS as [pS RS].
  exists (gradA ea em es T r (rev obs) a b m s), (gradB eb em T r (rev obs) a b m s). split.
  - intros h k Hh Hk.
    assert (Q : exists M S, forall x, moments T sigma m0 s0 (fun t => a t + x * h t) (fun t => b t + x * k t) (M x) (S x)).
    { exists (fun x => lin_sol T (fun t => - (a t + x * h t)) (fun t => b t + x * k t) 0 m0), (fun x => lin_sol T (fun t => - 2 * (a t + x * h t)) (fun _ => sigma) 0 s0).
      intros x. pose proof (smooth_line a h x Ha1 Hh) as S1. pose proof (smooth_line b k x Hb1 Hk) as S2.
      split; [apply lin_sol_0|]. split; [apply lin_sol_0|]. intros t Ht. split.
      - apply (lin_sol_d T (fun t => - (a t + x * h t)) (fun t => b t + x * k t) 0 m0 t HT); auto; intros u Hu; [apply (Cna T _ S1 u Hu)|apply (smooth_cont T _ S2 u Hu)].
      - apply (lin_sol_d T (fun t => - 2 * (a t + x * h t)) (fun _ => sigma) 0 s0 t HT); auto; intros u Hu; [apply (Cn2a T _ S1 u Hu)|apply continuous_const]. }
    destruct Q as (M & S & HMS).
    destruct (F_derive e ea eb em es pE pM pS RE RM RS G4 T sigma m0 s0 r (kl1 m0 s0 mu tau) HT Hr (rev obs) (times_dec T obs Hobs) a b m s Ha1 Hb1 Hms h k Hh Hk M S HMS) as (D & _ & X).
    split; [exact X|]. intros F HF. eapply is_derive_ext; [|exact D]. intros x. cbv beta. symmetry.
    pose proof (proj1 (cfe_iff _ _ (M x) (S x) (F x) (smooth_line a h x Ha1 Hh) (smooth_line b k x Hb1 Hk) (HMS x)) (HF x)) as E. rewrite E.
    unfold Fval. rewrite (total_rev (fun o => lterm r (snd o) (M x (fst o)) (S x (fst o))) obs). reflexivity.
  - apply (gradient_conv ec ea eb em es pA pB pM pS RA RB RM RS energy isig EO Hsde T sigma m0 s0 mu tau r HT Hr obs Hobs a b m s Ha Hb Hms).
Qed.
End Inst.

(** ** instances *)
Lemma isp_ou sigma theta : isp (e_ou sigma theta) /\ isp (ea_ou sigma theta) /\ isp (eb_ou sigma theta) /\ isp (ou_dm (K:=RNum) sigma theta) /\ isp (ou_ds (K:=RNum) sigma theta).
Proof.
  unfold e_ou, ea_ou, eb_ou, ou_q, ou_dm, ou_ds, mom_elt, dEsde_da1, dEsde_db1. rnum. repeat split; isp.
Qed.
Lemma isp_dw sigma theta : isp (e_dw sigma theta) /\ isp (e_dwc sigma theta) /\ isp (ea_dw sigma theta) /\ isp (eb_dw sigma theta) /\ isp (dw_dm (K:=RNum) sigma theta) /\ isp (dw_ds (K:=RNum) sigma theta).
Proof.
  unfold e_dw, e_dwc, dw_q, ea_dw, eb_dw, dw_exact, dw_dm, dw_ds, dw_Ef, dw_Edf, dw_c, mom_elt, dm_elt, ds_elt, dEsde_da1, dEsde_db1. rnum. repeat split; isp.
Qed.
Lemma dw_gap6 sigma theta a b m s : 0 < sigma -> e_dw sigma theta a b m s - e_dwc sigma theta a b m s = 4 / sigma * mom_elt (K:=RNum) 6 m s.
Proof. intros H. unfold e_dw, e_dwc, dw_exact, dw_q, dw_c, mom_elt. rnum. field. lra. Qed.
Lemma E_x6 m s : 0 < s -> E_normal m s (fun x => x ^ 6) (mom_elt (K:=RNum) 6 m s).
Proof. intros Hs. apply mom_elt_E; [exact Hs|lia]. Qed.

Lemma per_step x y dt c : 0 < dt -> Rabs (x - dt * y) <= dt * c -> Rabs (x / dt - y) <= c.
Proof.
  intros Hd H. apply Rmult_le_reg_l with dt; [exact Hd|]. rewrite <- (Rabs_pos_eq dt) at 1 by lra. rewrite <- Rabs_mult.
  replace (dt * (x / dt - y)) with (x - dt * y) by (field; lra). exact H.
Qed.
Lemma pow_le_self dt p : 0 <= dt <= 1 -> (1 <= p)%nat -> dt ^ p <= dt.
Proof.
  intros H Hp. destruct p as [|p]; [lia|]. cbn [pow]. apply Rle_trans with (dt * 1); [|lra]. apply Rmult_le_compat_l; [lra|].
  rewrite <- (pow1 p). apply pow_incr. exact H.
Qed.
Lemma apart K dt0 v c : 0 < dt0 -> c <> 0 -> exists d dt1, 0 < d /\ 0 < dt1 <= dt0 /\
  forall p dt w, (1 <= p)%nat -> 0 < dt < dt1 -> Rabs (w - (v - c)) <= K * dt ^ p -> d <= Rabs (w - v).
Proof.
  intros Hd Hc. assert (C0 : 0 < Rabs c) by (apply Rabs_pos_lt; exact Hc). pose proof (Rabs_pos K) as K0. pose proof (Rle_abs K) as K1.
  set (u := Rabs c / 2 / (Rabs K + 1)). assert (U : 0 < u) by (unfold u; apply Rdiv_lt_0_compat; lra).
  exists (Rabs c / 2), (Rmin dt0 (Rmin 1 u)). split; [lra|]. split; [split; [apply Rmin_pos; [lra|apply Rmin_pos; lra]|apply Rmin_l]|].
  intros p dt w Hp Hdt H. pose proof (Rmin_r dt0 (Rmin 1 u)). pose proof (Rmin_l 1 u). pose proof (Rmin_r 1 u).
  pose proof (pow_le_self dt p ltac:(lra) Hp) as P. assert (P0 : 0 <= dt ^ p) by (apply pow_le; lra).
  assert (Q : K * dt ^ p <= Rabs c / 2).
  { apply Rle_trans with (Rabs K * dt ^ p); [apply Rmult_le_compat_r; assumption|].
    apply Rle_trans with (Rabs K * dt); [apply Rmult_le_compat_l; assumption|].
    apply Rle_trans with ((Rabs K + 1) * u); [apply Rmult_le_compat; lra|]. unfold u. right. field. lra. }
  replace (w - v) with (- (c - (w - (v - c)))) by ring. rewrite Rabs_Ropp.
  pose proof (Rabs_triang_inv c (w - (v - c))). lra.
Qed.
Lemma small_step dt0 K eps : 0 < dt0 -> 0 < eps -> exists N, forall j, (N <= j)%nat -> / INR (2 * S j) < dt0 /\ K * (/ INR (2 * S j)) ^ 2 < eps.
Proof.
  intros Hd He. pose proof (Rabs_pos K) as K0. pose proof (Rle_abs K) as K1.
  set (u := Rmin dt0 (Rmin 1 (eps / (Rabs K + 1)))).
  assert (U1 : 0 < eps / (Rabs K + 1)) by (apply Rdiv_lt_0_compat; lra).
  assert (U : 0 < u) by (unfold u; apply Rmin_pos; [lra|apply Rmin_pos; lra]).
  assert (UL : u <= dt0 /\ u <= 1 /\ u <= eps / (Rabs K + 1)).
  { unfold u. pose proof (Rmin_l dt0 (Rmin 1 (eps / (Rabs K + 1)))). pose proof (Rmin_r dt0 (Rmin 1 (eps / (Rabs K + 1)))). pose proof (Rmin_l 1 (eps / (Rabs K + 1))). pose proof (Rmin_r 1 (eps / (Rabs K + 1))). lra. }
  destruct (archimed_cor1 u U) as (N & N1 & N2). exists N. intros j Hj.
  assert (L : / INR (2 * S j) < u).
  { eapply Rle_lt_trans; [|exact N1]. apply Rinv_le_contravar; [apply lt_0_INR, N2|apply le_INR; lia]. }
  assert (P : 0 < / INR (2 * S j)) by (apply Rinv_0_lt_compat, lt_0_INR; lia).
  set (x := / INR (2 * S j)) in *. split; [lra|].
  apply Rle_lt_trans with (Rabs K * x).
  - apply Rle_trans with (Rabs K * x ^ 2); [apply Rmult_le_compat_r; [apply pow2_ge_0|exact K1]|]. apply Rmult_le_compat_l; [exact K0|]. apply pow_le_self; [lra|lia].
  - apply Rlt_le_trans with ((Rabs K + 1) * (eps / (Rabs K + 1))); [|right; field; lra]. nra.
Qed.
Lemma x6_pos T sigma m0 s0 a b m s x6 : 0 < T -> 0 < sigma -> 0 < s0 -> smooth 1 T a -> smooth 1 T b -> moments T sigma m0 s0 a b m s ->
  (forall t, 0 <= t <= T -> E_normal (m t) (s t) (fun x => x ^ 6) (x6 t)) -> 0 < RInt (fun t => 4 / sigma * x6 t) 0 T.
Proof.
  intros HT Hsg Hs0 Ha Hb Hms H6. pose proof (moments_pos T sigma m0 s0 ltac:(lra) a b Ha m s Hsg Hs0 Hms) as Hpos.
  assert (HS : smooth 2 T m /\ smooth 2 T s) by (apply (Sm T sigma m0 s0 ltac:(lra) a b m s Ha Hb Hms)). destruct HS as [Sm1 Sm2].
  assert (I6 : isp (fun _ _ m s => 4 / sigma * mom_elt (K:=RNum) 6 m s)) by (unfold mom_elt; rnum; isp). destruct I6 as [p Rp].
  rewrite (RInt_ext _ (fun t => 4 / sigma * mom_elt (K:=RNum) 6 (m t) (s t))).
  2:{ intros t Ht. rewrite Rmin_left, Rmax_right in Ht by lra. f_equal. apply (E_normal_unique _ _ _ _ _ (H6 t ltac:(lra))). apply E_x6, Hpos. lra. }
  apply RInt_gt_0; [exact HT| |].
  - intros t Ht. apply Rmult_lt_0_compat; [apply Rdiv_lt_0_compat; lra|]. specialize (Hpos t ltac:(lra)). unfold mom_elt. rnum.
    generalize (m t), (s t), Hpos. clear. intros x y Hy. pose proof (pow2_ge_0 x). pose proof (pow2_ge_0 (x ^ 2)). pose proof (pow2_ge_0 (x ^ 3)). pose proof (pow_lt y 3 Hy). pose proof (pow_lt y 2 Hy).
    assert (0 <= x ^ 2 * y ^ 2) by (apply Rmult_le_pos; lra). assert (0 <= (x ^ 2) ^ 2 * y) by (apply Rmult_le_pos; lra). nra.
  - intros t Ht. apply (repr_cont p (fun _ _ m s => 4 / sigma * mom_elt (K:=RNum) 6 m s) a b m s t Rp); apply (smooth_cont T); auto using smooth_pred.
Qed.
