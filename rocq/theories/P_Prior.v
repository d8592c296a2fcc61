(** * Proofs about PriorKL0. *)
From Coq Require Import Reals Lra Lia Arith Bool List FunctionalExtensionality.
From Coquelicot Require Import Coquelicot.
From Verif Require Import Num Arr ArrFacts M_LinAlg M_Prior Spec_Utils Spec_Det Spec_Gauss Spec_GaussN Spec_Prior
  P_LinAlg P_Det P_Gauss P_Moments P_Sde1 P_GaussN P_L63 P_RMat P_Expect.
Import ListNotations.
Local Open Scope R_scope.

(** ** one dimension *)
Definition kl1 (m s mu tau : R) : R := 1 / 2 * (ln tau - ln s - 1 + ((m - mu) ^ 2 + s) / tau).
Lemma KL1_val m s mu tau : 0 < s -> 0 < tau -> KL1 m s mu tau (kl1 m s mu tau).
Proof.
  intros Hs Ht. unfold KL1.
  apply (E_poly_eq m s [1 / 2 * (ln tau - ln s) - m ^ 2 / (2 * s) + mu ^ 2 / (2 * tau);
                        m / s - mu / tau; / (2 * tau) - / (2 * s)]).
  - exact Hs.
  - cbn. lia.
  - intros x. rewrite ln_div by (apply normal_density_pos; assumption).
    rewrite !ln_normal_density by assumption. cbn. field. lra.
  - unfold kl1. cbn [pmom]. unfold M_Moments.mom_elt. rnum. field. lra.
Qed.
Lemma KL1_unique m s mu tau k : 0 < s -> 0 < tau -> KL1 m s mu tau k -> k = kl1 m s mu tau.
Proof. intros Hs Ht H. exact (E_normal_unique _ _ _ _ _ H (KL1_val m s mu tau Hs Ht)). Qed.
Lemma kl1_nonneg m s mu tau : 0 < s -> 0 < tau ->
  0 <= kl1 m s mu tau /\ (kl1 m s mu tau = 0 <-> m = mu /\ s = tau).
Proof.
  intros Hs Ht.
  assert (Hx : 0 < s / tau) by (apply Rdiv_lt_0_compat; assumption).
  pose proof (ln_ineq _ Hx) as Hi.
  assert (Hz : 0 <= (m - mu) ^ 2 / tau) by (apply Rmult_le_pos; [apply pow2_ge_0|apply Rlt_le, Rinv_0_lt_compat, Ht]).
  assert (E : kl1 m s mu tau = 1 / 2 * (s / tau - 1 - ln (s / tau)) + 1 / 2 * ((m - mu) ^ 2 / tau)).
  { unfold kl1. rewrite ln_div by assumption. field. lra. }
  split; [lra|split].
  - intros H0. rewrite E in H0.
    assert (H1 : s / tau - 1 - ln (s / tau) = 0) by lra. apply ln_ineq_eq in H1; [|exact Hx].
    assert (H2 : (m - mu) ^ 2 / tau = 0) by lra. split.
    + assert ((m - mu) ^ 2 = 0) by (replace ((m - mu) ^ 2) with ((m - mu) ^ 2 / tau * tau) by (field; lra); rewrite H2; ring). nra.
    + replace s with (s / tau * tau) by (field; lra). rewrite H1. ring.
  - intros [-> ->]. unfold kl1. replace ((mu - mu) ^ 2 + tau) with tau by ring. field. lra.
Qed.
Lemma kl0_1d_val mu tau m s : tau <> 0 -> kl0_1d (K:=RNum) ln mu tau m s = kl1 m s mu tau - 1 / 2 * ln s.
Proof. intros Ht. unfold kl0_1d, kl1. rnum. field. exact Ht. Qed.
Lemma kl0_1d_partial mu tau m s : 0 < s -> 0 < tau ->
  exists k, KL1 m s mu tau k /\ kl0_1d (K:=RNum) ln mu tau m s = k - 1 / 2 * ln s.
Proof.
  intros Hs Ht. exists (kl1 m s mu tau). split; [apply KL1_val; assumption|apply kl0_1d_val; lra].
Qed.
Lemma kl0_1d_iff mu tau m s k : 0 < s -> 0 < tau -> KL1 m s mu tau k ->
  (kl0_1d (K:=RNum) ln mu tau m s = k <-> s = 1).
Proof.
  intros Hs Ht H. rewrite (KL1_unique _ _ _ _ _ Hs Ht H), kl0_1d_val by lra. split.
  - intros E. assert (ln s = 0) by lra. rewrite <- (exp_ln s Hs), H0. apply exp_0.
  - intros ->. rewrite ln_1. lra.
Qed.
Lemma kl0_1d_neg : exists mu tau m s, 0 < s /\ 0 < tau /\ m = mu /\ s = tau /\ kl0_1d (K:=RNum) ln mu tau m s < 0.
Proof.
  exists 0, 4, 0, 4. repeat split; try lra. rewrite kl0_1d_val by lra.
  destruct (kl1_nonneg 0 4 0 4 ltac:(lra) ltac:(lra)) as [_ [_ H]]. rewrite H by auto.
  assert (0 < ln 4) by (rewrite <- ln_1; apply ln_increasing; lra). lra.
Qed.
Lemma kl0_grad1_m mu tau s lam psi (k : R -> R) m : 0 < s -> 0 < tau ->
  (forall x, KL1 x s mu tau (k x)) ->
  is_derive k m (fst (kl0_grad_1d (K:=RNum) mu tau m s lam psi) - lam).
Proof.
  intros Hs Ht H. apply (is_derive_ext (fun x => kl1 x s mu tau)).
  - intros x. symmetry. apply KL1_unique; auto.
  - unfold kl1, kl0_grad_1d. cbn [fst]. auto_derive; [auto|]. rnum. field. lra.
Qed.
Lemma kl0_grad1_s mu tau lam psi m (k : R -> R) s : 0 < s -> 0 < tau ->
  (forall x, 0 < x -> KL1 m x mu tau (k x)) ->
  is_derive k s (snd (kl0_grad_1d (K:=RNum) mu tau m s lam psi) - psi).
Proof.
  intros Hs Ht H. apply (is_derive_ext_loc (fun x => kl1 m x mu tau)).
  - exists (mkposreal s Hs). intros x Hx. symmetry. assert (0 < x).
    { unfold ball in Hx. cbn in Hx. unfold AbsRing_ball, abs, minus, plus, opp in Hx. cbn in Hx.
      apply Rabs_def2 in Hx. lra. }
    apply KL1_unique; auto.
  - unfold kl1, kl0_grad_1d. cbn [snd]. auto_derive; [lra|]. rnum. field. lra.
Qed.

(** ** n dimensions *)
Definition kln (d : nat) (m : nat -> R) (S : nat -> nat -> R) (mu : nat -> R) (T Ti : nat -> nat -> R) : R :=
  1 / 2 * (ln (detR d T) - ln (detR d S) - INR d
           + Rsum d (fun i => Rsum d (fun j => Ti i j * S i j))
           + Rsum d (fun i => Rsum d (fun j => (m i - mu i) * Ti i j * (m j - mu j)))).

Lemma inv_ex d S : symm d S -> posdef d S -> exists P, is_inv d S P /\ symm d P /\ posdef d P.
Proof.
  intros Hs Hp. destruct (chol_inv_matrix d S Hs) as [H _]. destruct (H Hp) as (y & c & L & _ & H1 & H2 & Hy & _).
  exists y. split; [split; assumption|]. split; [exact Hy|]. apply (inv_posdef d S y Hs Hp H1 H2).
Qed.

Lemma tr_inv_self d S P : symm d S -> is_inv d S P ->
  Rsum d (fun i => Rsum d (fun j => P i j * S i j)) = INR d.
Proof.
  intros Hs [_ H]. rewrite <- (Rmult_1_r (INR d)), <- Rsum_const. apply Rsum_ext. intros i Hi.
  transitivity (Rsum d (fun k => P i k * S k i)).
  - apply Rsum_ext. intros j Hj. rewrite (Hs i j) by assumption. reflexivity.
  - rewrite H by assumption. unfold ident. rewrite Nat.eqb_refl. reflexivity.
Qed.

Lemma KLn_val d m S mu T Ti : symm d S -> posdef d S -> symm d T -> posdef d T -> is_inv d T Ti ->
  KLn d m S mu T (kln d m S mu T Ti).
Proof.
  intros Hs Hsp Ht Htp HTi Si Ti' HSi HTi'.
  pose proof (posdef_det d S Hs Hsp) as Hds. pose proof (posdef_det d T Ht Htp) as Hdt.
  assert (ET : rmeq d Ti Ti') by (apply (inv_unique d T); [apply HTi|apply HTi']).
  apply (E_mvn_ext d m S (fun x =>
     (1 / 2 * (ln (detR d T) - ln (detR d S))) +
     (- (1 / 2) * Rsum d (fun i => Rsum d (fun j => (x i - m i) * Si i j * (x j - m j))) +
      1 / 2 * Rsum d (fun i => Rsum d (fun j => (x i - mu i) * Ti' i j * (x j - mu j)))))).
  - intros x. rewrite ln_div by (apply mvn_density_pos; assumption).
    rewrite !ln_mvn_density by assumption. ring.
  - replace (kln d m S mu T Ti) with
      ((1 / 2 * (ln (detR d T) - ln (detR d S))) +
       (- (1 / 2) * (Rsum d (fun i => Rsum d (fun j => Si i j * S i j)) +
                     Rsum d (fun i => Rsum d (fun j => (m i - m i) * Si i j * (m j - m j)))) +
        1 / 2 * (Rsum d (fun i => Rsum d (fun j => Ti' i j * S i j)) +
                 Rsum d (fun i => Rsum d (fun j => (m i - mu i) * Ti' i j * (m j - mu j)))))).
    + apply E_mvn_plus; [apply E_mvn_const|].
      apply E_mvn_lin; apply E_mvn_quad.
    + rewrite (tr_inv_self d S Si Hs HSi).
      rewrite (Rsum_z d (fun i => Rsum d (fun j => (m i - m i) * Si i j * (m j - m j)))).
      2:{ intros i Hi. apply Rsum_z. intros j Hj. ring. }
      unfold kln.
      rewrite (Rsum_ext d (fun i => Rsum d (fun j => Ti i j * S i j)) (fun i => Rsum d (fun j => Ti' i j * S i j))).
      2:{ intros i Hi. apply Rsum_ext. intros j Hj. rewrite ET by assumption. reflexivity. }
      rewrite (Rsum_ext d (fun i => Rsum d (fun j => (m i - mu i) * Ti i j * (m j - mu j)))
                          (fun i => Rsum d (fun j => (m i - mu i) * Ti' i j * (m j - mu j)))).
      2:{ intros i Hi. apply Rsum_ext. intros j Hj. rewrite ET by assumption. reflexivity. }
      ring.
Qed.
Lemma KLn_unique d m S mu T Ti k : symm d S -> posdef d S -> symm d T -> posdef d T -> is_inv d T Ti ->
  KLn d m S mu T k -> k = kln d m S mu T Ti.
Proof.
  intros Hs Hsp Ht Htp HTi H. destruct (inv_ex d S Hs Hsp) as (Si & HSi & _).
  exact (E_mvn_unique d m S _ _ _ Hs Hsp (H Si Ti HSi HTi) (KLn_val d m S mu T Ti Hs Hsp Ht Htp HTi Si Ti HSi HTi)).
Qed.

(** tr N - d - ln det N >= 0 *)
Lemma tr_lndet d N : symm d N -> posdef d N ->
  0 <= rtr d N - INR d - ln (detR d N) /\ (rtr d N - INR d - ln (detR d N) = 0 -> rmeq d N ident).
Proof.
  intros Hs Hp. destruct (chol_ex d N Hs Hp) as (G & [Hl Hd] & E).
  assert (Etr : rtr d N = Rsum d (fun i => Rsum d (fun k => G i k * G i k))).
  { apply Rsum_ext. intros i Hi. rewrite <- E by assumption. reflexivity. }
  assert (Eln : ln (detR d N) = Rsum d (fun i => ln (G i i * G i i))).
  { rewrite <- (detR_rext d _ _ E), det_gram by (split; assumption).
    rewrite ln_mult by (apply Rprod_pos; exact Hd). rewrite ln_Rprod by exact Hd.
    change (Rsum d (fun i => ln (G i i)) + Rsum d (fun i => ln (G i i)) = Rsum d (fun i => ln (G i i * G i i))).
    rewrite <- Rsum_plus. apply Rsum_ext. intros i Hi. rewrite ln_mult by (apply Hd, Hi). reflexivity. }
  assert (Eall : rtr d N - INR d - ln (detR d N) =
          Rsum d (fun i => (Rsum d (fun k => G i k * G i k) - G i i * G i i) + (G i i * G i i - 1 - ln (G i i * G i i)))).
  { rewrite Etr, Eln. replace (INR d) with (Rsum d (fun _ => 1)) by (rewrite Rsum_const; ring).
    rewrite <- !Rsum_minus. apply Rsum_ext. intros; ring. }
  assert (H1 : forall i, (i < d)%nat -> 0 <= Rsum d (fun k => G i k * G i k) - G i i * G i i).
  { intros i Hi. pose proof (Rsum_ge_term d (fun k => G i k * G i k) i ltac:(intros; nra) Hi) as H. cbn in H. lra. }
  assert (Hgp : forall i, (i < d)%nat -> 0 < G i i * G i i) by (intros i Hi; specialize (Hd i Hi); nra).
  assert (H2 : forall i, (i < d)%nat -> 0 <= G i i * G i i - 1 - ln (G i i * G i i)).
  { intros i Hi. apply ln_ineq, Hgp, Hi. }
  split.
  - rewrite Eall. apply Rsum_nonneg. intros i Hi. specialize (H1 i Hi). specialize (H2 i Hi). lra.
  - intros Hz. rewrite Eall in Hz.
    assert (Hz' : forall i, (i < d)%nat ->
       (Rsum d (fun k => G i k * G i k) - G i i * G i i) + (G i i * G i i - 1 - ln (G i i * G i i)) = 0).
    { intros i Hi.
      pose proof (Rsum_ge_term d (fun i => (Rsum d (fun k => G i k * G i k) - G i i * G i i) + (G i i * G i i - 1 - ln (G i i * G i i))) i) as Hg.
      cbn beta in Hg. rewrite Hz in Hg. specialize (H1 i Hi) as A1. specialize (H2 i Hi) as A2.
      assert (Hg' := Hg ltac:(intros k Hk; specialize (H1 k Hk); specialize (H2 k Hk); lra) Hi). lra. }
    assert (Hgii : forall i, (i < d)%nat -> G i i = 1).
    { intros i Hi. specialize (Hz' i Hi). specialize (H1 i Hi). specialize (H2 i Hi).
      assert (E1 : G i i * G i i = 1) by (apply ln_ineq_eq; [apply Hgp, Hi|lra]). specialize (Hd i Hi). nra. }
    assert (Hgij : forall i j, (i < d)%nat -> (j < d)%nat -> i <> j -> G i j = 0).
    { intros i j Hi Hj Hne. specialize (Hz' i Hi). specialize (H1 i Hi). specialize (H2 i Hi).
      assert (E1 : Rsum d (fun k => G i k * G i k) - G i i * G i i = 0) by lra.
      assert (E2 : Rsum d (fun k => if Nat.eqb k i then 0 else G i k * G i k) = 0).
      { apply eq_trans with (2 := E1).
        replace (G i i * G i i) with (Rsum d (fun k => if Nat.eqb k i then G i k * G i k else 0)).
        - rewrite <- Rsum_minus. apply Rsum_ext. intros k Hk. cbn beta; destruct (Nat.eqb_spec k i); ring.
        - rewrite (Rsum_single d _ i Hi).
          + rewrite Nat.eqb_refl. reflexivity.
          + intros k Hk Hk'. destruct (Nat.eqb_spec k i); [contradiction|reflexivity]. }
      pose proof (Rsum_ge_term d (fun k => if Nat.eqb k i then 0 else G i k * G i k) j) as Hg. cbn beta in Hg.
      rewrite E2 in Hg. destruct (Nat.eqb_spec j i) as [|]; [congruence|].
      assert (Hg' := Hg ltac:(intros k Hk; destruct (Nat.eqb k i); nra) Hj). nra. }
    intros i j Hi Hj. rewrite <- E by assumption. unfold rmm, transp.
    rewrite (Rsum_ext d _ (fun k => ident i k * ident k j)).
    + rewrite (Rsum_single d _ i Hi); [unfold ident at 1; rewrite Nat.eqb_refl; ring|].
      intros k Hk Hne. unfold ident at 1. destruct (Nat.eqb_spec i k); [congruence|ring].
    + intros k Hk. unfold ident. destruct (Nat.eqb_spec i k) as [->|H3].
      * rewrite Hgii by assumption. destruct (Nat.eqb_spec k j) as [->|H4]; [rewrite Hgii by assumption; ring|].
        rewrite Hgij by auto. ring.
      * rewrite (Hgij i k) by assumption. ring.
Qed.

Lemma quad_nonneg d P (z : nat -> R) : posdef d P ->
  0 <= Rsum d (fun i => Rsum d (fun j => z i * P i j * z j)) /\
  (Rsum d (fun i => Rsum d (fun j => z i * P i j * z j)) = 0 -> forall i, (i < d)%nat -> z i = 0).
Proof.
  intros H. split.
  - rewrite <- rdot_rmv. apply posdef_nonneg, H.
  - intros Hz. destruct (vec_zero_dec d z) as [Hv|Hv]; [|exact Hv]. specialize (H z Hv). lra.
Qed.

(** the trace/determinant part of the divergence *)
Lemma kl_cov d S T Ti : symm d S -> posdef d S -> symm d T -> posdef d T -> is_inv d T Ti ->
  let x := ln (detR d T) - ln (detR d S) - INR d + Rsum d (fun i => Rsum d (fun j => Ti i j * S i j)) in
  0 <= x /\ (x = 0 -> rmeq d S T).
Proof.
  intros Hs Hsp Ht Htp HTi x.
  destruct (chol_inv_matrix d T Ht) as [H _].
  destruct (H Htp) as (y & c & L & _ & H1 & H2 & Hy & Hcc & HL & HLL & HLc & HcL). clear H.
  assert (ET : rmeq d Ti y) by (apply (inv_unique d T); [apply HTi|exact H1]).
  set (N := rmm d c (rmm d S (transp c))).
  assert (HNs : symm d N).
  { intros i j Hi Hj. unfold N, rmm, transp.
    transitivity (Rsum d (fun k => Rsum d (fun l => c i k * S k l * c j l))).
    { apply Rsum_ext. intros k Hk. rewrite <- Rsum_scal. apply Rsum_ext; intros; ring. }
    rewrite Rsum_swap. apply Rsum_ext. intros k Hk. rewrite <- Rsum_scal. apply Rsum_ext. intros l Hl.
    rewrite (Hs l k) by assumption. ring. }
  assert (HNq : forall v, rdot d v (rmv d N v) = rdot d (rmv d (transp c) v) (rmv d S (rmv d (transp c) v))).
  { intros v. transitivity (rdot d v (rmv d c (rmv d S (rmv d (transp c) v)))).
    - apply rdot_ext; [reflexivity|]. intros i Hi. unfold N. rewrite rmv_rmm.
      apply rmv_ext. intros k Hk. apply rmv_rmm.
    - rewrite rdot_rmv. rewrite (rdot_comm d (rmv d (transp c) v)), rdot_rmv, Rsum_swap. unfold transp.
      apply Rsum_ext; intros; apply Rsum_ext; intros; ring. }
  assert (Hcv : forall v, (forall i, (i < d)%nat -> rmv d (transp c) v i = 0) -> forall i, (i < d)%nat -> v i = 0).
  { intros v Hv i Hi. transitivity (rmv d (transp L) (rmv d (transp c) v) i).
    - rewrite <- rmv_rmm. unfold rmv. rewrite (Rsum_ext d _ (fun k => ident i k * v k)).
      + rewrite (Rsum_single d _ i Hi); [unfold ident; rewrite Nat.eqb_refl; ring|].
        intros j Hj Hne. unfold ident. destruct (Nat.eqb_spec i j); [congruence|ring].
      + intros k Hk. f_equal. unfold rmm, transp.
        transitivity (Rsum d (fun l => c k l * L l i)); [apply Rsum_ext; intros; ring|].
        rewrite HcL by assumption. unfold ident. rewrite Nat.eqb_sym. reflexivity.
    - apply Rsum_z. intros k Hk. rewrite Hv by exact Hk. ring. }
  assert (HNp : posdef d N).
  { apply posdef_rdot. intros v Hv. rewrite HNq. apply (proj1 (posdef_rdot d S) Hsp).
    destruct (vec_zero_dec d (rmv d (transp c) v)) as [Hd|Hd]; [exact Hd|exfalso].
    destruct Hv as (i & Hi & Hv). apply Hv, Hcv; assumption. }
  (* L N L' = S *)
  assert (HLN : rmeq d (rmm d L (rmm d N (transp L))) S).
  { intros i j Hi Hj.
    assert (EcL : rmeq d (rmm d (transp c) (transp L)) ident).
    { intros a b Ha Hb. unfold rmm, transp. transitivity (Rsum d (fun l => L b l * c l a)); [apply Rsum_ext; intros; ring|].
      rewrite HLc by assumption. unfold ident. rewrite Nat.eqb_sym. reflexivity. }
    transitivity (rmm d L (rmm d c S) i j).
    - apply rmm_ext; [intros ? ? _ _; reflexivity| |exact Hi|exact Hj].
      intros a b Ha Hb. unfold N. rewrite <- rmm_assoc.
      apply rmm_ext; [intros ? ? _ _; reflexivity| |exact Ha|exact Hb].
      intros p q Hp Hq. rewrite <- rmm_assoc. rewrite <- (rmm_id_r d S p q Hq).
      apply rmm_ext; [intros ? ? _ _; reflexivity|exact EcL|exact Hp|exact Hq].
    - rewrite rmm_assoc. rewrite <- (rmm_id_l d S i j Hi).
      apply rmm_ext; [exact HLc|intros ? ? _ _; reflexivity|exact Hi|exact Hj]. }
  assert (HdN : detR d S = detR d T * detR d N).
  { rewrite <- (detR_rext d _ _ HLN). rewrite det_lower by apply HL.
    rewrite det_mul_pd by assumption.
    assert (EL : detR d (transp L) = Rprod d (fun i => L i i)).
    { rewrite <- (detR_rext d (rmm d (transp L) ident)) by (intros ? ? ? ?; apply rmm_id_r; assumption).
      rewrite det_upper; [rewrite det_ident; unfold transp; ring|]. intros i j Hij. apply HL. lia. }
    rewrite EL, <- (detR_rext d (rmm d L (transp L)) T HLL), det_gram by exact HL. ring. }
  assert (Htr : Rsum d (fun i => Rsum d (fun j => Ti i j * S i j)) = rtr d N).
  { unfold N. rewrite rtr_comm. unfold rtr.
    transitivity (Rsum d (fun i => Rsum d (fun j => y j i * S i j))).
    { apply Rsum_ext; intros; apply Rsum_ext; intros. rewrite ET, (Hy i i0) by assumption. ring. }
    apply Rsum_ext. intros i Hi. rewrite <- rmm_assoc. unfold rmm at 1. apply Rsum_ext. intros j Hj.
    rewrite <- Hcc by assumption. unfold rmm. ring. }
  pose proof (posdef_det d T Ht Htp) as Hdt. pose proof (posdef_det d N HNs HNp) as Hdn.
  assert (Ex : x = rtr d N - INR d - ln (detR d N)).
  { unfold x. rewrite Htr, HdN, ln_mult by assumption. ring. }
  destruct (tr_lndet d N HNs HNp) as [Hge Heq]. rewrite Ex. split; [exact Hge|].
  intros Hz i j Hi Hj. specialize (Heq Hz). rewrite <- HLN, <- HLL by assumption.
  change (rmm d L (rmm d N (transp L)) i j = rmm d L (transp L) i j).
  apply rmm_ext; [intros ? ? _ _; reflexivity| |exact Hi|exact Hj].
  intros a b Ha Hb. rewrite <- (rmm_id_l d (transp L) a b Ha).
  apply rmm_ext; [exact Heq|intros ? ? _ _; reflexivity|exact Ha|exact Hb].
Qed.
Lemma kl_cov_eq d S T Ti : symm d T -> is_inv d T Ti -> rmeq d S T ->
  ln (detR d T) - ln (detR d S) - INR d + Rsum d (fun i => Rsum d (fun j => Ti i j * S i j)) = 0.
Proof.
  intros Ht HTi E. rewrite (detR_rext d S T E).
  rewrite (Rsum_ext d _ (fun i => Rsum d (fun j => Ti i j * T i j))).
  - rewrite tr_inv_self by assumption. ring.
  - intros i Hi. apply Rsum_ext. intros j Hj. rewrite E by assumption. reflexivity.
Qed.

Lemma kln_nonneg d m S mu T Ti : symm d S -> posdef d S -> symm d T -> posdef d T -> is_inv d T Ti ->
  0 <= kln d m S mu T Ti /\
  (kln d m S mu T Ti = 0 <-> (forall i, (i < d)%nat -> m i = mu i) /\ rmeq d S T).
Proof.
  intros Hs Hsp Ht Htp HTi.
  destruct (kl_cov d S T Ti Hs Hsp Ht Htp HTi) as [H1 H2].
  pose proof (inv_posdef d T Ti Ht Htp (proj1 HTi) (proj2 HTi)) as HTip.
  destruct (quad_nonneg d Ti (fun i => m i - mu i) HTip) as [H3 H4].
  unfold kln. split; [lra|split].
  - intros Hz. split.
    + intros i Hi. assert (m i - mu i = 0) by (apply H4; [lra|exact Hi]). lra.
    + apply H2. lra.
  - intros [Em ES]. rewrite (kl_cov_eq d S T Ti Ht HTi ES).
    rewrite (Rsum_z d); [ring|]. intros i Hi. apply Rsum_z. intros j Hj. rewrite Em by exact Hi. ring.
Qed.

(** ** the code *)
Lemma chol_inv_fast_ok d (x : nat -> nat -> R) : symm d x -> posdef d x ->
  exists y c : nat -> nat -> R, chol_inv_fast (K:=RNum) d x = Ok (y, c) /\ is_inv d x y /\ symm d y /\ posdef d y.
Proof.
  intros Hs Hp. destruct (chol_inv_matrix d x Hs) as [H _]. destruct (H Hp) as (y & c & L & E & H1 & H2 & Hy & _).
  cbn [chol_inv] in E. rewrite Nat.eqb_refl in E.
  destruct (chol_inv_fast d x) as [[y' c']|e] eqn:Ef; [|discriminate]. cbn [bind] in E.
  assert (y' = y) by congruence. subst y'.
  exists y, c'. split; [reflexivity|]. split; [split; assumption|]. split; [exact Hy|].
  apply (inv_posdef d x y Hs Hp H1 H2).
Qed.

Lemma log_det_prod d T Si S : symm d S -> posdef d S -> is_inv d S Si -> symm d T -> posdef d T ->
  symm d (rmm d T Si) ->
  log_det_mat (K:=RNum) ln d (mmul (K:=RNum) d T Si) = Ok (ln (detR d T) - ln (detR d S)).
Proof.
  intros Hs Hsp HSi Ht Htp Hm.
  assert (Hsis : symm d Si) by (apply (inv_symm d S); [exact Hs|apply HSi|apply HSi]).
  assert (Hsip : posdef d Si) by (apply (inv_posdef d S); [exact Hs|exact Hsp|apply HSi|apply HSi]).
  assert (Hmp : posdef d (rmm d T Si)) by (apply comm_posdef; assumption).
  destruct (log_det_matrix d (rmm d T Si) Hm) as [H _]. specialize (H Hmp).
  unfold log_det in H. rewrite Nat.eqb_refl in H.
  pose proof (posdef_det d S Hs Hsp). pose proof (posdef_det d T Ht Htp).
  transitivity (Ok (ln (detR d (rmm d T Si)))); [exact H|]. f_equal.
  rewrite det_mul_pd by assumption. rewrite (det_inv_pd d S Si Hs Hsp (proj1 HSi)).
  rewrite ln_mult, ln_Rinv; [req; ring|assumption|assumption|apply Rinv_0_lt_compat; assumption].
Qed.

(** value returned by gauss_nd, in terms of z0.T.dot(z0) *)
Lemma kl0_nd_zz_val d (T zz S : nat -> nat -> R) : symm d S -> posdef d S -> symm d T -> posdef d T ->
  exists Si Ti, is_inv d S Si /\ is_inv d T Ti /\ symm d Ti /\ posdef d Ti /\
  (symm d (rmm d T Si) ->
   kl0_nd_zz (K:=RNum) ln d T zz S =
   Ok (1 / 2 * (ln (detR d T) - ln (detR d S) - INR d + Rsum d (fun i => Rsum d (fun j => Ti i j * S i j))
                + Rsum d (fun i => Rsum d (fun j => Ti i j * zz j i))))).
Proof.
  intros Hs Hsp Ht Htp.
  destruct (chol_inv_fast_ok d S Hs Hsp) as (Si & c1 & E1 & HSi & HSis & HSip).
  destruct (chol_inv_fast_ok d T Ht Htp) as (Ti & c2 & E2 & HTi & HTis & HTip).
  exists Si, Ti. split; [exact HSi|]. split; [exact HTi|]. split; [exact HTis|]. split; [exact HTip|]. intros Hm.
  unfold kl0_nd_zz. rewrite E1, E2. cbn [bind].
  rewrite (log_det_prod d T Si S) by assumption. cbn [bind]. f_equal.
  assert (E : Rsum d (fun i => Rsum d (fun k => Ti i k * (zz k i + S k i - T k i))) =
              Rsum d (fun i => Rsum d (fun j => Ti i j * zz j i)) + Rsum d (fun i => Rsum d (fun j => Ti i j * S i j)) - INR d).
  { rewrite <- (tr_inv_self d T Ti Ht HTi). rewrite <- Rsum_plus, <- Rsum_minus. apply Rsum_ext. intros i Hi.
    rewrite <- Rsum_plus, <- Rsum_minus. apply Rsum_ext. intros j Hj.
    rewrite (Hs j i), (Ht j i) by assumption. ring. }
  match goal with |- ?a = ?b => change (1 / 2 * ((ln (detR d T) - ln (detR d S)) +
    Rsum d (fun i => Rsum d (fun k => Ti i k * (zz k i + S k i - T k i)))) = b) end.
  rewrite E. req. ring.
Qed.

Lemma bcast_sum d (Ti : nat -> nat -> R) (q : R) : Rsum d (fun i => Rsum d (fun j => Ti i j * q)) = q * Rsum d (fun i => Rsum d (fun j => Ti i j)).
Proof. rewrite <- Rsum_scal. apply Rsum_ext; intros. rewrite Rsum_scal_r. cbn beta. rewrite Rmult_comm. reflexivity. Qed.

Lemma commute_symm d S T Si : symm d S -> symm d T -> is_inv d S Si -> commute d S T -> symm d (rmm d T Si).
Proof.
  intros Hs Ht HSi Hc.
  assert (Hsis : symm d Si) by (apply (inv_symm d S); [exact Hs|apply HSi|apply HSi]).
  (* Si (S T) Si = Si (T S) Si *)
  assert (H : rmeq d (rmm d T Si) (rmm d Si T)).
  { intros i j Hi Hj.
    assert (E1 : rmm d Si (rmm d (rmm d S T) Si) i j = rmm d T Si i j).
    { rewrite rmm_assoc. apply rmm_ext; [|intros ? ? _ _; reflexivity|exact Hi|exact Hj].
      intros a b Ha Hb. rewrite rmm_assoc. rewrite <- (rmm_id_l d T a b Ha).
      apply rmm_ext; [apply HSi|intros ? ? _ _; reflexivity|exact Ha|exact Hb]. }
    assert (E2 : rmm d Si (rmm d (rmm d T S) Si) i j = rmm d Si T i j).
    { apply rmm_ext; [intros ? ? _ _; reflexivity| |exact Hi|exact Hj].
      intros a b Ha Hb. rewrite <- rmm_assoc. rewrite <- (rmm_id_r d T a b Hb).
      apply rmm_ext; [intros ? ? _ _; reflexivity|apply HSi|exact Ha|exact Hb]. }
    rewrite <- E1, <- E2. apply rmm_ext; [intros ? ? _ _; reflexivity| |exact Hi|exact Hj].
    apply rmm_ext; [exact Hc|intros ? ? _ _; reflexivity]. }
  intros i j Hi Hj. rewrite H by assumption. unfold rmm. apply Rsum_ext. intros k Hk.
  rewrite (Hsis i k), (Ht k j) by assumption. ring.
Qed.

Lemma kl0_nd_partial d (mu : nat -> R) (T : nat -> nat -> R) (m : nat -> R) (S : nat -> nat -> R) : symm d S -> posdef d S -> symm d T -> posdef d T -> commute d S T ->
  exists k Ti, KLn d m S mu T k /\ is_inv d T Ti /\
    kl0_nd (K:=RNum) ln d mu T m S =
    Ok (k + 1 / 2 * (Rsum d (fun i => (m i - mu i) ^ 2) * Rsum d (fun i => Rsum d (fun j => Ti i j))
                     - Rsum d (fun i => Rsum d (fun j => (m i - mu i) * Ti i j * (m j - mu j))))).
Proof.
  intros Hs Hsp Ht Htp Hc. unfold kl0_nd.
  destruct (kl0_nd_zz_val d T (zz_vec (K:=RNum) d (vsubv m mu)) S Hs Hsp Ht Htp) as (Si & Ti & HSi & HTi & HTis & HTip & E).
  exists (kln d m S mu T Ti), Ti. split; [apply KLn_val; assumption|]. split; [exact HTi|].
  rewrite E by (apply commute_symm with (S := S); assumption). f_equal.
  assert (Eq : vdot (K:=RNum) d (vsubv m mu) (vsubv m mu) = Rsum d (fun i => (m i - mu i) ^ 2)).
  { unfold vdot, vsubv. change (Rsum d (fun k => (m k - mu k) * (m k - mu k)) = Rsum d (fun i => (m i - mu i) ^ 2)).
    apply Rsum_ext; intros; ring. }
  unfold zz_vec. rewrite Eq, bcast_sum. unfold kln. req. ring.
Qed.
Lemma kl0_nd_nonneg d (mu : nat -> R) (T : nat -> nat -> R) (m : nat -> R) (S : nat -> nat -> R) : symm d S -> posdef d S -> symm d T -> posdef d T -> commute d S T ->
  exists v, kl0_nd (K:=RNum) ln d mu T m S = Ok v /\ 0 <= v /\
    (v = 0 <-> (forall i, (i < d)%nat -> m i = mu i) /\ (forall i j, (i < d)%nat -> (j < d)%nat -> S i j = T i j)).
Proof.
  intros Hs Hsp Ht Htp Hc. unfold kl0_nd.
  destruct (kl0_nd_zz_val d T (zz_vec (K:=RNum) d (vsubv m mu)) S Hs Hsp Ht Htp) as (Si & Ti & HSi & HTi & HTis & HTip & E).
  rewrite E by (apply commute_symm with (S := S); assumption).
  eexists. split; [reflexivity|].
  assert (Eq : vdot (K:=RNum) d (vsubv m mu) (vsubv m mu) = Rsum d (fun i => (m i - mu i) * (m i - mu i))) by reflexivity.
  unfold zz_vec. rewrite Eq, bcast_sum.
  destruct (kl_cov d S T Ti Hs Hsp Ht Htp HTi) as [H1 H2].
  set (x := ln (detR d T) - ln (detR d S) - INR d + Rsum d (fun i => Rsum d (fun j => Ti i j * S i j))) in *.
  set (q := Rsum d (fun i => (m i - mu i) * (m i - mu i))).
  set (w := Rsum d (fun i => Rsum d (fun j => Ti i j))).
  assert (Hq : 0 <= q) by (apply Rsum_nonneg; intros; apply Rle_0_sqr).
  assert (Hw : w = Rsum d (fun i => Rsum d (fun j => (fun _ => 1) i * Ti i j * (fun _ => 1) j))).
  { apply Rsum_ext; intros; apply Rsum_ext; intros; ring. }
  destruct (quad_nonneg d Ti (fun _ => 1) HTip) as [Hw0 _]. rewrite <- Hw in Hw0.
  assert (Hqw0 : 0 <= q * w) by (apply Rmult_le_pos; assumption). split; [lra|]. split.
  - intros Hz. assert (Hx0 : x = 0) by lra. split; [|apply H2, Hx0].
    assert (Hqw : q * w = 0) by lra.
    intros i Hi.
    assert (Hwp : 0 < w).
    { rewrite Hw. apply HTip. exists i. split; [exact Hi|lra]. }
    assert (q = 0) by nra.
    assert (m i - mu i = 0) by (apply (rdot_self_zero d (fun i => m i - mu i)); [exact H|exact Hi]). lra.
  - intros [Em ES].
    assert (Hx0 : x = 0) by (apply kl_cov_eq; assumption).
    assert (Hq0 : q = 0) by (apply Rsum_z; intros i Hi; rewrite Em by exact Hi; ring).
    rewrite Hx0, Hq0. req; ring.
Qed.
Lemma kl0_rows d (mu T m S : nat -> nat -> R) : symm d S -> posdef d S -> symm d T -> posdef d T -> commute d S T ->
  exists k, KLn d (m 0%nat) S (mu 0%nat) T k /\ kl0_nd_rows (K:=RNum) ln d 1 mu T m S = Ok k.
Proof.
  intros Hs Hsp Ht Htp Hc. unfold kl0_nd_rows.
  destruct (kl0_nd_zz_val d T (zz_rows (K:=RNum) 1 (msub m mu)) S Hs Hsp Ht Htp) as (Si & Ti & HSi & HTi & HTis & HTip & E).
  exists (kln d (m 0%nat) S (mu 0%nat) T Ti). split; [apply KLn_val; assumption|].
  rewrite E by (apply commute_symm with (S := S); assumption). f_equal. unfold kln.
  assert (Eq : Rsum d (fun i => Rsum d (fun j => Ti i j * zz_rows (K:=RNum) 1 (msub m mu) j i)) =
               Rsum d (fun i => Rsum d (fun j => (m 0%nat i - mu 0%nat i) * Ti i j * (m 0%nat j - mu 0%nat j)))).
  { apply Rsum_ext; intros; apply Rsum_ext; intros. unfold zz_rows, msub. cbn [sumn]. rnum. ring. }
  rewrite Eq. req. ring.
Qed.
Lemma KLn_nonneg d m S mu T k : symm d S -> posdef d S -> symm d T -> posdef d T -> KLn d m S mu T k ->
  0 <= k /\ (k = 0 <-> (forall i, (i < d)%nat -> m i = mu i) /\ (forall i j, (i < d)%nat -> (j < d)%nat -> S i j = T i j)).
Proof.
  intros Hs Hsp Ht Htp H. destruct (inv_ex d T Ht Htp) as (Ti & HTi & _).
  rewrite (KLn_unique d m S mu T Ti k Hs Hsp Ht Htp HTi H). apply kln_nonneg; assumption.
Qed.

(** the system solved by gradients_nd *)
Lemma grad_solve d (T Ti : nat -> nat -> R) (z y : nat -> R) : is_inv d T Ti ->
  (forall i, (i < d)%nat -> rmv d T y i = z i) <-> (forall i, (i < d)%nat -> y i = rmv d Ti z i).
Proof.
  intros [H1 H2].
  assert (Hid : forall v i, (i < d)%nat -> rmv d ident v i = v i).
  { intros v i Hi. unfold rmv. rewrite (Rsum_single d _ i Hi); [unfold ident; rewrite Nat.eqb_refl; ring|].
    intros j Hj Hne. unfold ident. destruct (Nat.eqb_spec i j); [congruence|ring]. }
  split; intros H i Hi.
  - rewrite <- (Hid y i Hi). rewrite <- (rmv_ext d Ti (rmv d T y) z i) by exact H.
    rewrite <- rmv_rmm. unfold rmv. apply Rsum_ext. intros k Hk. unfold rmm. rewrite H2 by assumption. reflexivity.
  - rewrite (rmv_ext d T y (rmv d Ti z) i) by exact H.
    rewrite <- (Hid z i Hi). rewrite <- rmv_rmm. unfold rmv. apply Rsum_ext. intros k Hk. unfold rmm. rewrite H1 by assumption. reflexivity.
Qed.

Lemma kl0_grad_val d (mu : nat -> R) (T : nat -> nat -> R) (m : nat -> R) (S : nat -> nat -> R) (lam : nat -> R) (psi : nat -> nat -> R) :
  symm d S -> posdef d S -> symm d T -> posdef d T ->
  exists Si Ti, is_inv d S Si /\ is_inv d T Ti /\ symm d Ti /\ symm d Si /\
  kl0_grad_nd (K:=RNum) d mu T m S lam psi =
  Ok ((fun i => lam i + rmv d Ti (fun k => m k - mu k) i) : nat -> R, (fun i j => psi i j + 1 / 2 * (Ti i j - Si i j)) : nat -> nat -> R).
Proof.
  intros Hs Hsp Ht Htp.
  destruct (chol_inv_fast_ok d S Hs Hsp) as (Si & c1 & E1 & HSi & HSis & HSip).
  destruct (chol_inv_fast_ok d T Ht Htp) as (Ti & c2 & E2 & HTi & HTis & HTip).
  exists Si, Ti. repeat split; try apply HSi; try apply HTi; try assumption.
  unfold kl0_grad_nd. rewrite E1, E2. cbn [bind]. reflexivity.
Qed.

Lemma quad_sym_derive d (P : nat -> nat -> R) (m c : nat -> R) i : (i < d)%nat -> symm d P ->
  is_derive (fun t => Rsum d (fun a => Rsum d (fun b => (vset i t m a - c a) * P a b * (vset i t m b - c b))))
    (m i) (2 * rmv d P (fun k => m k - c k) i).
Proof.
  intros Hi Hs.
  assert (Hv : forall a, is_derive (fun t => vset i t m a - c a) (m i) (if Nat.eqb a i then 1 else 0)).
  { intros a. unfold vset. destruct (Nat.eqb a i); auto_derive; auto; ring. }
  assert (Hm : forall a, vset i (m i) m a = m a).
  { intros a. unfold vset. destruct (Nat.eqb_spec a i); [subst; reflexivity|reflexivity]. }
  set (e := fun a : nat => if Nat.eqb a i then 1 else 0) in *.
  replace (2 * rmv d P (fun k => m k - c k) i) with
    (Rsum d (fun a => Rsum d (fun b => e a * P a b * (m b - c b) + (m a - c a) * P a b * e b))).
  - apply (is_derive_Rsum' d (fun t a => Rsum d (fun b => (vset i t m a - c a) * P a b * (vset i t m b - c b)))).
    intros a Ha. apply (is_derive_Rsum' d (fun t b => (vset i t m a - c a) * P a b * (vset i t m b - c b))).
    intros b Hb.
    assert (H : is_derive (fun t => (vset i t m a - c a) * P a b * (vset i t m b - c b)) (m i)
       (e a * P a b * (vset i (m i) m b - c b) + (vset i (m i) m a - c a) * P a b * e b)).
    { apply (is_derive_mult (fun t => (vset i t m a - c a) * P a b) (fun t => vset i t m b - c b)); [|apply Hv|intros; apply Rmult_comm].
      apply (is_derive_ext (fun t => P a b * (vset i t m a - c a))); [intros; apply Rmult_comm|].
      replace (e a * P a b) with (P a b * e a) by ring. apply is_derive_scal, Hv. }
    rewrite !Hm in H. exact H.
  - transitivity (Rsum d (fun a => Rsum d (fun b => e a * P a b * (m b - c b))) + Rsum d (fun a => Rsum d (fun b => (m a - c a) * P a b * e b))).
    { rewrite <- Rsum_plus. apply Rsum_ext; intros. rewrite <- Rsum_plus. reflexivity. }
    rewrite (Rsum_swap d d (fun a b => (m a - c a) * P a b * e b)).
    rewrite (Rsum_single d _ i Hi), (Rsum_single d (fun j => Rsum d (fun i0 => (m i0 - c i0) * P i0 j * e j)) i Hi).
    + unfold e, rmv. rewrite Nat.eqb_refl.
      replace 2 with (1 + 1) by ring. rewrite Rmult_plus_distr_r, !Rmult_1_l. f_equal; apply Rsum_ext; intros k Hk.
      * ring.
      * rewrite (Hs k i) by assumption. ring.
    + intros j Hj Hne. apply Rsum_z. intros k Hk. unfold e. destruct (Nat.eqb_spec j i); [contradiction|ring].
    + intros j Hj Hne. apply Rsum_z. intros k Hk. unfold e. destruct (Nat.eqb_spec j i); [contradiction|ring].
Qed.

Lemma kl0_grad_nd_m d (mu : nat -> R) (T : nat -> nat -> R) (m : nat -> R) (S : nat -> nat -> R) (lam : nat -> R) (psi : nat -> nat -> R) :
  symm d S -> posdef d S -> symm d T -> posdef d T ->
  exists gm gs, kl0_grad_nd (K:=RNum) d mu T m S lam psi = Ok (gm, gs) /\
  forall i (k : R -> R), (i < d)%nat -> (forall t, KLn d (vset i t m) S mu T (k t)) ->
    is_derive k (m i) (gm i - lam i).
Proof.
  intros Hs Hsp Ht Htp.
  destruct (kl0_grad_val d mu T m S lam psi Hs Hsp Ht Htp) as (Si & Ti & HSi & HTi & HTis & HSis & E).
  eexists. eexists. split; [exact E|]. intros i k Hi Hk. cbn beta.
  apply (is_derive_ext (fun t => kln d (vset i t m) S mu T Ti)).
  - intros t. symmetry. apply KLn_unique; auto.
  - unfold kln.
    set (c := ln (detR d T) - ln (detR d S) - INR d + Rsum d (fun i => Rsum d (fun j => Ti i j * S i j))).
    set (q := fun t => Rsum d (fun a => Rsum d (fun b => (vset i t m a - mu a) * Ti a b * (vset i t m b - mu b)))).
    match goal with |- is_derive _ _ ?l => replace l with (1 / 2 * (0 + 2 * rmv d Ti (fun k => m k - mu k) i)) by (req; field) end.
    apply (is_derive_scal (fun t => c + q t)).
    apply @is_derive_plus; [apply @is_derive_const|].
    apply quad_sym_derive; assumption.
Qed.

Lemma kl0_grad_nd_s d (mu : nat -> R) (T : nat -> nat -> R) (m : nat -> R) (Sg : R -> nat -> nat -> R) (Sg' : nat -> nat -> R)
  (t0 : R) (lam : nat -> R) (psi : nat -> nat -> R) (k : R -> R) :
  symm d T -> posdef d T ->
  locally t0 (fun t => symm d (Sg t) /\ posdef d (Sg t) /\ KLn d m (Sg t) mu T (k t)) ->
  (forall i j, (i < d)%nat -> (j < d)%nat -> is_derive (fun t => Sg t i j) t0 (Sg' i j)) ->
  exists gm gs, kl0_grad_nd (K:=RNum) d mu T m (Sg t0) lam psi = Ok (gm, gs) /\
    is_derive k t0 (Rsum d (fun i => Rsum d (fun j => (gs i j - psi i j) * Sg' i j))).
Proof.
  intros Ht Htp Hloc Hd.
  destruct (locally_singleton _ _ Hloc) as (Hs & Hsp & _).
  destruct (kl0_grad_val d mu T m (Sg t0) lam psi Hs Hsp Ht Htp) as (Si & Ti & HSi & HTi & HTis & HSis & E).
  eexists. eexists. split; [exact E|]. cbn beta.
  apply (is_derive_ext_loc (fun t => kln d m (Sg t) mu T Ti)).
  - apply (filter_imp _ _ (fun t H => eq_sym (KLn_unique d m (Sg t) mu T Ti (k t) (proj1 H) (proj1 (proj2 H)) Ht Htp HTi (proj2 (proj2 H)))) Hloc).
  - unfold kln.
    assert (Hds : forall i j, (i < d)%nat -> (j < d)%nat -> Sg' i j = Sg' j i).
    { intros i j Hi Hj. pose proof (Hd i j Hi Hj) as H1. pose proof (Hd j i Hj Hi) as H2.
      apply is_derive_unique in H1. apply is_derive_unique in H2. rewrite <- H1, <- H2.
      apply Derive_ext_loc. apply (filter_imp _ _ (fun t H => proj1 H i j Hi Hj) Hloc). }
    set (q := Rsum d (fun i => Rsum d (fun j => (m i - mu i) * Ti i j * (m j - mu j)))).
    assert (Etr : rtr d (rmm d Si Sg') = Rsum d (fun i => Rsum d (fun j => Si i j * Sg' i j))).
    { unfold rtr, rmm. apply Rsum_ext. intros i Hi. apply Rsum_ext. intros j Hj. rewrite (Hds j i) by assumption. reflexivity. }
    match goal with |- is_derive _ _ ?l =>
      replace l with (1 / 2 * (0 - rtr d (rmm d Si Sg') - 0 + Rsum d (fun i => Rsum d (fun j => Ti i j * Sg' i j)) + 0)) end.
    + apply (is_derive_scal (fun t => ln (detR d T) - ln (detR d (Sg t)) - INR d + Rsum d (fun i => Rsum d (fun j => Ti i j * Sg t i j)) + q)).
      apply @is_derive_plus; [|apply @is_derive_const].
      apply @is_derive_plus.
      * apply @is_derive_minus; [|apply @is_derive_const].
        apply @is_derive_minus; [apply @is_derive_const|].
        apply lndet_derive; try assumption; apply HSi.
      * apply (is_derive_Rsum' d (fun t i => Rsum d (fun j => Ti i j * Sg t i j))). intros i Hi.
        apply (is_derive_Rsum' d (fun t j => Ti i j * Sg t i j)). intros j Hj.
        apply is_derive_scal, Hd; assumption.
    + rewrite Etr. transitivity (1 / 2 * (Rsum d (fun i => Rsum d (fun j => Ti i j * Sg' i j)) - Rsum d (fun i => Rsum d (fun j => Si i j * Sg' i j)))); [ring|].
      rewrite <- Rsum_minus, <- Rsum_scal. apply Rsum_ext. intros i Hi. rewrite <- Rsum_minus, <- Rsum_scal. apply Rsum_ext. intros j Hj.
      req. ring.
Qed.

(** ** witnesses *)
Definition mat2 (a b c e : R) (i j : nat) : R :=
  match i, j with O, O => a | O, _ => b | _, O => c | _, _ => e end.
Lemma mat2_symm a b c : symm 2 (mat2 a b b c).
Proof. intros [|[|i]] [|[|j]]; intros; try reflexivity; lia. Qed.
Lemma mat2_posdef a b c : 0 < a -> b * b < a * c -> posdef 2 (mat2 a b b c).
Proof.
  intros Ha Hd v (i & Hi & Hv). cbn.
  assert (E : 0 + (0 + v 0%nat * a * v 0%nat + v 0%nat * b * v 1%nat) +
           (0 + v 1%nat * b * v 0%nat + v 1%nat * c * v 1%nat)
    = ((a * v 0%nat + b * v 1%nat) ^ 2 + (a * c - b * b) * (v 1%nat) ^ 2) / a) by (field; lra).
  rewrite E. apply Rdiv_lt_0_compat; [|exact Ha].
  destruct (Req_dec (v 1%nat) 0) as [E1|E1].
  - assert (v 0%nat <> 0) by (destruct i as [|[|i]]; [assumption|congruence|lia]).
    rewrite E1. assert (0 < (a * v 0%nat) ^ 2) by (apply pow2_gt_0, Rmult_integral_contrapositive_currified; [lra|assumption]).
    replace (a * v 0%nat + b * 0) with (a * v 0%nat) by ring. lra.
  - assert (0 < v 1%nat ^ 2) by (apply pow2_gt_0; assumption). pose proof (pow2_ge_0 (a * v 0%nat + b * v 1%nat)).
    assert (0 < (a * c - b * b) * v 1%nat ^ 2) by (apply Rmult_lt_0_compat; lra). lra.
Qed.
Lemma mat2_inv a b c e : a * e - b * c <> 0 ->
  is_inv 2 (mat2 a b c e) (mat2 (e / (a * e - b * c)) (- b / (a * e - b * c)) (- c / (a * e - b * c)) (a / (a * e - b * c))).
Proof.
  intros H. split; intros [|[|i]] [|[|j]] Hi Hj; try lia; unfold mat2, ident; cbn; field; exact H.
Qed.
Lemma ident_symm d : symm d ident.
Proof. intros i j _ _. unfold ident. rewrite Nat.eqb_sym. reflexivity. Qed.
Lemma ident_posdef d : posdef d ident.
Proof.
  intros v (i & Hi & Hv). rewrite <- rdot_rmv.
  rewrite (rdot_ext d v v (rmv d ident v) v).
  - pose proof (Rsum_ge_term d (fun k => v k * v k) i ltac:(intros; apply Rle_0_sqr) Hi) as H. cbn beta in H.
    unfold rdot. assert (0 < v i * v i) by (apply Rsqr_pos_lt, Hv). lra.
  - reflexivity.
  - intros k Hk. unfold rmv. rewrite (Rsum_single d _ k Hk); [unfold ident; rewrite Nat.eqb_refl; ring|].
    intros j Hj Hne. unfold ident. destruct (Nat.eqb_spec k j); [congruence|ring].
Qed.
Lemma ident_inv d : is_inv d ident ident.
Proof. split; intros i j Hi Hj; apply rmm_id_l; assumption. Qed.

Lemma kl0_nd_bcast_witness : exists mu T m S k, symm 2 S /\ posdef 2 S /\ symm 2 T /\ posdef 2 T /\
  KLn 2 m S mu T k /\ kl0_nd (K:=RNum) ln 2 mu T m S = Ok (2 * k) /\ 0 < k.
Proof.
  set (m := fun i : nat => if Nat.eqb i 0 then 1 else 0).
  exists (fun _ => 0), ident, m, ident, (1 / 2).
  pose proof (ident_symm 2) as Hs. pose proof (ident_posdef 2) as Hp. pose proof (ident_inv 2) as Hi.
  assert (E : kln 2 m ident (fun _ => 0) ident ident = 1 / 2).
  { unfold kln. rewrite (tr_inv_self 2 ident ident Hs Hi). cbn. unfold m, ident. cbn. field. }
  pose proof (KLn_val 2 m ident (fun _ => 0) ident ident Hs Hp Hs Hp Hi) as HK. rewrite E in HK.
  repeat split; try assumption; [|lra].
  destruct (kl0_nd_partial 2 (fun _ => 0) ident m ident Hs Hp Hs Hp ltac:(intros i j _ _; reflexivity)) as (k & Ti & Hk & HTi & Hv).
  rewrite (KLn_unique 2 m ident (fun _ => 0) ident ident k Hs Hp Hs Hp Hi Hk), E in Hv.
  rewrite Hv. f_equal.
  assert (ET : rmeq 2 Ti ident) by (apply (inv_unique 2 ident); [apply HTi|apply Hi]).
  cbn. rewrite !ET by lia. unfold m, ident. cbn. req. field.
Qed.

(** log_det only reads the lower triangle *)
Lemma log_det_lower d (M M' : nat -> nat -> R) : (forall i k, (k <= i < d)%nat -> M i k = M' i k) ->
  log_det_mat (K:=RNum) ln d M = log_det_mat (K:=RNum) ln d M'.
Proof.
  intros H. unfold log_det_mat, cholesky. pose proof (chol_upto_ext RNum M M' d d H (Nat.le_refl d)) as HL.
  destruct (chol_upto M d) as [L|e], (chol_upto M' d) as [L'|e']; try contradiction; cbn [bind].
  - f_equal. f_equal. apply sumn_ext. intros i Hi. rewrite HL by exact Hi. reflexivity.
  - subst. reflexivity.
Qed.

Definition Sw : nat -> nat -> R := mat2 (2 / 3) (- 1 / 3) (- 1 / 3) (2 / 3).
Definition Tw (t : R) : nat -> nat -> R := mat2 1 0 0 t.
Lemma Sw_ok : symm 2 Sw /\ posdef 2 Sw.
Proof. split; [apply mat2_symm|apply mat2_posdef; lra]. Qed.
Lemma Tw_ok t : 0 < t -> symm 2 (Tw t) /\ posdef 2 (Tw t).
Proof. intros. split; [apply mat2_symm|apply mat2_posdef; lra]. Qed.
Lemma Sw_inv : is_inv 2 Sw (mat2 2 1 1 2).
Proof. split; intros [|[|i]] [|[|j]] Hi Hj; try lia; unfold Sw, mat2, ident; cbn; field. Qed.
Lemma Tw_inv t : 0 < t -> is_inv 2 (Tw t) (mat2 1 0 0 (/ t)).
Proof. intros Ht. split; intros [|[|i]] [|[|j]] Hi Hj; try lia; unfold Tw, mat2, ident; cbn; field; lra. Qed.
Lemma det_Sw : detR 2 Sw = 1 / 3. Proof. unfold Sw, mat2. cbn. field. Qed.
Lemma det_Tw t : detR 2 (Tw t) = t. Proof. unfold Tw, mat2. cbn. ring. Qed.
Lemma prod_w t Si : is_inv 2 Sw Si -> forall i k, (k <= i < 2)%nat -> mmul (K:=RNum) 2 (Tw t) Si i k = mat2 2 t t (2 * t) i k.
Proof.
  intros HSi i k Hik.
  assert (ES : rmeq 2 Si (mat2 2 1 1 2)) by (apply (inv_unique 2 Sw); [apply HSi|apply Sw_inv]).
  change (rmm 2 (Tw t) Si i k = mat2 2 t t (2 * t) i k).
  unfold rmm. cbn [Rsum]. rewrite !ES by lia.
  destruct i as [|[|i]], k as [|[|k]]; try lia; unfold Tw, mat2; cbn; ring.
Qed.
Lemma kl0_nd_lower_witness : exists mu T m S k v, symm 2 S /\ posdef 2 S /\ symm 2 T /\ posdef 2 T /\
  KLn 2 m S mu T k /\ kl0_nd (K:=RNum) ln 2 mu T m S = Ok v /\ v <> k /\ m = mu.
Proof.
  destruct Sw_ok as [Hs Hsp]. destruct (Tw_ok 2 ltac:(lra)) as [Ht Htp].
  destruct (chol_inv_fast_ok 2 Sw Hs Hsp) as (Si & c1 & E1 & HSi & HSis & HSip).
  destruct (chol_inv_fast_ok 2 (Tw 2) Ht Htp) as (Ti & c2 & E2 & HTi & HTis & HTip).
  assert (Eld : log_det_mat (K:=RNum) ln 2 (mmul (K:=RNum) 2 (Tw 2) Si) = Ok (ln 4)).
  { rewrite (log_det_lower 2 _ (mat2 2 2 2 (2 * 2)) (prod_w 2 Si HSi)).
    destruct (log_det_matrix 2 (mat2 2 2 2 (2 * 2)) (mat2_symm _ _ _)) as [H _].
    specialize (H ltac:(apply mat2_posdef; lra)). cbn [log_det Nat.eqb] in H.
    etransitivity; [exact H|]. f_equal. f_equal. unfold mat2. cbn. ring. }
  assert (ET : rmeq 2 Ti (mat2 1 0 0 (/ 2))) by (apply (inv_unique 2 (Tw 2)); [apply HTi|apply Tw_inv; lra]).
  exists (fun _ => 0), (Tw 2), (fun _ => 0), Sw, (kln 2 (fun _ => 0) Sw (fun _ => 0) (Tw 2) Ti).
  eexists. split; [exact Hs|]. split; [exact Hsp|]. split; [exact Ht|]. split; [exact Htp|].
  split; [apply KLn_val; assumption|]. split; [|split].
  - unfold kl0_nd, kl0_nd_zz. rewrite E1, E2. cbn [bind]. rewrite Eld. cbn [bind]. reflexivity.
  - unfold kln. rewrite det_Tw, det_Sw.
    unfold zz_vec, vdot, vsubv, diagv, mmul, msub, madd. cbn [sumn Rsum]. rnum. rewrite !ET by lia.
    unfold Sw, Tw, mat2. cbn.
    assert (H4 : ln 4 = ln 2 + ln 2) by (rewrite <- ln_mult by lra; f_equal; ring).
    assert (H3 : ln (1 / 3) = - ln 3) by (rewrite <- ln_Rinv by lra; f_equal; field).
    rewrite H4, H3. assert (ln 2 < ln 3) by (apply ln_increasing; lra). intros H0. lra.
  - reflexivity.
Qed.
Lemma kl0_nd_error_witness : exists mu T m S, symm 2 S /\ posdef 2 S /\ symm 2 T /\ posdef 2 T /\
  kl0_nd (K:=RNum) ln 2 mu T m S = Err LinAlgError.
Proof.
  destruct Sw_ok as [Hs Hsp]. destruct (Tw_ok 10 ltac:(lra)) as [Ht Htp].
  destruct (chol_inv_fast_ok 2 Sw Hs Hsp) as (Si & c1 & E1 & HSi & HSis & HSip).
  destruct (chol_inv_fast_ok 2 (Tw 10) Ht Htp) as (Ti & c2 & E2 & HTi & HTis & HTip).
  exists (fun _ => 0), (Tw 10), (fun _ => 0), Sw. repeat (split; [assumption|]).
  unfold kl0_nd, kl0_nd_zz. rewrite E1, E2. cbn [bind].
  rewrite (log_det_lower 2 _ (mat2 2 10 10 (2 * 10)) (prod_w 10 Si HSi)).
  destruct (log_det_matrix 2 (mat2 2 10 10 (2 * 10)) (mat2_symm _ _ _)) as [_ H].
  cbn [log_det Nat.eqb] in H. rewrite H; [reflexivity|].
  intros Hp. specialize (Hp (fun i => match i with O => 5 | _ => -1 end) ltac:(exists 1%nat; split; [lia|lra])).
  cbn in Hp. lra.
Qed.
