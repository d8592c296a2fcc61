(** * The backward sweeps: the forward result, with time reversed. *)
From Coq Require Import List Reals Lra Lia Psatz.
From Coquelicot Require Import Coquelicot.
From Verif Require Import Num Arr ArrFacts Spec_Ode Spec_TimeVar M_Ode P_Ode P_OdeRK P_OdeR P_Conv P_TimeVar P_TimeVar2 P_TimeVar3 P_TimeVar4 P_TimeVar5.
Import ListNotations.
Local Open Scope R_scope.

Lemma rev_derive (f : R -> R) l T t : is_derive f (T - t) l -> is_derive (fun s => f (T - s)) t (- l).
Proof.
  intros H. replace (T - t) with (T + - t) in H by ring. auto_derive; [eexists; exact H|]. rewrite (drv f _ _ H). ring.
Qed.
Lemma smooth_rev k T T1 T2 f : 0 <= T1 -> T2 <= T -> smooth k T f -> smooth k (T2 - T1) (fun s => f (T2 - s)).
Proof.
  intros H1 H2. revert f. induction k; intros f [(M & HM) H]; split; auto.
  - exists M. intros t Ht. apply HM. lra.
  - exists M. intros t Ht. apply HM. lra.
  - destruct H as (f' & Hd & Hs). exists (fun s => - f' (T2 - s)). split.
    + intros t Ht. apply rev_derive. apply Hd. lra.
    + apply smooth_opp. apply IHk; auto.
Qed.

Section Neg.
Context {V : Val RNum} {I : Type} (inI : I -> Prop) (co : I -> V -> R).
Hypothesis co_add : forall i u v, co i (vadd u v) = co i u + co i v.
Hypothesis co_scale : forall i (c : R) u, co i (vscale c u) = c * co i u.
Hypothesis co_zero : forall i, co i (vzero V) = 0.
Definition same (u v : V) := forall i, inI i -> co i u = co i v.
Definition neg (F : R -> V -> V) : R -> V -> V := fun th u => vscale (-1) (F th u).

Lemma rk_neg mtd F h w : (forall th u v, node th -> same u v -> same (F th u) (F th v)) ->
  same (rk_step (tab_of mtd) F (- h) w) (rk_step (tab_of mtd) (neg F) h w).
Proof.
  intros HF.
  assert (N0 : node 0) by (left; auto). assert (Nh : node (1/2)) by (right; left; auto). assert (N1 : node 1) by (right; right; auto).
  set (G := neg F).
  assert (A1 : same (k1 F (- h) w) (vscale (-1) (k1 G h w))).
  { intros i Hi. change (k1 G h w) with (vscale (-1) (F 0 (st0 h w))). unfold k1. rewrite !co_scale.
    rewrite (HF 0 (st0 (- h) w) (st0 h w) N0) by (auto; intros j Hj; rewrite !(co_st0 co co_add co_scale co_zero); auto). ring. }
  assert (A2h : same (k2h F (- h) w) (vscale (-1) (k2h G h w))).
  { intros i Hi. change (k2h G h w) with (vscale (-1) (F 1 (st1 h 1 w (k1 G h w)))). unfold k2h. rewrite !co_scale.
    rewrite (HF 1 (st1 (- h) 1 w (k1 F (- h) w)) (st1 h 1 w (k1 G h w)) N1); auto; [ring|].
    intros j Hj. rewrite !(co_st1 co co_add co_scale co_zero). rewrite (A1 j Hj), co_scale. ring. }
  assert (A2 : same (k2 F (- h) w) (vscale (-1) (k2 G h w))).
  { intros i Hi. change (k2 G h w) with (vscale (-1) (F (1/2) (st1 h (1/2) w (k1 G h w)))). unfold k2. rewrite !co_scale.
    rewrite (HF (1/2) (st1 (- h) (1/2) w (k1 F (- h) w)) (st1 h (1/2) w (k1 G h w)) Nh); auto; [ring|].
    intros j Hj. rewrite !(co_st1 co co_add co_scale co_zero). rewrite (A1 j Hj), co_scale. ring. }
  assert (A3 : same (k3 F (- h) w) (vscale (-1) (k3 G h w))).
  { intros i Hi. change (k3 G h w) with (vscale (-1) (F (1/2) (st2 h 0 (1/2) w (k1 G h w) (k2 G h w)))). unfold k3 at 1. rewrite !co_scale.
    rewrite (HF (1/2) (st2 (- h) 0 (1/2) w (k1 F (- h) w) (k2 F (- h) w)) (st2 h 0 (1/2) w (k1 G h w) (k2 G h w)) Nh); auto; [ring|].
    intros j Hj. rewrite !(co_st2 co co_add co_scale co_zero). rewrite (A2 j Hj), co_scale. ring. }
  assert (A4 : same (k4 F (- h) w) (vscale (-1) (k4 G h w))).
  { intros i Hi. change (k4 G h w) with (vscale (-1) (F 1 (st3 h 0 0 1 w (k1 G h w) (k2 G h w) (k3 G h w)))). unfold k4 at 1. rewrite !co_scale.
    rewrite (HF 1 (st3 (- h) 0 0 1 w (k1 F (- h) w) (k2 F (- h) w) (k3 F (- h) w)) (st3 h 0 0 1 w (k1 G h w) (k2 G h w) (k3 G h w)) N1); auto; [ring|].
    intros j Hj. rewrite !(co_st3 co co_add co_scale co_zero). rewrite (A3 j Hj), co_scale. ring. }
  intros i Hi. specialize (A1 i Hi). specialize (A2 i Hi). specialize (A2h i Hi). specialize (A3 i Hi). specialize (A4 i Hi).
  rewrite co_scale in A1, A2, A2h, A3, A4.
  destruct mtd; cbn [tab_of].
  - rewrite !(co_euler co co_add co_scale co_zero), A1. ring.
  - rewrite !(co_heun co co_add co_scale co_zero), A1, A2h. field.
  - rewrite !(co_mid co co_add co_scale co_zero), A2. ring.
  - rewrite !(co_rk4 co co_add co_scale co_zero), A1, A2, A3, A4. field.
Qed.

Hypothesis fin : forall P : I -> R -> Prop, (forall i a b, P i a -> a <= b -> P i b) ->
  (forall i, inI i -> exists M, P i M) -> exists M, 0 <= M /\ forall i, inI i -> P i M.
Variables (T : R) (N : nat) (cf : I -> nat -> R -> R) (ix : I -> nat -> I) (g : I -> R -> R).
Hypothesis Hix : forall i k, inI i -> (k < N)%nat -> inI (ix i k).
Hypothesis Hcf : forall i k, inI i -> (k < N)%nat -> smooth 2 T (cf i k).
Hypothesis Hg : forall i, inI i -> smooth 2 T (g i).

Definition sol (T1 T2 : R) (y : R -> V) := forall i t, inI i -> T1 <= t <= T2 ->
  is_derive (fun s => co i (y s)) t (y1 co N cf ix g y i t).
Definition Fok (h : R) (k : nat) (F : R -> V -> V) := forall th w i, node th -> inI i -> co i (F th w) =
     rsum N (fun l => lerp th (cf i l (INR (k + 1) * h)) (cf i l (INR k * h)) * co (ix i l) w)
     + lerp th (g i (INR (k + 1) * h)) (g i (INR k * h)).

Theorem aff_bwd T1 T2 y : 0 <= T1 <= T2 -> T2 <= T -> sol T1 T2 y ->
  exists E K, 0 <= E /\ 0 <= K /\ forall mtd h n k1 (u : nat -> V) (F : nat -> R -> V -> V) e0,
  0 < h -> INR n * h = T2 -> INR k1 * h = T1 -> 0 <= e0 -> near inI co e0 (u n) (y T2) ->
  (forall k, (k1 <= k < n)%nat -> Fok h k (F k)) ->
  (forall k, (k1 <= k < n)%nat -> near inI co 0 (u k) (rk_step (tab_of mtd) (F k) (- h) (u (k + 1)%nat))) ->
  forall k, (k1 <= k <= n)%nat -> near inI co (E * e0 + K * h ^ ordv mtd) (u k) (y (INR k * h)).
Proof.
  intros HT1 HT2 Hy.
  destruct (aff_conv inI co co_add co_scale co_zero fin (T2 - T1) N (fun i l s => - cf i l (T2 - s)) ix (fun i s => - g i (T2 - s))
    (fun s => y (T2 - s)) ltac:(lra) Hix) as (E & K & E0 & K0 & HK).
  - intros i k Hi Hk. apply (smooth_opp 2 (T2 - T1) (fun s => cf i k (T2 - s))). apply (smooth_rev 2 T); auto; lra.
  - intros i Hi. apply (smooth_opp 2 (T2 - T1) (fun s => g i (T2 - s))). apply (smooth_rev 2 T); auto; lra.
  - intros i t Hi Ht.
    pose proof (rev_derive (fun s => co i (y s)) _ T2 t (Hy i (T2 - t) Hi ltac:(lra))) as Q.
    assert (QE : - y1 co N cf ix g y i (T2 - t) = y1 co N (fun i l s => - cf i l (T2 - s)) ix (fun i s => - g i (T2 - s)) (fun s => y (T2 - s)) i t).
    { unfold y1.
      rewrite (sumn_ext N (fun k => - cf i k (T2 - t) * co (ix i k) (y (T2 - t))) (fun k => - (cf i k (T2 - t) * co (ix i k) (y (T2 - t))))) by (intros; ring).
      rewrite sumn_opp. lra. }
    rewrite <- QE. exact Q.
  - exists E, K. split; auto. split; auto. intros mtd h n k1 u F e0 Hh Hn H1 He H0 HF Hu k Hk.
    assert (Hk1n : (k1 <= n)%nat) by lia.
    replace (y (INR k * h)) with (y (T2 - INR (n - k) * h)) by (f_equal; rewrite minus_INR by lia; lra).
    replace (u k) with ((fun j => u (n - j)%nat) (n - k)%nat) by (cbv beta; f_equal; lia).
    refine (HK mtd h (n - k1)%nat (fun j => u (n - j)%nat) (fun j => neg (F (n - j - 1)%nat)) e0 Hh _ He _ _ _ (n - k)%nat _); try lia.
    + rewrite minus_INR by lia. lra.
    + rewrite Nat.sub_0_r, Rminus_0_r. exact H0.
    + intros j th w i Hj Hth Hi. unfold neg. rewrite co_scale, (HF (n - j - 1)%nat) by (auto; lia).
      assert (E1 : INR (n - j - 1 + 1) * h = T2 - INR j * h).
      { replace (n - j - 1 + 1)%nat with (n - j)%nat by lia. rewrite minus_INR by lia. lra. }
      assert (E2 : INR (n - j - 1) * h = T2 - (INR j * h + h)).
      { rewrite !minus_INR by lia. cbn. lra. }
      rewrite E1, E2. rewrite Rmult_plus_distr_l, <- sumn_scal. f_equal; [|unfold lerp; ring].
      apply sumn_ext. intros l Hl. unfold lerp. ring.
    + intros j Hj. replace (n - S j)%nat with (n - j - 1)%nat by lia.
      pose proof (Hu (n - j - 1)%nat ltac:(lia)) as Q.
      replace (n - j - 1 + 1)%nat with (n - j)%nat in Q by lia.
      intros i Hi. specialize (Q i Hi). rewrite rk_neg in Q; auto.
      intros th u0 v0 Hth Huv l Hl. rewrite !(HF (n - j - 1)%nat) by (auto; lia). f_equal.
      apply sumn_ext. intros q Hq. rewrite (Huv (ix l q)); auto.
Qed.

Definition glue (v u c : V) := forall i, inI i -> co i v = co i u + co i c.

Lemma no_jump T2 y0 ps t : fits sol glue T2 y0 ps -> (forall tau c y r, ps = (tau, c, y) :: r -> tau < t) ->
  jump_at (vzero V) ps t = vzero V.
Proof.
  revert T2 y0. induction ps as [|[[tau c] y] r IH]; intros T2 y0 Hf Ht; cbn; auto.
  specialize (Ht tau c y r eq_refl). destruct (Req_EM_T t tau); [lra|].
  cbn in Hf. destruct Hf as (_ & _ & _ & Hf). apply (IH tau y Hf).
  intros tau' c' y' r' Er. rewrite Er in Hf. cbn in Hf. lra.
Qed.

Theorem aff_jumps ps : forall T2 y0, 0 <= T2 <= T -> fits sol glue T2 y0 ps ->
  exists E K, 0 <= E /\ 0 <= K /\ forall mtd h n (u : nat -> V) (F : nat -> R -> V -> V) e0,
  0 < h -> INR n * h = T2 -> on_grid h ps -> 0 <= e0 -> near inI co e0 (u n) (y0 T2) ->
  (forall k, (k < n)%nat -> Fok h k (F k)) ->
  (forall k, (k < n)%nat -> near inI co 0 (u k)
     (vadd (rk_step (tab_of mtd) (F k) (- h) (u (k + 1)%nat)) (jump_at (vzero V) ps (INR k * h)))) ->
  forall k, (k <= n)%nat -> near inI co (E * e0 + K * h ^ ordv mtd) (u k) (with_jumps y0 ps (INR k * h)).
Proof.
  induction ps as [|[[tau c] y] r IH]; intros T2 y0 HT2 Hf.
  - destruct (aff_bwd 0 T2 y0 ltac:(lra) ltac:(lra) Hf) as (E & K & E0 & K0 & HK).
    exists E, K. split; auto. split; auto. intros mtd h n u F e0 Hh Hn _ He H0 HF Hu k Hk. cbn.
    apply (HK mtd h n 0%nat u F e0); auto; try lia.
    + cbn. lra.
    + intros j Hj. apply HF. lia.
    + intros j Hj i Hi. specialize (Hu j ltac:(lia) i Hi). cbn [jump_at] in Hu. rewrite co_add, co_zero, Rplus_0_r in Hu. exact Hu.
  - cbn in Hf. destruct Hf as (Htau & Hs0 & Hgl & Hr).
    destruct (aff_bwd tau T2 y0 ltac:(lra) ltac:(lra) Hs0) as (E1 & K1 & E10 & K10 & HK1).
    destruct (IH tau y ltac:(lra) Hr) as (E2 & K2 & E20 & K20 & HK2).
    exists (E1 + E2 * E1), (K1 + E2 * K1 + K2).
    assert (Q1 : 0 <= E2 * E1) by (apply Rmult_le_pos; auto). assert (Q2 : 0 <= E2 * K1) by (apply Rmult_le_pos; auto).
    split; [lra|]. split; [lra|].
    intros mtd h n u F e0 Hh Hn Hg' He H0 HF Hu k Hk.
    destruct (Hg' (tau, c, y) (or_introl eq_refl)) as (o & Ho). cbn in Ho.
    assert (Hon : (o < n)%nat).
    { apply INR_lt. apply (Rmult_lt_reg_r h); lra. }
    assert (Hp : 0 <= h ^ ordv mtd) by (apply pow_le; lra).
    assert (Hjr : forall q, (o < q)%nat -> jump_at (vzero V) ((tau, c, y) :: r) (INR q * h) = vzero V).
    { intros q Hq. apply (no_jump T2 y0); [cbn; split; [lra|auto]|].
      intros tau' c' y' r' Er. injection Er as <- _ _ _. rewrite Ho. apply Rmult_lt_compat_r; auto. apply lt_INR; auto. }
    set (u' := fun q => if (q =? o)%nat then rk_step (tab_of mtd) (F o) (- h) (u (o + 1)%nat) else u q).
    assert (A : forall q, (o <= q <= n)%nat -> near inI co (E1 * e0 + K1 * h ^ ordv mtd) (u' q) (y0 (INR q * h))).
    { apply (HK1 mtd h n o u' F e0); auto.
      - unfold u'. destruct (Nat.eqb_spec n o); [lia|]. exact H0.
      - intros j Hj. apply HF. lia.
      - intros j Hj i Hi. unfold u'. destruct (Nat.eqb_spec (j + 1) o); [lia|]. destruct (Nat.eqb_spec j o) as [->|].
        + replace (_ - _) with 0 by ring. rewrite Rabs_R0. lra.
        + specialize (Hu j ltac:(lia) i Hi). rewrite Hjr in Hu by lia. rewrite co_add, co_zero, Rplus_0_r in Hu. exact Hu. }
    cbn [with_jumps]. destruct (Rle_dec (INR k * h) tau) as [Hle | Hgt].
    + assert (Hko : (k <= o)%nat).
      { apply INR_le. apply (Rmult_le_reg_r h); lra. }
      assert (B : near inI co (E1 * e0 + K1 * h ^ ordv mtd) (u o) (y tau)).
      { intros i Hi. pose proof (A o ltac:(lia) i Hi) as A1. unfold u' in A1. rewrite Nat.eqb_refl in A1.
        pose proof (Hu o Hon i Hi) as A2. cbn [jump_at] in A2. destruct (Req_EM_T (INR o * h) tau); [|lra].
        rewrite co_add in A2. rewrite (Hgl i Hi). rewrite Ho in *. apply Rabs_le_between in A1. apply Rabs_le_between in A2.
        apply Rabs_le_between. lra. }
      assert (Z0 : 0 <= E1 * e0 + K1 * h ^ ordv mtd).
      { apply Rplus_le_le_0_compat; apply Rmult_le_pos; auto. }
      intros i Hi.
      assert (C : near inI co (E2 * (E1 * e0 + K1 * h ^ ordv mtd) + K2 * h ^ ordv mtd) (u k) (with_jumps y r (INR k * h))).
      { apply (HK2 mtd h o u F); auto.
        - intros p Hp'. apply Hg'. right; auto.
        - intros j Hj. apply HF. lia.
        - intros j Hj i' Hi'. specialize (Hu j ltac:(lia) i' Hi'). cbn [jump_at] in Hu.
          destruct (Req_EM_T (INR j * h) tau) as [Eq|]; [|exact Hu].
          rewrite Ho in Eq. apply Rmult_eq_reg_r in Eq; [|lra]. apply INR_eq in Eq. lia. }
      eapply Rle_trans; [apply (C i Hi)|].
      assert (0 <= E1 * e0) by (apply Rmult_le_pos; auto).
      assert (0 <= K1 * h ^ ordv mtd) by (apply Rmult_le_pos; auto). lra.
    + intros i Hi. assert (Hko : (o < k)%nat).
      { apply INR_lt. apply (Rmult_lt_reg_r h); lra. }
      pose proof (A k ltac:(lia) i Hi) as A1. unfold u' in A1. destruct (Nat.eqb_spec k o); [lia|].
      eapply Rle_trans; [exact A1|].
      assert (0 <= E2 * E1 * e0) by (apply Rmult_le_pos; auto).
      assert (0 <= E2 * K1 * h ^ ordv mtd) by (apply Rmult_le_pos; auto).
      assert (0 <= K2 * h ^ ordv mtd) by (apply Rmult_le_pos; auto). lra.
Qed.
End Neg.
