(** * Stability and consistency of one Runge-Kutta step, and the global error. *)
From Coq Require Import List Reals Lra Lia Psatz.
From Coquelicot Require Import Coquelicot.
From Verif Require Import Num Arr ArrFacts Spec_Ode Spec_TimeVar M_Ode P_Conv P_OdeRK P_TimeVar.
Import ListNotations.
Local Open Scope R_scope.

Section Gen.
Context {V : Val RNum} {I : Type} (inI : I -> Prop) (co : I -> V -> R).
Hypothesis co_add : forall i u v, co i (vadd u v) = co i u + co i v.
Hypothesis co_scale : forall i (c : R) u, co i (vscale c u) = c * co i u.
Hypothesis co_zero : forall i, co i (vzero V) = 0.

Definition near (e : R) (u v : V) := forall i, inI i -> Rabs (co i u - co i v) <= e.
Definition lip (L : R) (G : V -> V) := forall e u v, near e u v -> near (L * e) (G u) (G v).


Ltac cosimp := repeat (rewrite co_add || rewrite co_scale || rewrite co_zero); change (car RNum) with R in *.
Ltac babs := repeat match goal with H : Rabs _ <= _ |- _ => apply Rabs_le_between in H end; apply Rabs_le_between.

Section Step.
Variables (F : R -> V -> V) (L h : R).
Hypothesis Lpos : 0 <= L.
Hypothesis hpos : 0 <= h.
Hypothesis HL0 : lip L (F 0).
Hypothesis HLh : lip L (F (1/2)).
Hypothesis HL1 : lip L (F 1).

Lemma mulh x b : Rabs x <= b -> Rabs (h * x) <= h * b.
Proof. intros H. rewrite Rabs_mult, (Rabs_pos_eq h) by exact hpos. apply Rmult_le_compat_l; auto. Qed.

Lemma hl_pos : 0 <= h * L. Proof. apply Rmult_le_pos; auto. Qed.

(** the stages, by name *)
Definition st0 (y : V) : V := vadd y (vscale h (vzero V)).
Definition st1 (c : R) (y k : V) : V := vadd y (vscale h (vadd (vscale c k) (vzero V))).
Definition st2 (a c : R) (y j k : V) : V :=
  vadd y (vscale h (vadd (vscale a j) (vadd (vscale c k) (vzero V)))).
Definition st3 (a b c : R) (y i j k : V) : V :=
  vadd y (vscale h (vadd (vscale a i) (vadd (vscale b j) (vadd (vscale c k) (vzero V))))).
Definition k1 y := F 0 (st0 y).
Definition k2h y := F 1 (st1 1 y (k1 y)).
Definition k2 y := F (1/2) (st1 (1/2) y (k1 y)).
Definition k3 y := F (1/2) (st2 0 (1/2) y (k1 y) (k2 y)).
Definition k4 y := F 1 (st3 0 0 1 y (k1 y) (k2 y) (k3 y)).

Lemma co_st0 i y : co i (st0 y) = co i y.
Proof. unfold st0. cosimp. ring. Qed.
Lemma co_st1 i c y k : co i (st1 c y k) = co i y + c * (h * co i k).
Proof. unfold st1. cosimp. ring. Qed.
Lemma co_st2 i a c y j k : co i (st2 a c y j k) = co i y + a * (h * co i j) + c * (h * co i k).
Proof. unfold st2. cosimp. ring. Qed.
Lemma co_st3 i a b c y j k l : co i (st3 a b c y j k l) = co i y + a * (h * co i j) + b * (h * co i k) + c * (h * co i l).
Proof. unfold st3. cosimp. ring. Qed.

Lemma co_euler i y : co i (rk_step tab_euler F h y) = co i y + h * co i (k1 y).
Proof. unfold rk_step. cbn [tab_euler tab_rows tab_b rk_stages lincomb app]. cosimp. unfold k1, st0. ring. Qed.
Lemma co_heun i y : co i (rk_step tab_heun F h y) = co i y + (h * co i (k1 y) + h * co i (k2h y)) / 2.
Proof. unfold rk_step. cbn [tab_heun tab_rows tab_b rk_stages lincomb app]. cosimp. unfold k2h, st1, k1, st0. field. Qed.
Lemma co_mid i y : co i (rk_step tab_midpoint F h y) = co i y + h * co i (k2 y).
Proof. unfold rk_step. cbn [tab_midpoint tab_rows tab_b rk_stages lincomb app]. cosimp. unfold k2, st1, k1, st0. field. Qed.
Lemma co_rk4 i y : co i (rk_step tab_rk4 F h y) =
  co i y + (h * co i (k1 y) + 2 * (h * co i (k2 y)) + 2 * (h * co i (k3 y)) + h * co i (k4 y)) / 6.
Proof.
  unfold rk_step. cbn [tab_rk4 tab_rows tab_b rk_stages lincomb app]. cosimp.
  unfold k4, st3, k3, st2, k2, st1, k1, st0. field.
Qed.

Lemma stab mtd e u v : near e u v -> 0 <= e ->
  near (exp (h * L) * e) (rk_step (tab_of mtd) F h u) (rk_step (tab_of mtd) F h v).
Proof.
  intros H He.
  assert (K1 : near (L * e) (k1 u) (k1 v)).
  { apply HL0. intros i Hi. rewrite !co_st0. auto. }
  assert (K2h : near (L * (e + h * (L * e))) (k2h u) (k2h v)).
  { apply HL1. intros i Hi. rewrite !co_st1. specialize (H i Hi). pose proof (mulh _ _ (K1 i Hi)). babs. lra. }
  assert (K2 : near (L * (e + h * (L * e) / 2)) (k2 u) (k2 v)).
  { apply HLh. intros i Hi. rewrite !co_st1. specialize (H i Hi). pose proof (mulh _ _ (K1 i Hi)). babs. lra. }
  assert (K3 : near (L * (e + h * (L * (e + h * (L * e) / 2)) / 2)) (k3 u) (k3 v)).
  { apply HLh. intros i Hi. rewrite !co_st2. specialize (H i Hi). pose proof (mulh _ _ (K2 i Hi)). babs. lra. }
  assert (K4 : near (L * (e + h * (L * (e + h * (L * (e + h * (L * e) / 2)) / 2)))) (k4 u) (k4 v)).
  { apply HL1. intros i Hi. rewrite !co_st3. specialize (H i Hi). pose proof (mulh _ _ (K3 i Hi)). babs. lra. }
  assert (Hx : exp (h * L) = exp (Rabs (h * L))) by (rewrite Rabs_pos_eq; auto using hl_pos).
  assert (T0 : forall p, texp p (h * L) * e <= exp (h * L) * e).
  { intros p. apply Rmult_le_compat_r; auto. rewrite Hx. eapply Rle_trans; [apply Rle_abs|apply texp_abs]. }
  destruct (texp_poly (h * L)) as (P1 & P2 & P4).
  intros i Hi. specialize (H i Hi).
  pose proof (mulh _ _ (K1 i Hi)). pose proof (mulh _ _ (K2h i Hi)). pose proof (mulh _ _ (K2 i Hi)).
  pose proof (mulh _ _ (K3 i Hi)). pose proof (mulh _ _ (K4 i Hi)).
  destruct mtd; cbn [tab_of].
  - rewrite !co_euler. specialize (T0 1%nat). rewrite P1 in T0. eapply Rle_trans; [|exact T0]. babs. lra.
  - rewrite !co_heun. specialize (T0 2%nat). rewrite P2 in T0. eapply Rle_trans; [|exact T0]. babs. lra.
  - rewrite !co_mid. specialize (T0 2%nat). rewrite P2 in T0. eapply Rle_trans; [|exact T0]. babs. lra.
  - rewrite !co_rk4. specialize (T0 4%nat). rewrite P4 in T0. eapply Rle_trans; [|exact T0]. babs. lra.
Qed.

(** ** Consistency: [z th] is the exact solution at relative position th, [z1 th], [z2] its
    first two derivatives. *)
Variables (z : R -> V) (z1 : R -> I -> R) (z2 : I -> R) (D M2 M3 : R).
Hypothesis Dpos : 0 <= D.
Hypothesis M2pos : 0 <= M2.
Hypothesis M3pos : 0 <= M3.
Definition node th := th = 0 \/ th = 1/2 \/ th = 1.
Hypothesis Hcons : forall th i, node th -> inI i -> Rabs (co i (F th (z th)) - z1 th i) <= D * h ^ 2.
Hypothesis HT0 : forall th i, node th -> inI i -> Rabs (co i (z th) - co i (z 0) - th * (h * z1 0 i)) <= M2 * h ^ 2 / 2.

Lemma stage_near e th u i : node th -> inI i -> lip L (F th) -> near e u (z th) ->
  Rabs (co i (F th u) - z1 th i) <= L * e + D * h ^ 2.
Proof.
  intros Hn Hi Hl Hu. pose proof (Hl _ _ _ Hu i Hi) as H. pose proof (Hcons th i Hn Hi). babs. lra.
Qed.

Lemma k1_near i : inI i -> Rabs (co i (k1 (z 0)) - z1 0 i) <= D * h ^ 2.
Proof.
  intros Hi. replace (D * h ^ 2) with (L * 0 + D * h ^ 2) by ring.
  apply stage_near; auto; [left; auto|]. intros j Hj. rewrite co_st0.
  replace (_ - _) with 0 by ring. rewrite Rabs_R0. lra.
Qed.

Lemma local_euler : near (D * h ^ 3 + M2 * h ^ 2 / 2) (rk_step tab_euler F h (z 0)) (z 1).
Proof.
  intros i Hi. rewrite co_euler. pose proof (mulh _ _ (k1_near i Hi)).
  pose proof (HT0 1 i (or_intror (or_intror eq_refl)) Hi). babs. nra.
Qed.

Hypothesis HT1 : forall th i, node th -> inI i -> Rabs (z1 th i - z1 0 i - th * (h * z2 i)) <= M3 * h ^ 2 / 2.
Hypothesis HT1' : forall th i, node th -> inI i -> Rabs (z1 th i - z1 0 i) <= M2 * h.
Hypothesis HT3 : forall i, inI i -> Rabs (co i (z 1) - co i (z 0) - h * z1 0 i - h ^ 2 / 2 * z2 i) <= M3 * h ^ 3 / 6.
Variable H : R.
Hypothesis hH : h <= H.

Definition c1 := H * D + M2 / 2.
Definition e2 := L * c1 + D.
Definition c2 := H * e2 + M2.
Definition e3 := L * c2 + D.
Definition c3 := H * e3 + 3 * M2.
Definition e4 := L * c3 + D.

Lemma Hpos : 0 <= H. Proof. lra. Qed.
Lemma cpos : 0 <= c1 /\ 0 <= e2 /\ 0 <= c2 /\ 0 <= e3 /\ 0 <= c3 /\ 0 <= e4.
Proof.
  pose proof Hpos.
  assert (0 <= c1) by (unfold c1; nra). assert (0 <= e2) by (unfold e2; nra).
  assert (0 <= c2) by (unfold c2; nra). assert (0 <= e3) by (unfold e3; nra).
  assert (0 <= c3) by (unfold c3; nra). assert (0 <= e4) by (unfold e4; nra). repeat split; auto.
Qed.
Lemma h3 x : 0 <= x -> h * (x * h ^ 2) <= H * x * h ^ 2.
Proof. intros Hx. assert (0 <= x * h ^ 2) by (apply Rmult_le_pos; auto using pow_le). nra. Qed.

Lemma k2h_near i : inI i -> Rabs (co i (k2h (z 0)) - z1 1 i) <= e2 * h ^ 2.
Proof.
  intros Hi. replace (e2 * h ^ 2) with (L * (c1 * h ^ 2) + D * h ^ 2) by (unfold e2; ring).
  apply stage_near; auto; [right; right; auto|]. intros j Hj. rewrite co_st1.
  pose proof (mulh _ _ (k1_near j Hj)). pose proof (HT0 1 j (or_intror (or_intror eq_refl)) Hj).
  pose proof (h3 D Dpos). unfold c1. babs. lra.
Qed.
Lemma k2_near i : inI i -> Rabs (co i (k2 (z 0)) - z1 (1/2) i) <= e2 * h ^ 2.
Proof.
  intros Hi. replace (e2 * h ^ 2) with (L * (c1 * h ^ 2) + D * h ^ 2) by (unfold e2; ring).
  apply stage_near; auto; [right; left; auto|]. intros j Hj. rewrite co_st1.
  pose proof (mulh _ _ (k1_near j Hj)). pose proof (HT0 (1/2) j (or_intror (or_introl eq_refl)) Hj).
  pose proof (h3 D Dpos). unfold c1. babs. nra.
Qed.
Lemma k3_near i : inI i -> Rabs (co i (k3 (z 0)) - z1 (1/2) i) <= e3 * h ^ 2.
Proof.
  intros Hi. replace (e3 * h ^ 2) with (L * (c2 * h ^ 2) + D * h ^ 2) by (unfold e3; ring).
  apply stage_near; auto; [right; left; auto|]. intros j Hj. rewrite co_st2.
  pose proof (mulh _ _ (k2_near j Hj)). pose proof (HT0 (1/2) j (or_intror (or_introl eq_refl)) Hj).
  pose proof (mulh _ _ (HT1' (1/2) j (or_intror (or_introl eq_refl)) Hj)).
  pose proof (h3 e2 (proj1 (proj2 cpos))). pose proof (cpos). unfold c2.
  assert (0 <= e2 * h ^ 2) by (apply Rmult_le_pos; [tauto|apply pow_le; auto]). pose proof (pow2_ge_0 h).
  assert (0 <= M2 * h ^ 2) by (apply Rmult_le_pos; auto).
  assert (0 <= h * (e2 * h ^ 2)) by (apply Rmult_le_pos; auto).
  babs. lra.
Qed.
Lemma k4_near i : inI i -> Rabs (co i (k4 (z 0)) - z1 1 i) <= e4 * h ^ 2.
Proof.
  intros Hi. replace (e4 * h ^ 2) with (L * (c3 * h ^ 2) + D * h ^ 2) by (unfold e4; ring).
  apply stage_near; auto; [right; right; auto|]. intros j Hj. rewrite co_st3.
  pose proof (mulh _ _ (k3_near j Hj)). pose proof (HT0 1 j (or_intror (or_intror eq_refl)) Hj).
  pose proof (mulh _ _ (HT1' (1/2) j (or_intror (or_introl eq_refl)) Hj)).
  pose proof (h3 e3 (proj1 (proj2 (proj2 (proj2 cpos))))). pose proof (cpos). unfold c3. pose proof (pow2_ge_0 h).
  assert (0 <= M2 * h ^ 2) by (apply Rmult_le_pos; auto).
  babs. lra.
Qed.

Definition tau := e2 + e3 + e4 + D + M3.
Lemma local_second mtd : mtd <> Euler -> near (tau * h ^ 3) (rk_step (tab_of mtd) F h (z 0)) (z 1).
Proof.
  intros Hm i Hi.
  pose proof (mulh _ _ (k1_near i Hi)) as A1. pose proof (mulh _ _ (k2h_near i Hi)) as A2.
  pose proof (mulh _ _ (k2_near i Hi)) as A3. pose proof (mulh _ _ (k3_near i Hi)) as A4.
  pose proof (mulh _ _ (k4_near i Hi)) as A5. pose proof (HT3 i Hi) as A6.
  pose proof (mulh _ _ (HT1 1 i (or_intror (or_intror eq_refl)) Hi)) as A7.
  pose proof (mulh _ _ (HT1 (1/2) i (or_intror (or_introl eq_refl)) Hi)) as A8.
  destruct cpos as (B1 & B2 & B3 & B4 & B5 & B6). pose proof (pow_le h 3 hpos) as B7.
  assert (0 <= e2 * h ^ 3) by (apply Rmult_le_pos; auto). assert (0 <= e3 * h ^ 3) by (apply Rmult_le_pos; auto).
  assert (0 <= e4 * h ^ 3) by (apply Rmult_le_pos; auto). assert (0 <= D * h ^ 3) by (apply Rmult_le_pos; auto).
  assert (0 <= M3 * h ^ 3) by (apply Rmult_le_pos; auto).
  unfold tau. destruct mtd; cbn [tab_of]; [congruence| | |].
  - rewrite co_heun. babs. lra.
  - rewrite co_mid. babs. lra.
  - rewrite co_rk4. babs. lra.
Qed.
End Step.

(** ** Global error *)
Lemma global (u z : nat -> V) (Phi : nat -> V -> V) g t e0 n : 1 <= g -> 0 <= t -> 0 <= e0 ->
  near e0 (u 0%nat) (z 0%nat) ->
  (forall k, (k < n)%nat -> near 0 (u (S k)) (Phi k (u k))) ->
  (forall k e v w, (k < n)%nat -> 0 <= e -> near e v w -> near (g * e) (Phi k v) (Phi k w)) ->
  (forall k, (k < n)%nat -> near t (Phi k (z k)) (z (S k))) ->
  forall k, (k <= n)%nat -> near (g ^ k * e0 + INR k * g ^ k * t) (u k) (z k).
Proof.
  intros Hg Ht He H0 Hu Hs Hl. induction k; intros Hk.
  - intros i Hi. specialize (H0 i Hi). cbn. lra.
  - assert (E0 : 0 <= g ^ k * e0 + INR k * g ^ k * t).
    { assert (0 <= g ^ k) by (apply pow_le; lra). apply Rplus_le_le_0_compat; [apply Rmult_le_pos; auto|].
      apply Rmult_le_pos; auto. apply Rmult_le_pos; [apply pos_INR|auto]. }
    pose proof (Hs k _ _ _ ltac:(lia) E0 (IHk ltac:(lia))) as A. pose proof (Hu k ltac:(lia)) as A0.
    pose proof (Hl k ltac:(lia)) as B. intros i Hi. specialize (A i Hi). specialize (A0 i Hi). specialize (B i Hi).
    pose proof (pow_R1_Rle g (S k) Hg). rewrite S_INR. cbn [pow] in *.
    assert (t <= g * g ^ k * t) by (rewrite <- (Rmult_1_l t) at 1; apply Rmult_le_compat_r; auto).
    babs. lra.
Qed.
End Gen.
