(** * How far the objective can be below the negative log evidence: bounded parameters, Euler (one dimension). *)
From Coq Require Import ZArith List Bool Arith Reals Lra Lia Psatz Sorted.
From Coquelicot Require Import Coquelicot.
From Verif Require Import Num Arr ArrFacts M_LinAlg M_Utils M_Ode M_Moments M_Sde1 M_Prior M_Like M_VarGP
  Spec_Utils Spec_Gauss Spec_Prior Spec_Sde1 Spec_VarGP Spec_Evid P_Ode P_Trapz P_Moments P_Sde1 P_RMat P_Det P_Expect P_Prior P_Like P_VarGP
  P_GaussN P_Stein P_Adjoint P_Grad1 P_Bound P_Jensen P_Evid P_Evid2.
Import ListNotations.
Local Open Scope R_scope.

Lemma exp_ge1 x : 1 + x <= exp x.
Proof. apply exp_ineq1_le. Qed.
Lemma exp_mono x y : x <= y -> exp x <= exp y.
Proof. intros [H| ->]; [left; apply exp_increasing, H|right; reflexivity]. Qed.
Lemma path_m_bound dt L a b m0 k : 0 < dt -> 0 <= L -> (forall j, (j < k)%nat -> Rabs (a j) <= L /\ Rabs (b j) <= L) ->
  Rabs (path_m dt a b m0 k) + 1 <= (Rabs m0 + 1) * exp (INR k * (dt * L)).
Proof.
  intros Hdt HL. induction k as [|k IH]; intros H.
  - cbn [path_m INR]. rewrite Rmult_0_l, exp_0. lra.
  - specialize (IH ltac:(auto)). destruct (H k ltac:(lia)) as [Ha Hb]. cbn [path_m]. rewrite S_INR.
    replace ((INR k + 1) * (dt * L)) with (INR k * (dt * L) + dt * L) by ring. rewrite exp_plus, <- Rmult_assoc.
    set (m := path_m dt a b m0 k) in *. pose proof (exp_ge1 (dt * L)). pose proof (Rabs_pos m).
    assert (Rabs (m + dt * (- a k * m + b k)) <= Rabs m + dt * (L * Rabs m + L)).
    { apply (Rle_trans _ _ _ (Rabs_triang _ _)). apply Rplus_le_compat_l. rewrite Rabs_mult, (Rabs_right dt) by lra. apply Rmult_le_compat_l; [lra|].
      apply (Rle_trans _ _ _ (Rabs_triang _ _)). apply Rplus_le_compat; [|exact Hb]. rewrite Rabs_mult, Rabs_Ropp. apply Rmult_le_compat_r; [apply Rabs_pos|exact Ha]. }
    assert (0 <= dt * L) by (apply Rmult_le_pos; lra).
    apply Rle_trans with ((Rabs m + 1) * (1 + dt * L)); [nra|]. apply Rmult_le_compat; lra.
Qed.
Lemma path_s_bound dt L a sigma s0 k : 0 < dt -> 0 < sigma -> 0 < s0 -> 0 <= L -> dt * L <= 1 / 2 -> (forall j, (j < k)%nat -> Rabs (a j) <= L) ->
  0 < path_s dt a sigma s0 k /\ path_s dt a sigma s0 k + sigma <= (s0 + sigma) * exp (INR k * (dt * (2 * L + 1))).
Proof.
  intros Hdt Hsg Hs0 HL HdL. induction k as [|k IH]; intros H.
  - cbn [path_s INR]. rewrite Rmult_0_l, exp_0. lra.
  - destruct (IH ltac:(auto)) as [P Q]. specialize (H k ltac:(lia)). cbn [path_s]. rewrite S_INR.
    replace ((INR k + 1) * (dt * (2 * L + 1))) with (INR k * (dt * (2 * L + 1)) + dt * (2 * L + 1)) by ring. rewrite exp_plus, <- Rmult_assoc.
    set (s := path_s dt a sigma s0 k) in *. pose proof (exp_ge1 (dt * (2 * L + 1))). apply Rabs_le_between in H.
    assert (U : - (dt * L) <= dt * a k <= dt * L).
    { split; [replace (- (dt * L)) with (dt * - L) by ring|]; apply Rmult_le_compat_l; lra. }
    replace (s + dt * (-2 * a k * s + sigma)) with (s * (1 - 2 * (dt * a k)) + dt * sigma) by ring.
    assert (0 < dt * sigma) by (apply Rmult_lt_0_compat; assumption).
    split; [apply Rplus_le_lt_0_compat; [apply Rmult_le_pos; lra|assumption]|].
    apply Rle_trans with ((s + sigma) * (1 + dt * (2 * L + 1))).
    + assert (s * (1 - 2 * (dt * a k)) <= s * (1 + 2 * (dt * L))) by (apply Rmult_le_compat_l; lra).
      assert (0 <= dt * L * sigma) by (apply Rmult_le_pos; [apply Rmult_le_pos; lra|lra]). assert (0 < dt * s) by (apply Rmult_lt_0_compat; lra). nra.
    + assert (0 <= dt * (2 * L + 1)) by (apply Rmult_le_pos; lra). apply Rmult_le_compat; lra.
Qed.
(** the slope of the chain is that of the step up to the square of the step *)
Lemma aslope_near dt L a : 0 < dt -> Rabs a <= L -> dt * L <= 1 / 2 -> 0 <= aslope dt a - a <= 2 * dt * L ^ 2.
Proof.
  intros Hdt Ha HdL. assert (HL : 0 <= L) by (pose proof (Rabs_pos a); lra). apply Rabs_le_between in Ha.
  assert (U : - (dt * L) <= dt * a <= dt * L).
  { split; [replace (- (dt * L)) with (dt * - L) by ring|]; apply Rmult_le_compat_l; lra. }
  unfold aslope. set (u := dt * a) in *. set (q := sqrt (1 - 2 * u)).
  assert (Q0 : 0 <= q) by apply sqrt_pos. assert (QQ : q * q = 1 - 2 * u) by (apply sqrt_sqrt; lra).
  assert (E : (1 - q) / dt - a = (1 - q) ^ 2 / 2 / dt).
  { replace a with (u / dt) by (unfold u; field; lra). replace u with ((1 - q * q) / 2) by lra. field. lra. }
  rewrite E. split.
  - apply Rmult_le_pos; [pose proof (pow2_ge_0 (1 - q)); lra|left; apply Rinv_0_lt_compat, Hdt].
  - apply Rmult_le_reg_r with dt; [exact Hdt|]. replace ((1 - q) ^ 2 / 2 / dt * dt) with ((1 - q) ^ 2 / 2) by (field; lra).
    assert (V : (1 - q) ^ 2 <= 4 * u ^ 2).
    { replace (4 * u ^ 2) with ((1 - q) ^ 2 * (1 + q) ^ 2); [|replace ((1 - q) ^ 2 * (1 + q) ^ 2) with ((1 - q * q) ^ 2) by ring; rewrite QQ; ring].
      rewrite <- (Rmult_1_r ((1 - q) ^ 2)) at 1. apply Rmult_le_compat_l; [apply pow2_ge_0|nra]. }
    assert (u ^ 2 <= (dt * L) ^ 2) by nra. replace (2 * dt * L ^ 2 * dt) with (2 * (dt * L) ^ 2) by ring. lra.
Qed.

Section Rate.
Context (f : R -> R) (ex : R -> R -> R -> R -> R) (lq : R -> R -> list R) (df : R -> R -> R) (sigma : R).
Context (Hsg : 0 < sigma) (Hql : forall a b, (length (lq a b) <= 7)%nat) (Hqe : forall a b x, mismatch f sigma a b x = peval 0 (lq a b) x).
Context (Hqm : forall a b m s, pmom 0 (lq a b) m s = ex a b m s).
Context (Hsh : forall a a' b m s, ex a' ((a' - a) * m + b) m s = ex a b m s + s / (2 * sigma) * ((a' - a) * (a' + a + 2 * df m s))).
Context (Hpos : forall a b m s, 0 < s -> 0 <= ex a b m s).
Context (T L m0 s0 D B0 : R) (HT : 0 <= T) (HL : 0 <= L) (Hs0 : 0 < s0) (HD0 : 0 <= D).
Notation Mx := ((Rabs m0 + 1) * exp (T * L)).
Notation Sx := ((s0 + sigma) * exp (T * (2 * L + 1))).
Context (HD : forall m s, Rabs m <= Mx -> 0 < s <= Sx -> Rabs (df m s) <= D).
Context (HB : forall a b, Rabs a <= L -> Rabs b <= L -> ex a b m0 s0 <= B0).
Context (n : nat) (dt mu tau r : R) (y : list R) (t : list nat) (a b : nat -> R).
Context (Hdt : 0 < dt) (HdL : dt * L <= 1 / 2) (HnT : INR (n - 1) * dt <= T) (Htau : 0 < tau) (Hr : 0 < r) (Hn : (0 < n)%nat)
  (Ht : List.Forall (fun i => (i < n)%nat) t).
Context (Hab : forall k, (k < n)%nat -> Rabs (a k) <= L /\ Rabs (b k) <= L).
Notation m := (path_m dt a b m0).
Notation s := (path_s dt a sigma s0).
Definition rate_c : R := B0 / 2 + T * Sx * L ^ 2 * (3 * L + 2 * D) / sigma.
Lemma grid_le k : (k < n)%nat -> INR k * dt <= T.
Proof.
  intros Hk. apply Rle_trans with (INR (n - 1) * dt); [|exact HnT]. apply Rmult_le_compat_r; [lra|]. apply le_INR. lia.
Qed.
Lemma m_le k : (k < n)%nat -> Rabs (m k) <= Mx.
Proof.
  intros Hk. pose proof (path_m_bound dt L a b m0 k Hdt HL) as P. specialize (P ltac:(intros j Hj; apply Hab; lia)).
  assert (exp (INR k * (dt * L)) <= exp (T * L)).
  { apply exp_mono. rewrite <- Rmult_assoc. apply Rmult_le_compat_r; [exact HL|apply grid_le, Hk]. }
  assert ((Rabs m0 + 1) * exp (INR k * (dt * L)) <= Mx) by (apply Rmult_le_compat_l; [pose proof (Rabs_pos m0); lra|assumption]). lra.
Qed.
Lemma s_le k : (k < n)%nat -> 0 < s k <= Sx.
Proof.
  intros Hk. destruct (path_s_bound dt L a sigma s0 k Hdt Hsg Hs0 HL HdL) as [P Q]; [intros j Hj; apply Hab; lia|]. split; [exact P|].
  assert (exp (INR k * (dt * (2 * L + 1))) <= exp (T * (2 * L + 1))).
  { apply exp_mono. rewrite <- Rmult_assoc. apply Rmult_le_compat_r; [lra|apply grid_le, Hk]. }
  assert ((s0 + sigma) * exp (INR k * (dt * (2 * L + 1))) <= Sx) by (apply Rmult_le_compat_l; lra). lra.
Qed.
Lemma code_rate Z : evidence f sigma n dt mu tau y t r Z -> 0 < Z /\
  - ln Z <= kl1 m0 s0 mu tau + trap n (fun k => ex (a k) (b k) (m k) (s k)) dt
    + Rsum (length t) (fun j => lterm r (nth j y 0) (m (nth j t O)) (s (nth j t O))) + rate_c * dt.
Proof.
  intros HZ.
  assert (Ha : forall k, (k + 1 < n)%nat -> dt * a k <= 1 / 2).
  { intros k Hk. destruct (Hab k ltac:(lia)) as [H _]. apply Rabs_le_between in H. assert (dt * a k <= dt * L) by (apply Rmult_le_compat_l; lra). lra. }
  destruct (code_bound f ex lq df sigma Hsg Hql Hqe Hqm Hsh n dt mu tau m0 s0 r y t a b Hdt Htau Hs0 Hr Hn Ht Ha Z HZ) as [PZ B].
  split; [exact PZ|]. apply (Rle_trans _ _ _ B).
  assert (SP : 0 < Sx) by (apply Rmult_lt_0_compat; [lra|apply exp_pos]).
  assert (E1 : ex (a O) (b O) (m O) (s O) - ex (a (n - 1)%nat) (b (n - 1)%nat) (m (n - 1)%nat) (s (n - 1)%nat) <= B0).
  { destruct (Hab O Hn) as [H1 H2]. pose proof (HB _ _ H1 H2). cbn [path_m path_s].
    pose proof (Hpos (a (n - 1)%nat) (b (n - 1)%nat) (m (n - 1)%nat) (s (n - 1)%nat) (proj1 (s_le (n - 1)%nat ltac:(lia)))). lra. }
  set (K := Sx * (2 * dt * L ^ 2 * (3 * L + 2 * D))).
  assert (E2 : Rsum (n - 1) (fun k => s k * ((aslope dt (a k) - a k) * (aslope dt (a k) + a k + 2 * df (m k) (s k)))) <= INR (n - 1) * K).
  { rewrite <- Rsum_const. apply Rsum_le. intros k Hk. destruct (Hab k ltac:(lia)) as [H1 _].
    destruct (s_le k ltac:(lia)) as [S1 S2]. pose proof (HD _ _ (m_le k ltac:(lia)) (conj S1 S2)) as D1. apply Rabs_le_between in D1.
    destruct (aslope_near dt L (a k) Hdt H1 HdL) as [A1 A2]. apply Rabs_le_between in H1.
    set (g := aslope dt (a k) - a k) in *. replace (aslope dt (a k) + a k) with (g + 2 * a k) by (unfold g; ring).
    assert (G : g <= L). { apply (Rle_trans _ _ _ A2). replace (2 * dt * L ^ 2) with (2 * (dt * L) * L) by ring. nra. }
    apply Rle_trans with (s k * (g * (3 * L + 2 * D))).
    - apply Rmult_le_compat_l; [lra|]. apply Rmult_le_compat_l; lra.
    - unfold K. apply Rmult_le_compat; try lra; [apply Rmult_le_pos; lra|]. apply Rmult_le_compat_r; lra. }
  assert (E3 : dt / 2 * (ex (a O) (b O) (m O) (s O) - ex (a (n - 1)%nat) (b (n - 1)%nat) (m (n - 1)%nat) (s (n - 1)%nat)) <= dt / 2 * B0)
    by (apply Rmult_le_compat_l; lra).
  assert (H2s : 0 < dt / (2 * sigma)) by (apply Rdiv_lt_0_compat; lra).
  assert (E4 : dt / (2 * sigma) * Rsum (n - 1) (fun k => s k * ((aslope dt (a k) - a k) * (aslope dt (a k) + a k + 2 * df (m k) (s k))))
     <= dt / (2 * sigma) * (INR (n - 1) * K)) by (apply Rmult_le_compat_l; lra).
  assert (KP : 0 <= Sx * L ^ 2 * (3 * L + 2 * D) / sigma * dt).
  { apply Rmult_le_pos; [|lra]. apply Rmult_le_pos; [|left; apply Rinv_0_lt_compat, Hsg]. apply Rmult_le_pos; [|lra].
    apply Rmult_le_pos; [lra|apply pow2_ge_0]. }
  assert (E5 : dt / (2 * sigma) * (INR (n - 1) * K) <= T * Sx * L ^ 2 * (3 * L + 2 * D) / sigma * dt).
  { replace (dt / (2 * sigma) * (INR (n - 1) * K)) with ((INR (n - 1) * dt) * (Sx * L ^ 2 * (3 * L + 2 * D) / sigma * dt)) by (unfold K; field; lra).
    replace (T * Sx * L ^ 2 * (3 * L + 2 * D) / sigma * dt) with (T * (Sx * L ^ 2 * (3 * L + 2 * D) / sigma * dt)) by (field; lra).
    apply Rmult_le_compat_r; assumption. }
  unfold rate_c. rewrite Rmult_plus_distr_r. lra.
Qed.
End Rate.

(** ** the two models *)
Lemma e_ou_pos sigma theta a b m s : 0 < sigma -> 0 <= s -> 0 <= e_ou sigma theta a b m s.
Proof.
  intros Hsg Hs. unfold e_ou. apply Rmult_le_pos; [|left; apply Rinv_0_lt_compat, Hsg]. apply Rmult_le_pos; [lra|].
  unfold ou_q, mom_elt. rnum. change (car RNum) with R in *.
  pose proof (pow2_ge_0 ((theta - a) * m + b)). assert (0 <= (theta - a) ^ 2 * s) by (apply Rmult_le_pos; [apply pow2_ge_0|exact Hs]). nra.
Qed.
Lemma abs_prod a b A B : Rabs a <= A -> Rabs b <= B -> a * b <= A * B.
Proof.
  intros H1 H2. apply (Rle_trans _ _ _ (Rle_abs _)). rewrite Rabs_mult. apply Rmult_le_compat; auto using Rabs_pos.
Qed.
Lemma abs_sq a A : Rabs a <= A -> a ^ 2 <= A ^ 2.
Proof. intros H. rewrite <- (pow2_abs a). apply pow_incr. split; [apply Rabs_pos|exact H]. Qed.
Lemma e_ou_start sigma theta L m s a b : 0 < sigma -> 0 < s -> Rabs a <= L -> Rabs b <= L ->
  e_ou sigma theta a b m s <= ((Rabs theta + L) ^ 2 * (m ^ 2 + s) + 2 * (Rabs theta + L) * L * Rabs m + L ^ 2) / (2 * sigma).
Proof.
  intros Hsg Hs Ha Hb. unfold e_ou. replace (1 / 2 * ou_q (K:=RNum) theta a b m s / sigma) with ((ou_q (K:=RNum) theta a b m s : R) / (2 * sigma)) by (field; lra).
  apply Rmult_le_compat_r; [left; apply Rinv_0_lt_compat; lra|].
  assert (Hc : Rabs (theta - a) <= Rabs theta + L).
  { apply (Rle_trans _ _ _ (Rabs_triang _ _)). rewrite Rabs_Ropp. lra. }
  assert (Hbm : Rabs (b * m) <= L * Rabs m) by (rewrite Rabs_mult; apply Rmult_le_compat_r; [apply Rabs_pos|exact Hb]).
  pose proof (abs_prod _ _ _ _ Hc Hbm). pose proof (abs_sq _ _ Hc). pose proof (abs_sq _ _ Hb).
  assert ((theta - a) ^ 2 * (m ^ 2 + s) <= (Rabs theta + L) ^ 2 * (m ^ 2 + s)) by (apply Rmult_le_compat_r; [pose proof (pow2_ge_0 m); lra|assumption]).
  unfold ou_q, mom_elt. rnum. change (car RNum) with R in *. nra.
Qed.
Lemma e_dw_start sigma theta L m s a b : 0 < sigma -> 0 < s -> Rabs a <= L -> Rabs b <= L ->
  let c := 4 * Rabs theta + L in
  e_dw sigma theta a b m s <= (16 * Rabs (mom_elt (K:=RNum) 6 m s) + 8 * c * Rabs (mom_elt (K:=RNum) 4 m s) + 8 * L * Rabs (mom_elt (K:=RNum) 3 m s)
    + c ^ 2 * Rabs (mom_elt (K:=RNum) 2 m s) + 2 * L * c * Rabs m + L ^ 2) / (2 * sigma).
Proof.
  intros Hsg Hs Ha Hb c. unfold e_dw. replace (1 / 2 * dw_exact theta a b m s / sigma) with (dw_exact theta a b m s / (2 * sigma)) by (field; lra).
  apply Rmult_le_compat_r; [left; apply Rinv_0_lt_compat; lra|].
  assert (Hc : Rabs (4 * theta + a) <= c).
  { apply (Rle_trans _ _ _ (Rabs_triang _ _)). rewrite Rabs_mult, (Rabs_right 4) by lra. unfold c. lra. }
  unfold dw_exact. cbv zeta. set (c' := 4 * theta + a) in *.
  generalize (mom_elt (K:=RNum) 6 m s : R), (mom_elt (K:=RNum) 4 m s : R), (mom_elt (K:=RNum) 3 m s : R), (mom_elt (K:=RNum) 2 m s : R).
  intros q6 q4 q3 q2.
  pose proof (Rle_abs q6). assert (H4 : - (c' * q4) <= c * Rabs q4).
  { replace (- (c' * q4)) with (c' * - q4) by ring. apply abs_prod; [exact Hc|rewrite Rabs_Ropp; apply Rle_refl]. }
  pose proof (abs_prod b q3 L (Rabs q3) Hb (Rle_refl _)).
  assert (H2 : c' ^ 2 * q2 <= c ^ 2 * Rabs q2).
  { apply abs_prod; [|apply Rle_refl]. rewrite <- RPow_abs. apply pow_incr. split; [apply Rabs_pos|exact Hc]. }
  assert (H1 : - (b * c' * m) <= L * c * Rabs m).
  { replace (- (b * c' * m)) with ((b * c') * - m) by ring. apply abs_prod; [|rewrite Rabs_Ropp; apply Rle_refl].
    rewrite Rabs_mult. apply Rmult_le_compat; auto using Rabs_pos. }
  pose proof (abs_sq _ _ Hb). rnum. change (car RNum) with R in *. nra.
Qed.
Lemma dw_trap sigma theta n dt (a b m s : nat -> R) : 0 < sigma ->
  trap n (fun k => e_dw sigma theta (a k) (b k) (m k) (s k)) dt =
  trap n (fun k => e_dwc sigma theta (a k) (b k) (m k) (s k)) dt + trap n (fun k => 4 * (mom_elt (K:=RNum) 6 (m k) (s k) : R) / sigma) dt.
Proof.
  intros Hsg. unfold trap. rewrite <- Rsum_plus. apply Rsum_ext. intros k Hk. unfold e_dw, e_dwc. rewrite !dw_q_exact.
  generalize (mom_elt (K:=RNum) 6 (m k) (s k) : R), (mom_elt (K:=RNum) 6 (m (k + 1)%nat) (s (k + 1)%nat) : R). intros w1 w2. field. lra.
Qed.
