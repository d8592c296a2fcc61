(** * The covariance of RungeKutta2 on varying coefficients: first order, for small steps. *)
From Coq Require Import List Reals Lra Lia Psatz.
From Coquelicot Require Import Coquelicot.
From Verif Require Import Num Arr ArrFacts Spec_Ode Spec_TimeVar M_Ode P_Ode P_OdeRK P_OdeR P_Conv P_TimeVar P_TimeVar2 P_TimeVar3 P_TimeVar4 P_TimeVar5.
Import ListNotations.
Local Open Scope R_scope.

Lemma rk2_body_var dt (A B : list R) sigma k m s : (k + 1 < length A)%nat ->
  snd (fwd_body S1 RK2 dt A B sigma k m s) =
  s + dt * (- 2 * ((nth k A 0 + nth (k + 1) A 0) / 2) * (s + 1/2 * dt * (- 2 * s * s + sigma)) + sigma).
Proof.
  intros Hk. cbn [fwd_body]. unfold rk2_fwd_body. cbn [snd].
  rewrite (ga_mids S1 A) by assumption. unfold ga. cbn.
  unfold half, fun_st_1; rnum. field.
Qed.

Lemma rk2_local e dt a a0 y y1 s sigma A A1 Y M2 r :
  0 < dt -> 0 <= A -> 0 <= A1 -> 0 <= Y -> 0 <= e <= 1 ->
  Rabs (s - y) <= e -> Rabs y <= Y -> Rabs a <= A -> Rabs (a - a0) <= A1 * dt ->
  y1 = y + dt * (- 2 * a0 * y + sigma) + r -> Rabs r <= M2 * dt ^ 2 ->
  Rabs (s + dt * (- 2 * a * (s + 1/2 * dt * (- 2 * s * s + sigma)) + sigma) - y1)
    <= (1 + 2 * A * dt) * e + (2 * A1 * Y + A * (2 * (Y + 1) ^ 2 + Rabs sigma) + M2) * dt ^ 2.
Proof.
  intros Hdt HA HA1 HY He Hs Hy Ha Haa -> Hr.
  assert (Hs1 : Rabs s <= Y + 1).
  { apply Rabs_le_between in Hs. apply Rabs_le_between in Hy. apply Rabs_le_between. lra. }
  replace (s + dt * (- 2 * a * (s + 1/2 * dt * (- 2 * s * s + sigma)) + sigma) - (y + dt * (- 2 * a0 * y + sigma) + r))
    with ((s - y) + (- (2 * dt * (a * (s - y)))) + (- (2 * dt * ((a - a0) * y))) + (- (dt ^ 2 * (a * (- 2 * (s * s) + sigma)))) + - r) by field.
  assert (B1 : Rabs (2 * dt * (a * (s - y))) <= 2 * dt * (A * e)).
  { rewrite Rabs_mult, (Rabs_pos_eq (2 * dt)) by lra. apply Rmult_le_compat_l; [lra|]. rewrite Rabs_mult.
    apply Rmult_le_compat; auto using Rabs_pos. }
  assert (B2 : Rabs (2 * dt * ((a - a0) * y)) <= 2 * dt * (A1 * dt * Y)).
  { rewrite Rabs_mult, (Rabs_pos_eq (2 * dt)) by lra. apply Rmult_le_compat_l; [lra|]. rewrite Rabs_mult.
    apply Rmult_le_compat; auto using Rabs_pos. }
  assert (B3 : Rabs (dt ^ 2 * (a * (- 2 * (s * s) + sigma))) <= dt ^ 2 * (A * (2 * (Y + 1) ^ 2 + Rabs sigma))).
  { rewrite Rabs_mult, (Rabs_pos_eq (dt ^ 2)) by apply pow2_ge_0. apply Rmult_le_compat_l; [apply pow2_ge_0|]. rewrite Rabs_mult.
    apply Rmult_le_compat; auto using Rabs_pos. eapply Rle_trans; [apply Rabs_triang|]. apply Rplus_le_compat_r.
    replace (-2 * (s * s)) with (- (2 * (s * s))) by ring. rewrite Rabs_Ropp, Rabs_mult, (Rabs_pos_eq 2) by lra. apply Rmult_le_compat_l; [lra|]. rewrite Rabs_mult.
    replace ((Y + 1) ^ 2) with ((Y + 1) * (Y + 1)) by ring. apply Rmult_le_compat; auto using Rabs_pos. }
  eapply Rle_trans; [apply Rabs_triang|]. eapply Rle_trans; [apply Rplus_le_compat_r, Rabs_triang|].
  eapply Rle_trans; [apply Rplus_le_compat_r, Rplus_le_compat_r, Rabs_triang|].
  eapply Rle_trans; [apply Rplus_le_compat_r, Rplus_le_compat_r, Rplus_le_compat_r, Rabs_triang|].
  rewrite !Rabs_Ropp. lra.
Qed.

Theorem rk2_cov_first T (a s : R -> R) sigma : 0 <= T ->
  smooth 2 T a ->
  (forall t, 0 <= t <= T -> is_derive s t (cov_rhs1 (a t) sigma (s t))) ->
  exists K dt0, 0 < dt0 /\ forall dt n (b : R -> R) (m0 s0 : R) (mt st : list R),
    0 < dt < dt0 -> INR n * dt <= T -> s0 = s 0 ->
    solve_fwd S1 RK2 dt (grid dt (n + 1) a) (grid dt (n + 1) b) m0 s0 sigma = Ok (mt, st) ->
    forall k, (k <= n)%nat -> Rabs (nth k st 0 - s (INR k * dt)) <= K * dt.
Proof.
  intros HT Ha Hs.
  set (cf := fun (_ : unit) (_ : nat) t => - 2 * a t).
  assert (Hy : forall (i : unit) t, True -> 0 <= t <= T -> is_derive (fun u => s u) t (y1 (V := sV) (fun _ (u : R) => u) 1 cf (fun i _ => i) (fun _ _ => sigma) s i t)).
  { intros i t _ Ht. specialize (Hs t Ht). unfold y1, cf. cbn. unfold cov_rhs1 in Hs.
    replace (0 + - 2 * a t * s t + sigma) with (- 2 * a t * s t + sigma) by ring. exact Hs. }
  pose proof (y1_smooth (V := sV) (fun _ : unit => True) (fun _ (u : R) => u) T 1 cf (fun i _ => i) (fun _ _ => sigma) s HT
     (fun _ _ _ _ => Logic.I) (fun _ _ _ _ => smooth_mult 2 T _ _ (smooth_const 2 T (-2)) Ha) (fun _ _ => smooth_const 2 T sigma) Hy tt Logic.I) as Hsm.
  destruct Hsm as [_ (f2 & D2 & (M2 & HM2) & _)].
  destruct Ha as [(A & HA) (a1 & Da & (A1 & HA1) & _)].
  destruct (derive_bdd T s _ HT Hs) as (Y & HY).
  assert (A0 : 0 <= A) by (eapply Rle_trans; [apply Rabs_pos|apply (HA 0); lra]).
  assert (A10 : 0 <= A1) by (eapply Rle_trans; [apply Rabs_pos|apply (HA1 0); lra]).
  assert (Y0 : 0 <= Y) by (eapply Rle_trans; [apply Rabs_pos|apply (HY 0); lra]).
  assert (M20 : 0 <= M2) by (eapply Rle_trans; [apply Rabs_pos|apply (HM2 0); lra]).
  set (C := 2 * A1 * Y + A * (2 * (Y + 1) ^ 2 + Rabs sigma) + M2).
  assert (C0 : 0 <= C).
  { unfold C. pose proof (Rabs_pos sigma). pose proof (pow2_ge_0 (Y + 1)).
    assert (0 <= 2 * A1 * Y) by (apply Rmult_le_pos; lra).
    assert (0 <= A * (2 * (Y + 1) ^ 2 + Rabs sigma)) by (apply Rmult_le_pos; lra). lra. }
  set (K := T * exp (T * (2 * A)) * C).
  assert (K0 : 0 <= K).
  { unfold K. apply Rmult_le_pos; auto. apply Rmult_le_pos; auto. left; apply exp_pos. }
  exists K, (/ (K + 1)). split; [apply Rinv_0_lt_compat; lra|].
  intros dt n b m0 s0 mt st Hdt Hn H0 Hr.
  assert (HK1 : K * dt <= 1).
  { assert ((K + 1) * dt < (K + 1) * / (K + 1)) by (apply Rmult_lt_compat_l; lra). rewrite Rinv_r in H by lra. lra. }
  set (g := 1 + 2 * A * dt).
  assert (g1 : 1 <= g) by (unfold g; assert (0 <= 2 * A * dt) by (apply Rmult_le_pos; lra); lra).
  assert (Hg : forall k, (k <= n)%nat -> INR k * g ^ k * (C * dt ^ 2) <= K * dt).
  { intros k Hk. assert (Hkt : 0 <= INR k * dt <= T).
    { split; [apply Rmult_le_pos; [apply pos_INR|lra]|]. eapply Rle_trans; [|exact Hn]. apply Rmult_le_compat_r; [lra|]. apply le_INR; auto. }
    assert (G : g ^ k <= exp (T * (2 * A))).
    { apply Rle_trans with (exp (2 * A * dt) ^ k).
      - apply pow_incr. split; [lra|]. unfold g. apply exp_ineq1_le.
      - rewrite exp_pow. destruct (Req_dec (INR k * (2 * A * dt)) (T * (2 * A))) as [-> | Hne]; [lra|].
        assert (INR k * dt * (2 * A) <= T * (2 * A)) by (apply Rmult_le_compat_r; lra).
        left. apply exp_increasing. lra. }
    unfold K. replace (INR k * g ^ k * (C * dt ^ 2)) with ((INR k * dt * g ^ k) * (C * dt)) by ring.
    replace (T * exp (T * (2 * A)) * C * dt) with ((T * exp (T * (2 * A))) * (C * dt)) by ring.
    apply Rmult_le_compat_r; [apply Rmult_le_pos; lra|]. apply Rmult_le_compat; try lra. apply pow_le; lra. }
  assert (Main : forall k, (k <= n)%nat -> Rabs (nth k st 0 - s (INR k * dt)) <= INR k * g ^ k * (C * dt ^ 2)).
  { induction k; intros Hk.
    - pose proof (solve_fwd_shape _ _ _ _ _ _ _ _ _ _ Hr) as (_ & _ & _ & E).
      assert (E' : nth 0 st 0 = s0) by exact (nth_error_nth st 0 0 E). rewrite E', H0. cbn.
      replace (0 * dt) with 0 by ring. rewrite Rminus_diag_eq by reflexivity. rewrite Rabs_R0. lra.
    - specialize (IHk ltac:(lia)). pose proof (Hg k ltac:(lia)) as Gk.
      set (e := INR k * g ^ k * (C * dt ^ 2)) in *.
      assert (e0 : 0 <= e).
      { eapply Rle_trans; [apply Rabs_pos|exact IHk]. }
      pose proof (solve_fwd_step _ _ _ _ _ _ _ _ _ _ k Hr ltac:(rewrite grid_len; lia)) as Q.
      apply (f_equal snd) in Q. cbn [snd] in Q.
      rewrite rk2_body_var in Q by (rewrite grid_len; lia).
      assert (Q' : nth (S k) st 0 = nth k st 0 + dt * (- 2 * ((a (INR k * dt) + a (INR k * dt + dt)) / 2) * (nth k st 0 + 1/2 * dt * (- 2 * nth k st 0 * nth k st 0 + sigma)) + sigma)).
      { rewrite !grid_nth in Q by lia. rewrite INR_next in Q. rewrite <- Nat.add_1_r. exact Q. }
      rewrite Q'. clear Q Q'.
      assert (Hk1 : INR k * dt + dt <= T).
      { rewrite <- INR_next. eapply Rle_trans; [|exact Hn]. apply Rmult_le_compat_r; [lra|]. apply le_INR; lia. }
      assert (Hk0 : 0 <= INR k * dt) by (apply Rmult_le_pos; [apply pos_INR|lra]).
      set (t := INR k * dt) in *. replace (INR (S k) * dt) with (t + dt) by (rewrite S_INR; unfold t; ring).
      set (r := s (t + dt) - s t - dt * (- 2 * a t * s t + sigma)).
      assert (Hrr : Rabs r <= M2 * dt ^ 2).
      { pose proof (taylor2 s (fun u => cov_rhs1 (a u) sigma (s u)) f2 t (t + dt) M2 ltac:(lra)) as TT.
        replace (t + dt - t) with dt in TT by ring.
        assert (Z : Rabs r <= M2 * dt ^ 2 / 2).
        { apply TT.
          - intros u Hu. apply Hs; lra.
          - intros u Hu. apply (is_derive_ext (y1 (V := sV) (fun _ (u : R) => u) 1 cf (fun i _ => i) (fun _ _ => sigma) s tt)).
            + intros v. unfold y1, cf, cov_rhs1. cbn. ring.
            + apply D2; lra.
          - intros u Hu. apply HM2; lra. }
        assert (0 <= M2 * dt ^ 2) by (apply Rmult_le_pos; auto; apply pow2_ge_0). lra. }
      eapply Rle_trans; [apply (rk2_local e dt _ (a t) (s t) (s (t + dt)) (nth k st 0) sigma A A1 Y M2 r); auto; try lra|].
      + apply HY; lra.
      + pose proof (HA t ltac:(lra)) as B1. pose proof (HA (t + dt) ltac:(lra)) as B2.
        apply Rabs_le_between in B1. apply Rabs_le_between in B2. apply Rabs_le_between. lra.
      + pose proof (taylor1 a a1 t (t + dt) A1 ltac:(lra)) as TT. replace (t + dt - t) with dt in TT by ring.
        assert (Z : Rabs (a (t + dt) - a t) <= A1 * dt) by (apply TT; intros u Hu; [apply Da|apply HA1]; lra).
        assert (0 <= A1 * dt) by (apply Rmult_le_pos; lra).
        apply Rabs_le_between in Z. apply Rabs_le_between. lra.
      + unfold r. ring.
      + fold C g. unfold e. rewrite S_INR. cbn [pow].
        assert (GG : 1 <= g * g ^ k) by (pose proof (pow_R1_Rle g (S k) g1) as Z; exact Z).
        assert (0 <= C * dt ^ 2) by (apply Rmult_le_pos; auto; apply pow2_ge_0).
        assert (1 * (C * dt ^ 2) <= g * g ^ k * (C * dt ^ 2)) by (apply Rmult_le_compat_r; auto).
        replace (dt * (dt * 1)) with (dt ^ 2) by ring. lra. }
  intros k Hk. eapply Rle_trans; [apply Main; auto|]. apply Hg; auto.
Qed.
