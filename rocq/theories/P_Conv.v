(** * Convergence of the solvers for constant coefficients (1-D, exact arithmetic). *)
From Coq Require Import ZArith Bool Lia Reals Lra Psatz FunctionalExtensionality.
From Coq Require Import List.
From Coquelicot Require Import Coquelicot.
From Verif Require Import Num Arr ArrFacts M_Ode Spec_Ode P_Ode P_OdeRK P_OdeR.
Import ListNotations.
Local Open Scope R_scope.

(** Taylor polynomial of exp of degree p at z *)
Definition texp (p : nat) (z : R) : R := sum_f_R0 (fun i => z ^ i / INR (fact i)) p.

Definition order (m : method) : nat :=
  match m with Euler => 1 | Heun => 2 | RK2 => 2 | RK4 => 4 end.

Lemma derive_n_expz z n t : is_derive_n (fun u => exp (z * u)) n t (z ^ n * exp (z * t)).
Proof.
  revert t. induction n as [|n IH]; intros t; [cbn; ring|].
  cbn [is_derive_n].
  apply (is_derive_ext (fun u => z ^ n * exp (z * u))).
  { intros u. symmetry. apply is_derive_n_unique, IH. }
  auto_derive; [trivial|]. cbn. ring.
Qed.

Lemma texp_remainder p z :
  Rabs (exp z - texp p z) <= Rabs z ^ (S p) / INR (fact (S p)) * exp (Rabs z).
Proof.
  destruct (Taylor_Lagrange (fun u => exp (z * u)) p 0 1) as (zeta & Hz & E).
  - lra.
  - intros t _ k _. destruct k; [exact I|].
    cbn. eexists. exact (derive_n_expz z (S k) t).
  - rewrite Rmult_1_r in E. rewrite E. unfold texp.
    rewrite (sum_eq _ (fun i => z ^ i / INR (fact i))).
    2:{ intros i _. rewrite (is_derive_n_unique _ _ _ _ (derive_n_expz z i 0)).
        rewrite Rmult_0_r, exp_0, Rminus_0_r, pow1. unfold Rdiv. ring. }
    replace (_ + _ - _) with ((1 - 0) ^ S p / INR (fact (S p)) * Derive_n (fun u => exp (z * u)) (S p) zeta) by ring.
    rewrite (is_derive_n_unique _ _ _ _ (derive_n_expz z (S p) zeta)).
    rewrite Rminus_0_r, pow1. rewrite !Rabs_mult, RPow_abs.
    replace (1 / INR (fact (S p))) with (/ INR (fact (S p))) by (unfold Rdiv; ring).
    assert (Hf : 0 < / INR (fact (S p))) by (apply Rinv_0_lt_compat, INR_fact_lt_0).
    rewrite (Rabs_pos_eq (/ _)) by lra.
    rewrite (Rabs_pos_eq (exp _)) by (left; apply exp_pos).
    unfold Rdiv. rewrite <- !Rmult_assoc.
    rewrite (Rmult_comm (/ INR (fact (S p)))).
    apply Rmult_le_compat_l.
    + apply Rmult_le_pos; [apply Rabs_pos|lra].
    + assert (HH : z * zeta <= Rabs z).
      { apply Rle_trans with (Rabs z * zeta); [|pose proof (Rabs_pos z); nra].
        pose proof (Rle_abs z). nra. }
      destruct HH as [HH|HH]; [left; now apply exp_increasing|rewrite HH; lra].
Qed.

Lemma texp_abs p z : Rabs (texp p z) <= exp (Rabs z).
Proof.
  apply Rle_trans with (texp p (Rabs z)).
  - unfold texp. eapply Rle_trans; [apply sum_f_R0_triangle|].
    right. apply sum_eq. intros i _. unfold Rdiv. rewrite Rabs_mult, RPow_abs.
    rewrite (Rabs_pos_eq (/ _)); [reflexivity|].
    left; apply Rinv_0_lt_compat, INR_fact_lt_0.
  - destruct (Req_dec z 0) as [->|Hz].
    + rewrite Rabs_R0, exp_0. right. unfold texp.
      induction p as [|p IH]; [cbn; lra|]. rewrite tech5, IH.
      rewrite pow_i by lia. unfold Rdiv; ring.
    + destruct (Taylor_Lagrange (fun u => exp (Rabs z * u)) p 0 1) as (zeta & Hz' & E).
      * lra.
      * intros t _ k _. destruct k; [exact I|].
        cbn. eexists. exact (derive_n_expz (Rabs z) (S k) t).
      * rewrite Rmult_1_r in E. rewrite E. unfold texp.
        rewrite (sum_eq (fun m => (1 - 0) ^ m / _ * _) (fun i => Rabs z ^ i / INR (fact i))).
        2:{ intros i _. rewrite (is_derive_n_unique _ _ _ _ (derive_n_expz (Rabs z) i 0)).
            rewrite Rmult_0_r, exp_0, Rminus_0_r, pow1. unfold Rdiv. ring. }
        rewrite (is_derive_n_unique _ _ _ _ (derive_n_expz (Rabs z) (S p) zeta)).
        rewrite Rminus_0_r, pow1.
        assert (0 <= 1 / INR (fact (S p)) * (Rabs z ^ S p * exp (Rabs z * zeta))).
        { apply Rmult_le_pos.
          - unfold Rdiv. rewrite Rmult_1_l. left; apply Rinv_0_lt_compat, INR_fact_lt_0.
          - apply Rmult_le_pos; [apply pow_le, Rabs_pos|left; apply exp_pos]. }
        lra.
Qed.

Lemma pow_diff_bound x y B k :
  Rabs x <= B -> Rabs y <= B -> Rabs (x ^ (S k) - y ^ (S k)) <= INR (S k) * B ^ k * Rabs (x - y).
Proof.
  intros Hx Hy. assert (HB : 0 <= B) by (eapply Rle_trans; [apply Rabs_pos|exact Hx]).
  induction k as [|k IH].
  - cbn. rewrite !Rmult_1_r, Rmult_1_l. lra.
  - replace (x ^ S (S k) - y ^ S (S k)) with (x * (x ^ S k - y ^ S k) + (x - y) * y ^ S k)
      by (cbn; ring).
    eapply Rle_trans; [apply Rabs_triang|]. rewrite !Rabs_mult.
    assert (Hyk : Rabs (y ^ S k) <= B ^ S k).
    { rewrite <- RPow_abs. apply pow_incr. split; [apply Rabs_pos|exact Hy]. }
    rewrite (S_INR (S k)).
    replace ((INR (S k) + 1) * B ^ S k * Rabs (x - y))
      with (B * (INR (S k) * B ^ k * Rabs (x - y)) + Rabs (x - y) * B ^ S k) by (cbn [pow]; ring).
    apply Rplus_le_compat.
    + apply Rmult_le_compat; [apply Rabs_pos|apply Rabs_pos|assumption|assumption].
    + apply Rmult_le_compat_l; [apply Rabs_pos|assumption].
Qed.

Lemma exp_pow z k : exp z ^ k = exp (INR k * z).
Proof.
  induction k as [|k IH]; [cbn; now rewrite Rmult_0_l, exp_0|].
  rewrite S_INR. cbn [pow]. rewrite IH, <- exp_plus. f_equal. ring.
Qed.

(** the global error of replacing exp by its Taylor polynomial, k steps *)
Lemma global_error p z k :
  Rabs (texp p z ^ k - exp (INR k * z)) <=
  INR k * (Rabs z ^ (S p) / INR (fact (S p))) * exp (INR k * Rabs z).
Proof.
  destruct k as [|k].
  - cbn. rewrite !Rmult_0_l, exp_0. replace (1 - 1) with 0 by ring. rewrite Rabs_R0. lra.
  - rewrite <- exp_pow.
    eapply Rle_trans; [apply (pow_diff_bound _ _ (exp (Rabs z)))|].
    + apply texp_abs.
    + rewrite Rabs_pos_eq by (left; apply exp_pos).
      destruct (Rle_abs z) as [H|H]; [left; now apply exp_increasing|rewrite <- H; lra].
    + rewrite Rabs_minus_sym.
      rewrite <- exp_pow. change (exp (Rabs z) ^ S k) with (exp (Rabs z) * exp (Rabs z) ^ k).
      replace (INR (S k) * (Rabs z ^ S p / INR (fact (S p))) * (exp (Rabs z) * exp (Rabs z) ^ k))
        with (INR (S k) * exp (Rabs z) ^ k * (Rabs z ^ S p / INR (fact (S p)) * exp (Rabs z)))
        by ring.
      apply Rmult_le_compat_l.
      * apply Rmult_le_pos; [apply pos_INR|apply pow_le; left; apply exp_pos].
      * apply texp_remainder.
Qed.

(** ** The exact solution *)
Lemma ode_unique (m : R -> R) a b m0 :
  a <> 0 -> m 0 = m0 -> (forall t, is_derive m t (- a * m t + b)) ->
  forall t, m t = b / a + exp (- a * t) * (m0 - b / a).
Proof.
  intros Ha H0 Hd t.
  set (g := fun u => (m u - b / a) * exp (a * u)).
  assert (Hg : forall u, is_derive g u 0).
  { intros u. unfold g.
    evar_last.
    - apply (is_derive_mult (fun u => m u - b / a) (fun u => exp (a * u)) u (- a * m u + b) (a * exp (a * u))).
      + evar_last. apply (is_derive_minus m (fun _ => b/a) u (- a * m u + b) 0).
        * apply Hd.
        * auto_derive; trivial.
        * unfold minus, plus, opp; cbn. ring.
      + auto_derive; [trivial|ring].
      + intros; apply Rmult_comm.
    - unfold plus, mult; cbn. field. exact Ha. }
  assert (Hc : g t = g 0).
  { destruct (MVT_gen g 0 t (fun _ => 0)) as (c & _ & E).
    - intros x _. apply Hg.
    - intros x _. apply continuity_pt_filterlim. 
      apply (ex_derive_continuous g x). eexists; apply Hg.
    - lra. }
  unfold g in Hc. rewrite Rmult_0_r, exp_0, H0 in Hc.
  replace (- a * t) with (- (a * t)) by ring. rewrite exp_Ropp.
  assert (He : exp (a * t) <> 0) by (apply Rgt_not_eq, exp_pos).
  replace (m0 - b / a) with ((m t - b / a) * exp (a * t)) by lra.
  set (q := b / a). field. exact He.
Qed.

Lemma ode_solution a b m0 :
  a <> 0 ->
  let m := fun t => b / a + exp (- a * t) * (m0 - b / a) in
  m 0 = m0 /\ forall t, is_derive m t (- a * m t + b).
Proof.
  intros Ha m. split.
  - unfold m. rewrite Rmult_0_r, exp_0. ring.
  - intros t. unfold m. auto_derive; [trivial|]. field. exact Ha.
Qed.

(** ** One step with constant coefficients *)
Definition constl (c : R) (l : list R) : Prop := forall x, In x l -> x = c.

Lemma constl_nth c l k : constl c l -> (k < length l)%nat -> nth k l 0 = c.
Proof. intros H Hk. apply H, nth_In, Hk. Qed.

Lemma texp_poly : forall z,
  texp 1 z = 1 + z /\ texp 2 z = 1 + z + z^2/2 /\
  texp 4 z = 1 + z + z^2/2 + z^3/6 + z^4/24.
Proof. intros z. unfold texp. cbn. repeat split; field. Qed.

(** rk_step on y' = -r y + c *)
Lemma rk_lin_step mtd r c h y :
  r <> 0 ->
  rk_step (V := sV) (tab_of mtd) (fun _ u => - r * u + c) h y =
  c / r + texp (order mtd) (- r * h) * (y - c / r).
Proof.
  intros Hr. destruct (texp_poly (- r * h)) as (E1 & E2 & E4).
  destruct mtd; cbn [tab_of order]; rewrite ?E1, ?E2, ?E4;
    unfold rk_step; cbn; field; assumption.
Qed.

Lemma mean_step_const mtd dt a b (A B : list R) m0 s0 sigma mt st k :
  a <> 0 -> constl a A -> constl b B -> length A = length B ->
  solve_fwd S1 mtd dt A B m0 s0 sigma = Ok (mt, st) ->
  (k < length B)%nat ->
  nth k mt 0 = b / a + texp (order mtd) (- a * dt) ^ k * (m0 - b / a).
Proof.
  intros Ha HA HB HL H. induction k as [|k IH]; intros Hk.
  - destruct (solve_fwd_ok _ _ _ _ _ _ _ _ _ _ H) as (_ & _ & _ & C).
    specialize (C 0%nat Hk). cbn in C. injection C as C _.
    unfold gm in C. cbn in C. cbn. rewrite C. nlen. ring.
  - specialize (IH ltac:(lia)).
    pose proof (fwd_mean_1 mtd dt A B m0 s0 sigma mt st k H HL ltac:(nlen; lia)) as Q.
    replace (S k) with (k + 1)%nat at 1 by lia. rewrite Q.
    rewrite (rk_step_ext (V:=sV) (tab_of mtd) _ (fun _ u => - a * u + b)).
    2:{ intros th u. nlen.
        rewrite (constl_nth a A k), (constl_nth a A (k+1)), (constl_nth b B k), (constl_nth b B (k+1))
          by (try assumption; lia).
        unfold mean_rhs1, interp; cbn. ring. }
    rewrite rk_lin_step by assumption.
    match goal with |- _ + _ * (?x - _) = _ => change x with (nth k mt 0) end.
    rewrite IH. cbn [pow]. nlen. ring.
Qed.

Lemma cov_step_const mtd dt a b (A B : list R) m0 s0 sigma mt st k :
  mtd <> RK2 -> a <> 0 -> constl a A -> constl b B -> length A = length B ->
  solve_fwd S1 mtd dt A B m0 s0 sigma = Ok (mt, st) ->
  (k < length B)%nat ->
  nth k st 0 = sigma / (2 * a) + texp (order mtd) (- (2 * a) * dt) ^ k * (s0 - sigma / (2 * a)).
Proof.
  intros Hm Ha HA HB HL H. induction k as [|k IH]; intros Hk.
  - destruct (solve_fwd_ok _ _ _ _ _ _ _ _ _ _ H) as (_ & _ & _ & C).
    specialize (C 0%nat Hk). cbn in C. injection C as _ C.
    unfold ga in C. cbn in C. cbn. rewrite C. nlen. ring.
  - specialize (IH ltac:(lia)).
    pose proof (fwd_cov_1 mtd dt A B m0 s0 sigma mt st k Hm H HL ltac:(nlen; lia)) as Q.
    replace (S k) with (k + 1)%nat at 1 by lia. rewrite Q.
    rewrite (rk_step_ext (V:=sV) (tab_of mtd) _ (fun _ u => - (2 * a) * u + sigma)).
    2:{ intros th u. nlen.
        rewrite (constl_nth a A k), (constl_nth a A (k+1)) by (try assumption; lia).
        unfold cov_rhs1, interp; cbn. ring. }
    rewrite rk_lin_step by lra.
    match goal with |- _ + _ * (?x - _) = _ => change x with (nth k st 0) end.
    rewrite IH. cbn [pow]. nlen. ring.
Qed.

(** error constant for rate r, distance d0 to the fixed point, final time T *)
Definition err_const (p : nat) (r d0 T : R) : R :=
  Rabs d0 * T * Rabs r ^ (S p) / INR (fact (S p)) * exp (Rabs r * T).

Lemma conv_bound p r c y0 dt k (y : R -> R) :
  r <> 0 -> 0 < dt ->
  y 0 = y0 -> (forall t, is_derive y t (- r * y t + c)) ->
  Rabs (c / r + texp p (- r * dt) ^ k * (y0 - c / r) - y (INR k * dt)) <=
  err_const p r (y0 - c / r) (INR k * dt) * dt ^ p.
Proof.
  intros Hr Hdt H0 Hd. rewrite (ode_unique y r c y0 Hr H0 Hd).
  replace (c / r + texp p (- r * dt) ^ k * (y0 - c / r) -
           (c / r + exp (- r * (INR k * dt)) * (y0 - c / r)))
    with ((y0 - c / r) * (texp p (- r * dt) ^ k - exp (INR k * (- r * dt)))).
  2:{ replace (- r * (INR k * dt)) with (INR k * (- r * dt)) by ring. ring. }
  rewrite Rabs_mult.
  assert (Hz : Rabs (- r * dt) = Rabs r * dt).
  { rewrite Rabs_mult, Rabs_Ropp, (Rabs_pos_eq dt) by lra. reflexivity. }
  unfold err_const. unfold Rdiv.
  replace (Rabs (y0 - c * / r) * (INR k * dt) * Rabs r ^ S p * / INR (fact (S p)) *
           exp (Rabs r * (INR k * dt)) * dt ^ p)
    with (Rabs (y0 - c * / r) * (INR k * ((Rabs r * dt) ^ S p / INR (fact (S p))) *
           exp (INR k * (Rabs r * dt)))).
  2:{ rewrite Rpow_mult_distr. replace (INR k * (Rabs r * dt)) with (Rabs r * (INR k * dt)) by ring.
      cbn [pow]. unfold Rdiv. ring. }
  apply Rmult_le_compat_l; [apply Rabs_pos|].
  rewrite <- Hz. apply global_error.
Qed.

(** ** RK2's variance is only first-order accurate *)
(* the code's step with a = 1/2, sigma = 1 (fixed point 1) *)
Lemma rk2_code_step dt s :
  snd (fwd_body S1 RK2 dt [1/2; 1/2] [0; 0] 1 0 0 s) =
  s + dt * (- (s + 1/2 * dt * (- (2 * s * s) + 1)) + 1).
Proof. cbn. unfold half, fun_st_1; rnum. field. Qed.

Lemma rk2_body_const dt (A B : list R) k m s :
  constl (1/2) A -> (k + 1 < length A)%nat ->
  snd (fwd_body S1 RK2 dt A B 1 k m s) = s + dt * (- (s + 1/2 * dt * (- (2 * s * s) + 1)) + 1).
Proof.
  intros HA Hk. cbn [fwd_body]. unfold rk2_fwd_body. cbn [snd].
  rewrite (ga_mids S1 A) by assumption. unfold ga. cbn.
  rewrite (constl_nth (1/2) A k), (constl_nth (1/2) A (k+1)) by (try assumption; lia).
  unfold half, fun_st_1; rnum. field.
Qed.

Lemma rk2_drift (dt : R) (A B : list R) m0 mt st k :
  0 < dt <= 1 -> constl (1/2) A -> length A = length B ->
  solve_fwd S1 RK2 dt A B m0 1 1 = Ok (mt, st) ->
  (k < length B)%nat ->
  dt / 2 * (1 - (1 - dt) ^ k) <= nth k st 0 - 1.
Proof.
  intros Hdt HA HL H. induction k as [|k IH]; intros Hk.
  - destruct (solve_fwd_ok _ _ _ _ _ _ _ _ _ _ H) as (_ & _ & _ & C).
    specialize (C 0%nat Hk). cbn in C. injection C as _ C.
    unfold ga in C. cbn in C. cbn. rewrite C. nlen. lra.
  - specialize (IH ltac:(lia)).
    pose proof (solve_fwd_step _ _ _ _ _ _ _ _ _ _ k H ltac:(nlen; lia)) as Q.
    apply (f_equal snd) in Q. cbn [snd] in Q.
    rewrite rk2_body_const in Q by (try assumption; nlen; lia).
    replace (S k) with (k + 1)%nat at 2 by lia.
    change (nth (k+1) st 0) with (ga S1 st (k+1)). rewrite Q.
    change (ga S1 st k) with (nth k st 0). nlen. set (s := nth k st 0 : R) in *.
    set (e := s - 1). assert (Es : s = 1 + e) by (unfold e; ring).
    assert (Hp : 0 <= (1 - dt) ^ k) by (apply pow_le; lra).
    assert (Hp1 : (1 - dt) ^ k <= 1).
    { apply Rle_trans with (1 ^ k); [apply pow_incr; lra|rewrite pow1; lra]. }
    assert (He : 0 <= e).
    { unfold e. eapply Rle_trans; [|exact IH]. apply Rmult_le_pos; lra. }
    change (s - 1) with e in IH.
    rewrite Es.
    replace (1 + e + dt * (- (1 + e + 1/2 * dt * (- (2 * (1 + e) * (1 + e)) + 1)) + 1) - 1)
      with (e * (1 - dt) + dt * dt / 2 * (1 + 4 * e + 2 * (e * e))) by field.
    cbn [pow]. set (q := (1 - dt) ^ k) in *.
    assert (0 <= e * e) by nra. assert (0 <= dt * dt) by nra.
    assert (dt * dt / 2 <= dt * dt / 2 * (1 + 4 * e + 2 * (e * e))) by nra.
    assert (dt / 2 * (1 - q) * (1 - dt) <= e * (1 - dt)) by (apply Rmult_le_compat_r; lra).
    nra.
Qed.

Lemma one_minus_pow_exp dt k : 0 <= dt <= 1 -> (1 - dt) ^ k <= exp (- (INR k * dt)).
Proof.
  intros H. replace (- (INR k * dt)) with (INR k * (- dt)) by ring. rewrite <- exp_pow.
  apply pow_incr. split; [lra|]. pose proof (exp_ineq1_le (- dt)). lra.
Qed.

Lemma constl_repeat c n : constl c (repeat c n).
Proof. intros x H. now apply repeat_spec in H. Qed.

(** no constant C bounds the error by C dt^2 at final time 1 *)
Lemma rk2_not_second_order :
  forall C : R, exists (n : nat) mt st,
    let dt := / INR n in
    (0 < n)%nat /\
    solve_fwd S1 RK2 dt (repeat (1/2) (n+1)) (repeat 0 (n+1)) 0 1 1 = Ok (mt, st) /\
    (* the exact variance is constant, equal to 1 *)
    C * dt ^ 2 < Rabs (nth n st 0 - 1).
Proof.
  intros C.
  set (g := (1 - exp (- 1)) / 2).
  assert (Hg : 0 < g).
  { unfold g. assert (exp (-1) < 1) by (rewrite <- exp_0; apply exp_increasing; lra). lra. }
  assert (Hex : exists n : nat, Rmax 1 (C / g) < INR n).
  { exists (Z.to_nat (up (Rmax 1 (C / g)))). destruct (archimed (Rmax 1 (C / g))) as [Hu _].
    rewrite INR_IZR_INZ, Z2Nat.id; [lra|].
    apply le_IZR. pose proof (Rmax_l 1 (C / g)). lra. }
  destruct Hex as [n Hn].
  assert (H1 : 1 < INR n) by (eapply Rle_lt_trans; [apply Rmax_l|exact Hn]).
  assert (H2 : C / g < INR n) by (eapply Rle_lt_trans; [apply Rmax_r|exact Hn]).
  assert (Hn0 : (0 < n)%nat) by (apply INR_lt; cbn; lra).
  destruct (solve_fwd_total S1 RK2 (/ INR n) (repeat (1/2) (n+1)) (repeat 0 (n+1)) 0 1 1)
    as (mt & st & H).
  { nlen. rewrite !repeat_length. lia. }
  { nlen. rewrite !repeat_length. lia. }
  exists n, mt, st. cbv zeta. repeat split; [assumption|exact H|].
  assert (Hdt : 0 < / INR n <= 1).
  { split; [apply Rinv_0_lt_compat; lra|]. rewrite <- Rinv_1. apply Rinv_le_contravar; lra. }
  pose proof (rk2_drift (/ INR n) (repeat (1/2) (n+1)) (repeat 0 (n+1)) 0 mt st n Hdt (constl_repeat (1/2) (n+1))) as Q.
  rewrite !repeat_length in Q. specialize (Q eq_refl H ltac:(lia)).
  pose proof (one_minus_pow_exp (/ INR n) n ltac:(lra)) as P.
  rewrite Rinv_r in P by lra. replace (- (1)) with (-1) in P by lra.
  assert (Q2 : / INR n * g <= nth n st 0 - 1).
  { eapply Rle_trans; [|exact Q]. unfold g.
    replace (/ INR n * ((1 - exp (-1)) / 2)) with (/ INR n / 2 * (1 - exp (-1))) by (field; lra).
    apply Rmult_le_compat_l; lra. }
  eapply Rlt_le_trans; [|apply Rle_abs]. eapply Rlt_le_trans; [|exact Q2].
  assert (HC : C < g * INR n).
  { apply (Rmult_lt_compat_r g) in H2; [|assumption]. unfold Rdiv in H2.
    rewrite Rmult_assoc, Rinv_l, Rmult_1_r in H2 by lra. lra. }
  replace (C * (/ INR n) ^ 2) with (/ INR n * (C * / INR n)) by ring.
  apply Rmult_lt_compat_l; [lra|].
  apply (Rmult_lt_reg_r (INR n)); [lra|]. rewrite Rmult_assoc, Rinv_l by lra. lra.
Qed.
