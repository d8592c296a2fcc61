(** * Analysis for the continuous-time limit: linear equations, a growth bound, the trapezoidal rule. *)
From Coq Require Import List Reals Lra Lia Psatz.
From Coquelicot Require Import Coquelicot.
From Verif Require Import Num Arr ArrFacts Spec_Utils Spec_TimeVar P_TimeVar.
Import ListNotations.
Local Open Scope R_scope.

(** ** functions on [0,T], continued by constants *)
Definition clamp (T t : R) : R := Rmax 0 (Rmin T t).
Lemma clamp_in T t : 0 <= T -> 0 <= clamp T t <= T.
Proof. intros H. unfold clamp, Rmax, Rmin. destruct (Rle_dec T t); destruct (Rle_dec _ _); lra. Qed.
Lemma clamp_id T t : 0 <= t <= T -> clamp T t = t.
Proof. intros H. unfold clamp, Rmax, Rmin. destruct (Rle_dec T t); destruct (Rle_dec _ _); lra. Qed.
Lemma clamp_lip T x y : 0 <= T -> Rabs (clamp T x - clamp T y) <= Rabs (x - y).
Proof.
  intros H. unfold clamp, Rmax, Rmin.
  destruct (Rle_dec T x); destruct (Rle_dec T y); repeat destruct (Rle_dec _ _); unfold Rabs; repeat destruct (Rcase_abs _); lra.
Qed.
Lemma clamp_cont T t : 0 <= T -> continuous (clamp T) t.
Proof.
  intros H. apply filterlim_locally. intros eps. exists eps. intros x Hx.
  change (Rabs (clamp T x - clamp T t) < eps). eapply Rle_lt_trans; [apply clamp_lip; exact H|]. exact Hx.
Qed.
Lemma clamp_comp T (f : R -> R) t : 0 <= T -> (forall u, 0 <= u <= T -> continuous f u) -> continuous (fun u => f (clamp T u)) t.
Proof.
  intros HT Hf. apply (continuous_comp (clamp T) f); [apply clamp_cont; exact HT|]. apply Hf. apply clamp_in; exact HT.
Qed.

(** ** linear equations *)
Definition ode_sol (p q : R -> R) (t0 y0 t : R) : R :=
  exp (RInt p t0 t) * (y0 + RInt (fun u => exp (- RInt p t0 u) * q u) t0 t).
Lemma der_RInt (f : R -> R) a t : (forall u, continuous f u) -> is_derive (RInt f a) t (f t).
Proof.
  intros H. apply (is_derive_RInt f (RInt f a) a t); [|apply H].
  exists (mkposreal 1 Rlt_0_1). intros u _. apply (@RInt_correct R_CompleteNormedModule). apply (@ex_RInt_continuous R_CompleteNormedModule). intros; apply H.
Qed.
Lemma ode_sol_0 p q t0 y0 : ode_sol p q t0 y0 t0 = y0.
Proof. unfold ode_sol. rewrite !RInt_point. change (zero : R) with 0. rewrite exp_0. ring. Qed.
Lemma ode_sol_d p q t0 y0 t : (forall u, continuous p u) -> (forall u, continuous q u) ->
  is_derive (ode_sol p q t0 y0) t (p t * ode_sol p q t0 y0 t + q t).
Proof.
  intros Hp Hq. set (A := RInt p t0). set (g := fun u => exp (- RInt p t0 u) * q u).
  assert (DA : forall u, is_derive A u (p u)) by (intros u; apply der_RInt; exact Hp).
  assert (Hg : forall u, continuous g u).
  { intros u. apply (continuous_mult (fun u => exp (- A u)) q); [|apply Hq].
    apply (continuous_comp (fun u => - A u) exp).
    - apply (continuous_opp A). apply @ex_derive_continuous. eexists; apply DA.
    - apply @ex_derive_continuous. eexists; apply is_derive_exp. }
  set (B := RInt g t0).
  assert (DB : forall u, is_derive B u (g u)) by (intros u; apply der_RInt; exact Hg).
  unfold ode_sol. fold A. fold g. fold B.
  change (is_derive (fun t => exp (A t) * (y0 + B t)) t (p t * (exp (A t) * (y0 + B t)) + q t)).
  specialize (DA t). specialize (DB t).
  auto_derive; [split; [eexists; exact DA|split; [eexists; exact DB|auto]]|].
  rewrite (drv A _ _ DA), (drv B _ _ DB). unfold g. fold A. rewrite exp_Ropp. field. apply Rgt_not_eq, exp_pos.
Qed.

(** ** growth: r' = p r + f with r(0) = 0 *)
Definition gro (P T : R) : R := exp ((2 * P + 1) * T) * (T + 1).
Lemma gro_pos P T : 0 <= T -> 0 < gro P T.
Proof. intros H. apply Rmult_lt_0_compat; [apply exp_pos|lra]. Qed.
Lemma gronwall (r p f : R -> R) P T d : 0 <= P -> 0 <= d ->
  (forall t, 0 <= t <= T -> is_derive r t (p t * r t + f t)) -> r 0 = 0 ->
  (forall t, 0 <= t <= T -> Rabs (p t) <= P) -> (forall t, 0 <= t <= T -> Rabs (f t) <= d) ->
  forall t, 0 <= t <= T -> Rabs (r t) <= d * gro P T.
Proof.
  intros HP Hd Hr H0 Hp Hf t Ht.
  set (v := fun u => r u ^ 2 * exp (- (2 * P + 1) * u)).
  set (v' := fun u => (2 * r u * (p u * r u + f u) - (2 * P + 1) * r u ^ 2) * exp (- (2 * P + 1) * u)).
  assert (Dv : forall u, 0 <= u <= T -> is_derive v u (v' u)).
  { intros u Hu. unfold v, v'. specialize (Hr u Hu). auto_derive; [eexists; exact Hr|]. rewrite (drv r _ _ Hr). ring. }
  assert (Bv : forall u, 0 <= u <= T -> 0 <= d ^ 2 - v' u).
  { intros u Hu. unfold v'. specialize (Hp u Hu). specialize (Hf u Hu).
    set (X := 2 * r u * (p u * r u + f u) - (2 * P + 1) * r u ^ 2).
    assert (HX : X <= d ^ 2).
    { unfold X. assert (A1 : p u * r u ^ 2 <= P * r u ^ 2) by (apply Rmult_le_compat_r; [apply pow2_ge_0|]; apply Rabs_le_between in Hp; lra).
      assert (A2 : 2 * r u * f u <= r u ^ 2 + f u ^ 2) by (pose proof (pow2_ge_0 (r u - f u)); lra).
      assert (A3 : f u ^ 2 <= d ^ 2). { rewrite <- (pow2_abs (f u)). apply pow_incr. split; [apply Rabs_pos|exact Hf]. }
      lra. }
    assert (He : exp (- (2 * P + 1) * u) <= 1).
    { apply Rle_trans with (exp 0); [|rewrite exp_0; lra]. destruct (Req_dec u 0) as [->|]; [rewrite Rmult_0_r; lra|]. left. apply exp_increasing.
      assert (0 < (2 * P + 1) * u) by (apply Rmult_lt_0_compat; lra). lra. }
    pose proof (exp_pos (- (2 * P + 1) * u)) as Hep. pose proof (pow2_ge_0 d).
    destruct (Rle_dec 0 X) as [HX0|HX0].
    - assert (X * exp (- (2 * P + 1) * u) <= d ^ 2 * 1) by (apply Rmult_le_compat; lra). lra.
    - assert (0 <= (- X) * exp (- (2 * P + 1) * u)) by (apply Rmult_le_pos; lra). lra. }
  assert (Hv : v t <= d ^ 2 * t).
  { assert (Q : d ^ 2 * 0 - v 0 <= d ^ 2 * t - v t).
    { apply (incr_le (fun u => d ^ 2 * u - v u) (fun u => d ^ 2 - v' u)); [lra| |].
      - intros u Hu. specialize (Dv u ltac:(lra)). auto_derive; [eexists; exact Dv|]. rewrite (drv v _ _ Dv). ring.
      - intros u Hu. apply Bv; lra. }
    unfold v at 1 in Q. rewrite H0 in Q. lra. }
  assert (Hr2 : r t ^ 2 <= (d * gro P T) ^ 2).
  { assert (E1 : r t ^ 2 = v t * exp ((2 * P + 1) * t)).
    { unfold v. rewrite Rmult_assoc, <- exp_plus. replace (- (2 * P + 1) * t + (2 * P + 1) * t) with 0 by ring. rewrite exp_0. ring. }
    rewrite E1. unfold gro. set (E := exp ((2 * P + 1) * T)).
    assert (HE : 1 <= E). { unfold E. apply Rle_trans with (exp 0); [rewrite exp_0; lra|]. destruct (Req_dec T 0) as [->|]; [rewrite Rmult_0_r; lra|].
      left. apply exp_increasing. apply Rmult_lt_0_compat; lra. }
    assert (Ht' : exp ((2 * P + 1) * t) <= E).
    { unfold E. destruct (Req_dec t T) as [->|]; [lra|]. left. apply exp_increasing. apply Rmult_lt_compat_l; lra. }
    pose proof (exp_pos ((2 * P + 1) * t)). pose proof (pow2_ge_0 d) as Hd2.
    assert (0 <= d ^ 2 * t) by (apply Rmult_le_pos; lra).
    apply Rle_trans with (d ^ 2 * t * E).
    - apply Rle_trans with (d ^ 2 * t * exp ((2 * P + 1) * t)); [apply Rmult_le_compat_r; lra|]. apply Rmult_le_compat_l; lra.
    - replace ((d * (E * (T + 1))) ^ 2) with (d ^ 2 * ((E * (T + 1) ^ 2) * E)) by ring. rewrite Rmult_assoc.
      apply Rmult_le_compat_l; [exact Hd2|]. apply Rmult_le_compat_r; [lra|].
      assert (1 * (T + 1) ^ 2 <= E * (T + 1) ^ 2) by (apply Rmult_le_compat_r; [apply pow2_ge_0|lra]).
      assert (t <= (T + 1) ^ 2) by nra. lra. }
  assert (G0 : 0 <= d * gro P T) by (apply Rmult_le_pos; [lra|left; apply gro_pos; lra]).
  apply Rsqr_incr_0_var; [|exact G0]. rewrite <- Rsqr_abs. unfold Rsqr. simpl in Hr2. lra.
Qed.

(** ** integrals *)
Lemma ex_RInt_on (f : R -> R) a b : a <= b -> (forall t, a <= t <= b -> continuous f t) -> ex_RInt f a b.
Proof.
  intros Hab H. apply (@ex_RInt_continuous R_CompleteNormedModule). intros z Hz. rewrite Rmin_left, Rmax_right in Hz by lra. apply H; lra.
Qed.
Lemma der_cont (f : R -> R) t l : is_derive f t l -> continuous f t.
Proof. intros H. apply @ex_derive_continuous. eexists; exact H. Qed.
Lemma smooth_cont T f : smooth 1 T f -> forall t, 0 <= t <= T -> continuous f t.
Proof. intros [_ (f' & Hd & _)] t Ht. eapply der_cont, Hd, Ht. Qed.
Lemma RInt_bound (f : R -> R) a b M : a <= b -> ex_RInt f a b -> (forall t, a <= t <= b -> Rabs (f t) <= M) ->
  Rabs (RInt f a b) <= M * (b - a).
Proof.
  intros Hab He H. replace (M * (b - a)) with ((b - a) * M) by ring. apply abs_RInt_le_const; auto.
Qed.

Lemma RInt_line c d x h : RInt (fun u => c + d * (u - x)) x (x + h) = c * h + d * h ^ 2 / 2.
Proof.
  apply is_RInt_unique.
  replace (c * h + d * h ^ 2 / 2) with (minus ((fun u => c * u + d * (u - x) ^ 2 / 2) (x + h)) ((fun u => c * u + d * (u - x) ^ 2 / 2) x))
    by (unfold minus, plus, opp; cbn; field).
  apply (is_RInt_derive (fun u => c * u + d * (u - x) ^ 2 / 2) (fun u => c + d * (u - x))).
  - intros u _. auto_derive; auto. field.
  - intros u _. apply der_cont with d. auto_derive; auto. ring.
Qed.

Lemma cell_error (f f1 f2 : R -> R) x h M : 0 <= h ->
  (forall t, x <= t <= x + h -> is_derive f t (f1 t)) -> (forall t, x <= t <= x + h -> is_derive f1 t (f2 t)) ->
  (forall t, x <= t <= x + h -> Rabs (f2 t) <= M) ->
  Rabs (h * (f x + f (x + h)) / 2 - RInt f x (x + h)) <= M * h ^ 3.
Proof.
  intros Hh D1 D2 B.
  assert (M0 : 0 <= M) by (eapply Rle_trans; [apply Rabs_pos|apply (B x); lra]).
  assert (T2 : forall t, x <= t <= x + h -> Rabs (f t - f x - (t - x) * f1 x) <= M * h ^ 2 / 2).
  { intros t Ht. pose proof (taylor2 f f1 f2 x t M ltac:(lra)) as Q.
    eapply Rle_trans; [apply Q; intros u Hu; [apply D1|apply D2|apply B]; lra|].
    apply Rmult_le_compat_r; [lra|]. apply Rmult_le_compat_l; [exact M0|]. apply pow_incr. lra. }
  assert (Ex : ex_RInt f x (x + h)) by (apply ex_RInt_on; [lra|]; intros t Ht; eapply der_cont, D1, Ht).
  assert (Exl : ex_RInt (fun u => f x + f1 x * (u - x)) x (x + h)).
  { apply ex_RInt_on; [lra|]. intros t _. apply der_cont with (f1 x). auto_derive; auto. ring. }
  assert (I1 : Rabs (RInt f x (x + h) - (f x * h + f1 x * h ^ 2 / 2)) <= M * h ^ 2 / 2 * h).
  { rewrite <- (RInt_line (f x) (f1 x) x h). rewrite <- (RInt_minus f (fun u => f x + f1 x * (u - x)) x (x + h) Ex Exl : _ = RInt f x (x + h) - _).
    replace (M * h ^ 2 / 2 * h) with (M * h ^ 2 / 2 * (x + h - x)) by ring. apply RInt_bound; [lra| |].
    - apply (@ex_RInt_minus R_NormedModule); auto.
    - intros t Ht. change (Rabs (f t - (f x + f1 x * (t - x))) <= M * h ^ 2 / 2).
      replace (f t - (f x + f1 x * (t - x))) with (f t - f x - (t - x) * f1 x) by ring. apply T2, Ht. }
  pose proof (T2 (x + h) ltac:(lra)) as Q. replace (x + h - x) with h in Q by ring.
  assert (Q' : Rabs (h / 2 * (f (x + h) - f x - h * f1 x)) <= h / 2 * (M * h ^ 2 / 2)).
  { rewrite Rabs_mult, (Rabs_pos_eq (h / 2)) by lra. apply Rmult_le_compat_l; [lra|exact Q]. }
  assert (0 <= M * h ^ 3) by (apply Rmult_le_pos; [exact M0|apply pow_le; exact Hh]).
  apply Rabs_le_between in I1. apply Rabs_le_between in Q'. apply Rabs_le_between.
  replace (M * h ^ 2 / 2 * h) with (M * h ^ 3 / 2) in I1 by field. replace (h / 2 * (M * h ^ 2 / 2)) with (M * h ^ 3 / 4) in Q' by field. lra.
Qed.

Lemma trap_conv T f : 0 <= T -> smooth 2 T f ->
  exists K, 0 <= K /\ forall dt n, 0 < dt -> INR n * dt = T ->
  Rabs (trap (n + 1) (fun k => f (INR k * dt)) dt - RInt f 0 T) <= K * dt ^ 2.
Proof.
  intros HT Hs. pose proof (smooth_cont T f (smooth_pred 1 T f Hs)) as Hc.
  destruct Hs as [_ (f1 & D1 & _ & f2 & D2 & (M & HM) & _)].
  assert (M0 : 0 <= M) by (eapply Rle_trans; [apply Rabs_pos|apply (HM 0); lra]).
  exists (T * M). split; [apply Rmult_le_pos; auto|]. intros dt n Hdt Hn.
  unfold trap. replace (n + 1 - 1)%nat with n by lia.
  assert (P : forall k, (k <= n)%nat ->
    Rabs (Rsum k (fun k => dt * (f (INR k * dt) + f (INR (k + 1) * dt)) / 2) - RInt f 0 (INR k * dt)) <= INR k * (M * dt ^ 3)).
  { induction k as [|k IH]; intros Hk.
    - cbn [Rsum INR]. replace (0 * dt) with 0 by ring. rewrite RInt_point. change (zero : R) with 0. rewrite Rminus_0_r, Rabs_R0. lra.
    - specialize (IH ltac:(lia)). cbn [Rsum].
      assert (Hk1 : INR k * dt + dt <= T).
      { replace (INR k * dt + dt) with (INR (S k) * dt) by (rewrite S_INR; ring). rewrite <- Hn. apply Rmult_le_compat_r; [lra|]. apply le_INR; lia. }
      assert (Hk0 : 0 <= INR k * dt) by (apply Rmult_le_pos; [apply pos_INR|lra]).
      rewrite Nat.add_1_r. replace (INR (S k) * dt) with (INR k * dt + dt) by (rewrite S_INR; ring).
      assert (C : RInt f 0 (INR k * dt + dt) = RInt f 0 (INR k * dt) + RInt f (INR k * dt) (INR k * dt + dt)).
      { symmetry. apply (@RInt_Chasles R_CompleteNormedModule); apply ex_RInt_on; try lra; intros t Ht; apply Hc; lra. }
      pose proof (cell_error f f1 f2 (INR k * dt) dt M ltac:(lra)) as Q.
      assert (Q' : Rabs (dt * (f (INR k * dt) + f (INR k * dt + dt)) / 2 - RInt f (INR k * dt) (INR k * dt + dt)) <= M * dt ^ 3)
        by (apply Q; intros t Ht; [apply D1|apply D2|apply HM]; lra).
      rewrite C, S_INR. apply Rabs_le_between in IH. apply Rabs_le_between in Q'. apply Rabs_le_between. lra. }
  specialize (P n (le_n n)). rewrite Hn in P. replace (T * M * dt ^ 2) with (INR n * (M * dt ^ 3)) by (rewrite <- Hn; ring). exact P.
Qed.
