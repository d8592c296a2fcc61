(** * The gap between objective and evidence for smooth slopes and offsets, every method. *)
From Coq Require Import ZArith List Bool Arith Reals Lra Lia Psatz Sorted.
From Coquelicot Require Import Coquelicot.
From Verif Require Import Num Arr ArrFacts M_LinAlg M_Utils M_Ode M_Moments M_Sde1 M_Prior M_Like M_VarGP
  Spec_Utils Spec_Gauss Spec_Ode Spec_TimeVar Spec_Limit Spec_Prior Spec_Sde1 Spec_VarGP Spec_Evid P_Ode P_OdeR P_OdeRK P_Trapz P_Moments P_Sde1 P_RMat P_Det P_Expect P_Prior P_Like P_VarGP
  P_GaussN P_Stein P_Adjoint P_Grad1 P_TimeVar P_TimeVar2 P_TimeVar3 P_TimeVar4 P_TimeVar5 P_TimeVar9 P_Limit1 P_Limit2 P_Limit3 P_Limit6 P_Bound P_Bound2 P_Jensen P_Evid P_Evid2 P_Evid3 P_Evid4.
Import ListNotations.
Local Open Scope R_scope.

(** ** bounded polynomials *)
Definition bdd (B : R) (f : (nat -> R) -> R) : Prop := exists C, 0 <= C /\ forall x, (forall i, Rabs (x i) <= B) -> Rabs (f x) <= C.
Lemma bdd_c B c : bdd B (fun _ => c).
Proof. exists (Rabs c). split; [apply Rabs_pos|]. intros; apply Rle_refl. Qed.
Lemma bdd_v B i : 0 <= B -> bdd B (fun x => x i).
Proof. intros H. exists B. split; [exact H|]. intros x Hx. apply Hx. Qed.
Lemma bdd_plus B f g : bdd B f -> bdd B g -> bdd B (fun x => f x + g x).
Proof.
  intros (C & C0 & H1) (D & D0 & H2). exists (C + D). split; [lra|]. intros x Hx. apply (Rle_trans _ _ _ (Rabs_triang _ _)).
  specialize (H1 x Hx). specialize (H2 x Hx). lra.
Qed.
Lemma bdd_mult B f g : bdd B f -> bdd B g -> bdd B (fun x => f x * g x).
Proof.
  intros (C & C0 & H1) (D & D0 & H2). exists (C * D). split; [apply Rmult_le_pos; assumption|]. intros x Hx. rewrite Rabs_mult.
  apply Rmult_le_compat; auto using Rabs_pos.
Qed.
Lemma bdd_opp B f : bdd B f -> bdd B (fun x => - f x).
Proof. intros (C & C0 & H1). exists C. split; [exact C0|]. intros x Hx. rewrite Rabs_Ropp. auto. Qed.
Lemma bdd_minus B f g : bdd B f -> bdd B g -> bdd B (fun x => f x - g x).
Proof. intros H1 H2. apply (bdd_plus B f (fun x => - g x)); [exact H1|apply bdd_opp, H2]. Qed.
Ltac bd := repeat (apply bdd_plus || apply bdd_minus || apply bdd_mult || apply bdd_opp || (apply bdd_v; assumption) || apply bdd_c).

(** ** one step of each method: Euler up to the square of the step *)
(** x 0 = slope at the start of the step, x 1 = its difference quotient, x 2, x 3 the same of the offset, x 4 = state, x 5 = dt *)
Definition lin_f (x : nat -> R) : R := - x 0%nat * x 4%nat + x 2%nat.
Definition lin_h (x : nat -> R) : R := 1 / 2 * (- x 1%nat * x 4%nat + x 3%nat).
Definition mid_a (x : nat -> R) : R := x 0%nat + x 5%nat * x 1%nat * (1 / 2).
Definition lin_2 (x : nat -> R) : R := lin_h x - mid_a x * lin_f x * (1 / 2).
Definition lin_3 (x : nat -> R) : R := lin_h x - mid_a x * (lin_f x + x 5%nat * lin_2 x) * (1 / 2).
Definition lin_4 (x : nat -> R) : R := 2 * lin_h x - (x 0%nat + x 5%nat * x 1%nat) * (lin_f x + x 5%nat * lin_3 x).
Definition rest (mtd : method) (x : nat -> R) : R :=
  match mtd with
  | Euler => 0
  | Heun => lin_h x - 1 / 2 * ((x 0%nat + x 5%nat * x 1%nat) * lin_f x)
  | RK2 => lin_2 x
  | RK4 => 1 / 6 * (2 * lin_2 x + 2 * lin_3 x + lin_4 x)
  end.
Lemma rest_bdd B mtd : 0 <= B -> bdd B (rest mtd).
Proof. intros HB. destruct mtd; unfold rest, lin_4, lin_3, lin_2, mid_a, lin_h, lin_f; bd. Qed.
Lemma rest_all B : 0 <= B -> exists C, 0 <= C /\ forall mtd x, (forall i, Rabs (x i) <= B) -> Rabs (rest mtd x) <= C.
Proof.
  intros HB. destruct (rest_bdd B Heun HB) as (C1 & P1 & H1). destruct (rest_bdd B RK2 HB) as (C2 & P2 & H2). destruct (rest_bdd B RK4 HB) as (C3 & P3 & H3).
  exists (C1 + C2 + C3). split; [lra|]. intros mtd x Hx. specialize (H1 x Hx). specialize (H2 x Hx). specialize (H3 x Hx).
  destruct mtd; [cbn [rest]; rewrite Rabs_R0; lra|lra|lra|lra].
Qed.
Definition env6 (a p b q u d : R) : nat -> R := fun i => match i with 0 => a | 1 => p | 2 => b | 3 => q | 4 => u | _ => d end%nat.
Lemma step_rest mtd dt a0 p b0 q (u : R) :
  rk_step (V := sV) (tab_of mtd) (fun th m => mean_rhs1 (interp (V:=sV) th a0 (a0 + dt * p)) (interp (V:=sV) th b0 (b0 + dt * q)) m) dt u
  = u + dt * (- a0 * u + b0) + dt ^ 2 * rest mtd (env6 a0 p b0 q u dt).
Proof.
  destruct mtd; unfold rk_step, mean_rhs1, interp, rest, lin_4, lin_3, lin_2, mid_a, lin_h, lin_f, env6; cbn; rnum; change (car RNum) with R; rfld.
Qed.
Lemma env6_all (P : R -> Prop) a p b q u d : P a -> P p -> P b -> P q -> P u -> P d -> forall i, P (env6 a p b q u d i).
Proof. intros H0 H1 H2 H3 H4 H5 [|[|[|[|[|i]]]]]; assumption. Qed.
Lemma quot_bd u v dt B : 0 < dt -> Rabs (v - u) <= B * dt -> exists p, v = u + dt * p /\ Rabs p <= B.
Proof.
  intros Hdt H. exists ((v - u) / dt). split; [field; lra|]. unfold Rdiv. rewrite Rabs_mult, (Rabs_inv dt), (Rabs_right dt) by lra.
  apply (Rmult_le_reg_r dt); [exact Hdt|]. rewrite Rmult_assoc, Rinv_l, Rmult_1_r by lra. exact H.
Qed.
(** the step of the mean *)
Lemma cons_lin B : 1 <= B -> exists G, 0 <= G /\ forall mtd dt a0 a1 b0 b1 u, 0 < dt <= 1 -> Rabs a0 <= B -> Rabs b0 <= B -> Rabs u <= B ->
  Rabs (a1 - a0) <= B * dt -> Rabs (b1 - b0) <= B * dt ->
  Rabs (rk_step (V := sV) (tab_of mtd) (fun th m => mean_rhs1 (interp (V:=sV) th a0 a1) (interp (V:=sV) th b0 b1) m) dt u - u - dt * (- a0 * u + b0)) <= G * dt ^ 2.
Proof.
  intros HB. destruct (rest_all B ltac:(lra)) as (G & G0 & HG). exists G. split; [exact G0|]. intros mtd dt a0 a1 b0 b1 u Hdt Ha Hb Hu Da Db.
  destruct (quot_bd a0 a1 dt B ltac:(lra) Da) as (p & -> & Hp). destruct (quot_bd b0 b1 dt B ltac:(lra) Db) as (q & -> & Hq).
  pose proof (step_rest mtd dt a0 p b0 q u) as E. cbv beta in E.
  match type of E with ?l = _ => assert (E2 : (l : R) - u - dt * (- a0 * u + b0) = dt ^ 2 * rest mtd (env6 a0 p b0 q u dt)) by (etransitivity; [apply f_equal2; [apply f_equal2; [exact E|reflexivity]|reflexivity]|ring]) end.
  apply (Rle_trans _ (Rabs (dt ^ 2 * rest mtd (env6 a0 p b0 q u dt)))); [right; exact (f_equal Rabs E2)|].
  rewrite Rabs_mult, Rmult_comm, (Rabs_right (dt ^ 2)) by (apply Rle_ge, pow2_ge_0). apply Rmult_le_compat_r; [apply pow2_ge_0|].
  apply HG. apply (env6_all (fun z => Rabs z <= B)); try assumption. rewrite Rabs_right; lra.
Qed.
(** the step of the variance with RungeKutta2 *)
Lemma cons_rk2 B : 1 <= B -> exists G, 0 <= G /\ forall dt a0 a1 sigma s, 0 < dt <= 1 -> Rabs a0 <= B -> Rabs sigma <= B -> Rabs s <= B -> Rabs (a1 - a0) <= B * dt ->
  Rabs (s + dt * (- 2 * ((a0 + a1) / 2) * (s + 1/2 * dt * (- 2 * s * s + sigma)) + sigma) - s - dt * (- 2 * a0 * s + sigma)) <= G * dt ^ 2.
Proof.
  intros HB. assert (B0 : 0 <= B) by lra.
  assert (Q : bdd B (fun x => - x 1%nat * x 4%nat - (x 0%nat + x 5%nat * x 1%nat * (1 / 2)) * (- 2 * x 4%nat * x 4%nat + x 2%nat))) by bd.
  destruct Q as (G & G0 & HG). exists G. split; [exact G0|]. intros dt a0 a1 sigma s Hdt Ha Hsg Hs Da.
  destruct (quot_bd a0 a1 dt B ltac:(lra) Da) as (p & -> & Hp).
  specialize (HG (env6 a0 p sigma 0 s dt) ltac:(apply (env6_all (fun z => Rabs z <= B)); try assumption; [rewrite Rabs_R0; lra|rewrite Rabs_right; lra])). cbn [env6] in HG.
  match goal with |- Rabs ?l <= _ => replace l with (dt ^ 2 * (- p * s - (a0 + dt * p * (1 / 2)) * (- 2 * s * s + sigma))) by field end.
  rewrite Rabs_mult, Rmult_comm, (Rabs_right (dt ^ 2)) by (apply Rle_ge, pow2_ge_0). apply Rmult_le_compat_r; [apply pow2_ge_0|exact HG].
Qed.

(** ** a step that is Euler's up to the square of dt is the step of a linear chain near the given slope and offset *)
Lemma one_step dt G B c sigma a b m m' s s' : 0 < dt <= 1 -> 0 <= G -> 0 < c -> c <= s -> Rabs a <= B -> Rabs m <= B ->
  Rabs (m' - m - dt * (- a * m + b)) <= G * dt ^ 2 -> Rabs (s' - s - dt * (- 2 * a * s + sigma)) <= G * dt ^ 2 ->
  let L := B + G / (2 * c) in let H := G / (2 * c) + 2 * L ^ 2 in dt * L <= 1 / 2 ->
  let al := aslope dt ((s - s' + sigma * dt) / (2 * s * dt)) in let be := (m' - m) / dt + al * m in
  m' = m + dt * (- al * m + be) /\ s' = (1 - dt * al) ^ 2 * s + sigma * dt /\ Rabs (al - a) <= H * dt /\ Rabs (be - b) <= (H * B + G) * dt.
Proof.
  intros Hdt HG Hc Hs Ha Hm D1 D2 L H HL al be. set (a' := (s - s' + sigma * dt) / (2 * s * dt)) in *.
  assert (N : 0 <= G / (2 * c)) by (apply Rmult_le_pos; [exact HG|left; apply Rinv_0_lt_compat; lra]).
  assert (A1 : Rabs (a' - a) <= G / (2 * c) * dt).
  { replace (a' - a) with (- (s' - s - dt * (- 2 * a * s + sigma)) / (2 * s * dt)) by (unfold a'; field; lra).
    unfold Rdiv. rewrite Rabs_mult, Rabs_Ropp, Rabs_inv, (Rabs_right (2 * s * dt)) by nra.
    apply (Rle_trans _ (G * dt ^ 2 * / (2 * s * dt))); [apply Rmult_le_compat_r; [left; apply Rinv_0_lt_compat; nra|exact D2]|].
    replace (G * dt ^ 2 * / (2 * s * dt)) with (G * dt * / (2 * s)) by (field; lra). replace (G * / (2 * c) * dt) with (G * dt * / (2 * c)) by ring.
    apply Rmult_le_compat_l; [nra|]. apply Rinv_le_contravar; lra. }
  assert (A2 : Rabs a' <= L).
  { replace a' with (a' - a + a) by ring. apply (Rle_trans _ _ _ (Rabs_triang _ _)). unfold L. assert (G / (2 * c) * dt <= G / (2 * c) * 1) by (apply Rmult_le_compat_l; lra). lra. }
  pose proof (aslope_near dt L a' ltac:(lra) A2 HL) as A3. fold al in A3.
  assert (A4 : Rabs (al - a) <= H * dt).
  { replace (al - a) with (al - a' + (a' - a)) by ring. apply (Rle_trans _ _ _ (Rabs_triang _ _)). rewrite (Rabs_right (al - a')) by lra. unfold H. lra. }
  assert (A5 : 0 <= 1 - 2 * (dt * a')).
  { apply Rabs_le_between in A2. assert (dt * a' <= dt * L) by (apply Rmult_le_compat_l; lra). lra. }
  split; [unfold be; field; lra|]. split.
  - unfold al, aslope. replace (1 - dt * ((1 - sqrt (1 - 2 * (dt * a'))) / dt)) with (sqrt (1 - 2 * (dt * a'))) by (field; lra).
    cbn [pow]. rewrite Rmult_1_r, sqrt_sqrt by exact A5. unfold a'. field. lra.
  - split; [exact A4|]. replace (be - b) with ((al - a) * m + (m' - m - dt * (- a * m + b)) / dt) by (unfold be; field; lra).
    apply (Rle_trans _ _ _ (Rabs_triang _ _)). rewrite Rabs_mult. rewrite Rmult_plus_distr_r. apply Rplus_le_compat.
    + replace (H * B * dt) with (H * dt * B) by ring. apply Rmult_le_compat; auto using Rabs_pos.
    + unfold Rdiv. rewrite Rabs_mult, Rabs_inv, (Rabs_right dt) by lra. apply (Rmult_le_reg_r dt); [lra|]. rewrite Rmult_assoc, Rinv_l, Rmult_1_r by lra.
      apply (Rle_trans _ _ _ D1). right. ring.
Qed.
(** Lipschitz and lower bounds on the interval *)
Lemma smooth_lip T f : 0 <= T -> smooth 1 T f -> exists M, 0 <= M /\ forall t d, 0 <= t -> 0 <= d -> t + d <= T -> Rabs (f (t + d) - f t) <= M * d.
Proof.
  intros HT [_ (f' & Hd & (M & HM) & _)]. assert (M0 : 0 <= M) by (eapply Rle_trans; [apply Rabs_pos|apply (HM 0); lra]).
  exists M. split; [exact M0|]. intros t d Ht Hd0 Htd.
  destruct (MVT_gen f t (t + d) f') as (z & Hz & E).
  { intros x Hx. rewrite Rmin_left, Rmax_right in Hx by lra. apply Hd. lra. }
  { intros x Hx. rewrite Rmin_left, Rmax_right in Hx by lra. apply derivable_continuous_pt. exists (f' x). apply is_derive_Reals, Hd. lra. }
  rewrite Rmin_left, Rmax_right in Hz by lra. rewrite E. replace (t + d - t) with d by ring. rewrite Rabs_mult, (Rabs_right d) by lra.
  apply Rmult_le_compat_r; [exact Hd0|]. apply HM. lra.
Qed.
Lemma pos_min T f : 0 <= T -> smooth 1 T f -> (forall t, 0 <= t <= T -> 0 < f t) -> exists c, 0 < c /\ forall t, 0 <= t <= T -> c <= f t.
Proof.
  intros HT [_ (f' & Hd & _)] Hp. destruct (continuity_ab_min f 0 T HT) as (z & Hz & Hr).
  { intros x Hx. apply derivable_continuous_pt. exists (f' x). apply is_derive_Reals, Hd, Hx. }
  exists (f z). split; [apply Hp, Hr|exact Hz].
Qed.

(** ** the sweep on smooth slopes and offsets is a chain near them *)
Section Near.
Context (T sigma m0 s0 : R) (HT : 0 <= T) (Hsg : 0 < sigma) (Hs0 : 0 < s0) (a b : R -> R) (Ha : smooth 2 T a) (Hb : smooth 2 T b).
Lemma sweep_near : exists K c B d0, 0 <= K /\ 0 < c /\ 1 <= B /\ 0 < d0 <= 1 /\ (forall t, 0 <= t <= T -> Rabs (a t) <= B /\ Rabs (b t) <= B) /\ sigma <= B /\
  (forall t d, 0 <= t -> 0 <= d -> t + d <= T -> Rabs (a (t + d) - a t) <= B * d /\ Rabs (b (t + d) - b t) <= B * d) /\
  forall mtd dt n (mt st : list R), 0 < dt < d0 -> INR n * dt <= T ->
  solve_fwd S1 mtd dt (grid dt (n + 1) a) (grid dt (n + 1) b) m0 s0 sigma = Ok (mt, st) ->
  forall k, (k <= n)%nat -> Rabs (nth k mt 0) <= B /\ Rabs (nth k st 0) <= B /\ c <= nth k st 0.
Proof.
  assert (Ha1 := smooth_pred 1 T a Ha). assert (Hb1 := smooth_pred 1 T b Hb).
  destruct (moments_ex T sigma m0 s0 HT a b Ha1 Hb1) as (m & s & Hms).
  destruct (moments_smooth T sigma m0 s0 2 a b m s HT Ha Hb Hms) as [Sm Ss].
  pose proof (moments_pos T sigma m0 s0 HT a b Ha1 m s Hsg Hs0 Hms) as Hp.
  destruct (pos_min T s HT (smooth_pred 1 T s (smooth_pred 2 T s Ss)) Hp) as (c & Hc & Hcs).
  destruct Hms as (M0 & S0 & D).
  destruct (mean_conv_1 T a b m HT Ha Hb) as (K1 & H1); [intros t Ht; apply D, Ht|].
  destruct (cov_conv_1 T a s sigma HT Ha) as (K2 & H2); [intros t Ht; apply D, Ht|].
  destruct (rk2_cov_first T a s sigma HT Ha) as (K3 & dt0 & Hd0 & H3); [intros t Ht; apply D, Ht|].
  destruct (smooth_bdd _ _ _ Ha) as (B1 & HB1). destruct (smooth_bdd _ _ _ Hb) as (B2 & HB2).
  destruct (smooth_bdd _ _ _ Sm) as (B3 & HB3). destruct (smooth_bdd _ _ _ Ss) as (B4 & HB4).
  destruct (smooth_lip T a HT Ha1) as (L1 & L10 & HL1). destruct (smooth_lip T b HT Hb1) as (L2 & L20 & HL2).
  pose proof (Rabs_pos K1). pose proof (Rabs_pos K2). pose proof (Rabs_pos K3). pose proof (Rle_abs K1). pose proof (Rle_abs K2). pose proof (Rle_abs K3).
  pose proof (Rabs_pos B1). pose proof (Rabs_pos B2). pose proof (Rabs_pos B3). pose proof (Rabs_pos B4).
  pose proof (Rle_abs B1). pose proof (Rle_abs B2). pose proof (Rle_abs B3). pose proof (Rle_abs B4).
  set (K := Rabs K1 + Rabs K2 + Rabs K3). set (B := 1 + sigma + K + L1 + L2 + Rabs B1 + Rabs B2 + Rabs B3 + Rabs B4).
  assert (K0 : 0 <= K) by (unfold K; lra).
  exists K, (c / 2), B, (Rmin 1 (Rmin dt0 (c / (2 * (K + 1))))). split; [exact K0|]. split; [lra|]. split; [unfold B; lra|].
  assert (C2 : 0 < c / (2 * (K + 1))) by (apply Rdiv_lt_0_compat; lra).
  split; [split; [repeat apply Rmin_pos; lra|apply Rmin_l]|].
  split; [intros t Ht; specialize (HB1 t Ht); specialize (HB2 t Ht); unfold B; lra|]. split; [unfold B; lra|].
  split; [intros t d Ht Hd Htd; split; [apply (Rle_trans _ _ _ (HL1 t d Ht Hd Htd))|apply (Rle_trans _ _ _ (HL2 t d Ht Hd Htd))]; apply Rmult_le_compat_r; unfold B; lra|].
  intros mtd dt n mt st Hdt Hn Hs k Hk.
  assert (X : dt < 1 /\ dt < dt0 /\ dt < c / (2 * (K + 1))).
  { split; [|split]; (eapply Rlt_le_trans; [apply Hdt|]); [apply Rmin_l|eapply Rle_trans; [apply Rmin_r|apply Rmin_l]|eapply Rle_trans; [apply Rmin_r|apply Rmin_r]]. }
  destruct X as (X1 & X2 & X3). assert (Hdt0 : 0 < dt) by lra.
  assert (Tk : 0 <= INR k * dt <= T).
  { split; [apply Rmult_le_pos; [apply pos_INR|lra]|]. apply (Rle_trans _ (INR n * dt)); [apply Rmult_le_compat_r; [lra|apply le_INR, Hk]|exact Hn]. }
  assert (P2 : forall mt', dt ^ ordv mt' <= dt /\ 0 <= dt ^ ordv mt').
  { intros mt'. split; [|apply pow_le; lra]. destruct mt'; cbn [ordv pow]; nra. }
  assert (KD : K * dt <= c / 2).
  { apply (Rle_trans _ (K * (c / (2 * (K + 1))))); [apply Rmult_le_compat_l; lra|].
    replace (K * (c / (2 * (K + 1)))) with (c / 2 * (K / (K + 1))) by (field; lra). rewrite <- (Rmult_1_r (c / 2)) at 2. apply Rmult_le_compat_l; [lra|].
    apply (Rmult_le_reg_r (K + 1)); [lra|]. unfold Rdiv. rewrite Rmult_assoc, Rinv_l by lra. lra. }
  assert (KK : K * dt <= K) by (rewrite <- (Rmult_1_r K) at 2; apply Rmult_le_compat_l; lra).
  assert (mono : forall K' z, 0 <= z -> z <= dt -> K' <= K -> K' * z <= K * dt).
  { intros K' z Hz Hz1 HK. apply Rle_trans with (K * z); [apply Rmult_le_compat_r; auto|apply Rmult_le_compat_l; lra]. }
  assert (E1 : Rabs (nth k mt 0 - m (INR k * dt)) <= K * dt).
  { destruct (P2 mtd). eapply Rle_trans; [apply (H1 mtd dt n m0 s0 sigma mt st); auto; lra|]. apply mono; auto. unfold K. lra. }
  assert (E2 : Rabs (nth k st 0 - s (INR k * dt)) <= K * dt).
  { destruct (P2 mtd). destruct (rk2_dec mtd) as [->|Hne].
    - eapply Rle_trans; [apply (H3 dt n b m0 s0 mt st); auto; lra|]. apply mono; unfold K; lra.
    - eapply Rle_trans; [apply (H2 mtd dt n b m0 s0 mt st); auto; lra|]. apply mono; auto. unfold K. lra. }
  specialize (HB3 _ Tk). specialize (HB4 _ Tk). specialize (Hcs _ Tk). apply Rabs_le_between in E1, E2, HB3, HB4.
  split; [|split]; [apply Rabs_le; unfold B; lra|apply Rabs_le; unfold B; lra|lra].
Qed.
(** the slopes and offsets of the chain *)
Lemma chain_near : exists H d0 B, 0 <= H /\ 0 < d0 <= 1 /\ 1 <= B /\ (forall t, 0 <= t <= T -> Rabs (a t) <= B /\ Rabs (b t) <= B) /\
  forall mtd dt n (mt st : list R), 0 < dt < d0 -> INR n * dt <= T ->
  solve_fwd S1 mtd dt (grid dt (n + 1) a) (grid dt (n + 1) b) m0 s0 sigma = Ok (mt, st) ->
  (forall k, (k <= n)%nat -> Rabs (nth k mt 0) <= B /\ Rabs (nth k st 0) <= B /\ 0 < nth k st 0) /\
  exists al be : nat -> R, forall k, (k + 1 < n + 1)%nat ->
  (nth (k + 1) mt 0 = nth k mt 0 + dt * (- al k * nth k mt 0 + be k) /\ nth (k + 1) st 0 = (1 - dt * al k) ^ 2 * nth k st 0 + sigma * dt) /\
  Rabs (al k - a (INR k * dt)) <= H * dt /\ Rabs (be k - b (INR k * dt)) <= H * dt.
Proof.
  destruct sweep_near as (K & c & B & d0 & K0 & Hc & HB & Hd0 & Hab & HsB & Hl & HS).
  destruct (cons_lin (2 * B) ltac:(lra)) as (G1 & G10 & C1). destruct (cons_rk2 B HB) as (G2 & G20 & C2).
  set (G := G1 + G2). set (L := B + G / (2 * c)). set (H := G / (2 * c) + 2 * L ^ 2).
  assert (GC : 0 <= G / (2 * c)) by (apply Rmult_le_pos; [unfold G; lra|left; apply Rinv_0_lt_compat; lra]).
  assert (L0 : 1 <= L) by (unfold L; lra). assert (H0 : 0 <= H) by (unfold H; pose proof (pow2_ge_0 L); lra).
  assert (HBp : 0 <= H * B) by (apply Rmult_le_pos; lra).
  exists (H + (H * B + G)), (Rmin d0 (/ (2 * L))), B. split; [unfold G; lra|].
  split; [split; [apply Rmin_pos; [lra|apply Rinv_0_lt_compat; lra]|eapply Rle_trans; [apply Rmin_l|lra]]|]. split; [exact HB|]. split; [exact Hab|].
  intros mtd dt n mt st Hdt Hn Hs.
  assert (X : dt < d0 /\ dt < / (2 * L)) by (split; eapply Rlt_le_trans; try apply Hdt; [apply Rmin_l|apply Rmin_r]). destruct X as [X1 X2].
  assert (DL : dt * L <= 1 / 2). { apply (Rle_trans _ (/ (2 * L) * L)); [apply Rmult_le_compat_r; lra|right; field; lra]. }
  pose proof (HS mtd dt n mt st ltac:(lra) Hn Hs) as HB'.
  split; [intros k Hk; destruct (HB' k Hk) as (Q1 & Q2 & Q3); split; [exact Q1|split; [exact Q2|lra]]|].
  set (al := fun k => aslope dt ((nth k st 0 - nth (k + 1) st 0 + sigma * dt) / (2 * nth k st 0 * dt))).
  exists al, (fun k => (nth (k + 1) mt 0 - nth k mt 0) / dt + al k * nth k mt 0). intros k Hk.
  assert (Tk : 0 <= INR k * dt) by (apply Rmult_le_pos; [apply pos_INR|lra]).
  assert (Tk1 : INR k * dt + dt <= T).
  { rewrite <- INR_next. apply (Rle_trans _ (INR n * dt)); [apply Rmult_le_compat_r; [lra|apply le_INR; lia]|exact Hn]. }
  destruct (Hab (INR k * dt) ltac:(lra)) as [Ak Bk]. destruct (Hl (INR k * dt) dt Tk ltac:(lra) Tk1) as [DA DB].
  destruct (HB' k ltac:(lia)) as (Mk & Sk & Ck).
  assert (B2 : B * dt <= 2 * B * dt) by (assert (0 <= B * dt) by (apply Rmult_le_pos; lra); lra).
  assert (D1 : Rabs (nth (k + 1) mt 0 - nth k mt 0 - dt * (- a (INR k * dt) * nth k mt 0 + b (INR k * dt))) <= G * dt ^ 2).
  { pose proof (fwd_mean_1 _ _ _ _ _ _ _ _ _ k Hs ltac:(rewrite !grid_len; auto) ltac:(rewrite grid_len; lia)) as Q.
    rewrite !grid_nth in Q by lia. rewrite INR_next in Q.
    apply (Rle_trans _ (G1 * dt ^ 2)); [|apply Rmult_le_compat_r; [apply pow2_ge_0|unfold G; lra]].
    pose proof (C1 mtd dt (a (INR k * dt)) (a (INR k * dt + dt)) (b (INR k * dt)) (b (INR k * dt + dt)) (nth k mt 0) ltac:(lra) ltac:(lra) ltac:(lra) ltac:(lra) ltac:(lra) ltac:(lra)) as W.
    refine (Rle_trans _ _ _ _ W). right. apply (f_equal Rabs). apply f_equal2; [|reflexivity]. apply f_equal2; [exact Q|reflexivity]. }
  assert (D2 : Rabs (nth (k + 1) st 0 - nth k st 0 - dt * (- 2 * a (INR k * dt) * nth k st 0 + sigma)) <= G * dt ^ 2).
  { destruct (rk2_dec mtd) as [->|Hne].
    - pose proof (solve_fwd_step _ _ _ _ _ _ _ _ _ _ k Hs ltac:(rewrite grid_len; lia)) as Q. apply (f_equal snd) in Q. cbn [snd] in Q.
      rewrite rk2_body_var in Q by (rewrite grid_len; lia). rewrite !grid_nth in Q by lia. rewrite INR_next in Q.
      apply (Rle_trans _ (G2 * dt ^ 2)); [|apply Rmult_le_compat_r; [apply pow2_ge_0|unfold G; lra]].
      pose proof (C2 dt (a (INR k * dt)) (a (INR k * dt + dt)) sigma (nth k st 0) ltac:(lra) Ak ltac:(rewrite Rabs_right; lra) Sk DA) as W.
      refine (Rle_trans _ _ _ _ W). right. apply (f_equal Rabs). apply f_equal2; [|reflexivity]. apply f_equal2; [exact Q|reflexivity].
    - pose proof (fwd_cov_1 _ _ _ _ _ _ _ _ _ k Hne Hs ltac:(rewrite !grid_len; auto) ltac:(rewrite grid_len; lia)) as Q.
      rewrite !grid_nth in Q by lia. rewrite INR_next in Q.
      rewrite (rk_step_ext (V:=sV) (tab_of mtd) _ (fun th u => mean_rhs1 (interp (V:=sV) th (2 * a (INR k * dt)) (2 * a (INR k * dt + dt))) (interp (V:=sV) th sigma sigma) u)) in Q
        by (intros th u; unfold mean_rhs1, cov_rhs1, interp; cbn; rnum; change (car RNum) with R; ring).
      apply (Rle_trans _ (G1 * dt ^ 2)); [|apply Rmult_le_compat_r; [apply pow2_ge_0|unfold G; lra]].
      assert (AB : forall z : R, Rabs (2 * z) = 2 * Rabs z) by (intros z; rewrite Rabs_mult, (Rabs_right 2); lra).
      pose proof (C1 mtd dt (2 * a (INR k * dt)) (2 * a (INR k * dt + dt)) sigma sigma (nth k st 0) ltac:(lra) ltac:(rewrite AB; lra) ltac:(rewrite Rabs_right; lra) ltac:(lra)
        ltac:(rewrite <- Rmult_minus_distr_l, AB; lra) ltac:(rewrite Rminus_eq_0, Rabs_R0; lra)) as W.
      refine (Rle_trans _ _ _ _ W). right. apply (f_equal Rabs). apply f_equal2; [apply f_equal2; [exact Q|reflexivity]|ring]. }
  destruct (one_step dt G B c sigma (a (INR k * dt)) (b (INR k * dt)) (nth k mt 0) (nth (k + 1) mt 0) (nth k st 0) (nth (k + 1) st 0)) as (R1 & R2 & R3 & R4);
    try assumption; try lra; [unfold G; lra|]. fold L in R3, R4. fold H in R3, R4.
  assert (0 <= H * dt) by (apply Rmult_le_pos; lra). assert (0 <= (H * B + G) * dt) by (apply Rmult_le_pos; [unfold G; lra|lra]).
  split; [split; [exact R1|exact R2]|]. split; [apply (Rle_trans _ _ _ R3); lra|apply (Rle_trans _ _ _ R4); lra].
Qed.
End Near.

(** ** the bound *)
Lemma Rsum_le_c n (f g : nat -> R) c : (forall k, (k < n)%nat -> f k <= g k + c) -> Rsum n f <= Rsum n g + INR n * c.
Proof.
  induction n as [|n IH]; intros H; [cbn; lra|]. rewrite S_INR. cbn [Rsum]. specialize (IH ltac:(intros; apply H; lia)). specialize (H n ltac:(lia)). lra.
Qed.
Section Limit.
Context (f : R -> R) (ex : R -> R -> R -> R -> R) (lq : R -> R -> list R) (T sigma m0 s0 : R).
Context (HT : 0 <= T) (Hsg : 0 < sigma) (Hs0 : 0 < s0) (Hql : forall a b, (length (lq a b) <= 7)%nat) (Hqe : forall a b x, mismatch f sigma a b x = peval 0 (lq a b) x).
Context (Hqm : forall a b m s, pmom 0 (lq a b) m s = ex a b m s) (Hisp : isp ex).
Context (a b : R -> R) (Ha : smooth 2 T a) (Hb : smooth 2 T b).
Lemma limit_bound : exists C d0, 0 < d0 /\ forall mtd dt n mu tau r y t (mt st : list R), 0 < dt < d0 -> INR n * dt <= T -> 0 < tau -> 0 < r ->
  List.Forall (fun i => (i < n + 1)%nat) t ->
  solve_fwd S1 mtd dt (grid dt (n + 1) a) (grid dt (n + 1) b) m0 s0 sigma = Ok (mt, st) ->
  (forall k, (k <= n)%nat -> 0 < nth k st 0) /\
  forall Z, evidence f sigma (n + 1) dt mu tau y t r Z -> 0 < Z /\
  - ln Z <= kl1 m0 s0 mu tau + trap (n + 1) (fun k => ex (nth k (grid dt (n + 1) a) 0) (nth k (grid dt (n + 1) b) 0) (nth k mt 0) (nth k st 0)) dt
    + Rsum (length t) (fun j => lterm r (nth j y 0) (nth (nth j t O) mt 0) (nth (nth j t O) st 0)) + C * dt.
Proof.
  destruct (chain_near T sigma m0 s0 HT Hsg Hs0 a b Ha Hb) as (H & d0 & B & H0 & Hd0 & HB & Hab & HC).
  destruct Hisp as (p & Hp). destruct (pe_lip p B ltac:(lra)) as (Cl & Cl0 & HL). destruct (pe_bdd p B ltac:(lra)) as (Cb & Cb0 & HBd).
  exists (T * (Cl * H) + Cb), (Rmin d0 (/ (H + 1))). split; [apply Rmin_pos; [lra|apply Rinv_0_lt_compat; lra]|].
  intros mtd dt n mu tau r y t mt st Hdt Hn Htau Hr Ht Hs.
  assert (X : dt < d0 /\ dt < / (H + 1)) by (split; eapply Rlt_le_trans; try apply Hdt; [apply Rmin_l|apply Rmin_r]). destruct X as [X1 X2].
  assert (HD : 0 <= H * dt <= 1).
  { split; [apply Rmult_le_pos; lra|]. apply (Rle_trans _ (H * / (H + 1))); [apply Rmult_le_compat_l; lra|].
    apply (Rmult_le_reg_r (H + 1)); [lra|]. rewrite Rmult_assoc, Rinv_l by lra. lra. }
  destruct (HC mtd dt n mt st ltac:(lra) Hn Hs) as (Hbd & al & be & Hch).
  split; [intros k Hk; apply Hbd, Hk|]. intros Z HZ.
  destruct (solve_fwd_shape _ _ _ _ _ _ _ _ _ _ Hs) as (_ & _ & M1 & M2).
  assert (M1' : nth 0 mt 0 = m0) by exact (nth_error_nth _ _ _ M1). assert (M2' : nth 0 st 0 = s0) by exact (nth_error_nth _ _ _ M2).
  set (m := fun k => nth k mt 0) in *. set (s := fun k => nth k st 0) in *.
  assert (S0 : 0 < s O) by (unfold s; rewrite M2'; exact Hs0).
  destruct (any_bound f ex lq sigma Hsg Hql Hqe Hqm (n + 1) dt mu tau r y t m s al be ltac:(lra) Htau S0 Hr ltac:(lia) Ht
    (fun k Hk => proj1 (Hch k Hk)) Z HZ) as [PZ BB].
  split; [exact PZ|].
  set (A := fun k => nth k (grid dt (n + 1) a) 0) in *. set (Bo := fun k => nth k (grid dt (n + 1) b) 0) in *.
  assert (EA : forall k, (k <= n)%nat -> A k = a (INR k * dt)) by (intros k Hk; unfold A; rewrite grid_nth by lia; reflexivity).
  assert (EB : forall k, (k <= n)%nat -> Bo k = b (INR k * dt)) by (intros k Hk; unfold Bo; rewrite grid_nth by lia; reflexivity).
  set (e := fun k => ex (A k) (Bo k) (m k) (s k)) in *.
  assert (TB : forall k, (k <= n)%nat -> Rabs (A k) <= B /\ Rabs (Bo k) <= B).
  { intros k Hk. rewrite EA, EB by exact Hk. apply Hab. split; [apply Rmult_le_pos; [apply pos_INR|lra]|].
    apply (Rle_trans _ (INR n * dt)); [apply Rmult_le_compat_r; [lra|apply le_INR, Hk]|exact Hn]. }
  assert (EV : forall k, (k <= n)%nat -> forall i, Rabs (env4 (A k) (Bo k) (m k) (s k) i) <= B).
  { intros k Hk. destruct (TB k Hk). destruct (Hbd k Hk) as (Q1 & Q2 & _). apply (env4_all (fun z => Rabs z <= B)); assumption. }
  assert (EN : forall k, (k <= n)%nat -> Rabs (e k) <= Cb).
  { intros k Hk. unfold e. rewrite Hp. apply HBd. exact (EV k Hk). }
  assert (ED : forall k, (k < n)%nat -> ex (al k) (be k) (m k) (s k) <= e k + Cl * (H * dt)).
  { intros k Hk. destruct (Hch k ltac:(lia)) as (_ & R1 & R2). rewrite <- EA in R1 by lia. rewrite <- EB in R2 by lia.
    assert (W : Rabs (ex (al k) (be k) (m k) (s k) - e k) <= Cl * (H * dt)).
    { unfold e. rewrite !Hp. apply HL; [exact HD|exact (EV k ltac:(lia))|]. intros [|[|[|i]]]; cbn [env4]; auto; rewrite Rminus_eq_0, Rabs_R0; lra. }
    apply Rabs_le_between in W. lra. }
  replace (n + 1 - 1)%nat with n in BB by lia.
  pose proof (Rsum_le_c n (fun k => ex (al k) (be k) (m k) (s k)) e _ ED) as SUM.
  pose proof (trap_rect (n + 1) e dt ltac:(lia)) as TR. replace (n + 1 - 1)%nat with n in TR by lia.
  pose proof (EN O ltac:(lia)) as N0. pose proof (EN n ltac:(lia)) as N1. apply Rabs_le_between in N0, N1.
  assert (F1 : dt * Rsum n (fun k => ex (al k) (be k) (m k) (s k)) <= dt * Rsum n e + dt * (INR n * (Cl * (H * dt)))).
  { rewrite <- Rmult_plus_distr_l. apply Rmult_le_compat_l; [lra|exact SUM]. }
  assert (F2 : dt * (INR n * (Cl * (H * dt))) <= T * (Cl * H) * dt).
  { replace (dt * (INR n * (Cl * (H * dt)))) with (INR n * dt * (Cl * H * dt)) by ring. replace (T * (Cl * H) * dt) with (T * (Cl * H * dt)) by ring. apply Rmult_le_compat_r; [|exact Hn].
    apply Rmult_le_pos; [apply Rmult_le_pos; lra|lra]. }
  assert (F3 : dt / 2 * (e O - e n) <= Cb * dt).
  { replace (Cb * dt) with (dt / 2 * (2 * Cb)) by field. apply Rmult_le_compat_l; lra. }
  assert (K1 : kl1 (m O) (s O) mu tau = kl1 m0 s0 mu tau) by (unfold m, s; rewrite M1', M2'; reflexivity).
  rewrite K1 in BB.
  assert (FIN : - ln Z <= kl1 m0 s0 mu tau + trap (n + 1) e dt + Rsum (length t) (fun j => lterm r (nth j y 0) (m (nth j t O)) (s (nth j t O))) + (T * (Cl * H) + Cb) * dt) by lra.
  exact FIN.
Qed.
End Limit.
