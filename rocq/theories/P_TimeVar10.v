(** * The covariance of RungeKutta2 in n dimensions on varying coefficients: first order, for small steps. *)
From Coq Require Import List Reals Lra Lia Psatz.
From Coquelicot Require Import Coquelicot.
From Verif Require Import Num Arr ArrFacts Spec_Ode Spec_TimeVar M_Ode P_Ode P_OdeRK P_OdeR P_Conv P_TimeVar P_TimeVar2 P_TimeVar3 P_TimeVar4 P_TimeVar5.
Import ListNotations.
Local Open Scope R_scope.

(** entries of the leading block bounded by e *)
Definition mbd (d : nat) (e : R) (X : Rmat) : Prop := forall i j, (i < d)%nat -> (j < d)%nat -> Rabs (X i j) <= e.
Lemma mbd_pos d e X : mbd d e X -> (0 < d)%nat -> 0 <= e.
Proof. intros H Hd. eapply Rle_trans; [apply Rabs_pos|apply (H 0%nat 0%nat); auto]. Qed.
Lemma rsum_bd n (f : nat -> R) M : (forall k, (k < n)%nat -> Rabs (f k) <= M) -> Rabs (rsum n f) <= INR n * M.
Proof.
  intros H. induction n as [|n IH].
  - cbn. rewrite Rabs_R0. lra.
  - change (rsum (S n) f) with (rsum n f + f n). rewrite S_INR. eapply Rle_trans; [apply Rabs_triang|].
    specialize (IH (fun k Hk => H k ltac:(lia))). specialize (H n ltac:(lia)). lra.
Qed.
(** - A X - X A' *)
Definition linp (d : nat) (A X : Rmat) : Rmat := fun i j => - rsum d (fun k => A i k * X k j) - rsum d (fun k => X i k * A j k).
Lemma linp_bd d A X a x : mbd d a A -> mbd d x X -> mbd d (2 * INR d * (a * x)) (linp d A X).
Proof.
  intros HA HX i j Hi Hj. unfold linp.
  assert (B1 : Rabs (rsum d (fun k => A i k * X k j)) <= INR d * (a * x)).
  { apply rsum_bd. intros k Hk. rewrite Rabs_mult. apply Rmult_le_compat; auto using Rabs_pos. }
  assert (B2 : Rabs (rsum d (fun k => X i k * A j k)) <= INR d * (a * x)).
  { apply rsum_bd. intros k Hk. rewrite Rabs_mult, Rmult_comm. apply Rmult_le_compat; auto using Rabs_pos. }
  apply Rabs_le_between in B1. apply Rabs_le_between in B2. apply Rabs_le_between. lra.
Qed.
Lemma rhs_linp d A Sg X i j : cov_rhsn d A Sg X i j = linp d A X i j + Sg i j.
Proof. reflexivity. Qed.
Lemma linp_minus d A X Y i j : linp d A X i j - linp d A Y i j = linp d A (fun p q => X p q - Y p q) i j.
Proof.
  unfold linp.
  assert (E1 : rsum d (fun k => A i k * (X k j - Y k j)) = rsum d (fun k => A i k * X k j) - rsum d (fun k => A i k * Y k j)).
  { rewrite <- sumn_minus. apply sumn_ext. intros. ring. }
  assert (E2 : rsum d (fun k => (X i k - Y i k) * A j k) = rsum d (fun k => X i k * A j k) - rsum d (fun k => Y i k * A j k)).
  { rewrite <- sumn_minus. apply sumn_ext. intros. ring. }
  rewrite E1, E2. ring.
Qed.
Lemma linp_minus_A d A B X i j : linp d A X i j - linp d B X i j = linp d (fun p q => A p q - B p q) X i j.
Proof.
  unfold linp.
  assert (E1 : rsum d (fun k => (A i k - B i k) * X k j) = rsum d (fun k => A i k * X k j) - rsum d (fun k => B i k * X k j)).
  { rewrite <- sumn_minus. apply sumn_ext. intros. ring. }
  assert (E2 : rsum d (fun k => X i k * (A j k - B j k)) = rsum d (fun k => X i k * A j k) - rsum d (fun k => X i k * B j k)).
  { rewrite <- sumn_minus. apply sumn_ext. intros. ring. }
  rewrite E1, E2. ring.
Qed.

Definition rk2_step_n d dt (Am Sg s : Rmat) : Rmat :=
  fun i j => s i j + dt * cov_rhsn d Am Sg (fun p q => s p q + 1 / 2 * dt * cov_rhsn d s Sg s p q) i j.
Lemma rk2_body_var_n d dt (A : list Rmat) (B : list Rvec) (sigma : Rmat) k m (s : Rmat) i j : (k + 1 < length A)%nat ->
  (snd (fwd_body (Sn d) RK2 dt A B sigma k m s) : Rmat) i j =
  rk2_step_n d dt (fun p q => (nth k A (vzero mV) p q + nth (k + 1) A (vzero mV) p q) / 2) sigma s i j.
Proof.
  intros Hk. cbn [fwd_body]. unfold rk2_fwd_body. cbn [snd].
  rewrite (ga_mids (Sn d) A) by assumption. unfold ga. unfold rk2_step_n, cov_rhsn.
  cbn. unfold fun_st_n, mmul, mtr, half; rnum.
  apply (f_equal2 Rplus); [reflexivity|]. apply (f_equal2 Rmult); [reflexivity|]. apply (f_equal2 Rplus); [|reflexivity].
  apply (f_equal2 Rminus); [apply f_equal|]; apply sumn_ext; intros p Hp; apply (f_equal2 Rmult); try reflexivity; field.
Qed.

Lemma rk2_local_n d dt e (Am A0 Sg s y : Rmat) (y1 : nat -> nat -> R) a a1 Y Sm M2 :
  0 < dt -> 0 <= e <= 1 -> 0 <= Y ->
  mbd d e (fun i j => s i j - y i j) -> mbd d Y y -> mbd d a Am -> mbd d (a1 * dt) (fun i j => Am i j - A0 i j) -> mbd d Sm Sg ->
  mbd d (M2 * dt ^ 2) (fun i j => y1 i j - y i j - dt * cov_rhsn d A0 Sg y i j) ->
  mbd d ((1 + 2 * INR d * a * dt) * e + (2 * INR d * a1 * Y + INR d * a * (2 * INR d * (Y + 1) ^ 2 + Sm) + M2) * dt ^ 2)
    (fun i j => rk2_step_n d dt Am Sg s i j - y1 i j).
Proof.
  intros Hdt He HY Hs Hy Ha Haa HS Hr i j Hi Hj.
  assert (Hs1 : mbd d (Y + 1) s).
  { intros p q Hp Hq. specialize (Hs p q Hp Hq). specialize (Hy p q Hp Hq).
    apply Rabs_le_between in Hs. apply Rabs_le_between in Hy. apply Rabs_le_between. lra. }
  assert (HQ : mbd d (2 * INR d * (Y + 1) ^ 2 + Sm) (fun p q => cov_rhsn d s Sg s p q)).
  { intros p q Hp Hq. rewrite rhs_linp. pose proof (linp_bd d s s _ _ Hs1 Hs1 p q Hp Hq) as B. specialize (HS p q Hp Hq).
    replace ((Y + 1) ^ 2) with ((Y + 1) * (Y + 1)) by ring. apply Rabs_le_between in B. apply Rabs_le_between in HS. apply Rabs_le_between. lra. }
  set (x := fun p q => s p q + 1 / 2 * dt * cov_rhsn d s Sg s p q).
  set (Q := 2 * INR d * (Y + 1) ^ 2 + Sm) in *.
  assert (Hx : mbd d (dt / 2 * Q) (fun p q => x p q - s p q)).
  { intros p q Hp Hq. unfold x. replace (s p q + 1 / 2 * dt * cov_rhsn d s Sg s p q - s p q) with (dt / 2 * cov_rhsn d s Sg s p q) by field.
    rewrite Rabs_mult, (Rabs_pos_eq (dt / 2)) by lra. apply Rmult_le_compat_l; [lra|]. apply HQ; auto. }
  unfold rk2_step_n. fold x. rewrite rhs_linp.
  pose proof (linp_bd d Am _ _ _ Ha Hx i j Hi Hj) as B1. rewrite <- linp_minus in B1.
  pose proof (linp_bd d Am _ _ _ Ha Hs i j Hi Hj) as B2. rewrite <- linp_minus in B2.
  pose proof (linp_bd d _ y _ _ Haa Hy i j Hi Hj) as B3. rewrite <- linp_minus_A in B3.
  specialize (Hs i j Hi Hj). specialize (Hr i j Hi Hj). cbn beta in Hs, Hr. rewrite rhs_linp in Hr.
  set (l1 := linp d Am x i j) in *. set (l2 := linp d Am s i j) in *. set (l3 := linp d Am y i j) in *. set (l4 := linp d A0 y i j) in *.
  replace (s i j + dt * (l1 + Sg i j) - y1 i j) with
    ((s i j - y i j) + dt * (l1 - l2) + dt * (l2 - l3) + dt * (l3 - l4) - (y1 i j - y i j - dt * (l4 + Sg i j))) by ring.
  apply (Rmult_le_compat_l dt) in B1; [|lra]. apply (Rmult_le_compat_l dt) in B2; [|lra]. apply (Rmult_le_compat_l dt) in B3; [|lra].
  rewrite <- (Rabs_pos_eq dt) in B1 at 1 by lra. rewrite <- (Rabs_pos_eq dt) in B2 at 1 by lra. rewrite <- (Rabs_pos_eq dt) in B3 at 1 by lra.
  rewrite <- Rabs_mult in B1, B2, B3.
  repeat match goal with H : Rabs _ <= _ |- _ => apply Rabs_le_between in H end. apply Rabs_le_between. lra.
Qed.

Theorem rk2_cov_first_n d T (A : R -> Rmat) (s : R -> Rmat) (sigma : Rmat) : 0 <= T ->
  (forall i j, (i < d)%nat -> (j < d)%nat -> smooth 2 T (fun t => A t i j)) ->
  (forall t i j, 0 <= t <= T -> (i < d)%nat -> (j < d)%nat ->
     is_derive (fun u => s u i j) t (cov_rhsn d (A t) sigma (s t) i j)) ->
  exists K dt0, 0 < dt0 /\ forall dt n (b : R -> Rvec) (m0 : Rvec) (s0 : Rmat) mt (st : list Rmat),
    0 < dt < dt0 -> INR n * dt <= T -> (forall i j, (i < d)%nat -> (j < d)%nat -> s0 i j = s 0 i j) ->
    solve_fwd (Sn d) RK2 dt (grid dt (n + 1) A) (grid dt (n + 1) b) m0 s0 sigma = Ok (mt, st) ->
    forall k i j, (k <= n)%nat -> (i < d)%nat -> (j < d)%nat ->
    Rabs (nth k st (vzero mV) i j - s (INR k * dt) i j) <= K * dt.
Proof.
  intros HT Ha Hs.
  assert (fin := fin_pair d).
  set (inI := fun p : nat * nat => (fst p < d)%nat /\ (snd p < d)%nat) in *.
  destruct (fin (fun p M => forall t, 0 <= t <= T -> Rabs (A t (fst p) (snd p)) <= M)) as (a & a0 & Hab).
  { intros i x y H Hxy t Ht. eapply Rle_trans; eauto. }
  { intros [i j] [Hi Hj]. apply (smooth_bdd 2 T (fun t => A t i j)). apply Ha; auto. }
  destruct (fin (fun p M => forall t u, 0 <= t -> t <= u -> u <= T -> Rabs (A u (fst p) (snd p) - A t (fst p) (snd p)) <= M * (u - t))) as (a1 & a10 & Hab1).
  { intros i x y H Hxy t u H1 H2 H3. eapply Rle_trans; [apply H; auto|]. apply Rmult_le_compat_r; lra. }
  { intros [i j] [Hi Hj]. destruct (Ha i j Hi Hj) as [_ (f & Hf & (M & HM) & _)]. exists M. intros t u H1 H2 H3. cbn [fst snd].
    apply (taylor1 (fun t => A t i j) f); auto; intros v Hv; [apply Hf|apply HM]; lra. }
  destruct (fin (fun p M => forall t, 0 <= t <= T -> Rabs (s t (fst p) (snd p)) <= M)) as (Y & Y0 & HY).
  { intros i x y H Hxy t Ht. eapply Rle_trans; eauto. }
  { intros [i j] [Hi Hj]. apply (derive_bdd T (fun t => s t i j) _ HT (fun t Ht => Hs t i j Ht Hi Hj)). }
  destruct (fin (fun p M => Rabs (sigma (fst p) (snd p)) <= M)) as (Sm & Sm0 & HS).
  { intros i x y H Hxy. lra. }
  { intros [i j] _. eexists. apply Rle_refl. }
  destruct (fin (fun p M => exists f2, (forall t, 0 <= t <= T -> is_derive (fun u => cov_rhsn d (A u) sigma (s u) (fst p) (snd p)) t (f2 t)) /\
     forall t, 0 <= t <= T -> Rabs (f2 t) <= M)) as (M2 & M20 & HM2).
  { intros i x y (f2 & D & B) Hxy. exists f2. split; auto. intros t Ht. eapply Rle_trans; eauto. }
  { intros [i j] Hij. pose proof Hij as [Hi Hj]. cbn [fst snd] in Hi, Hj.
    set (cf := fun (p : nat * nat) k t => if (k <? d)%nat then - A t (fst p) k else - A t (snd p) (k - d)%nat).
    set (ix := fun (p : nat * nat) k => if (k <? d)%nat then (k, snd p) else (fst p, (k - d)%nat)).
    assert (EQ : forall p t, y1 (V := mV) (fun p (u : Rmat) => u (fst p) (snd p)) (d + d) cf ix (fun p _ => sigma (fst p) (snd p)) s p t =
       cov_rhsn d (A t) sigma (s t) (fst p) (snd p)).
    { intros [p q] t. unfold y1, cf, ix, cov_rhsn. cbn [fst snd].
      rewrite (rsum_split d d _ (fun k => - (A t p k * s t k q)) (fun k => - (s t p k * A t q k))).
      + rewrite !sumn_opp. lra.
      + intros k Hk. rewrite (ltb_lo k d Hk). cbn. ring.
      + intros k Hk. rewrite (ltb_hi k d). replace (d + k - d)%nat with k by lia. cbn. ring. }
    pose proof (y1_smooth (V := mV) inI (fun p (u : Rmat) => u (fst p) (snd p)) T (d + d) cf ix (fun p _ => sigma (fst p) (snd p)) s HT) as SM.
    assert (H1 : forall p k, inI p -> (k < d + d)%nat -> inI (ix p k)).
    { intros [p q] k [Hp Hq] Hk. unfold inI, ix. cbn [fst snd] in *. destruct (Nat.ltb_spec k d); cbn [fst snd]; lia. }
    assert (H2 : forall p k, inI p -> (k < d + d)%nat -> smooth 2 T (cf p k)).
    { intros [p q] k [Hp Hq] Hk. unfold cf. cbn [fst snd] in *. destruct (Nat.ltb_spec k d).
      + apply (smooth_opp 2 T (fun t => A t p k)). auto.
      + apply (smooth_opp 2 T (fun t => A t q (k - d)%nat)). apply Ha; lia. }
    specialize (SM H1 H2 (fun p _ => smooth_const 2 T _)).
    assert (H3 : forall p t, inI p -> 0 <= t <= T -> is_derive (fun u => s u (fst p) (snd p)) t
       (y1 (V := mV) (fun p (u : Rmat) => u (fst p) (snd p)) (d + d) cf ix (fun p _ => sigma (fst p) (snd p)) s p t)).
    { intros [p q] t [Hp Hq] Ht. rewrite EQ. apply Hs; auto. }
    destruct (SM H3 (i, j) Hij) as [_ (f2 & D & (M & HM) & _)].
    exists M, f2. split; auto. intros t Ht. eapply is_derive_ext; [|apply D, Ht]. intros u. cbn beta. apply EQ. }
  set (dn := INR d) in *. assert (dn0 : 0 <= dn) by apply pos_INR.
  set (C := 2 * dn * a1 * Y + dn * a * (2 * dn * (Y + 1) ^ 2 + Sm) + M2).
  assert (C0 : 0 <= C).
  { unfold C. pose proof (pow2_ge_0 (Y + 1)). assert (0 <= dn * a) by (apply Rmult_le_pos; lra).
    assert (0 <= 2 * dn * a1 * Y) by (repeat apply Rmult_le_pos; lra).
    assert (0 <= 2 * dn * (Y + 1) ^ 2) by (repeat apply Rmult_le_pos; lra).
    assert (0 <= dn * a * (2 * dn * (Y + 1) ^ 2 + Sm)) by (apply Rmult_le_pos; lra). lra. }
  set (L := 2 * dn * a). assert (L0 : 0 <= L) by (unfold L; repeat apply Rmult_le_pos; lra).
  set (K := T * exp (T * L) * C).
  assert (K0 : 0 <= K) by (unfold K; apply Rmult_le_pos; auto; apply Rmult_le_pos; auto; left; apply exp_pos).
  exists K, (/ (K + 1)). split; [apply Rinv_0_lt_compat; lra|].
  intros dt n b m0 s0 mt st Hdt Hn H0 Hr.
  assert (HK1 : K * dt <= 1).
  { assert ((K + 1) * dt < (K + 1) * / (K + 1)) by (apply Rmult_lt_compat_l; lra). rewrite Rinv_r in H by lra. lra. }
  set (g := 1 + L * dt).
  assert (g1 : 1 <= g) by (unfold g; assert (0 <= L * dt) by (apply Rmult_le_pos; lra); lra).
  assert (Hg : forall k, (k <= n)%nat -> INR k * g ^ k * (C * dt ^ 2) <= K * dt).
  { intros k Hk. assert (Hkt : 0 <= INR k * dt <= T).
    { split; [apply Rmult_le_pos; [apply pos_INR|lra]|]. eapply Rle_trans; [|exact Hn]. apply Rmult_le_compat_r; [lra|]. apply le_INR; auto. }
    assert (G : g ^ k <= exp (T * L)).
    { apply Rle_trans with (exp (L * dt) ^ k).
      - apply pow_incr. split; [lra|]. unfold g. apply exp_ineq1_le.
      - rewrite exp_pow. destruct (Req_dec (INR k * (L * dt)) (T * L)) as [-> | Hne]; [lra|].
        assert (INR k * dt * L <= T * L) by (apply Rmult_le_compat_r; lra).
        left. apply exp_increasing. lra. }
    unfold K. replace (INR k * g ^ k * (C * dt ^ 2)) with ((INR k * dt * g ^ k) * (C * dt)) by ring.
    replace (T * exp (T * L) * C * dt) with ((T * exp (T * L)) * (C * dt)) by ring.
    apply Rmult_le_compat_r; [apply Rmult_le_pos; lra|]. apply Rmult_le_compat; try lra. apply pow_le; lra. }
  assert (Main : forall k, (k <= n)%nat -> mbd d (INR k * g ^ k * (C * dt ^ 2)) (fun i j => nth k st (vzero mV) i j - s (INR k * dt) i j)).
  { induction k; intros Hk.
    - intros i j Hi Hj. pose proof (solve_fwd_shape _ _ _ _ _ _ _ _ _ _ Hr) as (_ & _ & _ & E).
      assert (E' : nth 0 st (vzero mV) = s0) by exact (nth_error_nth st 0 (vzero mV) E). rewrite E', H0 by auto. cbn.
      replace (0 * dt) with 0 by ring. rewrite Rminus_diag_eq by reflexivity. rewrite Rabs_R0. lra.
    - specialize (IHk ltac:(lia)). pose proof (Hg k ltac:(lia)) as Gk.
      set (e := INR k * g ^ k * (C * dt ^ 2)) in *.
      assert (e0 : 0 <= e).
      { unfold e. repeat apply Rmult_le_pos; auto using pos_INR; try lra. apply pow_le; lra. }
      pose proof (solve_fwd_step _ _ _ _ _ _ _ _ _ _ k Hr ltac:(rewrite grid_len; lia)) as Q.
      apply (f_equal snd) in Q. cbn [snd] in Q.
      assert (Hk1 : INR k * dt + dt <= T).
      { rewrite <- INR_next. eapply Rle_trans; [|exact Hn]. apply Rmult_le_compat_r; [lra|]. apply le_INR; lia. }
      assert (Hk0 : 0 <= INR k * dt) by (apply Rmult_le_pos; [apply pos_INR|lra]).
      set (Am := fun p q => (A (INR k * dt) p q + A (INR k * dt + dt) p q) / 2).
      assert (Q' : forall i j, nth (S k) st (vzero mV) i j = rk2_step_n d dt Am sigma (nth k st (vzero mV)) i j).
      { intros i j. pose proof (rk2_body_var_n d dt (grid dt (n + 1) A) (grid dt (n + 1) b) sigma k (nth k mt (vzero vV)) (nth k st (vzero mV)) i j
          ltac:(rewrite grid_len; lia)) as W.
        rewrite !grid_nth in W by lia. rewrite INR_next in W. rewrite <- Nat.add_1_r. unfold Am. rewrite <- W.
        exact (f_equal (fun z : Rmat => z i j) Q). }
      set (t := INR k * dt) in *. replace (INR (S k) * dt) with (t + dt) by (rewrite S_INR; unfold t; ring).
      pose proof (rk2_local_n d dt e Am (A t) sigma (nth k st (vzero mV)) (s t) (s (t + dt)) a a1 Y Sm M2) as LL.
      intros i j Hi Hj. rewrite Q'. eapply Rle_trans; [apply LL; auto; try lra; clear LL i j Hi Hj|].
      + intros p q Hp Hq. apply (HY (p, q) (conj Hp Hq)); lra.
      + intros p q Hp Hq. pose proof (Hab (p, q) (conj Hp Hq) t ltac:(lra)) as B1. pose proof (Hab (p, q) (conj Hp Hq) (t + dt) ltac:(lra)) as B2.
        cbn [fst snd] in B1, B2. unfold Am. apply Rabs_le_between in B1. apply Rabs_le_between in B2. apply Rabs_le_between. lra.
      + intros p q Hp Hq. pose proof (Hab1 (p, q) (conj Hp Hq) t (t + dt) ltac:(lra) ltac:(lra) ltac:(lra)) as Z. cbn [fst snd] in Z.
        replace (t + dt - t) with dt in Z by ring. unfold Am. assert (0 <= a1 * dt) by (apply Rmult_le_pos; lra).
        apply Rabs_le_between in Z. apply Rabs_le_between. lra.
      + intros p q Hp Hq. apply (HS (p, q) (conj Hp Hq)).
      + intros p q Hp Hq. destruct (HM2 (p, q) (conj Hp Hq)) as (f2 & D & B). cbn [fst snd] in D.
        pose proof (taylor2 (fun u => s u p q) (fun u => cov_rhsn d (A u) sigma (s u) p q) f2 t (t + dt) M2 ltac:(lra)) as TT.
        replace (t + dt - t) with dt in TT by ring.
        assert (Z : Rabs (s (t + dt) p q - s t p q - dt * cov_rhsn d (A t) sigma (s t) p q) <= M2 * dt ^ 2 / 2).
        { apply TT; intros u Hu; [apply Hs|apply D|apply B]; auto; lra. }
        assert (0 <= M2 * dt ^ 2) by (apply Rmult_le_pos; auto; apply pow2_ge_0). lra.
      + fold dn. fold C. replace (1 + 2 * dn * a * dt) with g by (unfold g, L; ring). unfold e. rewrite S_INR. cbn [pow].
        assert (GG : 1 <= g * g ^ k) by (pose proof (pow_R1_Rle g (S k) g1) as Z; exact Z).
        assert (0 <= C * dt ^ 2) by (apply Rmult_le_pos; auto; apply pow2_ge_0).
        assert (1 * (C * dt ^ 2) <= g * g ^ k * (C * dt ^ 2)) by (apply Rmult_le_compat_r; auto).
        replace (dt * (dt * 1)) with (dt ^ 2) by ring. lra. }
  intros k i j Hk Hi Hj. eapply Rle_trans; [apply Main; auto|]. apply Hg; auto.
Qed.
