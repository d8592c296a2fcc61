(** * Convergence of free_energy and gradient as the grid is refined (one dimension). *)
From Coq Require Import List Arith Reals Lra Lia Psatz Sorted.
From Coquelicot Require Import Coquelicot.
From Verif Require Import Num Arr ArrFacts M_LinAlg M_Utils M_Ode M_Moments M_Sde1 M_Prior M_Like M_VarGP
  Spec_Utils Spec_Ode Spec_TimeVar Spec_Limit Spec_Sde1 Spec_VarGP P_Ode P_OdeR P_OdeRK P_Conv P_Trapz P_Like P_VarGP P_RMat P_Det P_Sde1 P_Adjoint P_Grad1
  P_TimeVar P_TimeVar2 P_TimeVar3 P_TimeVar4 P_TimeVar5 P_TimeVar7 P_TimeVar9 P_Limit1 P_Limit2 P_Limit3 P_Limit4.
Import ListNotations.
Local Open Scope R_scope.

Definition ordc (m : method) : nat := match m with Euler | RK2 => 1%nat | _ => 2%nat end.
Lemma ordc_pow m dt : 0 < dt <= 1 -> dt ^ 2 <= dt ^ ordc m /\ dt ^ ordv m <= dt ^ ordc m /\ 0 < dt ^ ordc m <= dt.
Proof. intros H. assert (dt ^ 2 <= dt) by nra. assert (0 < dt ^ 2) by (apply pow_lt; lra). destruct m; cbn [ordc ordv pow] in *; lra. Qed.

Lemma pow_ordc_le K m dt : 0 <= K -> 0 < dt -> dt <= 1 -> dt <= / (K + 1) -> K * dt ^ ordc m <= 1.
Proof.
  intros HK Hd H1 H2. pose proof (ordc_pow m dt (conj Hd H1)) as (_ & _ & A & B).
  assert (K * dt ^ ordc m <= K * dt) by (apply Rmult_le_compat_l; auto).
  assert ((K + 1) * dt <= (K + 1) * / (K + 1)) by (apply Rmult_le_compat_l; lra). rewrite Rinv_r in H0 by lra. lra.
Qed.

(** ** list sums *)
Lemma total_Rsum (f : R * R -> R) obs : total (map f obs) = Rsum (length obs) (fun j => f (nth j obs (0, 0))).
Proof.
  induction obs as [|o l IH]; [reflexivity|]. cbn [length]. rewrite Rsum_first. cbn [map nth]. unfold total in *. cbn [fold_right]. rewrite IH. reflexivity.
Qed.
Lemma Rsum_diff n (f g : nat -> R) C : (forall k, (k < n)%nat -> Rabs (f k - g k) <= C) -> Rabs (Rsum n f - Rsum n g) <= INR n * C.
Proof.
  induction n as [|n IH]; intros H.
  - cbn [Rsum INR]. replace (0 - 0) with 0 by ring. rewrite Rabs_R0. lra.
  - cbn [Rsum]. rewrite S_INR. replace (Rsum n f + f n - (Rsum n g + g n)) with ((Rsum n f - Rsum n g) + (f n - g n)) by ring.
    eapply Rle_trans; [apply Rabs_triang|]. specialize (IH (fun k Hk => H k (Nat.lt_lt_succ_r _ _ Hk))). specialize (H n (Nat.lt_succ_diag_r n)). lra.
Qed.
Lemma trap_diff n (f g : nat -> R) dt C : 0 <= dt -> (forall k, (k <= n)%nat -> Rabs (f k - g k) <= C) ->
  Rabs (trap (n + 1) f dt - trap (n + 1) g dt) <= INR n * dt * C.
Proof.
  intros Hd H. unfold trap. replace (n + 1 - 1)%nat with n by lia. rewrite Rmult_assoc. apply Rsum_diff. intros k Hk.
  replace (dt * (f k + f (k + 1)%nat) / 2 - dt * (g k + g (k + 1)%nat) / 2) with (dt * (((f k - g k) + (f (k + 1)%nat - g (k + 1)%nat)) / 2)) by field.
  rewrite Rabs_mult, (Rabs_pos_eq dt) by exact Hd. apply Rmult_le_compat_l; [exact Hd|].
  pose proof (H k ltac:(lia)) as A. pose proof (H (k + 1)%nat ltac:(lia)) as B.
  apply Rabs_le_between in A. apply Rabs_le_between in B. apply Rabs_le_between. lra.
Qed.
Lemma with_jumps_bdd T p g c obs : 0 <= T -> (forall u, 0 <= u <= T -> continuous p u) -> (forall u, 0 <= u <= T -> continuous g u) ->
  forall t v, exists M, forall x, 0 <= x <= T -> Rabs (with_jumps (bsol T p g t v) (build T p g c (bsol T p g t v) obs) x) <= M.
Proof.
  intros HT Cp Cg. assert (Bd : forall t v, exists M, forall x, 0 <= x <= T -> Rabs (bsol T p g t v x) <= M).
  { intros t v. apply (derive_bdd T (bsol T p g t v) (fun x => - g x - p x * bsol T p g t v x) HT).
    intros x Hx. apply (bsol_ok T HT p g Cp Cg t v 0 T); lra. }
  induction obs as [|o l IH]; intros t v; [apply Bd|]. cbn [build with_jumps].
  destruct (Bd t v) as (M1 & H1). destruct (IH (fst o) (bsol T p g t v (fst o) + c o)) as (M2 & H2).
  exists (Rabs M1 + Rabs M2). intros x Hx. specialize (H1 x Hx). specialize (H2 x Hx). pose proof (Rle_abs M1). pose proof (Rle_abs M2). pose proof (Rabs_pos M1). pose proof (Rabs_pos M2).
  destruct (Rle_dec x (fst o)); lra.
Qed.

(** ** observation times *)
Lemma times_lt T o l : forall lo, times_ok lo T (o :: l) -> forall o', In o' l -> fst o < fst o' < T.
Proof.
  revert o. induction l as [|p l IH]; intros o lo H o' Ho; [destruct Ho|].
  cbn [times_ok] in H. destruct H as (H1 & H2 & H3).
  destruct Ho as [<-|Ho]; [split; [exact H2|apply H3]|]. specialize (IH p lo H3 o' Ho). lra.
Qed.
Lemma dec_snoc l : forall T o, dec T l -> (forall o', In o' l -> fst o < fst o') -> 0 <= fst o < T -> dec T (l ++ [o]).
Proof.
  induction l as [|p l IH]; intros T o Hd Ho H0.
  - cbn. auto.
  - cbn [app dec] in *. destruct Hd as [H1 H2]. split; [exact H1|]. apply IH; auto.
    + intros o' Ho'. apply Ho. right; exact Ho'.
    + split; [lra|]. apply Ho. left; reflexivity.
Qed.
Lemma times_dec T obs : times_ok 0 T obs -> dec T (rev obs).
Proof.
  induction obs as [|o l IH]; intros H; [exact I|]. cbn [rev]. apply dec_snoc.
  - apply IH. cbn [times_ok] in H. apply H.
  - intros o' Ho. apply in_rev in Ho. apply (times_lt T o l 0 H o' Ho).
  - cbn [times_ok] in H. lra.
Qed.
Lemma at_index_len dt obs t : at_index dt obs t -> length t = length obs.
Proof. induction 1; cbn; congruence. Qed.
Lemma at_index_nth dt obs t : at_index dt obs t -> forall j, (j < length t)%nat -> fst (nth j obs (0, 0)) = INR (nth j t O) * dt.
Proof. induction 1 as [|o k l t H H' IH]; intros j Hj; [cbn in Hj; lia|]. destruct j; cbn [nth]; [exact H|]. apply IH. cbn in Hj. lia. Qed.
Lemma at_index_in dt obs t k : 0 < dt -> at_index dt obs t -> ~ In k t -> forall o, In o obs -> fst o <> INR k * dt.
Proof.
  intros Hdt H Hk. induction H as [|o j l t E H' IH]; intros p Hp; [destruct Hp|]. destruct Hp as [<-|Hp].
  - rewrite E. intros Q. apply Rmult_eq_reg_r in Q; [|lra]. apply INR_eq in Q. apply Hk. left; exact Q.
  - apply IH; auto. intros Q. apply Hk. right; exact Q.
Qed.
Lemma at_index_sorted dt T obs t : 0 < dt -> times_ok 0 T obs -> at_index dt obs t -> Sorted le t /\ NoDup t.
Proof.
  intros Hdt Ho H. induction H as [|o k l t E H' IH]; [split; constructor|].
  pose proof (times_lt T o l 0 Ho) as L. cbn [times_ok] in Ho. destruct Ho as (_ & _ & Ho). destruct (IH Ho) as [S1 N1].
  assert (G : forall j, In j t -> (k < j)%nat).
  { intros j Hj. assert (Q : forall (l : list (R * R)) t, Forall2 (fun o k => fst o = INR k * dt) l t -> In j t -> exists p, In p l /\ fst p = INR j * dt).
    { clear. induction 1 as [|p i l t E H IH]; intros Hj; [destruct Hj|]. destruct Hj as [->|Hj]; [exists p; split; [left; reflexivity|exact E]|].
      destruct (IH Hj) as (q & Hq & Eq). exists q. split; [right; exact Hq|exact Eq]. }
    destruct (Q l t H' Hj) as (p & Hp & Ep). specialize (L p Hp). rewrite E, Ep in L. apply INR_lt. apply Rmult_lt_reg_r with dt; lra. }
  split.
  - constructor; auto. destruct t as [|j t]; constructor. specialize (G j (or_introl eq_refl)). lia.
  - constructor; auto. intros Q. specialize (G k Q). lia.
Qed.
Lemma at_index_lt dt T obs t n : 0 < dt -> INR n * dt = T -> times_ok 0 T obs -> at_index dt obs t -> List.Forall (fun i => (i < n)%nat) t.
Proof.
  intros Hdt Hn Ho H. induction H as [|o k l t E H' IH]; constructor.
  - cbn [times_ok] in Ho. destruct Ho as ((_ & L) & _). rewrite E, <- Hn in L. apply INR_lt. apply Rmult_lt_reg_r with dt; lra.
  - apply IH. cbn [times_ok] in Ho. apply Ho.
Qed.

Section Conv.
Context (e ec ea eb em es : R -> R -> R -> R -> R) (pC pA pB pM pS : pe).
Context (RC : repr pC ec) (RA : repr pA ea) (RB : repr pB eb) (RM : repr pM em) (RS : repr pS es).
Context (energy : R -> list R -> list R -> list R -> list R -> option (list nat) -> Energy1 RNum) (isig : R).
Context (EO : forall dt, energy_ok (energy dt) isig ea eb em es).
Context (Hsde : forall dt t A B M S, Sorted le t -> length B = length A -> length M = length A -> length S = length A ->
  e_sde (energy dt A B M S (Some t)) = trap (length A) (fun k => ec (nth k A 0) (nth k B 0) (nth k M 0) (nth k S 0)) dt).
Context (T sigma m0 s0 mu tau r : R) (HT : 0 <= T) (Hr : 0 < r) (obs : list (R * R)) (Hobs : times_ok 0 T obs).
Context (a b m s : R -> R) (Ha : smooth 2 T a) (Hb : smooth 2 T b) (Hms : moments T sigma m0 s0 a b m s).
Notation ods := (rev obs).
Notation EE mtd dt n t := (vgp1 (K:=RNum) ln PI (energy dt) mtd (n + 1) dt sigma isig m0 s0 mu tau (map snd obs) t r 1).
Notation x_ dt n := (grid dt (n + 1) a ++ grid dt (n + 1) b).

Let Ha1 := smooth_pred 1 T a Ha. Let Hb1 := smooth_pred 1 T b Hb.
Lemma Sms : smooth 2 T m /\ smooth 2 T s.
Proof. destruct (moments_smooth T sigma m0 s0 2 a b m s HT Ha Hb Hms) as [A B]. split; apply smooth_pred; assumption. Qed.

Lemma fwd_err : exists K dt0, 0 <= K /\ 0 < dt0 <= 1 /\ forall mtd dt n mt st, 0 < dt < dt0 -> INR n * dt = T ->
  solve_fwd S1 mtd dt (grid dt (n + 1) a) (grid dt (n + 1) b) m0 s0 sigma = Ok (mt, st) ->
  forall k, (k <= n)%nat -> Rabs (nth k mt 0 - m (INR k * dt)) <= K * dt ^ ordc mtd /\ Rabs (nth k st 0 - s (INR k * dt)) <= K * dt ^ ordc mtd.
Proof.
  destruct Hms as (M0 & S0 & D).
  destruct (mean_conv_1 T a b m HT Ha Hb) as (K1 & H1); [intros t Ht; apply D, Ht|].
  destruct (cov_conv_1 T a s sigma HT Ha) as (K2 & H2); [intros t Ht; apply D, Ht|].
  destruct (rk2_cov_first T a s sigma HT Ha) as (K3 & dt0 & Hd0 & H3); [intros t Ht; apply D, Ht|].
  exists (Rabs K1 + Rabs K2 + Rabs K3), (Rmin 1 dt0).
  pose proof (Rabs_pos K1). pose proof (Rabs_pos K2). pose proof (Rabs_pos K3). pose proof (Rle_abs K1). pose proof (Rle_abs K2). pose proof (Rle_abs K3).
  split; [lra|]. split; [split; [apply Rmin_pos; lra|apply Rmin_l]|].
  intros mtd dt n mt st Hdt Hn Hs k Hk.
  assert (X : dt < 1 /\ dt < dt0) by (split; eapply Rlt_le_trans; try apply Hdt; [apply Rmin_l|apply Rmin_r]).
  pose proof (ordc_pow mtd dt ltac:(lra)) as (P1 & P2 & P3).
  assert (mono : forall K z, 0 <= z -> z <= dt ^ ordc mtd -> K <= Rabs K1 + Rabs K2 + Rabs K3 -> K * z <= (Rabs K1 + Rabs K2 + Rabs K3) * dt ^ ordc mtd).
  { intros K z Hz Hz1 HK. apply Rle_trans with ((Rabs K1 + Rabs K2 + Rabs K3) * z); [apply Rmult_le_compat_r; auto|apply Rmult_le_compat_l; lra]. }
  assert (V0 : 0 <= dt ^ ordv mtd) by (apply pow_le; lra).
  split.
  - eapply Rle_trans; [apply (H1 mtd dt n m0 s0 sigma mt st); auto; lra|]. apply mono; auto; lra.
  - destruct mtd eqn:Em.
    + eapply Rle_trans; [apply (H2 Euler dt n b m0 s0 mt st); auto; try lra; discriminate|]. apply mono; auto; lra.
    + eapply Rle_trans; [apply (H2 Heun dt n b m0 s0 mt st); auto; try lra; discriminate|]. apply mono; auto; lra.
    + eapply Rle_trans; [apply (H3 dt n b m0 s0 mt st); auto; lra|]. cbn [ordc pow] in *. rewrite Rmult_1_r in *. apply Rmult_le_compat_r; lra.
    + eapply Rle_trans; [apply (H2 RK4 dt n b m0 s0 mt st); auto; try lra; discriminate|]. apply mono; auto; lra.
Qed.

Lemma all_bdd : exists B, 0 <= B /\ forall t, 0 <= t <= T -> Rabs (a t) <= B /\ Rabs (b t) <= B /\ Rabs (m t) <= B /\ Rabs (s t) <= B.
Proof.
  destruct (smooth_bdd _ _ _ Ha) as (B1 & HB1). destruct (smooth_bdd _ _ _ Hb) as (B2 & HB2).
  destruct (smooth_bdd _ _ _ (proj1 Sms)) as (B3 & HB3). destruct (smooth_bdd _ _ _ (proj2 Sms)) as (B4 & HB4).
  exists (Rabs B1 + Rabs B2 + Rabs B3 + Rabs B4).
  pose proof (Rabs_pos B1). pose proof (Rabs_pos B2). pose proof (Rabs_pos B3). pose proof (Rabs_pos B4).
  pose proof (Rle_abs B1). pose proof (Rle_abs B2). pose proof (Rle_abs B3). pose proof (Rle_abs B4).
  split; [lra|]. intros t Ht. specialize (HB1 t Ht). specialize (HB2 t Ht). specialize (HB3 t Ht). specialize (HB4 t Ht). lra.
Qed.
(** a polynomial of the computed arrays *)
Lemma repr_lip p f : repr p f -> exists C, 0 <= C /\ forall t m' s' d, 0 <= t <= T -> 0 <= d <= 1 ->
  Rabs (m' - m t) <= d -> Rabs (s' - s t) <= d -> Rabs (f (a t) (b t) m' s' - f (a t) (b t) (m t) (s t)) <= C * d.
Proof.
  intros Hp. destruct all_bdd as (B & B0 & HB). destruct (pe_lip p B B0) as (C & C0 & HC). exists C. split; [exact C0|].
  intros t m' s' d Ht Hd H1 H2. rewrite !Hp. destruct (HB t Ht) as (X1 & X2 & X3 & X4). apply HC; auto.
  - apply (env4_all (fun z => Rabs z <= B)); auto.
  - intros [|[|[|i]]]; cbn [env4]; auto; match goal with |- Rabs (?u - ?u) <= _ => replace (u - u) with 0 by ring; rewrite Rabs_R0; lra end.
Qed.
Lemma lik_lip l : (forall o, In o l -> 0 <= fst o <= T) -> exists C, 0 <= C /\ forall o m' s' d, In o l -> 0 <= d <= 1 ->
  Rabs (m' - m (fst o)) <= d -> Rabs (s' - s (fst o)) <= d -> Rabs (lterm r (snd o) m' s' - lterm r (snd o) (m (fst o)) (s (fst o))) <= C * d.
Proof.
  induction l as [|p l IH]; intros H.
  - exists 0. split; [lra|]. intros o m' s' d [].
  - destruct IH as (C1 & C10 & H1); [intros o Ho; apply H; right; exact Ho|].
    destruct (repr_lip _ _ (plik_repr r (snd p) Hr)) as (C2 & C20 & H2). exists (C1 + C2). split; [lra|].
    intros o m' s' d Ho Hd A B. assert (0 <= C1 * d) by (apply Rmult_le_pos; lra). assert (0 <= C2 * d) by (apply Rmult_le_pos; lra).
    destruct Ho as [<-|Ho].
    + specialize (H2 (fst p) m' s' d (H p (or_introl eq_refl)) Hd A B). cbv beta in H2. lra.
    + specialize (H1 o m' s' d Ho Hd A B). lra.
Qed.

(** ** the value *)
Notation Fc := (Fval ec T r 0 obs a b m s).
Lemma value_conv : exists K dt0, 0 < dt0 /\ forall mtd dt n t, 0 < dt < dt0 -> INR n * dt = T -> at_index dt obs t ->
  exists v o, (forall st, free_energy (EE mtd dt n t) (x_ dt n) st = (Ok v, Some o)) /\
  Rabs (v - (kl0_1d (K:=RNum) ln mu tau m0 s0 + Fc)) <= K * dt ^ ordc mtd.
Proof.
  destruct fwd_err as (K & d0 & K0 & (D0 & D1) & HK). destruct (repr_lip pC ec RC) as (C & C0 & HC).
  assert (Hin : forall o, In o obs -> 0 <= fst o <= T).
  { intros o Ho. pose proof (dec_lt _ _ o (times_dec T obs Hobs)) as Q. rewrite <- in_rev in Q. specialize (Q Ho). lra. }
  destruct (lik_lip obs Hin) as (Co & Co0 & HCo).
  destruct (trap_conv T (fun t => ec (a t) (b t) (m t) (s t)) HT) as (Kt & Kt0 & HKt).
  { apply (smooth_ext 2 T (fun t => pev pC (env4 (a t) (b t) (m t) (s t)))); [intros t; symmetry; apply RC|].
    apply (pe_smooth 2 T pC (fun t => env4 (a t) (b t) (m t) (s t))). intros [|[|[|i]]]; cbn [env4]; auto; apply Sms. }
  exists (T * (C * K) + Kt + INR (length obs) * (Co * K)), (Rmin d0 (/ (K + 1))).
  split; [apply Rmin_pos; [lra|apply Rinv_0_lt_compat; lra]|].
  intros mtd dt n t Hdt Hn Hidx.
  assert (X : dt < d0 /\ dt < / (K + 1)) by (split; eapply Rlt_le_trans; try apply Hdt; [apply Rmin_l|apply Rmin_r]).
  assert (Hdp : 0 < dt) by lra. assert (Hd1 : dt <= 1) by lra.
  pose proof (pow_ordc_le K mtd dt K0 Hdp Hd1 ltac:(lra)) as Dl. pose proof (ordc_pow mtd dt ltac:(lra)) as (P1 & P2 & P3).
  assert (Dl' : 0 <= K * dt ^ ordc mtd <= 1) by (split; [apply Rmult_le_pos; lra|exact Dl]).
  destruct (at_index_sorted dt T obs t Hdp Hobs Hidx) as [St Nd]. pose proof (at_index_len dt obs t Hidx) as Lt.
  assert (Ft : List.Forall (fun i => (i < n + 1)%nat) t) by (eapply Forall_impl; [|apply (at_index_lt dt T obs t n Hdp Hn Hobs Hidx)]; intros; cbn in *; lia).
  destruct (fe_any (energy dt) isig ec ea eb em es (EO dt) mtd (n + 1) dt sigma m0 s0 mu tau r (map snd obs) t ltac:(lia) Hr
    ltac:(rewrite map_length; symmetry; exact Lt) Ft Nd (fun A B M S => Hsde dt t A B M S St) (grid dt (n + 1) a) (grid dt (n + 1) b) (grid_len _ _ _) (grid_len _ _ _))
    as (mt & st & dm & ds & lam & psi & gm & gs & o & L1 & L2 & _ & _ & _ & _ & Hf & _ & _ & _ & _ & HF & _).
  eexists. exists o. split; [exact HF|].
  pose proof (HK mtd dt n mt st ltac:(lra) Hn Hf) as HE.
  assert (Tk : forall k, (k <= n)%nat -> 0 <= INR k * dt <= T).
  { intros k Hk. split; [apply Rmult_le_pos; [apply pos_INR|lra]|]. rewrite <- Hn. apply Rmult_le_compat_r; [lra|]. apply le_INR, Hk. }
  assert (E1 : Rabs (trap (n + 1) (fun k => ec (nth k (grid dt (n + 1) a) 0) (nth k (grid dt (n + 1) b) 0) (nth k mt 0) (nth k st 0)) dt
     - trap (n + 1) (fun k => ec (a (INR k * dt)) (b (INR k * dt)) (m (INR k * dt)) (s (INR k * dt))) dt) <= INR n * dt * (C * (K * dt ^ ordc mtd))).
  { apply trap_diff; [lra|]. intros k Hk. rewrite !grid_nth by lia. destruct (HE k Hk) as [Q1 Q2]. apply HC; auto. }
  rewrite Hn in E1.
  pose proof (HKt dt n Hdp Hn) as E2. cbv beta in E2.
  assert (E3 : Rabs (Rsum (length t) (fun j => lterm r (nth j (map snd obs) 0) (nth (nth j t O) mt 0) (nth (nth j t O) st 0)) - total (map (fun o => lterm r (snd o) (m (fst o)) (s (fst o))) obs))
    <= INR (length obs) * (Co * (K * dt ^ ordc mtd))).
  { rewrite total_Rsum, Lt. apply Rsum_diff. intros j Hj.
    assert (Hj' : (j < length t)%nat) by lia.
    pose proof (at_index_nth dt obs t Hidx j Hj') as Q. set (oj := nth j obs (0, 0)) in *.
    assert (Ho : In oj obs) by (apply nth_In; exact Hj).
    replace (nth j (map snd obs) 0) with (snd oj) by (unfold oj; symmetry; exact (map_nth snd obs (0, 0) j)).
    assert (Hlt : (nth j t O <= n)%nat) by (rewrite Forall_forall in Ft; specialize (Ft (nth j t O) (nth_In t O Hj')); lia).
    destruct (HE _ Hlt) as [Q1 Q2]. apply HCo; auto; rewrite Q; assumption. }
  unfold Fval. set (I1 := RInt (fun t => ec (a t) (b t) (m t) (s t)) 0 T) in *.
  assert (E4 : Kt * dt ^ 2 <= Kt * dt ^ ordc mtd) by (apply Rmult_le_compat_l; lra).
  set (W1 := trap (n + 1) (fun k => ec (nth k (grid dt (n + 1) a) 0) (nth k (grid dt (n + 1) b) 0) (nth k mt 0) (nth k st 0)) dt) in *.
  set (W2 := trap (n + 1) (fun k => ec (a (INR k * dt)) (b (INR k * dt)) (m (INR k * dt)) (s (INR k * dt))) dt) in *.
  set (U1 := Rsum (length t) _) in *. set (U2 := total _) in *. set (kl := kl0_1d _ _ _ _ _).
  replace (kl + W1 + U1 - (kl + (0 + I1 + U2))) with ((W1 - W2) + (W2 - I1) + (U1 - U2)) by ring.
  eapply Rle_trans; [apply Rabs_triang|]. eapply Rle_trans; [apply Rplus_le_compat_r, Rabs_triang|]. lra.
Qed.

(** ** the adjoint arrays *)
Notation gM' := (gM em a b m s).
Notation gS' := (gS es a b m s).
Notation lps' := (lps em T r ods a b m s).
Notation pps' := (pps es T r ods a b m s).
Notation lam0' := (lam0 em T a b m s).
Notation psi0' := (psi0 es T a b m s).
Notation Lam' := (Lam em T r ods a b m s).
Notation Psi' := (Psi es T r ods a b m s).

Lemma sm_gM : smooth 2 T gM'.
Proof.
  unfold gM. apply (smooth_ext 2 T (fun t => pev pM (env4 (a t) (b t) (m t) (s t)))); [intros t; symmetry; apply RM|].
  apply (pe_smooth 2 T pM (fun t => env4 (a t) (b t) (m t) (s t))). intros [|[|[|i]]]; cbn [env4]; auto; apply Sms.
Qed.
Lemma sm_gS : smooth 2 T gS'.
Proof.
  unfold gS. apply (smooth_ext 2 T (fun t => pev pS (env4 (a t) (b t) (m t) (s t)))); [intros t; symmetry; apply RS|].
  apply (pe_smooth 2 T pS (fun t => env4 (a t) (b t) (m t) (s t))). intros [|[|[|i]]]; cbn [env4]; auto; apply Sms.
Qed.
Lemma dec_ods : dec T ods. Proof. apply times_dec, Hobs. Qed.
Lemma lam_fits' : fits (fun u v y => forall t, u <= t <= v -> is_derive y t (lam_rhs1 (gM' t) (a t) (y t))) (fun v u c => v = u + c) T lam0' lps'.
Proof.
  pose proof (lam_fits em pM RM T sigma m0 s0 r HT ods dec_ods a b m s Ha1 Hb1 Hms) as H. revert H. apply fits_mono; [|intros v u c H; exact H].
  intros u v y H t Ht. specialize (H t Ht). unfold lam_rhs1. replace (- gM' t + a t * y t) with (- gM' t - - a t * y t) by ring. exact H.
Qed.
Lemma psi_fits' : fits (fun u v y => forall t, u <= t <= v -> is_derive y t (psi_rhs1 (gS' t) (a t) (y t))) (fun v u c => v = u + c) T psi0' pps'.
Proof.
  pose proof (psi_fits es pS RS T sigma m0 s0 r HT ods dec_ods a b m s Ha1 Hb1 Hms) as H. revert H. apply fits_mono; [|intros v u c H; exact H].
  intros u v y H t Ht. specialize (H t Ht). unfold psi_rhs1. replace (- gS' t + 2 * a t * y t) with (- gS' t - - 2 * a t * y t) by ring. exact H.
Qed.
Lemma grid_jumps dt t p g c y0 : at_index dt obs t -> on_grid dt (build T p g c y0 ods).
Proof.
  intros H q Hq. apply build_in in Hq. destruct Hq as (o & Ho & E). rewrite <- in_rev in Ho. rewrite E.
  clear -H Ho. induction H as [|o' k l t E H' IH]; [destruct Ho|]. destruct Ho as [<-|Ho]; [exists k; exact E|apply IH, Ho].
Qed.
Lemma interp1 th u v : interp (V := sV) th u v = (1 - th) * u + th * v.
Proof. reflexivity. Qed.
Lemma interp_bd th u v C : node th -> Rabs u <= C -> Rabs v <= C -> Rabs (interp (V := sV) th u v) <= C.
Proof.
  intros Hth Hu Hv. rewrite interp1. apply Rabs_le_between in Hu. apply Rabs_le_between in Hv. apply Rabs_le_between.
  destruct Hth as [->|[->| ->]]; lra.
Qed.

(** the right-hand sides c a y - g with g perturbed by at most C *)
Lemma rhs_pert c A th g1 g2 g1' g2' a1 a2 C x y e0 : node th -> 0 <= A -> 0 <= c -> Rabs (g1 - g1') <= C -> Rabs (g2 - g2') <= C ->
  Rabs a1 <= A -> Rabs a2 <= A -> Rabs (x - y) <= e0 ->
  Rabs ((- interp (V:=sV) th g1 g2 + c * interp (V:=sV) th a1 a2 * x) - (- interp (V:=sV) th g1' g2' + c * interp (V:=sV) th a1 a2 * y)) <= (c * A + 1) * (e0 + C / (c * A + 1)).
Proof.
  intros Hth A0 c0 H1 H2 H3 H4 Hxy.
  assert (Q : 0 < c * A + 1) by (assert (0 <= c * A) by (apply Rmult_le_pos; auto); lra).
  replace (_ - _) with (- interp (V:=sV) th (g1 - g1') (g2 - g2') + c * interp (V:=sV) th a1 a2 * (x - y)) by (rewrite !interp1; ring).
  replace ((c * A + 1) * (e0 + C / (c * A + 1))) with ((c * A + 1) * e0 + C) by (field; lra).
  eapply Rle_trans; [apply Rabs_triang|]. rewrite Rabs_Ropp, !Rabs_mult, (Rabs_pos_eq c) by exact c0.
  pose proof (interp_bd th _ _ C Hth H1 H2) as I1. pose proof (interp_bd th _ _ A Hth H3 H4) as I2.
  assert (c * Rabs (interp (V := sV) th a1 a2) * Rabs (x - y) <= c * A * e0).
  { apply Rmult_le_compat; auto using Rabs_pos; [apply Rmult_le_pos; auto using Rabs_pos|apply Rmult_le_compat_l; auto]. }
  assert (0 <= e0) by (eapply Rle_trans; [apply Rabs_pos|exact Hxy]). lra.
Qed.

Lemma bwd_err : exists K dt0, 0 <= K /\ 0 < dt0 <= 1 /\ forall mtd dt n t mt st dm ds gm gs lam psi, 0 < dt < dt0 -> INR n * dt = T -> at_index dt obs t ->
  length dm = (n + 1)%nat -> length ds = (n + 1)%nat ->
  solve_fwd S1 mtd dt (grid dt (n + 1) a) (grid dt (n + 1) b) m0 s0 sigma = Ok (mt, st) ->
  (forall k, (k < n + 1)%nat -> nth k dm 0 = em (a (INR k * dt)) (b (INR k * dt)) (nth k mt 0) (nth k st 0) /\
                            nth k ds 0 = es (a (INR k * dt)) (b (INR k * dt)) (nth k mt 0) (nth k st 0)) ->
  (forall k, ~ In k t -> nth k gm 0 = 0 /\ nth k gs 0 = 0) ->
  (forall j, (j < length t)%nat -> nth (nth j t O) gm 0 = - (nth j (map snd obs) 0 - nth (nth j t O) mt 0) / r /\ nth (nth j t O) gs 0 = 1 / 2 / r) ->
  solve_bwd S1 mtd dt (grid dt (n + 1) a) dm ds gm gs = Ok (lam, psi) ->
  forall k, (k <= n)%nat -> Rabs (nth k lam 0 - Lam' (INR k * dt)) <= K * dt ^ ordc mtd /\ Rabs (nth k psi 0 - Psi' (INR k * dt)) <= K * dt ^ ordc mtd.
Proof.
  destruct fwd_err as (Kf & d0 & Kf0 & (D0 & D1) & HKf).
  destruct (repr_lip pM em RM) as (C1 & C10 & HC1). destruct (repr_lip pS es RS) as (C2 & C20 & HC2).
  destruct all_bdd as (A & A0 & HA).
  destruct (lam_conv_1 T a gM' lam0' lps' HT Ha sm_gM) as (K1 & HK1); [unfold lam0, bsol; apply lin_sol_0|apply lam_fits'|].
  destruct (psi_conv_1 T a gS' psi0' pps' HT Ha sm_gS) as (K2 & HK2); [unfold psi0, bsol; apply lin_sol_0|apply psi_fits'|].
  set (L1 := 1 * A + 1). set (L2 := 2 * A + 1).
  set (E1 := exp (T * L1) * (C1 * Kf / L1 + INR (length obs) * (Kf / r))).
  set (E2 := exp (T * L2) * (C2 * Kf / L2 + 0)).
  assert (L1p : 0 < L1) by (unfold L1; lra). assert (L2p : 0 < L2) by (unfold L2; lra).
  assert (E10 : 0 <= E1).
  { unfold E1. apply Rmult_le_pos; [left; apply exp_pos|]. apply Rplus_le_le_0_compat.
    - apply Rmult_le_pos; [apply Rmult_le_pos; auto|left; apply Rinv_0_lt_compat; exact L1p].
    - apply Rmult_le_pos; [apply pos_INR|]. apply Rmult_le_pos; [auto|left; apply Rinv_0_lt_compat; exact Hr]. }
  assert (E20 : 0 <= E2).
  { unfold E2. apply Rmult_le_pos; [left; apply exp_pos|]. rewrite Rplus_0_r. apply Rmult_le_pos; [apply Rmult_le_pos; auto|left; apply Rinv_0_lt_compat; exact L2p]. }
  exists (E1 + E2 + Rabs K1 + Rabs K2), (Rmin d0 (/ (Kf + 1))).
  pose proof (Rabs_pos K1). pose proof (Rabs_pos K2). pose proof (Rle_abs K1). pose proof (Rle_abs K2).
  split; [lra|]. split; [split; [apply Rmin_pos; [lra|apply Rinv_0_lt_compat; lra]|eapply Rle_trans; [apply Rmin_l|exact D1]]|].
  intros mtd dt n t mt st dm ds gm gs lam psi Hdt Hn Hidx Ldm Lds Hf Hd Hj0 Hj Hb_ k Hk.
  assert (X : dt < d0 /\ dt < / (Kf + 1)) by (split; eapply Rlt_le_trans; try apply Hdt; [apply Rmin_l|apply Rmin_r]).
  assert (Hdp : 0 < dt) by lra. assert (Hd1 : dt <= 1) by lra.
  pose proof (pow_ordc_le Kf mtd dt Kf0 Hdp Hd1 ltac:(lra)) as Dl. pose proof (ordc_pow mtd dt ltac:(lra)) as (P1 & P2 & P3).
  assert (Dl' : 0 <= Kf * dt ^ ordc mtd <= 1) by (split; [apply Rmult_le_pos; lra|exact Dl]).
  set (w := dt ^ ordc mtd) in *.
  destruct (at_index_sorted dt T obs t Hdp Hobs Hidx) as [St Nd]. pose proof (at_index_len dt obs t Hidx) as Lt.
  pose proof (at_index_lt dt T obs t n Hdp Hn Hobs Hidx) as Ft.
  pose proof (HKf mtd dt n mt st ltac:(lra) Hn Hf) as HE.
  assert (Tk : forall k, (k <= n)%nat -> 0 <= INR k * dt <= T).
  { intros i Hi. split; [apply Rmult_le_pos; [apply pos_INR|lra]|]. rewrite <- Hn. apply Rmult_le_compat_r; [lra|]. apply le_INR, Hi. }
  assert (Sm : forall i, (i <= n)%nat -> Rabs (nth i dm 0 - gM' (INR i * dt)) <= C1 * (Kf * w) /\ Rabs (nth i ds 0 - gS' (INR i * dt)) <= C2 * (Kf * w)).
  { intros i Hi. destruct (Hd i ltac:(lia)) as [-> ->]. destruct (HE i Hi) as [Q1 Q2]. unfold gM, gS. split; [apply HC1|apply HC2]; auto. }
  (* the sweep on the exact functions *)
  set (om := map (fun i => jump_at 0 lps' (INR i * dt)) (seq 0 (n + 1))). set (os := map (fun i => jump_at 0 pps' (INR i * dt)) (seq 0 (n + 1))).
  assert (Lom : length om = (n + 1)%nat) by (unfold om; rewrite map_length, seq_length; reflexivity).
  assert (Los : length os = (n + 1)%nat) by (unfold os; rewrite map_length, seq_length; reflexivity).
  assert (Nom : forall i, (i < n + 1)%nat -> nth i om 0 = jump_at 0 lps' (INR i * dt)) by (intros i Hi; unfold om; apply (map_seq_nth' (n + 1) (fun i => jump_at 0 lps' (INR i * dt)) i Hi)).
  assert (Nos : forall i, (i < n + 1)%nat -> nth i os 0 = jump_at 0 pps' (INR i * dt)) by (intros i Hi; unfold os; apply (map_seq_nth' (n + 1) (fun i => jump_at 0 pps' (INR i * dt)) i Hi)).
  assert (LG : forall f : R -> R, length (grid dt (n + 1) f) = (n + 1)%nat) by (intros f; apply grid_len).
  destruct (solve_bwd_total S1 mtd dt (grid dt (n + 1) a) (grid dt (n + 1) gM') (grid dt (n + 1) gS') om os) as (lam' & psi' & Hb').
  { exact (Nat.eq_le_incl _ _ (eq_trans (LG gM') (eq_sym (LG a)))). }
  { exact (Nat.eq_le_incl _ _ (eq_trans (LG gM') (eq_sym (LG gS')))). }
  { change (length (grid dt (n + 1) gM') - 1 <= length om)%nat. rewrite LG, Lom. lia. }
  { change (length (grid dt (n + 1) gM') - 1 <= length os)%nat. rewrite LG, Los. lia. }
  change (list R) in lam'. change (list R) in psi'.
  assert (CL : Rabs (nth k lam' 0 - Lam' (INR k * dt)) <= K1 * dt ^ ordv mtd).
  { unfold Lam. apply (HK1 mtd dt n (grid dt (n + 1) gS') om os lam' psi' Hdp Hn); auto.
    - apply (grid_jumps dt t _ _ _ _ Hidx).
    - intros i Hi. apply Nom. lia. }
  assert (CP : Rabs (nth k psi' 0 - Psi' (INR k * dt)) <= K2 * dt ^ ordv mtd).
  { unfold Psi. apply (HK2 mtd dt n (grid dt (n + 1) gM') om os lam' psi' Hdp Hn); auto.
    - apply (grid_jumps dt t _ _ _ _ Hidx).
    - intros i Hi. apply Nos. lia. }
  (* end values *)
  assert (Ne : dm <> []) by (intros Z; rewrite Z in Ldm; cbn in Ldm; lia).
  destruct (solve_bwd_shape _ _ _ _ _ _ _ _ _ _ Hb_) as (_ & _ & Z1). destruct (Z1 Ne) as [Z1a Z1b].
  destruct (solve_bwd_shape _ _ _ _ _ _ _ _ _ _ Hb') as (_ & _ & Z2). destruct (Z2 (grid_ne _ _ _)) as [Z2a Z2b].
  assert (Y1 : nth n lam 0 = 0) by (apply (last_nth lam n 0 0); rewrite <- Ldm; exact Z1a).
  assert (Y2 : nth n psi 0 = 0) by (apply (last_nth psi n 0 0); rewrite <- Ldm; exact Z1b).
  assert (Y3 : nth n lam' 0 = 0) by (apply (last_nth lam' n 0 0); rewrite <- (LG gM'); exact Z2a).
  assert (Y4 : nth n psi' 0 = 0) by (apply (last_nth psi' n 0 0); rewrite <- (LG gM'); exact Z2b).
  (* jumps *)
  assert (Jin : forall j, (j < length t)%nat -> Rabs (nth (nth j t O) gm 0 - nth (nth j t O) om 0) <= Kf * w / r /\ nth (nth j t O) gs 0 - nth (nth j t O) os 0 = 0).
  { intros j Hjt. set (i := nth j t O). assert (Hi : (i < n)%nat) by (rewrite Forall_forall in Ft; apply Ft, nth_In, Hjt).
    pose proof (at_index_nth dt obs t Hidx j Hjt) as Q. set (oj := nth j obs (0, 0)) in *. fold i in Q.
    assert (Ho : In oj ods) by (rewrite <- in_rev; apply nth_In; lia).
    destruct (Hj j Hjt) as [Q1 Q2]. fold i in Q1, Q2. rewrite Q1, Q2, (Nom i), (Nos i) by lia. rewrite <- Q.
    unfold lps, pps. rewrite (build_jump_in T (fun t => - a t) gM' (cM r m) ods T oj lam0' dec_ods Ho).
    rewrite (build_jump_in T (fun t => - 2 * a t) gS' (cS r) ods T oj psi0' dec_ods Ho). unfold cM, cS.
    replace (nth j (map snd obs) 0) with (snd oj) by (unfold oj; symmetry; exact (map_nth snd obs (0, 0) j)).
    split; [|ring]. destruct (HE i ltac:(lia)) as [Q3 _]. rewrite Q.
    replace (- (snd oj - nth i mt 0) / r - - (snd oj - m (INR i * dt)) / r) with ((nth i mt 0 - m (INR i * dt)) / r) by (field; lra).
    unfold Rdiv. rewrite Rabs_mult, Rabs_inv, (Rabs_pos_eq r) by lra. apply Rmult_le_compat_r; [left; apply Rinv_0_lt_compat; exact Hr|exact Q3]. }
  assert (Jout : forall i, (i < n)%nat -> ~ In i t -> nth i gm 0 - nth i om 0 = 0 /\ nth i gs 0 - nth i os 0 = 0).
  { intros i Hi Hni. destruct (Hj0 i Hni) as [-> ->]. rewrite (Nom i), (Nos i) by lia. unfold lps, pps.
    rewrite !build_jump_out; [split; ring| |];
      (intros o Ho; rewrite <- in_rev in Ho; apply (at_index_in dt obs t i Hdp Hidx Hni o Ho)). }
  assert (JL : Rsum n (fun i => Rabs (nth i gm 0 - nth i om 0)) <= INR (length obs) * (Kf * w / r)).
  { rewrite (Rsum_ext n _ (fun i => (if in_dec Nat.eq_dec i t then Rabs (nth i gm 0 - nth i om 0) else 0) * 1)).
    2:{ intros i Hi. destruct (in_dec Nat.eq_dec i t) as [|Hni]; [ring|]. destruct (Jout i Hi Hni) as [-> _]. rewrite Rabs_R0. ring. }
    rewrite <- (Rsum_index n t (fun i => if in_dec Nat.eq_dec i t then Rabs (nth i gm 0 - nth i om 0) else 0) (fun _ => 1) Nd Ft).
    2:{ intros i Hni. destruct (in_dec Nat.eq_dec i t); [contradiction|reflexivity]. }
    rewrite <- Lt, <- Rsum_const. apply Rsum_le. intros j Hjt. rewrite Rmult_1_r.
    destruct (in_dec Nat.eq_dec (nth j t O) t) as [|Hni]; [apply Jin, Hjt|exfalso; apply Hni, nth_In, Hjt]. }
  assert (JP : Rsum n (fun i => Rabs (nth i gs 0 - nth i os 0)) = 0).
  { rewrite (Rsum_ext n _ (fun _ => 0)); [rewrite Rsum_const; ring|]. intros i Hi. destruct (in_dec Nat.eq_dec i t) as [Hin|Hni].
    - destruct (in_index t i Hin) as (j & Hjt & <-). destruct (Jin j Hjt) as [_ ->]. apply Rabs_R0.
    - destruct (Jout i Hi Hni) as [_ ->]. apply Rabs_R0. }
  assert (SL : Rabs (nth k lam 0 - nth k lam' 0) <= exp (INR n * dt * L1) * (C1 * (Kf * w) / L1 + Rsum n (fun i => Rabs (nth i gm 0 - nth i om 0)))).
  { apply (sweep2 mtd dt L1 (C1 * (Kf * w) / L1) n (fun k => nth k lam 0) (fun k => nth k lam' 0) (fun k => nth k gm 0) (fun k => nth k om 0)
      (fun k th l => lam_rhs1 (interp (V:=sV) th (nth (k+1) dm 0) (nth k dm 0)) (interp (V:=sV) th (nth (k+1) (grid dt (n + 1) a) 0) (nth k (grid dt (n + 1) a) 0)) l)
      (fun k th l => lam_rhs1 (interp (V:=sV) th (nth (k+1) (grid dt (n + 1) gM') 0) (nth k (grid dt (n + 1) gM') 0)) (interp (V:=sV) th (nth (k+1) (grid dt (n + 1) a) 0) (nth k (grid dt (n + 1) a) 0)) l)); auto.
    - apply Rmult_le_pos; [apply Rmult_le_pos; lra|left; apply Rinv_0_lt_compat; exact L1p].
    - intros i th x y e0 Hi Hth Hxy. rewrite !grid_nth by lia. unfold lam_rhs1.
      pose proof (rhs_pert 1 A th (nth (i + 1) dm 0) (nth i dm 0) (gM' (INR (i + 1) * dt)) (gM' (INR i * dt)) (a (INR (i + 1) * dt)) (a (INR i * dt)) (C1 * (Kf * w)) x y e0 Hth A0 ltac:(lra)) as RP.
      rewrite !Rmult_1_l in RP. unfold L1. rewrite !Rmult_1_l. apply RP; auto; try (apply Sm; lia); apply HA, Tk; lia.
    - congruence.
    - intros i Hi. apply (bwd_lam_1 _ _ _ _ _ _ _ _ _ i Hb_). match goal with |- context [@length ?X ?l] => change (@length X l) with (@length R dm) end. rewrite Ldm. lia.
    - intros i Hi. apply (bwd_lam_1 _ _ _ _ _ _ _ _ _ i Hb'). match goal with |- context [@length ?X ?l] => change (@length X l) with (@length R (grid dt (n + 1) gM')) end. rewrite LG. lia. }
  assert (SP : Rabs (nth k psi 0 - nth k psi' 0) <= exp (INR n * dt * L2) * (C2 * (Kf * w) / L2 + Rsum n (fun i => Rabs (nth i gs 0 - nth i os 0)))).
  { apply (sweep2 mtd dt L2 (C2 * (Kf * w) / L2) n (fun k => nth k psi 0) (fun k => nth k psi' 0) (fun k => nth k gs 0) (fun k => nth k os 0)
      (fun k th l => psi_rhs1 (interp (V:=sV) th (nth (k+1) ds 0) (nth k ds 0)) (interp (V:=sV) th (nth (k+1) (grid dt (n + 1) a) 0) (nth k (grid dt (n + 1) a) 0)) l)
      (fun k th l => psi_rhs1 (interp (V:=sV) th (nth (k+1) (grid dt (n + 1) gS') 0) (nth k (grid dt (n + 1) gS') 0)) (interp (V:=sV) th (nth (k+1) (grid dt (n + 1) a) 0) (nth k (grid dt (n + 1) a) 0)) l)); auto.
    - apply Rmult_le_pos; [apply Rmult_le_pos; lra|left; apply Rinv_0_lt_compat; exact L2p].
    - intros i th x y e0 Hi Hth Hxy. rewrite !grid_nth by lia. unfold psi_rhs1.
      apply (rhs_pert 2 A th (nth (i + 1) ds 0) (nth i ds 0) (gS' (INR (i + 1) * dt)) (gS' (INR i * dt)) (a (INR (i + 1) * dt)) (a (INR i * dt)) (C2 * (Kf * w)) x y e0 Hth A0); auto; try lra; try (apply Sm; lia); apply HA, Tk; lia.
    - congruence.
    - intros i Hi. apply (bwd_psi_1 _ _ _ _ _ _ _ _ _ i Hb_). match goal with |- context [@length ?X ?l] => change (@length X l) with (@length R dm) end. rewrite Ldm. lia.
    - intros i Hi. apply (bwd_psi_1 _ _ _ _ _ _ _ _ _ i Hb'). match goal with |- context [@length ?X ?l] => change (@length X l) with (@length R (grid dt (n + 1) gM')) end. rewrite LG. lia. }
  rewrite Hn in SL, SP. rewrite JP in SP.
  assert (SL' : Rabs (nth k lam 0 - nth k lam' 0) <= E1 * w).
  { eapply Rle_trans; [exact SL|]. unfold E1. rewrite Rmult_assoc. apply Rmult_le_compat_l; [left; apply exp_pos|]. unfold Rdiv in *.
    replace ((C1 * Kf * / L1 + INR (length obs) * (Kf * / r)) * w) with (C1 * (Kf * w) * / L1 + INR (length obs) * (Kf * w * / r)) by ring. lra. }
  assert (SP' : Rabs (nth k psi 0 - nth k psi' 0) <= E2 * w).
  { eapply Rle_trans; [exact SP|]. unfold E2. rewrite Rmult_assoc. apply Rmult_le_compat_l; [left; apply exp_pos|]. unfold Rdiv in *. right. ring. }
  assert (V0 : 0 <= dt ^ ordv mtd) by (apply pow_le; lra).
  assert (W1 : K1 * dt ^ ordv mtd <= Rabs K1 * w) by (apply Rle_trans with (Rabs K1 * dt ^ ordv mtd); [apply Rmult_le_compat_r; auto|apply Rmult_le_compat_l; auto]).
  assert (W2 : K2 * dt ^ ordv mtd <= Rabs K2 * w) by (apply Rle_trans with (Rabs K2 * dt ^ ordv mtd); [apply Rmult_le_compat_r; auto|apply Rmult_le_compat_l; auto]).
  assert (N1 : 0 <= E1 * w) by (apply Rmult_le_pos; lra). assert (N2 : 0 <= E2 * w) by (apply Rmult_le_pos; lra).
  assert (N3 : 0 <= Rabs K1 * w) by (apply Rmult_le_pos; lra). assert (N4 : 0 <= Rabs K2 * w) by (apply Rmult_le_pos; lra).
  split.
  - replace (nth k lam 0 - Lam' (INR k * dt)) with ((nth k lam 0 - nth k lam' 0) + (nth k lam' 0 - Lam' (INR k * dt))) by ring.
    eapply Rle_trans; [apply Rabs_triang|]. lra.
  - replace (nth k psi 0 - Psi' (INR k * dt)) with ((nth k psi 0 - nth k psi' 0) + (nth k psi' 0 - Psi' (INR k * dt))) by ring.
    eapply Rle_trans; [apply Rabs_triang|]. lra.
Qed.

(** ** the gradient *)
Notation gA' := (gradA ea em es T r ods a b m s).
Notation gB' := (gradB eb em T r ods a b m s).
Lemma prod_err u v u' v' U V d : 0 <= d <= 1 -> Rabs u' <= U -> Rabs v' <= V -> Rabs (u - u') <= d -> Rabs (v - v') <= d -> 0 <= U -> 0 <= V ->
  Rabs (u * v - u' * v') <= (U + V + 1) * d.
Proof.
  intros Hd HU HV Hu Hv U0 V0. replace (u * v - u' * v') with ((u - u') * (v - v') + u' * (v - v') + (u - u') * v') by ring.
  eapply Rle_trans; [apply Rabs_triang|]. eapply Rle_trans; [apply Rplus_le_compat_r, Rabs_triang|]. rewrite !Rabs_mult.
  assert (Rabs (u - u') * Rabs (v - v') <= 1 * d) by (apply Rmult_le_compat; auto using Rabs_pos; lra).
  assert (Rabs u' * Rabs (v - v') <= U * d) by (apply Rmult_le_compat; auto using Rabs_pos).
  assert (Rabs (u - u') * Rabs v' <= d * V) by (apply Rmult_le_compat; auto using Rabs_pos). lra.
Qed.

Lemma gradient_conv : exists K dt0, 0 < dt0 /\ forall mtd dt n t, 0 < dt < dt0 -> INR n * dt = T -> at_index dt obs t ->
  exists g o, (forall st, gradient (EE mtd dt n t) (x_ dt n) true st = (Ok g, Some o)) /\ length g = (n + 1 + (n + 1))%nat /\
  forall k, (k <= n)%nat -> Rabs (nth k g 0 - dt * gA' (INR k * dt)) <= dt * (K * dt ^ ordc mtd) /\
                            Rabs (nth (n + 1 + k) g 0 - dt * gB' (INR k * dt)) <= dt * (K * dt ^ ordc mtd).
Proof.
  destruct fwd_err as (Kf & d0 & Kf0 & (D0 & D1) & HKf). destruct bwd_err as (Kb & d1 & Kb0 & (D2 & D3) & HKb).
  destruct (repr_lip pA ea RA) as (C1 & C10 & HC1). destruct (repr_lip pB eb RB) as (C2 & C20 & HC2). destruct all_bdd as (A & A0 & HA).
  assert (BL : exists M, forall x, 0 <= x <= T -> Rabs (Lam' x) <= M).
  { apply with_jumps_bdd; auto; intros u Hu; [apply (Cna T a Ha1 u Hu)|apply (CgM em pM RM T sigma m0 s0 HT a b m s Ha1 Hb1 Hms u Hu)]. }
  assert (BP : exists M, forall x, 0 <= x <= T -> Rabs (Psi' x) <= M).
  { apply with_jumps_bdd; auto; intros u Hu; [apply (Cn2a T a Ha1 u Hu)|apply (CgS es pS RS T sigma m0 s0 HT a b m s Ha1 Hb1 Hms u Hu)]. }
  destruct BL as (ML & HML). destruct BP as (MP & HMP).
  assert (ML0 : 0 <= ML) by (eapply Rle_trans; [apply Rabs_pos|apply (HML 0); lra]). assert (MP0 : 0 <= MP) by (eapply Rle_trans; [apply Rabs_pos|apply (HMP 0); lra]).
  set (K := Kf + Kb). assert (K0 : 0 <= K) by (unfold K; lra).
  exists (C1 * K + C2 * K + (ML + A + 1) * K + 2 * ((MP + A + 1) * K) + K), (Rmin (Rmin d0 d1) (/ (K + 1))).
  split; [apply Rmin_pos; [apply Rmin_pos; lra|apply Rinv_0_lt_compat; lra]|].
  intros mtd dt n t Hdt Hn Hidx.
  assert (X : dt < d0 /\ dt < d1 /\ dt < / (K + 1)).
  { destruct Hdt as [_ Hdt]. pose proof (Rmin_l (Rmin d0 d1) (/ (K + 1))). pose proof (Rmin_r (Rmin d0 d1) (/ (K + 1))). pose proof (Rmin_l d0 d1). pose proof (Rmin_r d0 d1). lra. }
  assert (Hdp : 0 < dt) by lra. assert (Hd1 : dt <= 1) by lra.
  pose proof (pow_ordc_le K mtd dt K0 Hdp Hd1 ltac:(lra)) as Dl. pose proof (ordc_pow mtd dt ltac:(lra)) as (P1 & P2 & P3).
  set (w := dt ^ ordc mtd) in *.
  assert (Dl' : 0 <= K * w <= 1) by (split; [apply Rmult_le_pos; lra|exact Dl]).
  destruct (at_index_sorted dt T obs t Hdp Hobs Hidx) as [St Nd]. pose proof (at_index_len dt obs t Hidx) as Lt.
  assert (Ft : List.Forall (fun i => (i < n + 1)%nat) t) by (eapply Forall_impl; [|apply (at_index_lt dt T obs t n Hdp Hn Hobs Hidx)]; intros; cbn in *; lia).
  destruct (fe_any (energy dt) isig ec ea eb em es (EO dt) mtd (n + 1) dt sigma m0 s0 mu tau r (map snd obs) t ltac:(lia) Hr
    ltac:(rewrite map_length; symmetry; exact Lt) Ft Nd (fun A B M S => Hsde dt t A B M S St) (grid dt (n + 1) a) (grid dt (n + 1) b) (grid_len _ _ _) (grid_len _ _ _))
    as (mt & st & dm & ds & lam & psi & gm & gs & o & L1 & L2 & L3 & L4 & _ & _ & Hf & Hd & J0 & J1 & Hbw & _ & g & Lg & HG & Hgk).
  exists g, o. split; [exact HG|]. split; [exact Lg|]. intros k Hk.
  assert (Tk : 0 <= INR k * dt <= T).
  { split; [apply Rmult_le_pos; [apply pos_INR|lra]|]. rewrite <- Hn. apply Rmult_le_compat_r; [lra|]. apply le_INR, Hk. }
  assert (Hd' : forall k, (k < n + 1)%nat -> nth k dm 0 = em (a (INR k * dt)) (b (INR k * dt)) (nth k mt 0) (nth k st 0) /\ nth k ds 0 = es (a (INR k * dt)) (b (INR k * dt)) (nth k mt 0) (nth k st 0)).
  { intros i Hi. specialize (Hd i Hi). rewrite !grid_nth in Hd by lia. exact Hd. }
  destruct (HKf mtd dt n mt st ltac:(lra) Hn Hf k Hk) as [Q1 Q2]. fold w in Q1, Q2.
  destruct (HKb mtd dt n t mt st dm ds gm gs lam psi ltac:(lra) Hn Hidx L3 L4 Hf Hd' J0 J1 Hbw k Hk) as [Q3 Q4]. fold w in Q3, Q4.
  assert (F1 : Kf * w <= K * w) by (apply Rmult_le_compat_r; unfold K; lra). assert (F2 : Kb * w <= K * w) by (apply Rmult_le_compat_r; unfold K; lra).
  destruct (Hgk k ltac:(lia)) as [G1 G2]. cbn zeta in G1, G2. rewrite !grid_nth in G1, G2 by lia. rewrite G1, G2.
  destruct (HA _ Tk) as (_ & _ & B3 & B4). specialize (HML _ Tk). specialize (HMP _ Tk).
  set (tk := INR k * dt) in *. unfold gradA, gradB.
  pose proof (Rle_trans _ _ _ Q1 F1) as T1. pose proof (Rle_trans _ _ _ Q2 F1) as T2. pose proof (Rle_trans _ _ _ Q3 F2) as T3. pose proof (Rle_trans _ _ _ Q4 F2) as T4.
  pose proof (HC1 tk (nth k mt 0) (nth k st 0) (K * w) Tk Dl' T1 T2) as R1.
  pose proof (HC2 tk (nth k mt 0) (nth k st 0) (K * w) Tk Dl' T1 T2) as R2.
  pose proof (prod_err (nth k lam 0) (nth k mt 0) (Lam' tk) (m tk) ML A (K * w) Dl' HML B3 T3 T1 ML0 A0) as R3.
  pose proof (prod_err (nth k psi 0) (nth k st 0) (Psi' tk) (s tk) MP A (K * w) Dl' HMP B4 T4 T2 MP0 A0) as R4.
  assert (N1 : 0 <= C1 * (K * w)) by (apply Rmult_le_pos; lra). assert (N2 : 0 <= C2 * (K * w)) by (apply Rmult_le_pos; lra).
  assert (N3 : 0 <= (ML + A + 1) * (K * w)) by (apply Rmult_le_pos; lra). assert (N4 : 0 <= (MP + A + 1) * (K * w)) by (apply Rmult_le_pos; lra).
  assert (S3 : Rabs (nth k lam 0 - Lam' tk) <= K * w) by exact T3.
  rewrite <- !Rmult_minus_distr_l, !Rabs_mult, (Rabs_pos_eq dt) by lra.
  apply Rabs_le_between in R1. apply Rabs_le_between in R2. apply Rabs_le_between in R3. apply Rabs_le_between in R4. apply Rabs_le_between in S3.
  split; (apply Rmult_le_compat_l; [lra|]); apply Rabs_le_between; lra.
Qed.
End Conv.
