(** * The forward and backward sweeps on coefficients that vary in time. *)
From Coq Require Import List Reals Lra Lia Psatz.
From Coquelicot Require Import Coquelicot.
From Verif Require Import Num Arr ArrFacts Spec_Ode Spec_TimeVar M_Ode P_Ode P_OdeRK P_OdeR P_Conv P_TimeVar P_TimeVar2 P_TimeVar3 P_TimeVar4.
Import ListNotations.
Local Open Scope R_scope.

Lemma grid_len {A} dt n (f : R -> A) : length (grid dt n f) = n.
Proof. unfold grid. rewrite map_length, seq_length. reflexivity. Qed.
Lemma grid_nth {A} dt n (f : R -> A) k d : (k < n)%nat -> nth k (grid dt n f) d = f (INR k * dt).
Proof.
  intros Hk. unfold grid. rewrite (nth_indep _ d (f (INR 0 * dt))) by (rewrite map_length, seq_length; auto).
  rewrite (map_nth (fun k => f (INR k * dt)) (seq 0 n) 0%nat k). rewrite seq_nth; auto.
Qed.
Lemma INR_next k dt : INR (k + 1) * dt = INR k * dt + dt.
Proof. rewrite plus_INR. cbn. ring. Qed.

Lemma near_refl {V : Val RNum} {I} (inI : I -> Prop) (co : I -> V -> R) u v : u = v -> near inI co 0 u v.
Proof. intros -> i _. replace (_ - _) with 0 by ring. rewrite Rabs_R0. lra. Qed.


Theorem mean_conv_1 T (a b m : R -> R) : 0 <= T ->
  smooth 2 T a -> smooth 2 T b ->
  (forall t, 0 <= t <= T -> is_derive m t (mean_rhs1 (a t) (b t) (m t))) ->
  exists K, forall mtd dt n (m0 s0 sigma : R) (mt st : list R),
    0 < dt -> INR n * dt <= T -> m0 = m 0 ->
    solve_fwd S1 mtd dt (grid dt (n + 1) a) (grid dt (n + 1) b) m0 s0 sigma = Ok (mt, st) ->
    forall k, (k <= n)%nat -> Rabs (nth k mt 0 - m (INR k * dt)) <= K * dt ^ ordv mtd.
Proof.
  intros HT Ha Hb Hm.
  destruct (aff_conv (V := sV) (fun _ : unit => True) (fun _ (u : R) => u)
    (fun _ _ _ => eq_refl) (fun _ _ _ => eq_refl) (fun _ => eq_refl) fin_unit T 1
    (fun _ _ t => - a t) (fun i _ => i) (fun _ => b) m HT) as (E0 & K & _ & _ & HK).
  - auto.
  - intros _ _ _ _. apply smooth_opp; auto.
  - auto.
  - intros i t _ Ht. specialize (Hm t Ht). unfold y1. cbn. unfold mean_rhs1 in Hm.
    replace (0 + - a t * m t + b t) with (- a t * m t + b t) by ring. exact Hm.
  - exists K. intros mtd dt n m0 s0 sigma mt st Hdt Hn H0 Hs k Hk.
    replace (K * dt ^ ordv mtd) with (E0 * 0 + K * dt ^ ordv mtd) by ring.
    refine (HK mtd dt n (fun k => nth k mt 0)
      (fun k th u => mean_rhs1 (interp (V:=sV) th (a (INR k * dt)) (a (INR k * dt + dt)))
                               (interp (V:=sV) th (b (INR k * dt)) (b (INR k * dt + dt))) u) 0 Hdt Hn (Rle_refl 0) _ _ _ k Hk tt Logic.I).
    + apply near_refl. pose proof (solve_fwd_shape _ _ _ _ _ _ _ _ _ _ Hs) as (_ & _ & E & _).
      rewrite <- H0. exact (nth_error_nth mt 0 0 E).
    + intros j th w i Hj _ _. cbn. unfold mean_rhs1, lerp. ring.
    + intros j Hj. apply near_refl. rewrite <- Nat.add_1_r.
      pose proof (fwd_mean_1 _ _ _ _ _ _ _ _ _ j Hs ltac:(rewrite !grid_len; auto) ltac:(rewrite grid_len; lia)) as Q.
      rewrite !grid_nth in Q by lia. rewrite INR_next in Q. exact Q.
Qed.

Theorem cov_conv_1 T (a s : R -> R) sigma : 0 <= T ->
  smooth 2 T a ->
  (forall t, 0 <= t <= T -> is_derive s t (cov_rhs1 (a t) sigma (s t))) ->
  exists K, forall mtd dt n (b : R -> R) (m0 s0 : R) (mt st : list R),
    mtd <> RK2 -> 0 < dt -> INR n * dt <= T -> s0 = s 0 ->
    solve_fwd S1 mtd dt (grid dt (n + 1) a) (grid dt (n + 1) b) m0 s0 sigma = Ok (mt, st) ->
    forall k, (k <= n)%nat -> Rabs (nth k st 0 - s (INR k * dt)) <= K * dt ^ ordv mtd.
Proof.
  intros HT Ha Hm.
  destruct (aff_conv (V := sV) (fun _ : unit => True) (fun _ (u : R) => u)
    (fun _ _ _ => eq_refl) (fun _ _ _ => eq_refl) (fun _ => eq_refl) fin_unit T 1
    (fun _ _ t => - 2 * a t) (fun i _ => i) (fun _ _ => sigma) s HT) as (E0 & K & _ & _ & HK).
  - auto.
  - intros _ _ _ _. apply smooth_mult; auto using smooth_const.
  - intros _ _. apply smooth_const.
  - intros i t _ Ht. specialize (Hm t Ht). unfold y1. cbn. unfold cov_rhs1 in Hm.
    replace (0 + - 2 * a t * s t + sigma) with (- 2 * a t * s t + sigma) by ring. exact Hm.
  - exists K. intros mtd dt n b m0 s0 mt st Hr Hdt Hn H0 Hs k Hk.
    replace (K * dt ^ ordv mtd) with (E0 * 0 + K * dt ^ ordv mtd) by ring.
    refine (HK mtd dt n (fun k => nth k st 0)
      (fun k th u => cov_rhs1 (interp (V:=sV) th (a (INR k * dt)) (a (INR k * dt + dt))) sigma u) 0 Hdt Hn (Rle_refl 0) _ _ _ k Hk tt Logic.I).
    + apply near_refl. pose proof (solve_fwd_shape _ _ _ _ _ _ _ _ _ _ Hs) as (_ & _ & _ & E).
      rewrite <- H0. exact (nth_error_nth st 0 0 E).
    + intros j th w i Hj _ _. cbn. unfold cov_rhs1, lerp. ring.
    + intros j Hj. apply near_refl. rewrite <- Nat.add_1_r.
      pose proof (fwd_cov_1 _ _ _ _ _ _ _ _ _ j Hr Hs ltac:(rewrite !grid_len; auto) ltac:(rewrite grid_len; lia)) as Q.
      rewrite !grid_nth in Q by lia. rewrite INR_next in Q. exact Q.
Qed.

Theorem mean_conv_n d T (A : R -> Rmat) (b m : R -> Rvec) : 0 <= T ->
  (forall i j, (i < d)%nat -> (j < d)%nat -> smooth 2 T (fun t => A t i j)) ->
  (forall i, (i < d)%nat -> smooth 2 T (fun t => b t i)) ->
  (forall t i, 0 <= t <= T -> (i < d)%nat -> is_derive (fun s => m s i) t (mean_rhsn d (A t) (b t) (m t) i)) ->
  exists K, forall mtd dt n (m0 : Rvec) (s0 sigma : Rmat) (mt : list Rvec) st,
    0 < dt -> INR n * dt <= T -> (forall i, (i < d)%nat -> m0 i = m 0 i) ->
    solve_fwd (Sn d) mtd dt (grid dt (n + 1) A) (grid dt (n + 1) b) m0 s0 sigma = Ok (mt, st) ->
    forall k i, (k <= n)%nat -> (i < d)%nat ->
    Rabs (nth k mt (vzero vV) i - m (INR k * dt) i) <= K * dt ^ ordv mtd.
Proof.
  intros HT Ha Hb Hm.
  destruct (aff_conv (V := vV) (fun i => (i < d)%nat) (fun i (u : Rvec) => u i)
    (fun _ _ _ => eq_refl) (fun _ _ _ => eq_refl) (fun _ => eq_refl) (fun P => finite_bound P d) T d
    (fun i k t => - A t i k) (fun _ k => k) (fun i t => b t i) m HT) as (E0 & K & _ & _ & HK).
  - auto.
  - intros i k Hi Hk. apply (smooth_opp 2 T (fun t => A t i k)). auto.
  - auto.
  - intros i t Hi Ht. specialize (Hm t i Ht Hi). unfold y1. unfold mean_rhsn in Hm.
    rewrite (sumn_ext d (fun k => - A t i k * m t k) (fun k => - (A t i k * m t k))) by (intros; ring).
    rewrite sumn_opp. exact Hm.
  - exists K. intros mtd dt n m0 s0 sigma mt st Hdt Hn H0 Hs k i Hk Hi.
    replace (K * dt ^ ordv mtd) with (E0 * 0 + K * dt ^ ordv mtd) by ring.
    refine (HK mtd dt n (fun k => nth k mt (vzero vV))
      (fun k th u => mean_rhsn d (interp (V:=mV) th (A (INR k * dt)) (A (INR k * dt + dt)))
                               (interp (V:=vV) th (b (INR k * dt)) (b (INR k * dt + dt))) u) 0 Hdt Hn (Rle_refl 0) _ _ _ k Hk i Hi).
    + intros j Hj. pose proof (solve_fwd_shape _ _ _ _ _ _ _ _ _ _ Hs) as (_ & _ & E & _).
      assert (E' : nth 0 mt (vzero vV) = m0) by exact (nth_error_nth mt 0 (vzero vV) E).
      rewrite E', H0 by auto. replace (_ - _) with 0 by ring. rewrite Rabs_R0. lra.
    + intros j th w l Hj _ _. unfold mean_rhsn, lerp. cbn [interp vadd vscale vV mV vecV matV].
      rewrite <- sumn_opp. f_equal. apply sumn_ext. intros q Hq. cbn. ring.
    + intros j Hj. apply near_refl. rewrite <- Nat.add_1_r.
      pose proof (fwd_mean_n _ _ _ _ _ _ _ _ _ _ j Hs ltac:(rewrite !grid_len; auto) ltac:(rewrite grid_len; lia)) as Q.
      rewrite !grid_nth in Q by lia. rewrite INR_next in Q. exact Q.
Qed.

Lemma rsum_split d e (h f g : nat -> R) : (forall k, (k < d)%nat -> h k = f k) -> (forall k, (k < e)%nat -> h (d + k)%nat = g k) ->
  rsum (d + e) h = rsum d f + rsum e g.
Proof.
  intros Hf Hg. induction e.
  - rewrite Nat.add_0_r. cbn [sumn]. rewrite (sumn_ext d h f Hf). cbn. lra.
  - rewrite Nat.add_succ_r, !sumn_S, IHe by (intros; apply Hg; lia). rewrite Hg by lia.
    change (car RNum) with R. lra.
Qed.
Lemma ltb_lo k d : (k < d)%nat -> (k <? d)%nat = true. Proof. apply Nat.ltb_lt. Qed.
Lemma ltb_hi k d : (d + k <? d)%nat = false. Proof. apply Nat.ltb_ge. lia. Qed.

Theorem cov_conv_n d T (A : R -> Rmat) (s : R -> Rmat) (sigma : Rmat) : 0 <= T ->
  (forall i j, (i < d)%nat -> (j < d)%nat -> smooth 2 T (fun t => A t i j)) ->
  (forall t i j, 0 <= t <= T -> (i < d)%nat -> (j < d)%nat ->
     is_derive (fun u => s u i j) t (cov_rhsn d (A t) sigma (s t) i j)) ->
  exists K, forall mtd dt n (b : R -> Rvec) (m0 : Rvec) (s0 : Rmat) mt (st : list Rmat),
    mtd <> RK2 -> 0 < dt -> INR n * dt <= T -> (forall i j, (i < d)%nat -> (j < d)%nat -> s0 i j = s 0 i j) ->
    solve_fwd (Sn d) mtd dt (grid dt (n + 1) A) (grid dt (n + 1) b) m0 s0 sigma = Ok (mt, st) ->
    forall k i j, (k <= n)%nat -> (i < d)%nat -> (j < d)%nat ->
    Rabs (nth k st (vzero mV) i j - s (INR k * dt) i j) <= K * dt ^ ordv mtd.
Proof.
  intros HT Ha Hm.
  destruct (aff_conv (V := mV) (fun p => (fst p < d)%nat /\ (snd p < d)%nat) (fun p (u : Rmat) => u (fst p) (snd p))
    (fun _ _ _ => eq_refl) (fun _ _ _ => eq_refl) (fun _ => eq_refl) (fin_pair d) T (d + d)
    (fun p k t => if (k <? d)%nat then - A t (fst p) k else - A t (snd p) (k - d)%nat)
    (fun p k => if (k <? d)%nat then (k, snd p) else (fst p, (k - d)%nat))
    (fun p _ => sigma (fst p) (snd p)) s HT) as (E0 & K & _ & _ & HK).
  - intros [i j] k [Hi Hj] Hk. cbn [fst snd] in *. destruct (Nat.ltb_spec k d); cbn [fst snd]; lia.
  - intros [i j] k [Hi Hj] Hk. cbn [fst snd] in *. destruct (Nat.ltb_spec k d).
    + apply (smooth_opp 2 T (fun t => A t i k)). auto.
    + apply (smooth_opp 2 T (fun t => A t j (k - d)%nat)). apply Ha; lia.
  - intros. apply smooth_const.
  - intros [i j] t [Hi Hj] Ht. cbn in Hi, Hj. specialize (Hm t i j Ht Hi Hj). unfold y1. unfold cov_rhsn in Hm. cbn [fst snd].
    rewrite (rsum_split d d _ (fun k => - (A t i k * s t k j)) (fun k => - (s t i k * A t j k))).
    + rewrite !sumn_opp. exact Hm.
    + intros k Hk. rewrite (ltb_lo k d Hk). cbn. ring.
    + intros k Hk. rewrite (ltb_hi k d). replace (d + k - d)%nat with k by lia. cbn. ring.
  - exists K. intros mtd dt n b m0 s0 mt st Hr Hdt Hn H0 Hs k i j Hk Hi Hj.
    replace (K * dt ^ ordv mtd) with (E0 * 0 + K * dt ^ ordv mtd) by ring.
    refine (HK mtd dt n (fun k => nth k st (vzero mV))
      (fun k th u => cov_rhsn d (interp (V:=mV) th (A (INR k * dt)) (A (INR k * dt + dt))) sigma u) 0 Hdt Hn (Rle_refl 0) _ _ _ k Hk (i, j) (conj Hi Hj)).
    + intros [p q] [Hp Hq]. cbn in Hp, Hq. pose proof (solve_fwd_shape _ _ _ _ _ _ _ _ _ _ Hs) as (_ & _ & _ & E).
      assert (E' : nth 0 st (vzero mV) = s0) by exact (nth_error_nth st 0 (vzero mV) E).
      rewrite E'. cbn [fst snd]. rewrite H0 by auto. replace (_ - _) with 0 by ring. rewrite Rabs_R0. lra.
    + intros l th w [p q] Hl _ [Hp Hq]. cbn in Hp, Hq. unfold cov_rhsn. cbn [fst snd].
      rewrite (rsum_split d d _ (fun k => - (interp (V:=mV) th (A (INR l * dt)) (A (INR l * dt + dt)) p k * w k q))
          (fun k => - (w p k * interp (V:=mV) th (A (INR l * dt)) (A (INR l * dt + dt)) q k))).
      * rewrite !sumn_opp. unfold lerp. lra.
      * intros k0 Hk0. rewrite (ltb_lo k0 d Hk0). unfold lerp. cbn. ring.
      * intros k0 Hk0. rewrite (ltb_hi k0 d). replace (d + k0 - d)%nat with k0 by lia. unfold lerp. cbn. ring.
    + intros l Hl. apply near_refl. rewrite <- Nat.add_1_r.
      pose proof (fwd_cov_n _ _ _ _ _ _ _ _ _ _ l Hr Hs ltac:(rewrite !grid_len; auto) ltac:(rewrite grid_len; lia)) as Q.
      rewrite !grid_nth in Q by lia. rewrite INR_next in Q. exact Q.
Qed.
