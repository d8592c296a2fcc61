(** * Convergence of the backward sweeps; the order of RungeKutta4. *)
From Coq Require Import List Reals Lra Lia Psatz.
From Coquelicot Require Import Coquelicot.
From Verif Require Import Num Arr ArrFacts Spec_Ode Spec_TimeVar M_Ode P_Ode P_OdeRK P_OdeR P_Conv P_TimeVar P_TimeVar2 P_TimeVar3 P_TimeVar4 P_TimeVar5 P_TimeVar6.
Import ListNotations.
Local Open Scope R_scope.

Lemma last_nth {A} (l : list A) n x d : nth_error l (n + 1 - 1) = Some x -> nth n l d = x.
Proof. replace (n + 1 - 1)%nat with n by lia. apply nth_error_nth. Qed.
Lemma grid_ne {A} dt n (f : R -> A) : grid dt (n + 1) f <> [].
Proof. intros E. pose proof (grid_len dt (n + 1) f) as Q. rewrite E in Q. cbn in Q. lia. Qed.

Lemma fits_mono {A} (sol sol' : R -> R -> (R -> A) -> Prop) (gl gl' : A -> A -> A -> Prop) :
  (forall u v y, sol u v y -> sol' u v y) -> (forall v u c, gl v u c -> gl' v u c) ->
  forall ps T y0, fits sol gl T y0 ps -> fits sol' gl' T y0 ps.
Proof.
  intros Hs Hg. induction ps as [|[[tau c] y] r IH]; intros T y0 H; cbn in *; auto.
  destruct H as (H1 & H2 & H3 & H4). auto.
Qed.

Theorem lam_conv_1 T (a g l : R -> R) ps : 0 <= T ->
  smooth 2 T a -> smooth 2 T g -> l T = 0 ->
  fits (fun u v y => forall t, u <= t <= v -> is_derive y t (lam_rhs1 (g t) (a t) (y t))) (fun v u c => v = u + c) T l ps ->
  exists K, forall mtd dt n (ds om os lam psi : list R),
    0 < dt -> INR n * dt = T -> on_grid dt ps -> (forall k, (k < n)%nat -> nth k om 0 = jump_at 0 ps (INR k * dt)) ->
    solve_bwd S1 mtd dt (grid dt (n + 1) a) (grid dt (n + 1) g) ds om os = Ok (lam, psi) ->
    forall k, (k <= n)%nat -> Rabs (nth k lam 0 - with_jumps l ps (INR k * dt)) <= K * dt ^ ordv mtd.
Proof.
  intros HT Ha Hb HE Hm.
  destruct (aff_jumps (V := sV) (fun _ : unit => True) (fun _ (u : R) => u)
    (fun _ _ _ => eq_refl) (fun _ _ _ => eq_refl) (fun _ => eq_refl) fin_unit T 1
    (fun _ _ t => a t) (fun i _ => i) (fun _ t => - g t)) with (ps := ps) (T2 := T) (y0 := l) as (E & K & _ & _ & HK); auto; try lra.
  - intros _ _. apply smooth_opp; auto.
  - revert Hm. apply fits_mono; [|intros v u c H i _; exact H].
    intros u v y Hs i t _ Ht. specialize (Hs t Ht). unfold y1. cbn. unfold lam_rhs1 in Hs.
    replace (0 + a t * y t + - g t) with (- g t + a t * y t) by ring. exact Hs.
  - exists K. intros mtd dt n ds om os lam psi Hdt Hn Hg H0 Hs k Hk.
    replace (K * dt ^ ordv mtd) with (E * 0 + K * dt ^ ordv mtd) by ring.
    refine (HK mtd dt n (fun k => nth k lam 0)
      (fun k th u => lam_rhs1 (interp (V:=sV) th (g (INR (k + 1) * dt)) (g (INR k * dt)))
                              (interp (V:=sV) th (a (INR (k + 1) * dt)) (a (INR k * dt))) u) 0 Hdt Hn Hg (Rle_refl 0) _ _ _ k Hk tt Logic.I).
    + apply near_refl. pose proof (solve_bwd_shape _ _ _ _ _ _ _ _ _ _ Hs) as (_ & _ & E1).
      destruct (E1 (grid_ne _ _ _)) as [E2 _]. rewrite grid_len in E2. rewrite HE. exact (last_nth lam n _ _ E2).
    + intros j Hj th w i _ _. cbn. unfold lam_rhs1, lerp. ring.
    + intros j Hj. apply near_refl.
      pose proof (bwd_lam_1 _ _ _ _ _ _ _ _ _ j Hs ltac:(rewrite grid_len; lia)) as Q.
      rewrite !grid_nth, H0 in Q by lia. exact Q.
Qed.

Theorem psi_conv_1 T (a g p : R -> R) ps : 0 <= T ->
  smooth 2 T a -> smooth 2 T g -> p T = 0 ->
  fits (fun u v y => forall t, u <= t <= v -> is_derive y t (psi_rhs1 (g t) (a t) (y t))) (fun v u c => v = u + c) T p ps ->
  exists K, forall mtd dt n (dm om os lam psi : list R),
    0 < dt -> INR n * dt = T -> on_grid dt ps -> (forall k, (k < n)%nat -> nth k os 0 = jump_at 0 ps (INR k * dt)) ->
    length dm = (n + 1)%nat ->
    solve_bwd S1 mtd dt (grid dt (n + 1) a) dm (grid dt (n + 1) g) om os = Ok (lam, psi) ->
    forall k, (k <= n)%nat -> Rabs (nth k psi 0 - with_jumps p ps (INR k * dt)) <= K * dt ^ ordv mtd.
Proof.
  intros HT Ha Hb HE Hm.
  destruct (aff_jumps (V := sV) (fun _ : unit => True) (fun _ (u : R) => u)
    (fun _ _ _ => eq_refl) (fun _ _ _ => eq_refl) (fun _ => eq_refl) fin_unit T 1
    (fun _ _ t => 2 * a t) (fun i _ => i) (fun _ t => - g t)) with (ps := ps) (T2 := T) (y0 := p) as (E & K & _ & _ & HK); auto; try lra.
  - intros _ _ _ _. apply smooth_mult; auto using smooth_const.
  - intros _ _. apply smooth_opp; auto.
  - revert Hm. apply fits_mono; [|intros v u c H i _; exact H].
    intros u v y Hs i t _ Ht. specialize (Hs t Ht). unfold y1. cbn. unfold psi_rhs1 in Hs.
    replace (0 + 2 * a t * y t + - g t) with (- g t + 2 * a t * y t) by ring. exact Hs.
  - exists K. intros mtd dt n dm om os lam psi Hdt Hn Hg H0 Hl Hs k Hk.
    replace (K * dt ^ ordv mtd) with (E * 0 + K * dt ^ ordv mtd) by ring.
    refine (HK mtd dt n (fun k => nth k psi 0)
      (fun k th u => psi_rhs1 (interp (V:=sV) th (g (INR (k + 1) * dt)) (g (INR k * dt)))
                              (interp (V:=sV) th (a (INR (k + 1) * dt)) (a (INR k * dt))) u) 0 Hdt Hn Hg (Rle_refl 0) _ _ _ k Hk tt Logic.I).
    + apply near_refl. pose proof (solve_bwd_shape _ _ _ _ _ _ _ _ _ _ Hs) as (_ & _ & E1).
      assert (Hne : dm <> []) by (intros Z; rewrite Z in Hl; cbn in Hl; lia).
      destruct (E1 Hne) as [_ E2]. assert (E3 : nth_error psi (n + 1 - 1) = Some 0) by (rewrite <- Hl; exact E2).
      rewrite HE. exact (last_nth psi n _ _ E3).
    + intros j Hj th w i _ _. cbn. unfold psi_rhs1, lerp. ring.
    + intros j Hj. apply near_refl.
      assert (Hj1 : (j + 1 < length dm)%nat) by (rewrite Hl; lia).
      pose proof (bwd_psi_1 _ _ _ _ _ _ _ _ _ j Hs Hj1) as Q.
      rewrite !grid_nth, H0 in Q by lia. exact Q.
Qed.

(** n-dimensional: [psi] solves the exact equation; [lam] the one with A in place of A' *)
Theorem lam_conv_n d T (A : R -> Rmat) (g l : R -> Rvec) ps : 0 <= T ->
  (forall i j, (i < d)%nat -> (j < d)%nat -> smooth 2 T (fun t => A t i j)) ->
  (forall i, (i < d)%nat -> smooth 2 T (fun t => g t i)) ->
  (forall i, (i < d)%nat -> l T i = 0) ->
  fits (fun u v y => forall t i, u <= t <= v -> (i < d)%nat -> is_derive (fun s => y s i) t (lam_rhsn d (g t) (mtr (A t)) (y t) i))
       (fun v u c => forall i, (i < d)%nat -> v i = u i + c i) T l ps ->
  exists K, forall mtd dt n (ds : list Rmat) (om : list Rvec) (os : list Rmat) (lam : list Rvec) (psi : list Rmat),
    0 < dt -> INR n * dt = T -> on_grid dt ps ->
    (forall k i, (k < n)%nat -> (i < d)%nat -> nth k om (fun _ => 0) i = jump_at (fun _ => 0) ps (INR k * dt) i) ->
    solve_bwd (Sn d) mtd dt (grid dt (n + 1) A) (grid dt (n + 1) g) ds om os = Ok (lam, psi) ->
    forall k i, (k <= n)%nat -> (i < d)%nat ->
    Rabs (nth k lam (fun _ => 0) i - with_jumps l ps (INR k * dt) i) <= K * dt ^ ordv mtd.
Proof.
  intros HT Ha Hb HE Hm.
  destruct (aff_jumps (V := vV) (fun i => (i < d)%nat) (fun i (u : Rvec) => u i)
    (fun _ _ _ => eq_refl) (fun _ _ _ => eq_refl) (fun _ => eq_refl) (fun P => finite_bound P d) T d
    (fun i k t => A t i k) (fun _ k => k) (fun i t => - g t i)) with (ps := ps) (T2 := T) (y0 := l) as (E & K & _ & _ & HK); auto; try lra.
  - intros i Hi. apply (smooth_opp 2 T (fun t => g t i)). auto.
  - revert Hm. apply fits_mono; [|intros v u c H i Hi; exact (H i Hi)].
    intros u v y Hs i t Hi Ht. specialize (Hs t i Ht Hi). unfold y1. unfold lam_rhsn, mtr in Hs.
    rewrite Rplus_comm. exact Hs.
  - exists K. intros mtd dt n ds om os lam psi Hdt Hn Hg H0 Hs k i Hk Hi.
    replace (K * dt ^ ordv mtd) with (E * 0 + K * dt ^ ordv mtd) by ring.
    refine (HK mtd dt n (fun k => nth k lam (vzero vV))
      (fun k th u => lam_rhsn d (interp (V:=vV) th (g (INR (k + 1) * dt)) (g (INR k * dt)))
                               (mtr (interp (V:=mV) th (A (INR (k + 1) * dt)) (A (INR k * dt)))) u) 0 Hdt Hn Hg (Rle_refl 0) _ _ _ k Hk i Hi).
    + intros j Hj. pose proof (solve_bwd_shape _ _ _ _ _ _ _ _ _ _ Hs) as (_ & _ & E1).
      destruct (E1 (grid_ne _ _ _)) as [E2 _]. rewrite grid_len in E2.
      assert (E3 : nth n lam (vzero vV) = vzero vV) by exact (last_nth lam n _ _ E2).
      rewrite E3, HE by auto. cbn. rewrite Rminus_0_r, Rabs_R0. lra.
    + intros j Hj th w q _ _. unfold lam_rhsn, lerp, mtr. rewrite Rplus_comm.
      apply f_equal2; [apply sumn_ext; intros; cbn; ring|cbn; ring].
    + intros j Hj q Hq.
      pose proof (bwd_lam_n_code _ _ _ _ _ _ _ _ _ _ j Hs ltac:(rewrite grid_len; lia)) as Q.
      rewrite !grid_nth in Q by lia.
      set (z := rk_step _ _ _ _) in *.
      assert (Q' := f_equal (fun f : Rvec => f q) Q). cbn beta in Q'. change (nth j lam (vzero vV) q = z q + nth j om (fun _ => 0) q) in Q'.
      rewrite H0 in Q' by auto.
      change (Rabs (nth j lam (vzero vV) q - (z q + jump_at (fun _ => 0) ps (INR j * dt) q)) <= 0).
      rewrite Q', Rminus_diag_eq by reflexivity. rewrite Rabs_R0. lra.
Qed.

Theorem psi_conv_n d T (A g p : R -> Rmat) ps : 0 <= T ->
  (forall i j, (i < d)%nat -> (j < d)%nat -> smooth 2 T (fun t => A t i j)) ->
  (forall i j, (i < d)%nat -> (j < d)%nat -> smooth 2 T (fun t => g t i j)) ->
  (forall i j, (i < d)%nat -> (j < d)%nat -> p T i j = 0) ->
  fits (fun u v y => forall t i j, u <= t <= v -> (i < d)%nat -> (j < d)%nat ->
          is_derive (fun s => y s i j) t (psi_rhsn d (g t) (A t) (y t) i j))
       (fun v u c => forall i j, (i < d)%nat -> (j < d)%nat -> v i j = u i j + c i j) T p ps ->
  exists K, forall mtd dt n (dm : list Rvec) (om : list Rvec) (os : list Rmat) (lam : list Rvec) (psi : list Rmat),
    0 < dt -> INR n * dt = T -> on_grid dt ps ->
    (forall k i j, (k < n)%nat -> (i < d)%nat -> (j < d)%nat ->
       nth k os (fun _ _ => 0) i j = jump_at (fun _ _ => 0) ps (INR k * dt) i j) ->
    length dm = (n + 1)%nat ->
    solve_bwd (Sn d) mtd dt (grid dt (n + 1) A) dm (grid dt (n + 1) g) om os = Ok (lam, psi) ->
    forall k i j, (k <= n)%nat -> (i < d)%nat -> (j < d)%nat ->
    Rabs (nth k psi (fun _ _ => 0) i j - with_jumps p ps (INR k * dt) i j) <= K * dt ^ ordv mtd.
Proof.
  intros HT Ha Hb HE Hm.
  destruct (aff_jumps (V := mV) (fun p => (fst p < d)%nat /\ (snd p < d)%nat) (fun p (u : Rmat) => u (fst p) (snd p))
    (fun _ _ _ => eq_refl) (fun _ _ _ => eq_refl) (fun _ => eq_refl) (fin_pair d) T (d + d)
    (fun p k t => if (k <? d)%nat then A t k (snd p) else A t (k - d)%nat (fst p))
    (fun p k => if (k <? d)%nat then (fst p, k) else ((k - d)%nat, snd p))
    (fun p t => - g t (fst p) (snd p))) with (ps := ps) (T2 := T) (y0 := p) as (E & K & _ & _ & HK); try lra.
  - intros [i j] k [Hi Hj] Hk. cbn [fst snd] in *. destruct (Nat.ltb_spec k d); cbn [fst snd]; lia.
  - intros [i j] k [Hi Hj] Hk. cbn [fst snd] in *. destruct (Nat.ltb_spec k d); apply Ha; lia.
  - intros [i j] [Hi Hj]. apply (smooth_opp 2 T (fun t => g t i j)). auto.
  - revert Hm. apply fits_mono; [|intros v u c H [i j] [Hi Hj]; exact (H i j Hi Hj)].
    intros u v y Hs [i j] t [Hi Hj] Ht. cbn in Hi, Hj. specialize (Hs t i j Ht Hi Hj). unfold y1. unfold psi_rhsn in Hs. cbn [fst snd].
    rewrite (rsum_split d d _ (fun k => y t i k * A t k j) (fun k => A t k i * y t k j)).
    + match goal with |- is_derive _ _ ?x => match type of Hs with is_derive _ _ ?z => replace x with z by (change (car RNum) with R; ring) end end. exact Hs.
    + intros k Hk. rewrite (ltb_lo k d Hk). cbn. ring.
    + intros k Hk. rewrite (ltb_hi k d). replace (d + k - d)%nat with k by lia. cbn. ring.
  - exists K. intros mtd dt n dm om os lam psi Hdt Hn Hg H0 Hl Hs k i j Hk Hi Hj.
    replace (K * dt ^ ordv mtd) with (E * 0 + K * dt ^ ordv mtd) by ring.
    refine (HK mtd dt n (fun k => nth k psi (vzero mV))
      (fun k th u => psi_rhsn d (interp (V:=mV) th (g (INR (k + 1) * dt)) (g (INR k * dt)))
                               (interp (V:=mV) th (A (INR (k + 1) * dt)) (A (INR k * dt))) u) 0 Hdt Hn Hg (Rle_refl 0) _ _ _ k Hk (i, j) (conj Hi Hj)).
    + intros [a b] [Hp Hq]. cbn in Hp, Hq. pose proof (solve_bwd_shape _ _ _ _ _ _ _ _ _ _ Hs) as (_ & _ & E0).
      assert (Hne : dm <> []) by (intros Z; rewrite Z in Hl; cbn in Hl; lia).
      destruct (E0 Hne) as [_ E1]. assert (E2 : nth_error psi (n + 1 - 1) = Some (vzero mV)) by (rewrite <- Hl; exact E1).
      assert (E3 : nth n psi (vzero mV) = vzero mV) by exact (last_nth psi n _ _ E2).
      rewrite E3. cbn [fst snd]. rewrite HE by auto. cbn. rewrite Rminus_0_r, Rabs_R0. lra.
    + intros l Hl' th w [a b] _ [Hp Hq]. cbn in Hp, Hq. unfold psi_rhsn. cbn [fst snd].
      rewrite (rsum_split d d _ (fun k => w a k * interp (V:=mV) th (A (INR (l + 1) * dt)) (A (INR l * dt)) k b)
          (fun k => interp (V:=mV) th (A (INR (l + 1) * dt)) (A (INR l * dt)) k a * w k b)).
      * unfold lerp. change (interp (V:=mV) th (g (INR (l + 1) * dt)) (g (INR l * dt)) a b)
          with ((1 - th) * g (INR (l + 1) * dt) a b + th * g (INR l * dt) a b). lra.
      * intros k0 Hk0. rewrite (ltb_lo k0 d Hk0). unfold lerp. cbn. ring.
      * intros k0 Hk0. rewrite (ltb_hi k0 d). replace (d + k0 - d)%nat with k0 by lia. unfold lerp. cbn. ring.
    + intros l Hl' [a b] [Hp Hq]. cbn in Hp, Hq. cbn [fst snd].
      assert (Hj1 : (l + 1 < length dm)%nat) by (rewrite Hl; lia).
      pose proof (bwd_psi_n _ _ _ _ _ _ _ _ _ _ l Hs Hj1) as Q.
      rewrite !grid_nth in Q by lia.
      set (z := rk_step _ _ _ _) in *.
      assert (Q' := f_equal (fun f : Rmat => f a b) Q). cbn beta in Q'. change (nth l psi (vzero mV) a b = z a b + nth l os (fun _ _ => 0) a b) in Q'.
      rewrite H0 in Q' by auto.
      change (Rabs (nth l psi (vzero mV) a b - (z a b + jump_at (fun _ _ => 0) ps (INR l * dt) a b)) <= 0).
      rewrite Q', Rminus_diag_eq by reflexivity. rewrite Rabs_R0. lra.
Qed.

(** ** RungeKutta4 on m' = 3 t^2 is the trapezoidal rule *)
Lemma rk4_sum dt n mt st : 0 < dt ->
  solve_fwd S1 RK4 dt (grid dt (n + 1) (fun _ => 0)) (grid dt (n + 1) (fun t => 3 * t ^ 2)) 0 1 1 = Ok (mt, st) ->
  forall k, (k <= n)%nat -> nth k mt 0 = (INR k * dt) ^ 3 + INR k * dt ^ 3 / 2.
Proof.
  intros Hdt Hs. induction k; intros Hk.
  - pose proof (solve_fwd_shape _ _ _ _ _ _ _ _ _ _ Hs) as (_ & _ & E & _).
    assert (E' : nth 0 mt 0 = 0) by exact (nth_error_nth mt 0 0 E). rewrite E'. cbn. field.
  - rewrite <- Nat.add_1_r.
    pose proof (fwd_mean_1 _ _ _ _ _ _ _ _ _ k Hs ltac:(rewrite !grid_len; auto) ltac:(rewrite grid_len; lia)) as Q.
    rewrite !grid_nth in Q by lia. rewrite IHk in Q by lia.
    etransitivity; [exact Q|]. rewrite plus_INR. unfold rk_step, mean_rhs1. cbn. field.
Qed.

Lemma rk4_only_second : forall C : R, exists n mt st, let dt := / INR n in
  (0 < n)%nat /\
  solve_fwd S1 RK4 dt (grid dt (n + 1) (fun _ => 0)) (grid dt (n + 1) (fun t => 3 * t ^ 2)) 0 1 1 = Ok (mt, st) /\
  C * dt ^ 3 < Rabs (nth n mt 0 - (INR n * dt) ^ 3).
Proof.
  intros C. destruct (nfloor_ex (2 * Rabs C + 2)) as (n & Hn' & Hn''); [pose proof (Rabs_pos C); lra|].
  assert (Hn : 2 * Rabs C + 1 < INR n) by lra. pose proof (Rabs_pos C).
  assert (Hn0 : (0 < n)%nat) by (destruct n; [cbn in Hn; lra|lia]).
  assert (H0 : 0 < INR n) by lra. assert (Hd : 0 < / INR n) by (apply Rinv_0_lt_compat; lra).
  destruct (solve_fwd_total S1 RK4 (/ INR n) (grid (/ INR n) (n + 1) (fun _ => 0)) (grid (/ INR n) (n + 1) (fun t => 3 * t ^ 2)) 0 1 1) as (mt & st & Hs).
  - rewrite !grid_len. lia.
  - rewrite grid_len. lia.
  - exists n, mt, st. cbv zeta. split; auto. split; auto.
    rewrite (rk4_sum (/ INR n) n mt st Hd Hs n) by lia. set (dt := / INR n) in *.
    replace (_ - _) with (INR n * dt ^ 3 / 2) by field. 
    assert (E : INR n * dt = 1) by (unfold dt; field; lra).
    replace (INR n * dt ^ 3 / 2) with ((INR n * dt) * dt ^ 2 / 2) by field. rewrite E, Rmult_1_l.
    assert (0 < dt ^ 2) by (apply pow_lt; auto). rewrite Rabs_pos_eq by lra.
    replace (C * dt ^ 3) with (C * dt * dt ^ 2) by ring.
    assert (C * dt < / 2); [|nra].
    assert (C <= Rabs C) by apply Rle_abs.
    assert (C * dt <= Rabs C * dt) by (apply Rmult_le_compat_r; lra).
    assert (2 * Rabs C * dt < INR n * dt) by (apply Rmult_lt_compat_r; lra). lra.
Qed.
