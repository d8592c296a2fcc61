(** * The backward sweep is the adjoint of the forward sweep. *)
From Coq Require Import ZArith Bool Lia Reals Lra Psatz FunctionalExtensionality.
From Coq Require Import List.
From Verif Require Import Num Arr ArrFacts M_Ode Spec_Ode Spec_Dual P_Ode P_OdeRK P_OdeR.
Import ListNotations.
Local Open Scope R_scope.

(** ** one step of each method, for one of the two components *)
Section Gen.
Context {V B : Val RNum} {A : Type} (f : V -> A -> B -> V).
Local Open Scope val_scope.
Definition g_fwd (mtd : method) (dt : R) (a0 am a1 : A) (b0 bm b1 : B) (x : V) : V :=
  match mtd with
  | Euler => x +v (dt : RNum) *v f x a0 b0
  | Heun => let p := f x a0 b0 in
            x +v (half * dt : RNum)%num *v (p +v f (x +v (dt : RNum) *v p) a1 b1)
  | RK2 => x +v (dt : RNum) *v f (x +v (half * dt : RNum)%num *v f x a0 b0) am bm
  | RK4 => let h := (half * dt : RNum)%num in
           let K1 := f x a0 b0 in let K2 := f (x +v h *v K1) am bm in
           let K3 := f (x +v h *v K2) am bm in let K4 := f (x +v (dt : RNum) *v K3) a1 b1 in
           x +v ((dt : RNum) *v (K1 +v nZ 2 *v (K2 +v K3) +v K4)) /v nZ 6
  end.
End Gen.
Section GenB.
Context {V : Val RNum} {A : Type} (f : V -> A -> V -> V).
Local Open Scope val_scope.
(** g1, a1 at t; gm, am mid; g0, a0 at t - 1 *)
Definition g_bwd (mtd : method) (dt : R) (a1 am a0 : A) (g1 gm g0 : V) (o : V) (x : V) : V :=
  match mtd with
  | Euler => x -v (dt : RNum) *v f g1 a1 x +v o
  | Heun => let p := f g1 a1 x in
            x -v (half * dt : RNum)%num *v (p +v f g0 a0 (x -v (dt : RNum) *v p)) +v o
  | RK2 => x -v (dt : RNum) *v f gm am (x -v (half * dt : RNum)%num *v f g1 a1 x) +v o
  | RK4 => let h := (half * dt : RNum)%num in
           let K1 := f g1 a1 x in let K2 := f gm am (x -v h *v K1) in
           let K3 := f gm am (x -v h *v K2) in let K4 := f g0 a0 (x -v (dt : RNum) *v K3) in
           x -v ((dt : RNum) *v (K1 +v nZ 2 *v (K2 +v K3) +v K4)) /v nZ 6 +v o
  end.
End GenB.

Section Steps.
Context (P : Sys RNum).
Definition mida (A : list (VS P)) k : VS P := vscale (half : RNum) (vadd (ga P A k) (ga P A (k + 1))).
Definition midm (A : list (VM P)) k : VM P := vscale (half : RNum) (vadd (gm P A k) (gm P A (k + 1))).
Lemma fwd_m_step mtd dt A b m0 s0 sigma mt st k :
  solve_fwd P mtd dt A b m0 s0 sigma = Ok (mt, st) -> length A = length b -> (k + 1 < length b)%nat ->
  gm P mt (k + 1) = g_fwd (f_mt P) mtd dt (ga P A k) (mida A k) (ga P A (k + 1)) (gm P b k) (midm b k) (gm P b (k + 1)) (gm P mt k).
Proof.
  intros H HA Hk. pose proof (solve_fwd_step P _ _ _ _ _ _ _ _ _ k H Hk) as E.
  apply (f_equal fst) in E. cbn [fst] in E. rewrite E. destruct mtd; try reflexivity.
  - cbn [fwd_body]. unfold rk2_fwd_body. cbn [fst g_fwd]. unfold mida, midm, ga, gm.
    rewrite (nth_mids A), (nth_mids b) by lia. reflexivity.
  - cbn [fwd_body]. unfold rk4_fwd_body. cbn [fst g_fwd]. unfold mida, midm, ga, gm.
    rewrite (nth_mids A), (nth_mids b) by lia. reflexivity.
Qed.
Lemma fwd_s_step mtd dt A b m0 s0 sigma mt st k :
  mtd <> RK2 ->
  solve_fwd P mtd dt A b m0 s0 sigma = Ok (mt, st) -> length A = length b -> (k + 1 < length b)%nat ->
  ga P st (k + 1) = g_fwd (f_st P) mtd dt (ga P A k) (mida A k) (ga P A (k + 1)) sigma sigma sigma (ga P st k).
Proof.
  intros Hm H HA Hk. pose proof (solve_fwd_step P _ _ _ _ _ _ _ _ _ k H Hk) as E.
  apply (f_equal snd) in E. cbn [snd] in E. rewrite E. destruct mtd; try reflexivity; [congruence|].
  cbn [fwd_body]. unfold rk4_fwd_body. cbn [snd g_fwd]. unfold mida, ga.
  rewrite (nth_mids A) by lia. reflexivity.
Qed.
Lemma bwd_l_step mtd dt A dm ds om os lam psi k :
  solve_bwd P mtd dt A dm ds om os = Ok (lam, psi) -> length A = length dm -> (k + 1 < length dm)%nat ->
  gm P lam k = g_bwd (f_lam P) mtd dt (ga P A (k + 1)) (mida A k) (ga P A k)
    (gm P dm (k + 1)) (midm dm k) (gm P dm k) (gm P om k) (gm P lam (k + 1)).
Proof.
  intros H HA Hk. pose proof (solve_bwd_step P _ _ _ _ _ _ _ _ _ k H Hk) as E.
  apply (f_equal fst) in E. cbn [fst] in E. rewrite E.
  destruct mtd; cbn [bwd_body].
  - unfold euler_bwd_body. cbn [fst g_bwd]. replace (k + 1 - 1)%nat with k by lia. reflexivity.
  - unfold heun_bwd_body. cbn [fst g_bwd]. replace (k + 1 - 1)%nat with k by lia. reflexivity.
  - unfold rk2_bwd_body. cbn [fst g_bwd]. replace (k + 1 - 1)%nat with k by lia. unfold mida, midm, ga, gm.
    rewrite (nth_mids_app A), (nth_mids_app dm) by lia. reflexivity.
  - unfold rk4_bwd_body. cbn [fst g_bwd]. replace (k + 1 - 1)%nat with k by lia. unfold mida, midm, ga, gm.
    rewrite (nth_mids_app A), (nth_mids_app dm) by lia. reflexivity.
Qed.
Lemma bwd_p_step mtd dt A dm ds om os lam psi k :
  solve_bwd P mtd dt A dm ds om os = Ok (lam, psi) -> length A = length dm -> length ds = length dm -> (k + 1 < length dm)%nat ->
  ga P psi k = g_bwd (f_psi P) mtd dt (ga P A (k + 1)) (mida A k) (ga P A k)
    (ga P ds (k + 1)) (mida ds k) (ga P ds k) (ga P os k) (ga P psi (k + 1)).
Proof.
  intros H HA Hd Hk. pose proof (solve_bwd_step P _ _ _ _ _ _ _ _ _ k H Hk) as E.
  apply (f_equal snd) in E. cbn [snd] in E. rewrite E.
  destruct mtd; cbn [bwd_body].
  - unfold euler_bwd_body. cbn [snd g_bwd]. replace (k + 1 - 1)%nat with k by lia. reflexivity.
  - unfold heun_bwd_body. cbn [snd g_bwd]. replace (k + 1 - 1)%nat with k by lia. reflexivity.
  - unfold rk2_bwd_body. cbn [snd g_bwd]. replace (k + 1 - 1)%nat with k by lia. unfold mida, ga.
    rewrite (nth_mids_app A), (nth_mids_app ds) by lia. reflexivity.
  - unfold rk4_bwd_body. cbn [snd g_bwd]. replace (k + 1 - 1)%nat with k by lia. unfold mida, ga.
    rewrite (nth_mids_app A), (nth_mids_app ds) by lia. reflexivity.
Qed.
End Steps.

(** ** duality of one step *)
Record pairing (V : Val RNum) (ip : V -> V -> R) : Prop := mkPair {
  p_addl : forall u v w, ip (vadd u v) w = ip u w + ip v w;
  p_addr : forall u v w, ip w (vadd u v) = ip w u + ip w v;
  p_subl : forall u v w, ip (vsub u v) w = ip u w - ip v w;
  p_subr : forall u v w, ip w (vsub u v) = ip w u - ip w v;
  p_oppl : forall u w, ip (vopp u) w = - ip u w;
  p_oppr : forall u w, ip w (vopp u) = - ip w u;
  p_scl : forall (a : R) u w, ip (vscale (a : RNum) u) w = a * ip u w;
  p_scr : forall (a : R) u w, ip w (vscale (a : RNum) u) = a * ip w u;
  p_dvl : forall (a : R) u w, ip (vdivs u (a : RNum)) w = ip u w / a;
  p_dvr : forall (a : R) u w, ip w (vdivs u (a : RNum)) = ip w u / a;
  p_0l : forall w, ip (vzero V) w = 0 }.
(** L a linear, Lt a its transpose; only for arguments a satisfying G *)
Record adjoint {V : Val RNum} (ip : V -> V -> R) {A : Type} (G : A -> Prop)
    (L Lt : A -> V -> V) (fw bw : V -> A -> V -> V) : Prop := mkAdj {
  a_add : forall a u v, L a (vadd u v) = vadd (L a u) (L a v);
  a_opp : forall a u, L a (vopp u) = vopp (L a u);
  a_scale : forall a (c : R) u, L a (vscale (c : RNum) u) = vscale (c : RNum) (L a u);
  a_t : forall a u v, G a -> ip (Lt a u) v = ip u (L a v);
  a_fw : forall x a b, fw x a b = vadd (vopp (L a x)) b;
  a_bw : forall g a x, bw g a x = vadd (vopp g) (Lt a x) }.

Section Dual.
Context {V : Val RNum} {A : Type} (ip : V -> V -> R) (G : A -> Prop) (L Lt : A -> V -> V) (fw bw : V -> A -> V -> V).
Context (HP : pairing V ip) (HA : adjoint ip G L Lt fw bw).

Ltac ipr := repeat first
  [ rewrite (a_fw _ _ _ _ _ _ HA) | rewrite (a_bw _ _ _ _ _ _ HA)
  | rewrite (a_add _ _ _ _ _ _ HA) | rewrite (a_opp _ _ _ _ _ _ HA) | rewrite (a_scale _ _ _ _ _ _ HA)
  | rewrite (p_addl _ _ HP) | rewrite (p_addr _ _ HP) | rewrite (p_subl _ _ HP) | rewrite (p_subr _ _ HP)
  | rewrite (p_oppl _ _ HP) | rewrite (p_oppr _ _ HP) | rewrite (p_scl _ _ HP) | rewrite (p_scr _ _ HP)
  | rewrite (p_dvl _ _ HP) | rewrite (p_dvr _ _ HP) | rewrite (p_0l _ _ HP)
  | rewrite (a_t _ _ _ _ _ _ HA) by assumption ].

Lemma dual_euler (dt : R) a0 am a1 a2 am' b0 bm b1 g gm g' o l x x' : G a1 ->
  ip (g_bwd bw Euler dt a1 am a0 g gm g' o l) (vsub x' x) =
  ip l (vsub (g_fwd fw Euler dt a1 am' a2 b0 bm b1 x') (g_fwd fw Euler dt a1 am' a2 b0 bm b1 x)) +
  dt * ip g (vsub x' x) + ip o (vsub x' x).
Proof. intros Ha. cbn [g_bwd g_fwd]. ipr. ring. Qed.
Lemma dual_step mtd (dt : R) a0 am a1 b0 bm b1 o l x x' : mtd = Heun \/ mtd = RK4 -> G a0 -> G am -> G a1 ->
  ip (g_bwd bw mtd dt a1 am a0 (vzero V) (vzero V) (vzero V) o l) (vsub x' x) =
  ip l (vsub (g_fwd fw mtd dt a0 am a1 b0 bm b1 x') (g_fwd fw mtd dt a0 am a1 b0 bm b1 x)) + ip o (vsub x' x).
Proof.
  intros Hm H0 H1 H2. destruct Hm as [-> | ->]; cbn [g_bwd g_fwd]; unfold half.
  - ipr. change (nlit (n := RNum) 1 2) with (1 / 2). change (@nmul RNum) with Rmult. field.
  - ipr. change (nlit (n := RNum) 1 2) with (1 / 2). change (@nmul RNum) with Rmult.
    change (nZ (K := RNum) 2) with 2. change (nZ (K := RNum) 6) with 6. field.
Qed.
End Dual.

(** ** sums *)
Lemma tele (q c : nat -> R) j m :
  (forall k, (j <= k < j + m)%nat -> q k = q (k + 1)%nat + c k) -> q (j + m)%nat = 0 ->
  q j = rsum m (fun i => c (j + i)%nat).
Proof.
  revert j. induction m as [|m IH]; intros j Hs H0.
  - rewrite Nat.add_0_r in H0. rewrite H0. reflexivity.
  - rewrite sumn_shift, Nat.add_0_r. rewrite (Hs j) by lia.
    rewrite (IH (j + 1)%nat).
    + rewrite Rplus_comm. f_equal. apply sumn_ext. intros i Hi. f_equal. lia.
    + intros k Hk. apply Hs. lia.
    + rewrite <- H0. f_equal. lia.
Qed.

Section Sweep.
Context {V : Val RNum} {A : Type} (ip : V -> V -> R) (G : A -> Prop) (L Lt : A -> V -> V) (fw bw : V -> A -> V -> V).
Context (HP : pairing V ip) (HA : adjoint ip G L Lt fw bw).
Context (n : nat) (dt : R) (a am : nat -> A) (b bm : nat -> V) (x x' l g gm o : nat -> V).
Context (Gn : forall k, (k < n)%nat -> G (a k)) (Gm : forall k, (k + 1 < n)%nat -> G (am k)).
Context (l0 : l (n - 1)%nat = vzero V).

Lemma sweep_euler j :
  (forall k, (k + 1 < n)%nat -> x (k + 1)%nat = g_fwd fw Euler dt (a k) (am k) (a (k + 1)%nat) (b k) (bm k) (b (k + 1)%nat) (x k)) ->
  (forall k, (k + 1 < n)%nat -> x' (k + 1)%nat = g_fwd fw Euler dt (a k) (am k) (a (k + 1)%nat) (b k) (bm k) (b (k + 1)%nat) (x' k)) ->
  (forall k, (k + 1 < n)%nat -> l k = g_bwd bw Euler dt (a (k + 1)%nat) (am k) (a k) (g (k + 1)%nat) (gm k) (g k) (o k) (l (k + 1)%nat)) ->
  (j + 1 < n)%nat ->
  ip (l j) (vsub (x' (j + 1)%nat) (x (j + 1)%nat)) =
  rsum (n - 1 - j) (fun i => dt * ip (g (j + i + 1)%nat) (vsub (x' (j + i + 1)%nat) (x (j + i + 1)%nat)) +
                            ip (o (j + i)%nat) (vsub (x' (j + i + 1)%nat) (x (j + i + 1)%nat))).
Proof.
  intros Hx Hx' Hl Hj.
  apply (tele (fun k => ip (l k) (vsub (x' (k + 1)%nat) (x (k + 1)%nat)))
     (fun k => dt * ip (g (k + 1)%nat) (vsub (x' (k + 1)%nat) (x (k + 1)%nat)) + ip (o k) (vsub (x' (k + 1)%nat) (x (k + 1)%nat)))).
  - intros k Hk. rewrite (Hl k) by lia.
    rewrite (dual_euler ip G L Lt fw bw HP HA dt (a k) (am k) (a (k + 1)%nat) (a (k + 1 + 1)%nat) (am (k + 1)%nat)
       (b (k + 1)%nat) (bm (k + 1)%nat) (b (k + 1 + 1)%nat) (g (k + 1)%nat) (gm k) (g k) (o k)) by (apply Gn; lia).
    rewrite Rplus_assoc. f_equal.
    destruct (Nat.eq_dec (k + 1) (n - 1)) as [E|E].
    + replace (l (k + 1)%nat) with (vzero V) by (rewrite E; symmetry; exact l0). now rewrite !(p_0l _ _ HP).
    + rewrite <- Hx, <- Hx' by lia. reflexivity.
  - replace (j + (n - 1 - j))%nat with (n - 1)%nat by lia. rewrite l0. apply (p_0l _ _ HP).
Qed.

Lemma sweep_jumps mtd j : mtd = Heun \/ mtd = RK4 ->
  (forall k, (k + 1 < n)%nat -> x (k + 1)%nat = g_fwd fw mtd dt (a k) (am k) (a (k + 1)%nat) (b k) (bm k) (b (k + 1)%nat) (x k)) ->
  (forall k, (k + 1 < n)%nat -> x' (k + 1)%nat = g_fwd fw mtd dt (a k) (am k) (a (k + 1)%nat) (b k) (bm k) (b (k + 1)%nat) (x' k)) ->
  (forall k, (k + 1 < n)%nat -> l k = g_bwd bw mtd dt (a (k + 1)%nat) (am k) (a k) (vzero V) (vzero V) (vzero V) (o k) (l (k + 1)%nat)) ->
  (j < n)%nat ->
  ip (l j) (vsub (x' j) (x j)) = rsum (n - 1 - j) (fun i => ip (o (j + i)%nat) (vsub (x' (j + i)%nat) (x (j + i)%nat))).
Proof.
  intros Hm Hx Hx' Hl Hj.
  apply (tele (fun k => ip (l k) (vsub (x' k) (x k))) (fun k => ip (o k) (vsub (x' k) (x k)))).
  - intros k Hk. rewrite (Hl k) by lia.
    rewrite (dual_step ip G L Lt fw bw HP HA mtd dt (a k) (am k) (a (k + 1)%nat) (b k) (bm k) (b (k + 1)%nat))
      by (first [assumption | apply Gn; lia | apply Gm; lia]).
    rewrite <- Hx, <- Hx' by lia. reflexivity.
  - replace (j + (n - 1 - j))%nat with (n - 1)%nat by lia. rewrite l0. apply (p_0l _ _ HP).
Qed.
End Sweep.

(** ** the three spaces *)
Lemma pair1 : pairing sV Rmult.
Proof. split; intros; cbn; try (unfold Rdiv); ring. Qed.
Lemma pairv d : pairing vV (dotp d).
Proof.
  split; unfold dotp; intros; cbn -[sumn];
  rewrite <- ?sumn_plus, <- ?sumn_minus, <- ?sumn_opp, <- ?sumn_scal; unfold Rdiv; rewrite <- ?sumn_scal_r;
  try (apply sumn_ext; intros; unfold Rdiv; ring).
  apply sumn_zero. intros. cbn. ring.
Qed.
Lemma frob_row d A B : frobp d A B = rsum d (fun i => dotp d (A i) (B i)).
Proof. reflexivity. Qed.
Lemma pairm d : pairing mV (frobp d).
Proof.
  split; intros; rewrite ?frob_row;
  rewrite <- ?sumn_plus, <- ?sumn_minus, <- ?sumn_opp, <- ?sumn_scal; unfold Rdiv; rewrite <- ?sumn_scal_r;
  try (apply sumn_ext; intros; destruct (pairv d) as [a1 a2 a3 a4 a5 a6 a7 a8 a9 a10 a11]; cbn [matV vadd vsub vopp vscale vdivs];
    first [apply a1|apply a2|apply a3|apply a4|apply a5|apply a6|apply a7|apply a8|apply a9|apply a10]).
  apply sumn_zero. intros. apply (p_0l _ _ (pairv d)).
Qed.

Lemma adj_m1 : adjoint (V := sV) Rmult (fun _ : R => True) Rmult Rmult (f_mt S1) (f_lam S1).
Proof. split; intros; cbn; unfold fun_mt_1, fun_lam_1; rnum; ring. Qed.
Lemma adj_s1 : adjoint (V := sV) Rmult (fun _ : R => True) (fun a x => 2 * a * x) (fun a x => 2 * a * x) (f_st S1) (f_psi S1).
Proof. split; intros; cbn; unfold fun_st_1, fun_psi_1; rnum; ring. Qed.

(** mean: A symmetric on the first d indexes *)
Lemma adj_mn d : adjoint (V := vV) (dotp d) (fun A : Rmat => symmetric d A) (fun A => mvec (K := RNum) d A)
  (fun A l i => vecm (K := RNum) d l (mtr A) i) (f_mt (Sn d)) (f_lam (Sn d)).
Proof.
  split; intros.
  - apply functional_extensionality; intros i. unfold mvec. cbn -[sumn]. rewrite <- sumn_plus. apply sumn_ext; intros; cbn; ring.
  - apply functional_extensionality; intros i. unfold mvec. cbn -[sumn]. rewrite <- sumn_opp. apply sumn_ext; intros; cbn; ring.
  - apply functional_extensionality; intros i. unfold mvec. cbn -[sumn]. rewrite <- sumn_scal. apply sumn_ext; intros; cbn; ring.
  - unfold dotp, vecm, mvec, mtr.
    transitivity (rsum d (fun i => rsum d (fun k => u k * a i k * v i))).
    { apply sumn_ext; intros i Hi. symmetry. apply (sumn_scal_r d (v i)). }
    rewrite sumn_swap. apply sumn_ext; intros i Hi.
    transitivity (u i * rsum d (fun k => a i k * v k)); [|reflexivity].
    rewrite <- sumn_scal. apply sumn_ext; intros k Hk. rewrite (H k i) by assumption. ring.
  - reflexivity.
  - reflexivity.
Qed.
Definition lop d (A S_ : Rmat) : Rmat := fun i j => mmul (K := RNum) d A S_ i j + mmul (K := RNum) d S_ (mtr A) i j.
Definition lopt d (A S_ : Rmat) : Rmat := fun i j => mmul (K := RNum) d S_ A i j + mmul (K := RNum) d (mtr A) S_ i j.
Lemma adj_sn d : adjoint (V := mV) (frobp d) (fun _ : Rmat => True) (lop d) (lopt d) (f_st (Sn d)) (f_psi (Sn d)).
Proof.
  split; intros.
  - apply functional_extensionality; intros i; apply functional_extensionality; intros j. unfold lop, mmul. cbn -[sumn].
    rewrite (sumn_ext d (fun k => a i k * (u k j + v k j)) (fun k => a i k * u k j + a i k * v k j)) by (intros; ring).
    rewrite (sumn_ext d (fun k => (u i k + v i k) * mtr a k j) (fun k => u i k * mtr a k j + v i k * mtr a k j)) by (intros; ring).
    rewrite !sumn_plus. ring.
  - apply functional_extensionality; intros i; apply functional_extensionality; intros j. unfold lop, mmul. cbn -[sumn].
    rewrite (sumn_ext d (fun k => a i k * - u k j) (fun k => - (a i k * u k j))) by (intros; ring).
    rewrite (sumn_ext d (fun k => - u i k * mtr a k j) (fun k => - (u i k * mtr a k j))) by (intros; ring).
    rewrite !sumn_opp. ring.
  - apply functional_extensionality; intros i; apply functional_extensionality; intros j. unfold lop, mmul. cbn -[sumn].
    rewrite (sumn_ext d (fun k => a i k * (c * u k j)) (fun k => c * (a i k * u k j))) by (intros; ring).
    rewrite (sumn_ext d (fun k => c * u i k * mtr a k j) (fun k => c * (u i k * mtr a k j))) by (intros; ring).
    rewrite !sumn_scal. ring.
  - unfold frobp, lop, lopt, mmul, mtr. cbn -[sumn].
    rewrite (sumn_ext d (fun i => rsum d (fun j => (rsum d (fun k => u i k * a k j) + rsum d (fun k => a k i * u k j)) * v i j))
      (fun i => rsum d (fun j => rsum d (fun k => u i k * a k j * v i j)) + rsum d (fun j => rsum d (fun k => a k i * u k j * v i j)))).
    2:{ intros i Hi. rewrite <- sumn_plus. apply sumn_ext; intros j Hj. rewrite !sumn_scal_r. ring. }
    rewrite (sumn_ext d (fun i => rsum d (fun j => u i j * (rsum d (fun k => a i k * v k j) + rsum d (fun k => v i k * a j k))))
      (fun i => rsum d (fun j => rsum d (fun k => u i j * (a i k * v k j))) + rsum d (fun j => rsum d (fun k => u i j * (v i k * a j k))))).
    2:{ intros i Hi. rewrite <- sumn_plus. apply sumn_ext; intros j Hj. rewrite !sumn_scal. ring. }
    rewrite !sumn_plus, Rplus_comm. f_equal.
    + (* sum_ijk a k i u k j v i j = sum_ijk u i j a i k v k j *)
      transitivity (rsum d (fun i => rsum d (fun k => rsum d (fun j => a k i * u k j * v i j)))).
      { apply sumn_ext; intros. apply sumn_swap. }
      rewrite sumn_swap. apply sumn_ext; intros i Hi. rewrite sumn_swap.
      apply sumn_ext; intros j Hj. apply sumn_ext; intros k Hk. ring.
    + apply sumn_ext; intros i Hi. rewrite sumn_swap. apply sumn_ext; intros j Hj. apply sumn_ext; intros k Hk. ring.
  - apply functional_extensionality; intros i; apply functional_extensionality; intros j.
    unfold lop. cbn -[sumn]. unfold fun_st_n. rnum. ring.
  - apply functional_extensionality; intros i; apply functional_extensionality; intros j.
    unfold lopt. cbn -[sumn]. unfold fun_psi_n. rnum. ring.
Qed.

(** ** whole sweeps *)
Lemma bwd_last {P : Sys RNum} {mtd dt A dm ds om os lam psi} :
  solve_bwd P mtd dt A dm ds om os = Ok (lam, psi) -> dm <> [] ->
  gm P lam (length dm - 1) = vzero (VM P) /\ ga P psi (length dm - 1) = vzero (VS P).
Proof.
  intros H Hd. destruct (solve_bwd_shape P _ _ _ _ _ _ _ _ _ H) as (_ & _ & E). destruct (E Hd) as [E1 E2].
  split; unfold gm, ga; apply nth_error_nth; assumption.
Qed.
Section Both.
Context (P : Sys RNum) (mtd : method) (dt : R) (A : list (VS P)) (b : list (VM P)).
Context (m0 m0' : VM P) (s0 s0' sigma : VS P) (mt mt' : list (VM P)) (st st' : list (VS P)).
Context (dm om lam : list (VM P)) (ds os psi : list (VS P)).
Context (F : solve_fwd P mtd dt A b m0 s0 sigma = Ok (mt, st)).
Context (F' : solve_fwd P mtd dt A b m0' s0' sigma = Ok (mt', st')).
Context (Bw : solve_bwd P mtd dt A dm ds om os = Ok (lam, psi)).
Context (LA : length A = length b) (Ld : length dm = length b) (Ls : length ds = length b).
Let n := length b.

Lemma both_m_euler (ip : VM P -> VM P -> R) (G : VS P -> Prop) L Lt j :
  pairing (VM P) ip -> adjoint ip G L Lt (f_mt P) (f_lam P) -> mtd = Euler ->
  (forall k, (k < n)%nat -> G (ga P A k)) -> (j + 1 < n)%nat ->
  ip (gm P lam j) (vsub (gm P mt' (j + 1)) (gm P mt (j + 1))) =
  rsum (n - 1 - j) (fun i => dt * ip (gm P dm (j + i + 1)) (vsub (gm P mt' (j + i + 1)) (gm P mt (j + i + 1))) +
                            ip (gm P om (j + i)) (vsub (gm P mt' (j + i + 1)) (gm P mt (j + i + 1)))).
Proof. clear Ls.
  intros HP HA Em HG Hj. unfold n in *.
  apply (sweep_euler ip G L Lt _ _ HP HA (length b) dt (ga P A) (fun k => mida P A k) (gm P b) (fun k => midm P b k)
    (gm P mt) (gm P mt') (gm P lam) (gm P dm) (fun k => midm P dm k) (gm P om) HG).
  - rewrite <- Ld. apply (proj1 (bwd_last Bw ltac:(intros ->; cbn in Ld; lia))).
  - intros k Hk. rewrite <- Em. eapply fwd_m_step; eassumption.
  - intros k Hk. rewrite <- Em. eapply fwd_m_step; eassumption.
  - intros k Hk. rewrite <- Em. eapply bwd_l_step; [eassumption|congruence|lia].
  - exact Hj.
Qed.
Lemma both_s_euler (ip : VS P -> VS P -> R) (G : VS P -> Prop) L Lt j :
  pairing (VS P) ip -> adjoint ip G L Lt (f_st P) (f_psi P) -> mtd = Euler ->
  (forall k, (k < n)%nat -> G (ga P A k)) -> (j + 1 < n)%nat ->
  ip (ga P psi j) (vsub (ga P st' (j + 1)) (ga P st (j + 1))) =
  rsum (n - 1 - j) (fun i => dt * ip (ga P ds (j + i + 1)) (vsub (ga P st' (j + i + 1)) (ga P st (j + i + 1))) +
                            ip (ga P os (j + i)) (vsub (ga P st' (j + i + 1)) (ga P st (j + i + 1)))).
Proof.
  intros HP HA Em HG Hj. unfold n in *.
  apply (sweep_euler ip G L Lt _ _ HP HA (length b) dt (ga P A) (fun k => mida P A k) (fun _ => sigma) (fun _ => sigma)
    (ga P st) (ga P st') (ga P psi) (ga P ds) (fun k => mida P ds k) (ga P os) HG).
  - rewrite <- Ld. apply (proj2 (bwd_last Bw ltac:(intros ->; cbn in Ld; lia))).
  - intros k Hk. rewrite <- Em. eapply fwd_s_step; try eassumption. congruence.
  - intros k Hk. rewrite <- Em. eapply fwd_s_step; try eassumption. congruence.
  - intros k Hk. rewrite <- Em. eapply bwd_p_step; [eassumption|congruence|congruence|lia].
  - exact Hj.
Qed.
Lemma both_m_jumps (ip : VM P -> VM P -> R) (G : VS P -> Prop) L Lt j :
  pairing (VM P) ip -> adjoint ip G L Lt (f_mt P) (f_lam P) -> mtd = Heun \/ mtd = RK4 ->
  (forall k, (k < n)%nat -> G (ga P A k)) -> (forall k, (k + 1 < n)%nat -> G (mida P A k)) ->
  (forall k, gm P dm k = vzero (VM P)) -> (forall k, midm P dm k = vzero (VM P)) -> (j < n)%nat ->
  ip (gm P lam j) (vsub (gm P mt' j) (gm P mt j)) =
  rsum (n - 1 - j) (fun i => ip (gm P om (j + i)) (vsub (gm P mt' (j + i)) (gm P mt (j + i)))).
Proof. clear Ls.
  intros HP HA Em HG Hm Hz Hz' Hj. unfold n in *.
  apply (sweep_jumps ip G L Lt _ _ HP HA (length b) dt (ga P A) (fun k => mida P A k) (gm P b) (fun k => midm P b k)
    (gm P mt) (gm P mt') (gm P lam) (gm P om) HG Hm) with (mtd := mtd); try assumption.
  - rewrite <- Ld. apply (proj1 (bwd_last Bw ltac:(intros ->; cbn in Ld; lia))).
  - intros k Hk. eapply fwd_m_step; eassumption.
  - intros k Hk. eapply fwd_m_step; eassumption.
  - intros k Hk. rewrite <- (Hz (k + 1)%nat) at 1. rewrite <- (Hz' k) at 1. rewrite <- (Hz k) at 1.
    eapply bwd_l_step; [eassumption|congruence|lia].
Qed.
Lemma both_s_jumps (ip : VS P -> VS P -> R) (G : VS P -> Prop) L Lt j :
  pairing (VS P) ip -> adjoint ip G L Lt (f_st P) (f_psi P) -> mtd = Heun \/ mtd = RK4 ->
  (forall k, (k < n)%nat -> G (ga P A k)) -> (forall k, (k + 1 < n)%nat -> G (mida P A k)) ->
  (forall k, ga P ds k = vzero (VS P)) -> (forall k, mida P ds k = vzero (VS P)) -> (j < n)%nat ->
  ip (ga P psi j) (vsub (ga P st' j) (ga P st j)) =
  rsum (n - 1 - j) (fun i => ip (ga P os (j + i)) (vsub (ga P st' (j + i)) (ga P st (j + i)))).
Proof.
  intros HP HA Em HG Hm Hz Hz' Hj. unfold n in *.
  assert (H2 : mtd <> RK2) by (destruct Em; congruence).
  apply (sweep_jumps ip G L Lt _ _ HP HA (length b) dt (ga P A) (fun k => mida P A k) (fun _ => sigma) (fun _ => sigma)
    (ga P st) (ga P st') (ga P psi) (ga P os) HG Hm) with (mtd := mtd); try assumption.
  - rewrite <- Ld. apply (proj2 (bwd_last Bw ltac:(intros ->; cbn in Ld; lia))).
  - intros k Hk. eapply fwd_s_step; eassumption.
  - intros k Hk. eapply fwd_s_step; eassumption.
  - intros k Hk. rewrite <- (Hz (k + 1)%nat) at 1. rewrite <- (Hz' k) at 1. rewrite <- (Hz k) at 1.
    eapply bwd_p_step; [eassumption|congruence|congruence|lia].
Qed.
End Both.

Lemma nth_all {T} (z : T) l k : (forall u, In u l -> u = z) -> nth k l z = z.
Proof. intros H. destruct (Nat.lt_ge_cases k (length l)); [apply H, nth_In; assumption|apply nth_overflow; assumption]. Qed.
Lemma mid0v : vscale (v := vV) (half : RNum) (vadd (vzero vV) (vzero vV)) = vzero vV.
Proof. apply functional_extensionality; intros i. cbn. ring. Qed.
Lemma mid0m : vscale (v := mV) (half : RNum) (vadd (vzero mV) (vzero mV)) = vzero mV.
Proof. apply functional_extensionality; intros i; apply functional_extensionality; intros j. cbn. ring. Qed.
Lemma mid01 : vscale (v := sV) (half : RNum) (vadd (vzero sV) (vzero sV)) = vzero sV.
Proof. cbn. ring. Qed.
Lemma mid_sym d (u v : Rmat) : symmetric d u -> symmetric d v ->
  symmetric d (vscale (v := mV) (half : RNum) (vadd (u : mV) v)).
Proof. intros H1 H2 i j Hi Hj. cbn. rewrite (H1 i j), (H2 i j) by assumption. reflexivity. Qed.

Theorem euler_dual_1 (dt : R) (A b : list R) (m0 m0' s0 s0' sigma : R) (mt st mt' st' dm ds om os lam psi : list R) j :
  solve_fwd S1 Euler dt A b m0 s0 sigma = Ok (mt, st) ->
  solve_fwd S1 Euler dt A b m0' s0' sigma = Ok (mt', st') ->
  solve_bwd S1 Euler dt A dm ds om os = Ok (lam, psi) ->
  length A = length b -> length dm = length b -> length ds = length b -> (j + 1 < length b)%nat ->
  nth j lam 0 * (nth (j + 1) mt' 0 - nth (j + 1) mt 0) =
    rsum (length b - 1 - j) (fun i => (dt * nth (j + i + 1) dm 0 + nth (j + i) om 0) * (nth (j + i + 1) mt' 0 - nth (j + i + 1) mt 0)) /\
  nth j psi 0 * (nth (j + 1) st' 0 - nth (j + 1) st 0) =
    rsum (length b - 1 - j) (fun i => (dt * nth (j + i + 1) ds 0 + nth (j + i) os 0) * (nth (j + i + 1) st' 0 - nth (j + i + 1) st 0)).
Proof.
  intros F F' Bw LA Ld Ls Hj. split.
  - etransitivity; [apply (both_m_euler S1 Euler dt A b m0 m0' s0 s0' sigma mt mt' st st' dm om lam ds os psi F F' Bw LA Ld
      Rmult _ _ _ j pair1 adj_m1 eq_refl (fun _ _ => I) Hj)|].
    apply sumn_ext. intros i Hi. cbn. unfold gm. cbn. ring.
  - etransitivity; [apply (both_s_euler S1 Euler dt A b m0 m0' s0 s0' sigma mt mt' st st' dm om lam ds os psi F F' Bw LA Ld Ls
      Rmult _ _ _ j pair1 adj_s1 eq_refl (fun _ _ => I) Hj)|].
    apply sumn_ext. intros i Hi. cbn. unfold ga. cbn. ring.
Qed.
Theorem euler_dual_mean_n d (dt : R) (A : list Rmat) (b : list Rvec) (m0 m0' : Rvec) (s0 s0' sigma : Rmat)
  (mt mt' : list Rvec) (st st' : list Rmat) (dm : list Rvec) (ds : list Rmat) (om : list Rvec) (os : list Rmat) (lam : list Rvec) (psi : list Rmat) j :
  solve_fwd (Sn d) Euler dt A b m0 s0 sigma = Ok (mt, st) ->
  solve_fwd (Sn d) Euler dt A b m0' s0' sigma = Ok (mt', st') ->
  solve_bwd (Sn d) Euler dt A dm ds om os = Ok (lam, psi) ->
  length A = length b -> length dm = length b -> (j + 1 < length b)%nat ->
  (forall a, In a A -> symmetric d a) ->
  dotp d (atv lam j) (vdiff (atv mt' (j + 1)) (atv mt (j + 1))) =
    rsum (length b - 1 - j) (fun i =>
      dt * dotp d (atv dm (j + i + 1)) (vdiff (atv mt' (j + i + 1)) (atv mt (j + i + 1))) +
      dotp d (atv om (j + i)) (vdiff (atv mt' (j + i + 1)) (atv mt (j + i + 1)))).
Proof.
  intros F F' Bw LA Ld Hj HS.
  apply (both_m_euler (Sn d) Euler dt A b m0 m0' s0 s0' sigma mt mt' st st' dm om lam ds os psi F F' Bw LA Ld
      (dotp d) _ _ _ j (pairv d) (adj_mn d) eq_refl).
  - intros k Hk. apply HS. apply nth_In. change (k < @length Rmat A)%nat. rewrite LA. exact Hk.
  - exact Hj.
Qed.
Theorem euler_dual_cov_n d (dt : R) (A : list Rmat) (b : list Rvec) (m0 m0' : Rvec) (s0 s0' sigma : Rmat)
  (mt mt' : list Rvec) (st st' : list Rmat) (dm : list Rvec) (ds : list Rmat) (om : list Rvec) (os : list Rmat) (lam : list Rvec) (psi : list Rmat) j :
  solve_fwd (Sn d) Euler dt A b m0 s0 sigma = Ok (mt, st) ->
  solve_fwd (Sn d) Euler dt A b m0' s0' sigma = Ok (mt', st') ->
  solve_bwd (Sn d) Euler dt A dm ds om os = Ok (lam, psi) ->
  length A = length b -> length dm = length b -> length ds = length b -> (j + 1 < length b)%nat ->
  frobp d (atm psi j) (mdiff (atm st' (j + 1)) (atm st (j + 1))) =
    rsum (length b - 1 - j) (fun i =>
      dt * frobp d (atm ds (j + i + 1)) (mdiff (atm st' (j + i + 1)) (atm st (j + i + 1))) +
      frobp d (atm os (j + i)) (mdiff (atm st' (j + i + 1)) (atm st (j + i + 1)))).
Proof.
  intros F F' Bw LA Ld Ls Hj.
  apply (both_s_euler (Sn d) Euler dt A b m0 m0' s0 s0' sigma mt mt' st st' dm om lam ds os psi F F' Bw LA Ld Ls
      (frobp d) _ _ _ j (pairm d) (adj_sn d) eq_refl (fun _ _ => I) Hj).
Qed.
Theorem jumps_dual_1 mtd (dt : R) (A b : list R) (m0 m0' s0 s0' sigma : R) (mt st mt' st' dm ds om os lam psi : list R) j :
  mtd = Heun \/ mtd = RK4 ->
  solve_fwd S1 mtd dt A b m0 s0 sigma = Ok (mt, st) ->
  solve_fwd S1 mtd dt A b m0' s0' sigma = Ok (mt', st') ->
  solve_bwd S1 mtd dt A dm ds om os = Ok (lam, psi) ->
  length A = length b -> length dm = length b -> length ds = length b -> (j < length b)%nat ->
  (forall u, In u dm -> u = 0) -> (forall u, In u ds -> u = 0) ->
  nth j lam 0 * (nth j mt' 0 - nth j mt 0) =
    rsum (length b - 1 - j) (fun i => nth (j + i) om 0 * (nth (j + i) mt' 0 - nth (j + i) mt 0)) /\
  nth j psi 0 * (nth j st' 0 - nth j st 0) =
    rsum (length b - 1 - j) (fun i => nth (j + i) os 0 * (nth (j + i) st' 0 - nth (j + i) st 0)).
Proof.
  intros Hm F F' Bw LA Ld Ls Hj Zm Zs.
  assert (Z1 : forall l : list R, (forall u, In u l -> u = 0) -> forall k, nth k l 0 = vzero sV) by (intros; apply nth_all; assumption).
  split.
  - apply (both_m_jumps S1 mtd dt A b m0 m0' s0 s0' sigma mt mt' st st' dm om lam ds os psi F F' Bw LA Ld
      Rmult _ _ _ j pair1 adj_m1 Hm (fun _ _ => I) (fun _ _ => I)).
    + exact (Z1 dm Zm). + intros k. etransitivity; [|exact mid01]. unfold midm, gm. rewrite !(Z1 dm Zm). reflexivity. + exact Hj.
  - apply (both_s_jumps S1 mtd dt A b m0 m0' s0 s0' sigma mt mt' st st' dm om lam ds os psi F F' Bw LA Ld Ls
      Rmult _ _ _ j pair1 adj_s1 Hm (fun _ _ => I) (fun _ _ => I)).
    + exact (Z1 ds Zs). + intros k. etransitivity; [|exact mid01]. unfold mida, ga. rewrite !(Z1 ds Zs). reflexivity. + exact Hj.
Qed.
Theorem jumps_dual_n d mtd (dt : R) (A : list Rmat) (b : list Rvec) (m0 m0' : Rvec) (s0 s0' sigma : Rmat)
  (mt mt' : list Rvec) (st st' : list Rmat) (dm : list Rvec) (ds : list Rmat) (om : list Rvec) (os : list Rmat) (lam : list Rvec) (psi : list Rmat) j :
  mtd = Heun \/ mtd = RK4 ->
  solve_fwd (Sn d) mtd dt A b m0 s0 sigma = Ok (mt, st) ->
  solve_fwd (Sn d) mtd dt A b m0' s0' sigma = Ok (mt', st') ->
  solve_bwd (Sn d) mtd dt A dm ds om os = Ok (lam, psi) ->
  length A = length b -> length dm = length b -> length ds = length b -> (j < length b)%nat ->
  (forall u, In u dm -> u = fun _ => 0) -> (forall u, In u ds -> u = fun _ _ => 0) ->
  ((forall a, In a A -> symmetric d a) ->
   dotp d (atv lam j) (vdiff (atv mt' j) (atv mt j)) =
     rsum (length b - 1 - j) (fun i => dotp d (atv om (j + i)) (vdiff (atv mt' (j + i)) (atv mt (j + i))))) /\
  frobp d (atm psi j) (mdiff (atm st' j) (atm st j)) =
     rsum (length b - 1 - j) (fun i => frobp d (atm os (j + i)) (mdiff (atm st' (j + i)) (atm st (j + i)))).
Proof.
  intros Hm F F' Bw LA Ld Ls Hj Zm Zs.
  split.
  - intros HS.
    assert (Z : forall k, nth k dm (vzero vV) = vzero vV) by (intros; apply nth_all; assumption).
    apply (both_m_jumps (Sn d) mtd dt A b m0 m0' s0 s0' sigma mt mt' st st' dm om lam ds os psi F F' Bw LA Ld
      (dotp d) _ _ _ j (pairv d) (adj_mn d) Hm).
    + intros k Hk. apply HS. apply nth_In. change (k < @length Rmat A)%nat. rewrite LA. exact Hk.
    + intros k Hk. change (k + 1 < @length Rvec b)%nat in Hk.
      assert (LA' : forall q, (q < @length Rvec b)%nat -> symmetric d (ga (Sn d) A q)).
      { intros q Hq. apply HS, nth_In. change (q < @length Rmat A)%nat. rewrite LA. exact Hq. }
      apply mid_sym; apply LA'; lia.
    + exact Z. + intros k. etransitivity; [|exact mid0v]. unfold midm, gm. cbn [VM sysn]. rewrite !Z. reflexivity. + exact Hj.
  - assert (Z : forall k, nth k ds (vzero mV) = vzero mV) by (intros; apply nth_all; assumption).
    apply (both_s_jumps (Sn d) mtd dt A b m0 m0' s0 s0' sigma mt mt' st st' dm om lam ds os psi F F' Bw LA Ld Ls
      (frobp d) _ _ _ j (pairm d) (adj_sn d) Hm (fun _ _ => I) (fun _ _ => I)).
    + exact Z. + intros k. etransitivity; [|exact mid0m]. unfold mida, ga. cbn [VS sysn]. rewrite !Z. reflexivity. + exact Hj.
Qed.

(** ** where it fails *)
Definition Aup : Rmat := fun i j => if (Nat.eqb i 0 && Nat.eqb j 1)%bool then 1 else 0.
Definition z2 : Rvec := fun _ => 0.
Definition zz2 : Rmat := fun _ _ => 0.
Definition e1v : Rvec := fun i => if Nat.eqb i 0 then 1 else 0.
Definition e2v : Rvec := fun i => if Nat.eqb i 1 then 1 else 0.
Lemma mean_dual_wrong :
  exists (mt mt' lam : list Rvec) (st st' psi : list Rmat),
  solve_fwd (Sn 2) Euler (1 : RNum) [Aup; Aup; Aup] [z2; z2; z2] z2 zz2 zz2 = Ok (mt, st) /\
  solve_fwd (Sn 2) Euler (1 : RNum) [Aup; Aup; Aup] [z2; z2; z2] e2v zz2 zz2 = Ok (mt', st') /\
  solve_bwd (Sn 2) Euler (1 : RNum) [Aup; Aup; Aup] [z2; z2; z2] [zz2; zz2; zz2] [z2; e1v; z2] [zz2; zz2; zz2] = Ok (lam, psi) /\
  dotp 2 (atv lam 0) (vdiff (atv mt' 1) (atv mt 1)) = -1 /\
  rsum 2 (fun i => 1 * dotp 2 (atv [z2; z2; z2] (i + 1)) (vdiff (atv mt' (i + 1)) (atv mt (i + 1))) +
      dotp 2 (atv [z2; e1v; z2] i) (vdiff (atv mt' (i + 1)) (atv mt (i + 1)))) = -2.
Proof.
  do 6 eexists. split; [reflexivity|]. split; [reflexivity|]. split; [reflexivity|].
  split; cbv -[Rplus Rminus Rmult Ropp Rdiv IZR]; lra.
Qed.
Lemma rk2_dual_wrong :
  exists (mt mt' lam st st' psi : list R),
  solve_fwd S1 RK2 (1 : RNum) [0; 2; 0] [0; 0; 0] 0 0 0 = Ok (mt, st) /\
  solve_fwd S1 RK2 (1 : RNum) [0; 2; 0] [0; 0; 0] 1 0 0 = Ok (mt', st') /\
  solve_bwd S1 RK2 (1 : RNum) [0; 2; 0] [0; 0; 0] [0; 0; 0] [0; 1; 0] [0; 0; 0] = Ok (lam, psi) /\
  nth 0 lam 0 * (nth 0 mt' 0 - nth 0 mt 0) = 1 /\
  rsum 2 (fun i => nth i [0; 1; 0] 0 * (nth i mt' 0 - nth i mt 0)) = 0.
Proof.
  do 6 eexists. split; [reflexivity|]. split; [reflexivity|]. split; [reflexivity|].
  split; cbv -[Rplus Rminus Rmult Ropp Rdiv IZR]; lra.
Qed.
