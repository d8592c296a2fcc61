(** * Consequences in exact arithmetic: textbook equations, symmetry, positivity,
    linearity, influence of the observation jumps. *)
From Coq Require Import ZArith Bool Lia Reals Lra Psatz FunctionalExtensionality.
From Coq Require Import List.
From Verif Require Import Num Arr ArrFacts M_Ode Spec_Ode P_Ode P_OdeRK.
Import ListNotations.
Local Open Scope R_scope.

Notation S1 := (sys1 RNum).
Notation Sn := (sysn RNum).
Notation sV := (scalV RNum).
Notation vV := (vecV RNum).
Notation mV := (matV RNum).

Lemma rk_step_ext {V : Val RNum} (T : tableau) (F G : R -> V -> V) h y :
  (forall th u, F th u = G th u) -> rk_step T F h y = rk_step T G h y.
Proof.
  intros H. assert (E : F = G).
  { apply functional_extensionality; intros; apply functional_extensionality; auto. }
  now rewrite E.
Qed.

(** ** Specialisation of the step lemmas to the documented equations *)
Lemma fwd_mean_1 mtd dt A b m0 s0 sigma mt st k :
  solve_fwd S1 mtd dt A b m0 s0 sigma = Ok (mt, st) ->
  length A = length b -> (k + 1 < length b)%nat ->
  nth (k+1) mt 0 =
  rk_step (V := sV) (tab_of mtd)
    (fun th m => mean_rhs1 (interp (V:=sV) th (nth k A 0) (nth (k+1) A 0))
                           (interp (V:=sV) th (nth k b 0) (nth (k+1) b 0)) m)
    dt (nth k mt 0).
Proof.
  intros H HL Hk. pose proof (solve_fwd_step _ _ _ _ _ _ _ _ _ _ k H Hk) as E.
  apply (f_equal fst) in E. cbn [fst] in E.
  rewrite (fwd_mean_step S1 scalEv scalEv) in E by lia.
  etransitivity; [exact E|]. apply rk_step_ext. intros th u.
  unfold Fm, mean_rhs1, ga, gm; cbn -[interp]; unfold fun_mt_1; rnum. ring.
Qed.

Lemma fwd_cov_1 mtd dt A b m0 s0 sigma mt st k :
  mtd <> RK2 ->
  solve_fwd S1 mtd dt A b m0 s0 sigma = Ok (mt, st) ->
  length A = length b -> (k + 1 < length b)%nat ->
  nth (k+1) st 0 =
  rk_step (V := sV) (tab_of mtd)
    (fun th s => cov_rhs1 (interp (V:=sV) th (nth k A 0) (nth (k+1) A 0)) sigma s)
    dt (nth k st 0).
Proof.
  intros Hm H HL Hk. pose proof (solve_fwd_step _ _ _ _ _ _ _ _ _ _ k H Hk) as E.
  apply (f_equal snd) in E. cbn [snd] in E.
  rewrite (fwd_cov_step S1 scalEv) in E by (try lia; assumption).
  etransitivity; [exact E|]. apply rk_step_ext. intros th u.
  unfold Fs, cov_rhs1, ga, gm; cbn -[interp]; unfold fun_st_1; rnum. ring.
Qed.

Lemma fwd_mean_n d mtd dt A b m0 s0 sigma mt st k :
  solve_fwd (Sn d) mtd dt A b m0 s0 sigma = Ok (mt, st) ->
  length A = length b -> (k + 1 < length b)%nat ->
  nth (k+1) mt (vzero vV) =
  rk_step (V := vV) (tab_of mtd)
    (fun th m => mean_rhsn d (interp (V:=mV) th (nth k A (vzero mV)) (nth (k+1) A (vzero mV)))
                           (interp (V:=vV) th (nth k b (vzero vV)) (nth (k+1) b (vzero vV))) m)
    dt (nth k mt (vzero vV)).
Proof.
  intros H HL Hk. pose proof (solve_fwd_step _ _ _ _ _ _ _ _ _ _ k H Hk) as E.
  apply (f_equal fst) in E. cbn [fst] in E.
  rewrite (fwd_mean_step (Sn d) vecEv matEv) in E by lia.
  exact E.
Qed.

Lemma fwd_cov_n d mtd dt A b m0 s0 sigma mt st k :
  mtd <> RK2 ->
  solve_fwd (Sn d) mtd dt A b m0 s0 sigma = Ok (mt, st) ->
  length A = length b -> (k + 1 < length b)%nat ->
  nth (k+1) st (vzero mV) =
  rk_step (V := mV) (tab_of mtd)
    (fun th s => cov_rhsn d (interp (V:=mV) th (nth k A (vzero mV)) (nth (k+1) A (vzero mV))) sigma s)
    dt (nth k st (vzero mV)).
Proof.
  intros Hm H HL Hk. pose proof (solve_fwd_step _ _ _ _ _ _ _ _ _ _ k H Hk) as E.
  apply (f_equal snd) in E. cbn [snd] in E.
  rewrite (fwd_cov_step (Sn d) matEv) in E by (try lia; assumption).
  exact E.
Qed.

Lemma bwd_guard P mtd dt A dm ds om os r :
  solve_bwd (K:=RNum) P mtd dt A dm ds om os = Ok r ->
  (1 < length dm)%nat ->
  (length dm <= length A)%nat /\ (length dm <= length ds)%nat /\
  (length dm - 1 <= length om)%nat /\ (length dm - 1 <= length os)%nat.
Proof.
  unfold solve_bwd. destruct (bwd_reads_ok _ _ _ _ _) eqn:E; [|discriminate].
  intros _ H. unfold bwd_reads_ok in E.
  rewrite orb_true_iff, !andb_true_iff, !Nat.leb_le in E. lia.
Qed.

Lemma bwd_lam_1 mtd dt A dm ds om os lam psi t :
  solve_bwd S1 mtd dt A dm ds om os = Ok (lam, psi) ->
  (t + 1 < length dm)%nat ->
  nth t lam 0 =
  rk_step (V := sV) (tab_of mtd)
    (fun th l => lam_rhs1 (interp (V:=sV) th (nth (t+1) dm 0) (nth t dm 0))
                          (interp (V:=sV) th (nth (t+1) A 0) (nth t A 0)) l)
    (- dt) (nth (t+1) lam 0) + nth t om 0.
Proof.
  intros H Ht. pose proof (bwd_guard _ _ _ _ _ _ _ _ _ H ltac:(lia)) as (G1 & G2 & _).
  pose proof (solve_bwd_step _ _ _ _ _ _ _ _ _ _ t H Ht) as E.
  apply (f_equal fst) in E. cbn [fst] in E.
  rewrite (bwd_lam_step S1 scalEv scalEv) in E by lia.
  replace (t + 1 - 1)%nat with t in E by lia.
  etransitivity; [exact E|]. 
  apply (f_equal (fun z : R => z + nth t om 0)). apply (rk_step_ext (V:=sV)). intros th u.
  unfold Fl, lam_rhs1, ga, gm; cbn -[interp]; unfold fun_lam_1; rnum.
  replace (t + 1 - 1)%nat with t by lia. ring.
Qed.

Lemma bwd_psi_1 mtd dt A dm ds om os lam psi t :
  solve_bwd S1 mtd dt A dm ds om os = Ok (lam, psi) ->
  (t + 1 < length dm)%nat ->
  nth t psi 0 =
  rk_step (V := sV) (tab_of mtd)
    (fun th p => psi_rhs1 (interp (V:=sV) th (nth (t+1) ds 0) (nth t ds 0))
                          (interp (V:=sV) th (nth (t+1) A 0) (nth t A 0)) p)
    (- dt) (nth (t+1) psi 0) + nth t os 0.
Proof.
  intros H Ht. pose proof (bwd_guard _ _ _ _ _ _ _ _ _ H ltac:(lia)) as (G1 & G2 & _).
  pose proof (solve_bwd_step _ _ _ _ _ _ _ _ _ _ t H Ht) as E.
  apply (f_equal snd) in E. cbn [snd] in E.
  rewrite (bwd_psi_step S1 scalEv) in E by lia.
  replace (t + 1 - 1)%nat with t in E by lia.
  etransitivity; [exact E|].
  apply (f_equal (fun z : R => z + nth t os 0)). apply (rk_step_ext (V:=sV)). intros th u.
  unfold Fp, psi_rhs1, ga, gm; cbn -[interp]; unfold fun_psi_1; rnum.
  replace (t + 1 - 1)%nat with t by lia. ring.
Qed.

(** The n-D multiplier equation the code integrates: A lam where the adjoint
    equation has A' lam. *)
Lemma bwd_lam_n_code d mtd dt A dm ds om os lam psi t :
  solve_bwd (Sn d) mtd dt A dm ds om os = Ok (lam, psi) ->
  (t + 1 < length dm)%nat ->
  nth t lam (vzero vV) =
  vadd (rk_step (V := vV) (tab_of mtd)
    (fun th l => lam_rhsn d (interp (V:=vV) th (nth (t+1) dm (vzero vV)) (nth t dm (vzero vV)))
           (mtr (interp (V:=mV) th (nth (t+1) A (vzero mV)) (nth t A (vzero mV)))) l)
    (- dt) (nth (t+1) lam (vzero vV))) (nth t om (vzero vV)).
Proof.
  intros H Ht. pose proof (bwd_guard _ _ _ _ _ _ _ _ _ H ltac:(lia)) as (G1 & G2 & _).
  pose proof (solve_bwd_step _ _ _ _ _ _ _ _ _ _ t H Ht) as E.
  apply (f_equal fst) in E. cbn [fst] in E.
  rewrite (bwd_lam_step (Sn d) vecEv matEv) in E by lia.
  replace (t + 1 - 1)%nat with t in E by lia.
  etransitivity; [exact E|]. cbn [VM sysn].
  apply (f_equal (fun z => vadd (v:=vV) z (gm (Sn d) om t))).
  apply rk_step_ext. intros th u.
  unfold Fl, lam_rhsn, ga, gm; cbn -[interp sumn]. unfold fun_lam_n, vecm, mtr; rnum.
  replace (t + 1 - 1)%nat with t by lia.
  apply functional_extensionality; intros i. f_equal.
  apply sumn_ext; intros; ring.
Qed.

Lemma bwd_lam_n_sym d mtd dt A dm ds om os lam psi t :
  (forall a, In a A -> forall i j, a i j = a j i) ->
  solve_bwd (Sn d) mtd dt A dm ds om os = Ok (lam, psi) ->
  (t + 1 < length dm)%nat ->
  nth t lam (vzero vV) =
  vadd (rk_step (V := vV) (tab_of mtd)
    (fun th l => lam_rhsn d (interp (V:=vV) th (nth (t+1) dm (vzero vV)) (nth t dm (vzero vV)))
           (interp (V:=mV) th (nth (t+1) A (vzero mV)) (nth t A (vzero mV))) l)
    (- dt) (nth (t+1) lam (vzero vV))) (nth t om (vzero vV)).
Proof.
  intros Hs H Ht. pose proof (bwd_guard _ _ _ _ _ _ _ _ _ H ltac:(lia)) as (G1 & G2 & _).
  rewrite (bwd_lam_n_code _ _ _ _ _ _ _ _ _ _ _ H Ht).
  apply (f_equal (fun z => vadd (v:=vV) z (nth t om (vzero vV)))).
  apply rk_step_ext. intros th u. f_equal. unfold mtr, interp.
  apply functional_extensionality; intros i; apply functional_extensionality; intros j.
  cbn. rewrite (Hs (nth (t+1) A (vzero mV))), (Hs (nth t A (vzero mV)));
    [reflexivity|apply (nth_In (A:=VS (Sn d))); lia|apply (nth_In (A:=VS (Sn d))); lia].
Qed.

Lemma bwd_psi_n d mtd dt A dm ds om os lam psi t :
  solve_bwd (Sn d) mtd dt A dm ds om os = Ok (lam, psi) ->
  (t + 1 < length dm)%nat ->
  nth t psi (vzero mV) =
  vadd (rk_step (V := mV) (tab_of mtd)
    (fun th p => psi_rhsn d (interp (V:=mV) th (nth (t+1) ds (vzero mV)) (nth t ds (vzero mV)))
           (interp (V:=mV) th (nth (t+1) A (vzero mV)) (nth t A (vzero mV))) p)
    (- dt) (nth (t+1) psi (vzero mV))) (nth t os (vzero mV)).
Proof.
  intros H Ht. pose proof (bwd_guard _ _ _ _ _ _ _ _ _ H ltac:(lia)) as (G1 & G2 & _).
  pose proof (solve_bwd_step _ _ _ _ _ _ _ _ _ _ t H Ht) as E.
  apply (f_equal snd) in E. cbn [snd] in E.
  rewrite (bwd_psi_step (Sn d) matEv) in E by lia.
  replace (t + 1 - 1)%nat with t in E by lia.
  etransitivity; [exact E|]. cbn [VS sysn].
  apply (f_equal (fun z => vadd (v:=mV) z (ga (Sn d) os t))).
  apply rk_step_ext. intros th u.
  unfold Fp, ga; cbn -[interp sumn].
  replace (t + 1 - 1)%nat with t by lia. reflexivity.
Qed.

(** ** Symmetry *)
Lemma msym_add d A B : msym d A -> msym d B -> msym d (vadd (v:=mV) A B).
Proof. intros HA HB i j Hi Hj; cbn. now rewrite HA, HB. Qed.
Lemma msym_sub d A B : msym d A -> msym d B -> msym d (vsub (v:=mV) A B).
Proof. intros HA HB i j Hi Hj; cbn. now rewrite HA, HB. Qed.
Lemma msym_scale d a A : msym d A -> msym d (vscale (v:=mV) a A).
Proof. intros HA i j Hi Hj; cbn. now rewrite HA. Qed.
Lemma msym_divs d a A : msym d A -> msym d (vdivs (v:=mV) A a).
Proof. intros HA i j Hi Hj; cbn. now rewrite HA. Qed.
Lemma msym_zero d : msym d (vzero mV).
Proof. intros i j Hi Hj; reflexivity. Qed.
Lemma msym_fst d S_ A Sig : msym d S_ -> msym d Sig -> msym d (f_st (Sn d) S_ A Sig).
Proof.
  intros HS HG i j Hi Hj. cbn. unfold fun_st_n, mmul, mtr; rnum.
  rewrite (HG i j) by assumption.
  replace (rsum d (fun k => A i k * S_ k j)) with (rsum d (fun k => S_ j k * A i k)).
  2:{ apply sumn_ext; intros; rewrite (HS i0 j) by assumption; ring. }
  replace (rsum d (fun k => A j k * S_ k i)) with (rsum d (fun k => S_ i k * A j k)).
  2:{ apply sumn_ext; intros; rewrite (HS i0 i) by assumption; ring. }
  ring.
Qed.
Lemma msym_fpsi d g A p : msym d g -> msym d p -> msym d (f_psi (Sn d) g A p).
Proof.
  intros Hg Hp i j Hi Hj. cbn. unfold fun_psi_n, mmul, mtr; rnum.
  rewrite (Hg i j) by assumption.
  replace (rsum d (fun k => A k i * p k j)) with (rsum d (fun k => p j k * A k i)).
  2:{ apply sumn_ext; intros; rewrite (Hp i0 j) by assumption; ring. }
  replace (rsum d (fun k => A k j * p k i)) with (rsum d (fun k => p i k * A k j)).
  2:{ apply sumn_ext; intros; rewrite (Hp i0 i) by assumption; ring. }
  ring.
Qed.

Lemma ga_msym d (l : list mV) k : (forall a, In a l -> msym d a) -> msym d (ga (Sn d) l k).
Proof.
  intros H. change (msym d (nth k l (vzero mV))).
  destruct (nth_in_or_default k l (vzero mV)) as [Hi| Hz].
  - apply H, Hi.
  - rewrite Hz. apply msym_zero.
Qed.
Lemma mids_msym d (l : list mV) : (forall a, In a l -> msym d a) -> forall a, In a (mids l) -> msym d a.
Proof.
  intros H a Ha. apply (In_nth _ _ (vzero mV)) in Ha. destruct Ha as (k & Hk & <-).
  rewrite mids_length in Hk. rewrite nth_mids by lia.
  apply msym_scale, msym_add; apply H; apply nth_In; lia.
Qed.

#[local] Hint Resolve msym_add msym_sub msym_scale msym_divs msym_zero msym_fst msym_fpsi : sym.

Lemma fwd_body_msym d mtd dt A b sigma k m s :
  msym d sigma -> msym d s -> msym d (snd (fwd_body (Sn d) mtd dt A b sigma k m s)).
Proof.
  intros HG HS. destruct mtd; cbn [fwd_body snd];
    unfold euler_fwd_body, heun_fwd_body, rk2_fwd_body, rk4_fwd_body; cbn [snd];
    cbn [VS sysn]; auto 20 with sym.
Qed.

Lemma fwd_sym d mtd dt A b m0 s0 sigma mt st :
  solve_fwd (Sn d) mtd dt A b m0 s0 sigma = Ok (mt, st) ->
  msym d s0 -> msym d sigma ->
  forall s, In s st -> msym d s.
Proof.
  intros H H0 HG s Hs.
  destruct (solve_fwd_ok _ _ _ _ _ _ _ _ _ _ H) as (Hn & L1 & L2 & C).
  apply (In_nth (A:=VS (Sn d)) _ _ (vzero mV)) in Hs. destruct Hs as (k & Hk & <-).
  pose proof (C k ltac:(lia)) as Ck. apply (f_equal snd) in Ck. cbn [snd] in Ck.
  change (msym d (ga (Sn d) st k)). rewrite Ck. clear Ck Hk C H.
  induction k as [|k IH]; [exact H0|]. cbn [traj].
  apply fwd_body_msym; assumption.
Qed.

Lemma bwd_body_msym d mtd dt A dm ds om os t l p :
  (forall a, In a ds -> msym d a) -> (forall a, In a os -> msym d a) -> msym d p ->
  msym d (snd (bwd_body (Sn d) mtd dt A dm ds om os t l p)).
Proof.
  intros Hd Ho Hp.
  assert (H1 : forall k, msym d (ga (Sn d) ds k)) by (intros; apply ga_msym; auto).
  assert (H2 : forall k, msym d (ga (Sn d) os k)) by (intros; apply ga_msym; auto).
  assert (H3 : forall k, msym d (ga (Sn d) (mids (V:=VS (Sn d)) ds ++ [vzero (VS (Sn d))]) k)).
  { intros; apply ga_msym. intros a Ha. apply in_app_or in Ha. destruct Ha as [Ha|[<-|[]]].
    - exact (mids_msym d ds Hd a Ha).
    - apply msym_zero. }
  destruct mtd; cbn [bwd_body snd];
    unfold euler_bwd_body, heun_bwd_body, rk2_bwd_body, rk4_bwd_body; cbn [snd];
    cbn [VS sysn] in *; auto 20 with sym.
Qed.

Lemma bwd_sym d mtd dt A dm ds om os lam psi :
  solve_bwd (Sn d) mtd dt A dm ds om os = Ok (lam, psi) ->
  (forall a, In a ds -> msym d a) -> (forall a, In a os -> msym d a) ->
  forall p, In p psi -> msym d p.
Proof.
  intros H Hd Ho p Hp.
  destruct (solve_bwd_ok _ _ _ _ _ _ _ _ _ _ H) as (L1 & L2 & C).
  apply (In_nth (A:=VS (Sn d)) _ _ (vzero mV)) in Hp. destruct Hp as (k & Hk & <-).
  pose proof (C k ltac:(lia)) as Ck. apply (f_equal snd) in Ck. cbn [snd] in Ck.
  change (msym d (ga (Sn d) psi k)). rewrite Ck. clear Ck Hk C H.
  induction (length dm - 1 - k)%nat as [|j IH]; [apply msym_zero|]. cbn [btraj].
  apply bwd_body_msym; assumption.
Qed.

(** uniform element types in [length] *)
Ltac nlen := cbn [VM VS sys1 sysn scalV vecV matV vcar car RNum] in *.

(** ** Positivity of the variance, 1-D *)
Lemma traj_pos body m0 s0 n :
  0 < s0 ->
  (forall k m s, (k + 1 < n)%nat -> 0 < s -> 0 < snd (body k m s)) ->
  forall k, (k < n)%nat -> 0 < snd (traj S1 body m0 s0 k).
Proof.
  intros H0 Hb. induction k as [|k IH]; intros Hk; [exact H0|].
  cbn [traj]. apply Hb; [lia|]. apply IH; lia.
Qed.

Definition rate_ok (mtd : method) (dt a : R) : Prop :=
  match mtd with
  | Euler => 2 * a * dt <= 1
  | Heun => 0 <= 2 * a * dt < 2
  | RK2 => 0 <= 2 * a * dt <= 1
  | RK4 => 0 <= 2 * a * dt <= 2
  end.

Lemma euler_pos dt a sigma s :
  0 < dt -> 0 < sigma -> 0 < s -> 2 * a * dt <= 1 -> 0 < s + dt * (- (2 * a * s) + sigma).
Proof. intros. nra. Qed.

Lemma heun_pos dt a a' sigma s :
  0 < dt -> 0 < sigma -> 0 < s -> 0 <= 2 * a * dt < 2 -> 0 <= 2 * a' * dt < 2 ->
  0 < s + 1/2 * dt * ((- (2 * a * s) + sigma)
       + (- (2 * a' * (s + dt * (- (2 * a * s) + sigma))) + sigma)).
Proof.
  intros Hdt Hs Hp [Ha1 Ha2] [Hb1 Hb2].
  set (z := 2 * a * dt) in *. set (z' := 2 * a' * dt) in *.
  replace (s + 1/2 * dt * _) with (s * (1/2 * ((1 - z) * (1 - z') + 1)) + sigma * dt * (1 - z'/2))
    by (unfold z, z'; field).
  assert (0 < (1 - z) * (1 - z') + 1).
  { assert (0 <= z * z') by nra.
    destruct (Rle_dec z 1); [nra|]. destruct (Rle_dec z' 1); nra. }
  assert (0 < sigma * dt) by nra. nra.
Qed.

Lemma rk2_pos dt am sigma s :
  0 < dt -> 0 < sigma -> 0 < s -> 0 <= 2 * am * dt <= 1 ->
  0 < s + dt * (- (2 * am * (s + 1/2 * dt * (- (2 * s * s) + sigma))) + sigma).
Proof.
  intros Hdt Hs Hp [Ha1 Ha2].
  set (z := 2 * am * dt) in *.
  replace (s + dt * _) with (s * (1 - z) + z * dt * (s * s) + sigma * dt * (1 - z/2))
    by (unfold z; field).
  assert (0 < sigma * dt) by nra. assert (0 <= z * dt * (s * s)).
  { apply Rmult_le_pos; [apply Rmult_le_pos; lra|nra]. }
  assert (0 <= s * (1 - z)) by nra. nra.
Qed.

Lemma rk4_pos dt a am a' sigma s :
  0 < dt -> 0 < sigma -> 0 < s ->
  0 <= 2 * a * dt <= 2 -> 0 <= 2 * a' * dt <= 2 -> am = (a + a') / 2 ->
  let L1 := - (2 * a * s) + sigma in
  let L2 := - (2 * am * (s + 1/2 * dt * L1)) + sigma in
  let L3 := - (2 * am * (s + 1/2 * dt * L2)) + sigma in
  let L4 := - (2 * a' * (s + dt * L3)) + sigma in
  0 < s + dt * (L1 + 2 * (L2 + L3) + L4) / 6.
Proof.
  intros Hdt Hs Hp [Ha1 Ha2] [Hb1 Hb2] -> L1 L2 L3 L4.
  set (u := 1 - a * dt). set (v := 1 - a' * dt). set (t := u + v).
  set (q := (2 - t) * u). set (r := (2 - t) * (1 - q / 2)).
  set (n3 := 1 - (2 - t) * t / 4).
  replace (s + dt * _ / 6) with
    (s * ((1 + t - q - v * r) / 3) + sigma * dt * ((2 + t + 2 * v * n3) / 6)).
  2:{ unfold L4, L3, L2, L1, n3, r, q, t, v, u. field. }
  assert (Hu : 0 <= u <= 1) by (unfold u; lra). assert (Hv : 0 <= v <= 1) by (unfold v; lra).
  assert (Ht : 0 <= t <= 2) by (unfold t; lra).
  assert (Hq : 0 <= q) by (unfold q; nra).
  assert (Hr : r <= 2 - t) by (unfold r; nra).
  assert (Hvr : v * r <= v * (2 - t)) by (apply Rmult_le_compat_l; lra).
  assert (Hn : 0 < n3) by (unfold n3; nra).
  assert (Hsum : q + v * (2 - t) = (2 - t) * t) by (unfold q, t; ring).
  assert (H1 : 0 < 1 + t - q - v * r) by nra.
  assert (H2 : 0 < 2 + t + 2 * v * n3) by nra.
  assert (0 < sigma * dt) by nra.
  assert (0 < s * ((1 + t - q - v * r) / 3)) by (apply Rmult_lt_0_compat; lra).
  assert (0 < sigma * dt * ((2 + t + 2 * v * n3) / 6)) by (apply Rmult_lt_0_compat; lra).
  lra.
Qed.

Lemma mids_rate dt (A : list R) k lo hi :
  (k + 1 < length A)%nat ->
  lo <= 2 * nth k A 0 * dt <= hi -> lo <= 2 * nth (k+1) A 0 * dt <= hi ->
  lo <= 2 * ga S1 (mids (V:=sV) A) k * dt <= hi.
Proof.
  intros HL H1 H2. rewrite (ga_mids S1 A) by assumption. unfold ga; cbn in *. unfold half; rnum. lra.
Qed.

Lemma fwd_pos mtd dt (A b : list R) m0 s0 sigma mt st :
  solve_fwd S1 mtd dt A b m0 s0 sigma = Ok (mt, st) ->
  length A = length b ->
  0 < dt -> 0 < s0 -> 0 < sigma ->
  (forall a, In a A -> rate_ok mtd dt a) ->
  forall s, In s st -> 0 < s.
Proof.
  intros H HL Hdt H0 HG HA s Hs.
  destruct (solve_fwd_ok _ _ _ _ _ _ _ _ _ _ H) as (Hn & L1 & L2 & C).
  apply (In_nth (A:=VS S1) _ _ 0) in Hs. destruct Hs as (k & Hk & <-). nlen.
  pose proof (C k ltac:(lia)) as Ck. apply (f_equal snd) in Ck. cbn [snd] in Ck.
  change (0 < ga S1 st k). rewrite Ck. nlen.
  apply traj_pos with (n := length b); [assumption| |lia].
  intros j m s Hj Hs. clear Ck C.
  assert (HAj : forall i, (i < length A)%nat -> rate_ok mtd dt (nth i A 0))
    by (intros; apply HA, nth_In; assumption).
  pose proof (HAj j ltac:(lia)) as R1. pose proof (HAj (j+1)%nat ltac:(lia)) as R2.
  destruct mtd; cbn [rate_ok] in *.
  - exact (euler_pos dt (nth j A 0) sigma s Hdt HG Hs R1).
  - exact (heun_pos dt (nth j A 0) (nth (j+1) A 0) sigma s Hdt HG Hs R1 R2).
  - assert (Hm : 0 <= 2 * ga S1 (mids (V:=sV) A) j * dt <= 1) by (apply mids_rate; [lia|assumption|assumption]).
    exact (rk2_pos dt (ga S1 (mids (V:=sV) A) j) sigma s Hdt HG Hs Hm).
  - assert (Hm : ga S1 (mids (V:=sV) A) j = (nth j A 0 + nth (j+1) A 0) / 2).
    { rewrite (ga_mids S1 A) by (nlen; lia). unfold ga; cbn. unfold half; rnum. field. }
    exact (rk4_pos dt (nth j A 0) (ga S1 (mids (V:=sV) A) j) (nth (j+1) A 0) sigma s Hdt HG Hs R1 R2 Hm).
Qed.

(** ** Linearity *)
Section Lin.
Context {V : Val RNum} (E : ValEv V).
Definition lc2 (al be : R) (u v : V) : V := vadd (vscale (al : RNum) u) (vscale (be : RNum) v).

Lemma lincomb_lc2 al be a ks ks' :
  length ks = length ks' ->
  lincomb a (map2 (lc2 al be) ks ks') = lc2 al be (lincomb a ks) (lincomb a ks').
Proof.
  revert ks ks'; induction a as [|x a IH]; intros ks ks' H.
  - cbn. unfold lc2. vring E.
  - destruct ks as [|k ks], ks' as [|k' ks']; cbn in H; try lia.
    + cbn. unfold lc2. vring E.
    + cbn [map2 lincomb]. rewrite IH by lia. unfold lc2. vring E.
Qed.

Lemma map2_app {A B C} (f : A -> B -> C) l l' r r' :
  length l = length r -> map2 f (l ++ l') (r ++ r') = map2 f l r ++ map2 f l' r'.
Proof.
  revert r; induction l as [|a l IH]; intros [|b r] H; cbn in *; try lia; auto.
  now rewrite IH by lia.
Qed.

Lemma rk_stages_lc2 al be F F' F'' h y y' rows ks ks' :
  (forall th u u', F'' th (lc2 al be u u') = lc2 al be (F th u) (F' th u')) ->
  length ks = length ks' ->
  rk_stages F'' h (lc2 al be y y') rows (map2 (lc2 al be) ks ks') =
  map2 (lc2 al be) (rk_stages F h y rows ks) (rk_stages F' h y' rows ks')
  /\ length (rk_stages F h y rows ks) = length (rk_stages F' h y' rows ks').
Proof.
  intros HF. revert ks ks'; induction rows as [|[c a] rows IH]; intros ks ks' HL; [auto|].
  cbn [rk_stages].
  replace (F'' c (vadd (lc2 al be y y') (vscale (h : RNum) (lincomb a (map2 (lc2 al be) ks ks')))))
    with (lc2 al be (F c (vadd y (vscale (h : RNum) (lincomb a ks))))
                    (F' c (vadd y' (vscale (h : RNum) (lincomb a ks'))))).
  2:{ rewrite <- HF. f_equal. rewrite lincomb_lc2 by assumption. unfold lc2. vring E. }
  match goal with |- context [lc2 al be ?p ?q] =>
    match p with F _ _ => change [lc2 al be p q] with (map2 (lc2 al be) [p] [q]) end end.
  rewrite <- map2_app by assumption. apply IH. rewrite !app_length; cbn; lia.
Qed.

Lemma rk_step_lc2 T al be F F' F'' h y y' :
  (forall th u u', F'' th (lc2 al be u u') = lc2 al be (F th u) (F' th u')) ->
  rk_step T F'' h (lc2 al be y y') = lc2 al be (rk_step T F h y) (rk_step T F' h y').
Proof.
  intros HF. unfold rk_step.
  destruct (rk_stages_lc2 al be F F' F'' h y y' (tab_rows T) [] [] HF eq_refl) as [Eq HL].
  cbn [map2] in Eq. rewrite Eq, lincomb_lc2 by assumption. unfold lc2. vring E.
Qed.
End Lin.

Section LinSys.
Context (P : Sys RNum) (EM : ValEv (VM P)) (ES : ValEv (VS P)).
Context (f_mt_lin : forall al be m m' A b b',
  f_mt P (lc2 al be m m') A (lc2 al be b b') = lc2 al be (f_mt P m A b) (f_mt P m' A b')).
Context (f_lam_lin : forall al be l l' A g g',
  f_lam P (lc2 al be g g') A (lc2 al be l l') = lc2 al be (f_lam P g A l) (f_lam P g' A l')).
Context (f_psi_lin : forall al be l l' A g g',
  f_psi P (lc2 al be g g') A (lc2 al be l l') = lc2 al be (f_psi P g A l) (f_psi P g' A l')).

Lemma interp_lc2 {V : Val RNum} (E : ValEv V) th al be (u u' v v' : V) :
  interp th (lc2 al be u u') (lc2 al be v v') = lc2 al be (interp th u v) (interp th u' v').
Proof. unfold interp, lc2. vring E. Qed.

Lemma fwd_mean_linear mtd dt A b b' al be m0 m0' s0 s0' s0'' sigma sigma' sigma'' mt st mt' st' mt'' st'' :
  length A = length b -> length b' = length b ->
  solve_fwd P mtd dt A b m0 s0 sigma = Ok (mt, st) ->
  solve_fwd P mtd dt A b' m0' s0' sigma' = Ok (mt', st') ->
  solve_fwd P mtd dt A (map2 (lc2 al be) b b') (lc2 al be m0 m0') s0'' sigma'' = Ok (mt'', st'') ->
  mt'' = map2 (lc2 al be) mt mt'.
Proof.
  intros LA Lb H H' H''.
  destruct (solve_fwd_ok _ _ _ _ _ _ _ _ _ _ H) as (N1 & L1 & _ & C).
  destruct (solve_fwd_ok _ _ _ _ _ _ _ _ _ _ H') as (N2 & L2 & _ & C').
  destruct (solve_fwd_ok _ _ _ _ _ _ _ _ _ _ H'') as (N3 & L3 & _ & C'').
  rewrite map2_length, Lb, Nat.min_id in *.
  assert (E : forall k, (k < length b)%nat ->
    gm P mt'' k = lc2 al be (gm P mt k) (gm P mt' k)).
  { induction k as [|k IH]; intros Hk.
    - specialize (C 0%nat Hk). specialize (C' 0%nat Hk). specialize (C'' 0%nat Hk).
      cbn in C, C', C''. injection C as -> _. injection C' as -> _. injection C'' as -> _.
      reflexivity.
    - assert (Hk2 : (k + 1 < length b)%nat) by lia.
      pose proof (solve_fwd_step _ _ _ _ _ _ _ _ _ _ k H Hk2) as Q.
      pose proof (solve_fwd_step _ _ _ _ _ _ _ _ _ _ k H' ltac:(lia)) as Q'.
      pose proof (solve_fwd_step _ _ _ _ _ _ _ _ _ _ k H'' ltac:(rewrite map2_length, Lb, Nat.min_id; lia)) as Q''.
      apply (f_equal fst) in Q, Q', Q''. cbn [fst] in Q, Q', Q''.
      rewrite (fwd_mean_step P EM ES) in Q by lia.
      rewrite (fwd_mean_step P EM ES) in Q' by lia.
      rewrite (fwd_mean_step P EM ES) in Q'' by (rewrite ?map2_length; lia).
      replace (S k) with (k + 1)%nat by lia.
      rewrite Q, Q', Q'', IH by lia.
      apply (rk_step_lc2 EM). intros th u u'. unfold Fm.
      unfold gm at 1 2.
      rewrite !(nth_map2 (lc2 al be) b b' _ (vzero (VM P)) (vzero (VM P))) by lia.
      fold (gm P b k) (gm P b (k+1)) (gm P b' k) (gm P b' (k+1)).
      rewrite (interp_lc2 EM). apply f_mt_lin. }
  apply (nth_ext _ _ (vzero (VM P)) (vzero (VM P))).
  - rewrite map2_length. lia.
  - intros k Hk. rewrite (nth_map2 _ _ _ _ (vzero (VM P)) (vzero (VM P))) by lia.
    apply E; lia.
Qed.

(** homogeneous multiplier equations *)
Definition Hl (A : list (VS P)) (t : nat) (th : R) (l : VM P) : VM P :=
  f_lam P (vzero (VM P)) (interp th (ga P A t) (ga P A (t-1))) l.
Definition Hp (A : list (VS P)) (t : nat) (th : R) (p : VS P) : VS P :=
  f_psi P (vzero (VS P)) (interp th (ga P A t) (ga P A (t-1))) p.

Lemma bwd_jump mtd dt A dm ds om om' os os' lam psi lam' psi' j :
  solve_bwd P mtd dt A dm ds om os = Ok (lam, psi) ->
  solve_bwd P mtd dt A dm ds om' os' = Ok (lam', psi') ->
  (j + 1 < length dm)%nat ->
  (forall t, (t + 1 < length dm)%nat -> t <> j ->
     gm P om t = gm P om' t /\ ga P os t = ga P os' t) ->
  (* no influence later *)
  (forall t, (j < t < length dm)%nat -> gm P lam t = gm P lam' t /\ ga P psi t = ga P psi' t) /\
  (* the jump itself at j *)
  (vsub (gm P lam' j) (gm P lam j) = vsub (gm P om' j) (gm P om j) /\
   vsub (ga P psi' j) (ga P psi j) = vsub (ga P os' j) (ga P os j)) /\
  (* propagated backwards by the homogeneous equations *)
  (forall t, (t < j)%nat ->
     vsub (gm P lam' t) (gm P lam t) =
       rk_step (tab_of mtd) (Hl A (t+1)) (- dt) (vsub (gm P lam' (t+1)) (gm P lam (t+1))) /\
     vsub (ga P psi' t) (ga P psi t) =
       rk_step (tab_of mtd) (Hp A (t+1)) (- dt) (vsub (ga P psi' (t+1)) (ga P psi (t+1)))).
Proof.
  intros H H' Hj Hag.
  assert (LATE : forall t, (j < t < length dm)%nat -> gm P lam t = gm P lam' t /\ ga P psi t = ga P psi' t).
  { intros t Ht.
    apply (solve_bwd_later P mtd dt A dm ds om om' os os' lam psi lam' psi' j); try lia; auto.
    intros u Hu Hu2. apply Hag; lia. }
  pose proof (bwd_guard _ _ _ _ _ _ _ _ _ H ltac:(lia)) as (G1 & G2 & _).
  assert (STEP : forall t, (t + 1 < length dm)%nat ->
    vsub (gm P lam' t) (gm P lam t) =
      vadd (rk_step (tab_of mtd) (Hl A (t+1)) (- dt) (vsub (gm P lam' (t+1)) (gm P lam (t+1))))
           (vsub (gm P om' t) (gm P om t)) /\
    vsub (ga P psi' t) (ga P psi t) =
      vadd (rk_step (tab_of mtd) (Hp A (t+1)) (- dt) (vsub (ga P psi' (t+1)) (ga P psi (t+1))))
           (vsub (ga P os' t) (ga P os t))).
  { intros t Ht.
    pose proof (solve_bwd_step _ _ _ _ _ _ _ _ _ _ t H Ht) as Q.
    pose proof (solve_bwd_step _ _ _ _ _ _ _ _ _ _ t H' Ht) as Q'.
    split.
    - apply (f_equal fst) in Q, Q'. cbn [fst] in Q, Q'.
      rewrite (bwd_lam_step P EM ES) in Q by lia. rewrite (bwd_lam_step P EM ES) in Q' by lia.
      replace (t + 1 - 1)%nat with t in Q, Q' by lia. rewrite Q, Q'.
      assert (SUB : forall u v : VM P, vsub u v = lc2 1 (-1) u v) by (intros; unfold lc2; vring EM).
      assert (Z : forall u : VM P, lc2 1 (-1) u u = vzero (VM P)) by (intros; unfold lc2; vring EM).
      rewrite !SUB.
      rewrite (rk_step_lc2 EM (tab_of mtd) 1 (-1) (Fl P A dm (t+1)) (Fl P A dm (t+1)) (Hl A (t+1))).
      + unfold lc2. vring EM.
      + intros th u u'. unfold Hl, Fl. rewrite <- f_lam_lin. f_equal. now rewrite Z.
    - apply (f_equal snd) in Q, Q'. cbn [snd] in Q, Q'.
      rewrite (bwd_psi_step P ES) in Q by lia. rewrite (bwd_psi_step P ES) in Q' by lia.
      replace (t + 1 - 1)%nat with t in Q, Q' by lia. rewrite Q, Q'.
      assert (SUB : forall u v : VS P, vsub u v = lc2 1 (-1) u v) by (intros; unfold lc2; vring ES).
      assert (Z : forall u : VS P, lc2 1 (-1) u u = vzero (VS P)) by (intros; unfold lc2; vring ES).
      rewrite !SUB.
      rewrite (rk_step_lc2 ES (tab_of mtd) 1 (-1) (Fp P A ds (t+1)) (Fp P A ds (t+1)) (Hp A (t+1))).
      + unfold lc2. vring ES.
      + intros th u u'. unfold Hp, Fp. rewrite <- f_psi_lin. f_equal. now rewrite Z. }
  assert (RK0l : forall T t, rk_step T (Hl A t) (- dt) (vzero (VM P)) = vzero (VM P)).
  { intros T t.
    transitivity (rk_step T (Hl A t) (-dt) (lc2 0 0 (vzero (VM P)) (vzero (VM P)))).
    { f_equal. unfold lc2. vring EM. }
    rewrite (rk_step_lc2 EM T 0 0 (Hl A t) (Hl A t)).
    - unfold lc2. vring EM.
    - intros. unfold Hl. rewrite <- f_lam_lin. f_equal. unfold lc2. vring EM. }
  assert (RK0p : forall T t, rk_step T (Hp A t) (- dt) (vzero (VS P)) = vzero (VS P)).
  { intros T t.
    transitivity (rk_step T (Hp A t) (-dt) (lc2 0 0 (vzero (VS P)) (vzero (VS P)))).
    { f_equal. unfold lc2. vring ES. }
    rewrite (rk_step_lc2 ES T 0 0 (Hp A t) (Hp A t)).
    - unfold lc2. vring ES.
    - intros. unfold Hp. rewrite <- f_psi_lin. f_equal. unfold lc2. vring ES. }
  split; [exact LATE|]. split.
  - destruct (STEP j Hj) as [S1' S2']. rewrite S1', S2'.
    destruct (LATE (j+1)%nat ltac:(lia)) as [E1 E2]. rewrite E1, E2.
    assert (Z1 : forall u : VM P, vsub u u = vzero (VM P)) by (intros; vring EM).
    assert (Z2 : forall u : VS P, vsub u u = vzero (VS P)) by (intros; vring ES).
    rewrite Z1, Z2, RK0l, RK0p. split; [vring EM|vring ES].
  - intros t Ht. destruct (STEP t ltac:(lia)) as [S1' S2']. rewrite S1', S2'.
    destruct (Hag t ltac:(lia) ltac:(lia)) as [E1 E2]. rewrite E1, E2.
    split; [vring EM|vring ES].
Qed.
End LinSys.

Lemma f_mt_lin_1 al be m m' A b b' :
  f_mt S1 (lc2 (V:=sV) al be m m') A (lc2 (V:=sV) al be b b') =
  lc2 (V:=sV) al be (f_mt S1 m A b) (f_mt S1 m' A b').
Proof. cbn. unfold lc2, fun_mt_1; cbn. ring. Qed.
Lemma f_lam_lin_1 al be l l' A g g' :
  f_lam S1 (lc2 (V:=sV) al be g g') A (lc2 (V:=sV) al be l l') =
  lc2 (V:=sV) al be (f_lam S1 g A l) (f_lam S1 g' A l').
Proof. cbn. unfold lc2, fun_lam_1; cbn. ring. Qed.
Lemma f_psi_lin_1 al be l l' A g g' :
  f_psi S1 (lc2 (V:=sV) al be g g') A (lc2 (V:=sV) al be l l') =
  lc2 (V:=sV) al be (f_psi S1 g A l) (f_psi S1 g' A l').
Proof. cbn. unfold lc2, fun_psi_1; cbn. ring. Qed.

Lemma f_mt_lin_n d al be m m' A b b' :
  f_mt (Sn d) (lc2 (V:=vV) al be m m') A (lc2 (V:=vV) al be b b') =
  lc2 (V:=vV) al be (f_mt (Sn d) m A b) (f_mt (Sn d) m' A b').
Proof.
  apply functional_extensionality; intros i. cbn. unfold lc2, fun_mt_n, mvec; rnum. cbn.
  rewrite (sumn_ext _ _ (fun k => al * (A i k * m k) + be * (A i k * m' k))) by (intros; ring).
  rewrite sumn_plus, !sumn_scal. ring.
Qed.
Lemma f_lam_lin_n d al be l l' A g g' :
  f_lam (Sn d) (lc2 (V:=vV) al be g g') A (lc2 (V:=vV) al be l l') =
  lc2 (V:=vV) al be (f_lam (Sn d) g A l) (f_lam (Sn d) g' A l').
Proof.
  apply functional_extensionality; intros i. cbn. unfold lc2, fun_lam_n, vecm, mtr; rnum. cbn.
  rewrite (sumn_ext _ _ (fun k => al * (l k * A i k) + be * (l' k * A i k))) by (intros; ring).
  rewrite sumn_plus, !sumn_scal. ring.
Qed.
Lemma f_psi_lin_n d al be l l' A g g' :
  f_psi (Sn d) (lc2 (V:=mV) al be g g') A (lc2 (V:=mV) al be l l') =
  lc2 (V:=mV) al be (f_psi (Sn d) g A l) (f_psi (Sn d) g' A l').
Proof.
  apply functional_extensionality; intros i. apply functional_extensionality; intros j.
  cbn. unfold lc2, fun_psi_n, mmul, mtr; rnum. cbn.
  rewrite (sumn_ext _ _ (fun k => al * (l i k * A k j) + be * (l' i k * A k j))) by (intros; ring).
  rewrite (sumn_ext _ (fun k => A k i * _) (fun k => al * (A k i * l k j) + be * (A k i * l' k j)))
    by (intros; ring).
  rewrite !sumn_plus, !sumn_scal. ring.
Qed.

(** The derivative of the observation energy at the last grid point is never used. *)
Lemma bwd_last_ignored {K : Num} (P : Sys K) mtd dt A dm ds om om' os os' r r' :
  (forall t, (t + 1 < length dm)%nat -> gm P om t = gm P om' t /\ ga P os t = ga P os' t) ->
  solve_bwd P mtd dt A dm ds om os = Ok r ->
  solve_bwd P mtd dt A dm ds om' os' = Ok r' ->
  r = r'.
Proof.
  intros Hag H H'. destruct r as [lam psi], r' as [lam' psi'].
  destruct (solve_bwd_ok _ _ _ _ _ _ _ _ _ _ H) as (L1 & L2 & C).
  destruct (solve_bwd_ok _ _ _ _ _ _ _ _ _ _ H') as (L1' & L2' & C').
  assert (E : forall i, (i < length dm)%nat ->
     btraj P (bwd_body P mtd dt A dm ds om os) (length dm) i =
     btraj P (bwd_body P mtd dt A dm ds om' os') (length dm) i).
  { induction i as [|i IH]; intros Hi; [reflexivity|].
    cbn [btraj]. rewrite <- IH by lia. apply bwd_body_agree; apply Hag; lia. }
  assert (EE : forall t, (t < length dm)%nat -> (gm P lam t, ga P psi t) = (gm P lam' t, ga P psi' t)).
  { intros t Ht. rewrite C, C', E by lia. reflexivity. }
  f_equal.
  - apply (nth_ext _ _ (vzero _) (vzero _)); [lia|].
    intros t Ht. specialize (EE t ltac:(lia)). now injection EE.
  - apply (nth_ext _ _ (vzero _) (vzero _)); [lia|].
    intros t Ht. specialize (EE t ltac:(lia)). now injection EE.
Qed.

(** ** Refutations *)

(** RK2 covariance: not the mid-point rule (a = 1, sigma = 0, one step). *)
Lemma rk2_cov_wrong :
  exists (dt : R) (A b : list R) (m0 s0 sigma : R) mt st,
    solve_fwd S1 RK2 dt A b m0 s0 sigma = Ok (mt, st) /\ length A = length b /\
    0 < dt /\ 0 < s0 /\ 0 < sigma /\
    nth 1 st 0 <>
    rk_step (V := sV) tab_midpoint
      (fun th s => cov_rhs1 (interp (V:=sV) th (nth 0 A 0) (nth 1 A 0)) sigma s) dt (nth 0 st 0).
Proof.
  exists 1, [1; 1], [0; 0], 0, 2, 1.
  eexists; eexists. split; [reflexivity|].
  split; [reflexivity|]. repeat (split; [lra|]).
  cbn. unfold half, fun_st_1, cov_rhs1, interp; cbn. lra.
Qed.

(** RK2 covariance becomes negative inside the stability interval of the scheme,
    where the mid-point rule keeps it positive. *)
Lemma rk2_negative :
  exists (dt : R) (A b : list R) (m0 s0 sigma : R) mt st,
    solve_fwd S1 RK2 dt A b m0 s0 sigma = Ok (mt, st) /\ length A = length b /\
    0 < dt /\ 0 < s0 /\ 0 < sigma /\
    (forall a, In a A -> 0 <= 2 * a * dt < 2) /\ nth 1 st 0 < 0.
Proof.
  exists (1/2), [3/2; 3/2], [0; 0], 0, (1/3), (1/10).
  eexists; eexists. split; [reflexivity|].
  split; [reflexivity|]. repeat (split; [lra|]). split.
  - intros a [<-|[<-|[]]]; lra.
  - cbn. unfold half, fun_st_1; cbn. lra.
Qed.
Lemma midpoint_pos dt a a' sigma s :
  0 < dt -> 0 < sigma -> 0 < s -> 0 <= 2 * a * dt < 2 -> 0 <= 2 * a' * dt < 2 ->
  0 < rk_step (V := sV) tab_midpoint (fun th s => cov_rhs1 (interp (V:=sV) th a a') sigma s) dt s.
Proof.
  intros Hdt Hs Hp [Ha1 Ha2] [Hb1 Hb2].
  set (z := 2 * a * dt) in *. set (z' := 2 * a' * dt) in *.
  apply Rlt_le_trans with (s * (1 - (z + z') / 2 * (1 - z / 2)) + sigma * dt * (1 - (z + z') / 4)).
  2:{ right. unfold rk_step, cov_rhs1, interp, z, z'; cbn. field. }
  assert (0 < sigma * dt) by nra.
  assert (0 < 1 - (z + z') / 2 * (1 - z / 2)) by nra.
  assert (0 < s * (1 - (z + z') / 2 * (1 - z / 2))) by (apply Rmult_lt_0_compat; lra).
  assert (0 < sigma * dt * (1 - (z + z') / 4)) by (apply Rmult_lt_0_compat; lra).
  lra.
Qed.

(** n-D lambda: not the adjoint equation for a non-symmetric A. *)
Definition m2 (a b c d : R) : Rmat :=
  fun i j => match i, j with
             | 0%nat, 0%nat => a | 0%nat, 1%nat => b | 1%nat, 0%nat => c | 1%nat, 1%nat => d
             | _, _ => 0 end.
Definition v2 (a b : R) : Rvec := fun i => match i with 0%nat => a | 1%nat => b | _ => 0 end.

Lemma lam_n_wrong :
  exists (dt : R) (A : list Rmat) dm ds om os lam psi,
    solve_bwd (Sn 2) Euler dt A dm ds om os = Ok (lam, psi) /\ 0 < dt /\
    length dm = 3%nat /\
    nth 0 lam (vzero vV) 0%nat <>
    (vadd (rk_step (V := vV) tab_euler
      (fun th l => lam_rhsn 2 (interp (V:=vV) th (nth 1 dm (vzero vV)) (nth 0 dm (vzero vV)))
           (interp (V:=mV) th (nth 1 A (vzero mV)) (nth 0 A (vzero mV))) l)
      (- dt) (nth 1 lam (vzero vV))) (nth 0 om (vzero vV)) : Rvec) 0%nat.
Proof.
  set (Z := m2 0 0 0 0). set (A0 := m2 0 0 1 0).
  exists 1, [A0; A0; A0], [v2 0 0; v2 1 1; v2 1 1], [Z; Z; Z], [v2 0 0; v2 0 0; v2 0 0], [Z; Z; Z].
  eexists; eexists. split; [reflexivity|]. split; [lra|]. split; [reflexivity|].
  cbn. unfold fun_lam_n, vecm, mtr, lam_rhsn, interp; cbn. lra.
Qed.
