(** * Perturbed backward sweeps in several dimensions, and what gradient computes for the offset
    with any method. *)
From Coq Require Import List Arith Reals Lra Lia Psatz Sorted.
From Coquelicot Require Import Coquelicot.
From Verif Require Import Num Arr ArrFacts M_LinAlg M_Utils M_Ode M_Moments M_Sde1 M_L63 M_Prior M_Like M_VarGP
  Spec_Utils Spec_Det Spec_Ode Spec_Gauss Spec_GaussN Spec_Sde1 Spec_L63 Spec_Prior Spec_Like Spec_VarGP Spec_TimeVar Spec_Limit Spec_GradN Spec_LimitN
  P_Ode P_OdeR P_OdeRK P_Conv P_Trapz P_Sde1 P_Det P_RMat P_Prior P_Like P_L63 P_VarGP P_Adjoint P_GaussN P_Expect P_GradN P_GradN2 P_GradN3 P_GradL63 P_GradL63T
  P_TimeVar P_TimeVar2 P_TimeVar3 P_TimeVar4 P_TimeVar5 P_TimeVar7 P_TimeVar10 P_Limit1 P_Limit3 P_Limit4 P_Limit5 P_LinOde P_LimitN0 P_LimitN1 P_LimitN2 P_LimitN3.
Import ListNotations.
Local Open Scope R_scope.

(** ** one step of a system, with a perturbed right-hand side *)
Section Stab2n.
Context (d : nat).
Notation co := (fun (i : nat) (u : nat -> R) => u i).
Notation eu := (co_euler (V := vV) co (fun _ _ _ => eq_refl) (fun _ _ _ => eq_refl) (fun _ => eq_refl)).
Notation he := (co_heun (V := vV) co (fun _ _ _ => eq_refl) (fun _ _ _ => eq_refl) (fun _ => eq_refl)).
Notation mi := (co_mid (V := vV) co (fun _ _ _ => eq_refl) (fun _ _ _ => eq_refl) (fun _ => eq_refl)).
Notation r4 := (co_rk4 (V := vV) co (fun _ _ _ => eq_refl) (fun _ _ _ => eq_refl) (fun _ => eq_refl)).
Notation s0_ := (co_st0 (V := vV) co (fun _ _ _ => eq_refl) (fun _ _ _ => eq_refl) (fun _ => eq_refl)).
Notation s1_ := (co_st1 (V := vV) co (fun _ _ _ => eq_refl) (fun _ _ _ => eq_refl) (fun _ => eq_refl)).
Notation s2_ := (co_st2 (V := vV) co (fun _ _ _ => eq_refl) (fun _ _ _ => eq_refl) (fun _ => eq_refl)).
Notation s3_ := (co_st3 (V := vV) co (fun _ _ _ => eq_refl) (fun _ _ _ => eq_refl) (fun _ => eq_refl)).
Definition nrv (e : R) (u v : nat -> R) : Prop := forall i, (i < d)%nat -> Rabs (u i - v i) <= e.
Variables (F G : R -> (nat -> R) -> nat -> R) (L h q : R).
Hypothesis Lpos : 0 < L.
Hypothesis qpos : 0 <= q.
Hypothesis HF : forall th u v e, node th -> nrv e u v -> nrv (L * (e + q)) (F th u) (G th v).
Ltac babs := repeat match goal with H : Rabs _ <= _ |- _ => apply Rabs_le_between in H end; apply Rabs_le_between.
Lemma mulHn u v b : nrv b u v -> forall i, (i < d)%nat -> Rabs (h * u i - h * v i) <= Rabs h * b.
Proof. intros H i Hi. replace (h * u i - h * v i) with (h * (u i - v i)) by ring. rewrite Rabs_mult. apply Rmult_le_compat_l; [apply Rabs_pos|apply H, Hi]. Qed.
Lemma stab2n mtd e u v : nrv e u v -> 0 <= e ->
  nrv (exp (Rabs h * L) * (e + q) - q) (rk_step (V := vV) (tab_of mtd) F h u) (rk_step (V := vV) (tab_of mtd) G h v).
Proof.
  intros H He. set (H' := Rabs h). set (w := e + q). assert (w0 : 0 <= w) by (unfold w; lra).
  assert (H'0 : 0 <= H') by apply Rabs_pos.
  assert (N0 : node 0) by (left; auto). assert (Nh : node (1/2)) by (right; left; auto). assert (N1 : node 1) by (right; right; auto).
  set (K1 := fun F => k1 (V := vV) F h). set (K2h := fun F => k2h (V := vV) F h). set (K2 := fun F => k2 (V := vV) F h).
  set (K3 := fun F => k3 (V := vV) F h). set (K4 := fun F => k4 (V := vV) F h).
  assert (A1 : nrv (L * w) (K1 F u) (K1 G v)).
  { apply HF; auto. intros i Hi. rewrite (s0_ h i u), (s0_ h i v). exact (H i Hi). }
  pose proof (mulHn _ _ _ A1) as B1. fold H' in B1.
  assert (A2h : nrv (L * (w + H' * (L * w))) (K2h F u) (K2h G v)).
  { replace (w + H' * (L * w)) with (e + H' * (L * w) + q) by (unfold w; ring). apply HF; auto. intros i Hi. specialize (B1 i Hi). pose proof (H i Hi) as Hq.
    rewrite (s1_ h i 1 u (k1 (V := vV) F h u)), (s1_ h i 1 v (k1 (V := vV) G h v)). babs. unfold K1 in *. lra. }
  pose proof (mulHn _ _ _ A2h) as B2h. fold H' in B2h.
  assert (A2 : nrv (L * (w + H' * (L * w) / 2)) (K2 F u) (K2 G v)).
  { replace (w + H' * (L * w) / 2) with (e + H' * (L * w) / 2 + q) by (unfold w; field). apply HF; auto. intros i Hi. specialize (B1 i Hi). pose proof (H i Hi) as Hq.
    rewrite (s1_ h i (1/2) u (k1 (V := vV) F h u)), (s1_ h i (1/2) v (k1 (V := vV) G h v)). babs. unfold K1 in *. lra. }
  pose proof (mulHn _ _ _ A2) as B2. fold H' in B2.
  assert (A3 : nrv (L * (w + H' * (L * (w + H' * (L * w) / 2)) / 2)) (K3 F u) (K3 G v)).
  { replace (w + H' * (L * (w + H' * (L * w) / 2)) / 2) with (e + H' * (L * (w + H' * (L * w) / 2)) / 2 + q) by (unfold w; field). apply HF; auto. intros i Hi. specialize (B2 i Hi). pose proof (H i Hi) as Hq.
    rewrite (s2_ h i 0 (1/2) u (k1 (V := vV) F h u) (k2 (V := vV) F h u)), (s2_ h i 0 (1/2) v (k1 (V := vV) G h v) (k2 (V := vV) G h v)). babs. unfold K2 in *. lra. }
  pose proof (mulHn _ _ _ A3) as B3. fold H' in B3.
  assert (A4 : nrv (L * (w + H' * (L * (w + H' * (L * (w + H' * (L * w) / 2)) / 2)))) (K4 F u) (K4 G v)).
  { replace (w + H' * (L * (w + H' * (L * (w + H' * (L * w) / 2)) / 2))) with (e + H' * (L * (w + H' * (L * (w + H' * (L * w) / 2)) / 2)) + q) by (unfold w; field). apply HF; auto. intros i Hi. specialize (B3 i Hi). pose proof (H i Hi) as Hq.
    rewrite (s3_ h i 0 0 1 u (k1 (V := vV) F h u) (k2 (V := vV) F h u) (k3 (V := vV) F h u)), (s3_ h i 0 0 1 v (k1 (V := vV) G h v) (k2 (V := vV) G h v) (k3 (V := vV) G h v)). babs. unfold K3 in *. lra. }
  pose proof (mulHn _ _ _ A4) as B4. fold H' in B4.
  assert (T0 : forall p, texp p (H' * L) * w - q <= exp (H' * L) * w - q).
  { intros p. apply Rplus_le_compat_r, Rmult_le_compat_r; auto. eapply Rle_trans; [apply Rle_abs|]. eapply Rle_trans; [apply texp_abs|].
    rewrite Rabs_pos_eq by (apply Rmult_le_pos; lra). lra. }
  destruct (texp_poly (H' * L)) as (P1 & P2 & P4). intros i Hi. specialize (H i Hi).
  specialize (B1 i Hi). specialize (B2h i Hi). specialize (B2 i Hi). specialize (B3 i Hi). specialize (B4 i Hi).
  destruct mtd; cbn [tab_of].
  - rewrite (eu F h i u), (eu G h i v). specialize (T0 1%nat). rewrite P1 in T0. eapply Rle_trans; [|exact T0]. babs. unfold K1, w in *. lra.
  - rewrite (he F h i u), (he G h i v). specialize (T0 2%nat). rewrite P2 in T0. eapply Rle_trans; [|exact T0]. babs. unfold K1, K2h, w in *. lra.
  - rewrite (mi F h i u), (mi G h i v). specialize (T0 2%nat). rewrite P2 in T0. eapply Rle_trans; [|exact T0]. babs. unfold K2, w in *. lra.
  - rewrite (r4 F h i u), (r4 G h i v). specialize (T0 4%nat). rewrite P4 in T0. eapply Rle_trans; [|exact T0]. babs. unfold K1, K2, K3, K4, w in *. lra.
Qed.
End Stab2n.

(** ** two backward sweeps; [c k] bounds the difference of the jumps at step k *)
Lemma sweep2n d mtd dt L q n (u v om om' : nat -> nat -> R) (c : nat -> R) (F G : nat -> R -> (nat -> R) -> nat -> R) : 0 < dt -> 0 < L -> 0 <= q ->
  (forall k th x y e, (k < n)%nat -> node th -> nrv d e x y -> nrv d (L * (e + q)) (F k th x) (G k th y)) ->
  (forall i, (i < d)%nat -> u n i = v n i) -> (forall k, 0 <= c k) -> (forall k, (k < n)%nat -> nrv d (c k) (om k) (om' k)) ->
  (forall k i, (k < n)%nat -> (i < d)%nat -> u k i = rk_step (V := vV) (tab_of mtd) (F k) (- dt) (u (k + 1)%nat) i + om k i) ->
  (forall k i, (k < n)%nat -> (i < d)%nat -> v k i = rk_step (V := vV) (tab_of mtd) (G k) (- dt) (v (k + 1)%nat) i + om' k i) ->
  forall k, (k <= n)%nat -> nrv d (exp (INR n * dt * L) * (q + Rsum n c)) (u k) (v k).
Proof.
  intros Hdt HL Hq HF H0 Hc0 Hc Hu Hv.
  set (J := fun j => Rsum j (fun i => c (n - 1 - i)%nat)).
  assert (J0 : forall j, 0 <= J j).
  { induction j; cbn; [lra|]. unfold J in *. cbn [Rsum]. specialize (Hc0 (n - 1 - j)%nat). lra. }
  assert (P : forall j, (j <= n)%nat -> nrv d (exp (INR j * dt * L) * (q + J j) - q) (u (n - j)%nat) (v (n - j)%nat)).
  { induction j as [|j IH]; intros Hj.
    - intros i Hi. rewrite Nat.sub_0_r, H0 by exact Hi. replace (v n i - v n i) with 0 by ring. rewrite Rabs_R0. cbn [INR]. rewrite !Rmult_0_l, exp_0. unfold J; cbn [Rsum]. lra.
    - specialize (IH ltac:(lia)). set (i := (n - Datatypes.S j)%nat). assert (Ei : (n - j = i + 1)%nat) by (unfold i; lia). rewrite Ei in IH.
      assert (X1 : forall z, (0 <= z)%nat -> 1 <= exp (INR z * dt * L)).
      { intros z _. apply Rle_trans with (exp 0); [rewrite exp_0; lra|]. apply exp_le_mono_. pose proof (pos_INR z).
        apply Rmult_le_pos; [apply Rmult_le_pos; lra|lra]. }
      assert (E0 : 0 <= exp (INR j * dt * L) * (q + J j) - q).
      { pose proof (X1 j ltac:(lia)). pose proof (J0 j). assert (1 * (q + J j) <= exp (INR j * dt * L) * (q + J j)) by (apply Rmult_le_compat_r; lra). lra. }
      pose proof (stab2n d (F i) (G i) L (- dt) q HL Hq (fun th x y e => HF i th x y e ltac:(unfold i; lia)) mtd _ _ _ IH E0) as S2.
      rewrite Rabs_Ropp, (Rabs_pos_eq dt) in S2 by lra.
      assert (EJ : J (Datatypes.S j) = J j + c i) by (unfold J; cbn [Rsum]; replace (n - 1 - j)%nat with i by (unfold i; lia); reflexivity).
      assert (EX : exp (INR (Datatypes.S j) * dt * L) = exp (dt * L) * exp (INR j * dt * L)) by (rewrite <- exp_plus; f_equal; rewrite S_INR; ring).
      intros l Hl. rewrite (Hu i l), (Hv i l) by (unfold i; lia).
      specialize (S2 l Hl). specialize (Hc i ltac:(unfold i; lia) l Hl).
      set (x := rk_step (V := vV) (tab_of mtd) (F i) (- dt) (u (i + 1)%nat) l) in *. set (y := rk_step (V := vV) (tab_of mtd) (G i) (- dt) (v (i + 1)%nat) l) in *.
      assert (T : Rabs (x + om i l - (y + om' i l)) <= Rabs (x - y) + Rabs (om i l - om' i l)) by (replace (x + om i l - (y + om' i l)) with ((x - y) + (om i l - om' i l)) by ring; apply Rabs_triang).
      pose proof (X1 (Datatypes.S j) ltac:(lia)) as X2. rewrite EX in X2. rewrite EX, EJ.
      pose proof (Hc0 i).
      assert (1 * c i <= exp (dt * L) * exp (INR j * dt * L) * c i) by (apply Rmult_le_compat_r; auto).
      replace (exp (INR j * dt * L) * (q + J j) - q + q) with (exp (INR j * dt * L) * (q + J j)) in S2 by ring. change (Rabs (x - y) <= exp (dt * L) * (exp (INR j * dt * L) * (q + J j)) - q) in S2. lra. }
  intros k Hk. specialize (P (n - k)%nat ltac:(lia)). replace (n - (n - k))%nat with k in P by lia.
  assert (JJ : J (n - k)%nat <= Rsum n c).
  { assert (M : forall i j, (i <= j)%nat -> J i <= J j).
    { intros i j Hij. induction Hij; [lra|]. assert (J (Datatypes.S m) = J m + c (n - 1 - m)%nat) by reflexivity.
      specialize (Hc0 (n - 1 - m)%nat). lra. }
    apply Rle_trans with (J n); [apply M; lia|]. unfold J. right. apply (Rsum_rev_ n c). }
  intros i Hi. eapply Rle_trans; [exact (P i Hi)|].
  assert (EE : exp (INR (n - k) * dt * L) <= exp (INR n * dt * L)).
  { apply exp_le_mono_. apply Rmult_le_compat_r; [lra|]. apply Rmult_le_compat_r; [lra|]. apply le_INR. lia. }
  assert (exp (INR (n - k) * dt * L) * (q + J (n - k)%nat) <= exp (INR n * dt * L) * (q + Rsum n c)).
  { apply Rmult_le_compat; [left; apply exp_pos|pose proof (J0 (n - k)%nat); lra|exact EE|lra]. }
  lra.
Qed.

(** the sweep of the mean multipliers with approximate data *)
Lemma lam_err d mtd dt T B eg n (c : nat -> R) (al al' : list (nat -> nat -> R)) (dm dm' om om' lam lam' : list (nat -> R)) (ds ds' os os' psi psi' : list (nat -> nat -> R)) :
  0 < dt -> INR n * dt = T -> 0 <= B -> 0 <= eg -> length dm = (n + 1)%nat -> length dm' = (n + 1)%nat ->
  (forall k i j, (k <= n)%nat -> (i < d)%nat -> (j < d)%nat -> nth k al mz i j = nth k al' mz i j /\ Rabs (nth k al' mz i j) <= B) ->
  (forall k, (k <= n)%nat -> nrv d eg (nth k dm vz) (nth k dm' vz)) ->
  (forall k, 0 <= c k) -> (forall k, (k < n)%nat -> nrv d (c k) (nth k om vz) (nth k om' vz)) ->
  solve_bwd (Sn d) mtd dt al dm ds om os = Ok (lam, psi) -> solve_bwd (Sn d) mtd dt al' dm' ds' om' os' = Ok (lam', psi') ->
  forall k, (k <= n)%nat -> nrv d (exp (T * (INR d * B + 1)) * (eg + Rsum n c)) (nth k lam vz) (nth k lam' vz).
Proof.
  intros Hdt Hn HB Heg L1 L2 HA Hg Hc0 Hc H1 H2 k Hk.
  pose proof (pos_INR d) as Hd0. assert (L0 : 0 < INR d * B + 1) by (assert (0 <= INR d * B) by (apply Rmult_le_pos; assumption); lra).
  rewrite <- Hn.
  apply (sweep2n d mtd dt (INR d * B + 1) eg n (fun k => nth k lam vz) (fun k => nth k lam' vz) (fun k => nth k om vz) (fun k => nth k om' vz) c
    (fun t th l => lam_rhsn d (interp (V:=vV) th (nth (t+1) dm vz) (nth t dm vz)) (mtr (interp (V:=mV) th (nth (t+1) al mz) (nth t al mz))) l)
    (fun t th l => lam_rhsn d (interp (V:=vV) th (nth (t+1) dm' vz) (nth t dm' vz)) (mtr (interp (V:=mV) th (nth (t+1) al' mz) (nth t al' mz))) l)); auto.
  - intros j th x y e Hj Hth Hxy i Hi.
    change (Rabs (- ((1 - th) * nth (j + 1) dm vz i + th * nth j dm vz i) + Rsum d (fun l => ((1 - th) * nth (j + 1) al mz i l + th * nth j al mz i l) * x l)
      - (- ((1 - th) * nth (j + 1) dm' vz i + th * nth j dm' vz i) + Rsum d (fun l => ((1 - th) * nth (j + 1) al' mz i l + th * nth j al' mz i l) * y l))) <= (INR d * B + 1) * (e + eg)).
    assert (Th : 0 <= th <= 1) by (destruct Hth as [ -> | [ -> | -> ] ]; lra).
    rewrite (Rsum_ext d (fun l => ((1 - th) * nth (j + 1) al mz i l + th * nth j al mz i l) * x l)
      (fun l => ((1 - th) * nth (j + 1) al' mz i l + th * nth j al' mz i l) * y l + ((1 - th) * nth (j + 1) al' mz i l + th * nth j al' mz i l) * (x l - y l))).
    2: { intros l Hl. rewrite (proj1 (HA (j + 1)%nat i l ltac:(lia) Hi Hl)), (proj1 (HA j i l ltac:(lia) Hi Hl)). ring. }
    rewrite Rsum_plus.
    assert (Bz : Rabs (Rsum d (fun l => ((1 - th) * nth (j + 1) al' mz i l + th * nth j al' mz i l) * (x l - y l))) <= INR d * (B * e)).
    { apply Rsum_abs. intros l Hl. rewrite Rabs_mult. apply Rmult_le_compat; [apply Rabs_pos|apply Rabs_pos| |apply Hxy, Hl].
      destruct (HA (j + 1)%nat i l ltac:(lia) Hi Hl) as [_ QA]. destruct (HA j i l ltac:(lia) Hi Hl) as [_ QB].
      eapply Rle_trans; [apply Rabs_triang|]. rewrite !Rabs_mult, (Rabs_pos_eq (1 - th)), (Rabs_pos_eq th) by lra. nra. }
    pose proof (Hg (j + 1)%nat ltac:(lia) i Hi) as G1. pose proof (Hg j ltac:(lia) i Hi) as G2.
    set (Z := Rsum d (fun l => ((1 - th) * nth (j + 1) al' mz i l + th * nth j al' mz i l) * (x l - y l))) in *.
    set (Y := Rsum d (fun l => ((1 - th) * nth (j + 1) al' mz i l + th * nth j al' mz i l) * y l)) in *.
    set (g1 := nth (j + 1) dm vz i) in *. set (g2 := nth j dm vz i) in *. set (g1' := nth (j + 1) dm' vz i) in *. set (g2' := nth j dm' vz i) in *.
    change (Rabs (- ((1 - th) * g1 + th * g2) + (Y + Z) - (- ((1 - th) * g1' + th * g2') + Y)) <= (INR d * B + 1) * (e + eg)).
    replace (- ((1 - th) * g1 + th * g2) + (Y + Z) - (- ((1 - th) * g1' + th * g2') + Y)) with (Z + - ((1 - th) * (g1 - g1') + th * (g2 - g2'))) by ring.
    assert (G3 : Rabs (- ((1 - th) * (g1 - g1') + th * (g2 - g2'))) <= eg).
    { rewrite Rabs_Ropp. eapply Rle_trans; [apply Rabs_triang|]. rewrite !Rabs_mult, (Rabs_pos_eq (1 - th)), (Rabs_pos_eq th) by lra. nra. }
    eapply Rle_trans; [apply Rabs_triang|].
    assert (E0 : 0 <= e) by (eapply Rle_trans; [apply Rabs_pos|apply (Hxy i Hi)]).
    assert (0 <= INR d * B) by (apply Rmult_le_pos; assumption). assert (0 <= INR d * B * eg) by (apply Rmult_le_pos; assumption). lra.
  - intros i Hi.
    pose proof (solve_bwd_shape _ _ _ _ _ _ _ _ _ _ H1) as (_ & _ & E1). pose proof (solve_bwd_shape _ _ _ _ _ _ _ _ _ _ H2) as (_ & _ & E2).
    assert (N1 : dm <> []) by (intros Z; rewrite Z in L1; cbn in L1; lia). assert (N2 : dm' <> []) by (intros Z; rewrite Z in L2; cbn in L2; lia).
    destruct (E1 N1) as [F1 _]. destruct (E2 N2) as [F2 _].
    assert (F1' : nth_error lam (n + 1 - 1) = Some (vzero vV)) by (rewrite <- L1; exact F1). assert (F2' : nth_error lam' (n + 1 - 1) = Some (vzero vV)) by (rewrite <- L2; exact F2).
    rewrite (last_nth lam n _ vz F1'), (last_nth lam' n _ vz F2'). reflexivity.
  - intros j i Hj Hi. assert (Q0 : (j + 1 < length dm)%nat) by (rewrite L1; lia).
    exact (f_equal (fun z => z i) (bwd_lam_n_code _ _ _ _ _ _ _ _ _ _ j H1 Q0)).
  - intros j i Hj Hi. assert (Q0 : (j + 1 < length dm')%nat) by (rewrite L2; lia).
    exact (f_equal (fun z => z i) (bwd_lam_n_code _ _ _ _ _ _ _ _ _ _ j H2 Q0)).
Qed.
