(** * Consequences of the comparison, and its instance for Lorenz 63. *)
From Coq Require Import ZArith List Bool Arith Reals Lra Lia FunctionalExtensionality Sorted.
From Coquelicot Require Import Coquelicot.
From Verif Require Import Num Arr ArrFacts M_LinAlg M_Utils M_Ode M_Moments M_Sde1 M_L63 M_Prior M_Like M_VarGP
  Spec_Utils Spec_Det Spec_Gauss Spec_GaussN Spec_Sde1 Spec_L63 Spec_Prior Spec_Like Spec_VarGP Spec_GradN
  P_Ode P_Trapz P_Sde1 P_RMat P_Det P_GaussN P_Prior P_Like P_L63 P_VarGP P_Adjoint P_Oper P_GradN P_GradN2 P_GradN3 P_GradL63.
Import ListNotations.
Local Open Scope R_scope.

Section Zero.
Context (d : nat) (dt : R) (m0 : nat -> R) (C s0 : nat -> nat -> R) (a ua : nat -> nat -> nat -> R) (b ub : nat -> nat -> R).
(** a direction that does not move a and b before point K moves nothing up to K *)
Lemma still K : (forall k, (k < K)%nat -> eqm d (ua k) mz /\ eqv d (ub k) vz) -> forall k, (k <= K)%nat ->
  eqv d (dmn d dt m0 a ua b ub k) vz /\ eqm d (dsn d dt C s0 a ua k) mz /\ eqv d (dtm d dt m0 a ua b ub k) vz.
Proof.
  intros H k. induction k as [|k IH]; intros Hk.
  - split; [|split]; repeat intro; reflexivity.
  - destruct (IH ltac:(lia)) as (I1 & I2 & I3). destruct (H k ltac:(lia)) as [U1 U2]. split; [|split].
    + intros i Hi. cbn [dmn]. rewrite (I1 i Hi), (U2 i Hi). rewrite (Rsum_zero d) by
        (intros j Hj; rewrite (U1 i j Hi Hj), (I1 j Hj); ring). ring.
    + intros i j Hi Hj. cbn [dsn]. rewrite (I2 i j Hi Hj). rewrite !(Rsum_zero d) by
        (intros l Hl; rewrite ?(U1 i l Hi Hl), ?(U1 j l Hj Hl), ?(I2 l j Hl Hj), ?(I2 i l Hi Hl); ring). ring.
    + intros i Hi. change (dtm d dt m0 a ua b ub k i + dt * (- Rsum d (fun j => a k j i * dtm d dt m0 a ua b ub k j)
        - Rsum d (fun j => ua k i j * path_mn d dt a b m0 k j) + ub k i) = 0).
      rewrite (I3 i Hi), (U2 i Hi). rewrite !(Rsum_zero d) by
        (intros j Hj; rewrite ?(U1 i j Hi Hj), ?(I3 j Hj); ring). ring.
Qed.
(** symmetric a: the transposed recursion is the derivative of the mean path *)
Lemma sym_dtm K : (forall k, (k < K)%nat -> sy d (a k)) -> forall k, (k <= K)%nat -> eqv d (dtm d dt m0 a ua b ub k) (dmn d dt m0 a ua b ub k).
Proof.
  intros H k. induction k as [|k IH]; intros Hk i Hi; [reflexivity|].
  change (dtm d dt m0 a ua b ub k i + dt * (- Rsum d (fun j => a k j i * dtm d dt m0 a ua b ub k j)
        - Rsum d (fun j => ua k i j * path_mn d dt a b m0 k j) + ub k i) = dmn d dt m0 a ua b ub (S k) i).
  cbn [dmn]. rewrite (IH ltac:(lia) i Hi). rewrite (Rsum_plus d).
  rewrite (Rsum_ext d (fun j => a k j i * dtm d dt m0 a ua b ub k j) (fun j => a k i j * dmn d dt m0 a ua b ub k j))
    by (intros j Hj; rewrite (IH ltac:(lia) j Hj), (H k ltac:(lia) j i Hj Hi); reflexivity).
  unfold mn. ring.
Qed.
(** directions that do not move a leave the covariance alone *)
Lemma ds_zero K : (forall k, (k < K)%nat -> eqm d (ua k) mz) -> forall k, (k <= K)%nat -> eqm d (dsn d dt C s0 a ua k) mz.
Proof.
  intros H k. induction k as [|k IH]; intros Hk i j Hi Hj; [reflexivity|]. specialize (IH ltac:(lia)).
  pose proof (H k ltac:(lia)) as U1. cbn [dsn]. rewrite (IH i j Hi Hj). rewrite !(Rsum_zero d) by
        (intros l Hl; rewrite ?(U1 i l Hi Hl), ?(U1 j l Hj Hl), ?(IH l j Hl Hj), ?(IH i l Hi Hl); ring). ring.
Qed.
End Zero.

Lemma dots_z d A B : eqm d B mz -> dots d A B = 0.
Proof. intros H. apply Rsum_zero. intros i Hi. apply Rsum_zero. intros j Hj. rewrite (H i j Hi Hj). ring. Qed.
Lemma dot_z d u v : eqv d v vz -> dot d u v = 0.
Proof. intros H. apply Rsum_zero. intros i Hi. rewrite (H i Hi). ring. Qed.
Lemma below_z d A B : eqm d B mz -> dot_below d A B = 0.
Proof. intros H. apply Rsum_zero. intros i Hi. apply Rsum_zero. intros j Hj. rewrite (H i j) by lia. ring. Qed.

Section Cons.
Context (d : nat) (energy : list (nat -> nat -> R) -> list (nat -> R) -> list (nat -> R) -> list (nat -> nat -> R) ->
    option (list nat) -> result (EnergyN RNum)) (P : nat -> nat -> R) (dt : R) (e : dens R) (ea es : dens (nat -> nat -> R)) (eb em : dens (nat -> R))
  (EO : energy_okn d energy P dt e ea es eb em).
Context (n : nat) (C s0 : nat -> nat -> R) (m0 mu : nat -> R) (tau Rn : nat -> nat -> R) (y : list (nat -> R)) (t : list nat) (k0 : R).
Context (Hn : (0 < n)%nat) (Hs0 : symm d s0) (HC : symm d C) (Hrs : symm d Rn) (Hrp : posdef d Rn)
  (Hy : length y = length t) (Ht : List.Forall (fun i => (i < n)%nat) t) (Hnd : NoDup t) (Hst : Sorted le t)
  (Hk0 : kl0_nd (K:=RNum) ln d mu tau m0 s0 = Ok k0).
Notation EE := (EVn d energy P dt n C s0 m0 mu tau Rn y t).
Context (x : list R) (Hx : length x = (n * d * (d + 1))%nat).
Notation xa := (part_a d (entry x)).
Notation xb := (part_b n d (entry x)).
Notation xm := (path_mn d dt xa xb m0).
Notation xs := (path_sn d dt xa C s0).

Lemma last_block (u : nat -> R) s : (2 <= n)%nat ->
  (forall k, (k < n - 1)%nat -> eqm d (part_a d u k) mz /\ eqv d (part_b n d u k) vz) ->
  let D := dots d (ea (xa (n - 1)%nat) (xb (n - 1)%nat) (xm (n - 1)%nat) (xs (n - 1)%nat)) (part_a d u (n - 1))
    + dot d (eb (xa (n - 1)%nat) (xb (n - 1)%nat) (xm (n - 1)%nat) (xs (n - 1)%nat)) (part_b n d u (n - 1)) in
  exists (g : list R) (F : R -> R), fst (gradient EE x true s) = Ok g /\ length g = (n * d * (d + 1))%nat /\
  (forall h s', fst (free_energy EE (moved x u h) s') = Ok (F h)) /\
  is_derive F 0 (dt * D / 2) /\ Rsum (length g) (fun q => entry g q * u q) = dt * D.
Proof.
  intros H2 Hu D.
  destruct (cmp_n d energy P dt e ea es eb em EO n C s0 m0 mu tau Rn y t k0 Hn Hs0 HC Hrs Hrp Hy Ht Hnd Hst Hk0 x Hx u s)
    as (g & gm & gs & Ri & F & _ & _ & EG & LG & EF & _ & _ & DF & EP).
  pose proof (still d dt m0 C s0 xa (part_a d u) xb (part_b n d u) (n - 1) Hu) as Z.
  exists g, F. split; [exact EG|]. split; [exact LG|]. split; [exact EF|].
  assert (Hti : forall j, (j < length t)%nat -> (nth j t O < n)%nat) by (intros j Hj; apply (proj1 (Forall_forall _ _) Ht), nth_In, Hj).
  assert (Htl : (length t <= n)%nat).
  { rewrite <- (seq_length n 0). apply NoDup_incl_length; [exact Hnd|]. intros q Hq. apply in_seq. pose proof (proj1 (Forall_forall _ _) Ht q Hq) as Z0. cbv beta in Z0. lia. }
  assert (D0 : forall k, (k < n - 1)%nat -> den d dt ea es eb em n C s0 m0 x u k = 0).
  { intros k Hk. destruct (Z k ltac:(lia)) as (Z1 & Z2 & Z3). destruct (Hu k Hk) as [U1 U2]. unfold den.
    rewrite (dots_z d _ _ U1), (dot_z d _ _ U2), (dot_z d _ _ Z1), (dots_z d _ _ Z2), (below_z d _ _ Z2). ring. }
  assert (DL : den d dt ea es eb em n C s0 m0 x u (n - 1) = D).
  { destruct (Z (n - 1)%nat ltac:(lia)) as (Z1 & Z2 & Z3). unfold den.
    rewrite (dot_z d _ _ Z1), (dots_z d _ _ Z2), (below_z d _ _ Z2). unfold D. ring. }
  split.
  - eapply d_eq; [exact DF|].
    assert (T1 : trap n (den d dt ea es eb em n C s0 m0 x u) dt = dt * D / 2).
    { unfold trap. rewrite <- DL. assert (En : exists q, (n - 1)%nat = S q) by (exists (n - 2)%nat; lia). destruct En as [q Eq]. rewrite Eq in *.
      cbn [Rsum]. rewrite (Rsum_zero q) by (intros k Hk; rewrite (D0 k), (D0 (k + 1)%nat) by lia; field). rewrite (D0 q) by lia. replace (q + 1)%nat with (S q) by lia. field. }
    rewrite T1.
    assert (T2 : Rsum (length t) (fun j => dot d (nth (nth j t O) gm vz) (dmn d dt m0 xa (part_a d u) xb (part_b n d u) (nth j t O))) = 0).
    { apply Rsum_zero. intros j Hj. apply dot_z. apply Z. pose proof (Hti j Hj). lia. }
    rewrite T2.
    assert (T3 : Rsum (length t) (fun j => Rsum d (fun i => Ri i i * dsn d dt C s0 xa (part_a d u) j i i)) = 0).
    { apply Rsum_zero. intros j Hj. apply Rsum_zero. intros i Hi. 
      destruct (Z j ltac:(lia)) as (_ & Z2 & _). rewrite (Z2 i i Hi Hi). ring. }
    rewrite T3. ring.
  - rewrite EP. rewrite (Rsum_zero (n - 1)).
    2:{ intros k Hk. destruct (Z (k + 1)%nat ltac:(lia)) as (_ & Z2 & Z3). rewrite (dot_z d _ _ Z3), (dots_z d _ _ Z2). ring. }
    rewrite Rplus_0_r. f_equal.
    rewrite (Rsum_single n _ (n - 1)%nat) by (try lia; intros k Hk Hne; destruct (Z k ltac:(lia)) as (Z1 & Z2 & Z3);
      rewrite (D0 k) by lia; rewrite (below_z d _ _ Z2); rewrite (dot_z d _ (fun i => _)) by (intros i Hi; rewrite (Z1 i Hi), (Z3 i Hi); ring); ring).
    destruct (Z (n - 1)%nat ltac:(lia)) as (Z1 & Z2 & Z3). rewrite DL, (below_z d _ _ Z2).
    rewrite (dot_z d _ (fun i => _)) by (intros i Hi; rewrite (Z1 i Hi), (Z3 i Hi); ring). ring.
Qed.

(** the gap between gradient() and the rectangle objective when a is symmetric *)
Lemma rect_sym s : (forall k, (k < n)%nat -> sy d (xa k)) ->
  exists (g : list R) (gm : list (nat -> R)) (gs : list (nat -> nat -> R)) (Ri : nat -> nat -> R),
  is_inv d Rn Ri /\ fst (gradient EE x true s) = Ok g /\ length g = (n * d * (d + 1))%nat /\
  (forall j, (j < length t)%nat ->
     (forall i, (i < d)%nat -> nth (nth j t O) gm vz i = - Rsum d (fun l => Ri i l * (nth j y vz l - xm (nth j t O) l))) /\
     (forall i l, (i < d)%nat -> (l < d)%nat -> nth (nth j t O) gs mz i l = 1 / 2 * Ri i l)) /\
  (forall k, ~ In k t -> nth k gm vz = vz /\ nth k gs mz = mz) /\
  forall u, is_derive (fun h => rect_objective_n d e n dt C m0 s0 (fun k => nth k gm vz) (fun k => nth k gs mz)
      (fun k i j => xa k i j + h * part_a d u k i j) (fun k i => xb k i + h * part_b n d u k i)) 0
    (Rsum (length g) (fun q => entry g q * u q)
     - dt * Rsum n (fun k => dot_below d (es (xa k) (xb k) (xm k) (xs k)) (dsn d dt C s0 xa (part_a d u) k))).
Proof.
  intros Hsy.
  destruct (cmp_n d energy P dt e ea es eb em EO n C s0 m0 mu tau Rn y t k0 Hn Hs0 HC Hrs Hrp Hy Ht Hnd Hst Hk0 x Hx (fun _ => 0) s)
    as (g & gm & gs & Ri & F & HRi & HRis & EG & LG & _ & Gm & Gz & _ & _).
  exists g, gm, gs, Ri. split; [exact HRi|]. split; [exact EG|]. split; [exact LG|]. split; [exact Gm|]. split; [exact Gz|].
  intros u.
  destruct (cmp_n d energy P dt e ea es eb em EO n C s0 m0 mu tau Rn y t k0 Hn Hs0 HC Hrs Hrp Hy Ht Hnd Hst Hk0 x Hx u s)
    as (g' & gm' & gs' & Ri' & F' & HRi' & HRis' & EG' & LG' & _ & Gm' & Gz' & _ & EP).
  assert (g' = g) by congruence. subst g'.
  pose proof (rect_dn d energy P dt e ea es eb em EO n C s0 m0 Hs0 HC x u (fun k => nth k gm vz) (fun k => nth k gs mz)) as DR.
  eapply d_eq; [exact DR|]. rewrite EP.
  pose proof (sym_dtm d dt m0 xa (part_a d u) xb (part_b n d u) n Hsy) as Q.
  assert (RI : rmeq d Ri' Ri). { intros i j Hi Hj. exact (inv_same d Rn Ri' Ri HRi' HRi i j Hi Hj). }
  assert (GE : forall k, eqv d (nth k gm' vz) (nth k gm vz) /\ eqm d (nth k gs' mz) (nth k gs mz)).
  { intros k. destruct (in_dec Nat.eq_dec k t) as [I|I].
    - destruct (In_nth t k O I) as (j & Hj & <-). destruct (Gm j Hj) as [V1 V2]. destruct (Gm' j Hj) as [V1' V2']. split.
      + intros i Hi. rewrite (V1 i Hi), (V1' i Hi). f_equal. apply Rsum_ext. intros l Hl. rewrite (RI i l Hi Hl). reflexivity.
      + intros i l Hi Hl. rewrite (V2 i l Hi Hl), (V2' i l Hi Hl), (RI i l Hi Hl). reflexivity.
    - destruct (Gz k I) as [V1 V2]. destruct (Gz' k I) as [V1' V2'].
      split; [intros i Hi; rewrite V1, V1'; reflexivity|intros i l Hi Hl; rewrite V2, V2'; reflexivity]. }
  assert (A1 : Rsum n (fun k => den d dt ea es eb em n C s0 m0 x u k
        + dot d (em (xa k) (xb k) (xm k) (xs k)) (fun i => dtm d dt m0 xa (part_a d u) xb (part_b n d u) k i - dmn d dt m0 xa (part_a d u) xb (part_b n d u) k i)
        + dot_below d (es (xa k) (xb k) (xm k) (xs k)) (dsn d dt C s0 xa (part_a d u) k)) =
     Rsum n (den d dt ea es eb em n C s0 m0 x u) + Rsum n (fun k => dot_below d (es (xa k) (xb k) (xm k) (xs k)) (dsn d dt C s0 xa (part_a d u) k))).
  { rewrite <- Rsum_plus. apply Rsum_ext. intros k Hk. rewrite (dot_z d _ (fun i => _)) by (intros i Hi; rewrite (Q k ltac:(lia) i Hi); ring). ring. }
  rewrite A1.
  assert (A2 : Rsum (n - 1) (fun k => dot d (nth k gm' vz) (dtm d dt m0 xa (part_a d u) xb (part_b n d u) (k + 1)%nat)
        + dots d (nth k gs' mz) (dsn d dt C s0 xa (part_a d u) (k + 1)%nat)) =
     Rsum (n - 1) (fun k => dot d (nth k gm vz) (dmn d dt m0 xa (part_a d u) xb (part_b n d u) (k + 1)%nat)
        + dots d (nth k gs mz) (dsn d dt C s0 xa (part_a d u) (k + 1)%nat))).
  { apply Rsum_ext. intros k Hk. destruct (GE k) as [G1 G2]. f_equal.
    - apply dot_ext; [exact G1|]. apply Q. lia.
    - apply dots_ext; [exact G2|]. repeat intro; reflexivity. }
  rewrite A2. ring.
Qed.
End Cons.

(** the single entries of the last time point *)
Lemma unit_pair (g : list R) q : (q < length g)%nat -> Rsum (length g) (fun p => entry g p * unit_at q p) = entry g q.
Proof.
  intros Hq. rewrite (Rsum_single (length g) _ q Hq); unfold unit_at; [rewrite Nat.eqb_refl; ring|].
  intros j Hj Hne. apply Nat.eqb_neq in Hne. rewrite Hne. ring.
Qed.

Lemma e63_mis th (P : nat -> nat -> R) A b m S : (forall i j, (i < 3)%nat -> (j < 3)%nat -> i <> j -> P i j = 0) -> symm 3 S ->
  E_mvn 3 m S (mismatch_n 3 P (f63 (th 0%nat) (th 1%nat) (th 2%nat)) (glin 3 A b)) (de63 th (fun i => P i i) A b m S).
Proof.
  intros HP HS.
  apply (E_mvn_ext 3 m S (fun x => 1 / 2 * Rsum 3 (fun i => P i i * mis63 th A b x i ^ 2))).
  { intros x. unfold mismatch_n. f_equal. apply Rsum_ext. intros i Hi. symmetry.
    rewrite (Rsum_single 3 _ i Hi) by (intros j Hj Hne; rewrite (HP i j) by auto; ring). unfold mis63. ring. }
  unfold de63, e63. apply E_mvn_scal. cbn [Rsum].
  repeat apply E_mvn_plus; try apply E_mvn_zero;
      apply (E_mvn_scal 3 _ _ (fun x => mis63 th A b x _ ^ 2)); apply Efg_E; auto.
Qed.

Lemma kl0_commute d (mu : nat -> R) tau (m0 : nat -> R) s0 : symm d s0 -> posdef d s0 -> symm d tau -> posdef d tau -> commute d s0 tau ->
  exists k0, kl0_nd (K:=RNum) ln d mu tau m0 s0 = Ok k0.
Proof. intros. destruct (kl0_nd_partial d mu tau m0 s0) as (k & Ti & _ & _ & E); try assumption. eexists. exact E. Qed.

Section L63.
Context (n : nat) (dt : R) (th : nat -> R) (P C s0 : nat -> nat -> R) (m0 mu : nat -> R) (tau Rn : nat -> nat -> R)
  (y : list (nat -> R)) (t : list nat) (x : list R).
Context (HP : diag_only 3 P) (W : well_posed n 3 C s0 tau Rn y t x).
Notation EE := (vgpn (K:=RNum) ln PI (fun a b m s o => Ok (l63_energy (K:=RNum) th P dt a b m s o)) Euler n 3 dt C P m0 s0 mu tau y t Rn (meye (K:=RNum))).
Notation w := (fun i => P i i).
Notation xa := (part_a 3 (entry x)).
Notation xb := (part_b n 3 (entry x)).
Notation am u := (fun h k i j => xa k i j + h * part_a 3 u k i j).
Notation bm u := (fun h k i => xb k i + h * part_b n 3 u k i).

Lemma l63_comparison s u :
  exists (g : list R) (gm : nat -> nat -> R) (gs : nat -> nat -> nat -> R) (Ri : nat -> nat -> R) (F : R -> R) (de : nat -> R) (dm : nat -> nat -> R) (ds : nat -> nat -> nat -> R),
  is_inv 3 Rn Ri /\ fst (gradient EE x true s) = Ok g /\ length g = length x /\
  (forall h s', fst (free_energy EE (moved x u h) s') = Ok (F h)) /\
  obs_slopes 3 Ri y t (path_mn 3 dt xa xb m0) gm gs /\
  (forall k i, is_derive (fun h => path_mn 3 dt (am u h) (bm u h) m0 k i) 0 (dm k i)) /\
  (forall k i j, is_derive (fun h => path_sn 3 dt (am u h) C s0 k i j) 0 (ds k i j)) /\
  (forall k, is_derive (fun h => de63 th w (am u h k) (bm u h k) (path_mn 3 dt (am u h) (bm u h) m0 k) (path_sn 3 dt (am u h) C s0 k)) 0 (de k)) /\
  is_derive F 0 (trap n de dt + Rsum (length t) (fun j => dot 3 (gm (nth j t O)) (dm (nth j t O)))
     + 1 / 2 * Rsum (length t) (fun j => Rsum 3 (fun i => Ri i i * ds j i i))) /\
  Rsum (length g) (fun q => entry g q * u q) =
    dt * Rsum n (fun k => de k
       + dot 3 (em63 th w (xa k) (xb k) (path_mn 3 dt xa xb m0 k) (path_sn 3 dt xa C s0 k))
               (fun i => transposed_dm 3 dt xa (path_mn 3 dt xa xb m0) (part_a 3 u) (part_b n 3 u) k i - dm k i)
       + dot_below 3 (es63 th w (xa k) (xb k) (path_mn 3 dt xa xb m0 k) (path_sn 3 dt xa C s0 k)) (ds k))
    + Rsum (n - 1) (fun k => dot 3 (gm k) (transposed_dm 3 dt xa (path_mn 3 dt xa xb m0) (part_a 3 u) (part_b n 3 u) (k + 1))
       + dots 3 (gs k) (ds (k + 1)%nat)).
Proof.
  destruct W as (Hn & HC & Hs0 & Hs0p & Htau & Htaup & Hcm & Hrs & Hrp & Hy & Ht & Hnd & Hst & Hx).
  destruct (kl0_commute 3 mu tau m0 s0 Hs0 Hs0p Htau Htaup Hcm) as [k0 Hk0].
  pose proof (l63_okn th P dt HP) as EO.
  destruct (cmp_n 3 _ P dt _ _ _ _ _ EO n C s0 m0 mu tau Rn y t k0 Hn Hs0 HC Hrs Hrp Hy Ht Hnd Hst Hk0 x Hx u s)
    as (g & gm & gs & Ri & F & HRi & HRis & EG & LG & EF & Gm & Gz & DF & EP).
  exists g, (fun k => nth k gm vz), (fun k => nth k gs mz), Ri, F, (den 3 dt (ea63 th w) (es63 th w) (eb63 th w) (em63 th w) n C s0 m0 x u),
    (dmn 3 dt m0 xa (part_a 3 u) xb (part_b n 3 u)), (dsn 3 dt C s0 xa (part_a 3 u)).
  split; [exact HRi|]. split; [exact EG|]. split; [rewrite LG, Hx; reflexivity|]. split; [exact EF|].
  split. { split; [exact Gm|]. intros k Hk. destruct (Gz k Hk) as [Z1 Z2]. split; intros; [rewrite Z1|rewrite Z2]; reflexivity. }
  split. { intros k i. exact (mn_d 3 dt m0 xa (part_a 3 u) xb (part_b n 3 u) k i). }
  split. { intros k i j. exact (sn_d 3 dt C s0 xa (part_a 3 u) k i j). }
  split. { intros k. exact (den_d 3 _ P dt _ _ _ _ _ EO n C s0 m0 Hs0 HC x u k). }
  split; [exact DF|exact EP].
Qed.

Lemma l63_rect s : (forall k, (k < n)%nat -> symm 3 (xa k)) ->
  exists (g : list R) (gm : nat -> nat -> R) (gs : nat -> nat -> nat -> R) (Ri : nat -> nat -> R),
  is_inv 3 Rn Ri /\ fst (gradient EE x true s) = Ok g /\ length g = length x /\
  obs_slopes 3 Ri y t (path_mn 3 dt xa xb m0) gm gs /\
  forall u, exists ds : nat -> nat -> nat -> R,
  (forall k i j, is_derive (fun h => path_sn 3 dt (am u h) C s0 k i j) 0 (ds k i j)) /\
  ((forall k, (k < n)%nat -> eqm 3 (part_a 3 u k) mz) -> forall k, (k < n)%nat -> eqm 3 (ds k) mz) /\
  is_derive (fun h => rect_objective_n 3 (de63 th w) n dt C m0 s0 gm gs (am u h) (bm u h)) 0
    (Rsum (length g) (fun q => entry g q * u q)
     - dt * Rsum n (fun k => dot_below 3 (es63 th w (xa k) (xb k) (path_mn 3 dt xa xb m0 k) (path_sn 3 dt xa C s0 k)) (ds k))).
Proof.
  destruct W as (Hn & HC & Hs0 & Hs0p & Htau & Htaup & Hcm & Hrs & Hrp & Hy & Ht & Hnd & Hst & Hx).
  destruct (kl0_commute 3 mu tau m0 s0 Hs0 Hs0p Htau Htaup Hcm) as [k0 Hk0].
  pose proof (l63_okn th P dt HP) as EO. intros Hsy.
  destruct (rect_sym 3 _ P dt _ _ _ _ _ EO n C s0 m0 mu tau Rn y t k0 Hn Hs0 HC Hrs Hrp Hy Ht Hnd Hst Hk0 x Hx s Hsy)
    as (g & gm & gs & Ri & HRi & EG & LG & Gm & Gz & D).
  exists g, (fun k => nth k gm vz), (fun k => nth k gs mz), Ri.
  split; [exact HRi|]. split; [exact EG|]. split; [rewrite LG, Hx; reflexivity|].
  split. { split; [exact Gm|]. intros k Hk. destruct (Gz k Hk) as [Z1 Z2]. split; intros; [rewrite Z1|rewrite Z2]; reflexivity. }
  intros u. exists (dsn 3 dt C s0 xa (part_a 3 u)).
  split. { intros k i j. exact (sn_d 3 dt C s0 xa (part_a 3 u) k i j). }
  split; [|exact (D u)].
  intros Hu k Hk. exact (ds_zero 3 dt C s0 xa (part_a 3 u) n Hu k ltac:(lia)).
Qed.

Lemma l63_last s q : (2 <= n)%nat ->
  ((n - 1) * 9 <= q /\ q < n * 9 \/ n * 9 + (n - 1) * 3 <= q /\ q < n * 12)%nat ->
  exists (g : list R) (F : R -> R), fst (gradient EE x true s) = Ok g /\
  (forall h s', fst (free_energy EE (moved x (unit_at q) h) s') = Ok (F h)) /\
  is_derive F 0 (entry g q / 2) /\
  entry g q = dt * (dots 3 (ea63 th w (xa (n - 1)%nat) (xb (n - 1)%nat) (path_mn 3 dt xa xb m0 (n - 1)) (path_sn 3 dt xa C s0 (n - 1))) (part_a 3 (unit_at q) (n - 1))
    + dot 3 (eb63 th w (xa (n - 1)%nat) (xb (n - 1)%nat) (path_mn 3 dt xa xb m0 (n - 1)) (path_sn 3 dt xa C s0 (n - 1))) (part_b n 3 (unit_at q) (n - 1))).
Proof.
  destruct W as (Hn & HC & Hs0 & Hs0p & Htau & Htaup & Hcm & Hrs & Hrp & Hy & Ht & Hnd & Hst & Hx).
  destruct (kl0_commute 3 mu tau m0 s0 Hs0 Hs0p Htau Htaup Hcm) as [k0 Hk0].
  pose proof (l63_okn th P dt HP) as EO. intros H2 Hq.
  assert (Hu : forall k, (k < n - 1)%nat -> eqm 3 (part_a 3 (unit_at q) k) mz /\ eqv 3 (part_b n 3 (unit_at q) k) vz).
  { intros k Hk. split.
    - intros i j Hi Hj. unfold part_a, unit_at. destruct (Nat.eqb_spec ((k * 3 + i) * 3 + j) q) as [E|E]; [exfalso; nia|reflexivity].
    - intros i Hi. unfold part_b, unit_at. destruct (Nat.eqb_spec (n * 3 * 3 + k * 3 + i) q) as [E|E]; [exfalso; nia|reflexivity]. }
  destruct (last_block 3 _ P dt _ _ _ _ _ EO n C s0 m0 mu tau Rn y t k0 Hn Hs0 HC Hrs Hrp Hy Ht Hnd Hst Hk0 x Hx (unit_at q) s H2 Hu)
    as (g & F & EG & LG & EF & DF & EP).
  exists g, F. split; [exact EG|]. split; [exact EF|]. rewrite unit_pair in EP by (rewrite LG; nia).
  rewrite EP. split; [exact DF|reflexivity].
Qed.
End L63.

Lemma energy63_ok th P : diag_only 3 P ->
  energy63 th P (de63 th (fun i => P i i)) (em63 th (fun i => P i i)) (es63 th (fun i => P i i)).
Proof.
  intros HP. split; [|split].
  - intros. apply e63_mis; assumption.
  - intros. apply e63_dm. assumption.
  - intros. apply e63_ds; assumption.
Qed.

(** the witnesses *)
Lemma x0_ok b : well_posed 2 3 ident ident ident ident [] [] (x0 b).
Proof.
  assert (Hs : symm 3 ident) by (intros i j _ _; unfold ident; rewrite Nat.eqb_sym; reflexivity).
  assert (Hp : posdef 3 ident) by apply P_Prior.ident_posdef.
  repeat (split; [first [exact Hs|exact Hp|lia|apply NoDup_nil|apply Sorted_nil|constructor|reflexivity|intros i j _ _; reflexivity]|]).
  reflexivity.
Qed.
Lemma ident_diag : diag_only 3 ident.
Proof. intros i j _ _ Hne. unfold ident. apply Nat.eqb_neq in Hne. rewrite Hne. reflexivity. Qed.

Lemma x0_last s : exists (g : list R) (F : R -> R),
  fst (gradient (vgpn (K:=RNum) ln PI (fun a b m s o => Ok (l63_energy (K:=RNum) (fun _ => 1) ident 1 a b m s o)) Euler 2 3 1 ident ident (fun _ => 0) ident (fun _ => 0) ident [] [] ident (meye (K:=RNum))) (x0 1) true s) = Ok g /\
  (forall h s', fst (free_energy (vgpn (K:=RNum) ln PI (fun a b m s o => Ok (l63_energy (K:=RNum) (fun _ => 1) ident 1 a b m s o)) Euler 2 3 1 ident ident (fun _ => 0) ident (fun _ => 0) ident [] [] ident (meye (K:=RNum)))
     (moved (x0 1) (unit_at 21) h) s') = Ok (F h)) /\ is_derive F 0 (1 / 2) /\ entry g 21 = 1.
Proof.
  destruct (l63_last 2 1 (fun _ => 1) ident ident ident (fun _ => 0) (fun _ => 0) ident ident [] [] (x0 1) ident_diag (x0_ok 1) s 21 ltac:(lia) ltac:(right; lia))
    as (g & F & E1 & E2 & E3 & E4).
  exists g, F. split; [exact E1|]. split; [exact E2|].
  assert (G : entry g 21 = 1).
  { rewrite E4. change (2 - 1)%nat with 1%nat.
    rewrite (dots_z 3 _ (part_a 3 (unit_at 21) 1)) by (intros i j Hi Hj; case3 i; case3 j; reflexivity).
    unfold dot. cbn [Rsum]. unfold part_b, unit_at. cbn [Nat.mul Nat.add Nat.eqb].
    unfold eb63, l63_Ef. cbn [Rsum path_mn]. unfold part_a, part_b, entry, x0, ident. cbn [Nat.mul Nat.add Nat.eqb repeat app nth]. l63unf. rnum. ring. }
  split; [|exact G]. rewrite <- G. exact E3.
Qed.

Lemma x0_cov s : exists (g : list R) D,
  fst (gradient (vgpn (K:=RNum) ln PI (fun a b m s o => Ok (l63_energy (K:=RNum) th100 ident 1 a b m s o)) Euler 2 3 1 ident ident (fun _ => 0) ident (fun _ => 0) ident [] [] ident (meye (K:=RNum))) (x0 0) true s) = Ok g /\
  is_derive (fun h => rect_objective_n 3 (de63 th100 (fun i => ident i i)) 2 1 ident (fun _ => 0) ident (fun _ _ => 0) (fun _ _ _ => 0)
      (fun k i j => part_a 3 (entry (x0 0)) k i j + h * part_a 3 (unit_at 1) k i j) (fun k i => part_b 2 3 (entry (x0 0)) k i + h * part_b 2 3 (unit_at 1) k i)) 0 D /\ entry g 1 = D + 1.
Proof.
  destruct (l63_rect 2 1 th100 ident ident ident (fun _ => 0) (fun _ => 0) ident ident [] [] (x0 0) ident_diag (x0_ok 0) s)
    as (g & gm & gs & Ri & E1 & E2 & E3 & [_ E4] & E5).
  { intros k Hk i j Hi Hj. destruct k as [|[|k]]; [| |lia]; case3 i; case3 j; reflexivity. }
  assert (Zm : gm = fun _ _ => 0) by (apply functional_extensionality; intros k; apply functional_extensionality; intros i; apply (proj1 (E4 k (@in_nil _ k)) i)).
  assert (Zs : gs = fun _ _ _ => 0) by (apply functional_extensionality; intros k; apply functional_extensionality; intros i; apply functional_extensionality; intros j;
    apply (proj2 (E4 k (@in_nil _ k)) i j)).
  subst gm gs. destruct (E5 (unit_at 1)) as (ds & D1 & _ & D3).
  exists g, (entry g 1 - 1). split; [exact E2|]. split; [|ring].
  rewrite unit_pair in D3 by (rewrite E3; cbn; lia).
  set (es1 := es63 th100 (fun i => ident i i)) in *.
  assert (Q : forall k i j, ds k i j = dsn 3 1 ident ident (part_a 3 (entry (x0 0))) (part_a 3 (unit_at 1)) k i j).
  { intros k i j. rewrite <- (is_derive_unique _ _ _ (D1 k i j)). apply is_derive_unique, sn_d. }
  assert (V : 1 * Rsum 2 (fun k => dot_below 3 (es1 (part_a 3 (entry (x0 0)) k) (part_b 2 3 (entry (x0 0)) k)
      (path_mn 3 1 (part_a 3 (entry (x0 0))) (part_b 2 3 (entry (x0 0))) (fun _ => 0) k)
      (path_sn 3 1 (part_a 3 (entry (x0 0))) ident ident k)) (ds k)) = 1).
  { cbn [Rsum]. rewrite (below_z 3 _ (ds 0%nat)) by (intros i j Hi Hj; rewrite Q; reflexivity).
    assert (Ex : eqm 3 (es1 (part_a 3 (entry (x0 0)) 1) (part_b 2 3 (entry (x0 0)) 1)
      (path_mn 3 1 (part_a 3 (entry (x0 0))) (part_b 2 3 (entry (x0 0))) (fun _ => 0) 1)
      (path_sn 3 1 (part_a 3 (entry (x0 0))) ident ident 1)) (es1 mz vz vz (fun i j => 2 * ident i j))).
    { apply ext63.
      - intros i j Hi Hj. case3 i; case3 j; reflexivity.
      - intros i Hi. case3 i; reflexivity.
      - intros i Hi. cbn [path_mn Rsum]. case3 i; unfold part_a, part_b, entry, x0; cbn [Nat.mul Nat.add repeat app nth]; ring.
      - intros i j Hi Hj. cbn [path_sn Rsum]. case3 i; case3 j; unfold part_a, entry, x0, ident; cbn [Nat.mul Nat.add Nat.eqb repeat app nth]; ring. }
    unfold dot_below. cbn [Rsum]. rewrite !(Ex _ _) by lia. rewrite !Q. cbn [dsn Rsum]. unfold sn. cbn [path_sn].
    unfold es1, es63. l63unf. unfold part_a, unit_at, ident, entry, x0, th100. cbn [Nat.mul Nat.add Nat.eqb repeat app nth]. rnum. field. }
  rewrite V in D3. exact D3.
Qed.
