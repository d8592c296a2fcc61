(** * Lorenz 63 with the methods of Heun and RungeKutta2: arguments below every number. *)
From Coq Require Import ZArith List Bool Arith Reals Lra Lia Sorted.
From Coquelicot Require Import Coquelicot.
From Verif Require Import Num Arr ArrFacts M_LinAlg M_Utils M_Ode M_Moments M_Sde1 M_L63 M_Prior M_Like M_VarGP
  Spec_Utils Spec_Det Spec_Prior Spec_Like Spec_VarGP Spec_GradN
  P_Ode P_Trapz P_RMat P_Det P_Like P_VarGP P_Prior P_L63 P_GradN P_GradN2 P_GradN3 P_GradL63 P_GradL63T P_Spectral P_BoundN P_LimitN2 P_LimitN3.
Import ListNotations.
Local Open Scope R_scope.

Lemma cubic_sink c0 c1 c2 c3 bound : c3 < 0 -> exists h, c0 + c1 * h + c2 * h ^ 2 + c3 * h ^ 3 < bound.
Proof.
  intros Hc. set (a := - c3). assert (Ha : 0 < a) by (unfold a; lra).
  set (q := (Rabs c0 + Rabs c1 + Rabs c2 + Rabs bound) / a). exists (1 + q).
  assert (E : a * q = Rabs c0 + Rabs c1 + Rabs c2 + Rabs bound) by (unfold q; field; lra).
  pose proof (Rabs_pos c0). pose proof (Rabs_pos c1). pose proof (Rabs_pos c2). pose proof (Rabs_pos bound).
  assert (Hq : 0 <= q) by (apply Rmult_le_pos; [lra|left; apply Rinv_0_lt_compat, Ha]).
  pose proof (Rle_abs c0). pose proof (Rle_abs c1). pose proof (Rle_abs c2). pose proof (Rle_abs (- bound)) as Hb. rewrite Rabs_Ropp in Hb.
  replace c3 with (- a) by (unfold a; ring). set (h := 1 + q) in *. assert (Hh : 1 <= h) by (unfold h; lra).
  assert (Eh : a * h = a + Rabs c0 + Rabs c1 + Rabs c2 + Rabs bound) by (unfold h; nra).
  assert (Hh2 : h <= h ^ 2) by nra. assert (Hh1 : 1 <= h ^ 2) by nra.
  replace (- a * h ^ 3) with (- (a * h) * h ^ 2) by ring. rewrite Eh.
  assert (Rabs c0 <= Rabs c0 * h ^ 2) by nra. assert (c1 * h <= Rabs c1 * h ^ 2) by nra. assert (c2 * h ^ 2 <= Rabs c2 * h ^ 2) by nra.
  assert (Rabs bound <= Rabs bound * h ^ 2) by nra. assert (0 < a * h ^ 2) by nra. nra.
Qed.
Lemma cubic_sink' c0 c1 c2 c3 bound : c3 <> 0 -> exists h, c0 + c1 * h + c2 * h ^ 2 + c3 * h ^ 3 < bound.
Proof.
  intros Hc. destruct (Rlt_le_dec c3 0) as [H|H]; [apply cubic_sink; exact H|].
  destruct (cubic_sink c0 (- c1) c2 (- c3) bound) as [h Hh]; [lra|]. exists (- h). eapply Rle_lt_trans; [|exact Hh]. right. ring.
Qed.
Lemma de63_cubic th w m S T : exists c0 c1 c2, forall h,
  de63 th w (fun i j => if Nat.eqb i 0 && Nat.eqb j 0 then h else 0) (fun i => if Nat.eqb i 0 then h * m 0%nat else 0) m (fun i j => S i j - h * T i j)
  = c0 + c1 * h + c2 * h ^ 2 + - (1 / 2) * w 0%nat * T 0%nat 0%nat * h ^ 3.
Proof.
  set (e := fun h => de63 th w (fun i j => if Nat.eqb i 0 && Nat.eqb j 0 then h else 0) (fun i => if Nat.eqb i 0 then h * m 0%nat else 0) m (fun i j => S i j - h * T i j)
    + 1 / 2 * w 0%nat * T 0%nat 0%nat * h ^ 3).
  exists (e 0), (1 / 2 * (e 1 - e (-1))), (1 / 2 * (e 1 + e (-1)) - e 0). intros k. unfold e, de63, e63. cbn [Rsum]. l63unf. cbn [sumn Nat.eqb andb]. rnum. field.
Qed.

Ltac rq := match goal with |- @eq _ ?a ?b => change (@eq R a b) end.
Section Sink.
Context (N : nat) (dt : R) (th : nat -> R) (P C s0 : nat -> nat -> R) (m0 mu : nat -> R) (tau Rn : nat -> nat -> R)
  (y : list (nat -> R)) (t : list nat).
Notation n := (N + 2)%nat.
Definition fs (s a : nat -> nat -> R) : nat -> nat -> R := fun i j => - Rsum 3 (fun k => a i k * s k j) - Rsum 3 (fun k => s i k * a j k) + C i j.
Definition fm (m : nat -> R) (a : nat -> nat -> R) (b : nat -> R) : nat -> R := fun i => - Rsum 3 (fun k => a i k * m k) + b i.
Definition two (c : R) (u v : nat -> R) : nat -> R := fun i => u i + c * v i.
Definition twos (c : R) (u v : nat -> nat -> R) : nat -> nat -> R := fun i j => u i j + c * v i j.
Definition sumv (u v : nat -> R) : nat -> R := fun i => u i + v i.
Definition sums (u v : nat -> nat -> R) : nat -> nat -> R := fun i j => u i j + v i j.
Lemma heun_step A B k (m : nat -> R) (s : nat -> nat -> R) :
  let a := nth k A mz in let b := nth k B vz in let a' := nth (k + 1) A mz in let b' := nth (k + 1) B vz in
  fst (fwd_body (sysn RNum 3) Heun dt A B C k m s) = two (1 / 2 * dt) m (sumv (fm m a b) (fm (two dt m (fm m a b)) a' b')) /\
  snd (fwd_body (sysn RNum 3) Heun dt A B C k m s) = twos (1 / 2 * dt) s (sums (fs s a) (fs (twos dt s (fs s a)) a')).
Proof. split; reflexivity. Qed.
Lemma rk2_step A B k (m : nat -> R) (s : nat -> nat -> R) : (k + 1 < length A)%nat -> (k + 1 < length B)%nat ->
  let a := nth k A mz in let b := nth k B vz in let a' := nth (k + 1) A mz in let b' := nth (k + 1) B vz in
  let am := fun i j => 1 / 2 * sums a a' i j in let bm := fun i => 1 / 2 * sumv b b' i in
  fst (fwd_body (sysn RNum 3) RK2 dt A B C k m s) = two dt m (fm (two (1 / 2 * dt) m (fm m a b)) am bm) /\
  snd (fwd_body (sysn RNum 3) RK2 dt A B C k m s) = twos dt s (fs (twos (1 / 2 * dt) s (fs s s)) am).
Proof.
  intros H1 H2 a b a' b' am bm.
  assert (EA : M_Ode.ga (sysn RNum 3) (mids (V:=VS (sysn RNum 3)) A) k = am) by exact (nth_mids (V:=VS (sysn RNum 3)) A k mz H1).
  assert (EB : M_Ode.gm (sysn RNum 3) (mids (V:=VM (sysn RNum 3)) B) k = bm) by exact (nth_mids (V:=VM (sysn RNum 3)) B k vz H2).
  cbn [fwd_body]. unfold rk2_fwd_body. cbv zeta. cbn [fst snd]. rewrite EA, EB. split; reflexivity.
Qed.
Definition ha (h : R) : nat -> nat -> nat -> R := fun k i j => if Nat.eqb k (N + 1) then (if Nat.eqb i 0 && Nat.eqb j 0 then h else 0) else 0.
Definition hb (h : R) : nat -> nat -> R := fun k i => if Nat.eqb k (N + 1) then (if Nat.eqb i 0 then h * m0 0%nat else 0) else 0.
Definition sk (k : nat) : nat -> nat -> R := fun i j => s0 i j + INR k * dt * C i j.
(** the covariance to which the last parameters are applied *)
Definition qq (mtd : method) : nat -> nat -> R := fun i j =>
  match mtd with
  | RK2 => sk N i j + dt / 2 * (C i j - Rsum 3 (fun k => sk N i k * sk N k j) - Rsum 3 (fun k => sk N i k * sk N j k))
  | _ => sk (N + 1) i j
  end.
Definition tt_ (mtd : method) (k : nat) : nat -> nat -> R := fun i j =>
  if Nat.eqb k (N + 1) then dt / 2 * ((if Nat.eqb i 0 then qq mtd 0%nat j else 0) + (if Nat.eqb j 0 then qq mtd i 0%nat else 0)) else 0.
Definition hs (mtd : method) (h : R) (k : nat) : nat -> nat -> R := fun i j => sk k i j - h * tt_ mtd k i j.
Lemma three i : (i < 3)%nat -> i = 0%nat \/ i = 1%nat \/ i = 2%nat. Proof. lia. Qed.
Lemma mom63 mtd h A B mt st : mtd = Heun \/ mtd = RK2 -> length A = n -> length B = n ->
  (forall k, (k < n)%nat -> eqm 3 (nth k A mz) (ha h k)) -> (forall k, (k < n)%nat -> eqv 3 (nth k B vz) (hb h k)) ->
  solve_fwd (sysn RNum 3) mtd dt A B m0 s0 C = Ok (mt, st) ->
  forall k, (k < n)%nat -> eqv 3 (nth k mt vz) m0 /\ eqm 3 (nth k st mz) (hs mtd h k).
Proof.
  intros Hm LA LB HA HB Hf.
  assert (St : forall k, (k + 1 < n)%nat ->
    nth (k + 1) mt vz = fst (fwd_body (sysn RNum 3) mtd dt A B C k (nth k mt vz) (nth k st mz)) /\
    nth (k + 1) st mz = snd (fwd_body (sysn RNum 3) mtd dt A B C k (nth k mt vz) (nth k st mz))).
  { intros k Hk. assert (Hk' : (k + 1 < length B)%nat) by lia.
    pose proof (solve_fwd_step (sysn RNum 3) mtd dt A B m0 s0 C mt st k Hf Hk') as E. split; [exact (f_equal fst E)|exact (f_equal snd E)]. }
  destruct (solve_fwd_ok (sysn RNum 3) mtd dt A B m0 s0 C mt st Hf) as (H0 & _ & _ & T0). specialize (T0 O H0). cbn [traj] in T0.
  assert (Z1 : nth 0 mt vz = m0) by exact (f_equal fst T0). assert (Z2 : nth 0 st mz = s0) by exact (f_equal snd T0). clear T0 H0.
  induction k as [|k IH]; intros Hk.
  - rewrite Z1, Z2. split; [intros i _; reflexivity|]. intros i j _ _. unfold hs, sk, tt_. destruct (Nat.eqb_spec 0 (N + 1)); [lia|]. cbn [INR]. rq. ring.
  - destruct (IH ltac:(lia)) as [IM IS]. destruct (St k ltac:(lia)) as [E1 E2]. replace (S k) with (k + 1)%nat by lia. rewrite E1, E2. clear E1 E2 IH St.
    pose proof (HA k ltac:(lia)) as A1. pose proof (HA (k + 1)%nat ltac:(lia)) as A2. pose proof (HB k ltac:(lia)) as B1. pose proof (HB (k + 1)%nat ltac:(lia)) as B2.
    assert (A1' : forall i j, (i < 3)%nat -> (j < 3)%nat -> nth k A mz i j = 0).
    { intros i j Hi Hj. rewrite (A1 i j Hi Hj). unfold ha. destruct (Nat.eqb_spec k (N + 1)); [lia|reflexivity]. }
    assert (B1' : forall i, (i < 3)%nat -> nth k B vz i = 0).
    { intros i Hi. rewrite (B1 i Hi). unfold hb. destruct (Nat.eqb_spec k (N + 1)); [lia|reflexivity]. }
    assert (IS' : forall i j, (i < 3)%nat -> (j < 3)%nat -> nth k st mz i j = sk k i j).
    { intros i j Hi Hj. rewrite (IS i j Hi Hj). unfold hs, tt_. destruct (Nat.eqb_spec k (N + 1)); [lia|rq; ring]. }
    clear A1 B1 IS. unfold eqm, eqv in *.
    assert (Sk : forall i j, sk (k + 1) i j = sk k i j + dt * C i j) by (intros i j; unfold sk; rewrite plus_INR; cbn [INR]; ring).
    destruct Hm as [-> | ->].
    + destruct (heun_step A B k (nth k mt vz) (nth k st mz)) as [-> ->]. split.
      * intros i Hi. unfold two, sumv, fm. cbn [Rsum]. rewrite !A1', !A2, !B1', !B2, !IM by lia. unfold ha, hb.
        destruct (Nat.eqb (k + 1) (N + 1)); destruct (three i Hi) as [->|[->| ->]]; cbn [Nat.eqb andb]; rq; ring.
      * intros i j Hi Hj. unfold twos, sums, fs. cbn [Rsum]. rewrite !A1', !A2, !IS' by lia. unfold ha, hs, tt_, qq. rewrite Sk.
        destruct (Nat.eqb_spec (k + 1) (N + 1)) as [Q|Q]; [rewrite <- Q, !Sk|];
          destruct (three i Hi) as [->|[->| ->]]; destruct (three j Hj) as [->|[->| ->]]; cbn [Nat.eqb andb]; rq; field.
    + destruct (rk2_step A B k (nth k mt vz) (nth k st mz)) as [-> ->]; [lia|lia|]. split.
      * intros i Hi. unfold two, sumv, sums, fm. cbn [Rsum]. rewrite !A1', !A2, !B1', !B2, !IM by lia. unfold ha, hb.
        destruct (Nat.eqb (k + 1) (N + 1)); destruct (three i Hi) as [->|[->| ->]]; cbn [Nat.eqb andb]; rq; field.
      * intros i j Hi Hj. unfold twos, sums, fs. cbn [Rsum]. rewrite !A1', !A2, !IS' by lia. unfold ha, hs, tt_, qq. rewrite Sk.
        destruct (Nat.eqb_spec (k + 1) (N + 1)) as [Q|Q]; [assert (QN : N = k) by lia; rewrite QN; cbn [Rsum]|];
          destruct (three i Hi) as [->|[->| ->]]; destruct (three j Hj) as [->|[->| ->]]; cbn [Nat.eqb andb]; rq; field.
Qed.
Context (HP : diag_only 3 P) (HP0 : 0 < P 0%nat 0%nat) (Hdt : 0 < dt).
Context (Hs0 : symm 3 s0) (Hs0p : posdef 3 s0) (Htau : symm 3 tau) (Htaup : posdef 3 tau) (Hcm : commute 3 s0 tau)
  (Hrs : symm 3 Rn) (Hrp : posdef 3 Rn) (Hy : length y = length t) (Ht : List.Forall (fun i => (i < n)%nat) t) (Hnd : NoDup t) (Hst : Sorted le t).
Notation w := (fun i => P i i).
Lemma sink63 mtd bound : mtd = Heun \/ mtd = RK2 -> qq mtd 0%nat 0%nat <> 0 ->
  let EE := vgpn (K:=RNum) ln PI (fun a b m s o => Ok (l63_energy (K:=RNum) th P dt a b m s o)) mtd n 3 dt C P m0 s0 mu tau y t Rn (meye (K:=RNum)) in
  exists x v, length x = (n * 3 * (3 + 1))%nat /\ (forall s, fst (free_energy EE x s) = Ok v) /\ v < bound.
Proof.
  intros Hm Hq EE.
  destruct (kl0_commute 3 mu tau m0 s0 Hs0 Hs0p Htau Htaup Hcm) as [k0 Hk0].
  destruct (P_Prior.inv_ex 3 Rn Hrs Hrp) as (Ri & HRi & _).
  pose proof (l63_okn th P dt HP) as EO.
  destruct (de63_cubic th w m0 (sk (N + 1)) (tt_ mtd (N + 1))) as (c0 & c1 & c2 & Hc).
  set (f0 := fun k => de63 th w (fun _ _ => 0) (fun _ => 0) m0 (sk k)).
  set (l0 := Rsum (length t) (fun j => lterm_n 3 Ri Rn (nth j y vz) m0 (sk j))).
  set (l1 := Rsum (length t) (fun j => 1 / 2 * Rsum 3 (fun i => Ri i i * tt_ mtd j i i))).
  destruct (cubic_sink' (k0 + trap (N + 1) f0 dt + dt * (f0 N + c0) / 2 + l0) (dt / 2 * c1 - l1) (dt / 2 * c2)
    (dt / 2 * (- (1 / 2) * P 0%nat 0%nat * tt_ mtd (N + 1) 0%nat 0%nat)) bound) as (h & Hh).
  { unfold tt_. rewrite Nat.eqb_refl. cbn [Nat.eqb]. apply Rmult_integral_contrapositive_currified; [lra|].
    apply Rmult_integral_contrapositive_currified; [apply Rmult_integral_contrapositive_currified; lra|].
    replace (dt / 2 * (qq mtd 0%nat 0%nat + qq mtd 0%nat 0%nat)) with (dt * qq mtd 0%nat 0%nat) by field.
    apply Rmult_integral_contrapositive_currified; [lra|exact Hq]. }
  destruct (fe_anyn 3 _ P dt _ (l63_val th P dt) mtd n C s0 m0 mu tau Rn y t k0 ltac:(lia) Hrs Hrp Hy Ht Hnd Hst Hk0 (flat n 3 (ha h) (hb h)) Ri (flat_len _ _ _ _) HRi)
    as (A & B & mt & st & o & LA & LB & HA & HB & Hf & _ & _ & Hv).
  assert (HA' : forall k, (k < n)%nat -> eqm 3 (nth k A mz) (ha h k)) by (intros k Hk i j Hi Hj; rewrite (HA k Hk i j Hi Hj); apply flat_a; assumption).
  assert (HB' : forall k, (k < n)%nat -> eqv 3 (nth k B vz) (hb h k)) by (intros k Hk i Hi; rewrite (HB k Hk i Hi); apply flat_b; assumption).
  pose proof (mom63 mtd h A B mt st Hm LA LB HA' HB' Hf) as Q.
  exists (flat n 3 (ha h) (hb h)). eexists. split; [apply flat_len|]. split; [intros s; exact (f_equal fst (Hv s))|].
  eapply Rle_lt_trans; [|exact Hh]. right.
  assert (E1 : trap n (fun k => de63 th w (nth k A mz) (nth k B vz) (nth k mt vz) (nth k st mz)) dt
    = trap (N + 1) f0 dt + dt * (f0 N + (c0 + c1 * h + c2 * h ^ 2 + - (1 / 2) * P 0%nat 0%nat * tt_ mtd (N + 1) 0%nat 0%nat * h ^ 3)) / 2).
  { unfold trap. replace (n - 1)%nat with (Datatypes.S N) by lia. replace (N + 1 - 1)%nat with N by lia. cbn [Rsum].
    assert (Hk : forall k, (k <= N)%nat -> de63 th w (nth k A mz) (nth k B vz) (nth k mt vz) (nth k st mz) = f0 k).
    { intros k Hk. destruct (Q k ltac:(lia)) as [Q1 Q2]. unfold f0.
      apply (eok_ext _ _ _ _ _ _ _ _ _ EO); [| |exact Q1|].
      - intros i l Hi Hl. rewrite (HA' k ltac:(lia) i l Hi Hl). unfold ha. destruct (Nat.eqb_spec k (N + 1)); [lia|]. reflexivity.
      - intros i Hi. rewrite (HB' k ltac:(lia) i Hi). unfold hb. destruct (Nat.eqb_spec k (N + 1)); [lia|]. reflexivity.
      - intros i l Hi Hl. etransitivity; [exact (Q2 i l Hi Hl)|]. unfold hs, tt_. destruct (Nat.eqb_spec k (N + 1)); [lia|]. rq. ring. }
    f_equal.
    - apply Rsum_ext. intros k Hkn. rewrite !Hk by lia. reflexivity.
    - rewrite Hk by lia. f_equal. f_equal. f_equal. destruct (Q (N + 1)%nat ltac:(lia)) as [Q1 Q2].
      rewrite <- (Hc h).
      apply (eok_ext _ _ _ _ _ _ _ _ _ EO); [| |exact Q1|exact Q2].
      + intros i l Hi Hl. rewrite (HA' (N + 1)%nat ltac:(lia) i l Hi Hl). unfold ha. rewrite Nat.eqb_refl. reflexivity.
      + intros i Hi. rewrite (HB' (N + 1)%nat ltac:(lia) i Hi). unfold hb. rewrite Nat.eqb_refl. reflexivity. }
  assert (E2 : Rsum (length t) (fun j => lterm_n 3 Ri Rn (nth j y vz) (nth (nth j t O) mt vz) (nth j st mz)) = l0 - h * l1).
  { unfold l0, l1. rewrite <- Rsum_scal, <- Rsum_minus. apply Rsum_ext. intros j Hj. pose proof (t_in n t Ht j Hj). destruct (Q (nth j t O) ltac:(lia)) as [Q1 _].
    pose proof (t_len n y t ltac:(lia) Hy Ht Hnd). destruct (Q j ltac:(lia)) as [_ Q2].
    assert (X1 : quad 3 Ri (fun i => nth j y vz i - nth (nth j t O) mt vz i) = quad 3 Ri (fun i => nth j y vz i - m0 i)).
    { unfold quad. apply Rsum_ext. intros i Hi. apply Rsum_ext. intros l Hl. rewrite !Q1 by assumption. reflexivity. }
    assert (X2 : Rsum 3 (fun i => Ri i i * nth j st mz i i) = Rsum 3 (fun i => Ri i i * sk j i i) - h * Rsum 3 (fun i => Ri i i * tt_ mtd j i i)).
    { rewrite <- Rsum_scal, <- Rsum_minus. apply Rsum_ext. intros i Hi. transitivity (Ri i i * hs mtd h j i i); [f_equal; exact (Q2 i i Hi Hi)|]. unfold hs. rq. ring. }
    unfold lterm_n. rewrite X1, X2. field. }
  rewrite E1, E2. change (car RNum) with R in *. field.
Qed.
End Sink.
