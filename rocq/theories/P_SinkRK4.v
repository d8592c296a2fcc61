(** * Lorenz 63 with the method RungeKutta4: arguments below every number, if the first component is not correlated. *)
From Coq Require Import ZArith List Bool Arith Reals Lra Lia Sorted.
From Coquelicot Require Import Coquelicot.
From Verif Require Import Num Arr ArrFacts M_LinAlg M_Utils M_Ode M_Moments M_Sde1 M_L63 M_Prior M_Like M_VarGP
  Spec_Utils Spec_Det Spec_Prior Spec_Like Spec_VarGP Spec_GradN
  P_Ode P_Trapz P_RMat P_Det P_Like P_VarGP P_Prior P_L63 P_GradN P_GradN2 P_GradN3 P_GradL63 P_GradL63T P_Spectral P_BoundN P_LimitN2 P_LimitN3 P_SinkHeun.
Import ListNotations.
Local Open Scope R_scope.


Lemma quintic_sink c0 c1 c2 c3 c4 c5 bound : c5 < 0 -> exists h, c0 + c1 * h + c2 * h ^ 2 + c3 * h ^ 3 + c4 * h ^ 4 + c5 * h ^ 5 < bound.
Proof.
  intros Hc. set (a := - c5). assert (Ha : 0 < a) by (unfold a; lra).
  set (t := Rabs c0 + Rabs c1 + Rabs c2 + Rabs c3 + Rabs c4 + Rabs bound). set (q := t / a). exists (1 + q).
  assert (E : a * q = t) by (unfold q; field; lra).
  assert (Ab : forall z, 0 <= Rabs z /\ z <= Rabs z) by (intros z; split; [apply Rabs_pos|apply Rle_abs]).
  pose proof (Ab c0). pose proof (Ab c1). pose proof (Ab c2). pose proof (Ab c3). pose proof (Ab c4). pose proof (Ab bound).
  pose proof (Rle_abs (- bound)) as Hb. rewrite Rabs_Ropp in Hb.
  assert (Hq : 0 <= q) by (apply Rmult_le_pos; [unfold t; lra|left; apply Rinv_0_lt_compat, Ha]).
  replace c5 with (- a) by (unfold a; ring). set (h := 1 + q) in *. assert (Hh : 1 <= h) by (unfold h; lra).
  assert (Eh : a * h = a + t) by (unfold h; nra).
  assert (P1 : forall i j, (i <= j)%nat -> 0 < h ^ i <= h ^ j) by (intros i j Hij; split; [apply pow_lt; lra|apply Rle_pow; assumption]).
  assert (M : forall c i, (i <= 4)%nat -> c * h ^ i <= Rabs c * h ^ 4).
  { intros c i Hi. destruct (Ab c) as [A0 A1]. destruct (P1 i 4%nat Hi) as [B0 B1].
    apply Rle_trans with (Rabs c * h ^ i); [apply Rmult_le_compat_r; lra|apply Rmult_le_compat_l; lra]. }
  pose proof (M c0 0%nat ltac:(lia)) as M0. pose proof (M c1 1%nat ltac:(lia)) as M1. pose proof (M c2 2%nat ltac:(lia)) as M2.
  pose proof (M c3 3%nat ltac:(lia)) as M3. pose proof (M c4 4%nat ltac:(lia)) as M4. rewrite pow_O in M0. rewrite pow_1 in M1. rewrite Rmult_1_r in M0.
  replace (- a * h ^ 5) with (- (a * h) * h ^ 4) by ring. rewrite Eh. destruct (P1 0%nat 4%nat ltac:(lia)) as [_ B]. rewrite pow_O in B.
  assert (Rabs bound <= Rabs bound * h ^ 4) by (destruct (Ab bound); nra). assert (0 < a * h ^ 4) by nra.
  replace (- (a + t) * h ^ 4) with (- (a * h ^ 4) - Rabs c0 * h ^ 4 - Rabs c1 * h ^ 4 - Rabs c2 * h ^ 4 - Rabs c3 * h ^ 4 - Rabs c4 * h ^ 4 - Rabs bound * h ^ 4) by (unfold t; ring).
  lra.
Qed.
Definition put00 (p : R) (S : nat -> nat -> R) : nat -> nat -> R := fun i j => if Nat.eqb i 0 && Nat.eqb j 0 then p else S i j.
Lemma de63_first th w m S : S 0%nat 1%nat = 0 -> S 0%nat 2%nat = 0 -> S 1%nat 0%nat = 0 -> S 2%nat 0%nat = 0 -> exists c0 c1 r0 r1, forall h p,
  de63 th w (fun i j => if Nat.eqb i 0 && Nat.eqb j 0 then h else 0) (fun i => if Nat.eqb i 0 then h * m 0%nat else 0) m (put00 p S)
  = c0 + c1 * h + (r0 + r1 * h + 1 / 2 * w 0%nat * h ^ 2) * p.
Proof.
  intros Z1 Z2 Z3 Z4.
  set (e := fun h p => de63 th w (fun i j => if Nat.eqb i 0 && Nat.eqb j 0 then h else 0) (fun i => if Nat.eqb i 0 then h * m 0%nat else 0) m (put00 p S)).
  exists (e 0 0), (e 1 0 - e 0 0), (e 0 1 - e 0 0), (e 1 1 - e 1 0 - 1 / 2 * w 0%nat - (e 0 1 - e 0 0)). intros h p.
  unfold e, de63, e63, put00. cbn [Rsum]. l63unf. cbn [sumn Nat.eqb andb]. rnum. rewrite ?Z1, ?Z2, ?Z3, ?Z4. field.
Qed.

Section Sink.
Context (N : nat) (dt : R) (th : nat -> R) (P C s0 : nat -> nat -> R) (m0 mu : nat -> R) (tau Rn : nat -> nat -> R)
  (y : list (nat -> R)) (t : list nat).
Notation n := (N + 2)%nat.
Notation fs := (fs C). Notation sk := (sk dt C s0). Notation ha := (ha N). Notation hb := (hb N m0).
Lemma rk4_step A B k (m : nat -> R) (s : nat -> nat -> R) : (k + 1 < length A)%nat -> (k + 1 < length B)%nat ->
  let a := nth k A mz in let b := nth k B vz in let a' := nth (k + 1) A mz in let b' := nth (k + 1) B vz in
  let am := fun i j => 1 / 2 * sums a a' i j in let bm := fun i => 1 / 2 * sumv b b' i in
  let k1 := fm m a b in let k2 := fm (two (1 / 2 * dt) m k1) am bm in let k3 := fm (two (1 / 2 * dt) m k2) am bm in let k4 := fm (two dt m k3) a' b' in
  let l1 := fs s a in let l2 := fs (twos (1 / 2 * dt) s l1) am in let l3 := fs (twos (1 / 2 * dt) s l2) am in let l4 := fs (twos dt s l3) a' in
  fst (fwd_body (sysn RNum 3) RK4 dt A B C k m s) = (fun i => m i + dt * (k1 i + 2 * (k2 i + k3 i) + k4 i) / 6) /\
  snd (fwd_body (sysn RNum 3) RK4 dt A B C k m s) = (fun i j => s i j + dt * (l1 i j + 2 * (l2 i j + l3 i j) + l4 i j) / 6).
Proof.
  intros H1 H2 a b a' b' am bm.
  assert (EA : M_Ode.ga (sysn RNum 3) (mids (V:=VS (sysn RNum 3)) A) k = am) by exact (nth_mids (V:=VS (sysn RNum 3)) A k mz H1).
  assert (EB : M_Ode.gm (sysn RNum 3) (mids (V:=VM (sysn RNum 3)) B) k = bm) by exact (nth_mids (V:=VM (sysn RNum 3)) B k vz H2).
  cbn [fwd_body]. unfold rk4_fwd_body. cbv zeta. cbn [fst snd]. rewrite EA, EB. split; reflexivity.
Qed.
(** the first variance at the last point *)
Definition pl (h : R) : R :=
  let s := sk N 0%nat 0%nat in let c := C 0%nat 0%nat in
  let l2 := - h * (s + dt / 2 * c) + c in let l3 := - h * (s + dt / 2 * l2) + c in let l4 := - (2 * h) * (s + dt * l3) + c in
  s + dt * (c + 2 * (l2 + l3) + l4) / 6.
Definition hs4 (h : R) (k : nat) : nat -> nat -> R := if Nat.eqb k (N + 1) then put00 (pl h) (sk k) else sk k.
Context (U : forall j, (0 < j < 3)%nat -> s0 0%nat j = 0 /\ s0 j 0%nat = 0 /\ C 0%nat j = 0 /\ C j 0%nat = 0).
Lemma sk_0 k j : (0 < j < 3)%nat -> sk k 0%nat j = 0 /\ sk k j 0%nat = 0.
Proof. intros Hj. destruct (U j Hj) as (E1 & E2 & E3 & E4). unfold P_SinkHeun.sk. rewrite E1, E2, E3, E4. split; ring. Qed.
Lemma fs_first s a al : (forall i j, (i < 3)%nat -> (j < 3)%nat -> a i j = if Nat.eqb i 0 && Nat.eqb j 0 then al else 0) ->
  forall i j, (i < 3)%nat -> (j < 3)%nat -> fs s a i j = C i j - al * ((if Nat.eqb i 0 then s 0%nat j else 0) + (if Nat.eqb j 0 then s i 0%nat else 0)).
Proof.
  intros Ha i j Hi Hj. unfold P_SinkHeun.fs. cbn [Rsum]. rewrite !Ha by lia.
  destruct (three i Hi) as [->|[->| ->]]; destruct (three j Hj) as [->|[->| ->]]; cbn [Nat.eqb andb]; ring.
Qed.
Lemma mom4 h A B mt st : length A = n -> length B = n ->
  (forall k, (k < n)%nat -> eqm 3 (nth k A mz) (ha h k)) -> (forall k, (k < n)%nat -> eqv 3 (nth k B vz) (hb h k)) ->
  solve_fwd (sysn RNum 3) RK4 dt A B m0 s0 C = Ok (mt, st) ->
  forall k, (k < n)%nat -> eqv 3 (nth k mt vz) m0 /\ eqm 3 (nth k st mz) (hs4 h k).
Proof.
  intros LA LB HA HB Hf.
  assert (St : forall k, (k + 1 < n)%nat ->
    nth (k + 1) mt vz = fst (fwd_body (sysn RNum 3) RK4 dt A B C k (nth k mt vz) (nth k st mz)) /\
    nth (k + 1) st mz = snd (fwd_body (sysn RNum 3) RK4 dt A B C k (nth k mt vz) (nth k st mz))).
  { intros k Hk. assert (Hk' : (k + 1 < length B)%nat) by lia.
    pose proof (solve_fwd_step (sysn RNum 3) RK4 dt A B m0 s0 C mt st k Hf Hk') as E. split; [exact (f_equal fst E)|exact (f_equal snd E)]. }
  destruct (solve_fwd_ok (sysn RNum 3) RK4 dt A B m0 s0 C mt st Hf) as (H0 & _ & _ & T0). specialize (T0 O H0). cbn [traj] in T0.
  assert (Z1 : nth 0 mt vz = m0) by exact (f_equal fst T0). assert (Z2 : nth 0 st mz = s0) by exact (f_equal snd T0). clear T0 H0.
  induction k as [|k IH]; intros Hk.
  - rewrite Z1, Z2. split; [intros i _; reflexivity|]. intros i j _ _. unfold hs4. destruct (Nat.eqb_spec 0 (N + 1)); [lia|]. unfold P_SinkHeun.sk. cbn [INR]. rq. ring.
  - destruct (IH ltac:(lia)) as [IM IS]. destruct (St k ltac:(lia)) as [E1 E2]. replace (S k) with (k + 1)%nat by lia. rewrite E1, E2. clear E1 E2 IH St.
    pose proof (HA k ltac:(lia)) as A1. pose proof (HA (k + 1)%nat ltac:(lia)) as A2. pose proof (HB k ltac:(lia)) as B1. pose proof (HB (k + 1)%nat ltac:(lia)) as B2.
    assert (A1' : forall i j, (i < 3)%nat -> (j < 3)%nat -> nth k A mz i j = 0).
    { intros i j Hi Hj. rewrite (A1 i j Hi Hj). unfold P_SinkHeun.ha. destruct (Nat.eqb_spec k (N + 1)); [lia|reflexivity]. }
    assert (B1' : forall i, (i < 3)%nat -> nth k B vz i = 0).
    { intros i Hi. rewrite (B1 i Hi). unfold P_SinkHeun.hb. destruct (Nat.eqb_spec k (N + 1)); [lia|reflexivity]. }
    assert (IS' : forall i j, (i < 3)%nat -> (j < 3)%nat -> nth k st mz i j = sk k i j).
    { intros i j Hi Hj. rewrite (IS i j Hi Hj). unfold hs4. destruct (Nat.eqb_spec k (N + 1)); [lia|reflexivity]. }
    clear A1 B1 IS. unfold eqm, eqv in *.
    assert (Sk : forall i j, sk (k + 1) i j = sk k i j + dt * C i j) by (intros i j; unfold P_SinkHeun.sk; rewrite plus_INR; cbn [INR]; ring).
    destruct (rk4_step A B k (nth k mt vz) (nth k st mz)) as [-> ->]; [lia|lia|]. split.
    + intros i Hi. unfold two, sumv, sums, fm. cbn [Rsum]. rewrite !A1', !A2, !B1', !B2, !IM by lia. unfold P_SinkHeun.ha, P_SinkHeun.hb.
      destruct (Nat.eqb (k + 1) (N + 1)); destruct (three i Hi) as [->|[->| ->]]; cbn [Nat.eqb andb]; rq; field.
    + intros i j Hi Hj.
      destruct (sk_0 k 1) as [W1 W2]; [lia|]. destruct (sk_0 k 2) as [W3 W4]; [lia|].
      destruct (U 1) as (_ & _ & X1 & X2); [lia|]. destruct (U 2) as (_ & _ & X3 & X4); [lia|].
      set (al := if Nat.eqb (k + 1) (N + 1) then h else 0).
      set (a := nth k A mz) in *. set (a' := nth (k + 1) A mz) in *. set (s := nth k st mz) in *.
      assert (F1 : forall s i j, (i < 3)%nat -> (j < 3)%nat -> fs s a i j = C i j).
      { intros s' i' j' Hi' Hj'. rewrite (fs_first s' a 0); [ring|intros; rewrite A1' by assumption; destruct (_ && _); reflexivity|assumption..]. }
      assert (F3 : forall s i j, (i < 3)%nat -> (j < 3)%nat -> fs s a' i j = C i j - al * ((if Nat.eqb i 0 then s 0%nat j else 0) + (if Nat.eqb j 0 then s i 0%nat else 0))).
      { intros s' i' j' Hi' Hj'. apply fs_first; [|assumption..]. intros p q Hp Hq. rewrite (A2 p q Hp Hq). unfold P_SinkHeun.ha, al.
        destruct (Nat.eqb (k + 1) (N + 1)); [reflexivity|destruct (_ && _); reflexivity]. }
      assert (F2 : forall s i j, (i < 3)%nat -> (j < 3)%nat -> fs s (fun i j => 1 / 2 * sums a a' i j) i j =
        C i j - al / 2 * ((if Nat.eqb i 0 then s 0%nat j else 0) + (if Nat.eqb j 0 then s i 0%nat else 0))).
      { intros s' i' j' Hi' Hj'. apply fs_first; [|assumption..]. intros p q Hp Hq. unfold sums. rewrite (A1' p q Hp Hq), (A2 p q Hp Hq). unfold P_SinkHeun.ha, al.
        destruct (Nat.eqb (k + 1) (N + 1)); destruct (_ && _); rq; field. }
      assert (G : hs4 h (k + 1) i j = if Nat.eqb (k + 1) (N + 1) then put00 (pl h) (sk (k + 1)) i j else sk (k + 1) i j).
      { unfold hs4. destruct (Nat.eqb (k + 1) (N + 1)); reflexivity. }
      rewrite G. clear G. unfold twos.
      rewrite F3, !F2, !F1 by lia.
      destruct (three i Hi) as [->|[->| ->]]; destruct (three j Hj) as [->|[->| ->]]; cbn [Nat.eqb]; rewrite ?F2, ?F1 by lia; cbn [Nat.eqb]; rewrite ?F2, ?F1 by lia; cbn [Nat.eqb];
        rewrite ?F1, ?IS' by lia; unfold put00; cbn [Nat.eqb andb]; rewrite ?Sk, ?W1, ?W2, ?W3, ?W4, ?X1, ?X2, ?X3, ?X4; unfold al;
        (destruct (Nat.eqb_spec (k + 1) (N + 1)) as [Q|Q]; [unfold pl; assert (QN : N = k) by lia; rewrite ?QN|]; rq; field).
Qed.
Context (HP : diag_only 3 P) (HP0 : 0 < P 0%nat 0%nat) (Hdt : 0 < dt) (HC0 : 0 <= C 0%nat 0%nat).
Context (Hs0 : symm 3 s0) (Hs0p : posdef 3 s0) (Htau : symm 3 tau) (Htaup : posdef 3 tau) (Hcm : commute 3 s0 tau)
  (Hrs : symm 3 Rn) (Hrp : posdef 3 Rn) (Hy : length y = length t) (Ht : List.Forall (fun i => (i < n)%nat) t) (Hnd : NoDup t) (Hst : Sorted le t).
Notation w := (fun i => P i i).
Lemma sink4 bound :
  let EE := vgpn (K:=RNum) ln PI (fun a b m s o => Ok (l63_energy (K:=RNum) th P dt a b m s o)) RK4 n 3 dt C P m0 s0 mu tau y t Rn (meye (K:=RNum)) in
  exists x v, length x = (n * 3 * (3 + 1))%nat /\ (forall s, fst (free_energy EE x s) = Ok v) /\ v < bound.
Proof.
  intros EE.
  destruct (kl0_commute 3 mu tau m0 s0 Hs0 Hs0p Htau Htaup Hcm) as [k0 Hk0].
  destruct (P_Prior.inv_ex 3 Rn Hrs Hrp) as (Ri & HRi & _).
  pose proof (l63_okn th P dt HP) as EO.
  destruct (sk_0 (N + 1) 1) as [W1 W2]; [lia|]. destruct (sk_0 (N + 1) 2) as [W3 W4]; [lia|].
  destruct (de63_first th w m0 (sk (N + 1)) W1 W3 W2 W4) as (c0 & c1 & r0 & r1 & Hc).
  set (f0 := fun k => de63 th w (fun _ _ => 0) (fun _ => 0) m0 (sk k)).
  set (g := fun j => if Nat.eqb j (N + 1) then 1 / 2 * Ri 0%nat 0%nat else 0).
  set (l0 := Rsum (length t) (fun j => lterm_n 3 Ri Rn (nth j y vz) m0 (sk j) - g j * sk j 0%nat 0%nat)).
  set (l1 := Rsum (length t) g).
  set (s1 := sk N 0%nat 0%nat + dt / 2 * C 0%nat 0%nat).
  assert (Hs1 : 0 < s1).
  { unfold s1, P_SinkHeun.sk. pose proof (posdef_diag_pos 3 s0 0 Hs0p ltac:(lia)). pose proof (pos_INR N).
    assert (0 <= INR N * dt * C 0%nat 0%nat) by (apply Rmult_le_pos; [apply Rmult_le_pos; lra|exact HC0]).
    assert (0 <= dt / 2 * C 0%nat 0%nat) by (apply Rmult_le_pos; lra). lra. }
  assert (Hp : exists p0 p1 p2, forall h, pl h = p0 + p1 * h + p2 * h ^ 2 + - (dt ^ 3 / 6) * s1 * h ^ 3).
  { set (q := fun h => pl h + dt ^ 3 / 6 * s1 * h ^ 3). exists (q 0), (1 / 2 * (q 1 - q (-1))), (1 / 2 * (q 1 + q (-1)) - q 0). intros h. unfold q, pl, s1. field. }
  destruct Hp as (p0 & p1 & p2 & Hp). set (p3 := - (dt ^ 3 / 6) * s1) in *.
  set (KK := k0 + trap (N + 1) f0 dt + dt * (f0 N + c0) / 2 + l0). set (Q0 := dt / 2 * r0 + l1). set (Q1 := dt / 2 * r1). set (Q2 := dt / 2 * (1 / 2 * P 0%nat 0%nat)).
  destruct (quintic_sink (KK + Q0 * p0) (dt / 2 * c1 + Q0 * p1 + Q1 * p0) (Q0 * p2 + Q1 * p1 + Q2 * p0) (Q0 * p3 + Q1 * p2 + Q2 * p1) (Q1 * p3 + Q2 * p2) (Q2 * p3) bound) as (h & Hh).
  { unfold Q2, p3. assert (0 < dt / 2 * (1 / 2 * P 0%nat 0%nat)) by (apply Rmult_lt_0_compat; lra).
    assert (0 < dt ^ 3) by (apply pow_lt; exact Hdt). assert (0 < dt ^ 3 / 6 * s1) by (apply Rmult_lt_0_compat; lra). nra. }
  destruct (fe_anyn 3 _ P dt _ (l63_val th P dt) RK4 n C s0 m0 mu tau Rn y t k0 ltac:(lia) Hrs Hrp Hy Ht Hnd Hst Hk0 (flat n 3 (ha h) (hb h)) Ri (flat_len _ _ _ _) HRi)
    as (A & B & mt & st & o & LA & LB & HA & HB & Hf & _ & _ & Hv).
  assert (HA' : forall k, (k < n)%nat -> eqm 3 (nth k A mz) (ha h k)) by (intros k Hk i j Hi Hj; rewrite (HA k Hk i j Hi Hj); apply flat_a; assumption).
  assert (HB' : forall k, (k < n)%nat -> eqv 3 (nth k B vz) (hb h k)) by (intros k Hk i Hi; rewrite (HB k Hk i Hi); apply flat_b; assumption).
  pose proof (mom4 h A B mt st LA LB HA' HB' Hf) as Q.
  exists (flat n 3 (ha h) (hb h)). eexists. split; [apply flat_len|]. split; [intros s; exact (f_equal fst (Hv s))|].
  eapply Rle_lt_trans; [|exact Hh]. right.
  assert (E1 : trap n (fun k => de63 th w (nth k A mz) (nth k B vz) (nth k mt vz) (nth k st mz)) dt
    = trap (N + 1) f0 dt + dt * (f0 N + (c0 + c1 * h + (r0 + r1 * h + 1 / 2 * P 0%nat 0%nat * h ^ 2) * pl h)) / 2).
  { unfold trap. replace (n - 1)%nat with (Datatypes.S N) by lia. replace (N + 1 - 1)%nat with N by lia. cbn [Rsum].
    assert (Hk : forall k, (k <= N)%nat -> de63 th w (nth k A mz) (nth k B vz) (nth k mt vz) (nth k st mz) = f0 k).
    { intros k Hk. destruct (Q k ltac:(lia)) as [Q1' Q2']. unfold f0.
      apply (eok_ext _ _ _ _ _ _ _ _ _ EO); [| |exact Q1'|].
      - intros i l Hi Hl. rewrite (HA' k ltac:(lia) i l Hi Hl). unfold P_SinkHeun.ha. destruct (Nat.eqb_spec k (N + 1)); [lia|]. reflexivity.
      - intros i Hi. rewrite (HB' k ltac:(lia) i Hi). unfold P_SinkHeun.hb. destruct (Nat.eqb_spec k (N + 1)); [lia|]. reflexivity.
      - intros i l Hi Hl. etransitivity; [exact (Q2' i l Hi Hl)|]. unfold hs4. destruct (Nat.eqb_spec k (N + 1)); [lia|]. reflexivity. }
    f_equal.
    - apply Rsum_ext. intros k Hkn. rewrite !Hk by lia. reflexivity.
    - rewrite Hk by lia. f_equal. f_equal. f_equal. destruct (Q (N + 1)%nat ltac:(lia)) as [Q1' Q2'].
      rewrite <- (Hc h).
      apply (eok_ext _ _ _ _ _ _ _ _ _ EO); [| |exact Q1'|].
      + intros i l Hi Hl. rewrite (HA' (N + 1)%nat ltac:(lia) i l Hi Hl). unfold P_SinkHeun.ha. rewrite Nat.eqb_refl. reflexivity.
      + intros i Hi. rewrite (HB' (N + 1)%nat ltac:(lia) i Hi). unfold P_SinkHeun.hb. rewrite Nat.eqb_refl. reflexivity.
      + intros i l Hi Hl. etransitivity; [exact (Q2' i l Hi Hl)|]. unfold hs4. rewrite Nat.eqb_refl. reflexivity. }
  assert (E2 : Rsum (length t) (fun j => lterm_n 3 Ri Rn (nth j y vz) (nth (nth j t O) mt vz) (nth j st mz)) = l0 + pl h * l1).
  { unfold l0, l1. rewrite <- Rsum_scal, <- Rsum_plus. apply Rsum_ext. intros j Hj. pose proof (t_in n t Ht j Hj). destruct (Q (nth j t O) ltac:(lia)) as [Q1' _].
    pose proof (t_len n y t ltac:(lia) Hy Ht Hnd). destruct (Q j ltac:(lia)) as [_ Q2'].
    assert (X1 : quad 3 Ri (fun i => nth j y vz i - nth (nth j t O) mt vz i) = quad 3 Ri (fun i => nth j y vz i - m0 i)).
    { unfold quad. apply Rsum_ext. intros i Hi. apply Rsum_ext. intros l Hl. rewrite !Q1' by assumption. reflexivity. }
    assert (X2 : Rsum 3 (fun i => Ri i i * nth j st mz i i) = Rsum 3 (fun i => Ri i i * sk j i i) + 2 * g j * (pl h - sk j 0%nat 0%nat)).
    { transitivity (Rsum 3 (fun i => Ri i i * hs4 h j i i)).
      - apply Rsum_ext. intros i Hi. f_equal. exact (Q2' i i Hi Hi).
      - unfold hs4, g. destruct (Nat.eqb j (N + 1)); cbn [Rsum]; unfold put00; cbn [Nat.eqb andb]; field. }
    unfold lterm_n. rewrite X1, X2. field. }
  rewrite E1, E2, (Hp h). unfold KK, Q0, Q1, Q2. change (car RNum) with R in *. field.
Qed.
End Sink.
