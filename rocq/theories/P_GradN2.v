(** * free_energy and gradient in d dimensions with Euler's method, in terms of the Euler paths. *)
From Coq Require Import ZArith List Bool Arith Reals Lra Lia FunctionalExtensionality Sorted.
From Coquelicot Require Import Coquelicot.
From Verif Require Import Num Arr ArrFacts M_LinAlg M_Utils M_Ode M_Moments M_Sde1 M_L63 M_Prior M_Like M_VarGP
  Spec_Utils Spec_Gauss Spec_Sde1 Spec_Like Spec_VarGP Spec_GradN P_Ode P_Trapz P_Sde1 P_RMat P_Det P_Like P_VarGP P_Adjoint P_GradN.
Import ListNotations.
Local Open Scope R_scope.
Notation vz := (fun _ : nat => 0).
Notation mz := (fun _ _ : nat => 0).

Definition eqv (d : nat) (u v : nat -> R) : Prop := forall i, (i < d)%nat -> u i = v i.
Definition eqm (d : nat) (A B : nat -> nat -> R) : Prop := forall i j, (i < d)%nat -> (j < d)%nat -> A i j = B i j.

(** ** the arrays computed by the solvers *)
Lemma euler_fwd_pathn d (dt : R) (C s0 : nat -> nat -> R) (m0 : nat -> R) (A : list (nat -> nat -> R)) (B mt : list (nat -> R)) (st : list (nat -> nat -> R)) :
  solve_fwd (sysn RNum d) Euler dt A B m0 s0 C = Ok (mt, st) ->
  length mt = length B /\ length st = length B /\
  forall k, (k < length B)%nat ->
    nth k mt vz = path_mn d dt (fun k => nth k A mz) (fun k => nth k B vz) m0 k /\
    nth k st mz = path_sn d dt (fun k => nth k A mz) C s0 k.
Proof.
  intros H. destruct (solve_fwd_shape _ _ _ _ _ _ _ _ _ _ H) as (L1 & L2 & H1 & H2).
  split; [exact L1|]. split; [exact L2|].
  induction k as [|k IH]; intros Hk.
  - apply nth_error_nth with (d := (vz : VM (sysn RNum d))) in H1. apply nth_error_nth with (d := (mz : VS (sysn RNum d))) in H2. split; assumption.
  - destruct IH as [I1 I2]; [lia|].
    pose proof (solve_fwd_step (sysn RNum d) _ _ _ _ _ _ _ _ _ k H (eq_ind_r (fun z => (z < length B)%nat) Hk (Nat.add_1_r k))) as E.
    injection E as E1 E2. rewrite Nat.add_1_r in E1, E2. cbn [path_mn path_sn]. split.
    + etransitivity; [exact E1|]. apply functional_extensionality. intros i.
      change (nth k mt vz i + dt * (- Rsum d (fun j => nth k A mz i j * nth k mt vz j) + nth k B vz i) =
        path_mn d dt (fun k => nth k A mz) (fun k => nth k B vz) m0 k i +
        dt * (- Rsum d (fun j => nth k A mz i j * path_mn d dt (fun k => nth k A mz) (fun k => nth k B vz) m0 k j) + nth k B vz i)).
      rewrite I1. reflexivity.
    + etransitivity; [exact E2|]. apply functional_extensionality. intros i. apply functional_extensionality. intros j.
      change (nth k st mz i j + dt * (- Rsum d (fun l => nth k A mz i l * nth k st mz l j) - Rsum d (fun l => nth k st mz i l * nth k A mz j l) + C i j) =
        path_sn d dt (fun k => nth k A mz) C s0 k i j +
        dt * (- Rsum d (fun l => nth k A mz i l * path_sn d dt (fun k => nth k A mz) C s0 k l j)
              - Rsum d (fun l => path_sn d dt (fun k => nth k A mz) C s0 k i l * nth k A mz j l) + C i j)).
      rewrite I2. reflexivity.
Qed.
Lemma euler_bwd_adjn d (dt : R) (A gs os psi : list (nat -> nat -> R)) (gm_ om lam : list (nat -> R)) :
  solve_bwd (sysn RNum d) Euler dt A gm_ gs om os = Ok (lam, psi) ->
  length lam = length gm_ /\ length psi = length gm_ /\
  nth (length gm_ - 1) lam vz = vz /\ nth (length gm_ - 1) psi mz = mz /\
  forall k, (k + 1 < length gm_)%nat ->
    (forall i, nth k lam vz i = nth (k + 1) lam vz i - dt * Rsum d (fun j => nth (k + 1) A mz i j * nth (k + 1) lam vz j)
       + dt * nth (k + 1) gm_ vz i + nth k om vz i) /\
    (forall i j, nth k psi mz i j = nth (k + 1) psi mz i j - dt * (Rsum d (fun l => nth (k + 1) psi mz i l * nth (k + 1) A mz l j)
       + Rsum d (fun l => nth (k + 1) A mz l i * nth (k + 1) psi mz l j)) + dt * nth (k + 1) gs mz i j + nth k os mz i j).
Proof.
  intros H. destruct (solve_bwd_shape _ _ _ _ _ _ _ _ _ _ H) as (L1 & L2 & H0).
  split; [exact L1|]. split; [exact L2|].
  split. { destruct gm_ as [|g gm_]; [destruct lam; [reflexivity|discriminate]|].
    apply (nth_error_nth (A := VM (sysn RNum d))). apply H0. discriminate. }
  split. { destruct gm_ as [|g gm_]; [destruct psi; [reflexivity|discriminate]|].
    apply (nth_error_nth (A := VS (sysn RNum d))). apply H0. discriminate. }
  intros k Hk.
  pose proof (solve_bwd_step (sysn RNum d) _ _ _ _ _ _ _ _ _ k H Hk) as E. injection E as E1 E2. split.
  - intros i. etransitivity; [exact (f_equal (fun v => v i) E1)|].
    change (nth (k + 1) lam vz i - dt * (- nth (k + 1) gm_ vz i + Rsum d (fun j => nth (k + 1) lam vz j * nth (k + 1) A mz i j)) + nth (k + 1 - 1) om vz i =
      nth (k + 1) lam vz i - dt * Rsum d (fun j => nth (k + 1) A mz i j * nth (k + 1) lam vz j) + dt * nth (k + 1) gm_ vz i + nth k om vz i).
    replace (k + 1 - 1)%nat with k by lia.
    rewrite (Rsum_ext d (fun j => nth (k + 1) lam vz j * nth (k + 1) A mz i j) (fun j => nth (k + 1) A mz i j * nth (k + 1) lam vz j)) by (intros; ring). ring.
  - intros i j. etransitivity; [exact (f_equal (fun v => v i j) E2)|].
    change (nth (k + 1) psi mz i j - dt * (- nth (k + 1) gs mz i j + Rsum d (fun l => nth (k + 1) psi mz i l * nth (k + 1) A mz l j)
        + Rsum d (fun l => nth (k + 1) A mz l i * nth (k + 1) psi mz l j)) + nth (k + 1 - 1) os mz i j =
      nth (k + 1) psi mz i j - dt * (Rsum d (fun l => nth (k + 1) psi mz i l * nth (k + 1) A mz l j)
       + Rsum d (fun l => nth (k + 1) A mz l i * nth (k + 1) psi mz l j)) + dt * nth (k + 1) gs mz i j + nth k os mz i j).
    replace (k + 1 - 1)%nat with k by lia. ring.
Qed.
Lemma pathn_ext d (dt : R) C s0 m0 (a a' : nat -> nat -> nat -> R) (b b' : nat -> nat -> R) k :
  (forall j, (j < k)%nat -> eqm d (a j) (a' j)) -> (forall j, (j < k)%nat -> eqv d (b j) (b' j)) ->
  eqv d (path_mn d dt a b m0 k) (path_mn d dt a' b' m0 k) /\ eqm d (path_sn d dt a C s0 k) (path_sn d dt a' C s0 k).
Proof.
  induction k as [|k IH]; intros Ha Hb; [split; intros ? **; reflexivity|].
  destruct IH as [I1 I2]; [intros; apply Ha; lia|intros; apply Hb; lia|]. cbn [path_mn path_sn].
  pose proof (Ha k (Nat.lt_succ_diag_r k)) as Hak. pose proof (Hb k (Nat.lt_succ_diag_r k)) as Hbk. split.
  - intros i Hi. rewrite (I1 i Hi), (Hbk i Hi). f_equal. f_equal. f_equal. f_equal. apply Rsum_ext. intros j Hj.
    rewrite (Hak i j Hi Hj), (I1 j Hj). reflexivity.
  - intros i j Hi Hj. rewrite (I2 i j Hi Hj). f_equal. f_equal. f_equal. f_equal; [f_equal|]; apply Rsum_ext; intros l Hl.
    + rewrite (Hak i l Hi Hl), (I2 l j Hl Hj). reflexivity.
    + rewrite (Hak j l Hj Hl), (I2 i l Hi Hl). reflexivity.
Qed.

Definition dens (A : Type) := (nat -> nat -> R) -> (nat -> R) -> (nat -> R) -> (nat -> nat -> R) -> A.
(** ** [energy] integrates e in time; em and es are returned, ea and eb obtained through
    _dEsde_da, _dEsde_db; es i j is the derivative with respect to both entries (i,j) and (j,i) *)
Record energy_okn (d : nat) (energy : list (nat -> nat -> R) -> list (nat -> R) -> list (nat -> R) -> list (nat -> nat -> R) ->
    option (list nat) -> result (EnergyN RNum)) (P : nat -> nat -> R) (dt : R) (e : dens R) (ea es : dens (nat -> nat -> R)) (eb em : dens (nat -> R)) : Prop := {
  eok_ext : forall A A' b b' m m' S S', eqm d A A' -> eqv d b b' -> eqv d m m' -> eqm d S S' ->
    e A b m S = e A' b' m' S' /\ eqm d (ea A b m S) (ea A' b' m' S') /\ eqm d (es A b m S) (es A' b' m' S') /\
    eqv d (eb A b m S) (eb A' b' m' S') /\ eqv d (em A b m S) (em A' b' m' S');
  eok_sym : forall A b m S i j, (i < d)%nat -> (j < d)%nat -> es A b m S i j = es A b m S j i;
  eok_chain : forall (A S : R -> nat -> nat -> R) (b m : R -> nat -> R) (A' S' : nat -> nat -> R) (b' m' : nat -> R),
    (forall i j, is_derive (fun t => A t i j) 0 (A' i j)) -> (forall i j, is_derive (fun t => S t i j) 0 (S' i j)) ->
    (forall i, is_derive (fun t => b t i) 0 (b' i)) -> (forall i, is_derive (fun t => m t i) 0 (m' i)) ->
    (forall t, sy d (S t)) -> sy d S' ->
    is_derive (fun t => e (A t) (b t) (m t) (S t)) 0
      (dots d (ea (A 0) (b 0) (m 0) (S 0)) A' + dot d (eb (A 0) (b 0) (m 0) (S 0)) b' + dot d (em (A 0) (b 0) (m 0) (S 0)) m'
       + (dots d (es (A 0) (b 0) (m 0) (S 0)) S' - dot_below d (es (A 0) (b 0) (m 0) (S 0)) S'));
  eok_val : forall A B M S o, length B = length A -> length M = length A -> length S = length A -> srt o ->
    (forall k, (k < length A)%nat -> sy d (nth k S mz)) ->
    exists r, energy A B M S o = Ok r /\
    length (n_f r) = length A /\ length (n_df r) = length A /\ length (n_dm r) = length A /\ length (n_ds r) = length A /\
    n_sde r = trap (length A) (fun k => e (nth k A mz) (nth k B vz) (nth k M vz) (nth k S mz)) dt /\
    forall k, (k < length A)%nat ->
      let a := nth k A mz in let b := nth k B vz in let m := nth k M vz in let s := nth k S mz in
      eqv d (nth k (n_dm r) vz) (em a b m s) /\ eqm d (nth k (n_ds r) mz) (es a b m s) /\
      eqv d (dEsde_dbn (K:=RNum) d P (nth k (n_f r) vz) m a b) (eb a b m s) /\
      eqm d (dEsde_dan (K:=RNum) d P a m s (nth k (n_df r) mz) (dEsde_dbn (K:=RNum) d P (nth k (n_f r) vz) m a b)) (ea a b m s) }.

Section Whole.
Context (d : nat) (energy : list (nat -> nat -> R) -> list (nat -> R) -> list (nat -> R) -> list (nat -> nat -> R) ->
    option (list nat) -> result (EnergyN RNum)) (P : nat -> nat -> R) (dt : R) (e : dens R) (ea es : dens (nat -> nat -> R)) (eb em : dens (nat -> R))
  (EO : energy_okn d energy P dt e ea es eb em).
Context (n : nat) (C s0 : nat -> nat -> R) (m0 mu : nat -> R) (tau Rn : nat -> nat -> R) (y : list (nat -> R)) (t : list nat) (k0 : R).
Context (Hn : (0 < n)%nat) (Hs0 : symm d s0) (HC : symm d C) (Hrs : symm d Rn) (Hrp : posdef d Rn)
  (Hy : length y = length t) (Ht : List.Forall (fun i => (i < n)%nat) t) (Hnd : NoDup t) (Hst : Sorted le t)
  (Hk0 : kl0_nd (K:=RNum) ln d mu tau m0 s0 = Ok k0).
Definition EVn : Env RNum := vgpn (K:=RNum) ln PI energy Euler n d dt C P m0 s0 mu tau y t Rn (meye (K:=RNum)).

Lemma unpackn_entry (x : list R) : length x = (n * d * (d + 1))%nat -> exists (A : list (nat -> nat -> R)) (B : list (nat -> R)),
  unpackn (K:=RNum) n d x = Ok (A, B) /\ length A = n /\ length B = n /\
  (forall k, (k < n)%nat -> eqm d (nth k A mz) (part_a d (entry x) k)) /\
  (forall k, (k < n)%nat -> eqv d (nth k B vz) (part_b n d (entry x) k)).
Proof.
  intros Hx. destruct (packn_unpack (K:=RNum) d x n Hx) as (A & B & EU & L1 & L2 & Ep).
  change (list (nat -> nat -> R)) in A. change (list (nat -> R)) in B.
  exists A, B. split; [exact EU|]. split; [exact L1|]. split; [exact L2|]. split.
  - intros k Hk i j Hi Hj. unfold part_a, entry. rewrite <- Ep. symmetry. apply (packn_nth_a (K:=RNum) d A B k i j 0); [|exact Hi|exact Hj].
    exact (eq_ind_r (fun z => (k < z)%nat) Hk L1).
  - intros k Hk i Hi. unfold part_b, entry. rewrite <- Ep. symmetry. apply (packn_nth_b (K:=RNum) d A B n k i 0 L1); [|exact Hi].
    exact (eq_ind_r (fun z => (k < z)%nat) Hk L2).
Qed.

(** everything free_energy computes *)
Section At.
Context (x : list R) (Hx : length x = (n * d * (d + 1))%nat).
Notation xa := (part_a d (entry x)).
Notation xb := (part_b n d (entry x)).
Notation xm := (path_mn d dt xa xb m0).
Notation xs := (path_sn d dt xa C s0).

Lemma xs_sym k : symm d (xs k).
Proof. exact (sn_sym d dt C s0 xa k Hs0 HC). Qed.
Lemma fe_arraysn : exists (A : list (nat -> nat -> R)) (B : list (nat -> R)) v (mt lam gm : list (nat -> R)) (st psi gs : list (nat -> nat -> R)) en sh,
  unpackn (K:=RNum) n d x = Ok (A, B) /\ length A = n /\ length B = n /\
  (forall k, (k < n)%nat -> eqm d (nth k A mz) (xa k)) /\ (forall k, (k < n)%nat -> eqv d (nth k B vz) (xb k)) /\
  energy A B mt st (Some t) = Ok en /\
  length mt = n /\ length st = n /\ length lam = n /\ length psi = n /\
  like_nd (K:=RNum) ln PI d y t Rn (meye (K:=RNum)) mt st = Ok v /\
  like_grad_nd (K:=RNum) d y t Rn (meye (K:=RNum)) mt = Ok (gm, gs, sh) /\
  fe_core EVn x = Ok (k0 + n_sde en + v, mkOut (E:=EVn) mt st (n_f en) (n_df en) lam psi) /\
  (forall k, (k < n)%nat -> eqv d (nth k mt vz) (xm k) /\ eqm d (nth k st mz) (xs k) /\ symm d (nth k st mz)) /\
  nth (n - 1) lam vz = vz /\ nth (n - 1) psi mz = mz /\
  (forall k, (k < n)%nat -> symm d (nth k psi mz)) /\
  (forall k, (k + 1 < n)%nat ->
    (forall i, (i < d)%nat -> nth k lam vz i = nth (k + 1) lam vz i - dt * Rsum d (fun j => xa (k + 1)%nat i j * nth (k + 1) lam vz j)
       + dt * em (xa (k + 1)%nat) (xb (k + 1)%nat) (xm (k + 1)%nat) (xs (k + 1)%nat) i + nth k gm vz i) /\
    (forall i j, (i < d)%nat -> (j < d)%nat -> nth k psi mz i j = nth (k + 1) psi mz i j
       - dt * (Rsum d (fun l => nth (k + 1) psi mz i l * xa (k + 1)%nat l j) + Rsum d (fun l => xa (k + 1)%nat l i * nth (k + 1) psi mz l j))
       + dt * es (xa (k + 1)%nat) (xb (k + 1)%nat) (xm (k + 1)%nat) (xs (k + 1)%nat) i j + nth k gs mz i j)).
Proof.
  destruct (unpackn_entry x Hx) as (A & B & EU & L1 & L2 & HA & HB).
  destruct (solve_fwd_total (sysn RNum d) Euler dt A B m0 s0 C) as (mt & st & Hf).
  { exact (Nat.eq_le_incl _ _ (eq_trans L2 (eq_sym L1))). } { exact (eq_ind_r (fun z => (0 < z)%nat) Hn L2). }
  change (list (nat -> R)) in mt. change (list (nat -> nat -> R)) in st.
  destruct (euler_fwd_pathn d dt C s0 m0 A B mt st Hf) as (M1 & M2 & Hm). rewrite L2 in M1, M2, Hm.
  assert (Pt : forall k, (k < n)%nat -> eqv d (nth k mt vz) (xm k) /\ eqm d (nth k st mz) (xs k) /\ symm d (nth k st mz)).
  { intros k Hk. destruct (Hm k Hk) as [E1 E2]. rewrite E1, E2.
    destruct (pathn_ext d dt C s0 m0 (fun k => nth k A mz) xa (fun k => nth k B vz) xb k) as [I1 I2];
      [intros j Hj; apply HA; lia|intros j Hj; apply HB; lia|].
    split; [exact I1|]. split; [exact I2|]. exact (sn_sym d dt C s0 (fun k => nth k A mz) k Hs0 HC). }
  assert (Ht' : List.Forall (fun i => (i < length mt)%nat) t) by (rewrite M1; exact Ht).
  assert (Hms : length st = length mt) by (rewrite M1, M2; reflexivity).
  destruct (like_nd_val d y t Rn mt st Hrs Hrp Hy Hms Ht' Hnd) as (Ri0 & _ & Ev).
  destruct (like_grad_nd_val d y t Rn mt st Hrs Hrp Hy Hms Ht' Hnd) as (Ri & gm & gs & HRi & HRis & Eg & G1 & G2 & Gz & Gv).
  change (list (nat -> R)) in gm. change (list (nat -> nat -> R)) in gs.
  assert (G1' : length gm = n) by (transitivity (length mt); [exact G1|exact M1]).
  assert (G2' : length gs = n) by (transitivity (length mt); [exact G2|exact M1]).
  destruct (eok_val _ _ _ _ _ _ _ _ _ EO A B mt st (Some t)) as (en & Een & F1 & F2 & F3 & F4 & Esde & Hpt); [congruence|congruence|congruence|intros o Eo; injection Eo as <-; exact Hst| |].
  { intros k Hk. apply Pt. rewrite <- L1. exact Hk. }
  set (EDM := n_dm en : list (nat -> R)) in *. set (EDS := n_ds en : list (nat -> nat -> R)) in *.
  assert (F3' : length EDM = n) by (transitivity (length A); [exact F3|exact L1]).
  assert (F4' : length EDS = n) by (transitivity (length A); [exact F4|exact L1]).
  assert (X1 : (length EDM <= length A)%nat) by lia. assert (X2 : (length EDM <= length EDS)%nat) by lia.
  assert (X3 : (length EDM - 1 <= length gm)%nat) by lia. assert (X4 : (length EDM - 1 <= length gs)%nat) by lia.
  destruct (solve_bwd_total (sysn RNum d) Euler dt A EDM EDS gm gs X1 X2 X3 X4) as (lam & psi & Hb).
  change (list (nat -> R)) in lam. change (list (nat -> nat -> R)) in psi.
  destruct (euler_bwd_adjn d dt A EDS gs psi EDM gm lam Hb) as (B1 & B2 & Z1 & Z2 & Hl).
  rewrite F3' in B1, B2, Z1, Z2, Hl.
  assert (Adj : forall k, (k + 1 < n)%nat ->
    (forall i, (i < d)%nat -> nth k lam vz i = nth (k + 1) lam vz i - dt * Rsum d (fun j => xa (k + 1)%nat i j * nth (k + 1) lam vz j)
       + dt * em (xa (k + 1)%nat) (xb (k + 1)%nat) (xm (k + 1)%nat) (xs (k + 1)%nat) i + nth k gm vz i) /\
    (forall i j, (i < d)%nat -> (j < d)%nat -> nth k psi mz i j = nth (k + 1) psi mz i j
       - dt * (Rsum d (fun l => nth (k + 1) psi mz i l * xa (k + 1)%nat l j) + Rsum d (fun l => xa (k + 1)%nat l i * nth (k + 1) psi mz l j))
       + dt * es (xa (k + 1)%nat) (xb (k + 1)%nat) (xm (k + 1)%nat) (xs (k + 1)%nat) i j + nth k gs mz i j)).
  { intros k Hk. destruct (Hl k Hk) as [E1 E2].
    destruct (Hpt (k + 1)%nat ltac:(lia)) as (V1 & V2 & _). 
    assert (V1' : forall i, (i < d)%nat -> nth (k + 1) EDM vz i = em (nth (k + 1) A mz) (nth (k + 1) B vz) (nth (k + 1) mt vz) (nth (k + 1) st mz) i) by exact V1.
    assert (V2' : forall i j, (i < d)%nat -> (j < d)%nat -> nth (k + 1) EDS mz i j = es (nth (k + 1) A mz) (nth (k + 1) B vz) (nth (k + 1) mt vz) (nth (k + 1) st mz) i j) by exact V2.
    clear V1 V2.
    destruct (Pt (k + 1)%nat Hk) as (P1 & P2 & _).
    destruct (eok_ext _ _ _ _ _ _ _ _ _ EO _ _ _ _ _ _ _ _ (HA (k + 1)%nat Hk) (HB (k + 1)%nat Hk) P1 P2) as (_ & _ & X5 & _ & X6).
    split.
    - intros i Hi. rewrite (E1 i), (V1' i Hi), (X6 i Hi). f_equal. f_equal. f_equal. f_equal. apply Rsum_ext. intros j Hj.
      rewrite (HA (k + 1)%nat Hk i j Hi Hj). reflexivity.
    - intros i j Hi Hj. rewrite (E2 i j), (V2' i j Hi Hj), (X5 i j Hi Hj). f_equal. f_equal. f_equal. f_equal.
      f_equal; apply Rsum_ext; intros l Hl'; rewrite (HA (k + 1)%nat Hk) by assumption; reflexivity. }
  assert (Gsy : forall k, (k < n)%nat -> symm d (nth k gs mz)).
  { intros k Hk i j Hi Hj. destruct (in_dec Nat.eq_dec k t) as [Hin|Hni].
    - destruct (In_nth _ _ O Hin) as (q & Hq & <-). destruct (Gv q Hq) as [_ Gq]. change zmat with mz in Gq.
      etransitivity; [exact (Gq i j Hi Hj)|]. etransitivity; [|symmetry; exact (Gq j i Hj Hi)]. rewrite (HRis i j Hi Hj). reflexivity.
    - destruct (Gz k Hni) as [_ Gq]. etransitivity; [exact (f_equal (fun z => z i j) Gq)|symmetry; exact (f_equal (fun z => z j i) Gq)]. }
  assert (Psy : forall q k, (q < n)%nat -> k = (n - 1 - q)%nat -> symm d (nth k psi mz)).
  { induction q as [|q IH]; intros k Hq ->.
    - rewrite Nat.sub_0_r, Z2. intros i j _ _. reflexivity.
    - set (k := (n - 1 - Datatypes.S q)%nat). assert (Hk : (k + 1 < n)%nat) by lia.
      assert (IHk : symm d (nth (k + 1) psi mz)) by (apply IH; lia).
      intros i j Hi Hj. destruct (Adj k Hk) as [_ Ap]. rewrite (Ap i j Hi Hj), (Ap j i Hj Hi).
      rewrite (IHk i j Hi Hj), (eok_sym _ _ _ _ _ _ _ _ _ EO _ _ _ _ i j Hi Hj), (Gsy k ltac:(lia) i j Hi Hj).
      rewrite (Rsum_ext d (fun l => nth (k + 1) psi mz i l * xa (k + 1)%nat l j) (fun l => xa (k + 1)%nat l j * nth (k + 1) psi mz l i))
        by (intros l Hll; rewrite (IHk i l Hi Hll); ring).
      rewrite (Rsum_ext d (fun l => nth (k + 1) psi mz j l * xa (k + 1)%nat l i) (fun l => xa (k + 1)%nat l i * nth (k + 1) psi mz l j))
        by (intros l Hll; rewrite (IHk j l Hj Hll); ring).
      ring. }
  exists A, B. eexists. exists mt, lam, gm, st, psi, gs, en. eexists.
  repeat (split; [first [exact EU|exact Ev|exact Eg|assumption]|]).
  split.
  { apply (fe_core_ok EVn x A B mt st (n_f en) EDM lam (n_df en) EDS psi gm gs).
    - exact EU.
    - exact Hf.
    - exact Ev.
    - unfold EVn, vgpn. cbn [v_energy]. change (car RNum) with R. unfold vec, mat. change (car RNum) with R. rewrite Een. reflexivity.
    - unfold EVn, vgpn. cbn [v_like_grad]. unfold vec, mat. change (car RNum) with R. etransitivity; [|reflexivity].
      match goal with |- bind ?z _ = _ => replace z with (Ok (gm, gs, (length mt, length y, length y))) by (symmetry; exact Eg) end. reflexivity.
    - exact Hb.
    - exact Hk0. }
  split; [exact Pt|]. split; [exact Z1|]. split; [exact Z2|]. split; [|exact Adj].
  intros k Hk. apply (Psy (n - 1 - k)%nat); lia.
Qed.

Lemma gradient_entriesn s : exists (g : list R) (mt lam gm : list (nat -> R)) (psi gs : list (nat -> nat -> R)) sh s',
  gradient EVn x true s = (Ok g, s') /\ length g = (n * d * (d + 1))%nat /\ length mt = n /\
  (forall k, (k < n)%nat -> eqv d (nth k mt vz) (xm k)) /\
  like_grad_nd (K:=RNum) d y t Rn (meye (K:=RNum)) mt = Ok (gm, gs, sh) /\
  nth (n - 1) lam vz = vz /\ nth (n - 1) psi mz = mz /\
  (forall k, (k < n)%nat -> symm d (nth k psi mz)) /\
  (forall k, (k + 1 < n)%nat ->
    (forall i, (i < d)%nat -> nth k lam vz i = nth (k + 1) lam vz i - dt * Rsum d (fun j => xa (k + 1)%nat i j * nth (k + 1) lam vz j)
       + dt * em (xa (k + 1)%nat) (xb (k + 1)%nat) (xm (k + 1)%nat) (xs (k + 1)%nat) i + nth k gm vz i) /\
    (forall i j, (i < d)%nat -> (j < d)%nat -> nth k psi mz i j = nth (k + 1) psi mz i j
       - dt * (Rsum d (fun l => nth (k + 1) psi mz i l * xa (k + 1)%nat l j) + Rsum d (fun l => xa (k + 1)%nat l i * nth (k + 1) psi mz l j))
       + dt * es (xa (k + 1)%nat) (xb (k + 1)%nat) (xm (k + 1)%nat) (xs (k + 1)%nat) i j + nth k gs mz i j)) /\
  forall k, (k < n)%nat ->
    (forall i j, (i < d)%nat -> (j < d)%nat -> part_a d (entry g) k i j = dt * (ea (xa k) (xb k) (xm k) (xs k) i j
        - nth k lam vz i * xm k j - 2 * Rsum d (fun l => nth k psi mz i l * xs k l j))) /\
    (forall i, (i < d)%nat -> part_b n d (entry g) k i = dt * (eb (xa k) (xb k) (xm k) (xs k) i + nth k lam vz i)).
Proof.
  destruct fe_arraysn as (A & B & v & mt & lam & gm & st & psi & gs & en & sh & EU & L1 & L2 & HA & HB & Een & M1 & M2 & M3 & M4 & Ev & Eg & Efe & Pt & Z1 & Z2 & Psy & Hadj).
  destruct (eok_val _ _ _ _ _ _ _ _ _ EO A B mt st (Some t)) as (en' & Een' & F1 & F2 & F3 & F4 & Esde & Hpt); [congruence|congruence|congruence|intros o Eo; injection Eo as <-; exact Hst| |].
  { intros k Hk. apply Pt. rewrite <- L1. exact Hk. }
  assert (en' = en) by (rewrite Een in Een'; injection Een' as <-; reflexivity). subst en'. clear Een'.
  set (o := mkOut (E:=EVn) mt st (n_f en) (n_df en) lam psi) in *.
  set (gs_ := map (grad_at EVn A B o) (seq 0 n)).
  set (GA := map (fun g => vscale (v:=matV RNum) dt (fst g)) gs_ : list (nat -> nat -> R)).
  set (GB := map (fun g => vscale (v:=vecV RNum) dt (snd g)) gs_ : list (nat -> R)).
  assert (LA : length GA = n) by (unfold GA, gs_; rewrite !map_length, seq_length; reflexivity).
  assert (LB : length GB = n) by (unfold GB, gs_; rewrite !map_length, seq_length; reflexivity).
  assert (EG : gradient EVn x true s = (Ok (packn (K:=RNum) d GA GB), Some o)).
  { unfold gradient, free_energy. rewrite Efe. unfold grad_core.
    replace (v_unpack EVn x) with (@Ok (list (nat -> nat -> R) * list (nat -> R)) (A, B)) by (symmetry; exact EU).
    cbn [bind].
    assert (Hro : grad_reads_ok EVn A B o = true).
    { unfold grad_reads_ok. apply forallb_forall. intros z Hz. apply Nat.leb_le. change (v_n EVn) with n.
      assert (Hz' : In z [length A; length B; length mt; length st; length (n_f en : list (nat -> R)); length (n_df en : list (nat -> nat -> R)); length lam; length psi]) by exact Hz.
      change (length (n_f en : list (nat -> R)) = length A) in F1. change (length (n_df en : list (nat -> nat -> R)) = length A) in F2.
      rewrite L1, L2, M1, M2, M3, M4, F1, F2, L1 in Hz'. cbn in Hz'. lia. }
    rewrite Hro. reflexivity. }
  assert (GAk : forall k, (k < n)%nat -> nth k GA mz = vscale (v:=matV RNum) dt (fst (grad_at EVn A B o k))).
  { intros k Hk. unfold GA, gs_. rewrite map_map. set (f := fun q => vscale (v:=matV RNum) dt (fst (grad_at EVn A B o q))).
    etransitivity; [apply (nth_indep (map f (seq 0 n)) mz (f O)); rewrite map_length, seq_length; exact Hk|].
    rewrite map_nth, seq_nth by exact Hk. reflexivity. }
  assert (GBk : forall k, (k < n)%nat -> nth k GB vz = vscale (v:=vecV RNum) dt (snd (grad_at EVn A B o k))).
  { intros k Hk. unfold GB, gs_. rewrite map_map. set (f := fun q => vscale (v:=vecV RNum) dt (snd (grad_at EVn A B o q))).
    etransitivity; [apply (nth_indep (map f (seq 0 n)) vz (f O)); rewrite map_length, seq_length; exact Hk|].
    rewrite map_nth, seq_nth by exact Hk. reflexivity. }
  exists (packn (K:=RNum) d GA GB), mt, lam, gm, psi, gs, sh, (Some o).
  split; [exact EG|]. split; [exact (packn_len (K:=RNum) d GA GB n LA LB)|]. split; [exact M1|].
  split; [intros k Hk; apply Pt, Hk|]. split; [exact Eg|]. split; [exact Z1|]. split; [exact Z2|]. split; [exact Psy|]. split; [exact Hadj|].
  intros k Hk. destruct (Hpt k ltac:(rewrite L1; exact Hk)) as (_ & _ & V3 & V4).
  destruct (Pt k Hk) as (P1 & P2 & _).
  destruct (eok_ext _ _ _ _ _ _ _ _ _ EO _ _ _ _ _ _ _ _ (HA k Hk) (HB k Hk) P1 P2) as (_ & X1 & _ & X2 & _).
  split.
  - intros i j Hi Hj. unfold part_a, entry.
    etransitivity; [apply (packn_nth_a (K:=RNum) d GA GB k i j 0); [exact (eq_ind_r (fun z => (k < z)%nat) Hk LA)|exact Hi|exact Hj]|].
    etransitivity; [exact (f_equal (fun z => z i j) (GAk k Hk))|].
    change (dt * (dEsde_dan (K:=RNum) d P (nth k A mz) (nth k mt vz) (nth k st mz) (nth k (n_df en) mz)
        (dEsde_dbn (K:=RNum) d P (nth k (n_f en) vz) (nth k mt vz) (nth k A mz) (nth k B vz)) i j
        - nth k lam vz i * nth k mt vz j - 2 * Rsum d (fun l => nth k psi mz i l * nth k st mz l j)) =
      dt * (ea (xa k) (xb k) (xm k) (xs k) i j - nth k lam vz i * xm k j - 2 * Rsum d (fun l => nth k psi mz i l * xs k l j))).
    rewrite (V4 i j Hi Hj), (X1 i j Hi Hj), (P1 j Hj). f_equal. f_equal. f_equal. apply Rsum_ext. intros l Hl. rewrite (P2 l j Hl Hj). reflexivity.
  - intros i Hi. unfold part_b, entry.
    etransitivity; [apply (packn_nth_b (K:=RNum) d GA GB n k i 0); [exact LA|exact (eq_ind_r (fun z => (k < z)%nat) Hk LB)|exact Hi]|].
    etransitivity; [exact (f_equal (fun z => z i) (GBk k Hk))|].
    change (dt * (dEsde_dbn (K:=RNum) d P (nth k (n_f en) vz) (nth k mt vz) (nth k A mz) (nth k B vz) i + nth k lam vz i) =
      dt * (eb (xa k) (xb k) (xm k) (xs k) i + nth k lam vz i)).
    rewrite (V3 i Hi), (X2 i Hi). reflexivity.
Qed.

Lemma pairing_n s (u : nat -> R) : let ua := part_a d u in let ub := part_b n d u in
  exists (g : list R) (mt gm : list (nat -> R)) (gs : list (nat -> nat -> R)) sh s',
  gradient EVn x true s = (Ok g, s') /\ length g = (n * d * (d + 1))%nat /\ length mt = n /\
  (forall k, (k < n)%nat -> eqv d (nth k mt vz) (xm k)) /\
  like_grad_nd (K:=RNum) d y t Rn (meye (K:=RNum)) mt = Ok (gm, gs, sh) /\
  Rsum (length g) (fun q => entry g q * u q) =
    dt * Rsum n (fun k => dots d (ea (xa k) (xb k) (xm k) (xs k)) (ua k) + dot d (eb (xa k) (xb k) (xm k) (xs k)) (ub k)
       + dot d (em (xa k) (xb k) (xm k) (xs k)) (dtm d dt m0 xa ua xb ub k) + dots d (es (xa k) (xb k) (xm k) (xs k)) (dsn d dt C s0 xa ua k))
    + Rsum (n - 1) (fun k => dot d (nth k gm vz) (dtm d dt m0 xa ua xb ub (k + 1)) + dots d (nth k gs mz) (dsn d dt C s0 xa ua (k + 1))).
Proof.
  intros ua ub.
  destruct (gradient_entriesn s) as (g & mt & lam & gm & psi & gs & sh & s' & EG & LG & M1 & Pt & Eg & Z1 & Z2 & Psy & Hadj & Hent).
  exists g, mt, gm, gs, sh, s'. repeat (split; [assumption|]).
  pose proof (lam_sum d n dt m0 xa ua xb ub (fun k => nth k lam vz) (fun k => em (xa k) (xb k) (xm k) (xs k)) (fun k => nth k gm vz)
    (fun i _ => f_equal (fun z => z i) Z1) (fun k i Hk Hi => proj1 (Hadj k Hk) i Hi)) as SL.
  pose proof (psi_sum d n dt C s0 xa ua (fun k => nth k psi mz) (fun k => es (xa k) (xb k) (xm k) (xs k)) (fun k => nth k gs mz)
    (fun i j _ _ => f_equal (fun z => z i j) Z2) (fun k i j Hk Hi Hj => proj2 (Hadj k Hk) i j Hi Hj)) as SP.
  rewrite LG, flat_sum.
  transitivity (Rsum n (fun k => dt * (dots d (ea (xa k) (xb k) (xm k) (xs k)) (ua k) + dot d (eb (xa k) (xb k) (xm k) (xs k)) (ub k))
     + (dt * dot d (nth k lam vz) (fun i => ub k i - Rsum d (fun j => ua k i j * xm k j))
        + dt * dots d (nth k psi mz) (fun i j => - Rsum d (fun l => ua k i l * xs k l j) - Rsum d (fun l => xs k i l * ua k j l))))).
  { apply Rsum_ext. intros k Hk. destruct (Hent k Hk) as [Ha Hb].
    pose proof (psi_pair d dt C s0 xa ua (fun k => nth k psi mz) k (Psy k Hk) (xs_sym k)) as PP. unfold sn in PP. cbv beta in PP. rewrite PP. clear PP.
    rewrite (dot_ext d (nth k lam vz) (nth k lam vz) _ (fun i => 1 * ub k i + (-1) * Rsum d (fun j => ua k i j * xm k j))) by (intros; ring).
    rewrite (dot_lin d (nth k lam vz) (ub k) (fun i => Rsum d (fun j => ua k i j * xm k j))).
    assert (E1 : Rsum d (fun i => Rsum d (fun j => part_a d (fun q => entry g q * u q) k i j)) =
       dt * (dots d (ea (xa k) (xb k) (xm k) (xs k)) (ua k) - dot d (nth k lam vz) (fun i => Rsum d (fun j => ua k i j * xm k j))
             - 2 * dots d (fun i j => Rsum d (fun l => nth k psi mz i l * xs k l j)) (ua k))).
    { set (ps := fun i j => Rsum d (fun l => nth k psi mz i l * xs k l j)).
      transitivity (dots d (ua k) (fun i j => dt * (1 * ea (xa k) (xb k) (xm k) (xs k) i j + (-1) * (nth k lam vz i * xm k j)) + (-2 * dt) * ps i j)).
      { unfold dots. apply Rsum_ext. intros i Hi. apply Rsum_ext. intros j Hj.
        change (part_a d (fun q => entry g q * u q) k i j) with (part_a d (entry g) k i j * ua k i j). rewrite (Ha i j Hi Hj). unfold ps. ring. }
      rewrite (dots_lin d (ua k) (fun i j => 1 * ea (xa k) (xb k) (xm k) (xs k) i j + (-1) * (nth k lam vz i * xm k j)) ps).
      rewrite (dots_lin d (ua k) (ea (xa k) (xb k) (xm k) (xs k)) (fun i j => nth k lam vz i * xm k j)).
      assert (E2 : dots d (ua k) (fun i j => nth k lam vz i * xm k j) = dot d (nth k lam vz) (fun i => Rsum d (fun j => ua k i j * xm k j))).
      { unfold dots, dot. apply Rsum_ext. intros i Hi. rewrite <- Rsum_scal. apply Rsum_ext. intros; ring. }
      rewrite E2, (dots_sym d (ua k)), (dots_sym d (ua k) ps). ring. }
    assert (E3 : Rsum d (fun i => part_b n d (fun q => entry g q * u q) k i) =
       dt * (dot d (eb (xa k) (xb k) (xm k) (xs k)) (ub k) + dot d (nth k lam vz) (ub k))).
    { transitivity (dot d (ub k) (fun i => dt * eb (xa k) (xb k) (xm k) (xs k) i + dt * nth k lam vz i)).
      { unfold dot. apply Rsum_ext. intros i Hi.
        change (part_b n d (fun q => entry g q * u q) k i) with (part_b n d (entry g) k i * ub k i). rewrite (Hb i Hi). ring. }
      rewrite dot_lin, !(dot_sym d (ub k)). ring. }
    rewrite E1, E3. ring. }
  rewrite (Rsum_plus n (fun k => dt * (dots d (ea (xa k) (xb k) (xm k) (xs k)) (ua k) + dot d (eb (xa k) (xb k) (xm k) (xs k)) (ub k)))
     (fun k => dt * dot d (nth k lam vz) (fun i => ub k i - Rsum d (fun j => ua k i j * xm k j))
        + dt * dots d (nth k psi mz) (fun i j => - Rsum d (fun l => ua k i l * xs k l j) - Rsum d (fun l => xs k i l * ua k j l)))).
  rewrite (Rsum_plus n (fun k => dt * dot d (nth k lam vz) (fun i => ub k i - Rsum d (fun j => ua k i j * xm k j)))
     (fun k => dt * dots d (nth k psi mz) (fun i j => - Rsum d (fun l => ua k i l * xs k l j) - Rsum d (fun l => xs k i l * ua k j l)))).
  etransitivity; [apply f_equal; exact (f_equal2 Rplus SL SP)|].
  rewrite <- (Rsum_scal n dt).
  rewrite (Rsum_plus (n - 1) (fun k => dot d (nth k gm vz) (dtm d dt m0 xa ua xb ub (k + 1))) (fun k => dots d (nth k gs mz) (dsn d dt C s0 xa ua (k + 1)))).
  rewrite (Rsum_ext n (fun k => dt * (dots d (ea (xa k) (xb k) (xm k) (xs k)) (ua k) + dot d (eb (xa k) (xb k) (xm k) (xs k)) (ub k)
       + dot d (em (xa k) (xb k) (xm k) (xs k)) (dtm d dt m0 xa ua xb ub k) + dots d (es (xa k) (xb k) (xm k) (xs k)) (dsn d dt C s0 xa ua k)))
    (fun k => dt * (dots d (ea (xa k) (xb k) (xm k) (xs k)) (ua k) + dot d (eb (xa k) (xb k) (xm k) (xs k)) (ub k))
      + (dt * dot d (em (xa k) (xb k) (xm k) (xs k)) (dtm d dt m0 xa ua xb ub k) + dt * dots d (es (xa k) (xb k) (xm k) (xs k)) (dsn d dt C s0 xa ua k)))) by (intros; ring).
  rewrite (Rsum_plus n (fun k => dt * (dots d (ea (xa k) (xb k) (xm k) (xs k)) (ua k) + dot d (eb (xa k) (xb k) (xm k) (xs k)) (ub k)))
     (fun k => dt * dot d (em (xa k) (xb k) (xm k) (xs k)) (dtm d dt m0 xa ua xb ub k) + dt * dots d (es (xa k) (xb k) (xm k) (xs k)) (dsn d dt C s0 xa ua k))).
  rewrite (Rsum_plus n (fun k => dt * dot d (em (xa k) (xb k) (xm k) (xs k)) (dtm d dt m0 xa ua xb ub k)) (fun k => dt * dots d (es (xa k) (xb k) (xm k) (xs k)) (dsn d dt C s0 xa ua k))).
  ring.
Qed.
End At.
End Whole.
