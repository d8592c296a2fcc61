(** * The last grid point of the gradient for Lorenz 96 (used for C31). *)
From Coq Require Import ZArith List Bool Arith Reals Lra Lia FunctionalExtensionality Sorted.
From Coquelicot Require Import Coquelicot.
From Verif Require Import Num Arr ArrFacts M_LinAlg M_Utils M_Ode M_Moments M_Sde1 M_L63 M_L96 M_L96E M_Prior M_Like M_VarGP
  Spec_Utils Spec_Det Spec_Gauss Spec_GaussN Spec_Sde1 Spec_L63 Spec_L96 Spec_L96E Spec_Prior Spec_Like Spec_VarGP Spec_GradN
  P_Ode P_Trapz P_Sde1 P_RMat P_Det P_GaussN P_Prior P_Like P_L63 P_L96 P_Ut P_L96E P_L96F P_L96G P_L96I P_VarGP P_Adjoint P_Oper P_GradN P_GradN2 P_GradN3 P_GradL63 P_GradL63T.
Import ListNotations.
Local Open Scope R_scope.

(** ** free_energy and the last entries of gradient(), for any energy that returns arrays of the right lengths *)
Section Gen.
Context (d : nat) (energy : list (nat -> nat -> R) -> list (nat -> R) -> list (nat -> R) -> list (nat -> nat -> R) ->
    option (list nat) -> result (EnergyN RNum)) (P : nat -> nat -> R) (dt : R).
Context (n : nat) (C s0 : nat -> nat -> R) (m0 mu : nat -> R) (tau Rn : nat -> nat -> R) (y : list (nat -> R)) (t : list nat) (k0 : R).
Context (Hn : (0 < n)%nat) (Hs0 : symm d s0) (HC : symm d C) (Hrs : symm d Rn) (Hrp : posdef d Rn)
  (Hy : length y = length t) (Ht : List.Forall (fun i => (i < n)%nat) t) (Hnd : NoDup t)
  (Hk0 : kl0_nd (K:=RNum) ln d mu tau m0 s0 = Ok k0).
Notation EE := (EVn d energy P dt n C s0 m0 mu tau Rn y t).
Context (x : list R) (Hx : length x = (n * d * (d + 1))%nat).
Notation xa := (part_a d (entry x)).
Notation xb := (part_b n d (entry x)).
Notation xm := (path_mn d dt xa xb m0).
Notation xs := (path_sn d dt xa C s0).

Lemma fe_lastn : exists (A : list (nat -> nat -> R)) (B mt : list (nat -> R)) (st : list (nat -> nat -> R)),
  length A = n /\ length B = n /\ length mt = n /\ length st = n /\
  (forall k, (k < n)%nat -> eqm d (nth k A mz) (xa k)) /\ (forall k, (k < n)%nat -> eqv d (nth k B vz) (xb k)) /\
  (forall k, (k < n)%nat -> eqv d (nth k mt vz) (xm k) /\ eqm d (nth k st mz) (xs k) /\ symm d (nth k st mz)) /\
  forall en, energy A B mt st (Some t) = Ok en ->
  length (n_f en) = n -> length (n_df en) = n -> length (n_dm en) = n -> length (n_ds en) = n ->
  (forall Ri s, is_inv d Rn Ri -> fst (free_energy EE x s) = Ok (k0 + n_sde en
     + Rsum (length t) (fun j => lterm_n d Ri Rn (nth j y vz) (xm (nth j t O)) (xs j)))) /\
  forall s, exists g, fst (gradient EE x true s) = Ok g /\ length g = (n * d * (d + 1))%nat /\
    let k := (n - 1)%nat in
    let gb := dEsde_dbn (K:=RNum) d P (nth k (n_f en) vz) (nth k mt vz) (nth k A mz) (nth k B vz) in
    (forall i j, (i < d)%nat -> (j < d)%nat ->
       part_a d (entry g) k i j = dt * dEsde_dan (K:=RNum) d P (nth k A mz) (nth k mt vz) (nth k st mz) (nth k (n_df en) mz) gb i j) /\
    (forall i, (i < d)%nat -> part_b n d (entry g) k i = dt * gb i).
Proof.
  destruct (unpackn_entry d n x Hx) as (A & B & EU & L1 & L2 & HA & HB).
  destruct (solve_fwd_total (sysn RNum d) Euler dt A B m0 s0 C) as (mt & st & Hf).
  { exact (Nat.eq_le_incl _ _ (eq_trans L2 (eq_sym L1))). } { exact (eq_ind_r (fun z => (0 < z)%nat) Hn L2). }
  change (list (nat -> R)) in mt. change (list (nat -> nat -> R)) in st.
  destruct (euler_fwd_pathn d dt C s0 m0 A B mt st Hf) as (M1 & M2 & Hm). rewrite L2 in M1, M2, Hm.
  assert (Pt : forall k, (k < n)%nat -> eqv d (nth k mt vz) (xm k) /\ eqm d (nth k st mz) (xs k) /\ symm d (nth k st mz)).
  { intros k Hk. destruct (Hm k Hk) as [E1 E2]. rewrite E1, E2.
    destruct (pathn_ext d dt C s0 m0 (fun k => nth k A mz) xa (fun k => nth k B vz) xb k) as [I1 I2];
      [intros j Hj; apply HA; lia|intros j Hj; apply HB; lia|].
    split; [exact I1|]. split; [exact I2|]. exact (sn_sym d dt C s0 (fun k => nth k A mz) k Hs0 HC). }
  exists A, B, mt, st. do 7 (split; [assumption|]).
  intros en Een F1 F2 F3 F4.
  assert (Ht' : List.Forall (fun i => (i < length mt)%nat) t) by (rewrite M1; exact Ht).
  assert (Hms : length st = length mt) by (rewrite M1, M2; reflexivity).
  destruct (like_nd_val d y t Rn mt st Hrs Hrp Hy Hms Ht' Hnd) as (Ri0 & _ & Ev).
  destruct (like_grad_nd_val d y t Rn mt st Hrs Hrp Hy Hms Ht' Hnd) as (Rj & gm & gs & _ & _ & Eg & G1 & G2 & _ & _).
  change (list (nat -> R)) in gm. change (list (nat -> nat -> R)) in gs.
  assert (G1' : length gm = n) by (transitivity (length mt); [exact G1|exact M1]).
  assert (G2' : length gs = n) by (transitivity (length mt); [exact G2|exact M1]).
  set (EDM := n_dm en : list (nat -> R)) in *. set (EDS := n_ds en : list (nat -> nat -> R)) in *.
  assert (F3' : length EDM = n) by exact F3. assert (F4' : length EDS = n) by exact F4.
  assert (X1 : (length EDM <= length A)%nat) by lia. assert (X2 : (length EDM <= length EDS)%nat) by lia.
  assert (X3 : (length EDM - 1 <= length gm)%nat) by lia. assert (X4 : (length EDM - 1 <= length gs)%nat) by lia.
  destruct (solve_bwd_total (sysn RNum d) Euler dt A EDM EDS gm gs X1 X2 X3 X4) as (lam & psi & Hb).
  change (list (nat -> R)) in lam. change (list (nat -> nat -> R)) in psi.
  destruct (euler_bwd_adjn d dt A EDS gs psi EDM gm lam Hb) as (B1 & B2 & Z1 & Z2 & _).
  rewrite F3' in B1, B2, Z1, Z2.
  set (v := Rsum (length t) _) in Ev.
  set (o := mkOut (E:=EE) mt st (n_f en) (n_df en) lam psi).
  assert (Efe : fe_core EE x = Ok (k0 + n_sde en + v, o)).
  { apply (fe_core_ok EE x A B mt st (n_f en) EDM lam (n_df en) EDS psi gm gs).
    - exact EU.
    - exact Hf.
    - exact Ev.
    - unfold EVn, vgpn. cbn [v_energy]. change (car RNum) with R. unfold vec, mat. change (car RNum) with R. rewrite Een. reflexivity.
    - unfold EVn, vgpn. cbn [v_like_grad]. unfold vec, mat. change (car RNum) with R. etransitivity; [|reflexivity].
      match goal with |- bind ?z _ = _ => replace z with (Ok (gm, gs, (length mt, length y, length y))) by (symmetry; exact Eg) end. reflexivity.
    - exact Hb.
    - exact Hk0. }
  split.
  { intros Ri s HRi. unfold free_energy. rewrite Efe. cbn [fst]. f_equal. f_equal.
    apply (like_fixed d n Rn y t Hn Hrs Hrp Hy Ht Hnd Ri mt st xm xs v HRi M1 M2); [|exact Ev].
    intros k Hk. destruct (Pt k Hk) as (P1 & P2 & _). split; assumption. }
  intros s.
  set (gs_ := map (grad_at EE A B o) (seq 0 n)).
  set (GA := map (fun g => vscale (v:=matV RNum) dt (fst g)) gs_ : list (nat -> nat -> R)).
  set (GB := map (fun g => vscale (v:=vecV RNum) dt (snd g)) gs_ : list (nat -> R)).
  assert (LA : length GA = n) by (unfold GA, gs_; rewrite !map_length, seq_length; reflexivity).
  assert (LB : length GB = n) by (unfold GB, gs_; rewrite !map_length, seq_length; reflexivity).
  assert (EG : gradient EE x true s = (Ok (packn (K:=RNum) d GA GB), Some o)).
  { unfold gradient, free_energy. rewrite Efe. unfold grad_core.
    replace (v_unpack EE x) with (@Ok (list (nat -> nat -> R) * list (nat -> R)) (A, B)) by (symmetry; exact EU).
    cbn [bind].
    assert (Hro : grad_reads_ok EE A B o = true).
    { unfold grad_reads_ok. apply forallb_forall. intros z Hz. apply Nat.leb_le. change (v_n EE) with n.
      assert (Hz' : In z [length A; length B; length mt; length st; length (n_f en : list (nat -> R)); length (n_df en : list (nat -> nat -> R)); length lam; length psi]) by exact Hz.
      change (length (n_f en : list (nat -> R)) = n) in F1. change (length (n_df en : list (nat -> nat -> R)) = n) in F2.
      rewrite L1, L2, M1, M2, B1, B2, F1, F2 in Hz'. cbn in Hz'. lia. }
    rewrite Hro. reflexivity. }
  set (k := (n - 1)%nat). assert (Hk : (k < n)%nat) by (unfold k; lia).
  assert (GAk : nth k GA mz = vscale (v:=matV RNum) dt (fst (grad_at EE A B o k))).
  { unfold GA, gs_. rewrite map_map. set (f := fun q => vscale (v:=matV RNum) dt (fst (grad_at EE A B o q))).
    etransitivity; [apply (nth_indep (map f (seq 0 n)) mz (f O)); rewrite map_length, seq_length; exact Hk|].
    rewrite map_nth, seq_nth by exact Hk. reflexivity. }
  assert (GBk : nth k GB vz = vscale (v:=vecV RNum) dt (snd (grad_at EE A B o k))).
  { unfold GB, gs_. rewrite map_map. set (f := fun q => vscale (v:=vecV RNum) dt (snd (grad_at EE A B o q))).
    etransitivity; [apply (nth_indep (map f (seq 0 n)) vz (f O)); rewrite map_length, seq_length; exact Hk|].
    rewrite map_nth, seq_nth by exact Hk. reflexivity. }
  exists (packn (K:=RNum) d GA GB). split; [rewrite EG; reflexivity|]. split; [exact (packn_len (K:=RNum) d GA GB n LA LB)|].
  cbv zeta. fold k in Z1, Z2. split.
  - intros i j Hi Hj. unfold part_a, entry.
    etransitivity; [apply (packn_nth_a (K:=RNum) d GA GB k i j 0); [exact (eq_ind_r (fun z => (k < z)%nat) Hk LA)|exact Hi|exact Hj]|].
    etransitivity; [exact (f_equal (fun z => z i j) GAk)|].
    change (dt * (dEsde_dan (K:=RNum) d P (nth k A mz) (nth k mt vz) (nth k st mz) (nth k (n_df en) mz)
        (dEsde_dbn (K:=RNum) d P (nth k (n_f en) vz) (nth k mt vz) (nth k A mz) (nth k B vz)) i j
        - nth k lam vz i * nth k mt vz j - 2 * Rsum d (fun l => nth k psi mz i l * nth k st mz l j)) =
      dt * dEsde_dan (K:=RNum) d P (nth k A mz) (nth k mt vz) (nth k st mz) (nth k (n_df en) mz)
        (dEsde_dbn (K:=RNum) d P (nth k (n_f en) vz) (nth k mt vz) (nth k A mz) (nth k B vz)) i j).
    rewrite Z1, Z2. rewrite (Rsum_zero d) by (intros l Hl; ring). ring.
  - intros i Hi. unfold part_b, entry.
    etransitivity; [apply (packn_nth_b (K:=RNum) d GA GB n k i 0); [exact LA|exact (eq_ind_r (fun z => (k < z)%nat) Hk LB)|exact Hi]|].
    etransitivity; [exact (f_equal (fun z => z i) GBk)|].
    change (dt * (dEsde_dbn (K:=RNum) d P (nth k (n_f en) vz) (nth k mt vz) (nth k A mz) (nth k B vz) i + nth k lam vz i) =
      dt * dEsde_dbn (K:=RNum) d P (nth k (n_f en) vz) (nth k mt vz) (nth k A mz) (nth k B vz) i).
    rewrite Z1. ring.
Qed.
End Gen.

(** ** third moments of the points *)
Section Third.
Context (d : nat) (S L : nat -> nat -> R) (m : nat -> R) (Hd : (0 < d)%nat) (HL : scaled_root d S L).
Notation X := (sig_pt d m L).
Lemma uavg_dev3 a b c : uavg d (fun r => (X r a - m a) * (X r b - m b) * (X r c - m c)) = 0.
Proof.
  rewrite (uavg_split d). rewrite (Rsum_zero d).
  - cbn [sig_pt]. ring.
  - intros i Hi. rewrite !(sig_p d L m Hd i) by exact Hi. rewrite !(sig_m d L m Hd i) by exact Hi. ring.
Qed.
Lemma uavg_x a : (a < d)%nat -> uavg d (fun r => X r a) = m a.
Proof. intros Ha. exact (exp_mean _ _ _ _ (uavg_expect d S L Hd HL m) a Ha). Qed.
Lemma uavg_xx a b : (a < d)%nat -> (b < d)%nat -> uavg d (fun r => X r a * X r b) = S a b + m a * m b.
Proof. intros Ha Hb. exact (exp_cov _ _ _ _ (uavg_expect d S L Hd HL m) a b Ha Hb). Qed.
Lemma uavg_xxx a b c : (a < d)%nat -> (b < d)%nat -> (c < d)%nat ->
  uavg d (fun r => X r a * X r b * X r c) = m a * m b * m c + m a * S b c + m b * S a c + m c * S a b.
Proof.
  intros Ha Hb Hc. rewrite (uavg_ext d _ (fun r => (X r a - m a) * (X r b - m b) * (X r c - m c)
    + (m a * (X r b * X r c) + (m b * (X r a * X r c) + (m c * (X r a * X r b)
    + (- m a * m b * X r c + (- m a * m c * X r b + (- m b * m c * X r a + m a * m b * m c)))))))) by (intros; ring).
  rewrite !uavg_plus, !uavg_scal, uavg_dev3, !uavg_xx, !uavg_x, uavg_const by assumption. ring.
Qed.
(** average of drift times state at sites away from the seam: the Gaussian value *)
Lemma uavg_fx u j k : (2 <= j)%nat -> (j + 1 < d)%nat -> (k < d)%nat ->
  uavg d (fun r => ring_drift (2 * d + 1) d u X r j * X r k) =
  Rsum d (fun l => E96_drift_dx (K:=RNum) d m j l * S l k) + E96_drift (K:=RNum) d u m S j * m k.
Proof.
  intros H1 H2 Hk. assert (Hj : (j < d)%nat) by lia.
  rewrite (uavg_ext d _ (fun r => f96 d u (X r) j * X r k)).
  2:{ intros r Hr. rewrite <- batch_ring by lia. rewrite l96_batch_interior by lia. f_equal. apply l96_f96. lia. }
  pose proof (nxt_lt d j Hj) as Hn. pose proof (prv_lt d j Hj) as Hp. pose proof (prv_lt d _ Hp) as Hpp.
  destruct (cyc_distinct d j ltac:(lia) Hj) as (D1 & D2 & D3 & D4 & D5 & D6).
  rewrite E96_ix by exact Hj. unfold f96.
  assert (ES : Rsum d (fun l => E96_drift_dx (K:=RNum) d m j l * S l k) =
    (m (nxt d j) - m (prv d (prv d j))) * S (prv d j) k - m (prv d j) * S (prv d (prv d j)) k + m (prv d j) * S (nxt d j) k - S j k).
  { rewrite (Rsum_ext d _ (fun l => (if Nat.eqb l (prv d j) then (m (nxt d j) - m (prv d (prv d j))) * S l k else 0)
      + ((if Nat.eqb l (prv d (prv d j)) then - m (prv d j) * S l k else 0)
      + ((if Nat.eqb l (nxt d j) then m (prv d j) * S l k else 0) + (if Nat.eqb l j then - S l k else 0))))).
    2:{ intros l Hl. rewrite E96_dx_ix by exact Hj.
        destruct (Nat.eqb_spec l (prv d j)), (Nat.eqb_spec l (prv d (prv d j))), (Nat.eqb_spec l (nxt d j)), (Nat.eqb_spec l j); try congruence; ring. }
    rewrite !Rsum_plus.
    rewrite (Rsum_single d _ (prv d j) Hp) by (intros l _ Hne; apply Nat.eqb_neq in Hne; rewrite Hne; reflexivity).
    rewrite (Rsum_single d _ (prv d (prv d j)) Hpp) by (intros l _ Hne; apply Nat.eqb_neq in Hne; rewrite Hne; reflexivity).
    rewrite (Rsum_single d _ (nxt d j) Hn) by (intros l _ Hne; apply Nat.eqb_neq in Hne; rewrite Hne; reflexivity).
    rewrite (Rsum_single d _ j Hj) by (intros l _ Hne; apply Nat.eqb_neq in Hne; rewrite Hne; reflexivity).
    rewrite !Nat.eqb_refl. ring. }
  rewrite ES. clear ES. set (a := nxt d j) in *. set (b := prv d j) in *. set (c := prv d b) in *.
  rewrite (uavg_ext d _ (fun r => X r a * X r b * X r k + (-1 * (X r c * X r b * X r k) + (-1 * (X r j * X r k) + u j * X r k)))) by (intros; ring).
  rewrite !uavg_plus, !uavg_scal, !uavg_xxx, uavg_xx, uavg_x by assumption. req. ring.
Qed.
End Third.

(** ** extensionality and a change of one row *)
Lemma posdef_eqm d A B : eqm d A B -> posdef d A -> posdef d B.
Proof.
  intros H HA v Hv. specialize (HA v Hv). unfold quad in *. eapply Rlt_le_trans; [exact HA|]. right.
  apply Rsum_ext. intros i Hi. apply Rsum_ext. intros j Hj. rewrite (H i j Hi Hj). reflexivity.
Qed.
Lemma root_eqm d S S' L : eqm d S S' -> scaled_root d S L -> scaled_root d S' L.
Proof. intros H [H1 H2]. split; [exact H1|]. intros i j Hi Hj. rewrite H2, (H i j Hi Hj) by assumption. reflexivity. Qed.
Lemma sig_pt_m d m m' L : eqv d m m' -> forall r i, (i < d)%nat -> sig_pt d m L r i = sig_pt d m' L r i.
Proof. intros H r i Hi. destruct r as [|r]; cbn [sig_pt]; rewrite (H i Hi); reflexivity. Qed.

Section Row.
Context (d : nat) (u q : nat -> R) (Hd : (0 < d)%nat).
Lemma mpt_change A A' b b' m m' S S' (w : nat -> nat -> R) : symm d S -> posdef d S -> symm d S' ->
  eqv d m m' -> eqm d S S' ->
  (forall r i, (r < 2 * d + 1)%nat -> (i < d)%nat ->
     Rsum d (fun k => A' i k * sig_pt d m (rootf d S) r k) - b' i = Rsum d (fun k => A i k * sig_pt d m (rootf d S) r k) - b i + w r i) ->
  forall r i, (r < 2 * d + 1)%nat -> (i < d)%nat -> mpt d u A' b' m' S' r i = mpt d u A b m S r i + w r i.
Proof.
  intros Hs Hp Hs' Hm HS Hw r i Hr Hi.
  pose proof (posdef_eqm d S S' HS Hp) as Hp'.
  pose proof (root_eqm d S S' _ HS (rootf_ok d S Hd Hs Hp)) as HR.
  rewrite (mpt_root d S' (rootf d S) Hd Hs' Hp' HR) by assumption.
  unfold mpt. specialize (Hw r i Hr Hi). unfold misfit.
  assert (E1 : ring_drift (2 * d + 1) d u (sig_pt d m' (rootf d S)) r i = ring_drift (2 * d + 1) d u (sig_pt d m (rootf d S)) r i).
  { apply ring_ext; try assumption. intros r' i' _ Hi'. symmetry. apply sig_pt_m; assumption. }
  assert (E2 : Rsum d (fun k => A' i k * sig_pt d m' (rootf d S) r k) = Rsum d (fun k => A' i k * sig_pt d m (rootf d S) r k)).
  { apply Rsum_ext. intros k Hk. rewrite (sig_pt_m d m m') by assumption. reflexivity. }
  lra.
Qed.
Lemma uavg_row A A' b b' m m' S S' j (w : nat -> R) h : symm d S -> posdef d S -> symm d S' ->
  eqv d m m' -> eqm d S S' -> (j < d)%nat ->
  (forall r i, (r < 2 * d + 1)%nat -> (i < d)%nat ->
     Rsum d (fun k => A' i k * sig_pt d m (rootf d S) r k) - b' i = Rsum d (fun k => A i k * sig_pt d m (rootf d S) r k) - b i + (if Nat.eqb i j then h * w r else 0)) ->
  uavg d (hpt d u q A' b' m' S') = uavg d (hpt d u q A b m S)
    + (h * (q j * uavg d (fun r => mpt d u A b m S r j * w r)) + h ^ 2 * (q j / 2 * uavg d (fun r => w r ^ 2))).
Proof.
  intros Hs Hp Hs' Hm HS Hj Hw.
  pose proof (mpt_change A A' b b' m m' S S' (fun r i => if Nat.eqb i j then h * w r else 0) Hs Hp Hs' Hm HS Hw) as E.
  rewrite <- (uavg_scal d (fun r => w r ^ 2)), <- (uavg_scal d _ (q j)), <- !(uavg_scal d _ h), <- (uavg_scal d _ (h ^ 2)), <- !uavg_plus. apply uavg_ext. intros r Hr.
  unfold hpt. rewrite (Rsum_ext d (fun i => q i * mpt d u A' b' m' S' r i ^ 2)
    (fun i => q i * mpt d u A b m S r i ^ 2 + (if Nat.eqb i j then q j * (2 * (h * w r) * mpt d u A b m S r j + (h * w r) ^ 2) else 0))).
  - rewrite Rsum_plus. rewrite (Rsum_single d (fun i => if Nat.eqb i j then _ else 0) j Hj).
    + rewrite Nat.eqb_refl. field.
    + intros i _ Hne. apply Nat.eqb_neq in Hne. rewrite Hne. reflexivity.
  - intros i Hi. rewrite (E r i Hr Hi). destruct (Nat.eqb_spec i j) as [->|]; ring.
Qed.
End Row.

Lemma lterm_ext d Ri Rn y m m' S S' : eqv d m m' -> eqm d S S' -> lterm_n d Ri Rn y m S = lterm_n d Ri Rn y m' S'.
Proof.
  intros Hm HS. unfold lterm_n.
  rewrite (quad_ext d Ri Ri (fun i => y i - m i) (fun i => y i - m' i)); [|intros i j _ _; reflexivity|intros i Hi; rewrite (Hm i Hi); reflexivity].
  rewrite (Rsum_ext d (fun i => Ri i i * S i i) (fun i => Ri i i * S' i i)) by (intros i Hi; rewrite (HS i i Hi Hi); reflexivity).
  reflexivity.
Qed.
Lemma trap_last n f g dt : (2 <= n)%nat -> (forall k, (k < n - 1)%nat -> g k = 0) ->
  trap n (fun k => f k + g k) dt = trap n f dt + dt / 2 * g (n - 1)%nat.
Proof.
  intros H2 Hg. transitivity (1 * trap n f dt + 1 * trap n g dt); [rewrite <- trap_lin; apply trap_ext; intros; ring|].
  assert (T : trap n g dt = dt / 2 * g (n - 1)%nat).
  { unfold trap. assert (En : exists q, (n - 1)%nat = S q) by (exists (n - 2)%nat; lia). destruct En as [q Eq]. rewrite Eq in *.
    cbn [Rsum]. rewrite (Rsum_zero q) by (intros k Hk; rewrite (Hg k), (Hg (k + 1)%nat) by lia; field). rewrite (Hg q) by lia. replace (q + 1)%nat with (S q) by lia. field. }
  rewrite T. ring.
Qed.

Section L96.
Context (solve : nat -> (nat -> nat -> R) -> result ((nat -> R) -> nat -> R)) (Hsol : solver_ok solve).
Context (n d : nat) (dt : R) (th : nat -> R) (P C s0 : nat -> nat -> R) (m0 mu : nat -> R) (tau Rn : nat -> nat -> R)
  (y : list (nat -> R)) (t : list nat) (x : list R).
Context (HP : diag_only d P) (W : well_posed n d C s0 tau Rn y t x) (H2 : (2 <= n)%nat).
Notation EE := (EVn d (l96_energy (K:=RNum) solve d th P dt) P dt n C s0 m0 mu tau Rn y t).
Context (Hpd : forall k, (k < n)%nat -> posdef d (path_sn d dt (part_a d (entry x)) C s0 k)).

Lemma l96_last s j l : (2 <= j)%nat -> (j + 1 < d)%nat -> (l < d)%nat -> forall q,
  (q = ((n - 1) * d + j) * d + l \/ q = n * d * d + (n - 1) * d + j)%nat ->
  exists (g : list R) (F : R -> R), fst (gradient EE x true s) = Ok g /\
  (forall h s', fst (free_energy EE (moved x (unit_at q) h) s') = Ok (F h)) /\
  is_derive F 0 (entry g q / 2) /\
  ((n * d * d <= q)%nat -> entry g q = dt * (P j j * (part_b n d (entry x) (n - 1) j
     - Rsum d (fun k => part_a d (entry x) (n - 1) j k * path_mn d dt (part_a d (entry x)) (part_b n d (entry x)) m0 (n - 1) k)
     - E96_drift (K:=RNum) d th (path_mn d dt (part_a d (entry x)) (part_b n d (entry x)) m0 (n - 1)) (path_sn d dt (part_a d (entry x)) C s0 (n - 1)) j))).
Proof.
  intros Hj2 Hj1 Hl q Hq.
  destruct W as (Hn & HC & Hs0 & Hs0p & Htau & Htaup & Hcm & Hrs & Hrp & Hy & Ht & Hnd & Hst & Hx).
  destruct (kl0_commute d mu tau m0 s0 Hs0 Hs0p Htau Htaup Hcm) as [k0 Hk0].
  assert (Hd : (0 < d)%nat) by lia. assert (Hj : (j < d)%nat) by lia.
  destruct (fe_lastn d (l96_energy (K:=RNum) solve d th P dt) P dt n C s0 m0 mu tau Rn y t k0 Hn Hs0 HC Hrs Hrp Hy Ht Hnd Hk0 x Hx)
    as (A & B & mt & st & L1 & L2 & L3 & L4 & HA & HB & Pt & Fe).
  assert (Wf : wf96 d A B mt st (Some t)).
  { split; [exact Hd|]. split; [congruence|]. split; [congruence|]. split; [congruence|].
    split; [intros o Eo; injection Eo as <-; exact Hst|]. intros k Hk. rewrite L1 in Hk. destruct (Pt k Hk) as (_ & P2 & P3).
    split; [exact P3|]. apply (posdef_eqm d (path_sn d dt (part_a d (entry x)) C s0 k)); [|exact (Hpd k Hk)].
    intros a b Ha Hb. symmetry. apply P2; assumption. }
  destruct (l96_grid_wf solve Hsol d th P dt A B mt st (Some t) Wf) as (en & Een & Esde & Hf & _).
  destruct (l96_result solve d th P dt A B mt st (Some t) Hsol Wf) as (en' & Een' & F1 & F2 & F3 & F4).
  assert (en' = en) by (rewrite Een in Een'; injection Een' as <-; reflexivity). subst en'. clear Een'.
  rewrite L1 in F1, F2, F3, F4. rewrite L1 in Esde.
  destruct (Fe en Een F1 F2 F3 F4) as [_ Fg]. destruct (Fg s) as (g & EG & LG & Ga & Gb). clear Fe Fg.
  assert (Ht' : List.Forall (fun i => (i < length mt)%nat) t) by (rewrite L3; exact Ht).
  destruct (like_nd_val d y t Rn mt st Hrs Hrp Hy (eq_trans L4 (eq_sym L3)) Ht' Hnd) as (Ri & HRi & _).
  set (K := (n - 1)%nat) in *. assert (HK : (K < n)%nat) by (unfold K; lia).
  set (u := unit_at q).
  set (XX := sig_pt d (nth K mt vz) (rootf d (nth K st mz))).
  set (isA := Nat.ltb q (n * d * d)).
  set (w := fun r : nat => if isA then XX r l else -1).
  set (c1 := P j j * uavg d (fun r => mpt d th (nth K A mz) (nth K B vz) (nth K mt vz) (nth K st mz) r j * w r)).
  set (c2 := P j j / 2 * uavg d (fun r => w r ^ 2)).
  set (f0 := fun k => uavg d (hpt d th (fun j => P j j) (nth k A mz) (nth k B vz) (nth k mt vz) (nth k st mz))).
  set (LL := Rsum (length t) (fun j => lterm_n d Ri Rn (nth j y vz) (path_mn d dt (part_a d (entry x)) (part_b n d (entry x)) m0 (nth j t O)) (path_sn d dt (part_a d (entry x)) C s0 j))).
  exists g, (fun h => k0 + (trap n f0 dt + dt / 2 * (h * c1 + h ^ 2 * c2)) + LL).
  split; [exact EG|].
  (* the direction *)
  assert (Ua : forall k i b, (k < n)%nat -> (i < d)%nat -> (b < d)%nat -> part_a d u k i b = if isA then (if Nat.eqb k K then if Nat.eqb i j then if Nat.eqb b l then 1 else 0 else 0 else 0) else 0).
  { intros k i b Hk Hi Hb. unfold part_a, u, unit_at, isA. destruct (Nat.ltb_spec q (n * d * d)) as [Q|Q].
    - destruct Hq as [Hq|Hq]; [|nia].
      destruct (Nat.eqb_spec k K) as [->|Nk].
      + destruct (Nat.eqb_spec i j) as [->|Ni].
        * destruct (Nat.eqb_spec b l) as [->|Nb]; [rewrite Hq, Nat.eqb_refl; reflexivity|].
          destruct (Nat.eqb_spec ((K * d + j) * d + b) q); [lia|reflexivity].
        * destruct (Nat.eqb_spec ((K * d + i) * d + b) q); [exfalso; nia|reflexivity].
      + destruct (Nat.eqb_spec ((k * d + i) * d + b) q); [exfalso|reflexivity].
        assert (k < K)%nat by (unfold K in *; lia). nia.
    - destruct (Nat.eqb_spec ((k * d + i) * d + b) q); [exfalso; nia|reflexivity]. }
  assert (Ub : forall k i, (k < n)%nat -> (i < d)%nat -> part_b n d u k i = if isA then 0 else (if Nat.eqb k K then if Nat.eqb i j then 1 else 0 else 0)).
  { intros k i Hk Hi. unfold part_b, u, unit_at, isA. destruct (Nat.ltb_spec q (n * d * d)) as [Q|Q].
    - destruct (Nat.eqb_spec (n * d * d + k * d + i) q); [lia|reflexivity].
    - destruct Hq as [Hq|Hq]; [exfalso; unfold K in *; nia|].
      destruct (Nat.eqb_spec k K) as [->|Nk].
      + destruct (Nat.eqb_spec i j) as [->|Ni]; [rewrite Hq, Nat.eqb_refl; reflexivity|].
        destruct (Nat.eqb_spec (n * d * d + K * d + i) q); [lia|reflexivity].
      + destruct (Nat.eqb_spec (n * d * d + k * d + i) q); [exfalso|reflexivity].
        assert (k < K)%nat by (unfold K in *; lia). nia. }
  split.
  - intros h s'.
    assert (Hx' : length (moved x u h) = (n * d * (d + 1))%nat) by (rewrite moved_len; exact Hx).
    destruct (fe_lastn d (l96_energy (K:=RNum) solve d th P dt) P dt n C s0 m0 mu tau Rn y t k0 Hn Hs0 HC Hrs Hrp Hy Ht Hnd Hk0 (moved x u h) Hx')
      as (A' & B' & mt' & st' & L1' & L2' & L3' & L4' & HA' & HB' & Pt' & Fe').
    assert (Hb4 : forall k, (k < K)%nat -> eqm d (part_a d (entry (moved x u h)) k) (part_a d (entry x) k) /\ eqv d (part_b n d (entry (moved x u h)) k) (part_b n d (entry x) k)).
    { intros k Hk. assert (Hk' : (k < n)%nat) by lia. assert (Nk : Nat.eqb k K = false) by (apply Nat.eqb_neq; lia). split.
      - intros a b Ha Hb. rewrite (moved_a n d x u h k Hx Hk' a b Ha Hb), (Ua k a b Hk' Ha Hb), Nk. destruct isA; ring.
      - intros a Ha. rewrite (moved_b n d x u h k Hx Hk' a Ha), (Ub k a Hk' Ha), Nk. destruct isA; ring. }
    assert (Pe : forall k, (k < n)%nat ->
      eqv d (path_mn d dt (part_a d (entry (moved x u h))) (part_b n d (entry (moved x u h))) m0 k) (path_mn d dt (part_a d (entry x)) (part_b n d (entry x)) m0 k) /\
      eqm d (path_sn d dt (part_a d (entry (moved x u h))) C s0 k) (path_sn d dt (part_a d (entry x)) C s0 k)).
    { intros k Hk. apply pathn_ext; intros b Hb; apply Hb4; unfold K; lia. }
    assert (Em : forall k, (k < n)%nat -> eqv d (nth k mt vz) (nth k mt' vz) /\ eqm d (nth k st mz) (nth k st' mz)).
    { intros k Hk. destruct (Pt k Hk) as (P1 & P2 & _). destruct (Pt' k Hk) as (P1' & P2' & _). destruct (Pe k Hk) as [Q1 Q2]. split.
      - intros i Hi. rewrite (P1 i Hi), (P1' i Hi), (Q1 i Hi). reflexivity.
      - intros i b Hi Hb. rewrite (P2 i b Hi Hb), (P2' i b Hi Hb), (Q2 i b Hi Hb). reflexivity. }
    assert (Wk : forall k, (k < n)%nat -> symm d (nth k st mz) /\ posdef d (nth k st mz)).
    { intros k Hk. destruct Wf as (_ & _ & _ & _ & _ & Z). apply Z. rewrite L1. exact Hk. }
    assert (Wf' : wf96 d A' B' mt' st' (Some t)).
    { split; [exact Hd|]. split; [congruence|]. split; [congruence|]. split; [congruence|].
      split; [intros o Eo; injection Eo as <-; exact Hst|]. intros k Hk. rewrite L1' in Hk. destruct (Pt' k Hk) as (_ & _ & P3).
      split; [exact P3|]. apply (posdef_eqm d (nth k st mz)); [apply Em, Hk|apply Wk, Hk]. }
    destruct (l96_grid_wf solve Hsol d th P dt A' B' mt' st' (Some t) Wf') as (en2 & Een2 & Esde2 & _).
    destruct (l96_result solve d th P dt A' B' mt' st' (Some t) Hsol Wf') as (en' & Een' & F1' & F2' & F3' & F4').
    assert (en' = en2) by (rewrite Een2 in Een'; injection Een' as <-; reflexivity). subst en'. clear Een'.
    rewrite L1' in F1', F2', F3', F4', Esde2.
    destruct (Fe' en2 Een2 F1' F2' F3' F4') as [Fv _]. rewrite (Fv Ri s' HRi). f_equal. f_equal; [f_equal|].
    + etransitivity; [exact Esde2|].
      set (gk := fun k => if Nat.eqb k K then h * c1 + h ^ 2 * c2 else 0).
      transitivity (trap n (fun k => f0 k + gk k) dt).
      2:{ rewrite trap_last; [unfold gk; fold K; rewrite Nat.eqb_refl; reflexivity|exact H2|]. intros k Hk. unfold gk.
          destruct (Nat.eqb_spec k K); [unfold K in *; lia|reflexivity]. }
      apply trap_ext. intros k Hk. unfold f0.
      destruct (Em k Hk) as [Em1 Em2]. destruct (Wk k Hk) as [Wk1 Wk2]. destruct (Pt' k Hk) as (_ & _ & P3').
      set (hk := if Nat.eqb k K then h else 0).
      etransitivity; [apply (uavg_row d th (fun j => P j j) Hd (nth k A mz) (nth k A' mz) (nth k B vz) (nth k B' vz) (nth k mt vz) (nth k mt' vz) (nth k st mz) (nth k st' mz) j
        (fun r => if isA then sig_pt d (nth k mt vz) (rootf d (nth k st mz)) r l else -1) hk Wk1 Wk2 P3' Em1 Em2 Hj)|].
      * intros r i Hr Hi.
        assert (EB : nth k B' vz i = nth k B vz i + h * part_b n d u k i).
        { rewrite (HB' k Hk i Hi), (moved_b n d x u h k Hx Hk i Hi), (HB k Hk i Hi). reflexivity. }
        rewrite EB. rewrite (Ub k i Hk Hi).
        rewrite (Rsum_ext d (fun b => nth k A' mz i b * sig_pt d (nth k mt vz) (rootf d (nth k st mz)) r b)
          (fun b => nth k A mz i b * sig_pt d (nth k mt vz) (rootf d (nth k st mz)) r b + h * part_a d u k i b * sig_pt d (nth k mt vz) (rootf d (nth k st mz)) r b)).
        2:{ intros b Hb. rewrite (HA' k Hk i b Hi Hb), (moved_a n d x u h k Hx Hk i b Hi Hb), (HA k Hk i b Hi Hb). ring. }
        rewrite Rsum_plus. unfold hk.
        destruct isA eqn:EA.
        -- rewrite (Rsum_single d (fun b => h * part_a d u k i b * sig_pt d (nth k mt vz) (rootf d (nth k st mz)) r b) l Hl).
           2:{ intros b Hb Nb. rewrite (Ua k i b Hk Hi Hb). apply Nat.eqb_neq in Nb. rewrite Nb.
               destruct (Nat.eqb k K); [destruct (Nat.eqb i j)|]; ring. }
           rewrite (Ua k i l Hk Hi Hl), Nat.eqb_refl. destruct (Nat.eqb k K), (Nat.eqb i j); ring.
        -- rewrite (Rsum_zero d (fun b => h * part_a d u k i b * sig_pt d (nth k mt vz) (rootf d (nth k st mz)) r b)).
           2:{ intros b Hb. rewrite (Ua k i b Hk Hi Hb). ring. }
           destruct (Nat.eqb k K), (Nat.eqb i j); ring.
      * f_equal. unfold gk, hk, c1, c2, w, XX. destruct (Nat.eqb_spec k K) as [->|Nk]; ring.
    + unfold LL. apply Rsum_ext. intros b Hb. apply lterm_ext; apply Pe.
      * apply (proj1 (Forall_forall _ _) Ht), nth_In, Hb.
      * assert (Tl : (length t <= n)%nat).
        { rewrite <- (seq_length n 0). apply NoDup_incl_length; [exact Hnd|]. intros z Hz. apply in_seq. pose proof (proj1 (Forall_forall _ _) Ht z Hz) as Z0. cbv beta in Z0. lia. }
        lia.
  - assert (Eg : entry g q = dt * c1).
    { destruct (Hf K ltac:(rewrite L1; exact HK)) as [Ef Edf].
      destruct Wf as (_ & _ & _ & _ & _ & Z). destruct (Z K ltac:(rewrite L1; exact HK)) as [Zs Zp]. clear Z.
      pose proof (rootf_ok d (nth K st mz) Hd Zs Zp) as HL.
      set (MA := nth K A mz) in *. set (MB := nth K B vz) in *. set (MM := nth K mt vz) in *. set (MS := nth K st mz) in *.
      assert (Em : uavg d (fun r => mpt d th MA MB MM MS r j) = E96_drift (K:=RNum) d th MM MS j + Rsum d (fun k => MA j k * MM k) - MB j).
      { rewrite (uavg_mpt d th MA MB MM MS (rootf d MS) j Hd Zs Zp HL Hj), (uavg_interior d MS (rootf d MS) Hd HL th MM j Hj2 Hj1). reflexivity. }
      assert (Egb : dEsde_dbn (K:=RNum) d P (nth K (n_f en) vz) MM MA MB j = P j j * - uavg d (fun r => mpt d th MA MB MM MS r j)).
      { rewrite Ef, Em.
        change (Rsum d (fun i => P j i * (- E96_drift (K:=RNum) d th MM MS i - Rsum d (fun k => MA i k * MM k) + MB i)) =
          P j j * - (E96_drift (K:=RNum) d th MM MS j + Rsum d (fun k => MA j k * MM k) - MB j)).
        rewrite (Rsum_single d _ j Hj) by (intros i Hi Ni; rewrite (HP j i Hj Hi) by congruence; ring). ring. }
      unfold c1, w. destruct isA eqn:EA; unfold isA in EA.
      - apply Nat.ltb_lt in EA. destruct Hq as [Hq|Hq]; [|exfalso; lia].
        assert (E0 : entry g q = part_a d (entry g) K j l) by (rewrite Hq; reflexivity).
        rewrite E0, (Ga j l Hj Hl). f_equal. rewrite Edf.
        etransitivity; [exact (eq_refl : _ = Rsum d (fun c => Rsum d (fun i => P j i * (E96_drift_dx (K:=RNum) d MM i c + MA i c)) * MS c l)
           - dEsde_dbn (K:=RNum) d P (nth K (n_f en) vz) MM MA MB j * MM l)|].
        rewrite Egb, Em.
        rewrite (Rsum_ext d _ (fun c => P j j * (E96_drift_dx (K:=RNum) d MM j c * MS c l) + P j j * (MA j c * MS c l))).
        2:{ intros c Hc. rewrite (Rsum_single d _ j Hj) by (intros i Hi Ni; rewrite (HP j i Hj Hi) by congruence; ring). req. ring. }
        rewrite Rsum_plus, !Rsum_scal.
        assert (Ex : uavg d (fun r => mpt d th MA MB MM MS r j * XX r l) =
           Rsum d (fun c => E96_drift_dx (K:=RNum) d MM j c * MS c l) + E96_drift (K:=RNum) d th MM MS j * MM l
           + (Rsum d (fun c => MA j c * MS c l) + Rsum d (fun c => MA j c * MM c) * MM l - MB j * MM l)).
        { rewrite <- (uavg_fx d MS (rootf d MS) MM Hd HL th j l Hj2 Hj1 Hl). fold XX.
          rewrite (uavg_ext d _ (fun r => ring_drift (2 * d + 1) d th XX r j * XX r l
             + (Rsum d (fun c => MA j c * (XX r c * XX r l)) + - MB j * XX r l))).
          2:{ intros r Hr. unfold mpt, misfit. fold XX.
              rewrite (Rsum_ext d (fun c => MA j c * (XX r c * XX r l)) (fun c => XX r l * (MA j c * XX r c))) by (intros; ring). rewrite Rsum_scal. ring. }
          rewrite !uavg_plus, uavg_scal, (uavg_sum d d (fun c r => MA j c * (XX r c * XX r l))).
          rewrite (Rsum_ext d _ (fun c => MA j c * MS c l + MM l * (MA j c * MM c))).
          2:{ intros c Hc. rewrite uavg_scal. unfold XX. rewrite (uavg_xx d MS (rootf d MS) MM Hd HL c l Hc Hl). ring. }
          rewrite Rsum_plus, Rsum_scal. unfold XX. rewrite (uavg_x d MS (rootf d MS) MM Hd HL l Hl). ring. }
        rewrite Ex. req. ring.
      - apply Nat.ltb_ge in EA. destruct Hq as [Hq|Hq]; [exfalso; unfold K in *; nia|].
        assert (E0 : entry g q = part_b n d (entry g) K j) by (rewrite Hq; reflexivity).
        rewrite E0, (Gb j Hj), Egb. f_equal. f_equal.
        rewrite (uavg_ext d (fun r => mpt d th MA MB MM MS r j * -1) (fun r => -1 * mpt d th MA MB MM MS r j)) by (intros; ring).
        rewrite uavg_scal. ring. }
    split; [rewrite Eg; auto_derive; auto; field|].
    intros HqB. rewrite Eg. f_equal. unfold c1. f_equal.
    assert (EA : isA = false) by (apply Nat.ltb_ge; exact HqB). unfold w. rewrite EA.
    destruct Wf as (_ & _ & _ & _ & _ & Z). destruct (Z K ltac:(rewrite L1; exact HK)) as [Zs Zp]. clear Z.
    pose proof (rootf_ok d (nth K st mz) Hd Zs Zp) as HL.
    rewrite (uavg_ext d _ (fun r => -1 * mpt d th (nth K A mz) (nth K B vz) (nth K mt vz) (nth K st mz) r j)) by (intros; ring).
    rewrite uavg_scal, (uavg_mpt d th _ _ _ (nth K st mz) (rootf d (nth K st mz)) j Hd Zs Zp HL Hj), (uavg_interior d (nth K st mz) _ Hd HL th _ j Hj2 Hj1).
    destruct (Pt K HK) as (P1 & P2 & _).
    pose proof (nxt_lt d j Hj) as Hnx. pose proof (prv_lt d j Hj) as Hpv. pose proof (prv_lt d _ Hpv) as Hpp.
    rewrite !E96_ix by exact Hj. unfold f96. rewrite !P1, !P2 by assumption. rewrite (HB K HK j Hj).
    rewrite (Rsum_ext d (fun k => nth K A mz j k * nth K mt vz k) (fun k => part_a d (entry x) K j k * path_mn d dt (part_a d (entry x)) (part_b n d (entry x)) m0 K k)).
    2:{ intros k Hk. rewrite (HA K HK j k Hj Hk), (P1 k Hk). reflexivity. }
    req. ring.
Qed.
End L96.
