(** * The derivative of free_energy along a line against the vector returned by gradient. *)
From Coq Require Import ZArith List Bool Arith Reals Lra Lia FunctionalExtensionality Sorted.
From Coquelicot Require Import Coquelicot.
From Verif Require Import Num Arr ArrFacts M_LinAlg M_Utils M_Ode M_Moments M_Sde1 M_L63 M_Prior M_Like M_VarGP
  Spec_Utils Spec_Det Spec_Gauss Spec_Sde1 Spec_Prior Spec_Like Spec_VarGP Spec_GradN P_Ode P_Trapz P_Sde1 P_RMat P_Det P_Like P_VarGP P_Adjoint P_GradN P_GradN2.
Import ListNotations.
Local Open Scope R_scope.

Lemma moved_len x u h : length (moved x u h) = length x.
Proof. unfold moved. rewrite map_length, seq_length. reflexivity. Qed.
Lemma moved_nth x u h q : (q < length x)%nat -> entry (moved x u h) q = entry x q + h * u q.
Proof. intros Hq. unfold entry, moved. apply map_seq_nth', Hq. Qed.
Lemma moved_a n d x u h k : length x = (n * d * (d + 1))%nat -> (k < n)%nat ->
  eqm d (part_a d (entry (moved x u h)) k) (fun i j => part_a d (entry x) k i j + h * part_a d u k i j).
Proof. intros Hx Hk i j Hi Hj. unfold part_a. apply moved_nth. rewrite Hx. nia. Qed.
Lemma moved_b n d x u h k : length x = (n * d * (d + 1))%nat -> (k < n)%nat ->
  eqv d (part_b n d (entry (moved x u h)) k) (fun i => part_b n d (entry x) k i + h * part_b n d u k i).
Proof. intros Hx Hk i Hi. unfold part_b. apply moved_nth. rewrite Hx. nia. Qed.

Definition lterm_n (d : nat) (Ri Rn : nat -> nat -> R) (y m : nat -> R) (s : nat -> nat -> R) : R :=
  1 / 2 * (quad d Ri (fun i => y i - m i) + Rsum d (fun i => Ri i i * s i i) + (INR d * ln (2 * PI) + ln (detR d Rn))).

Section Cmp.
Context (d : nat) (energy : list (nat -> nat -> R) -> list (nat -> R) -> list (nat -> R) -> list (nat -> nat -> R) ->
    option (list nat) -> result (EnergyN RNum)) (P : nat -> nat -> R) (dt : R) (e : dens R) (ea es : dens (nat -> nat -> R)) (eb em : dens (nat -> R))
  (EO : energy_okn d energy P dt e ea es eb em).
Context (n : nat) (C s0 : nat -> nat -> R) (m0 mu : nat -> R) (tau Rn : nat -> nat -> R) (y : list (nat -> R)) (t : list nat) (k0 : R).
Context (Hn : (0 < n)%nat) (Hs0 : symm d s0) (HC : symm d C) (Hrs : symm d Rn) (Hrp : posdef d Rn)
  (Hy : length y = length t) (Ht : List.Forall (fun i => (i < n)%nat) t) (Hnd : NoDup t) (Hst : Sorted le t)
  (Hk0 : kl0_nd (K:=RNum) ln d mu tau m0 s0 = Ok k0).
Notation EE := (EVn d energy P dt n C s0 m0 mu tau Rn y t).

Lemma t_len : (length t <= n)%nat.
Proof.
  rewrite <- (seq_length n 0). apply NoDup_incl_length; [exact Hnd|]. intros q Hq.
  rewrite Forall_forall in Ht. apply in_seq. specialize (Ht q Hq). lia.
Qed.
Lemma t_in j : (j < length t)%nat -> (nth j t O < n)%nat.
Proof. intros Hj. rewrite Forall_forall in Ht. apply Ht, nth_In, Hj. Qed.

Lemma like_fixed Ri (mt : list (nat -> R)) (st : list (nat -> nat -> R)) (pm : nat -> nat -> R) (ps : nat -> nat -> nat -> R) v :
  is_inv d Rn Ri -> length mt = n -> length st = n ->
  (forall k, (k < n)%nat -> eqv d (nth k mt vz) (pm k) /\ eqm d (nth k st mz) (ps k)) ->
  like_nd (K:=RNum) ln PI d y t Rn (meye (K:=RNum)) mt st = Ok v ->
  v = Rsum (length t) (fun j => lterm_n d Ri Rn (nth j y vz) (pm (nth j t O)) (ps j)).
Proof.
  intros HRi M1 M2 Pt Ev.
  assert (Ht' : List.Forall (fun i => (i < length mt)%nat) t) by (rewrite M1; exact Ht).
  assert (Hms : length st = length mt) by congruence.
  destruct (like_nd_val d y t Rn mt st Hrs Hrp Hy Hms Ht' Hnd) as (Rj & HRj & Ev').
  pose proof (eq_trans (eq_sym Ev) Ev') as Q. injection Q as ->.
  apply Rsum_ext. intros j Hj.
  pose proof (inv_same d Rn Rj Ri HRj HRi) as Rr. pose proof t_len.
  destruct (Pt (nth j t O) (t_in j Hj)) as [P1 _]. destruct (Pt j ltac:(lia)) as [_ P2].
  unfold nterm, lterm_n. change zvec with vz. change zmat with mz.
  rewrite (quad_ext d Rj Ri (fun i => nth j y vz i - nth (nth j t O) mt vz i) (fun i => nth j y vz i - pm (nth j t O) i));
    [|exact Rr|intros i Hi; rewrite (P1 i Hi); reflexivity].
  rewrite (Rsum_ext d (fun i => Rj i i * nth j st mz i i) (fun i => Ri i i * ps j i i)) by (intros i Hi; rewrite (Rr i i Hi Hi), (P2 i i Hi Hi); reflexivity).
  field.
Qed.

Lemma fe_valuen Ri (x : list R) (Hx : length x = (n * d * (d + 1))%nat) s : is_inv d Rn Ri ->
  let xa := part_a d (entry x) in let xb := part_b n d (entry x) in
  fst (free_energy EE x s) = Ok (k0
    + trap n (fun k => e (xa k) (xb k) (path_mn d dt xa xb m0 k) (path_sn d dt xa C s0 k)) dt
    + Rsum (length t) (fun j => lterm_n d Ri Rn (nth j y vz) (path_mn d dt xa xb m0 (nth j t O)) (path_sn d dt xa C s0 j))).
Proof.
  intros HRi xa xb.
  destruct (fe_arraysn d energy P dt e ea es eb em EO n C s0 m0 mu tau Rn y t k0 Hn Hs0 HC Hrs Hrp Hy Ht Hnd Hst Hk0 x Hx)
    as (A & B & v & mt & lam & gm & st & psi & gs & en & sh & EU & L1 & L2 & HA & HB & Een & M1 & M2 & M3 & M4 & Ev & Eg & Efe & Pt & Z1 & Z2 & Psy & Hadj).
  fold xa in HA, Pt. fold xb in HB, Pt.
  destruct (eok_val _ _ _ _ _ _ _ _ _ EO A B mt st (Some t)) as (en' & Een' & _ & _ & _ & _ & Esde & _); [congruence|congruence|congruence|intros o Eo; injection Eo as <-; exact Hst| |].
  { intros k Hk. apply Pt. rewrite <- L1. exact Hk. }
  assert (en' = en) by (rewrite Een in Een'; injection Een' as <-; reflexivity). subst en'. clear Een'.
  unfold free_energy. rewrite Efe. cbn [fst]. f_equal.
  rewrite (like_fixed Ri mt st (path_mn d dt xa xb m0) (path_sn d dt xa C s0) v HRi M1 M2) by (assumption || (intros k Hk; destruct (Pt k Hk) as (P1 & P2 & _); split; assumption)).
  f_equal. f_equal. etransitivity; [exact Esde|]. rewrite L1. apply trap_ext. intros k Hk.
  destruct (Pt k Hk) as (P1 & P2 & _).
  exact (proj1 (eok_ext _ _ _ _ _ _ _ _ _ EO _ _ _ _ _ _ _ _ (HA k Hk) (HB k Hk) P1 P2)).
Qed.

Section At.
Context (x : list R) (Hx : length x = (n * d * (d + 1))%nat) (u : nat -> R).
Notation xa := (part_a d (entry x)).
Notation xb := (part_b n d (entry x)).
Notation ua := (part_a d u).
Notation ub := (part_b n d u).
Notation ah h := (an xa ua h).
Notation bh h := (bn xb ub h).
Notation pm h := (path_mn d dt (ah h) (bh h) m0).
Notation ps h := (path_sn d dt (ah h) C s0).
Notation xm := (path_mn d dt xa xb m0).
Notation xs := (path_sn d dt xa C s0).
Notation dm := (dmn d dt m0 xa ua xb ub).
Notation ds := (dsn d dt C s0 xa ua).
Notation dt_ := (dtm d dt m0 xa ua xb ub).
Definition den k : R := dots d (ea (xa k) (xb k) (xm k) (xs k)) (ua k) + dot d (eb (xa k) (xb k) (xm k) (xs k)) (ub k)
   + dot d (em (xa k) (xb k) (xm k) (xs k)) (dm k)
   + (dots d (es (xa k) (xb k) (xm k) (xs k)) (ds k) - dot_below d (es (xa k) (xb k) (xm k) (xs k)) (ds k)).

Lemma den_d k : is_derive (fun h => e (ah h k) (bh h k) (pm h k) (ps h k)) 0 (den k).
Proof.
  pose proof (eok_chain _ _ _ _ _ _ _ _ _ EO (fun h => ah h k) (fun h => ps h k) (fun h => bh h k) (fun h => pm h k) (ua k) (ds k) (ub k) (dm k)
    (an_d xa ua k) (sn_d d dt C s0 xa ua k) (bn_d xb ub k) (mn_d d dt m0 xa ua xb ub k)
    (fun h => sn_sym d dt C s0 (ah h) k Hs0 HC) (dsn_sym d dt C s0 xa ua k Hs0 HC)) as D. cbv beta in D.
  rewrite an_0, bn_0 in D. exact D.
Qed.
(** the derivative of the rectangle objective *)
Lemma rect_dn (om : nat -> nat -> R) (os : nat -> nat -> nat -> R) :
  is_derive (fun h => rect_objective_n d e n dt C m0 s0 om os (ah h) (bh h)) 0
    (dt * Rsum n den + Rsum (n - 1) (fun k => dot d (om k) (dm (k + 1)%nat) + dots d (os k) (ds (k + 1)%nat))).
Proof.
  unfold rect_objective_n. apply d_plus.
  - apply d_scal. apply (d_sum n (fun h k => e (ah h k) (bh h k) (pm h k) (ps h k))). intros k Hk. apply den_d.
  - apply (d_sum (n - 1) (fun h k => dot d (om k) (pm h (k + 1)%nat) + dots d (os k) (ps h (k + 1)%nat))). intros k Hk.
    apply d_plus.
    + apply (d_sum d (fun h i => om k i * pm h (k + 1)%nat i)). intros i Hi. apply d_scal, mn_d.
    + apply (d_sum d (fun h i => Rsum d (fun j => os k i j * ps h (k + 1)%nat i j))). intros i Hi.
      apply (d_sum d (fun h j => os k i j * ps h (k + 1)%nat i j)). intros j Hj. apply d_scal, sn_d.
Qed.

Lemma quad_d Ri (yv : nat -> R) q : symm d Ri ->
  is_derive (fun h => quad d Ri (fun i => yv i - pm h q i)) 0
    (2 * Rsum d (fun i => - rmv d Ri (fun l => yv l - xm q l) i * dm q i)).
Proof.
  intros HR.
  eapply d_eq.
  - apply (d_sum d (fun h i => Rsum d (fun j => (yv i - pm h q i) * Ri i j * (yv j - pm h q j)))
      (fun i => Rsum d (fun j => - dm q i * Ri i j * (yv j - xm q j) + (yv i - xm q i) * Ri i j * (- dm q j)))).
    intros i Hi. apply (d_sum d (fun h j => (yv i - pm h q i) * Ri i j * (yv j - pm h q j))). intros j Hj.
    assert (Dw : forall l, is_derive (fun h => yv l - pm h q l) 0 (- dm q l)).
    { intros l. eapply d_eq; [apply (d_minus (fun _ => yv l)); [apply d_const|apply mn_d]|ring]. }
    eapply d_eq; [apply d_mult; [apply d_mult; [apply Dw|apply d_const]|apply Dw]|].
    cbv beta. rewrite an_0, bn_0. ring.
  - rewrite (Rsum_ext d _ (fun i => Rsum d (fun j => - dm q i * Ri i j * (yv j - xm q j)) + Rsum d (fun j => (yv i - xm q i) * Ri i j * (- dm q j))))
      by (intros; apply Rsum_plus).
    rewrite Rsum_plus. rewrite (Rsum_swap d d (fun i j => (yv i - xm q i) * Ri i j * (- dm q j))).
    rewrite <- Rsum_plus, <- Rsum_scal. apply Rsum_ext. intros i Hi.
    rewrite <- Rsum_plus. unfold rmv.
    replace (2 * (- Rsum d (fun k => Ri i k * (yv k - xm q k)) * dm q i)) with ((-2 * dm q i) * Rsum d (fun k => Ri i k * (yv k - xm q k))) by ring.
    rewrite <- Rsum_scal. apply Rsum_ext. intros j Hj. rewrite (HR j i Hj Hi). ring.
Qed.

Lemma cmp_n s :
  exists (g : list R) (gm : list (nat -> R)) (gs : list (nat -> nat -> R)) (Ri : nat -> nat -> R) (F : R -> R),
  is_inv d Rn Ri /\ symm d Ri /\
  fst (gradient EE x true s) = Ok g /\ length g = (n * d * (d + 1))%nat /\
  (forall h s', fst (free_energy EE (moved x u h) s') = Ok (F h)) /\
  (forall j, (j < length t)%nat ->
     (forall i, (i < d)%nat -> nth (nth j t O) gm vz i = - Rsum d (fun l => Ri i l * (nth j y vz l - xm (nth j t O) l))) /\
     (forall i l, (i < d)%nat -> (l < d)%nat -> nth (nth j t O) gs mz i l = 1 / 2 * Ri i l)) /\
  (forall k, ~ In k t -> nth k gm vz = vz /\ nth k gs mz = mz) /\
  is_derive F 0 (trap n den dt + Rsum (length t) (fun j => dot d (nth (nth j t O) gm vz) (dm (nth j t O)))
     + 1 / 2 * Rsum (length t) (fun j => Rsum d (fun i => Ri i i * ds j i i))) /\
  Rsum (length g) (fun q => entry g q * u q) =
    dt * Rsum n (fun k => den k + dot d (em (xa k) (xb k) (xm k) (xs k)) (fun i => dt_ k i - dm k i)
       + dot_below d (es (xa k) (xb k) (xm k) (xs k)) (ds k))
    + Rsum (n - 1) (fun k => dot d (nth k gm vz) (dt_ (k + 1)%nat) + dots d (nth k gs mz) (ds (k + 1)%nat)).
Proof.
  destruct (pairing_n d energy P dt e ea es eb em EO n C s0 m0 mu tau Rn y t k0 Hn Hs0 HC Hrs Hrp Hy Ht Hnd Hst Hk0 x Hx s u)
    as (g & mt & gm & gs & sh & s' & EG & LG & M1 & Pt & Eg & Epair).
  assert (Ht' : List.Forall (fun i => (i < length mt)%nat) t) by (rewrite M1; exact Ht).
  assert (Hst0 : length (repeat mz (length mt)) = length mt) by (apply repeat_length).
  destruct (like_grad_nd_val d y t Rn mt (repeat mz (length mt)) Hrs Hrp Hy Hst0 Ht' Hnd) as (Ri & gm' & gs' & HRi & HRis & Eg' & G1 & G2 & Gz & Gv).
  pose proof (eq_trans (eq_sym Eg') Eg) as Q. injection Q as -> -> _. clear Eg'.
  change (list (nat -> R)) in gm. change (list (nat -> nat -> R)) in gs.
  assert (Gm : forall j, (j < length t)%nat ->
     (forall i, (i < d)%nat -> nth (nth j t O) gm vz i = - Rsum d (fun l => Ri i l * (nth j y vz l - xm (nth j t O) l))) /\
     (forall i l, (i < d)%nat -> (l < d)%nat -> nth (nth j t O) gs mz i l = 1 / 2 * Ri i l)).
  { intros j Hj. destruct (Gv j Hj) as [V1 V2]. split; [|exact V2].
    intros i Hi. etransitivity; [exact (V1 i Hi)|]. unfold rmv. f_equal. apply Rsum_ext. intros l Hl.
    change zvec with vz. rewrite (Pt (nth j t O) (t_in j Hj) l Hl). reflexivity. }
  set (F := fun h => k0 + trap n (fun k => e (ah h k) (bh h k) (pm h k) (ps h k)) dt
    + Rsum (length t) (fun j => lterm_n d Ri Rn (nth j y vz) (pm h (nth j t O)) (ps h j))).
  exists g, gm, gs, Ri, F. split; [exact HRi|]. split; [exact HRis|]. split; [exact (f_equal fst EG)|]. split; [exact LG|].
  split.
  { intros h s1. rewrite (fe_valuen Ri (moved x u h) (eq_trans (moved_len x u h) Hx) s1 HRi). f_equal. unfold F.
    assert (Ex : forall k, (k <= n)%nat -> eqv d (path_mn d dt (part_a d (entry (moved x u h))) (part_b n d (entry (moved x u h))) m0 k) (pm h k) /\
        eqm d (path_sn d dt (part_a d (entry (moved x u h))) C s0 k) (ps h k)).
    { intros k Hk. apply pathn_ext; intros j Hj; [apply (moved_a n d x u h j Hx); lia|apply (moved_b n d x u h j Hx); lia]. }
    f_equal; [f_equal|].
    - apply trap_ext. intros k Hk. destruct (Ex k ltac:(lia)) as [X1 X2].
      exact (proj1 (eok_ext _ _ _ _ _ _ _ _ _ EO _ _ _ _ _ _ _ _ (moved_a n d x u h k Hx Hk) (moved_b n d x u h k Hx Hk) X1 X2)).
    - apply Rsum_ext. intros j Hj. pose proof t_len as TL. pose proof (t_in j Hj) as TJ.
      destruct (Ex (nth j t O) ltac:(lia)) as [X1 _]. destruct (Ex j ltac:(lia)) as [_ X2].
      unfold lterm_n. f_equal. f_equal. f_equal.
      + apply quad_ext; [intros; reflexivity|]. intros i Hi. rewrite (X1 i Hi). reflexivity.
      + apply Rsum_ext. intros i Hi. rewrite (X2 i i Hi Hi). reflexivity. }
  split; [exact Gm|]. split; [exact Gz|]. split.
  - unfold F.
    eapply d_eq; [apply d_plus; [apply d_plus; [apply d_const|]|]|].
    + apply (is_derive_trap n (fun k h => e (ah h k) (bh h k) (pm h k) (ps h k)) den). intros k Hk. apply den_d.
    + apply (d_sum (length t) (fun h j => lterm_n d Ri Rn (nth j y vz) (pm h (nth j t O)) (ps h j))
        (fun j => dot d (nth (nth j t O) gm vz) (dm (nth j t O)) + 1 / 2 * Rsum d (fun i => Ri i i * ds j i i))).
      intros j Hj. unfold lterm_n. destruct (Gm j Hj) as [V1 _].
      eapply d_eq; [apply d_scal; apply d_plus; [apply d_plus; [apply (quad_d Ri (nth j y vz) (nth j t O) HRis)|]|apply d_const]|].
      * apply (d_sum d (fun h i => Ri i i * ps h j i i)). intros i Hi. apply d_scal, sn_d.
      * cbv beta. unfold dot. rewrite (Rsum_ext d (fun i => nth (nth j t O) gm vz i * dm (nth j t O) i)
          (fun i => - rmv d Ri (fun l => nth j y vz l - xm (nth j t O) l) i * dm (nth j t O) i)) by (intros i Hi; rewrite (V1 i Hi); reflexivity).
        field.
    + rewrite (Rsum_plus (length t) (fun j => dot d (nth (nth j t O) gm vz) (dm (nth j t O))) (fun j => 1 / 2 * Rsum d (fun i => Ri i i * ds j i i))), Rsum_scal. ring.
  - etransitivity; [exact Epair|]. f_equal. f_equal. apply Rsum_ext. intros k Hk. unfold den.
    rewrite (dot_ext d (em (xa k) (xb k) (xm k) (xs k)) (em (xa k) (xb k) (xm k) (xs k)) (fun i => dt_ k i - dm k i) (fun i => 1 * dt_ k i + (-1) * dm k i)) by (intros; ring).
    rewrite dot_lin. ring.
Qed.
End At.
End Cmp.
