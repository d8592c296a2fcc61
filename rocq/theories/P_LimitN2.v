(** * free_energy for several dimensions as the grid is refined. *)
From Coq Require Import List Arith Reals Lra Lia Psatz Sorted.
From Coquelicot Require Import Coquelicot.
From Verif Require Import Num Arr ArrFacts M_LinAlg M_Utils M_Ode M_Moments M_Sde1 M_L63 M_Prior M_Like M_VarGP
  Spec_Utils Spec_Det Spec_Ode Spec_Gauss Spec_GaussN Spec_Sde1 Spec_L63 Spec_Prior Spec_Like Spec_VarGP Spec_TimeVar Spec_Limit Spec_GradN Spec_LimitN
  P_Ode P_OdeR P_OdeRK P_Trapz P_Sde1 P_Det P_RMat P_Prior P_Like P_L63 P_VarGP P_Adjoint P_Expect P_GradN P_GradN2 P_GradN3 P_GradL63 P_GradL63T
  P_TimeVar3 P_TimeVar P_TimeVar4 P_TimeVar5 P_TimeVar10 P_Limit1 P_Limit3 P_Limit5 P_LinOde P_LimitN0 P_LimitN1.
Import ListNotations.
Local Open Scope R_scope.

(** ** polynomials in the entries *)
Inductive isq (d : nat) : dens R -> Prop :=
| q_const c : isq d (fun _ _ _ _ => c)
| q_A i j : (i < d)%nat -> (j < d)%nat -> isq d (fun A _ _ _ => A i j)
| q_b i : (i < d)%nat -> isq d (fun _ b _ _ => b i)
| q_m i : (i < d)%nat -> isq d (fun _ _ m _ => m i)
| q_S i j : (i < d)%nat -> (j < d)%nat -> isq d (fun _ _ _ S => S i j)
| q_add f g : isq d f -> isq d g -> isq d (fun A b m S => f A b m S + g A b m S)
| q_mul f g : isq d f -> isq d g -> isq d (fun A b m S => f A b m S * g A b m S)
| q_ext f g : (forall A b m S, f A b m S = g A b m S) -> isq d f -> isq d g.
Lemma q_opp d f : isq d f -> isq d (fun A b m S => - f A b m S).
Proof. intros H. apply (q_ext d (fun A b m S => -1 * f A b m S)); [intros; ring|]. apply q_mul; [apply q_const|exact H]. Qed.
Lemma q_sub d f g : isq d f -> isq d g -> isq d (fun A b m S => f A b m S - g A b m S).
Proof. intros Hf Hg. apply (q_add d f (fun A b m S => - g A b m S) Hf), q_opp, Hg. Qed.
Lemma q_div d f c : isq d f -> isq d (fun A b m S => f A b m S / c).
Proof. intros Hf. apply (q_mul d f (fun _ _ _ _ => / c) Hf), q_const. Qed.
Lemma q_pow d f n : isq d f -> isq d (fun A b m S => f A b m S ^ n).
Proof. intros Hf. induction n; cbn [pow]; [apply q_const|apply q_mul; assumption]. Qed.
Lemma q_sum d n (f : nat -> dens R) : (forall i, (i < n)%nat -> isq d (f i)) -> isq d (fun A b m S => Rsum n (fun i => f i A b m S)).
Proof.
  induction n as [|n IH]; intros H; [exact (q_const d 0)|]. cbn [Rsum].
  apply (q_add d (fun A b m S => Rsum n (fun i => f i A b m S)) (f n)); [apply IH; auto|apply H; lia].
Qed.

Definition bd (d : nat) (B : R) (A : nat -> nat -> R) (b m : nat -> R) (S : nat -> nat -> R) : Prop :=
  (forall i j, (i < d)%nat -> (j < d)%nat -> Rabs (A i j) <= B /\ Rabs (S i j) <= B) /\
  (forall i, (i < d)%nat -> Rabs (b i) <= B /\ Rabs (m i) <= B).
Definition near (d : nat) (e : R) (A : nat -> nat -> R) (b m : nat -> R) (S A' : nat -> nat -> R) (b' m' : nat -> R) (S' : nat -> nat -> R) : Prop :=
  (forall i j, (i < d)%nat -> (j < d)%nat -> Rabs (A' i j - A i j) <= e /\ Rabs (S' i j - S i j) <= e) /\
  (forall i, (i < d)%nat -> Rabs (b' i - b i) <= e /\ Rabs (m' i - m i) <= e).
Lemma isq_lip d f : isq d f -> forall B, 0 <= B -> exists C, 0 <= C /\ forall A b m S A' b' m' S' e, 0 <= e <= 1 -> bd d B A b m S -> near d e A b m S A' b' m' S' ->
  Rabs (f A b m S) <= C /\ Rabs (f A' b' m' S' - f A b m S) <= C * e.
Proof.
  intros H. induction H as [c|i j Hi Hj|i Hi|i Hi|i j Hi Hj|f g Hf IHf Hg IHg|f g Hf IHf Hg IHg|f g E Hf IHf]; intros B HB.
  - exists (Rabs c). split; [apply Rabs_pos|]. intros A b m S A' b' m' S' e He _ _. split; [lra|]. replace (c - c) with 0 by ring. rewrite Rabs_R0. apply Rmult_le_pos; [apply Rabs_pos|lra].
  - exists (B + 1). split; [lra|]. intros A b m S A' b' m' S' e He [H1 _] [H2 _]. specialize (H1 i j Hi Hj). specialize (H2 i j Hi Hj). split; nra.
  - exists (B + 1). split; [lra|]. intros A b m S A' b' m' S' e He [_ H1] [_ H2]. specialize (H1 i Hi). specialize (H2 i Hi). split; nra.
  - exists (B + 1). split; [lra|]. intros A b m S A' b' m' S' e He [_ H1] [_ H2]. specialize (H1 i Hi). specialize (H2 i Hi). split; nra.
  - exists (B + 1). split; [lra|]. intros A b m S A' b' m' S' e He [H1 _] [H2 _]. specialize (H1 i j Hi Hj). specialize (H2 i j Hi Hj). split; nra.
  - destruct (IHf B HB) as (C1 & P1 & Q1). destruct (IHg B HB) as (C2 & P2 & Q2). exists (C1 + C2). split; [lra|].
    intros A b m S A' b' m' S' e He H1 H2. destruct (Q1 _ _ _ _ _ _ _ _ _ He H1 H2) as [X1 X2]. destruct (Q2 _ _ _ _ _ _ _ _ _ He H1 H2) as [Y1 Y2]. split.
    + eapply Rle_trans; [apply Rabs_triang|]. lra.
    + replace (f A' b' m' S' + g A' b' m' S' - (f A b m S + g A b m S)) with ((f A' b' m' S' - f A b m S) + (g A' b' m' S' - g A b m S)) by ring.
      eapply Rle_trans; [apply Rabs_triang|]. lra.
  - destruct (IHf B HB) as (C1 & P1 & Q1). destruct (IHg B HB) as (C2 & P2 & Q2). exists (3 * (C1 * C2)). assert (P12 : 0 <= C1 * C2) by (apply Rmult_le_pos; assumption). split; [lra|].
    intros A b m S A' b' m' S' e He H1 H2. destruct (Q1 _ _ _ _ _ _ _ _ _ He H1 H2) as [X1 X2]. destruct (Q2 _ _ _ _ _ _ _ _ _ He H1 H2) as [Y1 Y2].
    set (u := f A b m S) in *. set (v := g A b m S) in *. set (u' := f A' b' m' S') in *. set (v' := g A' b' m' S') in *. split.
    + rewrite Rabs_mult. apply Rle_trans with (C1 * C2); [apply Rmult_le_compat; auto using Rabs_pos|lra].
    + replace (u' * v' - u * v) with ((u' - u) * (v' - v) + (u' - u) * v + u * (v' - v)) by ring.
      eapply Rle_trans; [apply Rabs_triang|]. eapply Rle_trans; [apply Rplus_le_compat_r, Rabs_triang|]. rewrite !Rabs_mult.
      assert (Z1 : Rabs (u' - u) * Rabs (v' - v) <= (C1 * e) * (C2 * e)) by (apply Rmult_le_compat; auto using Rabs_pos).
      assert (Z2 : Rabs (u' - u) * Rabs v <= (C1 * e) * C2) by (apply Rmult_le_compat; auto using Rabs_pos).
      assert (Z3 : Rabs u * Rabs (v' - v) <= C1 * (C2 * e)) by (apply Rmult_le_compat; auto using Rabs_pos).
      assert ((C1 * e) * (C2 * e) <= C1 * C2 * e).
      { replace ((C1 * e) * (C2 * e)) with (C1 * C2 * (e * e)) by ring. apply Rmult_le_compat_l; [exact P12|]. nra. }
      lra.
  - destruct (IHf B HB) as (C1 & P1 & Q1). exists C1. split; [exact P1|]. intros A b m S A' b' m' S' e He H1 H2. rewrite <- !E. apply Q1; assumption.
Qed.
Lemma isq_smooth d f k T (A S : R -> nat -> nat -> R) (b m : R -> nat -> R) : isq d f ->
  (forall i j, (i < d)%nat -> (j < d)%nat -> smooth k T (fun t => A t i j)) -> (forall i j, (i < d)%nat -> (j < d)%nat -> smooth k T (fun t => S t i j)) ->
  (forall i, (i < d)%nat -> smooth k T (fun t => b t i)) -> (forall i, (i < d)%nat -> smooth k T (fun t => m t i)) ->
  smooth k T (fun t => f (A t) (b t) (m t) (S t)).
Proof.
  intros H HA HS Hb Hm. induction H as [c|i j Hi Hj|i Hi|i Hi|i j Hi Hj|f g Hf IHf Hg IHg|f g Hf IHf Hg IHg|f g E Hf IHf]; auto.
  - apply smooth_const.
  - apply (smooth_plus k T (fun t => f (A t) (b t) (m t) (S t)) (fun t => g (A t) (b t) (m t) (S t))); assumption.
  - apply (smooth_mult k T (fun t => f (A t) (b t) (m t) (S t)) (fun t => g (A t) (b t) (m t) (S t))); assumption.
  - apply (smooth_ext k T (fun t => f (A t) (b t) (m t) (S t))); [intros t; apply E|exact IHf].
Qed.
Lemma isq_e63 th w : isq 3 (fun A b m S => e63 th A b m S w).
Proof.
  unfold e63. cbn [Rsum]. l63unf. cbn [sumn]. rnum.
  repeat first [apply q_add|apply q_sub|apply q_opp|apply q_mul|apply q_div|apply q_pow|apply q_const|apply q_A; lia|apply q_b; lia|apply q_m; lia|apply q_S; lia].
Qed.
Lemma isq_lterm d Ri Rn y : isq d (fun _ _ m S => lterm_n d Ri Rn y m S).
Proof.
  unfold lterm_n, quad. apply (q_mul d (fun _ _ _ _ => 1 / 2) (fun _ _ m S => _)); [apply q_const|].
  apply (q_add d (fun _ _ m S => _ + _) (fun _ _ m S => _)); [|apply q_const].
  apply (q_add d (fun _ _ m S => _) (fun _ _ m S => Rsum d (fun i => Ri i i * S i i))).
  - apply (q_sum d d (fun i _ _ m S => _)). intros i Hi. apply (q_sum d d (fun j _ _ m S => _)). intros j Hj.
    repeat first [apply q_add|apply q_sub|apply q_opp|apply q_mul|apply q_const|apply q_m; lia|apply q_S; lia].
  - apply (q_sum d d (fun i _ _ m S => Ri i i * S i i)). intros i Hi. apply (q_mul d (fun _ _ _ _ => Ri i i) (fun _ _ m S => S i i)); [apply q_const|apply q_S; lia].
Qed.

Lemma total_RsumN {X} (f : X -> R) l d0 : total (map f l) = Rsum (length l) (fun j => f (nth j l d0)).
Proof. induction l as [|o l IH]; [reflexivity|]. cbn [length]. rewrite Rsum_shift. cbn [map nth]. unfold total in *. cbn [fold_right]. rewrite IH. reflexivity. Qed.

(** ** what free_energy computes, for any method *)
Section Any.
Context (d : nat) (energy : list (nat -> nat -> R) -> list (nat -> R) -> list (nat -> R) -> list (nat -> nat -> R) -> option (list nat) -> result (EnergyN RNum))
  (P : nat -> nat -> R) (dt : R) (e : dens R).
Context (Hval : forall A B M S o, length B = length A -> length M = length A -> length S = length A -> srt o ->
  exists r, energy A B M S o = Ok r /\ length (n_dm r) = length A /\ length (n_ds r) = length A /\
  n_sde r = trap (length A) (fun k => e (nth k A mz) (nth k B vz) (nth k M vz) (nth k S mz)) dt).
Context (mtd : method) (n : nat) (C s0 : nat -> nat -> R) (m0 mu : nat -> R) (tau Rn : nat -> nat -> R) (y : list (nat -> R)) (t : list nat) (k0 : R).
Context (Hn : (0 < n)%nat) (Hrs : symm d Rn) (Hrp : posdef d Rn)
  (Hy : length y = length t) (Ht : List.Forall (fun i => (i < n)%nat) t) (Hnd : NoDup t) (Hst : Sorted le t)
  (Hk0 : kl0_nd (K:=RNum) ln d mu tau m0 s0 = Ok k0).
Notation EE := (vgpn (K:=RNum) ln PI energy mtd n d dt C P m0 s0 mu tau y t Rn (meye (K:=RNum))).
Lemma fe_anyn (x : list R) Ri : length x = (n * d * (d + 1))%nat -> is_inv d Rn Ri ->
  exists (A : list (nat -> nat -> R)) (B mt : list (nat -> R)) (st : list (nat -> nat -> R)) (o : Out EE),
  length A = n /\ length B = n /\
  (forall k, (k < n)%nat -> eqm d (nth k A mz) (part_a d (entry x) k)) /\ (forall k, (k < n)%nat -> eqv d (nth k B vz) (part_b n d (entry x) k)) /\
  solve_fwd (Sn d) mtd dt A B m0 s0 C = Ok (mt, st) /\ length mt = n /\ length st = n /\
  forall s, free_energy EE x s = (Ok (k0 + trap n (fun k => e (nth k A mz) (nth k B vz) (nth k mt vz) (nth k st mz)) dt
    + Rsum (length t) (fun j => lterm_n d Ri Rn (nth j y vz) (nth (nth j t O) mt vz) (nth j st mz))), Some o).
Proof.
  intros Hx HRi. destruct (unpackn_entry d n x Hx) as (A & B & EU & L1 & L2 & HA & HB).
  destruct (solve_fwd_total (sysn RNum d) mtd dt A B m0 s0 C) as (mt & st & Hf).
  { exact (Nat.eq_le_incl _ _ (eq_trans L2 (eq_sym L1))). } { exact (eq_ind_r (fun z => (0 < z)%nat) Hn L2). }
  change (list (nat -> R)) in mt. change (list (nat -> nat -> R)) in st.
  destruct (solve_fwd_shape _ _ _ _ _ _ _ _ _ _ Hf) as (M1 & M2 & _).
  assert (M1' : length mt = n) by (transitivity (length B); [exact M1|exact L2]).
  assert (M2' : length st = n) by (transitivity (length B); [exact M2|exact L2]). clear M1 M2.
  assert (Ht' : List.Forall (fun i => (i < length mt)%nat) t) by (rewrite M1'; exact Ht).
  assert (Hms : length st = length mt) by (rewrite M1', M2'; reflexivity).
  destruct (like_nd_val d y t Rn mt st Hrs Hrp Hy Hms Ht' Hnd) as (Ri0 & _ & Ev).
  pose proof (like_fixed d n Rn y t Hn Hrs Hrp Hy Ht Hnd Ri mt st (fun k => nth k mt vz) (fun k => nth k st mz) _ HRi M1' M2'
    (fun k _ => conj (fun i _ => eq_refl) (fun i j _ _ => eq_refl)) Ev) as Ev2.
  destruct (like_grad_nd_val d y t Rn mt st Hrs Hrp Hy Hms Ht' Hnd) as (Ri1 & gm & gs & _ & _ & Eg & G1 & G2 & _).
  change (list (nat -> R)) in gm. change (list (nat -> nat -> R)) in gs.
  assert (G1' : length gm = n) by (transitivity (length mt); [exact G1|exact M1']).
  assert (G2' : length gs = n) by (transitivity (length mt); [exact G2|exact M1']).
  destruct (Hval A B mt st (Some t)) as (en & Een & F3 & F4 & Esde); [congruence|congruence|congruence|intros o Eo; injection Eo as <-; exact Hst|].
  set (EDM := n_dm en : list (nat -> R)) in *. set (EDS := n_ds en : list (nat -> nat -> R)) in *.
  assert (F3' : length EDM = n) by (transitivity (length A); [exact F3|exact L1]).
  assert (F4' : length EDS = n) by (transitivity (length A); [exact F4|exact L1]).
  assert (X1 : (length EDM <= length A)%nat) by lia. assert (X2 : (length EDM <= length EDS)%nat) by lia.
  assert (X3 : (length EDM - 1 <= length gm)%nat) by lia. assert (X4 : (length EDM - 1 <= length gs)%nat) by lia.
  destruct (solve_bwd_total (sysn RNum d) mtd dt A EDM EDS gm gs X1 X2 X3 X4) as (lam & psi & Hb).
  change (list (nat -> R)) in lam. change (list (nat -> nat -> R)) in psi.
  exists A, B, mt, st, (mkOut (E:=EE) mt st (n_f en) (n_df en) lam psi).
  repeat (split; [assumption|]). intros s. unfold free_energy.
  match goal with |- context [fe_core EE x] => assert (EF : fe_core EE x = Ok (k0 + n_sde en + Rsum (length t) (fun j => lterm_n d Ri Rn (nth j y vz) (nth (nth j t O) mt vz) (nth j st mz)),
     mkOut (E:=EE) mt st (n_f en) (n_df en) lam psi)) end.
  { apply (fe_core_ok EE x A B mt st (n_f en) EDM lam (n_df en) EDS psi gm gs).
    - exact EU.
    - exact Hf.
    - exact (eq_trans Ev (f_equal (@Ok R) Ev2)).
    - unfold vgpn. cbn [v_energy]. change (car RNum) with R. unfold vec, mat. change (car RNum) with R. rewrite Een. reflexivity.
    - unfold vgpn. cbn [v_like_grad]. unfold vec, mat. change (car RNum) with R. etransitivity; [|reflexivity].
      match goal with |- bind ?z _ = _ => replace z with (Ok (gm, gs, (length mt, length y, length y))) by (symmetry; exact Eg) end. reflexivity.
    - exact Hb.
    - exact Hk0. }
  rewrite EF, Esde. change (length A) with (@length (nat -> nat -> R) A). rewrite L1. reflexivity.
Qed.
End Any.

(** ** the limit of the value *)
Section Conv.
Context (d : nat) (energy : R -> list (nat -> nat -> R) -> list (nat -> R) -> list (nat -> R) -> list (nat -> nat -> R) -> option (list nat) -> result (EnergyN RNum))
  (P : nat -> nat -> R) (e : dens R) (Hq : isq d e).
Context (Hval : forall dt A B M S o, length B = length A -> length M = length A -> length S = length A -> srt o ->
  exists r, energy dt A B M S o = Ok r /\ length (n_dm r) = length A /\ length (n_ds r) = length A /\
  n_sde r = trap (length A) (fun k => e (nth k A mz) (nth k B vz) (nth k M vz) (nth k S mz)) dt).
Context (T : R) (Sigma s0 : nat -> nat -> R) (m0 mu : nat -> R) (tau Rn Ri : nat -> nat -> R) (obs : list (R * (nat -> R))) (k0 : R).
Context (HT : 0 <= T) (Hrs : symm d Rn) (Hrp : posdef d Rn) (HRi : is_inv d Rn Ri) (Hobs : times_ok 0 T (clock obs)).
Context (Hk0 : kl0_nd (K:=RNum) ln d mu tau m0 s0 = Ok k0).
Context (A : R -> nat -> nat -> R) (b m : R -> nat -> R) (S : R -> nat -> nat -> R).
Context (HA : forall i j, (i < d)%nat -> (j < d)%nat -> smooth 2 T (fun t => A t i j)) (Hb : forall i, (i < d)%nat -> smooth 2 T (fun t => b t i)).
Context (HM : moments_n d T Sigma m0 s0 A b m S).
Notation EE mtd dt n t := (vgpn (K:=RNum) ln PI (energy dt) mtd (n + 1) d dt Sigma P m0 s0 mu tau (map snd obs) t Rn (meye (K:=RNum))).

Lemma Sms_n : (forall i, (i < d)%nat -> smooth 2 T (fun t => m t i)) /\ (forall i j, (i < d)%nat -> (j < d)%nat -> smooth 2 T (fun t => S t i j)).
Proof. apply (moments_n_smooth d T Sigma s0 m0 A b m S 2 HT HA Hb HM 2). lia. Qed.

Lemma fwd_err_n : exists K dt0, 0 <= K /\ 0 < dt0 <= 1 /\ forall mtd dt n mt st, 0 < dt < dt0 -> INR n * dt = T ->
  solve_fwd (Sn d) mtd dt (grid dt (n + 1) A) (grid dt (n + 1) b) m0 s0 Sigma = Ok (mt, st) ->
  forall k, (k <= n)%nat -> (forall i, (i < d)%nat -> Rabs (nth k mt vz i - m (INR k * dt) i) <= K * dt) /\
    (forall i j, (i < d)%nat -> (j < d)%nat -> Rabs (nth k st mz i j - S (INR k * dt) i j) <= K * dt).
Proof.
  destruct HM as (M0 & S0 & D1 & D2).
  destruct (mean_conv_n d T A b m HT HA Hb) as (K1 & H1).
  { intros t i Ht Hi. eapply d_eq; [apply (D1 t i Ht Hi)|]. unfold glin, mean_rhsn. change rsum with Rsum. ring. }
  assert (D2' : forall t i j, 0 <= t <= T -> (i < d)%nat -> (j < d)%nat -> is_derive (fun u => S u i j) t (cov_rhsn d (A t) Sigma (S t) i j)).
  { intros t i j Ht Hi Hj. eapply d_eq; [apply (D2 t i j Ht Hi Hj)|]. unfold cov_rhsn. change rsum with Rsum. ring. }
  destruct (cov_conv_n d T A S Sigma HT HA D2') as (K2 & H2).
  destruct (rk2_cov_first_n d T A S Sigma HT HA D2') as (K3 & dt0 & Hd0 & H3).
  exists (Rabs K1 + Rabs K2 + Rabs K3), (Rmin 1 dt0).
  pose proof (Rabs_pos K1). pose proof (Rabs_pos K2). pose proof (Rabs_pos K3). pose proof (Rle_abs K1). pose proof (Rle_abs K2). pose proof (Rle_abs K3).
  split; [lra|]. split; [split; [apply Rmin_pos; lra|apply Rmin_l]|].
  intros mtd dt n mt st Hdt Hn Hs k Hk.
  assert (X : dt < 1 /\ dt < dt0) by (split; eapply Rlt_le_trans; try apply Hdt; [apply Rmin_l|apply Rmin_r]).
  pose proof (ordc_pow mtd dt ltac:(lra)) as (P1 & P2 & P3).
  assert (V0 : 0 <= dt ^ ordv mtd) by (apply pow_le; lra).
  assert (mono : forall K z, 0 <= z -> z <= dt -> K <= Rabs K1 + Rabs K2 + Rabs K3 -> K * z <= (Rabs K1 + Rabs K2 + Rabs K3) * dt).
  { intros K z Hz Hz1 HK. apply Rle_trans with ((Rabs K1 + Rabs K2 + Rabs K3) * z); [apply Rmult_le_compat_r; auto|apply Rmult_le_compat_l; lra]. }
  split.
  - intros i Hi. eapply Rle_trans; [apply (H1 mtd dt n m0 s0 Sigma mt st); [lra|lra|intros i' Hi'; symmetry; apply M0; exact Hi'|exact Hs|exact Hk|exact Hi]|]. apply mono; lra.
  - intros i j Hi Hj.
    assert (E0 : forall i j, (i < d)%nat -> (j < d)%nat -> s0 i j = S 0 i j) by (intros; symmetry; apply S0; assumption).
    destruct mtd eqn:Em.
    + eapply Rle_trans; [apply (H2 Euler dt n b m0 s0 mt st); [discriminate|lra|lra|exact E0|exact Hs|exact Hk|exact Hi|exact Hj]|]. apply mono; lra.
    + eapply Rle_trans; [apply (H2 Heun dt n b m0 s0 mt st); [discriminate|lra|lra|exact E0|exact Hs|exact Hk|exact Hi|exact Hj]|]. apply mono; lra.
    + eapply Rle_trans; [apply (H3 dt n b m0 s0 mt st); [lra|lra|exact E0|exact Hs|exact Hk|exact Hi|exact Hj]|]. apply Rmult_le_compat_r; lra.
    + eapply Rle_trans; [apply (H2 RK4 dt n b m0 s0 mt st); [discriminate|lra|lra|exact E0|exact Hs|exact Hk|exact Hi|exact Hj]|]. apply mono; lra.
Qed.

Lemma all_bd : exists B, 0 <= B /\ forall t, 0 <= t <= T -> bd d B (A t) (b t) (m t) (S t).
Proof.
  destruct (fin_pair d (fun p M => forall t, 0 <= t <= T -> Rabs (A t (fst p) (snd p)) <= M /\ Rabs (S t (fst p) (snd p)) <= M)) as (B1 & P1 & Q1).
  { intros i x y0 H Hxy t Ht. destruct (H t Ht). lra. }
  { intros [i j] [Hi Hj]. cbn [fst snd] in *. destruct (smooth_bdd _ _ _ (HA i j Hi Hj)) as (M1 & Z1). destruct (smooth_bdd _ _ _ (proj2 Sms_n i j Hi Hj)) as (M2 & Z2).
    exists (Rmax M1 M2). intros t Ht. split; eapply Rle_trans; [apply Z1, Ht|apply Rmax_l|apply Z2, Ht|apply Rmax_r]. }
  destruct (finite_bound (fun i M => forall t, 0 <= t <= T -> Rabs (b t i) <= M /\ Rabs (m t i) <= M) d) as (B2 & P2 & Q2).
  { intros i x y0 H Hxy t Ht. destruct (H t Ht). lra. }
  { intros i Hi. destruct (smooth_bdd _ _ _ (Hb i Hi)) as (M1 & Z1). destruct (smooth_bdd _ _ _ (proj1 Sms_n i Hi)) as (M2 & Z2).
    exists (Rmax M1 M2). intros t Ht. split; eapply Rle_trans; [apply Z1, Ht|apply Rmax_l|apply Z2, Ht|apply Rmax_r]. }
  exists (B1 + B2). split; [lra|]. intros t Ht. split.
  - intros i j Hi Hj. destruct (Q1 (i, j) (conj Hi Hj) t Ht) as [X1 X2]. cbn [fst snd] in *. lra.
  - intros i Hi. destruct (Q2 i Hi t Ht) as [X1 X2]. lra.
Qed.

Lemma S_lip : exists L, 0 <= L /\ forall t i j, 0 <= t <= T -> (i < d)%nat -> (j < d)%nat -> Rabs (S t i j - s0 i j) <= L * t.
Proof.
  destruct (fin_pair d (fun p M => forall t, 0 <= t <= T -> Rabs (S t (fst p) (snd p) - s0 (fst p) (snd p)) <= M * t)) as (L & L0 & HL).
  { intros i x y0 H Hxy t Ht. eapply Rle_trans; [apply H, Ht|]. apply Rmult_le_compat_r; lra. }
  { intros [i j] [Hi Hj]. cbn [fst snd] in *. destruct (proj2 Sms_n i j Hi Hj) as [_ (f & Hf & (M & HMb) & _)]. exists M. intros t Ht.
    destruct HM as (_ & S0 & _). rewrite <- (S0 i j Hi Hj). replace (M * t) with (M * (t - 0)) by ring.
    apply (taylor1 (fun t => S t i j) f); [lra| |]; intros v Hv; [apply Hf|apply HMb]; lra. }
  exists L. split; [exact L0|]. intros t i j Ht Hi Hj. apply (HL (i, j) (conj Hi Hj) t Ht).
Qed.

Lemma clock_len : length (clock obs) = length obs. Proof. apply map_length. Qed.
Lemma clock_nth j : fst (nth j (clock obs) (0, 0)) = fst (nth j obs (0, vz)).
Proof. exact (f_equal fst (map_nth (fun o : R * (nat -> R) => (fst o, 0)) obs (0, vz) j)). Qed.
Lemma obs_inT o : In o obs -> 0 <= fst o <= T.
Proof.
  intros Ho. pose proof (dec_lt _ _ (fst o, 0) (times_dec T (clock obs) Hobs)) as Q. rewrite <- in_rev in Q.
  specialize (Q (in_map (fun o : R * (nat -> R) => (fst o, 0)) obs o Ho)). cbn [fst] in Q. lra.
Qed.

Definition Lval : R := k0 + RInt (fun t => e (A t) (b t) (m t) (S t)) 0 T + total (map (fun o => lterm_n d Ri Rn (snd o) (m (fst o)) s0) obs).
Lemma value_conv_n : exists K dt0, 0 < dt0 /\ forall mtd dt n t x, 0 < dt < dt0 -> INR n * dt = T -> at_index dt (clock obs) t -> sampled_n d dt n A b x ->
  exists v o, (forall st, free_energy (EE mtd dt n t) x st = (Ok v, Some o)) /\ Rabs (v - Lval) <= K * dt.
Proof.
  destruct fwd_err_n as (K & d0 & K0 & (D0 & D1) & HK). destruct all_bd as (B & B0 & HB). destruct (isq_lip d e Hq B B0) as (C & C0 & HC).
  destruct S_lip as (L & L0 & HL).
  assert (Hlt : exists Co, 0 <= Co /\ forall j, (j < length obs)%nat -> forall A b m S A' b' m' S' e0, 0 <= e0 <= 1 -> bd d B A b m S -> near d e0 A b m S A' b' m' S' ->
     Rabs (lterm_n d Ri Rn (snd (nth j obs (0, vz))) m' S' - lterm_n d Ri Rn (snd (nth j obs (0, vz))) m S) <= Co * e0).
  { destruct (finite_bound (fun j Co => forall A b m S A' b' m' S' e0, 0 <= e0 <= 1 -> bd d B A b m S -> near d e0 A b m S A' b' m' S' ->
     Rabs (lterm_n d Ri Rn (snd (nth j obs (0, vz))) m' S' - lterm_n d Ri Rn (snd (nth j obs (0, vz))) m S) <= Co * e0) (length obs)) as (Co & Co0 & HCo).
    - intros j x y0 H Hxy a1 b1 m1 s1 a2 b2 m2 s2 e0 He H1 H2. eapply Rle_trans; [apply (H a1 b1 m1 s1 a2 b2 m2 s2 e0 He H1 H2)|]. apply Rmult_le_compat_r; lra.
    - intros j Hj. destruct (isq_lip d _ (isq_lterm d Ri Rn (snd (nth j obs (0, vz)))) B B0) as (C1 & C10 & H1). exists C1.
      intros a1 b1 m1 s1 a2 b2 m2 s2 e0 He Q1 Q2. exact (proj2 (H1 a1 b1 m1 s1 a2 b2 m2 s2 e0 He Q1 Q2)).
    - exists Co. split; [exact Co0|exact HCo]. }
  destruct Hlt as (Co & Co0 & HCo).
  destruct (trap_conv T (fun t => e (A t) (b t) (m t) (S t)) HT) as (Kt & Kt0 & HKt).
  { apply (isq_smooth d e 2 T A S b m Hq HA (proj2 Sms_n) Hb (proj1 Sms_n)). }
  set (N := INR (length obs)). assert (N0 : 0 <= N) by apply pos_INR.
  set (K' := K + L * N). assert (K'0 : 0 <= K') by (unfold K'; assert (0 <= L * N) by (apply Rmult_le_pos; assumption); lra).
  exists (T * (C * K) + Kt + N * (Co * K')), (Rmin d0 (/ (K' + 1))).
  split; [apply Rmin_pos; [lra|apply Rinv_0_lt_compat; lra]|].
  intros mtd dt n t x Hdt Hn Hidx Hx.
  assert (X : dt < d0 /\ dt < / (K' + 1)) by (split; eapply Rlt_le_trans; try apply Hdt; [apply Rmin_l|apply Rmin_r]).
  assert (Hdp : 0 < dt) by lra. assert (Hd1 : dt <= 1) by lra.
  assert (Dl : K' * dt <= 1).
  { assert ((K' + 1) * dt <= (K' + 1) * / (K' + 1)) by (apply Rmult_le_compat_l; lra). rewrite Rinv_r in H by lra. lra. }
  assert (KK : 0 <= K * dt <= K' * dt).
  { split; [apply Rmult_le_pos; lra|apply Rmult_le_compat_r; [lra|]]. unfold K'. assert (0 <= L * N) by (apply Rmult_le_pos; assumption). lra. }
  destruct (at_index_sorted dt T (clock obs) t Hdp Hobs Hidx) as [St Nd]. pose proof (at_index_len dt (clock obs) t Hidx) as Lt. rewrite clock_len in Lt.
  assert (Ft : List.Forall (fun i => (i < n + 1)%nat) t) by (eapply Forall_impl; [|apply (at_index_lt dt T (clock obs) t n Hdp Hn Hobs Hidx)]; intros; cbn in *; lia).
  destruct Hx as [Hxl Hxs].
  destruct (fe_anyn d (energy dt) P dt e (Hval dt) mtd (n + 1) Sigma s0 m0 mu tau Rn (map snd obs) t k0 ltac:(lia) Hrs Hrp
    ltac:(rewrite map_length; symmetry; exact Lt) Ft Nd St Hk0 x Ri Hxl HRi) as (al & bl & mt & st & o & L1 & L2 & E1 & E2 & Hf & L3 & L4 & HF).
  eexists. exists o. split; [exact HF|].
  assert (Ra : lrel (V:=mV) (relm d) al (grid dt (n + 1) A)).
  { split; [rewrite grid_len; exact L1|]. intros k. destruct (Nat.lt_ge_cases k (n + 1)) as [Hk|Hk].
    - intros i j Hi Hj. rewrite grid_nth by exact Hk. etransitivity; [exact (E1 k Hk i j Hi Hj)|]. apply (proj1 (Hxs k ltac:(lia)) i j Hi Hj).
    - intros i j _ _. rewrite !nth_overflow by (first [rewrite grid_len; exact Hk|apply Nat.le_trans with (n + 1)%nat; [apply Nat.eq_le_incl; exact L1|exact Hk]]). reflexivity. }
  assert (Rb : lrel (V:=vV) (relv d) bl (grid dt (n + 1) b)).
  { split; [rewrite grid_len; exact L2|]. intros k. destruct (Nat.lt_ge_cases k (n + 1)) as [Hk|Hk].
    - intros i Hi. rewrite grid_nth by exact Hk. etransitivity; [exact (E2 k Hk i Hi)|]. apply (proj2 (Hxs k ltac:(lia)) i Hi).
    - intros i _. rewrite !nth_overflow by (first [rewrite grid_len; exact Hk|apply Nat.le_trans with (n + 1)%nat; [apply Nat.eq_le_incl; exact L2|exact Hk]]). reflexivity. }
  destruct (solve_n d mtd dt al (grid dt (n + 1) A) bl (grid dt (n + 1) b) m0 m0 s0 s0 Sigma Sigma mt st Ra Rb
    (fun i _ => eq_refl) (fun i j _ _ => eq_refl) (fun i j _ _ => eq_refl) Hf) as (mt' & st' & Hf' & [_ Rm] & [_ Rs]).
  pose proof (HK mtd dt n mt' st' ltac:(lra) Hn Hf') as HE'.
  assert (HE : forall k, (k <= n)%nat -> (forall i, (i < d)%nat -> Rabs (nth k mt vz i - m (INR k * dt) i) <= K * dt) /\
    (forall i j, (i < d)%nat -> (j < d)%nat -> Rabs (nth k st mz i j - S (INR k * dt) i j) <= K * dt)).
  { intros k Hk. destruct (HE' k Hk) as [Q1 Q2]. split.
    - intros i Hi. specialize (Rm k i Hi). change (nth k mt vz i = nth k mt' vz i) in Rm. rewrite Rm. apply Q1, Hi.
    - intros i j Hi Hj. specialize (Rs k i j Hi Hj). change (nth k st mz i j = nth k st' mz i j) in Rs. rewrite Rs. apply Q2; assumption. }
  clear HE' Rm Rs Hf'.
  assert (Tk : forall k, (k <= n)%nat -> 0 <= INR k * dt <= T).
  { intros k Hk. split; [apply Rmult_le_pos; [apply pos_INR|lra]|]. rewrite <- Hn. apply Rmult_le_compat_r; [lra|]. apply le_INR, Hk. }
  assert (T1 : Rabs (trap (n + 1) (fun k => e (nth k al mz) (nth k bl vz) (nth k mt vz) (nth k st mz)) dt
     - trap (n + 1) (fun k => e (A (INR k * dt)) (b (INR k * dt)) (m (INR k * dt)) (S (INR k * dt))) dt) <= INR n * dt * (C * (K * dt))).
  { apply trap_diff; [lra|]. intros k Hk. destruct (HE k Hk) as [Q1 Q2].
    apply (HC (A (INR k * dt)) (b (INR k * dt)) (m (INR k * dt)) (S (INR k * dt)) _ _ _ _ (K * dt)); [lra|apply HB, Tk, Hk|]. split.
    - intros i j Hi Hj. split; [|apply Q2; assumption]. rewrite (E1 k ltac:(lia) i j Hi Hj), (proj1 (Hxs k Hk) i j Hi Hj), Rminus_diag_eq by reflexivity. rewrite Rabs_R0. lra.
    - intros i Hi. split; [|apply Q1; assumption]. rewrite (E2 k ltac:(lia) i Hi), (proj2 (Hxs k Hk) i Hi), Rminus_diag_eq by reflexivity. rewrite Rabs_R0. lra. }
  rewrite Hn in T1. pose proof (HKt dt n Hdp Hn) as T2. cbv beta in T2.
  assert (T3 : Rabs (Rsum (length t) (fun j => lterm_n d Ri Rn (nth j (map snd obs) vz) (nth (nth j t O) mt vz) (nth j st mz)) - total (map (fun o => lterm_n d Ri Rn (snd o) (m (fst o)) s0) obs))
    <= N * (Co * (K' * dt))).
  { rewrite (total_RsumN _ obs (0, vz)), Lt. apply Rsum_diff. intros j Hj.
    assert (Hj' : (j < length t)%nat) by lia.
    pose proof (at_index_nth dt (clock obs) t Hidx j Hj') as Q. rewrite clock_nth in Q.
    replace (nth j (map snd obs) vz) with (snd (nth j obs (0, vz))) by (symmetry; exact (map_nth snd obs (0, vz) j)).
    assert (Htn : (nth j t O <= n)%nat) by (rewrite Forall_forall in Ft; specialize (Ft (nth j t O) (nth_In t O Hj')); lia).
    assert (Hjn : (j <= n)%nat).
    { assert (Hinc : incl t (seq 0 (n + 1))) by (intros z Hz; apply in_seq; rewrite Forall_forall in Ft; specialize (Ft z Hz); lia).
      pose proof (NoDup_incl_length Nd Hinc) as Q0. rewrite seq_length in Q0. lia. }
    destruct (HE _ Htn) as [Q1 _]. destruct (HE _ Hjn) as [_ Q2].
    pose proof (obs_inT (nth j obs (0, vz)) (nth_In obs (0, vz) Hj)) as Ho.
    apply (HCo j Hj (A (fst (nth j obs (0, vz)))) (b (fst (nth j obs (0, vz)))) (m (fst (nth j obs (0, vz)))) s0 (A (fst (nth j obs (0, vz)))) (b (fst (nth j obs (0, vz)))) _ _ (K' * dt)); [lra| |].
    - pose proof (HB _ Ho) as [Y1 Y2]. destruct (HB 0 ltac:(lra)) as [Y3 _]. split; [|exact Y2]. intros i k Hi Hk. split; [apply Y1; assumption|].
      destruct HM as (_ & S0 & _). rewrite <- (S0 i k Hi Hk). apply Y3; assumption.
    - split.
      + intros i k Hi Hk. rewrite Rminus_diag_eq by reflexivity. rewrite Rabs_R0. split; [lra|].
        specialize (Q2 i k Hi Hk). pose proof (HL (INR j * dt) i k (Tk j Hjn) Hi Hk) as Q3.
        replace (nth j st mz i k - s0 i k) with ((nth j st mz i k - S (INR j * dt) i k) + (S (INR j * dt) i k - s0 i k)) by ring.
        eapply Rle_trans; [apply Rabs_triang|].
        assert (Q4 : L * (INR j * dt) <= L * N * dt).
        { rewrite Rmult_assoc. apply Rmult_le_compat_l; [exact L0|]. apply Rmult_le_compat_r; [lra|]. apply le_INR. lia. }
        unfold K'. lra.
      + intros i Hi. rewrite Rminus_diag_eq by reflexivity. rewrite Rabs_R0. split; [lra|]. rewrite Q. eapply Rle_trans; [apply Q1, Hi|lra]. }
  unfold Lval. set (I1 := RInt (fun t => e (A t) (b t) (m t) (S t)) 0 T) in *.
  assert (T4 : Kt * dt ^ 2 <= Kt * dt) by (apply Rmult_le_compat_l; [exact Kt0|]; nra).
  set (W1 := trap (n + 1) (fun k => e (nth k al mz) (nth k bl vz) (nth k mt vz) (nth k st mz)) dt) in *.
  set (W2 := trap (n + 1) (fun k => e (A (INR k * dt)) (b (INR k * dt)) (m (INR k * dt)) (S (INR k * dt))) dt) in *.
  set (U1 := Rsum (length t) _) in *. set (U2 := total _) in *.
  replace (k0 + W1 + U1 - (k0 + I1 + U2)) with ((W1 - W2) + (W2 - I1) + (U1 - U2)) by ring.
  eapply Rle_trans; [apply Rabs_triang|]. eapply Rle_trans; [apply Rplus_le_compat_r, Rabs_triang|]. lra.
Qed.
End Conv.
