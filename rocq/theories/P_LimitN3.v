(** * The continuous free energy in several dimensions: existence, uniqueness, and the limit of
    free_energy for Lorenz 63. *)
From Coq Require Import List Arith Reals Lra Lia Psatz Sorted.
From Coquelicot Require Import Coquelicot.
From Verif Require Import Num Arr ArrFacts M_LinAlg M_Utils M_Ode M_Moments M_Sde1 M_L63 M_Prior M_Like M_VarGP
  Spec_Utils Spec_Det Spec_Ode Spec_Gauss Spec_GaussN Spec_Sde1 Spec_L63 Spec_Prior Spec_Like Spec_VarGP Spec_TimeVar Spec_Limit Spec_GradN Spec_LimitN
  P_Ode P_OdeR P_OdeRK P_Trapz P_Sde1 P_Det P_RMat P_Prior P_Like P_L63 P_VarGP P_Adjoint P_GaussN P_Expect P_GradN P_GradN2 P_GradN3 P_GradL63 P_GradL63T
  P_TimeVar3 P_TimeVar P_TimeVar4 P_TimeVar5 P_TimeVar10 P_Limit1 P_Limit3 P_Limit5 P_LinOde P_LimitN0 P_LimitN1 P_LimitN2.
Import ListNotations.
Local Open Scope R_scope.

Lemma isq_ext d e : isq d e -> forall A A' b b' m m' S S', eqm d A A' -> eqv d b b' -> eqv d m m' -> eqm d S S' -> e A b m S = e A' b' m' S'.
Proof.
  induction 1 as [c|i j Hi Hj|i Hi|i Hi|i j Hi Hj|f g Hf IHf Hg IHg|f g Hf IHf Hg IHg|f g E Hf IHf]; intros A A' b b' m m' S S' EA Eb Em ES.
  - reflexivity.
  - apply EA; assumption.
  - apply Eb; assumption.
  - apply Em; assumption.
  - apply ES; assumption.
  - rewrite (IHf A A' b b' m m' S S'), (IHg A A' b b' m m' S S') by assumption. reflexivity.
  - rewrite (IHf A A' b b' m m' S S'), (IHg A A' b b' m m' S S') by assumption. reflexivity.
  - rewrite <- !E. apply IHf; assumption.
Qed.

Lemma total_eq {X} (f g : X -> R) l : (forall o, In o l -> f o = g o) -> total (map f l) = total (map g l).
Proof. intros H. rewrite (map_ext_in f g l H). reflexivity. Qed.
Lemma total_sub {X} (f g : X -> R) l : total (map f l) - total (map g l) = total (map (fun o => f o - g o) l).
Proof. induction l as [|o l IH]; cbn; [ring|]. unfold total in *. rewrite <- IH. ring. Qed.

Section Cfe.
Context (d : nat) (P : nat -> nat -> R) (e : dens R) (Hq : isq d e) (f : (nat -> R) -> nat -> R).
Context (Hmis : forall A b m S, symm d S -> E_mvn d m S (mismatch_n d P f (glin d A b)) (e A b m S)).
Context (T : R) (Sigma s0 : nat -> nat -> R) (m0 mu : nat -> R) (tau Ti Rn Ri : nat -> nat -> R) (obs : list (R * (nat -> R))).
Context (HT : 0 <= T) (HSs : symm d Sigma) (HSp : posdef d Sigma) (HP : is_inv d Sigma P) (H0s : symm d s0) (H0p : posdef d s0)
  (Hts : symm d tau) (Htp : posdef d tau) (HTi : is_inv d tau Ti) (Hrs : symm d Rn) (Hrp : posdef d Rn) (HRi : is_inv d Rn Ri) (Hobs : times_ok 0 T (clock obs)).
Context (A : R -> nat -> nat -> R) (b : R -> nat -> R).
Context (HA : forall i j, (i < d)%nat -> (j < d)%nat -> smooth 1 T (fun t => A t i j)) (Hb : forall i, (i < d)%nat -> smooth 1 T (fun t => b t i)).

Definition FvalN (m : R -> nat -> R) (S : R -> nat -> nat -> R) : R :=
  kln d m0 s0 mu tau Ti + RInt (fun t => e (A t) (b t) (m t) (S t)) 0 T + total (map (fun o => nterm d Rn Ri (snd o) (m (fst o)) (S (fst o))) obs).

Lemma FvalN_is m S : moments_n d T Sigma m0 s0 A b m S -> cont_free_energy_n f d T Sigma m0 s0 mu tau Rn obs A b (FvalN m S).
Proof.
  intros HM. pose proof (moments_n_sym d T Sigma s0 m0 A b HT HA m S HM HSs H0s) as Sy.
  exists m, S, (fun t => e (A t) (b t) (m t) (S t)), (fun o => nterm d Rn Ri (snd o) (m (fst o)) (S (fst o))), (kln d m0 s0 mu tau Ti).
  split; [exact HM|]. split; [apply KLn_val; assumption|]. split; [|split; [|reflexivity]].
  - intros P' t HP' Ht. apply (E_mvn_ext d (m t) (S t) (mismatch_n d P f (glin d (A t) (b t)))); [|apply Hmis, Sy, Ht].
    intros x. unfold mismatch_n. f_equal. apply Rsum_ext. intros i Hi. apply Rsum_ext. intros j Hj.
    rewrite (inv_same d Sigma P P' HP HP' i j Hi Hj). reflexivity.
  - intros Ri' o HRi' Ho. rewrite (nterm_ext d Rn Ri Ri'); [|apply (inv_same d Rn); assumption]. apply nterm_E; assumption.
Qed.

Lemma nterm_ext2 y m m' S S' : eqv d m m' -> eqm d S S' -> nterm d Rn Ri y m S = nterm d Rn Ri y m' S'.
Proof.
  intros Em ES. unfold nterm. f_equal. f_equal. f_equal.
  - unfold quad. apply Rsum_ext. intros i Hi. apply Rsum_ext. intros j Hj. rewrite (Em i Hi), (Em j Hj). reflexivity.
  - unfold frob. apply Rsum_ext. intros i Hi. apply Rsum_ext. intros j Hj. rewrite (ES i j Hi Hj). reflexivity.
Qed.

Lemma cfe_iff_n m S v : moments_n d T Sigma m0 s0 A b m S -> (cont_free_energy_n f d T Sigma m0 s0 mu tau Rn obs A b v <-> v = FvalN m S).
Proof.
  intros HM. split; [|intros ->; apply FvalN_is, HM].
  intros (m' & S' & e' & l & k & HM' & Hk & He & Hl & ->).
  pose proof (moments_n_unique d T Sigma s0 m0 A b HT HA m S m' S' HM HM') as U.
  pose proof (moments_n_sym d T Sigma s0 m0 A b HT HA m' S' HM' HSs H0s) as Sy.
  pose proof (moments_n_posdef d T Sigma s0 m0 A b HA m' S' HM' HSs HSp H0p) as Po.
  unfold FvalN. f_equal; [f_equal|].
  - apply KLn_unique; assumption.
  - apply RInt_ext. intros t. rewrite Rmin_left, Rmax_right by lra. intros Ht. assert (Ht' : 0 <= t <= T) by lra. destruct (U t Ht') as [U1 U2].
    transitivity (e (A t) (b t) (m' t) (S' t)).
    + apply (E_mvn_unique d (m' t) (S' t) (mismatch_n d P f (glin d (A t) (b t)))); [apply Sy, Ht'|apply Po, Ht'|apply He; assumption|apply Hmis, Sy, Ht'].
    + apply (isq_ext d e Hq); intros i; intros; try reflexivity; symmetry; [apply U1|apply U2]; assumption.
  - apply total_eq. intros o Ho. pose proof (obs_inT T obs Hobs o Ho) as Ht'. destruct (U _ Ht') as [U1 U2].
    transitivity (nterm d Rn Ri (snd o) (m' (fst o)) (S' (fst o))).
    + apply (E_mvn_unique d (m' (fst o)) (S' (fst o)) (fun x => - ln (mvn_density d x Rn Ri (snd o)))); [apply Sy, Ht'|apply Po, Ht'|apply Hl; assumption|apply nterm_E; assumption].
    + apply nterm_ext2; intros i; intros; symmetry; [apply U1|apply U2]; assumption.
Qed.

Lemma cfe_exists_n : exists v, forall w, cont_free_energy_n f d T Sigma m0 s0 mu tau Rn obs A b w <-> w = v.
Proof. destruct (moments_n_ex d T Sigma s0 m0 A b HT HA Hb) as (m & S & HM). exists (FvalN m S). intros w. apply cfe_iff_n, HM. Qed.
End Cfe.

(** the terms by which the limit differs from the continuous free energy *)
Definition kl_excess (d : nat) (m0 mu : nat -> R) (Ti : nat -> nat -> R) : R :=
  1 / 2 * (Rsum d (fun i => (m0 i - mu i) ^ 2) * Rsum d (fun i => Rsum d (fun j => Ti i j))
           - Rsum d (fun i => Rsum d (fun j => (m0 i - mu i) * Ti i j * (m0 j - mu j)))).
Definition like_gap (d : nat) (s0 Ri : nat -> nat -> R) (S : R -> nat -> nat -> R) (obs : list (R * (nat -> R))) : R :=
  total (map (fun o => 1 / 2 * (Rsum d (fun i => Ri i i * s0 i i) - Rsum d (fun i => Rsum d (fun j => Ri i j * S (fst o) i j)))) obs).

Section Lim.
Context (d : nat) (P : nat -> nat -> R) (e : dens R) (Hq : isq d e) (f : (nat -> R) -> nat -> R).
Context (energy : R -> list (nat -> nat -> R) -> list (nat -> R) -> list (nat -> R) -> list (nat -> nat -> R) -> option (list nat) -> result (EnergyN RNum)).
Context (Hval : forall dt A B M S o, length B = length A -> length M = length A -> length S = length A -> srt o ->
  exists r, energy dt A B M S o = Ok r /\ length (n_dm r) = length A /\ length (n_ds r) = length A /\
  n_sde r = trap (length A) (fun k => e (nth k A mz) (nth k B vz) (nth k M vz) (nth k S mz)) dt).
Context (Hmis : forall A b m S, symm d S -> E_mvn d m S (mismatch_n d P f (glin d A b)) (e A b m S)).
Context (T : R) (Sigma s0 : nat -> nat -> R) (m0 mu : nat -> R) (tau Ti Rn Ri : nat -> nat -> R) (obs : list (R * (nat -> R))).
Context (HT : 0 <= T) (HSs : symm d Sigma) (HSp : posdef d Sigma) (HP : is_inv d Sigma P) (H0s : symm d s0) (H0p : posdef d s0)
  (Hts : symm d tau) (Htp : posdef d tau) (Hcm : commute d s0 tau) (HTi : is_inv d tau Ti) (Hrs : symm d Rn) (Hrp : posdef d Rn) (HRi : is_inv d Rn Ri) (Hobs : times_ok 0 T (clock obs)).
Context (A : R -> nat -> nat -> R) (b : R -> nat -> R).
Context (HA : forall i j, (i < d)%nat -> (j < d)%nat -> smooth 2 T (fun t => A t i j)) (Hb : forall i, (i < d)%nat -> smooth 2 T (fun t => b t i)).

Lemma limit_value_n m S v : moments_n d T Sigma m0 s0 A b m S -> cont_free_energy_n f d T Sigma m0 s0 mu tau Rn obs A b v ->
  exists K dt0, 0 < dt0 /\ forall mtd dt n t x, 0 < dt < dt0 -> INR n * dt = T -> at_index dt (clock obs) t -> sampled_n d dt n A b x ->
  exists w : R, (forall st, fst (free_energy (vgpn (K:=RNum) ln PI (energy dt) mtd (n + 1) d dt Sigma P m0 s0 mu tau (map snd obs) t Rn (meye (K:=RNum))) x st) = Ok w) /\
  Rabs (w - (v + (kl_excess d m0 mu Ti + like_gap d s0 Ri S obs))) <= K * dt.
Proof.
  intros HM Hv. pose proof (fun i j Hi Hj => smooth_pred 1 T _ (HA i j Hi Hj)) as HA1.
  apply (cfe_iff_n d P e Hq f Hmis T Sigma s0 m0 mu tau Ti Rn Ri obs HT HSs HSp HP H0s H0p Hts Htp HTi Hrs Hrp HRi Hobs A b HA1 m S v HM) in Hv.
  destruct (kl0_nd_partial d mu tau m0 s0 H0s H0p Hts Htp Hcm) as (k & Tj & Hk & HTj & Hk0).
  assert (Ek : k + 1 / 2 * (Rsum d (fun i => (m0 i - mu i) ^ 2) * Rsum d (fun i => Rsum d (fun j => Tj i j))
                     - Rsum d (fun i => Rsum d (fun j => (m0 i - mu i) * Tj i j * (m0 j - mu j)))) = kln d m0 s0 mu tau Ti + kl_excess d m0 mu Ti).
  { rewrite (KLn_unique d m0 s0 mu tau Ti k H0s H0p Hts Htp HTi Hk). f_equal. unfold kl_excess. f_equal. f_equal; [f_equal|].
    - apply Rsum_ext. intros i Hi. apply Rsum_ext. intros j Hj. apply (inv_same d tau); assumption.
    - apply Rsum_ext. intros i Hi. apply Rsum_ext. intros j Hj. rewrite (inv_same d tau Tj Ti HTj HTi i j Hi Hj). reflexivity. }
  rewrite Ek in Hk0. clear Ek Hk.
  destruct (value_conv_n d energy P e Hq Hval T Sigma s0 m0 mu tau Rn Ri obs _ HT Hrs Hrp HRi Hobs Hk0 A b m S HA Hb HM) as (K & dt0 & Hd & H).
  exists K, dt0. split; [exact Hd|]. intros mtd dt n t x Hdt Hn Ht Hx. destruct (H mtd dt n t x Hdt Hn Ht Hx) as (w & o & Hw & Bw).
  exists w. split; [intros st; rewrite Hw; reflexivity|].
  match goal with |- Rabs (w - ?z) <= _ => replace z with (Lval d e T s0 Rn Ri obs (kln d m0 s0 mu tau Ti + kl_excess d m0 mu Ti) A b m S); [exact Bw|] end.
  rewrite Hv. unfold Lval, FvalN.
  assert (Eg : like_gap d s0 Ri S obs = total (map (fun o => lterm_n d Ri Rn (snd o) (m (fst o)) s0) obs) - total (map (fun o => nterm d Rn Ri (snd o) (m (fst o)) (S (fst o))) obs)).
  { rewrite total_sub. apply total_eq. intros p _. unfold lterm_n, nterm, frob. field. }
  rewrite Eg. ring.
Qed.
End Lim.

(** ** Lorenz 63 *)
Lemma l63_val th (P : nat -> nat -> R) dt A B M S o : length B = length A -> length M = length A -> length S = length A -> srt o ->
  exists r, Ok (l63_energy (K:=RNum) th P dt A B M S o) = Ok r /\ length (n_dm r) = length A /\ length (n_ds r) = length A /\
  n_sde r = trap (length A) (fun k => de63 th (fun i => P i i) (nth k A mz) (nth k B vz) (nth k M vz) (nth k S mz)) dt.
Proof.
  intros L1 L2 L3 Ho. eexists. split; [reflexivity|].
  assert (LP : length (map4 (fun (a : nat -> nat -> R) (b m : nat -> R) (s : nat -> nat -> R) => energy_dm_ds (K:=RNum) th a b m s (diagv P)) A B M S) = length A)
    by (rewrite map4_length; auto).
  split. { unfold l63_energy. cbn [n_dm]. rewrite map_length. exact LP. }
  split. { unfold l63_energy. cbn [n_ds]. rewrite map_length. exact LP. }
  apply (l63_sde th P dt A B M S o); assumption.
Qed.
Lemma isq_de63 th w : isq 3 (de63 th w). Proof. apply isq_e63. Qed.

(** ** the witness of the deviation: constant zero A and b, unit covariances, one observation at 1/2 *)
Definition Sw (t : R) (i j : nat) : R := (1 + t) * ident i j.
Lemma Sw_moments : moments_n 3 1 ident (fun _ => 0) ident (fun _ _ _ => 0) (fun _ _ => 0) (fun _ _ => 0) Sw.
Proof.
  split; [reflexivity|]. split; [intros i j _ _; unfold Sw; ring|]. split.
  - intros t i _ _. eapply d_eq; [apply d_const|]. unfold glin. rewrite Rsum_z by (intros; ring). ring.
  - intros t i j _ _ _. rewrite !Rsum_z by (intros; ring). unfold Sw. auto_derive; [exact I|ring].
Qed.
Definition ow : list (R * (nat -> R)) := [(1 / 2, fun _ => 0)].
Lemma ow_times : times_ok 0 1 (clock ow). Proof. cbn. repeat split; lra. Qed.
Lemma gap_w : kl_excess 3 (fun _ => 0) (fun _ => 0) ident + like_gap 3 ident ident Sw ow = - (3 / 4).
Proof. unfold kl_excess, like_gap, ow, Sw, total, ident. cbn. field. Qed.
