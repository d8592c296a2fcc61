(** * Proofs about the gradients of Lorenz96.energy. *)
From Coq Require Import ZArith List Bool Arith Reals Lra Lia Sorted FunctionalExtensionality.
From Coquelicot Require Import Coquelicot.
From Verif Require Import Num Arr ArrFacts M_LinAlg M_Utils M_Sde1 M_L63 M_L96 M_L96E Spec_Utils Spec_Sde1 Spec_L63 Spec_L96 Spec_L96E
  Spec_GaussN P_Trapz P_LinAlg P_Utils P_Ut P_Sde1 P_GaussN P_L63 P_L96 P_RMat P_Det P_L96E P_L96F.
Import ListNotations.
Local Open Scope R_scope.

(** ** drift parameter *)
Lemma ring_th N d (u : nat -> R) x r j i t : (j < d)%nat ->
  ring_drift N d (vset i t u) x r j = ring_drift N d u x r j + (if Nat.eqb j i then t - u i else 0).
Proof.
  intros Hj. unfold ring_drift, f96, vset. rewrite (mod_row d r j Hj).
  destruct (Nat.eqb_spec j i) as [->|]; ring.
Qed.
Lemma uavg_one d : (0 < d)%nat -> uavg d (fun _ => 1) = 1.
Proof.
  intros Hd. transitivity (Rsum (2 * d + 1) (wt d)); [|exact (weights_sum d Hd)].
  apply Rsum_ext. intros. rewrite wt_sig. ring.
Qed.
Lemma uavg_const d c : (0 < d)%nat -> uavg d (fun _ => c) = c.
Proof.
  intros Hd. rewrite (uavg_ext d _ (fun _ => c * 1)) by (intros; ring). rewrite uavg_scal, uavg_one by exact Hd. ring.
Qed.
Lemma hpt_th d (u q : nat -> R) A b m S i t r : (i < d)%nat ->
  hpt d (vset i t u) q A b m S r =
  hpt d u q A b m S r + (q i * (t - u i) * mpt d u A b m S r i + 1 / 2 * q i * (t - u i) ^ 2).
Proof.
  intros Hi. unfold hpt.
  rewrite (Rsum_ext d (fun j => q j * mpt d (vset i t u) A b m S r j ^ 2)
    (fun j => q j * mpt d u A b m S r j ^ 2 + (if Nat.eqb j i then q i * (2 * (t - u i) * mpt d u A b m S r i + (t - u i) ^ 2) else 0))).
  - rewrite Rsum_plus. rewrite (Rsum_single d (fun j => if Nat.eqb j i then _ else 0) i Hi).
    + rewrite Nat.eqb_refl. field.
    + intros j _ Hj. destruct (Nat.eqb_spec j i); [lia|reflexivity].
  - intros j Hj. unfold mpt, misfit. rewrite ring_th by exact Hj.
    destruct (Nat.eqb_spec j i) as [->|]; ring.
Qed.
Lemma e96_dth d (u q : nat -> R) A b m S i : (0 < d)%nat -> (i < d)%nat ->
  is_derive (fun t => uavg d (hpt d (vset i t u) q A b m S)) (u i) (q i * uavg d (fun r => mpt d u A b m S r i)).
Proof.
  intros Hd Hi.
  apply (is_derive_ext (fun t => uavg d (hpt d u q A b m S) + (q i * (t - u i) * uavg d (fun r => mpt d u A b m S r i) + 1 / 2 * q i * (t - u i) ^ 2))).
  { intros t. rewrite (uavg_ext d _ _ (fun r _ => hpt_th d u q A b m S i t r Hi)).
    rewrite uavg_plus, uavg_plus, uavg_scal, uavg_const by exact Hd. reflexivity. }
  auto_derive; auto. ring.
Qed.
Lemma uavg_mpt d (u : nat -> R) A b m S L i : (0 < d)%nat -> symm d S -> posdef d S -> scaled_root d S L -> (i < d)%nat ->
  uavg d (fun r => mpt d u A b m S r i) =
  uavg d (fun r => ring_drift (2 * d + 1) d u (sig_pt d m L) r i) + Rsum d (fun k => A i k * m k) - b i.
Proof.
  intros Hd Hs Hp HL Hi.
  rewrite (uavg_ext d _ (fun r => ring_drift (2 * d + 1) d u (sig_pt d m L) r i + (Rsum d (fun k => A i k * sig_pt d m L r k) + - b i))).
  2:{ intros r Hr. rewrite (mpt_root d S L) by assumption. unfold misfit. ring. }
  rewrite uavg_plus, uavg_plus, (uavg_sum d d (fun k r => A i k * sig_pt d m L r k)), uavg_const by exact Hd.
  rewrite (Rsum_ext d (fun k => uavg d (fun r => A i k * sig_pt d m L r k)) (fun k => A i k * m k)); [ring|].
  intros k Hk. rewrite uavg_scal. f_equal. exact (exp_mean _ _ _ _ (uavg_expect d S L Hd HL m) k Hk).
Qed.

(** ** the root turns the returned gradients into differences along its columns *)
Lemma LBL d S L Bi : (0 < d)%nat -> scaled_root d S L -> is_prod d Bi S ident ->
  forall k l, (k < d)%nat -> (l < d)%nat ->
  Rsum d (fun i => L i k * Rsum d (fun a => Bi i a * L a l)) = if Nat.eqb k l then 41 / 20 * INR d else 0.
Proof.
  intros Hd [HL HLL] HB. set (ka := 41 / 20 * INR d). assert (Hka : 0 < ka) by (apply d_pos, Hd).
  set (C := fun k i : nat => / ka * Rsum d (fun a => Bi i a * L a k)).
  assert (E1 : meq d (mmul (K:=RNum) d L C) meye).
  { intros j i Hj Hi. unfold mmul. toR.
    transitivity (/ ka * Rsum d (fun a => Bi i a * Rsum d (fun k => L a k * L j k))).
    - rewrite <- Rsum_scal.
      transitivity (Rsum d (fun k => Rsum d (fun a => / ka * (L j k * (Bi i a * L a k))))).
      + apply Rsum_ext. intros k Hk. unfold C. change (@nmul RNum) with Rmult. rewrite <- !Rsum_scal. apply Rsum_ext. intros; ring.
      + rewrite Rsum_swap. apply Rsum_ext. intros a Ha. rewrite <- !Rsum_scal. apply Rsum_ext. intros; ring.
    - rewrite (Rsum_ext d _ (fun a => ka * (Bi i a * S a j))) by (intros a Ha; rewrite HLL by assumption; fold ka; ring).
      rewrite Rsum_scal, (HB i j Hi Hj). unfold ident, meye. rewrite Nat.eqb_sym.
      destruct (Nat.eqb j i); rnum; field; lra. }
  pose proof (left_inverse d L C HL E1) as E2.
  intros k l Hk Hl. pose proof (E2 l k Hl Hk) as E. unfold mmul, C in E. toR.
  unfold mmul in E. change (@nmul RNum) with Rmult in E.
  rewrite (Rsum_ext d _ (fun i => / ka * (L i k * Rsum d (fun a => Bi i a * L a l)))) in E by (intros; ring).
  rewrite Rsum_scal in E. unfold meye in E. rewrite Nat.eqb_sym in E.
  apply (Rmult_eq_reg_l (/ ka)); [|apply Rinv_neq_0_compat; lra]. rewrite E.
  destruct (Nat.eqb k l); rnum; field; lra.
Qed.

Section Cols.
Variables (d : nat) (S L Bi : nat -> nat -> R) (m : nat -> R).
Hypotheses (Hd : (0 < d)%nat) (HL : scaled_root d S L) (HB : is_prod d Bi S ident).
Let ka := 41 / 20 * INR d.
Let z := fun r i => Rsum d (fun k => Bi i k * (sig_pt d m L r k - m k)).
Let Lz := fun k r => Rsum d (fun i => L i k * z r i).

Lemma sig_p a i : (a < d)%nat -> sig_pt d m L (1 + a) i - m i = L i a.
Proof. intros Ha. cbn [sig_pt Nat.add]. destruct (Nat.ltb_spec a d); [ring|lia]. Qed.
Lemma sig_m a i : (a < d)%nat -> sig_pt d m L (1 + d + a) i - m i = - L i a.
Proof.
  intros Ha. cbn [sig_pt Nat.add]. destruct (Nat.ltb_spec (d + a) d); [lia|].
  replace (d + a - d)%nat with a by lia. ring.
Qed.
Lemma Lz_0 k : Lz k 0%nat = 0.
Proof.
  unfold Lz, z. apply Rsum_z. intros i Hi. rewrite (Rsum_z d (fun k => Bi i k * _)); [ring|].
  intros a Ha. cbn [sig_pt]. ring.
Qed.
Lemma Lz_p k a : (k < d)%nat -> (a < d)%nat -> Lz k (1 + a)%nat = if Nat.eqb k a then ka else 0.
Proof.
  intros Hk Ha. etransitivity; [|exact (LBL d S L Bi Hd HL HB k a Hk Ha)]. unfold Lz, z. apply Rsum_ext. intros i Hi. f_equal.
  apply Rsum_ext. intros c Hc. rewrite sig_p by exact Ha. reflexivity.
Qed.
Lemma Lz_m k a : (k < d)%nat -> (a < d)%nat -> Lz k (1 + d + a)%nat = if Nat.eqb k a then - ka else 0.
Proof.
  intros Hk Ha. transitivity (- Lz k (1 + a)%nat).
  - unfold Lz, z. rewrite <- Rsum_opp. apply Rsum_ext. intros i Hi.
    rewrite <- Ropp_mult_distr_r_reverse. f_equal. rewrite <- Rsum_opp.
    apply Rsum_ext. intros c Hc. rewrite sig_p, sig_m by exact Ha. ring.
  - rewrite Lz_p by assumption. destruct (Nat.eqb k a); ring.
Qed.
Lemma uavg_split f : uavg d f = W0 * f 0%nat + W1 d * Rsum d (fun i => f (1 + i)%nat + f (1 + d + i)%nat).
Proof.
  etransitivity; [|exact (wsum d f)]. unfold uavg. toR. apply Rsum_ext. intros r _. rewrite wt_sig. reflexivity.
Qed.
Lemma col_dm h k : (k < d)%nat ->
  Rsum d (fun i => L i k * uavg d (fun r => h r * z r i)) = (h (1 + k)%nat - h (1 + d + k)%nat) / 2.
Proof.
  intros Hk. pose proof (INR_pos d Hd).
  transitivity (uavg d (fun r => h r * Lz k r)).
  { rewrite (Rsum_ext d _ (fun i => uavg d (fun r => L i k * (h r * z r i)))) by (intros; rewrite uavg_scal; reflexivity).
    rewrite <- uavg_sum. apply uavg_ext. intros r Hr. unfold Lz. rewrite <- Rsum_scal. apply Rsum_ext. intros; ring. }
  rewrite uavg_split, Lz_0.
  rewrite (Rsum_single d _ k Hk).
  - rewrite Lz_p, Lz_m, Nat.eqb_refl by assumption. unfold W1, ka. field. lra.
  - intros a Ha Hne. rewrite Lz_p, Lz_m by assumption. destruct (Nat.eqb_spec k a); [lia|ring].
Qed.
Lemma col_ds h k l : (k < d)%nat -> (l < d)%nat ->
  Rsum d (fun i => Rsum d (fun j => L i k * (1 / 2 * (uavg d (fun r => h r * (z r i * z r j)) - uavg d h * Bi i j)) * L j l)) =
  if Nat.eqb k l then 41 / 40 * INR d * ((h (1 + k)%nat + h (1 + d + k)%nat) / 2 - uavg d h) else 0.
Proof.
  intros Hk Hl. pose proof (INR_pos d Hd).
  transitivity (1 / 2 * (uavg d (fun r => h r * (Lz k r * Lz l r)) - uavg d h * (if Nat.eqb k l then ka else 0))).
  - unfold ka. rewrite <- (LBL d S L Bi Hd HL HB k l Hk Hl).
    rewrite (uavg_ext d (fun r => h r * (Lz k r * Lz l r)) (fun r => Rsum d (fun i => Rsum d (fun j => L i k * L j l * (h r * (z r i * z r j)))))).
    2:{ intros r Hr. cbn beta. unfold Lz.
        replace (h r * (Rsum d (fun i => L i k * z r i) * Rsum d (fun i => L i l * z r i)))
          with (Rsum d (fun i => L i k * z r i) * (h r * Rsum d (fun i => L i l * z r i))) by ring.
        rewrite <- Rsum_scal_r.  apply Rsum_ext. intros i Hi.
        rewrite <- !Rsum_scal. apply Rsum_ext. intros; ring. }
    rewrite uavg_sum. rewrite <- (Rsum_scal d (uavg d h)), <- Rsum_minus, <- Rsum_scal.
    apply Rsum_ext. intros i Hi.
    rewrite (uavg_sum d d (fun j r => L i k * L j l * (h r * (z r i * z r j)))).
    rewrite <- !Rsum_scal, <- Rsum_minus, <- Rsum_scal. apply Rsum_ext. intros j Hj. rewrite uavg_scal. ring.
  - rewrite (uavg_split (fun r => h r * (Lz k r * Lz l r))), !Lz_0. rewrite (Rsum_single d _ k Hk).
    + rewrite !Lz_p, !Lz_m, Nat.eqb_refl by assumption. rewrite (Nat.eqb_sym k l).
      destruct (Nat.eqb l k); unfold W1, ka; field; lra.
    + intros a Ha Hne. rewrite !Lz_p, !Lz_m by assumption. destruct (Nat.eqb_spec k a); [lia|ring].
Qed.
End Cols.

(** ** the returned energy as a function of its arguments *)
Section Whole.
Variable solve : nat -> (nat -> nat -> R) -> result ((nat -> R) -> nat -> R).
Hypothesis Hsol : solver_ok solve.

Lemma l96_grid_wf d th P dt A B M S obs : wf96 d A B M S obs ->
  exists r, l96_energy (K:=RNum) solve d th P dt A B M S obs = Ok r /\
  n_sde r = trap (length A) (fun k => uavg d (hpt d th (fun j => P j j) (gm A k) (gv B k) (gv M k) (gm S k))) dt /\
  (forall k, (k < length A)%nat -> nth k (n_f r) vz = E96_drift (K:=RNum) d th (gv M k) (gm S k) /\
     nth k (n_df r) mz = E96_drift_dx (K:=RNum) d (gv M k)) /\
  (forall k Bi, (k < length A)%nat -> is_prod d Bi (gm S k) ident ->
     let h := hpt d th (fun j => P j j) (gm A k) (gv B k) (gv M k) (gm S k) in
     let z := zpt d (gv M k) (gm S k) Bi in
     (forall i, (i < d)%nat -> nth k (n_dm r) vz i = uavg d (fun r => h r * z r i)) /\
     (forall i j, (i < d)%nat -> (j < d)%nat ->
        nth k (n_ds r) mz i j = 1 / 2 * (uavg d (fun r => h r * (z r i * z r j)) - uavg d h * Bi i j))) /\
  (forall j, n_dth r j = P j j * trap (length A) (fun k =>
     E96_drift (K:=RNum) d th (gv M k) (gm S k) j + Rsum d (fun l => gm A k j l * gv M k l) - gv B k j) dt) /\
  (forall i j, (i < d)%nat -> (j < d)%nat -> n_dsig r i j = - (1 / 2) * Rsum d (fun l => P i l * T96 d th dt A B M S l * P l j)).
Proof.
  intros (Hd & H1 & H2 & H3 & Ho & Hk). 
  exact (l96_grid solve Hsol d th P dt A B M S obs Hd Ho H1 H2 H3 (fun k H => proj1 (Hk k H)) (fun k H => proj2 (Hk k H))).
Qed.
Lemma esde_wf d th P dt A B M S obs : wf96 d A B M S obs ->
  esde_of (l96_energy (K:=RNum) solve d th P dt A B M S obs) =
  trap (length A) (fun k => uavg d (hpt d th (fun j => P j j) (gm A k) (gv B k) (gv M k) (gm S k))) dt.
Proof. intros H. destruct (l96_grid_wf d th P dt A B M S obs H) as (r & -> & E & _). exact E. Qed.

Lemma trap_Rsum n d (g : nat -> nat -> R) dt :
  trap n (fun k => Rsum d (fun j => g j k)) dt = Rsum d (fun j => trap n (g j) dt).
Proof.
  induction d as [|d IH].
  - cbn [Rsum]. unfold trap. apply Rsum_z. intros. field.
  - cbn [Rsum]. rewrite <- IH.
    transitivity (1 * trap n (fun k => Rsum d (fun j => g j k)) dt + 1 * trap n (g d) dt); [|ring].
    rewrite <- trap_lin. apply trap_ext. intros; ring.
Qed.
Lemma trap_scal n c g dt : trap n (fun k => c * g k) dt = c * trap n g dt.
Proof.
  transitivity (c * trap n g dt + 0 * trap n g dt); [|ring]. rewrite <- trap_lin. apply trap_ext. intros; ring.
Qed.
(** linear in the diagonal of the inverse noise *)
Lemma esde_T d th P dt A B M S obs : wf96 d A B M S obs ->
  esde_of (l96_energy (K:=RNum) solve d th P dt A B M S obs) = 1 / 2 * Rsum d (fun j => P j j * T96 d th dt A B M S j).
Proof.
  intros H. rewrite esde_wf by exact H.
  transitivity (trap (length A) (fun k => 1 / 2 * Rsum d (fun j => P j j * uavg d (fun r => mpt d th (gm A k) (gv B k) (gv M k) (gm S k) r j ^ 2))) dt).
  - apply trap_ext. intros k Hk. unfold hpt. rewrite uavg_scal, uavg_sum. f_equal. apply Rsum_ext. intros j Hj. apply uavg_scal.
  - rewrite trap_scal, trap_Rsum. f_equal. apply Rsum_ext. intros j Hj. apply trap_scal.
Qed.
Lemma l96_dsig_curve d (th : nat -> R) dt A B M S obs (Sg P : R -> nat -> nat -> R) (Sg' P' : nat -> nat -> R) (t0 : R) e :
  wf96 d A B M S obs -> l96_energy (K:=RNum) solve d th (P t0) dt A B M S obs = Ok e ->
  locally t0 (fun t => is_prod d (P t) (Sg t) ident) -> is_prod d (Sg t0) (P t0) ident ->
  symm d (P t0) ->
  (forall i j, (i < d)%nat -> (j < d)%nat -> is_derive (fun t => Sg t i j) t0 (Sg' i j)) ->
  (forall i j, (i < d)%nat -> (j < d)%nat -> is_derive (fun t => P t i j) t0 (P' i j)) ->
  is_derive (fun t => esde_of (l96_energy (K:=RNum) solve d th (P t) dt A B M S obs)) t0
    (Rsum d (fun i => Rsum d (fun j => n_dsig e i j * Sg' i j))).
Proof.
  intros Hw He HI HR Hsym HS HP. set (T := T96 d th dt A B M S).
  apply (is_derive_ext (fun t => 1 / 2 * Rsum d (fun j => P t j j * T j))).
  { intros t. symmetry. apply esde_T, Hw. }
  assert (D : is_derive (fun t => 1 / 2 * Rsum d (fun i => P t i i * T i)) t0 (1 / 2 * Rsum d (fun i => P' i i * T i))).
  { apply (is_derive_scal (fun t => Rsum d (fun i => P t i i * T i))).
    apply (is_derive_Rsum d (fun i t => P t i i * T i)). intros i Hi.
    apply (is_derive_ext (fun t => T i * P t i i)).
    { intros t. req. ring. }
    replace (P' i i * T i) with (T i * P' i i) by ring.
    apply (is_derive_scal (fun t => P t i i)). apply HP; assumption. }
  evar_last; [exact D|].
  pose proof (inv_derive d Sg P Sg' P' t0 HI HR HS HP) as E.
  destruct (l96_grid_wf d th (P t0) dt A B M S obs Hw) as (r & Er & _ & _ & _ & _ & Hsig).
  rewrite Er in He. injection He as <-. fold T in Hsig.
  transitivity (- (1 / 2) * Rsum d (fun l => T l * Rsum d (fun i => Rsum d (fun j => P t0 i l * Sg' i j * P t0 j l)))).
  - transitivity (1 / 2 * Rsum d (fun l => - (T l * Rsum d (fun i => Rsum d (fun j => P t0 i l * Sg' i j * P t0 j l))))).
    2:{ rewrite Rsum_opp. ring. }
    f_equal. apply Rsum_ext. intros l Hl. rewrite (E l l Hl Hl).
    rewrite (Rsum_ext d _ (fun k => Rsum d (fun j => P t0 k l * Sg' k j * P t0 j l))); [ring|].
    intros k Hk. apply Rsum_ext. intros j Hj. rewrite (Hsym l k Hl Hk). reflexivity.
  - transitivity (- (1 / 2) * Rsum d (fun i => Rsum d (fun j => Sg' i j * Rsum d (fun l => P t0 i l * T l * P t0 l j)))).
    + f_equal.
      transitivity (Rsum d (fun l => Rsum d (fun i => Rsum d (fun j => T l * (P t0 i l * Sg' i j * P t0 j l))))).
      { apply Rsum_ext. intros l Hl. rewrite <- Rsum_scal. apply Rsum_ext. intros i Hi. rewrite <- Rsum_scal. reflexivity. }
      rewrite Rsum_swap. apply Rsum_ext. intros i Hi. rewrite Rsum_swap. apply Rsum_ext. intros j Hj.
      rewrite <- Rsum_scal. apply Rsum_ext. intros l Hl. rewrite (Hsym j l Hj Hl). ring.
    + rewrite <- Rsum_scal. apply Rsum_ext. intros i Hi. rewrite <- Rsum_scal. apply Rsum_ext. intros j Hj.
      rewrite Hsig by assumption. ring.
Qed.
Lemma l96_dth_curve d (th : nat -> R) P dt A B M S obs i e : wf96 d A B M S obs -> (2 <= i)%nat -> (i + 1 < d)%nat ->
  l96_energy (K:=RNum) solve d th P dt A B M S obs = Ok e ->
  is_derive (fun t => esde_of (l96_energy (K:=RNum) solve d (vset i t th) P dt A B M S obs)) (th i) (n_dth e i).
Proof.
  intros Hw Hi1 Hi2 He.
  destruct (l96_grid_wf d th P dt A B M S obs Hw) as (r & Er & _ & _ & _ & Hth & _).
  rewrite Er in He. injection He as <-. rewrite Hth, <- trap_scal.
  apply (is_derive_ext (fun t => trap (length A) (fun k => uavg d (hpt d (vset i t th) (fun j => P j j) (gm A k) (gv B k) (gv M k) (gm S k))) dt)).
  { intros t. symmetry. apply esde_wf, Hw. }
  apply (is_derive_trap (length A) (fun k t => uavg d (hpt d (vset i t th) (fun j => P j j) (gm A k) (gv B k) (gv M k) (gm S k)))).
  destruct Hw as (Hd & _ & _ & _ & _ & Hk). intros k Hk'. destruct (Hk k Hk') as [Hs Hp].
  pose proof (rootf_ok d _ Hd Hs Hp) as HL.
  rewrite <- (uavg_interior d _ _ Hd HL th (gv M k) i Hi1 Hi2).
  rewrite <- (uavg_mpt d th (gm A k) (gv B k) (gv M k) (gm S k) _ i Hd Hs Hp HL) by lia.
  apply (e96_dth d th (fun j => P j j)); lia.
Qed.
End Whole.
