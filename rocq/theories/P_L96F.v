(** * Proofs about Lorenz96.energy over the time grid. *)
From Coq Require Import ZArith List Bool Arith Reals Lra Lia Sorted FunctionalExtensionality.
From Coquelicot Require Import Coquelicot.
From Verif Require Import Num Arr ArrFacts M_LinAlg M_Utils M_Sde1 M_L63 M_L96 M_L96E Spec_Utils Spec_Sde1 Spec_L63 Spec_L96 Spec_L96E
  Spec_GaussN P_Trapz P_LinAlg P_Utils P_Ut P_Sde1 P_GaussN P_L63 P_L96 P_RMat P_Det P_L96E.
Import ListNotations.
Local Open Scope R_scope.

(** ** the root is unique *)
Lemma root_unique d (L M : nat -> nat -> R) : lower_tri d L -> lower_tri d M ->
  (forall i j, (i < d)%nat -> (j < d)%nat -> Rsum d (fun k => L i k * L j k) = Rsum d (fun k => M i k * M j k)) ->
  forall j i, (i < d)%nat -> (j < d)%nat -> L i j = M i j.
Proof.
  intros HL HM H j. pose proof HL as [_ HLp]. pose proof HM as [_ HMp].
  induction j as [j IH] using lt_wf_ind. intros i Hi Hj.
  assert (Hc : forall a, (a < d)%nat -> L a j * L j j = M a j * M j j).
  { intros a Ha. pose proof (H a j Ha Hj) as E.
    pose proof (tri_sum d L a j HL Hj) as E1. pose proof (tri_sum d M a j HM Hj) as E2. toR.
    rewrite E1, E2 in E. rewrite !Rsum_S in E.
    rewrite (Rsum_ext j (fun k => L a k * L j k) (fun k => M a k * M j k)) in E; [lra|].
    intros k Hk. rewrite (IH k Hk a), (IH k Hk j) by lia. reflexivity. }
  pose proof (HLp j Hj). pose proof (HMp j Hj).
  assert (E : L j j = M j j).
  { pose proof (Hc j Hj). nra. }
  pose proof (Hc i Hi) as Ei. rewrite E in Ei. apply Rmult_eq_reg_r in Ei; [exact Ei|lra].
Qed.
Lemma rootf_eq d S L : (0 < d)%nat -> symm d S -> posdef d S -> scaled_root d S L ->
  forall i j, (i < d)%nat -> (j < d)%nat -> rootf d S i j = L i j.
Proof.
  intros Hd Hs Hp [HL HLL] i j Hi Hj. destruct (rootf_ok d S Hd Hs Hp) as [HM HMM].
  apply (root_unique d); try assumption. intros a c Ha Hc. rewrite HLL, HMM by assumption. reflexivity.
Qed.
Lemma root_posdef d S L : (0 < d)%nat -> symm d S -> scaled_root d S L -> posdef d S.
Proof.
  intros Hd Hs [HL HLL]. apply (scale_posdef d S _ (d_pos d Hd)).
  apply (chol_posdef d _ L HL). intros i j Hi Hj. exact (HLL i j Hi Hj).
Qed.

(** ** extensionality *)
Lemma sig_pt_ext d m L M : (forall i j, (i < d)%nat -> (j < d)%nat -> L i j = M i j) ->
  forall r i, (r < 2 * d + 1)%nat -> (i < d)%nat -> sig_pt d m L r i = sig_pt d m M r i.
Proof.
  intros H r i Hr Hi. destruct r as [|r]; [reflexivity|]. cbn [sig_pt].
  destruct (Nat.ltb_spec r d); rewrite H by lia; reflexivity.
Qed.
Lemma flat_ext N d x y : (0 < d)%nat -> (forall r i, (r < N)%nat -> (i < d)%nat -> x r i = y r i) ->
  forall p, (p < N * d)%nat -> flat d x p = flat d y p.
Proof.
  intros Hd H p Hp. apply H.
  - apply Nat.div_lt_upper_bound; lia.
  - apply Nat.mod_upper_bound; lia.
Qed.
Lemma ring_ext N d F x y r j : (0 < d)%nat -> (forall r i, (r < N)%nat -> (i < d)%nat -> x r i = y r i) ->
  (r < N)%nat -> (j < d)%nat -> ring_drift N d F x r j = ring_drift N d F y r j.
Proof.
  intros Hd H Hr Hj. assert (Hp : (r * d + j < N * d)%nat) by nia.
  pose proof (prv_lt _ _ Hp) as H1. pose proof (prv_lt _ _ H1) as H2. pose proof (nxt_lt _ _ Hp) as H3.
  unfold ring_drift, f96. rewrite !(flat_ext N d x y Hd H) by assumption. reflexivity.
Qed.
Lemma misfit_ext d A b f x g y r j : (forall i, (i < d)%nat -> x r i = y r i) -> f r j = g r j ->
  misfit d A b f x r j = misfit d A b g y r j.
Proof.
  intros H Hf. unfold misfit. rewrite Hf. f_equal. f_equal. apply Rsum_ext. intros k Hk. rewrite H by exact Hk. reflexivity.
Qed.

Section Root.
Variables (d : nat) (S L : nat -> nat -> R).
Hypotheses (Hd : (0 < d)%nat) (Hs : symm d S) (Hp : posdef d S) (HL : scaled_root d S L).

Lemma mpt_root u A b m r j : (r < 2 * d + 1)%nat -> (j < d)%nat ->
  mpt d u A b m S r j = misfit d A b (ring_drift (2 * d + 1) d u (sig_pt d m L)) (sig_pt d m L) r j.
Proof.
  intros Hr Hj. unfold mpt. pose proof (sig_pt_ext d m _ _ (rootf_eq d S L Hd Hs Hp HL)) as E.
  apply misfit_ext; [intros; apply E; assumption|]. apply ring_ext; assumption.
Qed.
Lemma hpt_root u P A b m r : (r < 2 * d + 1)%nat ->
  hpt d u (fun j => P j j) A b m S r = hring d u P A b m L r.
Proof.
  intros Hr. unfold hpt, hring, hmis. f_equal. apply Rsum_ext. intros j Hj. rewrite mpt_root by assumption. reflexivity.
Qed.
Lemma zpt_root B m r i : (r < 2 * d + 1)%nat ->
  zpt d m S B r i = Rsum d (fun k => B i k * (sig_pt d m L r k - m k)).
Proof.
  intros Hr. unfold zpt. apply Rsum_ext. intros k Hk.
  rewrite (sig_pt_ext d m _ _ (rootf_eq d S L Hd Hs Hp HL)) by assumption. reflexivity.
Qed.
(** the points have the given mean and covariance *)
Lemma uavg_expect m : is_expectation d (fun f => uavg d (fun r => f (sig_pt d m L r))) m S.
Proof.
  pose proof (root_of_scaled d S L HL) as HR.
  assert (Hm : forall i, uavg d (fun r => sig_pt d m L r i) = m i).
  { intros i. rewrite <- (pts_mean d m L i Hd). unfold uavg, wmean. apply Rsum_ext. intros r Hr.
    rewrite wt_sig, pts_fun. reflexivity. }
  split.
  - intros a b f g. rewrite (uavg_plus d (fun r => a * f (sig_pt d m L r))), !uavg_scal. reflexivity.
  - transitivity (Rsum (2 * d + 1) (wt d)); [|exact (weights_sum d Hd)].
    apply Rsum_ext. intros. rewrite wt_sig. ring.
  - intros i _. apply Hm.
  - intros i j Hi Hj. pose proof (pts_cov d m S L i j Hd HR Hi Hj) as C. unfold wcov in C.
    rewrite <- C, pts_fun. rewrite !(pts_fun d m L) in C.
    assert (E1 : uavg d (fun _ => 1) = 1).
    { transitivity (Rsum (2 * d + 1) (wt d)); [|exact (weights_sum d Hd)].
      apply Rsum_ext. intros. rewrite wt_sig. ring. }
    assert (Hw : forall i, wmean (2 * d + 1) (wt d) (sig_pt d m L) i = m i).
    { intros a. rewrite <- pts_fun. apply pts_mean, Hd. }
    rewrite (Rsum_ext _ _ (fun r => sig_w d r * (sig_pt d m L r i * sig_pt d m L r j)
       + (- m j * (sig_w d r * sig_pt d m L r i) + (- m i * (sig_w d r * sig_pt d m L r j) + m i * m j * (sig_w d r * 1))))).
    2:{ intros r Hr. rewrite !Hw, wt_sig. ring. }
    rewrite !Rsum_plus, !Rsum_scal.
    change (Rsum (2 * d + 1) (fun r => sig_w d r * sig_pt d m L r i)) with (uavg d (fun r => sig_pt d m L r i)).
    change (Rsum (2 * d + 1) (fun r => sig_w d r * sig_pt d m L r j)) with (uavg d (fun r => sig_pt d m L r j)).
    change (Rsum (2 * d + 1) (fun r => sig_w d r * 1)) with (uavg d (fun r => 1)).
    rewrite !Hm, E1. unfold uavg. ring.
Qed.
Lemma uavg_interior u m j : (2 <= j)%nat -> (j + 1 < d)%nat ->
  uavg d (fun r => ring_drift (2 * d + 1) d u (sig_pt d m L) r j) = E96_drift (K:=RNum) d u m S j.
Proof.
  intros H1 H2. rewrite <- (E96_any d _ m S u j ltac:(lia) (uavg_expect m)). cbn beta.
  apply uavg_ext. intros r Hr. rewrite <- batch_ring by lia.
  rewrite l96_batch_interior by lia. apply l96_f96. lia.
Qed.
End Root.

(** ** the loop *)
Lemma map4r_ok {A B C D E} (f : A -> B -> C -> D -> result E) a b c d da db dc dd de :
  length b = length a -> length c = length a -> length d = length a ->
  (forall k, (k < length a)%nat -> exists e, f (nth k a da) (nth k b db) (nth k c dc) (nth k d dd) = Ok e) ->
  exists l, map4r f a b c d = Ok l /\ length l = length a /\
    forall k, (k < length a)%nat -> f (nth k a da) (nth k b db) (nth k c dc) (nth k d dd) = Ok (nth k l de).
Proof.
  revert b c d. induction a as [|x a IH]; intros [|y b] [|z c] [|w d]; cbn [length]; try discriminate; intros H1 H2 H3 H.
  - exists []. repeat split. intros k Hk. lia.
  - destruct (H 0%nat ltac:(lia)) as [e He]. cbn [nth] in He.
    destruct (IH b c d ltac:(lia) ltac:(lia) ltac:(lia)) as (l & El & Hl & Hn).
    { intros k Hk. exact (H (Datatypes.S k) ltac:(lia)). }
    exists (e :: l). cbn [map4r]. rewrite He. cbn [bind]. rewrite El. cbn [bind length].
    split; [reflexivity|]. split; [lia|]. intros [|k] Hk; cbn [nth]; [exact He|apply Hn; lia].
Qed.
Lemma map4r_err {A B C D E} (f : A -> B -> C -> D -> result E) e0 a b c d da db dc dd k e :
  length b = length a -> length c = length a -> length d = length a ->
  (forall k e, (k < length a)%nat -> f (nth k a da) (nth k b db) (nth k c dc) (nth k d dd) = Err e -> e = e0) ->
  (k < length a)%nat -> f (nth k a da) (nth k b db) (nth k c dc) (nth k d dd) = Err e ->
  map4r f a b c d = Err e0.
Proof.
  revert b c d k. induction a as [|x a IH]; intros [|y b] [|z c] [|w d] k; cbn [length]; try discriminate; try lia; intros H1 H2 H3 H Hk He.
  cbn [map4r]. destruct (f x y z w) as [v|e'] eqn:E0; cbn [bind].
  - destruct k as [|k]; cbn [nth] in He; [congruence|].
    rewrite (IH b c d k); try lia; [reflexivity| |exact He].
    intros k' e' Hk' He'. exact (H (Datatypes.S k') e' ltac:(lia) He').
  - rewrite (H 0%nat e' ltac:(lia) E0). reflexivity.
Qed.

(** ** the time grid *)
Definition pd : Point (K:=RNum) := mkPoint (K:=RNum) 0 vz mz vz mz vz vz.
Section Grid.
Variable solve : nat -> (nat -> nat -> R) -> result ((nat -> R) -> nat -> R).
Hypothesis Hsol : solver_ok solve.
Variables (d : nat) (th : nat -> R) (P : nat -> nat -> R) (dt : R)
  (A : list (nat -> nat -> R)) (B M : list (nat -> R)) (S : list (nat -> nat -> R)) (obs : option (list nat)).
Hypotheses (Hd : (0 < d)%nat) (Ho : srt obs)
  (H1 : length B = length A) (H2 : length M = length A) (H3 : length S = length A)
  (Hs : forall k, (k < length A)%nat -> symm d (gm S k)).

Lemma l96_point_err k : (k < length A)%nat -> ~ posdef d (gm S k) ->
  l96_point (K:=RNum) solve d th (diagv P) (gm A k) (gv B k) (gv M k) (gm S k) = Err LinAlgError.
Proof.
  intros Hk Hn. destruct Hsol as [_ Hse].
  destruct (chol_iff d _ (scale_sym d (gm S k) (41 / 20 * INR d) (Hs k Hk))) as [_ E1].
  specialize (E1 (fun H => Hn (proj2 (scale_posdef d (gm S k) _ (d_pos d Hd)) H))).
  destruct (chol_iff d (gm S k) (Hs k Hk)) as [_ E2]. specialize (E2 Hn).
  unfold l96_point, ut_approx, ut_root. rewrite scale_eq.
  change (nmul (n:=RNum)) with Rmult. rewrite E1.
  destruct (cholesky (K:=RNum) d (mhad (gm S k) meye)) as [L|e] eqn:E3; cbn [bind].
  - unfold mat, vec in *. change (car RNum) with R in *.
    destruct (solve d (gm S k)) as [f|e] eqn:E4; cbn [bind].
    + unfold chol_inv_fast. rewrite E2. reflexivity.
    + rewrite (Hse _ _ _ E4). reflexivity.
  - apply chol_err in E3. rewrite E3. reflexivity.
Qed.
Lemma l96_point_errs k e : (k < length A)%nat ->
  l96_point (K:=RNum) solve d th (diagv P) (gm A k) (gv B k) (gv M k) (gm S k) = Err e -> e = LinAlgError.
Proof.
  intros Hk E. destruct (cholesky (K:=RNum) d (gm S k)) as [L|e'] eqn:EL.
  - assert (Hp : posdef d (gm S k)) by (apply (proj1 (chol_iff d (gm S k) (Hs k Hk))); exists L; exact EL).
    destruct (chol_inv_ok d (gm S k) (Hs k Hk) Hp) as (y & c & _ & _ & Hy & _).
    destruct (l96_point_spec solve Hsol d th (diagv P) (gm A k) (gv B k) (gv M k) (gm S k) y Hd (Hs k Hk) Hp Hy) as (pt & Ept & _).
    rewrite Ept in E. discriminate.
  - rewrite l96_point_err in E; [congruence|exact Hk|]. intros Hp.
    apply (proj1 (chol_iff d (gm S k) (Hs k Hk))) in Hp as [L HL]. congruence.
Qed.
Lemma l96_grid_err k : (k < length A)%nat -> ~ posdef d (gm S k) ->
  l96_energy (K:=RNum) solve d th P dt A B M S obs = Err LinAlgError.
Proof.
  intros Hk Hn. unfold l96_energy.
  rewrite (map4r_err _ LinAlgError A B M S mz vz vz mz k LinAlgError H1 H2 H3); [reflexivity| |exact Hk|].
  - intros k' e' Hk'. apply l96_point_errs, Hk'.
  - apply l96_point_err; assumption.
Qed.

Hypothesis Hp : forall k, (k < length A)%nat -> posdef d (gm S k).
Definition T96 (l : nat) : R :=
  trap (length A) (fun k => uavg d (fun r => mpt d th (gm A k) (gv B k) (gv M k) (gm S k) r l ^ 2)) dt.

Lemma l96_grid : exists r, l96_energy (K:=RNum) solve d th P dt A B M S obs = Ok r /\
  n_sde r = trap (length A) (fun k => uavg d (hpt d th (fun j => P j j) (gm A k) (gv B k) (gv M k) (gm S k))) dt /\
  (forall k, (k < length A)%nat -> nth k (n_f r) vz = E96_drift (K:=RNum) d th (gv M k) (gm S k) /\
     nth k (n_df r) mz = E96_drift_dx (K:=RNum) d (gv M k)) /\
  (forall k Bi, (k < length A)%nat -> is_prod d Bi (gm S k) ident ->
     let h := hpt d th (fun j => P j j) (gm A k) (gv B k) (gv M k) (gm S k) in
     let z := zpt d (gv M k) (gm S k) Bi in
     (forall i, (i < d)%nat -> nth k (n_dm r) vz i = uavg d (fun r => h r * z r i)) /\
     (forall i j, (i < d)%nat -> (j < d)%nat ->
        nth k (n_ds r) mz i j = 1 / 2 * (uavg d (fun r => h r * (z r i * z r j)) - uavg d h * Bi i j))) /\
  (forall j, n_dth r j = P j j * trap (length A) (fun k =>
     E96_drift (K:=RNum) d th (gv M k) (gm S k) j + Rsum d (fun l => gm A k j l * gv M k l) - gv B k j) dt) /\
  (forall i j, (i < d)%nat -> (j < d)%nat -> n_dsig r i j = - (1 / 2) * Rsum d (fun l => P i l * T96 l * P l j)).
Proof.
  assert (Hpt : forall k, (k < length A)%nat -> exists pt,
     l96_point (K:=RNum) solve d th (diagv P) (gm A k) (gv B k) (gv M k) (gm S k) = Ok pt).
  { intros k Hk. destruct (chol_inv_ok d (gm S k) (Hs k Hk) (Hp k Hk)) as (y & c & _ & _ & Hy & _).
    destruct (l96_point_spec solve Hsol d th (diagv P) (gm A k) (gv B k) (gv M k) (gm S k) y Hd (Hs k Hk) (Hp k Hk) Hy) as (pt & Ept & _).
    exists pt. exact Ept. }
  destruct (map4r_ok (l96_point (K:=RNum) solve d th (diagv P)) A B M S mz vz vz mz pd H1 H2 H3 Hpt) as (pts & Epts & Hlen & Hn).
  assert (HQ : forall k Bi, (k < length A)%nat -> is_prod d Bi (gm S k) ident ->
    let pt := nth k pts pd in
    q_e pt = uavg d (hpt d th (fun j => P j j) (gm A k) (gv B k) (gv M k) (gm S k)) /\
    q_f pt = E96_drift (K:=RNum) d th (gv M k) (gm S k) /\ q_df pt = E96_drift_dx (K:=RNum) d (gv M k) /\
    (forall i, q_th pt i = E96_drift (K:=RNum) d th (gv M k) (gm S k) i + Rsum d (fun l => gm A k i l * gv M k l) - gv B k i) /\
    (forall j, (j < d)%nat -> q_sig pt j = uavg d (fun r => mpt d th (gm A k) (gv B k) (gv M k) (gm S k) r j ^ 2)) /\
    (forall i, (i < d)%nat -> q_dm pt i = uavg d (fun r => hpt d th (fun j => P j j) (gm A k) (gv B k) (gv M k) (gm S k) r * zpt d (gv M k) (gm S k) Bi r i)) /\
    (forall i j, (i < d)%nat -> (j < d)%nat -> q_ds pt i j =
       1 / 2 * (uavg d (fun r => hpt d th (fun j => P j j) (gm A k) (gv B k) (gv M k) (gm S k) r * (zpt d (gv M k) (gm S k) Bi r i * zpt d (gv M k) (gm S k) Bi r j))
                - uavg d (hpt d th (fun j => P j j) (gm A k) (gv B k) (gv M k) (gm S k)) * Bi i j))).
  { intros k Bi Hk HB. cbn zeta.
    destruct (l96_point_spec solve Hsol d th (diagv P) (gm A k) (gv B k) (gv M k) (gm S k) Bi Hd (Hs k Hk) (Hp k Hk) HB) as (pt & Ept & HQ).
    pose proof (eq_trans (eq_sym (Hn k Hk)) Ept) as Eq. injection Eq as <-. exact HQ. }
  assert (HQ' : forall k, (k < length A)%nat -> exists Bi, is_prod d Bi (gm S k) ident).
  { intros k Hk. destruct (chol_inv_ok d (gm S k) (Hs k Hk) (Hp k Hk)) as (y & c & _ & _ & Hy & _). exists y. exact Hy. }
  unfold l96_energy. rewrite Epts. cbn [bind]. eexists. split; [reflexivity|].
  cbn [n_sde n_f n_df n_dm n_ds n_dth n_dsig].
  split; [|split; [|split; [|split]]].
  - rewrite trapz_scalar by exact Ho. rewrite map_length, Hlen. apply trap_ext. intros k Hk.
    rewrite (nth_map_lt q_e pts k pd) by (rewrite Hlen; exact Hk).
    destruct (HQ' k Hk) as [Bi HB]. apply (HQ k Bi Hk HB).
  - intros k Hk. destruct (HQ' k Hk) as [Bi HB]. split.
    + rewrite (nth_map_lt q_f pts k pd) by (rewrite Hlen; exact Hk). apply (HQ k Bi Hk HB).
    + rewrite (nth_map_lt q_df pts k pd) by (rewrite Hlen; exact Hk). apply (HQ k Bi Hk HB).
  - intros k Bi Hk HB. cbn zeta. split.
    + rewrite (nth_map_lt q_dm pts k pd) by (rewrite Hlen; exact Hk). apply (HQ k Bi Hk HB).
    + rewrite (nth_map_lt q_ds pts k pd) by (rewrite Hlen; exact Hk). apply (HQ k Bi Hk HB).
  - intros j. unfold vhad, diagv. rewrite trapz_vector by exact Ho. rewrite map_length, Hlen. rnum. f_equal.
    apply trap_ext. intros k Hk. rewrite (nth_map_lt q_th pts k pd) by (rewrite Hlen; exact Hk).
    destruct (HQ' k Hk) as [Bi HB]. apply (HQ k Bi Hk HB).
  - assert (ET : forall l, (l < d)%nat -> (my_trapz (V:=vecV RNum) (map q_sig pts) dt obs : Rvec) l = T96 l).
    { intros l Hl. rewrite trapz_vector by exact Ho. rewrite map_length, Hlen.
      apply trap_ext. intros k Hk. rewrite (nth_map_lt q_sig pts k pd) by (rewrite Hlen; exact Hk).
      destruct (HQ' k Hk) as [Bi HB]. apply (HQ k Bi Hk HB). exact Hl. }
    intros i j Hi Hj. unfold mscale. unfold mmul at 1. toR. rnum. f_equal.
    apply Rsum_ext. intros l Hl. unfold mmul. toR.
    change (@nmul RNum) with Rmult. f_equal.
    rewrite (Rsum_single d _ l Hl).
    + unfold mdiag. rewrite Nat.eqb_refl, ET by exact Hl. reflexivity.
    + intros k Hk Hkl. unfold mdiag. destruct (Nat.eqb_spec k l); [lia|]. rnum. ring.
Qed.
End Grid.
