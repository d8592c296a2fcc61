(** * Mean and covariance of a d-dimensional linear diffusion: existence, uniqueness, symmetry,
    positive definiteness. *)
From Coq Require Import List Arith Reals Lra Lia Psatz.
From Coquelicot Require Import Coquelicot.
From Verif Require Import Num Arr ArrFacts Spec_Utils Spec_Det Spec_Gauss Spec_GaussN Spec_L63 Spec_Prior Spec_TimeVar Spec_Limit Spec_GradN Spec_LimitN
  P_Trapz P_Det P_RMat P_GradN P_TimeVar P_TimeVar4 P_TimeVar6 P_Limit1 P_LinOde.
Import ListNotations.
Local Open Scope R_scope.

(** ** linear systems *)
Lemma picard_s N T (P : R -> nat -> nat -> R) (q : R -> nat -> R) (y0 : nat -> R) : 0 <= T ->
  (forall i j, (i < N)%nat -> (j < N)%nat -> smooth 1 T (fun t => P t i j)) -> (forall i, (i < N)%nat -> smooth 1 T (fun t => q t i)) ->
  exists z : R -> nat -> R, (forall i, z 0 i = y0 i) /\
  forall t i, 0 <= t <= T -> (i < N)%nat -> is_derive (fun s => z s i) t (Rsum N (fun j => P t i j * z t j) + q t i).
Proof.
  intros HT HP Hq.
  destruct (fin_pair N (fun p M => forall t, 0 <= t <= T -> Rabs (P t (fst p) (snd p)) <= M)) as (B & B0 & HB).
  { intros i x y H Hxy t Ht. eapply Rle_trans; eauto. } { intros [i j] [Hi Hj]. apply (smooth_bdd 1 T (fun t => P t i j)). apply HP; assumption. }
  destruct (finite_bound (fun i M => forall t, 0 <= t <= T -> Rabs (q t i) <= M) N) as (Q & Q0 & HQ).
  { intros i x y H Hxy t Ht. eapply Rle_trans; eauto. } { intros i Hi. apply (smooth_bdd 1 T (fun t => q t i)). apply Hq; assumption. }
  destruct (finite_bound (fun i M => Rabs (y0 i) <= M) N) as (Y & Y0 & HY).
  { intros i x y H Hxy. lra. } { intros i _. eexists. apply Rle_refl. }
  apply (picard N T (B + 1) (Q + Y) P q y0 HT).
  - lra.
  - lra.
  - intros i j t Hi Hj Ht. apply (smooth_cont T (fun u => P u i j)); auto.
  - intros i t Hi Ht. apply (smooth_cont T (fun u => q u i)); auto.
  - intros i j t Hi Hj Ht. specialize (HB (i, j) (conj Hi Hj) t Ht). cbn [fst snd] in HB. lra.
  - intros i t Hi Ht. specialize (HQ i Hi t Ht). lra.
  - intros i Hi. specialize (HY i Hi). lra.
Qed.

Lemma lin_zero N T (P : R -> nat -> nat -> R) (z : R -> nat -> R) : 0 <= T ->
  (forall i j, (i < N)%nat -> (j < N)%nat -> exists M, forall t, 0 <= t <= T -> Rabs (P t i j) <= M) ->
  (forall i, (i < N)%nat -> z 0 i = 0) ->
  (forall t i, 0 <= t <= T -> (i < N)%nat -> is_derive (fun s => z s i) t (Rsum N (fun j => P t i j * z t j))) ->
  forall t i, 0 <= t <= T -> (i < N)%nat -> z t i = 0.
Proof.
  intros HT HP H0 HD.
  destruct (fin_pair N (fun p M => forall t, 0 <= t <= T -> Rabs (P t (fst p) (snd p)) <= M)) as (B & B0 & HB).
  { intros i x y H Hxy t Ht. eapply Rle_trans; eauto. } { intros [i j] [Hi Hj]. apply HP; assumption. }
  set (r := fun t => Rsum N (fun i => z t i * z t i)).
  set (r' := fun t => Rsum N (fun i => 2 * (z t i * Rsum N (fun j => P t i j * z t j)))).
  assert (Dr : forall t, 0 <= t <= T -> is_derive r t (r' t)).
  { intros t Ht. unfold r, r'. apply (d_sum N (fun u i => z u i * z u i) (fun i => 2 * (z t i * Rsum N (fun j => P t i j * z t j))) t).
    intros i Hi. eapply d_eq; [apply (d_mult (fun u => z u i) (fun u => z u i) t _ _ (HD t i Ht Hi) (HD t i Ht Hi))|]. ring. }
  set (c := 2 * INR N * B).
  assert (Rb : forall t, 0 <= t <= T -> r' t <= c * r t).
  { intros t Ht. unfold r', r, c.
    apply Rle_trans with (Rsum N (fun i => Rsum N (fun j => B * (z t i * z t i) + B * (z t j * z t j)))).
    - apply Rsum_le. intros i Hi. rewrite <- Rsum_scal, <- Rsum_scal. apply Rsum_le. intros j Hj.
      specialize (HB (i, j) (conj Hi Hj) t Ht). cbn [fst snd] in HB.
      assert (Hab : 2 * Rabs (z t i) * Rabs (z t j) <= z t i * z t i + z t j * z t j).
      { pose proof (Rle_0_sqr (Rabs (z t i) - Rabs (z t j))) as Q. unfold Rsqr in Q.
        assert (Rabs (z t i) * Rabs (z t i) = z t i * z t i) by (rewrite <- Rabs_mult; apply Rabs_pos_eq, Rle_0_sqr).
        assert (Rabs (z t j) * Rabs (z t j) = z t j * z t j) by (rewrite <- Rabs_mult; apply Rabs_pos_eq, Rle_0_sqr). lra. }
      apply Rle_trans with (Rabs (2 * (z t i * (P t i j * z t j)))); [apply Rle_abs|].
      rewrite !Rabs_mult, (Rabs_pos_eq 2) by lra.
      replace (2 * (Rabs (z t i) * (Rabs (P t i j) * Rabs (z t j)))) with (Rabs (P t i j) * (2 * Rabs (z t i) * Rabs (z t j))) by ring.
      rewrite <- Rmult_plus_distr_l. apply Rmult_le_compat; auto using Rabs_pos.
      apply Rmult_le_pos; [|apply Rabs_pos]. apply Rmult_le_pos; [lra|apply Rabs_pos].
    - right. rewrite (Rsum_ext N _ (fun i => INR N * (B * (z t i * z t i)) + B * Rsum N (fun j => z t j * z t j))).
      + rewrite Rsum_plus, Rsum_const, Rsum_scal, Rsum_scal. ring.
      + intros i Hi. rewrite Rsum_plus, Rsum_const, Rsum_scal. reflexivity. }
  intros t i Ht Hi.
  assert (Q : exp (- c * t) * r t <= exp (- c * 0) * r 0).
  { assert (I := incr_le (fun u => - (exp (- c * u) * r u)) (fun u => exp (- c * u) * (c * r u - r' u)) 0 t (proj1 Ht)). cbv beta in I.
    assert (- (exp (- c * 0) * r 0) <= - (exp (- c * t) * r t)); [|lra]. apply I.
    - intros u Hu. eapply d_eq; [apply d_opp, d_mult; [|apply Dr; lra]; apply (is_derive_comp exp (fun u => - c * u)); [apply is_derive_exp|apply d_scal, is_derive_id]|].
      change scal with Rmult. change one with 1. cbn. ring.
    - intros u Hu. apply Rmult_le_pos; [left; apply exp_pos|]. specialize (Rb u ltac:(lra)). lra. }
  assert (r0 : r 0 = 0) by (unfold r; apply Rsum_z; intros j Hj; rewrite (H0 j Hj); ring).
  rewrite r0, Rmult_0_r in Q.
  assert (rt : r t <= 0).
  { destruct (Rle_dec (r t) 0) as [|N0]; [assumption|exfalso]. assert (0 < exp (- c * t) * r t) by (apply Rmult_lt_0_compat; [apply exp_pos|lra]). lra. }
  assert (zi : z t i * z t i <= r t).
  { unfold r. apply (Rsum_ge_term N (fun i => z t i * z t i)); [intros; apply Rle_0_sqr|exact Hi]. }
  apply Rsqr_0_uniq. unfold Rsqr. pose proof (Rle_0_sqr (z t i)) as Z. unfold Rsqr in Z. lra.
Qed.

(** ** matrices as vectors *)
Definition PP (d : nat) (a : nat -> nat -> R) (p q : nat) : R :=
  (if Nat.eqb (p mod d) (q mod d) then - a (p / d)%nat (q / d)%nat else 0) + (if Nat.eqb (p / d) (q / d) then - a (p mod d) (q mod d) else 0).
Lemma flat_div k l d : (l < d)%nat -> ((k * d + l) / d)%nat = k.
Proof. intros H. rewrite Nat.div_add_l by lia. rewrite Nat.div_small by exact H. lia. Qed.
Lemma flat_mod k l d : (l < d)%nat -> ((k * d + l) mod d)%nat = l.
Proof. intros H. rewrite Nat.add_comm, Nat.mod_add by lia. apply Nat.mod_small, H. Qed.
Lemma flat_P d a (z : nat -> R) i j : (i < d)%nat -> (j < d)%nat ->
  Rsum (d * d) (fun q => PP d a (i * d + j) q * z q) = - Rsum d (fun k => a i k * z (k * d + j)%nat) - Rsum d (fun k => z (i * d + k)%nat * a j k).
Proof.
  intros Hi Hj. rewrite Rsum_split.
  rewrite (Rsum_ext d _ (fun k => - a i k * z (k * d + j)%nat + (if Nat.eqb i k then - Rsum d (fun l => z (i * d + l)%nat * a j l) else 0))).
  - rewrite Rsum_plus. rewrite (Rsum_single d (fun k => if Nat.eqb i k then _ else 0) i Hi).
    + rewrite Nat.eqb_refl. rewrite (Rsum_ext d _ (fun k => - (a i k * z (k * d + j)%nat))) by (intros; ring). rewrite Rsum_opp. ring.
    + intros k Hk Hki. destruct (Nat.eqb_spec i k); [congruence|reflexivity].
  - intros k Hk.
    rewrite (Rsum_ext d _ (fun l => (if Nat.eqb j l then - a i k * z (k * d + j)%nat else 0) + (if Nat.eqb i k then - (z (i * d + l)%nat * a j l) else 0))).
    + rewrite Rsum_plus, (Rsum_single d (fun l => if Nat.eqb j l then _ else 0) j Hj).
      * rewrite Nat.eqb_refl. f_equal. destruct (Nat.eqb i k); [apply Rsum_opp|apply Rsum_z; reflexivity].
      * intros l Hl Hlj. destruct (Nat.eqb_spec j l); [congruence|reflexivity].
    + intros l Hl. unfold PP. rewrite !flat_div, !flat_mod by assumption. destruct (Nat.eqb_spec j l) as [<-|_]; destruct (Nat.eqb_spec i k) as [<-|_]; ring.
Qed.
Lemma PP_smooth k T d (A : R -> nat -> nat -> R) p q : (forall i j, (i < d)%nat -> (j < d)%nat -> smooth k T (fun t => A t i j)) ->
  (p < d * d)%nat -> (q < d * d)%nat -> smooth k T (fun t => PP d (A t) p q).
Proof.
  intros H Hp Hq. assert (Hd : d <> O) by (intros ->; cbn in Hp; lia).
  assert (D : forall p, (p < d * d)%nat -> (p / d < d)%nat) by (intros x Hx; apply Nat.div_lt_upper_bound; assumption).
  assert (M : forall p, (p mod d < d)%nat) by (intros x; apply Nat.mod_upper_bound; assumption).
  unfold PP. apply (smooth_plus k T (fun t => if Nat.eqb (p mod d) (q mod d) then - A t (p / d)%nat (q / d)%nat else 0) (fun t => if Nat.eqb (p / d) (q / d) then - A t (p mod d) (q mod d) else 0)).
  - destruct Nat.eqb; [apply (smooth_opp k T (fun t => A t (p / d)%nat (q / d)%nat)), H; auto|apply smooth_const].
  - destruct Nat.eqb; [apply (smooth_opp k T (fun t => A t (p mod d) (q mod d))), H; auto|apply smooth_const].
Qed.

Section Moments.
Context (d : nat) (T : R) (Sigma s0 : nat -> nat -> R) (m0 : nat -> R) (A : R -> nat -> nat -> R) (b : R -> nat -> R).
Hypothesis HT : 0 <= T.
Hypothesis HA : forall i j, (i < d)%nat -> (j < d)%nat -> smooth 1 T (fun t => A t i j).
Hypothesis Hb : forall i, (i < d)%nat -> smooth 1 T (fun t => b t i).

Lemma moments_n_ex : exists m S, moments_n d T Sigma m0 s0 A b m S.
Proof.
  destruct (picard_s d T (fun t i j => - A t i j) b m0 HT) as (m & M0 & MD); [intros i j Hi Hj; apply (smooth_opp 1 T (fun t => A t i j)); auto|exact Hb|].
  destruct (picard_s (d * d) T (fun t => PP d (A t)) (fun _ p => Sigma (p / d)%nat (p mod d)) (fun p => s0 (p / d)%nat (p mod d)) HT) as (z & Z0 & ZD).
  { intros p q Hp Hq. apply PP_smooth; assumption. } { intros p Hp. apply smooth_const. }
  exists m, (fun t i j => z t (i * d + j)%nat). split; [auto|]. split; [|split].
  - intros i j Hi Hj. rewrite Z0, flat_div, flat_mod by assumption. reflexivity.
  - intros t i Ht Hi. eapply d_eq; [apply MD; assumption|]. unfold glin.
    rewrite (Rsum_ext d _ (fun j => - (A t i j * m t j))) by (intros; ring). rewrite Rsum_opp. ring.
  - intros t i j Ht Hi Hj. eapply d_eq; [apply (ZD t (i * d + j)%nat Ht); nia|]. rewrite flat_P, flat_div, flat_mod by assumption. reflexivity.
Qed.

Lemma Abd i j : (i < d)%nat -> (j < d)%nat -> exists M, forall t, 0 <= t <= T -> Rabs (A t i j) <= M.
Proof. intros Hi Hj. apply (smooth_bdd 1 T (fun t => A t i j)). auto. Qed.

(** two solutions of the covariance equation with the same right-hand side *)
Lemma cov_unique (S S' : R -> nat -> nat -> R) : (forall i j, (i < d)%nat -> (j < d)%nat -> S 0 i j = S' 0 i j) ->
  (forall t i j, 0 <= t <= T -> (i < d)%nat -> (j < d)%nat ->
     is_derive (fun u => S u i j) t (- Rsum d (fun k => A t i k * S t k j) - Rsum d (fun k => S t i k * A t j k) + Sigma i j)) ->
  (forall t i j, 0 <= t <= T -> (i < d)%nat -> (j < d)%nat ->
     is_derive (fun u => S' u i j) t (- Rsum d (fun k => A t i k * S' t k j) - Rsum d (fun k => S' t i k * A t j k) + Sigma i j)) ->
  forall t i j, 0 <= t <= T -> (i < d)%nat -> (j < d)%nat -> S t i j = S' t i j.
Proof.
  intros H0 D D' t i j Ht Hi Hj.
  assert (Q : (fun t p => S t (p / d)%nat (p mod d) - S' t (p / d)%nat (p mod d)) t (i * d + j)%nat = 0).
  { apply (lin_zero (d * d) T (fun t => PP d (A t)) (fun t p => S t (p / d)%nat (p mod d) - S' t (p / d)%nat (p mod d))); auto.
    - intros p q Hp Hq. apply (smooth_bdd 1 T (fun t => PP d (A t) p q)). apply PP_smooth; auto.
    - intros p Hp. assert (Hd : d <> O) by lia. rewrite H0; [ring|apply Nat.div_lt_upper_bound; assumption|apply Nat.mod_upper_bound; assumption].
    - intros u p Hu Hp. assert (Hd : d <> O) by lia.
      assert (E : exists k l, (k < d)%nat /\ (l < d)%nat /\ p = (k * d + l)%nat).
      { exists (p / d)%nat, (p mod d). split; [apply Nat.div_lt_upper_bound; assumption|]. split; [apply Nat.mod_upper_bound; assumption|]. rewrite Nat.mul_comm. apply Nat.div_mod, Hd. }
      destruct E as (k & l & Hk & Hl & ->). rewrite flat_div, flat_mod by assumption.
      eapply d_eq; [apply (d_minus (fun u => S u k l) (fun u => S' u k l) u _ _ (D u k l Hu Hk Hl) (D' u k l Hu Hk Hl))|].
      rewrite flat_P by assumption.
      rewrite (Rsum_ext d (fun k0 => A u k k0 * (S u ((k0 * d + l) / d)%nat ((k0 * d + l) mod d) - S' u ((k0 * d + l) / d)%nat ((k0 * d + l) mod d))) (fun k0 => A u k k0 * S u k0 l - A u k k0 * S' u k0 l))
        by (intros x Hx; rewrite flat_div, flat_mod by assumption; ring).
      rewrite (Rsum_ext d (fun k0 => (S u ((k * d + k0) / d)%nat ((k * d + k0) mod d) - S' u ((k * d + k0) / d)%nat ((k * d + k0) mod d)) * A u l k0) (fun k0 => S u k k0 * A u l k0 - S' u k k0 * A u l k0))
        by (intros x Hx; rewrite flat_div, flat_mod by assumption; ring).
      rewrite !Rsum_minus. ring.
    - nia. }
  cbv beta in Q. rewrite flat_div, flat_mod in Q by assumption. lra.
Qed.

Lemma moments_n_unique m S m' S' : moments_n d T Sigma m0 s0 A b m S -> moments_n d T Sigma m0 s0 A b m' S' ->
  forall t, 0 <= t <= T -> (forall i, (i < d)%nat -> m t i = m' t i) /\ (forall i j, (i < d)%nat -> (j < d)%nat -> S t i j = S' t i j).
Proof.
  intros (I1 & I2 & D1 & D2) (J1 & J2 & E1 & E2) t Ht. split.
  - intros i Hi. assert (Q : (fun t i => m t i - m' t i) t i = 0).
    { apply (lin_zero d T (fun t i j => - A t i j) (fun t i => m t i - m' t i)); auto.
      - intros k j Hk Hj. apply (smooth_bdd 1 T (fun t => - A t k j)). apply (smooth_opp 1 T (fun t => A t k j)); auto.
      - intros k Hk. rewrite I1, J1 by exact Hk. ring.
      - intros u k Hu Hk. eapply d_eq; [apply (d_minus (fun u => m u k) (fun u => m' u k) u _ _ (D1 u k Hu Hk) (E1 u k Hu Hk))|].
        unfold glin. rewrite (Rsum_ext d (fun j => - A u k j * (m u j - m' u j)) (fun j => A u k j * m' u j - A u k j * m u j)) by (intros; ring).
        rewrite Rsum_minus. ring. }
    cbv beta in Q. lra.
  - intros i j Hi Hj. apply cov_unique; auto. intros k l Hk Hl. rewrite I2, J2 by assumption. reflexivity.
Qed.

Context (m : R -> nat -> R) (S : R -> nat -> nat -> R) (HM : moments_n d T Sigma m0 s0 A b m S).
Lemma moments_n_sym : symm d Sigma -> symm d s0 -> forall t, 0 <= t <= T -> symm d (S t).
Proof.
  destruct HM as (I1 & I2 & D1 & D2). intros HS H0 t Ht i j Hi Hj.
  apply (cov_unique S (fun t i j => S t j i)); auto.
  - intros k l Hk Hl. rewrite !I2 by assumption. apply H0; assumption.
  - intros u k l Hu Hk Hl. eapply d_eq; [apply (D2 u l k Hu Hl Hk)|]. rewrite (HS l k Hl Hk).
    rewrite (Rsum_ext d (fun x => A u l x * S u x k) (fun x => S u x k * A u l x)) by (intros; ring).
    rewrite (Rsum_ext d (fun x => S u l x * A u k x) (fun x => A u k x * S u l x)) by (intros; ring). ring.
Qed.

Lemma moments_n_posdef : symm d Sigma -> posdef d Sigma -> posdef d s0 -> forall t, 0 <= t <= T -> posdef d (S t).
Proof.
  destruct HM as (I1 & I2 & D1 & D2). intros HS HP H0 tau Ht v Hv.
  destruct (picard_s d tau (fun s i j => - A (tau - s) j i) (fun _ _ => 0) v (proj1 Ht)) as (u & U0 & UD).
  { intros i j Hi Hj. apply (smooth_opp 1 tau (fun s => A (tau - s) j i)). replace tau with (tau - 0) at 1 by ring.
    apply (smooth_rev 1 T 0 tau (fun s => A s j i)); [lra|lra|auto]. }
  { intros i Hi. apply smooth_const. }
  set (w := fun t => u (tau - t)).
  assert (WD : forall t i, 0 <= t <= tau -> (i < d)%nat -> is_derive (fun s => w s i) t (Rsum d (fun k => A t k i * w t k))).
  { intros t i Hti Hi. eapply d_eq; [apply (rev_derive (fun s => u s i)); apply UD; [lra|exact Hi]|].
    rewrite Rplus_0_r, <- Rsum_opp. apply Rsum_ext. intros k Hk. unfold w. replace (tau - (tau - t)) with t by ring. ring. }
  assert (W1 : forall i, w tau i = v i) by (intros i; unfold w; rewrite Rminus_diag_eq by reflexivity; apply U0).
  assert (W0 : exists i, (i < d)%nat /\ w 0 i <> 0).
  { destruct (Classical_Prop.classic (exists i, (i < d)%nat /\ w 0 i <> 0)) as [H|H]; [exact H|exfalso].
    destruct Hv as (i & Hi & Hvi). apply Hvi. rewrite <- W1.
    apply (lin_zero d tau (fun t i j => A t j i) w (proj1 Ht)); auto; [| |lra].
    - intros k j Hk Hj. destruct (Abd j k Hj Hk) as (M & HMb). exists M. intros x Hx. apply HMb. lra.
    - intros k Hk. destruct (Req_dec (w 0 k) 0) as [E|E]; [exact E|]. exfalso. apply H. exists k. split; assumption. }
  set (q := fun t => Rsum d (fun i => Rsum d (fun j => w t i * S t i j * w t j))).
  assert (QD : forall t, 0 <= t <= tau -> is_derive q t (Rsum d (fun i => Rsum d (fun j => w t i * Sigma i j * w t j)))).
  { intros t Hti.
    eapply d_eq.
    { apply (d_sum d (fun t i => Rsum d (fun j => w t i * S t i j * w t j))
        (fun i => Rsum d (fun j => (Rsum d (fun k => A t k i * w t k) * S t i j + w t i * (- Rsum d (fun k => A t i k * S t k j) - Rsum d (fun k => S t i k * A t j k) + Sigma i j)) * w t j
            + w t i * S t i j * Rsum d (fun k => A t k j * w t k)))).
      intros i Hi. apply (d_sum d (fun t j => w t i * S t i j * w t j)). intros j Hj.
      apply (d_mult (fun t => w t i * S t i j) (fun t => w t j) t _ _); [|apply WD; assumption].
      apply (d_mult (fun t => w t i) (fun t => S t i j) t _ _); [apply WD; assumption|apply D2; [lra|exact Hi|exact Hj]]. }
    assert (E1 : Rsum d (fun i => Rsum d (fun j => Rsum d (fun k => A t k i * w t k) * S t i j * w t j)) = Rsum d (fun i => Rsum d (fun j => w t i * Rsum d (fun k => A t i k * S t k j) * w t j))).
    { transitivity (Rsum d (fun i => Rsum d (fun k => Rsum d (fun j => A t k i * w t k * S t i j * w t j)))).
      - apply Rsum_ext. intros i Hi. rewrite Rsum_swap. apply Rsum_ext. intros j Hj. rewrite Rmult_assoc, <- Rsum_scal_r. apply Rsum_ext. intros; ring.
      - rewrite Rsum_swap. apply Rsum_ext. intros i Hi. rewrite Rsum_swap. apply Rsum_ext. intros j Hj.
        rewrite <- Rsum_scal, <- Rsum_scal_r. apply Rsum_ext. intros; ring. }
    assert (E2 : Rsum d (fun i => Rsum d (fun j => w t i * S t i j * Rsum d (fun k => A t k j * w t k))) = Rsum d (fun i => Rsum d (fun j => w t i * Rsum d (fun k => S t i k * A t j k) * w t j))).
    { apply Rsum_ext. intros i Hi. transitivity (Rsum d (fun j => Rsum d (fun k => w t i * S t i j * A t k j * w t k))).
      - apply Rsum_ext. intros j Hj. rewrite <- Rsum_scal. apply Rsum_ext. intros; ring.
      - rewrite Rsum_swap. apply Rsum_ext. intros j Hj. rewrite <- Rsum_scal, <- Rsum_scal_r. apply Rsum_ext. intros; ring. }
    transitivity (Rsum d (fun i => Rsum d (fun j => Rsum d (fun k => A t k i * w t k) * S t i j * w t j)) - Rsum d (fun i => Rsum d (fun j => w t i * Rsum d (fun k => A t i k * S t k j) * w t j))
      + (Rsum d (fun i => Rsum d (fun j => w t i * S t i j * Rsum d (fun k => A t k j * w t k))) - Rsum d (fun i => Rsum d (fun j => w t i * Rsum d (fun k => S t i k * A t j k) * w t j)))
      + Rsum d (fun i => Rsum d (fun j => w t i * Sigma i j * w t j))); [|rewrite E1, E2; ring].
    rewrite <- !Rsum_minus, <- !Rsum_plus. apply Rsum_ext. intros i Hi. rewrite <- !Rsum_minus, <- !Rsum_plus. apply Rsum_ext. intros j Hj. ring. }
  assert (Q0 : 0 < q 0).
  { eapply Rlt_le_trans; [apply (H0 (w 0) W0)|]. apply Req_le. unfold q. apply Rsum_ext. intros i Hi. apply Rsum_ext. intros j Hj. rewrite I2 by assumption. reflexivity. }
  assert (Q1 : q 0 <= q tau).
  { apply (incr_le q (fun t => Rsum d (fun i => Rsum d (fun j => w t i * Sigma i j * w t j))) 0 tau (proj1 Ht) QD).
    intros t Hti. pose proof (posdef_nonneg d Sigma (w t) HP) as Q. eapply Rle_trans; [exact Q|]. apply Req_le. unfold rdot, rmv.
    apply Rsum_ext. intros i Hi. etransitivity; [symmetry; apply Rsum_scal|]. apply Rsum_ext. intros; ring. }
  eapply Rlt_le_trans; [exact Q0|]. eapply Rle_trans; [exact Q1|]. apply Req_le. unfold q. apply Rsum_ext. intros i Hi. apply Rsum_ext. intros j Hj. rewrite !W1. reflexivity.
Qed.
End Moments.

(** ** smoothness *)
Section Smooth.
Context (d : nat) (T : R) (Sigma s0 : nat -> nat -> R) (m0 : nat -> R) (A : R -> nat -> nat -> R) (b m : R -> nat -> R) (S : R -> nat -> nat -> R) (K : nat).
Hypothesis HT : 0 <= T.
Hypothesis HA : forall i j, (i < d)%nat -> (j < d)%nat -> smooth K T (fun t => A t i j).
Hypothesis Hb : forall i, (i < d)%nat -> smooth K T (fun t => b t i).
Hypothesis HM : moments_n d T Sigma m0 s0 A b m S.
Lemma smooth_le j k T' f : (j <= k)%nat -> smooth k T' f -> smooth j T' f.
Proof. intros H. induction H as [|k H IH]; [auto|]. intros Hf. apply IH, smooth_pred, Hf. Qed.
Lemma moments_n_smooth j : (j <= Datatypes.S K)%nat ->
  (forall i, (i < d)%nat -> smooth j T (fun t => m t i)) /\ (forall i k, (i < d)%nat -> (k < d)%nat -> smooth j T (fun t => S t i k)).
Proof.
  destruct HM as (I1 & I2 & D1 & D2). induction j as [|j IH]; intros Hj; split.
  - intros i Hi. split; [|exact I]. apply (derive_bdd T _ (fun t => glin d (A t) (b t) (m t) i)); auto.
  - intros i k Hi Hk. split; [|exact I]. eapply (derive_bdd T _ _ HT). intros t Ht. exact (D2 t i k Ht Hi Hk).
  - intros i Hi. destruct IH as [IHm _]; [lia|]. split; [apply (derive_bdd T _ (fun t => glin d (A t) (b t) (m t) i)); auto|].
    exists (fun t => glin d (A t) (b t) (m t) i). split; [auto|]. unfold glin.
    apply (smooth_ext j T (fun t => - Rsum d (fun k => A t i k * m t k) + b t i)); [intros t; ring|].
    apply (smooth_plus j T (fun t => - Rsum d (fun k => A t i k * m t k)) (fun t => b t i)); [|apply (smooth_le j K); [lia|auto]].
    apply (smooth_opp j T (fun t => Rsum d (fun k => A t i k * m t k))). apply (smooth_rsum j T d (fun k t => A t i k * m t k)). intros k Hk.
    apply (smooth_mult j T (fun t => A t i k) (fun t => m t k)); [apply (smooth_le j K); [lia|auto]|auto].
  - intros i k Hi Hk. destruct IH as [_ IHS]; [lia|]. split; [eapply (derive_bdd T _ _ HT); intros t Ht; exact (D2 t i k Ht Hi Hk)|].
    exists (fun t => - Rsum d (fun l => A t i l * S t l k) - Rsum d (fun l => S t i l * A t k l) + Sigma i k). split; [auto|].
    apply (smooth_plus j T (fun t => - Rsum d (fun l => A t i l * S t l k) - Rsum d (fun l => S t i l * A t k l)) (fun _ => Sigma i k)); [|apply smooth_const].
    apply (smooth_plus j T (fun t => - Rsum d (fun l => A t i l * S t l k)) (fun t => - Rsum d (fun l => S t i l * A t k l))).
    + apply (smooth_opp j T (fun t => Rsum d (fun l => A t i l * S t l k))). apply (smooth_rsum j T d (fun l t => A t i l * S t l k)). intros l Hl.
      apply (smooth_mult j T (fun t => A t i l) (fun t => S t l k)); [apply (smooth_le j K); [lia|auto]|auto].
    + apply (smooth_opp j T (fun t => Rsum d (fun l => S t i l * A t k l))). apply (smooth_rsum j T d (fun l t => S t i l * A t k l)). intros l Hl.
      apply (smooth_mult j T (fun t => S t i l) (fun t => A t k l)); [auto|apply (smooth_le j K); [lia|auto]].
Qed.
End Smooth.
