(** * Local errors of the Runge-Kutta steps when the right-hand side varies in time. *)
From Coq Require Import List Reals Lra Lia Psatz.
From Coquelicot Require Import Coquelicot.
From Verif Require Import Num Arr ArrFacts Spec_Ode Spec_TimeVar M_Ode P_Conv P_OdeRK.
Import ListNotations.
Local Open Scope R_scope.

(** ** Taylor bounds *)
Lemma incr_le (f f' : R -> R) a b : a <= b ->
  (forall t, a <= t <= b -> is_derive f t (f' t)) -> (forall t, a <= t <= b -> 0 <= f' t) -> f a <= f b.
Proof.
  intros Hab Hd Hp. destruct (Req_dec a b) as [->|Hn]; [lra|].
  destruct (MVT_gen f a b f') as (c & Hc & He).
  - intros x Hx. rewrite Rmin_left, Rmax_right in Hx by lra. apply Hd. lra.
  - intros x Hx. rewrite Rmin_left, Rmax_right in Hx by lra.
    apply continuity_pt_filterlim. apply @ex_derive_continuous. eexists; apply Hd; lra.
  - rewrite Rmin_left, Rmax_right in Hc by lra. specialize (Hp c Hc).
    assert (0 <= f' c * (b - a)) by (apply Rmult_le_pos; lra). lra.
Qed.

Lemma drv (f : R -> R) (t l : R) : is_derive f t l -> Derive (fun x : R => f x) t = l.
Proof. exact (is_derive_unique f t l). Qed.

Lemma taylor1 (f f' : R -> R) a b M : a <= b ->
  (forall t, a <= t <= b -> is_derive f t (f' t)) ->
  (forall t, a <= t <= b -> Rabs (f' t) <= M) -> Rabs (f b - f a) <= M * (b - a).
Proof.
  intros Hab Hd Hb.
  assert (H1 : M * a - f a <= M * b - f b).
  { apply (incr_le (fun t => M * t - f t) (fun t => M - f' t) a b Hab).
    - intros t Ht. specialize (Hd t Ht). auto_derive; [eexists; exact Hd|].
      rewrite (drv f _ _ Hd). ring.
    - intros t Ht. specialize (Hb t Ht). apply Rabs_le_between in Hb. lra. }
  assert (H2 : M * a + f a <= M * b + f b).
  { apply (incr_le (fun t => M * t + f t) (fun t => M + f' t) a b Hab).
    - intros t Ht. specialize (Hd t Ht). auto_derive; [eexists; exact Hd|].
      rewrite (drv f _ _ Hd). ring.
    - intros t Ht. specialize (Hb t Ht). apply Rabs_le_between in Hb. lra. }
  apply Rabs_le_between. lra.
Qed.

Lemma taylor2 (f f' f'' : R -> R) a b M : a <= b ->
  (forall t, a <= t <= b -> is_derive f t (f' t)) ->
  (forall t, a <= t <= b -> is_derive f' t (f'' t)) ->
  (forall t, a <= t <= b -> Rabs (f'' t) <= M) ->
  Rabs (f b - f a - (b - a) * f' a) <= M * (b - a) ^ 2 / 2.
Proof.
  intros Hab Hd Hd2 Hb.
  assert (G : forall t, a <= t <= b -> Rabs (f' t - f' a) <= M * (t - a)).
  { intros t Ht. apply (taylor1 f' f''); [lra| |]; intros s Hs; [apply Hd2|apply Hb]; lra. }
  assert (H1 : M * (a - a) ^ 2 / 2 - (f a - f a - (a - a) * f' a) <= M * (b - a) ^ 2 / 2 - (f b - f a - (b - a) * f' a)).
  { apply (incr_le (fun t => M * (t - a) ^ 2 / 2 - (f t - f a - (t - a) * f' a)) (fun t => M * (t - a) - (f' t - f' a)) a b Hab).
    - intros t Ht. specialize (Hd t Ht). auto_derive; [eexists; exact Hd|].
      rewrite (drv f _ _ Hd). field.
    - intros t Ht. specialize (G t Ht). apply Rabs_le_between in G. lra. }
  assert (H2 : M * (a - a) ^ 2 / 2 + (f a - f a - (a - a) * f' a) <= M * (b - a) ^ 2 / 2 + (f b - f a - (b - a) * f' a)).
  { apply (incr_le (fun t => M * (t - a) ^ 2 / 2 + (f t - f a - (t - a) * f' a)) (fun t => M * (t - a) + (f' t - f' a)) a b Hab).
    - intros t Ht. specialize (Hd t Ht). auto_derive; [eexists; exact Hd|].
      rewrite (drv f _ _ Hd). field.
    - intros t Ht. specialize (G t Ht). apply Rabs_le_between in G. lra. }
  apply Rabs_le_between. nra.
Qed.

Lemma taylor3 (f f' f'' f3 : R -> R) a b M : a <= b ->
  (forall t, a <= t <= b -> is_derive f t (f' t)) ->
  (forall t, a <= t <= b -> is_derive f' t (f'' t)) ->
  (forall t, a <= t <= b -> is_derive f'' t (f3 t)) ->
  (forall t, a <= t <= b -> Rabs (f3 t) <= M) ->
  Rabs (f b - f a - (b - a) * f' a - (b - a) ^ 2 / 2 * f'' a) <= M * (b - a) ^ 3 / 6.
Proof.
  intros Hab Hd Hd2 Hd3 Hb.
  assert (G : forall t, a <= t <= b -> Rabs (f' t - f' a - (t - a) * f'' a) <= M * (t - a) ^ 2 / 2).
  { intros t Ht. apply (taylor2 f' f'' f3); [lra| | |]; intros s Hs; [apply Hd2|apply Hd3|apply Hb]; lra. }
  pose (q t := f t - f a - (t - a) * f' a - (t - a) ^ 2 / 2 * f'' a).
  assert (Dq : forall t, a <= t <= b -> is_derive q t (f' t - f' a - (t - a) * f'' a)).
  { intros t Ht. specialize (Hd t Ht). unfold q. auto_derive; [eexists; exact Hd|].
    rewrite (drv f _ _ Hd). field. }
  assert (q0 : q a = 0) by (unfold q; field).
  assert (H1 : M * (a - a) ^ 3 / 6 - q a <= M * (b - a) ^ 3 / 6 - q b).
  { apply (incr_le (fun t => M * (t - a) ^ 3 / 6 - q t) (fun t => M * (t - a) ^ 2 / 2 - (f' t - f' a - (t - a) * f'' a)) a b Hab).
    - intros t Ht. specialize (Dq t Ht). auto_derive; [eexists; exact Dq|].
      rewrite (drv q _ _ Dq). field.
    - intros t Ht. specialize (G t Ht). apply Rabs_le_between in G. lra. }
  assert (H2 : M * (a - a) ^ 3 / 6 + q a <= M * (b - a) ^ 3 / 6 + q b).
  { apply (incr_le (fun t => M * (t - a) ^ 3 / 6 + q t) (fun t => M * (t - a) ^ 2 / 2 + (f' t - f' a - (t - a) * f'' a)) a b Hab).
    - intros t Ht. specialize (Dq t Ht). auto_derive; [eexists; exact Dq|].
      rewrite (drv q _ _ Dq). field.
    - intros t Ht. specialize (G t Ht). apply Rabs_le_between in G. lra. }
  fold (q b). apply Rabs_le_between.
  replace (M * (a - a) ^ 3 / 6) with 0 in * by field. lra.
Qed.

(** ** Smooth functions *)
Lemma smooth_bdd k T f : smooth k T f -> exists M, forall t, 0 <= t <= T -> Rabs (f t) <= M.
Proof. destruct k; intros H; exact (proj1 H). Qed.
Lemma smooth_ext k T f g : (forall t, f t = g t) -> smooth k T f -> smooth k T g.
Proof.
  revert f g. induction k; intros f g E [(M & HM) H]; split.
  - exists M. intros t Ht. rewrite <- E. auto.
  - exact I.
  - exists M. intros t Ht. rewrite <- E. auto.
  - destruct H as (f' & Hd & Hs). exists f'. split; auto.
    intros t Ht. apply (is_derive_ext f); auto.
Qed.
Lemma smooth_pred k T f : smooth (S k) T f -> smooth k T f.
Proof.
  revert f. induction k; intros f [HM (f' & Hd & Hs)]; split; auto.
  exists f'. split; auto.
Qed.
Lemma smooth_const k T c : smooth k T (fun _ => c).
Proof.
  revert c. induction k; intros c; split; try (exists (Rabs c); intros; lra); auto.
  exists (fun _ => 0). split; auto. intros t _. apply @is_derive_const.
Qed.
Lemma smooth_plus k T f g : smooth k T f -> smooth k T g -> smooth k T (fun t => f t + g t).
Proof.
  revert f g. induction k; intros f g [(M & HM) H] [(N & HN) H'].
  - split; auto. exists (M + N). intros t Ht. eapply Rle_trans; [apply Rabs_triang|].
    specialize (HM t Ht). specialize (HN t Ht). lra.
  - destruct H as (f' & Hd & Hs), H' as (g' & Hd' & Hs'). split.
    + exists (M + N). intros t Ht. eapply Rle_trans; [apply Rabs_triang|].
      specialize (HM t Ht). specialize (HN t Ht). lra.
    + exists (fun t => f' t + g' t). split; auto. intros t Ht. apply @is_derive_plus; auto.
Qed.
Lemma smooth_mult k T f g : smooth k T f -> smooth k T g -> smooth k T (fun t => f t * g t).
Proof.
  assert (B : forall f g : R -> R, (exists M, forall t, 0 <= t <= T -> Rabs (f t) <= M) ->
    (exists M, forall t, 0 <= t <= T -> Rabs (g t) <= M) -> exists M, forall t, 0 <= t <= T -> Rabs (f t * g t) <= M).
  { intros f0 g0 [M HM] [N HN]. exists (M * N). intros t Ht. rewrite Rabs_mult.
    apply Rmult_le_compat; auto using Rabs_pos. }
  revert f g. induction k; intros f g Hf Hg.
  - split; auto. apply B; [apply Hf|apply Hg].
  - split; [apply B; [apply Hf|apply Hg]|].
    destruct Hf as [Bf (f' & Hd & Hs)] eqn:Ef, Hg as [Bg (g' & Hd' & Hs')] eqn:Eg. clear Ef Eg.
    exists (fun t => f' t * g t + f t * g' t). split.
    + intros t Ht. apply (is_derive_mult f g t (f' t) (g' t)); auto. intros; apply Rmult_comm.
    + apply smooth_plus; apply IHk; auto.
      * apply smooth_pred. split; auto. exists g'; auto.
      * apply smooth_pred. split; auto. exists f'; auto.
Qed.
Lemma smooth_opp k T f : smooth k T f -> smooth k T (fun t => - f t).
Proof.
  intros H. apply (smooth_ext k T (fun t => (-1) * f t)); [intros; ring|].
  apply smooth_mult; auto using smooth_const.
Qed.
Lemma smooth_rsum k T n (f : nat -> R -> R) : (forall i, (i < n)%nat -> smooth k T (f i)) ->
  smooth k T (fun t => rsum n (fun i => f i t)).
Proof.
  intros H. induction n.
  - apply (smooth_ext k T (fun _ => 0)); [reflexivity|apply smooth_const].
  - apply (smooth_ext k T (fun t => rsum n (fun i => f i t) + f n t)); [reflexivity|].
    apply smooth_plus; auto.
Qed.
(** differentiable, hence bounded *)
Lemma derive_bdd T (f f' : R -> R) : 0 <= T ->
  (forall t, 0 <= t <= T -> is_derive f t (f' t)) -> exists M, forall t, 0 <= t <= T -> Rabs (f t) <= M.
Proof.
  intros HT Hd.
  assert (Hc : forall t, 0 <= t <= T -> continuity_pt f t).
  { intros t Ht. apply continuity_pt_filterlim. apply @ex_derive_continuous. eexists; apply Hd; auto. }
  destruct (continuity_ab_maj f 0 T HT Hc) as (x & Hx & _).
  destruct (continuity_ab_min f 0 T HT Hc) as (y & Hy & _).
  exists (Rmax (f x) (- f y)). intros t Ht. specialize (Hx t Ht). specialize (Hy t Ht).
  apply Rabs_le_between. pose proof (Rmax_l (f x) (- f y)). pose proof (Rmax_r (f x) (- f y)). lra.
Qed.

(** common bounds for a finite family *)
Lemma finite_bound (P : nat -> R -> Prop) n :
  (forall i a b, P i a -> a <= b -> P i b) ->
  (forall i, (i < n)%nat -> exists M, P i M) -> exists M, 0 <= M /\ forall i, (i < n)%nat -> P i M.
Proof.
  intros Mo H. induction n.
  - exists 0. split; [lra|]. intros; lia.
  - destruct IHn as (M & HM0 & HM); [intros; apply H; lia|]. destruct (H n) as (N & HN); [lia|].
    exists (Rmax M N). split; [eapply Rle_trans; [exact HM0|apply Rmax_l]|].
    intros i Hi. destruct (Nat.eq_dec i n) as [->|].
    + eapply Mo; [exact HN|apply Rmax_r].
    + eapply Mo; [apply HM; lia|apply Rmax_l].
Qed.
