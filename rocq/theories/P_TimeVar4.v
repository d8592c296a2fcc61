(** * Affine systems: bounds for the solution and for the interpolated coefficients. *)
From Coq Require Import List Reals Lra Lia Psatz.
From Coquelicot Require Import Coquelicot.
From Verif Require Import Num Arr ArrFacts Spec_Ode Spec_TimeVar M_Ode P_OdeRK P_Conv P_TimeVar P_TimeVar2 P_TimeVar3.
Import ListNotations.
Local Open Scope R_scope.

Definition lerp (th u v : R) : R := (1 - th) * u + th * v.

Lemma rsum_abs n (f : nat -> R) B : (forall i, (i < n)%nat -> Rabs (f i) <= B) -> Rabs (rsum n f) <= INR n * B.
Proof.
  intros H. induction n.
  - cbn. rewrite Rabs_R0. lra.
  - rewrite sumn_S, S_INR. specialize (IHn (fun i Hi => H i ltac:(lia))).
    pose proof (Rabs_triang (rsum n f) (f n)). specialize (H n ltac:(lia)). lra.
Qed.

Lemma lerp_node (f : R -> R) f1 f2 T G t h th :
  0 <= t -> 0 < h -> t + h <= T -> node th -> 0 <= G ->
  (forall t, 0 <= t <= T -> is_derive f t (f1 t)) ->
  (forall t, 0 <= t <= T -> is_derive f1 t (f2 t)) ->
  (forall t, 0 <= t <= T -> Rabs (f2 t) <= G) ->
  Rabs (lerp th (f t) (f (t + h)) - f (t + th * h)) <= G * h ^ 2.
Proof.
  intros Ht Hh HT Hn HG H1 H2 H3. pose proof (pow2_ge_0 h).
  assert (0 <= G * h ^ 2) by (apply Rmult_le_pos; auto).
  destruct Hn as [-> | [-> | ->]]; unfold lerp.
  - replace (t + 0 * h) with t by ring. replace (_ - _) with 0 by ring. rewrite Rabs_R0. auto.
  - assert (A : Rabs (f (t + h) - f t - (t + h - t) * f1 t) <= G * (t + h - t) ^ 2 / 2).
    { apply (taylor2 f f1 f2); [lra| | |]; intros; [apply H1|apply H2|apply H3]; lra. }
    assert (B : Rabs (f (t + 1/2 * h) - f t - (t + 1/2 * h - t) * f1 t) <= G * (t + 1/2 * h - t) ^ 2 / 2).
    { apply (taylor2 f f1 f2); [lra| | |]; intros; [apply H1|apply H2|apply H3]; lra. }
    replace (t + h - t) with h in A by ring. replace (t + 1/2 * h - t) with (h / 2) in B by field.
    apply Rabs_le_between in A. apply Rabs_le_between in B. apply Rabs_le_between.
    set (q := G * h ^ 2) in *. replace (G * (h / 2) ^ 2 / 2) with (q / 8) in B by (unfold q; field).
    lra.
  - replace (t + 1 * h) with (t + h) by ring. replace (_ - _) with 0 by ring. rewrite Rabs_R0. auto.
Qed.

Section Aff.
Context {V : Val RNum} {I : Type} (inI : I -> Prop) (co : I -> V -> R).
Hypothesis co_add : forall i u v, co i (vadd u v) = co i u + co i v.
Hypothesis co_scale : forall i (c : R) u, co i (vscale c u) = c * co i u.
Hypothesis co_zero : forall i, co i (vzero V) = 0.
Hypothesis fin : forall P : I -> R -> Prop, (forall i a b, P i a -> a <= b -> P i b) ->
  (forall i, inI i -> exists M, P i M) -> exists M, 0 <= M /\ forall i, inI i -> P i M.
Variables (T : R) (N : nat) (cf : I -> nat -> R -> R) (ix : I -> nat -> I) (g : I -> R -> R) (y : R -> V).
Hypothesis Tpos : 0 <= T.
Hypothesis Hix : forall i k, inI i -> (k < N)%nat -> inI (ix i k).
Hypothesis Hcf : forall i k, inI i -> (k < N)%nat -> smooth 2 T (cf i k).
Hypothesis Hg : forall i, inI i -> smooth 2 T (g i).

Definition y1 (i : I) (t : R) : R := rsum N (fun k => cf i k t * co (ix i k) (y t)) + g i t.
Hypothesis Hy : forall i t, inI i -> 0 <= t <= T -> is_derive (fun s => co i (y s)) t (y1 i t).

Lemma y_smooth j : (j <= 3)%nat -> forall i, inI i -> smooth j T (fun t => co i (y t)).
Proof.
  induction j as [|j IH]; intros Hj i Hi.
  - split; [|exact Logic.I]. apply (derive_bdd T _ (y1 i)); auto.
  - split; [apply (derive_bdd T _ (y1 i)); auto|].
    exists (y1 i). split; auto. unfold y1.
    assert (J2 : forall f, smooth 2 T f -> smooth j T f).
    { intros f Hf. destruct j as [|[|[|j]]]; auto; [do 2 apply smooth_pred; auto|apply smooth_pred; auto|lia]. }
    apply smooth_plus; [|apply J2; auto].
    apply smooth_rsum. intros k Hk. apply smooth_mult; [apply J2; auto|apply IH; [lia|auto]].
Qed.
Lemma y1_smooth i : inI i -> smooth 2 T (y1 i).
Proof.
  intros Hi. unfold y1. apply smooth_plus; auto. apply smooth_rsum. intros k Hk.
  apply smooth_mult; auto. apply y_smooth; auto.
Qed.

Definition b2 (f : R -> R) (M : R) : Prop := exists f1 f2,
  (forall t, 0 <= t <= T -> Rabs (f t) <= M) /\
  (forall t, 0 <= t <= T -> is_derive f t (f1 t)) /\ (forall t, 0 <= t <= T -> Rabs (f1 t) <= M) /\
  (forall t, 0 <= t <= T -> is_derive f1 t (f2 t)) /\ (forall t, 0 <= t <= T -> Rabs (f2 t) <= M).
Lemma smooth_b2 f : smooth 2 T f -> exists M, b2 f M.
Proof.
  intros [(M0 & H0) (f1 & D1 & (M1 & H1) & f2 & D2 & (M2 & H2) & _)].
  exists (Rmax M0 (Rmax M1 M2)), f1, f2.
  pose proof (Rmax_l M0 (Rmax M1 M2)). pose proof (Rmax_r M0 (Rmax M1 M2)).
  pose proof (Rmax_l M1 M2). pose proof (Rmax_r M1 M2).
  split; [|split; [|split; [|split]]]; auto; intros t Ht;
    [specialize (H0 t Ht)|specialize (H1 t Ht)|specialize (H2 t Ht)]; lra.
Qed.
Lemma b2_mono f a b : b2 f a -> a <= b -> b2 f b.
Proof.
  intros (f1 & f2 & H0 & D1 & H1 & D2 & H2) Hab. exists f1, f2.
  split; [|split; [|split; [|split]]]; auto; intros t Ht; eapply Rle_trans; eauto.
Qed.

Theorem aff_conv : exists E K, 0 <= E /\ 0 <= K /\ forall mtd h n (u : nat -> V) (F : nat -> R -> V -> V) e0,
  0 < h -> INR n * h <= T -> 0 <= e0 -> near inI co e0 (u 0%nat) (y 0) ->
  (forall k th w i, (k < n)%nat -> node th -> inI i -> co i (F k th w) =
     rsum N (fun l => lerp th (cf i l (INR k * h)) (cf i l (INR k * h + h)) * co (ix i l) w)
     + lerp th (g i (INR k * h)) (g i (INR k * h + h))) ->
  (forall k, (k < n)%nat -> near inI co 0 (u (S k)) (rk_step (tab_of mtd) (F k) h (u k))) ->
  forall k, (k <= n)%nat -> near inI co (E * e0 + K * h ^ ordv mtd) (u k) (y (INR k * h)).
Proof.
  destruct (fin (fun i M => forall k, (k < N)%nat -> b2 (cf i k) M)) as (B & B0 & HB).
  { intros i a b H Hab k Hk. eapply b2_mono; eauto. }
  { intros i Hi. destruct (finite_bound (fun k M => b2 (cf i k) M) N) as (M & _ & HM).
    - intros; eapply b2_mono; eauto.
    - intros k Hk. apply smooth_b2; auto.
    - exists M. auto. }
  destruct (fin (fun i M => b2 (g i) M)) as (G & G0 & HG).
  { intros; eapply b2_mono; eauto. } { intros i Hi. apply smooth_b2; auto. }
  destruct (fin (fun i M => b2 (y1 i) M)) as (M & M0 & HM).
  { intros; eapply b2_mono; eauto. } { intros i Hi. apply smooth_b2, y1_smooth; auto. }
  destruct (fin (fun i M => forall t, 0 <= t <= T -> Rabs (co i (y t)) <= M)) as (Y & Y0 & HY).
  { intros i a b H Hab t Ht. eapply Rle_trans; eauto. }
  { intros i Hi. apply (smooth_bdd 0). apply y_smooth; auto. }
  assert (N0 : 0 <= INR N) by apply pos_INR.
  exists (exp (T * (INR N * B))), (kconv T (INR N * B) (INR N * (B * Y) + G) M M).
  assert (L0 : 0 <= INR N * B) by (apply Rmult_le_pos; auto).
  assert (D0 : 0 <= INR N * (B * Y) + G).
  { apply Rplus_le_le_0_compat; auto. apply Rmult_le_pos; auto. apply Rmult_le_pos; auto. }
  split; [left; apply exp_pos|]. split.
  { destruct (cpos (INR N * B) 0 L0 (Rle_refl 0) (INR N * (B * Y) + G) M D0 M0 T Tpos) as (P1 & P2 & P3 & P4 & P5 & P6).
    unfold kconv, tau. apply Rmult_le_pos; [apply Rmult_le_pos; auto; left; apply exp_pos|].
    assert (0 <= (INR N * (B * Y) + G) * T) by (apply Rmult_le_pos; auto). lra. }
  intros mtd h n u F e0 Hh Hn He H0 HF Hu.
  assert (Hle : forall k, (k < n)%nat -> 0 <= INR k * h /\ INR k * h + h <= T).
  { intros k Hk. split; [apply Rmult_le_pos; [apply pos_INR|lra]|].
    assert (INR (S k) * h <= INR n * h) by (apply Rmult_le_compat_r; [lra|apply le_INR; lia]).
    rewrite S_INR in *. lra. }
  apply (conv inI co co_add co_scale co_zero T (INR N * B) (INR N * (B * Y) + G) M M y y1) with (F := F); auto.
  - intros i Hi. destruct (HM i Hi) as (f1 & f2 & C0 & C1 & C2 & C3 & C4). exists f1, f2. auto.
  - intros k th Hk Hth e v w Hvw i Hi. rewrite !HF by auto.
    replace (_ - _) with (rsum N (fun l => lerp th (cf i l (INR k * h)) (cf i l (INR k * h + h)) * (co (ix i l) v - co (ix i l) w))).
    + rewrite Rmult_assoc. apply rsum_abs. intros l Hl. rewrite Rabs_mult.
      apply Rmult_le_compat; auto using Rabs_pos.
      destruct (HB i Hi l Hl) as (f1 & f2 & C0 & _). destruct (Hle k Hk) as [L1 L2].
      pose proof (C0 (INR k * h) ltac:(lra)) as Q1. pose proof (C0 (INR k * h + h) ltac:(lra)) as Q2.
      apply Rabs_le_between in Q1. apply Rabs_le_between in Q2. apply Rabs_le_between.
      unfold lerp. destruct Hth as [-> | [-> | ->]]; lra.
    + rewrite <- (sumn_ext N (fun l => lerp th (cf i l (INR k * h)) (cf i l (INR k * h + h)) * co (ix i l) v
         - lerp th (cf i l (INR k * h)) (cf i l (INR k * h + h)) * co (ix i l) w)).
      * rewrite sumn_minus. lra.
      * intros l Hl. ring.
  - intros k th i Hk Hth Hi. rewrite HF by auto. unfold y1. destruct (Hle k Hk) as [L1 L2].
    set (t := INR k * h) in *. set (w := y (t + th * h)).
    assert (Tth : 0 <= t + th * h <= T) by (destruct Hth as [-> | [-> | ->]]; lra).
    assert (E : rsum N (fun l => lerp th (cf i l t) (cf i l (t + h)) * co (ix i l) w)
       + lerp th (g i t) (g i (t + h)) - (rsum N (fun l => cf i l (t + th * h) * co (ix i l) w) + g i (t + th * h))
      = rsum N (fun l => (lerp th (cf i l t) (cf i l (t + h)) - cf i l (t + th * h)) * co (ix i l) w)
        + (lerp th (g i t) (g i (t + h)) - g i (t + th * h))).
    { rewrite (sumn_ext N (fun l => (lerp th (cf i l t) (cf i l (t + h)) - cf i l (t + th * h)) * co (ix i l) w)
        (fun l => lerp th (cf i l t) (cf i l (t + h)) * co (ix i l) w - cf i l (t + th * h) * co (ix i l) w)).
      - rewrite sumn_minus. lra.
      - intros l Hl. ring. }
    rewrite E. eapply Rle_trans; [apply Rabs_triang|]. rewrite Rmult_plus_distr_r. apply Rplus_le_compat.
    + rewrite Rmult_assoc. apply rsum_abs. intros l Hl. rewrite Rabs_mult.
      replace (B * Y * h ^ 2) with (B * h ^ 2 * Y) by ring.
      apply Rmult_le_compat; auto using Rabs_pos.
      * destruct (HB i Hi l Hl) as (f1 & f2 & C0 & C1 & C2 & C3 & C4).
        apply (lerp_node (cf i l) f1 f2 T); auto.
      * apply HY; auto.
    + destruct (HG i Hi) as (f1 & f2 & C0 & C1 & C2 & C3 & C4). apply (lerp_node (g i) f1 f2 T); auto.
Qed.
End Aff.

(** ** The index sets *)
Lemma fin_unit (P : unit -> R -> Prop) : (forall i a b, P i a -> a <= b -> P i b) ->
  (forall i, True -> exists M, P i M) -> exists M, 0 <= M /\ forall i, True -> P i M.
Proof.
  intros Mo H. destruct (H tt Logic.I) as (M & HM). exists (Rmax 0 M). split; [apply Rmax_l|].
  intros [] _. eapply Mo; [exact HM|apply Rmax_r].
Qed.
Lemma fin_pair d (P : nat * nat -> R -> Prop) : (forall i a b, P i a -> a <= b -> P i b) ->
  (forall i, (fst i < d)%nat /\ (snd i < d)%nat -> exists M, P i M) ->
  exists M, 0 <= M /\ forall i, (fst i < d)%nat /\ (snd i < d)%nat -> P i M.
Proof.
  intros Mo H.
  destruct (finite_bound (fun i M => forall j, (j < d)%nat -> P (i, j) M) d) as (M & M0 & HM).
  - intros i a b Q Hab j Hj. eapply Mo; eauto.
  - intros i Hi. destruct (finite_bound (fun j M => P (i, j) M) d) as (M & M0 & HM).
    + intros j a b. apply Mo.
    + intros j Hj. apply H. auto.
    + exists M. auto.
  - exists M. split; auto. intros [i j] [Hi Hj]. cbn in *. auto.
Qed.
