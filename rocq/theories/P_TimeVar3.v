(** * Convergence of the sweeps on coefficients that vary in time. *)
From Coq Require Import List Reals Lra Lia Psatz.
From Coquelicot Require Import Coquelicot.
From Verif Require Import Num Arr ArrFacts Spec_Ode Spec_TimeVar M_Ode P_Ode P_OdeRK P_OdeR P_Conv P_TimeVar P_TimeVar2.
Import ListNotations.
Local Open Scope R_scope.

Definition ordv (m : method) : nat := match m with Euler => 1 | _ => 2 end.

Section Conv.
Context {V : Val RNum} {I : Type} (inI : I -> Prop) (co : I -> V -> R).
Hypothesis co_add : forall i u v, co i (vadd u v) = co i u + co i v.
Hypothesis co_scale : forall i (c : R) u, co i (vscale c u) = c * co i u.
Hypothesis co_zero : forall i, co i (vzero V) = 0.
Variables (T L D M2 M3 : R) (y : R -> V) (y1 : I -> R -> R).
Hypothesis Tpos : 0 <= T.
Hypothesis Lpos : 0 <= L.
Hypothesis Dpos : 0 <= D.
Hypothesis M2pos : 0 <= M2.
Hypothesis M3pos : 0 <= M3.
Hypothesis Hy : forall i t, inI i -> 0 <= t <= T -> is_derive (fun s => co i (y s)) t (y1 i t).
Hypothesis Hsm : forall i, inI i -> exists f2 f3 : R -> R,
  (forall t, 0 <= t <= T -> is_derive (y1 i) t (f2 t)) /\ (forall t, 0 <= t <= T -> Rabs (f2 t) <= M2) /\
  (forall t, 0 <= t <= T -> is_derive f2 t (f3 t)) /\ (forall t, 0 <= t <= T -> Rabs (f3 t) <= M3).

Definition kconv := T * exp (T * L) * (D * T + M2 + tau L D M2 M3 T).

Lemma node_in t h th : 0 <= t -> 0 < h -> t + h <= T -> node th -> 0 <= th * h <= h.
Proof. intros A B C [-> | [-> | ->]]; lra. Qed.

Theorem conv mtd h n (u : nat -> V) (F : nat -> R -> V -> V) e0 :
  0 < h -> INR n * h <= T -> 0 <= e0 -> near inI co e0 (u 0%nat) (y 0) ->
  (forall k th, (k < n)%nat -> node th -> lip inI co L (F k th)) ->
  (forall k th i, (k < n)%nat -> node th -> inI i ->
    Rabs (co i (F k th (y (INR k * h + th * h))) - y1 i (INR k * h + th * h)) <= D * h ^ 2) ->
  (forall k, (k < n)%nat -> near inI co 0 (u (S k)) (rk_step (tab_of mtd) (F k) h (u k))) ->
  forall k, (k <= n)%nat -> near inI co (exp (T * L) * e0 + kconv * h ^ ordv mtd) (u k) (y (INR k * h)).
Proof.
  intros Hh Hn He H0 HF HC Hu k Hk.
  assert (Hle : forall j, (j <= n)%nat -> 0 <= INR j * h <= T).
  { intros j Hj. split; [apply Rmult_le_pos; [apply pos_INR|lra]|].
    eapply Rle_trans; [|exact Hn]. apply Rmult_le_compat_r; [lra|]. apply le_INR; auto. }
  assert (Htau : 0 <= tau L D M2 M3 T).
  { destruct (cpos L 0 Lpos (Rle_refl 0) D M2 Dpos M2pos T Tpos) as (B1 & B2 & B3 & B4 & B5 & B6). unfold tau. lra. }
  set (loc := match mtd with Euler => (D * T + M2) * h ^ 2 | _ => tau L D M2 M3 T * h ^ 3 end).
  assert (Hloc0 : 0 <= loc).
  { unfold loc. destruct mtd; apply Rmult_le_pos; auto; try (apply pow_le; lra). nra. }
  assert (Hglob : near inI co (exp (h * L) ^ k * e0 + INR k * exp (h * L) ^ k * loc) (u k) (y (INR k * h))).
  { apply (global inI co u (fun j => y (INR j * h)) (fun j => rk_step (tab_of mtd) (F j) h) (exp (h * L)) loc e0 n); auto.
    - rewrite <- exp_0. assert (0 <= h * L) by (apply Rmult_le_pos; lra).
      destruct (Req_dec (h * L) 0) as [-> | Hne]; [lra|]. left. apply exp_increasing. lra.
    - cbn. rewrite Rmult_0_l. exact H0.
    - intros j e v w Hj He1 Hv.
      assert (Hj1 : INR j * h + h <= T).
      { destruct (Hle (S j) ltac:(lia)) as [_ B]. rewrite S_INR in B. lra. }
      destruct (Hle j ltac:(lia)) as [Hj0 _].
      apply stab; auto; try lra; apply HF; auto; unfold node; auto.
    - intros j Hj.
      assert (Hj1 : INR j * h + h <= T).
      { destruct (Hle (S j) ltac:(lia)) as [_ B]. rewrite S_INR in B. lra. }
      destruct (Hle j ltac:(lia)) as [Hj0 _]. set (t := INR j * h) in *.
      assert (Et : y (INR (S j) * h) = y (t + 1 * h)) by (f_equal; rewrite S_INR; unfold t; ring). rewrite Et.
      assert (E0 : y t = y (t + 0 * h)) by (f_equal; ring).
      set (z := fun th => y (t + th * h)). set (z1 := fun th i => y1 i (t + th * h)). set (z2 := fun i => Derive (y1 i) t).
      assert (Hnode : forall th, node th -> 0 <= th * h <= h) by (intros th N; apply (node_in t); auto).
      assert (HHC : forall th i, node th -> inI i -> Rabs (co i (F j th (z th)) - z1 th i) <= D * h ^ 2).
      { intros th i N Hi. apply HC; auto. }
      assert (HT0 : forall th i, node th -> inI i -> Rabs (co i (z th) - co i (z 0) - th * (h * z1 0 i)) <= M2 * h ^ 2 / 2).
      { intros th i N Hi. destruct (Hsm i Hi) as (f2 & f3 & S1 & S2 & S3 & S4). specialize (Hnode th N).
        unfold z, z1. replace (t + 0 * h) with t by ring.
        pose proof (taylor2 (fun s => co i (y s)) (y1 i) f2 t (t + th * h) M2 ltac:(lra)) as Q.
        replace (th * (h * y1 i t)) with ((t + th * h - t) * y1 i t) by ring.
        eapply Rle_trans; [apply Q|].
        - intros s Hs. apply Hy; auto; lra.
        - intros s Hs. apply S1; lra.
        - intros s Hs. apply S2; lra.
        - replace (t + th * h - t) with (th * h) by ring.
          assert ((th * h) ^ 2 <= h ^ 2) by (apply pow_incr; lra).
          assert (M2 * (th * h) ^ 2 <= M2 * h ^ 2) by (apply Rmult_le_compat_l; auto). lra. }
      assert (HT1' : forall th i, node th -> inI i -> Rabs (z1 th i - z1 0 i) <= M2 * h).
      { intros th i N Hi. destruct (Hsm i Hi) as (f2 & f3 & S1 & S2 & S3 & S4). specialize (Hnode th N).
        unfold z1. replace (t + 0 * h) with t by ring.
        eapply Rle_trans; [apply (taylor1 (y1 i) f2 t (t + th * h) M2 ltac:(lra))|].
        - intros s Hs. apply S1; lra.
        - intros s Hs. apply S2; lra.
        - replace (t + th * h - t) with (th * h) by ring. apply Rmult_le_compat_l; lra. }
      assert (HT1 : forall th i, node th -> inI i -> Rabs (z1 th i - z1 0 i - th * (h * z2 i)) <= M3 * h ^ 2 / 2).
      { intros th i N Hi. destruct (Hsm i Hi) as (f2 & f3 & S1 & S2 & S3 & S4). specialize (Hnode th N).
        unfold z1, z2. rewrite (is_derive_unique (y1 i) t (f2 t)) by (apply S1; lra).
        replace (t + 0 * h) with t by ring.
        replace (th * (h * f2 t)) with ((t + th * h - t) * f2 t) by ring.
        eapply Rle_trans; [apply (taylor2 (y1 i) f2 f3 t (t + th * h) M3 ltac:(lra))|].
        - intros s Hs. apply S1; lra.
        - intros s Hs. apply S3; lra.
        - intros s Hs. apply S4; lra.
        - replace (t + th * h - t) with (th * h) by ring.
          assert ((th * h) ^ 2 <= h ^ 2) by (apply pow_incr; lra).
          assert (M3 * (th * h) ^ 2 <= M3 * h ^ 2) by (apply Rmult_le_compat_l; auto). lra. }
      assert (HT3 : forall i, inI i -> Rabs (co i (z 1) - co i (z 0) - h * z1 0 i - h ^ 2 / 2 * z2 i) <= M3 * h ^ 3 / 6).
      { intros i Hi. destruct (Hsm i Hi) as (f2 & f3 & S1 & S2 & S3 & S4).
        unfold z, z1, z2. rewrite (is_derive_unique (y1 i) t (f2 t)) by (apply S1; lra).
        replace (t + 0 * h) with t by ring. replace (t + 1 * h) with (t + h) by ring.
        pose proof (taylor3 (fun s => co i (y s)) (y1 i) f2 f3 t (t + h) M3 ltac:(lra)) as Q.
        replace (t + h - t) with h in Q by ring. apply Q.
        - intros s Hs. apply Hy; auto; lra.
        - intros s Hs. apply S1; lra.
        - intros s Hs. apply S3; lra.
        - intros s Hs. apply S4; lra. }
      assert (HhT : h <= T) by lra.
      assert (NL : forall th, node th -> lip inI co L (F j th)) by (intros th N; apply HF; auto).
      unfold loc. destruct mtd.
      + intros i Hi. rewrite E0.
        eapply Rle_trans; [apply (local_euler inI co co_add co_scale co_zero (F j) L h ltac:(lra)) with (z := z) (z1 := z1) (D := D) (M2 := M2); auto|].
        * apply NL. left; auto.
        * pose proof (pow2_ge_0 h). assert (D * h ^ 3 <= D * T * h ^ 2).
          { replace (D * h ^ 3) with (h * (D * h ^ 2)) by ring. replace (D * T * h ^ 2) with (T * (D * h ^ 2)) by ring.
            apply Rmult_le_compat_r; auto. apply Rmult_le_pos; auto. }
          assert (0 <= M2 * h ^ 2) by (apply Rmult_le_pos; auto). lra.
      + rewrite E0. apply (local_second inI co co_add co_scale co_zero (F j) L h) with (z := z) (z1 := z1) (z2 := z2) (D := D) (M2 := M2) (M3 := M3); auto; try lra; try discriminate; apply NL; unfold node; auto.
      + rewrite E0. apply (local_second inI co co_add co_scale co_zero (F j) L h) with (z := z) (z1 := z1) (z2 := z2) (D := D) (M2 := M2) (M3 := M3); auto; try lra; try discriminate; apply NL; unfold node; auto.
      + rewrite E0. apply (local_second inI co co_add co_scale co_zero (F j) L h) with (z := z) (z1 := z1) (z2 := z2) (D := D) (M2 := M2) (M3 := M3); auto; try lra; try discriminate; apply NL; unfold node; auto. }
  intros i Hi. eapply Rle_trans; [apply Hglob; auto|].
  destruct (Hle k Hk) as [K0 K1].
  rewrite exp_pow. replace (INR k * (h * L)) with ((INR k * h) * L) by ring.
  assert (X : exp (INR k * h * L) <= exp (T * L)).
  { assert (INR k * h * L <= T * L) by (apply Rmult_le_compat_r; auto).
    destruct (Req_dec (INR k * h * L) (T * L)) as [-> | Hne]; [lra|]. left. apply exp_increasing. lra. }
  assert (Y : (INR k * h) * exp (INR k * h * L) <= T * exp (T * L)).
  { apply Rmult_le_compat; auto. left. apply exp_pos. }
  assert (Y0 : 0 <= T * exp (T * L)) by (apply Rmult_le_pos; auto; left; apply exp_pos).
  apply Rplus_le_compat; [apply Rmult_le_compat_r; auto|].
  unfold kconv, loc. destruct mtd; cbn [ordv].
  - replace (INR k * exp (INR k * h * L) * ((D * T + M2) * h ^ 2)) with ((INR k * h * exp (INR k * h * L)) * ((D * T + M2) * h)) by ring.
    rewrite pow_1, (Rmult_assoc (T * exp (T * L))). apply Rmult_le_compat; auto.
    + apply Rmult_le_pos; auto. left; apply exp_pos.
    + apply Rmult_le_pos; [nra|lra].
    + apply Rmult_le_compat_r; lra.
  - replace (INR k * exp (INR k * h * L) * (tau L D M2 M3 T * h ^ 3)) with ((INR k * h * exp (INR k * h * L)) * (tau L D M2 M3 T * h ^ 2)) by ring.
    rewrite (Rmult_assoc (T * exp (T * L))). pose proof (pow2_ge_0 h). apply Rmult_le_compat; auto.
    + apply Rmult_le_pos; auto. left; apply exp_pos.
    + apply Rmult_le_pos; auto.
    + apply Rmult_le_compat_r; auto. assert (0 <= D * T) by (apply Rmult_le_pos; auto). lra.
  - replace (INR k * exp (INR k * h * L) * (tau L D M2 M3 T * h ^ 3)) with ((INR k * h * exp (INR k * h * L)) * (tau L D M2 M3 T * h ^ 2)) by ring.
    rewrite (Rmult_assoc (T * exp (T * L))). pose proof (pow2_ge_0 h). apply Rmult_le_compat; auto.
    + apply Rmult_le_pos; auto. left; apply exp_pos.
    + apply Rmult_le_pos; auto.
    + apply Rmult_le_compat_r; auto. assert (0 <= D * T) by (apply Rmult_le_pos; auto). lra.
  - replace (INR k * exp (INR k * h * L) * (tau L D M2 M3 T * h ^ 3)) with ((INR k * h * exp (INR k * h * L)) * (tau L D M2 M3 T * h ^ 2)) by ring.
    rewrite (Rmult_assoc (T * exp (T * L))). pose proof (pow2_ge_0 h). apply Rmult_le_compat; auto.
    + apply Rmult_le_pos; auto. left; apply exp_pos.
    + apply Rmult_le_pos; auto.
    + apply Rmult_le_compat_r; auto. assert (0 <= D * T) by (apply Rmult_le_pos; auto). lra.
Qed.
End Conv.
