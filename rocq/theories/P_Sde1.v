(** * Proofs about the one-dimensional energies. *)
From Coq Require Import ZArith List Bool Arith Reals Lra Lia Sorted.
From Coquelicot Require Import Coquelicot.
From Verif Require Import Num Arr ArrFacts M_LinAlg M_Utils M_Moments M_Sde1
  Spec_Utils Spec_Gauss Spec_Sde1 P_Trapz P_Gauss P_Moments.
Import ListNotations.
Local Open Scope R_scope.

(** ** Expectations of polynomials of degree at most 8 *)
Fixpoint peval (k : nat) (l : list R) (x : R) : R :=
  match l with [] => 0 | c :: l' => c * x ^ k + peval (S k) l' x end.
Fixpoint pmom (k : nat) (l : list R) (m v : R) : R :=
  match l with [] => 0 | c :: l' => c * mom_elt (K:=RNum) k m v + pmom (S k) l' m v end.
Lemma E_poly m v l k : 0 < v -> (k + length l <= 9)%nat ->
  gint (fun x => peval k l x * normal_density m v x) (pmom k l m v).
Proof.
  intros Hv. revert k. induction l as [|c l IH]; intros k Hk.
  - apply (gint_ext (fun _ => 0)); [intros; simpl; ring|apply gint_zero].
  - cbn [length] in Hk. apply (gint_ext (fun x => c * (x ^ k * normal_density m v x) + 1 * (peval (S k) l x * normal_density m v x))).
    { intros x. cbn [peval]. ring. }
    cbn [pmom]. replace (c * mom_elt (K:=RNum) k m v + pmom (S k) l m v)
      with (c * mom_elt (K:=RNum) k m v + 1 * pmom (S k) l m v) by rring.
    apply gint_lin; [apply mom_elt_mom; [exact Hv|lia]|apply IH; lia].
Qed.
Lemma E_poly_eq m v l (g : R -> R) e : 0 < v -> (length l <= 9)%nat ->
  (forall x, g x = peval 0 l x) -> e = pmom 0 l m v -> E_normal m v g e.
Proof.
  intros Hv Hl Hg ->. apply gint_RInt_gen.
  apply (gint_ext (fun x => peval 0 l x * normal_density m v x)).
  - intros x. rewrite Hg. reflexivity.
  - apply E_poly; [exact Hv|lia].
Qed.

(** ** Derivatives of trapezoidal sums *)
Lemma is_derive_Rsum n (F : nat -> R -> R) (D : nat -> R) x :
  (forall k, (k < n)%nat -> is_derive (F k) x (D k)) ->
  is_derive (fun t => Rsum n (fun k => F k t)) x (Rsum n D).
Proof.
  induction n as [|n IH]; intros H.
  - apply (is_derive_const 0 x).
  - apply (is_derive_plus (fun t => Rsum n (fun k => F k t)) (F n)); auto.
Qed.
Lemma is_derive_trap n (F : nat -> R -> R) (D : nat -> R) dx x :
  (forall k, (k < n)%nat -> is_derive (F k) x (D k)) ->
  is_derive (fun t => trap n (fun k => F k t) dx) x (trap n D dx).
Proof.
  intros H. unfold trap.
  apply (is_derive_Rsum (n - 1) (fun k t => dx * (F k t + F (k + 1)%nat t) / 2)
           (fun k => dx * (D k + D (k + 1)%nat) / 2)).
  intros k Hk.
  pose proof (H k ltac:(lia)) as H1. pose proof (H (k + 1)%nat ltac:(lia)) as H2.
  apply (is_derive_ext (fun t => dx / 2 * (F k t + F (k + 1)%nat t))).
  { intros t. match goal with |- ?a = ?b => change (@eq R a b) end. field. }
  replace (dx * (D k + D (k + 1)%nat) / 2) with (dx / 2 * (D k + D (k + 1)%nat)) by field.
  apply (is_derive_scal (fun t => F k t + F (k + 1)%nat t)).
  apply (is_derive_plus (F k) (F (k + 1)%nat)); assumption.
Qed.

Lemma trap_ind n k dx : (k < n)%nat ->
  trap n (fun j => if Nat.eqb j k then 1 else 0) dx = tweight n k dx.
Proof.
  intros Hk. unfold trap, tweight.
  set (T := fun j => dx * ((if Nat.eqb j k then 1 else 0) + (if Nat.eqb (j + 1) k then 1 else 0)) / 2).
  change (rsum (n - 1) T = (if (k + 1 <? n)%nat then dx / 2 else 0) + (if (0 <? k)%nat then dx / 2 else 0)).
  rewrite (sumn_ext (n - 1) T (fun j => (if Nat.eqb j k then dx / 2 else 0) + (if Nat.eqb (j + 1) k then dx / 2 else 0))).
  - rewrite sumn_plus. f_equal.
    + destruct (Nat.ltb_spec (k + 1) n).
      * rewrite (sumn_single (n - 1) (fun j => if Nat.eqb j k then dx / 2 else 0) k); [rewrite Nat.eqb_refl; reflexivity|lia|].
        intros j Hj Hne. destruct (Nat.eqb_spec j k); [lia|reflexivity].
      * apply sumn_zero. intros j Hj. destruct (Nat.eqb_spec j k); [lia|reflexivity].
    + destruct (Nat.ltb_spec 0 k).
      * rewrite (sumn_single (n - 1) (fun j => if Nat.eqb (j + 1) k then dx / 2 else 0) (k - 1)); [|lia|].
        -- destruct (Nat.eqb_spec (k - 1 + 1) k); [reflexivity|lia].
        -- intros j Hj Hne. destruct (Nat.eqb_spec (j + 1) k); [lia|reflexivity].
      * apply sumn_zero. intros j Hj. destruct (Nat.eqb_spec (j + 1) k); [lia|reflexivity].
  - intros j Hj. unfold T. destruct (Nat.eqb j k), (Nat.eqb (j + 1) k); field.
Qed.

(** one sample varies *)
Lemma is_derive_trap_one n k (f : nat -> R) (F : R -> R) D dx x : (k < n)%nat ->
  is_derive F x D ->
  is_derive (fun t => trap n (fun j => if Nat.eqb j k then F t else f j) dx) x (tweight n k dx * D).
Proof.
  intros Hk HF.
  apply (is_derive_ext (fun t => trap n (fun j => if Nat.eqb j k then 0 else f j) dx + tweight n k dx * F t)).
  { intros t. rewrite <- trap_ind by exact Hk.
    match goal with |- ?a = ?b => change (@eq R a b) end.
    set (I := fun j => if Nat.eqb j k then 1 else 0).
    set (Z := fun j => if Nat.eqb j k then 0 else f j).
    replace (trap n Z dx + trap n I dx * F t) with (1 * trap n Z dx + F t * trap n I dx) by ring.
    rewrite <- trap_lin. apply trap_ext. intros j Hj. unfold I, Z. destruct (Nat.eqb j k); ring. }
  evar_last.
  - apply (is_derive_plus (fun _ => trap n (fun j => if Nat.eqb j k then 0 else f j) dx) (fun t => tweight n k dx * F t)).
    + apply (is_derive_const (V:=R_NormedModule)).
    + apply (is_derive_scal F). exact HF.
  - unfold plus, zero; cbn. ring.
Qed.

(** ** Lists *)
Lemma map4_length {A B C D E} (f : A -> B -> C -> D -> E) a b c d :
  length b = length a -> length c = length a -> length d = length a ->
  length (map4 f a b c d) = length a.
Proof.
  revert b c d. induction a as [|x a IH]; intros [|y b] [|z c] [|w d]; cbn; try discriminate; auto.
Qed.
Lemma map4_nth {A B C D E} (f : A -> B -> C -> D -> E) a b c d k da db dc dd de :
  length b = length a -> length c = length a -> length d = length a -> (k < length a)%nat ->
  nth k (map4 f a b c d) de = f (nth k a da) (nth k b db) (nth k c dc) (nth k d dd).
Proof.
  revert b c d k. induction a as [|x a IH]; intros [|y b] [|z c] [|w d] k; cbn; try discriminate; try lia.
  intros H1 H2 H3 Hk. destruct k as [|k]; [reflexivity|]. apply IH; lia.
Qed.
Lemma set_nth_length k v x : length (set_nth k v x) = length x.
Proof. revert k. induction x; intros [|k]; cbn; auto. Qed.
Lemma set_nth_nth k v x j d : (k < length x)%nat ->
  nth j (set_nth k v x) d = if Nat.eqb j k then v else nth j x d.
Proof.
  revert k j. induction x as [|a x IH]; intros k j Hk; [cbn in Hk; lia|].
  destruct k as [|k], j as [|j]; cbn; try reflexivity. cbn in Hk. rewrite IH by lia. reflexivity.
Qed.

Notation gr l k := (nth k l 0).
Definition srt (obs : option (list nat)) := forall o, obs = Some o -> Sorted le o.

Lemma trapz1_trap (q : R -> R -> R -> R -> R) A B M S dt obs : srt obs ->
  length B = length A -> length M = length A -> length S = length A ->
  trapz1 (K:=RNum) (map4 q A B M S) dt obs =
  trap (length A) (fun k => q (gr A k) (gr B k) (gr M k) (gr S k)) dt.
Proof.
  intros Ho H1 H2 H3. unfold trapz1. rewrite trapz_scalar by exact Ho.
  rewrite map4_length by assumption. apply trap_ext. intros k Hk.
  apply (map4_nth q A B M S k 0 0 0 0 0); assumption.
Qed.

(** ** Ornstein-Uhlenbeck *)
Lemma ou_point_E theta sigma a b m s : 0 < s -> 0 < sigma ->
  E_normal m s (mismatch (f_ou theta) sigma a b) (1 / 2 * ou_q (K:=RNum) theta a b m s / sigma).
Proof.
  intros Hs Hsg.
  apply (E_poly_eq m s [b ^ 2 / (2 * sigma); 2 * (theta - a) * b / (2 * sigma); (theta - a) ^ 2 / (2 * sigma)]).
  - exact Hs.
  - cbn. lia.
  - intros x. unfold mismatch, f_ou, g_lin. cbn. field. lra.
  - cbn [pmom]. unfold ou_q, mom_elt. rnum. field. lra.
Qed.

Lemma ou_energy_exact sigma theta dt A B M S obs : srt obs -> 0 < sigma ->
  length B = length A -> length M = length A -> length S = length A ->
  (forall k, (k < length A)%nat -> 0 < gr S k) ->
  exists e : nat -> R,
    (forall k, (k < length A)%nat ->
       E_normal (gr M k) (gr S k) (mismatch (f_ou theta) sigma (gr A k) (gr B k)) (e k)) /\
    e_sde (ou_energy (K:=RNum) sigma theta dt A B M S obs) = trap (length A) e dt.
Proof.
  intros Ho Hsg H1 H2 H3 Hs.
  exists (fun k => 1 / 2 * ou_q (K:=RNum) theta (gr A k) (gr B k) (gr M k) (gr S k) / sigma). split.
  - intros k Hk. apply ou_point_E; auto.
  - cbn [ou_energy e_sde]. rewrite (trapz1_trap (ou_q (K:=RNum) theta)) by assumption. rnum.
    replace (1 / 2 * trap (length A) (fun k => ou_q (K:=RNum) theta (gr A k) (gr B k) (gr M k) (gr S k)) dt / sigma)
      with (1 / 2 / sigma * trap (length A) (fun k => ou_q (K:=RNum) theta (gr A k) (gr B k) (gr M k) (gr S k)) dt
            + 0 * trap (length A) (fun _ => 0) dt) by (field; lra).
    rewrite <- trap_lin. apply trap_ext. intros k Hk. cbv beta. rnum. field. lra.
Qed.

Lemma ou_q_nonneg (theta a b m s : R) : 0 <= s -> 0 <= ou_q (K:=RNum) theta a b m s.
Proof.
  intros Hs. unfold ou_q, mom_elt. rnum.
  replace ((m * m + s) * ((theta - a) * (theta - a)) + 2 * m * (theta - a) * b + b * b)
    with (((theta - a) * m + b) ^ 2 + (theta - a) ^ 2 * s) by ring.
  pose proof (pow2_ge_0 ((theta - a) * m + b)). pose proof (pow2_ge_0 (theta - a)). nra.
Qed.
Lemma ou_nonneg sigma theta dt A B M S obs : srt obs -> 0 < sigma -> 0 <= dt ->
  length B = length A -> length M = length A -> length S = length A ->
  (forall k, (k < length A)%nat -> 0 <= gr S k) ->
  0 <= e_sde (ou_energy (K:=RNum) sigma theta dt A B M S obs).
Proof.
  intros Ho Hsg Hdt H1 H2 H3 Hs. cbn [ou_energy e_sde].
  rewrite (trapz1_trap (ou_q (K:=RNum) theta)) by assumption. rnum.
  assert (0 <= trap (length A) (fun k => ou_q (K:=RNum) theta (gr A k) (gr B k) (gr M k) (gr S k)) dt).
  { apply trap_nonneg; [exact Hdt|]. intros k Hk. apply ou_q_nonneg. auto. }
  assert (0 < / sigma) by (apply Rinv_0_lt_compat; lra). unfold Rdiv. apply Rmult_le_pos; [|lra].
  apply Rmult_le_pos; [lra|assumption].
Qed.

Lemma ou_averages sigma theta dt A B M S obs k : (k < length M)%nat -> 0 < gr S k ->
  let r := ou_energy (K:=RNum) sigma theta dt A B M S obs in
  E_normal (gr M k) (gr S k) (f_ou theta) (gr (e_f r) k) /\
  E_normal (gr M k) (gr S k) (df_ou theta) (gr (e_df r) k).
Proof.
  intros Hk Hs r. unfold r. cbn [ou_energy e_f e_df]. rnum.
  split.
  - rewrite (nth_indep (map (fun x => - theta * x) M) 0 (- theta * 0)) by (rewrite map_length; exact Hk).
    rewrite (map_nth (fun x => - theta * x)).
    apply (E_poly_eq _ _ [0; - theta]); [exact Hs|cbn; lia|intros x; unfold f_ou; cbn; ring|].
    cbn [pmom]. unfold mom_elt. rnum. ring.
  - rewrite (nth_indep (map (fun _ : R => - theta * 1) M) 0 ((fun _ : R => - theta * 1) 0)) by (rewrite map_length; exact Hk).
    rewrite (map_nth (fun _ : R => - theta * 1) M 0).
    apply (E_poly_eq _ _ [- theta]); [exact Hs|cbn; lia|intros x; unfold df_ou; cbn; ring|].
    cbn [pmom]. unfold mom_elt. rnum. ring.
Qed.

(** gradient of a scalar energy 1/2 trapz(q)/sigma w.r.t. one mean / variance, generic in q *)
Section Grad.
Context (q : R -> R -> R -> R -> R) (sigma dt : R) (A B M S : list R) (obs : option (list nat)).
Context (Ho : srt obs) (Hsg : 0 < sigma).
Context (H1 : length B = length A) (H2 : length M = length A) (H3 : length S = length A).
Definition esde (A B M S : list R) : R := 1 / 2 * trapz1 (K:=RNum) (map4 q A B M S) dt obs / sigma.

Lemma esde_one (L : R -> list R * list R * list R * list R) k (F : R -> R) D x :
  (k < length A)%nat ->
  (forall t, let '(a, b, m, s) := L t in
     length a = length A /\ length b = length A /\ length m = length A /\ length s = length A /\
     forall j, (j < length A)%nat -> q (gr a j) (gr b j) (gr m j) (gr s j) =
       if Nat.eqb j k then F t else q (gr A j) (gr B j) (gr M j) (gr S j)) ->
  is_derive F x (2 * sigma * D) ->
  is_derive (fun t => let '(a, b, m, s) := L t in esde a b m s) x (tweight (length A) k dt * D).
Proof.
  intros Hk HL HF.
  apply (is_derive_ext (fun t => 1 / 2 / sigma * trap (length A)
     (fun j => if Nat.eqb j k then F t else q (gr A j) (gr B j) (gr M j) (gr S j)) dt)).
  - intros t. specialize (HL t). destruct (L t) as [[[a b] m] s].
    destruct HL as (La & Lb & Lm & Ls & E). unfold esde.
    rewrite trapz1_trap by (assumption || congruence). rewrite La.
    match goal with |- ?a = ?b => change (@eq R a b) end.
    rewrite (trap_ext (length A) (fun k0 => q (gr a k0) (gr b k0) (gr m k0) (gr s k0))
       (fun j => if Nat.eqb j k then F t else q (gr A j) (gr B j) (gr M j) (gr S j)) dt E).
    unfold Rdiv. ring.
  - replace (tweight (length A) k dt * D) with (1 / 2 / sigma * (tweight (length A) k dt * (2 * sigma * D))) by (field; lra).
    apply (is_derive_scal (fun t => trap (length A) (fun j => if Nat.eqb j k then F t else q (gr A j) (gr B j) (gr M j) (gr S j)) dt)).
    apply is_derive_trap_one; assumption.
Qed.

Lemma esde_dm k D : (k < length A)%nat ->
  is_derive (fun t => q (gr A k) (gr B k) t (gr S k)) (gr M k) (2 * sigma * D) ->
  is_derive (fun t => esde A B (set_nth k t M) S) (gr M k) (tweight (length A) k dt * D).
Proof.
  intros Hk HD.
  apply (esde_one (fun t => (A, B, set_nth k t M, S)) k (fun t => q (gr A k) (gr B k) t (gr S k))); [exact Hk| |exact HD].
  intros t. repeat split; try assumption; [rewrite set_nth_length; exact H2|].
  intros j Hj. rewrite set_nth_nth by lia. destruct (Nat.eqb_spec j k); [subst|]; reflexivity.
Qed.
Lemma esde_ds k D : (k < length A)%nat ->
  is_derive (fun t => q (gr A k) (gr B k) (gr M k) t) (gr S k) (2 * sigma * D) ->
  is_derive (fun t => esde A B M (set_nth k t S)) (gr S k) (tweight (length A) k dt * D).
Proof.
  intros Hk HD.
  apply (esde_one (fun t => (A, B, M, set_nth k t S)) k (fun t => q (gr A k) (gr B k) (gr M k) t)); [exact Hk| |exact HD].
  intros t. repeat split; try assumption; [rewrite set_nth_length; exact H3|].
  intros j Hj. rewrite set_nth_nth by lia. destruct (Nat.eqb_spec j k); [subst|]; reflexivity.
Qed.
Lemma esde_da k D : (k < length A)%nat ->
  is_derive (fun t => q t (gr B k) (gr M k) (gr S k)) (gr A k) (2 * sigma * D) ->
  is_derive (fun t => esde (set_nth k t A) B M S) (gr A k) (tweight (length A) k dt * D).
Proof.
  intros Hk HD.
  apply (esde_one (fun t => (set_nth k t A, B, M, S)) k (fun t => q t (gr B k) (gr M k) (gr S k))); [exact Hk| |exact HD].
  intros t. repeat split; try assumption; [rewrite set_nth_length; reflexivity|].
  intros j Hj. rewrite set_nth_nth by lia. destruct (Nat.eqb_spec j k); [subst|]; reflexivity.
Qed.
Lemma esde_db k D : (k < length A)%nat ->
  is_derive (fun t => q (gr A k) t (gr M k) (gr S k)) (gr B k) (2 * sigma * D) ->
  is_derive (fun t => esde A (set_nth k t B) M S) (gr B k) (tweight (length A) k dt * D).
Proof.
  intros Hk HD.
  apply (esde_one (fun t => (A, set_nth k t B, M, S)) k (fun t => q (gr A k) t (gr M k) (gr S k))); [exact Hk| |exact HD].
  intros t. repeat split; try assumption; [rewrite set_nth_length; exact H1|].
  intros j Hj. rewrite set_nth_nth by lia. destruct (Nat.eqb_spec j k); [subst|]; reflexivity.
Qed.
End Grad.

(** theta *)
Lemma esde_dtheta (Q : R -> R -> R -> R -> R -> R) (Q' : R -> R -> R -> R -> R) sigma dt A B M S obs th :
  srt obs -> 0 < sigma -> length B = length A -> length M = length A -> length S = length A ->
  (forall a b m s, is_derive (fun t => Q t a b m s) th (2 * Q' a b m s)) ->
  is_derive (fun t => esde (Q t) sigma dt obs A B M S) th
            (trapz1 (K:=RNum) (map4 Q' A B M S) dt obs / sigma).
Proof.
  intros Ho Hsg H1 H2 H3 HQ.
  apply (is_derive_ext (fun t => 1 / 2 / sigma * trap (length A)
     (fun j => Q t (gr A j) (gr B j) (gr M j) (gr S j)) dt)).
  - intros t. unfold esde. rewrite trapz1_trap by assumption.
    match goal with |- ?a = ?b => change (@eq R a b) end. unfold Rdiv. ring.
  - rewrite trapz1_trap by assumption.
    replace (trap (length A) (fun k => Q' (gr A k) (gr B k) (gr M k) (gr S k)) dt / sigma)
      with (1 / 2 / sigma * (2 * trap (length A) (fun k => Q' (gr A k) (gr B k) (gr M k) (gr S k)) dt
                             + 0 * trap (length A) (fun _ => 0) dt)) by (field; lra).
    rewrite <- trap_lin.
    apply (is_derive_scal (fun t => trap (length A) (fun j => Q t (gr A j) (gr B j) (gr M j) (gr S j)) dt)).
    apply (is_derive_trap (length A) (fun j t => Q t (gr A j) (gr B j) (gr M j) (gr S j))).
    intros k Hk. specialize (HQ (gr A k) (gr B k) (gr M k) (gr S k)).
    replace (2 * Q' (gr A k) (gr B k) (gr M k) (gr S k) + 0 * 0) with (2 * Q' (gr A k) (gr B k) (gr M k) (gr S k)) by ring.
    exact HQ.
Qed.
Lemma esde_dsigma (q : R -> R -> R -> R -> R) sigma dt A B M S obs : 0 < sigma ->
  is_derive (fun t => esde q t dt obs A B M S) sigma (- esde q sigma dt obs A B M S / sigma).
Proof.
  intros Hsg. unfold esde. generalize (trapz1 (K:=RNum) (map4 q A B M S) dt obs : R). intros c.
  auto_derive; [lra|]. field. lra.
Qed.

Section OU.
Context (sigma theta dt : R) (A B M S : list R) (obs : option (list nat)).
Context (Ho : srt obs) (Hsg : 0 < sigma).
Context (H1 : length B = length A) (H2 : length M = length A) (H3 : length S = length A).

Lemma ou_dm_correct k : (k < length A)%nat ->
  is_derive (fun t => e_sde (ou_energy (K:=RNum) sigma theta dt A B (set_nth k t M) S obs)) (gr M k)
    (tweight (length A) k dt * gr (e_dm (ou_energy (K:=RNum) sigma theta dt A B M S obs)) k).
Proof.
  intros Hk. cbn [ou_energy e_sde e_dm]. rewrite (map4_nth _ _ _ _ _ _ 0 0 0 0) by assumption.
  apply (esde_dm (ou_q (K:=RNum) theta)); try assumption.
  unfold ou_q, ou_dm, mom_elt. rnum. auto_derive; [exact I|]. field. lra.
Qed.
Lemma ou_ds_correct k : (k < length A)%nat ->
  is_derive (fun t => e_sde (ou_energy (K:=RNum) sigma theta dt A B M (set_nth k t S) obs)) (gr S k)
    (tweight (length A) k dt * gr (e_ds (ou_energy (K:=RNum) sigma theta dt A B M S obs)) k).
Proof.
  intros Hk. cbn [ou_energy e_sde e_ds]. rewrite (map4_nth _ _ _ _ _ _ 0 0 0 0) by assumption.
  apply (esde_ds (ou_q (K:=RNum) theta)); try assumption.
  unfold ou_q, ou_ds, mom_elt. rnum. auto_derive; [exact I|]. field. lra.
Qed.
Lemma ou_dtheta_correct :
  is_derive (fun t => e_sde (ou_energy (K:=RNum) sigma t dt A B M S obs)) theta
            (e_dth (ou_energy (K:=RNum) sigma theta dt A B M S obs)).
Proof.
  cbn [ou_energy e_sde e_dth].
  apply (esde_dtheta (fun t => ou_q (K:=RNum) t) (ou_qth (K:=RNum) theta)); try assumption.
  intros a b m s. unfold ou_q, ou_qth, mom_elt. rnum. auto_derive; [exact I|]. ring.
Qed.
Lemma ou_dsigma_correct :
  is_derive (fun t => e_sde (ou_energy (K:=RNum) t theta dt A B M S obs)) sigma
            (e_dsig (ou_energy (K:=RNum) sigma theta dt A B M S obs)).
Proof. apply (esde_dsigma (ou_q (K:=RNum) theta)). exact Hsg. Qed.
End OU.

(** ** Double well *)
(** twice sigma times the exact expected mismatch *)
Definition dw_exact (theta a b m s : R) : R :=
  let c := 4 * theta + a in
  16 * mom_elt (K:=RNum) 6 m s - 8 * c * mom_elt (K:=RNum) 4 m s + 8 * b * mom_elt (K:=RNum) 3 m s
  + c ^ 2 * mom_elt (K:=RNum) 2 m s - 2 * b * c * m + b ^ 2.
Lemma dw_point_E theta sigma a b m s : 0 < s -> 0 < sigma ->
  E_normal m s (mismatch (f_dw theta) sigma a b) (1 / 2 * dw_exact theta a b m s / sigma).
Proof.
  intros Hs Hsg. set (c := 4 * theta + a).
  apply (E_poly_eq m s [b ^ 2 / (2 * sigma); - 2 * b * c / (2 * sigma); c ^ 2 / (2 * sigma);
                        8 * b / (2 * sigma); - 8 * c / (2 * sigma); 0; 16 / (2 * sigma)]).
  - exact Hs.
  - cbn. lia.
  - intros x. unfold mismatch, f_dw, g_lin, c. cbn. field. lra.
  - cbn [pmom]. unfold dw_exact. fold c.
    replace (mom_elt (K:=RNum) 1 m s) with m by reflexivity.
    replace (@mom_elt RNum 0 m s) with 1 by reflexivity.
    generalize (@mom_elt RNum 6 m s : R), (@mom_elt RNum 5 m s : R), (@mom_elt RNum 4 m s : R), (@mom_elt RNum 3 m s : R), (@mom_elt RNum 2 m s : R).
    intros. rnum. field. lra.
Qed.
Lemma dw_q_exact (theta a b m s : R) :
  dw_q (K:=RNum) theta a b m s = dw_exact theta a b m s - 8 * mom_elt (K:=RNum) 6 m s.
Proof.
  unfold dw_q, dw_exact, dw_c.
  generalize (@mom_elt RNum 6 m s : R), (@mom_elt RNum 4 m s : R), (@mom_elt RNum 3 m s : R), (@mom_elt RNum 2 m s : R).
  intros. rnum. ring.
Qed.

(** The returned energy falls short of the exact one by the integral of 4 E[x^6] / sigma. *)
Lemma dw_energy_deficit sigma theta dt A B M S obs : srt obs -> 0 < sigma ->
  length B = length A -> length M = length A -> length S = length A ->
  (forall k, (k < length A)%nat -> 0 < gr S k) ->
  exists e x6 : nat -> R,
    (forall k, (k < length A)%nat ->
       E_normal (gr M k) (gr S k) (mismatch (f_dw theta) sigma (gr A k) (gr B k)) (e k) /\
       E_normal (gr M k) (gr S k) (fun x => x ^ 6) (x6 k)) /\
    e_sde (dw_energy (K:=RNum) sigma theta dt A B M S obs) =
    trap (length A) (fun k => e k - 4 * x6 k / sigma) dt.
Proof.
  intros Ho Hsg H1 H2 H3 Hs.
  exists (fun k => 1 / 2 * dw_exact theta (gr A k) (gr B k) (gr M k) (gr S k) / sigma),
         (fun k => mom_elt (K:=RNum) 6 (gr M k) (gr S k)). split.
  - intros k Hk. split; [apply dw_point_E; auto|apply mom_elt_E; auto; lia].
  - cbn [dw_energy e_sde]. rewrite (trapz1_trap (dw_q (K:=RNum) theta)) by assumption. rnum.
    set (T := trap (length A) (fun k => dw_q (K:=RNum) theta (gr A k) (gr B k) (gr M k) (gr S k)) dt).
    replace (1 / 2 * T / sigma) with (1 / 2 / sigma * T + 0 * trap (length A) (fun _ => 0) dt) by (field; lra).
    unfold T. rewrite <- trap_lin. apply trap_ext. intros k Hk. cbv beta. rewrite dw_q_exact.
    generalize (mom_elt (K:=RNum) 6 (gr M k) (gr S k) : R). intros z. rnum. field. lra.
Qed.

Lemma dw_averages sigma theta dt A B M S obs k : (k < length M)%nat -> length S = length M -> 0 < gr S k ->
  let r := dw_energy (K:=RNum) sigma theta dt A B M S obs in
  E_normal (gr M k) (gr S k) (f_dw theta) (gr (e_f r) k) /\
  E_normal (gr M k) (gr S k) (df_dw theta) (gr (e_df r) k).
Proof.
  intros Hk Hl Hs r. unfold r. cbn [dw_energy e_f e_df].
  rewrite !(nth_map2 _ _ _ _ 0 0) by (rnum_in_all; lia).
  split.
  - apply (E_poly_eq _ _ [0; 4 * theta; 0; - 4]); [exact Hs|cbn; lia|intros x; unfold f_dw; cbn; ring|].
    cbn [pmom]. unfold mom_elt. rnum. ring.
  - apply (E_poly_eq _ _ [4 * theta; 0; - 12]); [exact Hs|cbn; lia|intros x; unfold df_dw; cbn; ring|].
    cbn [pmom]. unfold mom_elt. rnum. ring.
Qed.

Section DW.
Context (sigma theta dt : R) (A B M S : list R) (obs : option (list nat)).
Context (Ho : srt obs) (Hsg : 0 < sigma).
Context (H1 : length B = length A) (H2 : length M = length A) (H3 : length S = length A).
(** the exact energy, as a function of everything *)
Definition dw_true (sigma theta : R) (A B M S : list R) : R :=
  trap (length A) (fun k => 1 / 2 * dw_exact theta (gr A k) (gr B k) (gr M k) (gr S k) / sigma) dt.
Lemma dw_true_esde s t A' B' M' S' : 0 < s -> length B' = length A' -> length M' = length A' -> length S' = length A' ->
  esde (dw_exact t) s dt obs A' B' M' S' = dw_true s t A' B' M' S'.
Proof.
  intros Hs L1 L2 L3. unfold esde, dw_true. rewrite (trapz1_trap (dw_exact t)) by assumption.
  set (T := trap _ _ _).
  replace (1 / 2 * T / s) with (1 / 2 / s * T + 0 * trap (length A') (fun _ => 0) dt) by (field; lra).
  unfold T. rewrite <- trap_lin. apply trap_ext. intros k Hk. cbv beta. field. lra.
Qed.
Lemma dw_dm_correct k : (k < length A)%nat ->
  is_derive (fun t => dw_true sigma theta A B (set_nth k t M) S) (gr M k)
    (tweight (length A) k dt * gr (e_dm (dw_energy (K:=RNum) sigma theta dt A B M S obs)) k).
Proof.
  intros Hk. cbn [dw_energy e_dm]. rewrite (map4_nth _ _ _ _ _ _ 0 0 0 0) by assumption.
  apply (is_derive_ext (fun t => esde (dw_exact theta) sigma dt obs A B (set_nth k t M) S)).
  { intros t. apply dw_true_esde; try assumption. rewrite set_nth_length; assumption. }
  apply (esde_dm (dw_exact theta)); try assumption.
  unfold dw_exact, dw_dm, dw_c, mom_elt, dm_elt. rnum. auto_derive; [exact I|]. field. lra.
Qed.
Lemma dw_ds_correct k : (k < length A)%nat ->
  is_derive (fun t => dw_true sigma theta A B M (set_nth k t S)) (gr S k)
    (tweight (length A) k dt * gr (e_ds (dw_energy (K:=RNum) sigma theta dt A B M S obs)) k).
Proof.
  intros Hk. cbn [dw_energy e_ds]. rewrite (map4_nth _ _ _ _ _ _ 0 0 0 0) by assumption.
  apply (is_derive_ext (fun t => esde (dw_exact theta) sigma dt obs A B M (set_nth k t S))).
  { intros t. apply dw_true_esde; try assumption. rewrite set_nth_length; assumption. }
  apply (esde_ds (dw_exact theta)); try assumption.
  unfold dw_exact, dw_ds, dw_c, mom_elt, ds_elt. rnum. auto_derive; [exact I|]. field. lra.
Qed.
Lemma dw_trapz4 : nZ (K:=RNum) 4 * trapz1 (K:=RNum) (map4 (dw_qth (K:=RNum) theta) A B M S) dt obs
  = trapz1 (K:=RNum) (map4 (fun a b m s => 4 * dw_qth (K:=RNum) theta a b m s) A B M S) dt obs.
Proof.
  rewrite !trapz1_trap by assumption.
  replace (nZ (K:=RNum) 4 : R) with 4 by reflexivity.
  set (T := fun k => dw_qth (K:=RNum) theta (gr A k) (gr B k) (gr M k) (gr S k) : R).
  replace (4 * trap (length A) T dt) with (4 * trap (length A) T dt + 0 * trap (length A) (fun _ => 0) dt) by ring.
  rewrite <- trap_lin. apply trap_ext. intros k Hk. unfold T. rring.
Qed.
Lemma dw_dtheta_correct :
  is_derive (fun t => e_sde (dw_energy (K:=RNum) sigma t dt A B M S obs)) theta
            (e_dth (dw_energy (K:=RNum) sigma theta dt A B M S obs)) /\
  is_derive (fun t => dw_true sigma t A B M S) theta
            (e_dth (dw_energy (K:=RNum) sigma theta dt A B M S obs)).
Proof.
  replace (e_dth (dw_energy (K:=RNum) sigma theta dt A B M S obs)) with
    (trapz1 (K:=RNum) (map4 (fun a b m s => 4 * dw_qth (K:=RNum) theta a b m s) A B M S) dt obs / sigma)
    by (rewrite <- dw_trapz4; reflexivity).
  cbn [dw_energy e_sde]. split.
  - apply (esde_dtheta (fun t => dw_q (K:=RNum) t) (fun a b m s => 4 * dw_qth (K:=RNum) theta a b m s)); try assumption.
    intros a b m s. unfold dw_q, dw_qth, dw_c, mom_elt. rnum. auto_derive; [exact I|]. ring.
  - apply (is_derive_ext (fun t => esde (dw_exact t) sigma dt obs A B M S)).
    { intros t. apply dw_true_esde; assumption. }
    apply (esde_dtheta dw_exact (fun a b m s => 4 * dw_qth (K:=RNum) theta a b m s)); try assumption.
    intros a b m s. unfold dw_exact, dw_qth, dw_c, mom_elt. rnum. auto_derive; [exact I|]. ring.
Qed.
Lemma dw_dsigma_correct :
  is_derive (fun t => e_sde (dw_energy (K:=RNum) t theta dt A B M S obs)) sigma
            (e_dsig (dw_energy (K:=RNum) sigma theta dt A B M S obs)).
Proof. apply (esde_dsigma (dw_q (K:=RNum) theta)). exact Hsg. Qed.
End DW.

Lemma dw_true_E sigma theta dt A B M S : 0 < sigma ->
  (forall k, (k < length A)%nat -> 0 < gr S k) ->
  exists e : nat -> R,
    (forall k, (k < length A)%nat ->
       E_normal (gr M k) (gr S k) (mismatch (f_dw theta) sigma (gr A k) (gr B k)) (e k)) /\
    dw_true dt sigma theta A B M S = trap (length A) e dt.
Proof.
  intros Hsg Hs. exists (fun k => 1 / 2 * dw_exact theta (gr A k) (gr B k) (gr M k) (gr S k) / sigma).
  split; [|reflexivity]. intros k Hk. apply dw_point_E; auto.
Qed.

(** ** Refutations *)
Lemma dw_negative :
  e_sde (dw_energy (K:=RNum) 1 3 1 [0; 0] [0; 0] [0; 0] [1; 1] (Some [])) = - 12.
Proof.
  cbn [dw_energy e_sde]. rewrite (trapz1_trap (dw_q (K:=RNum) 3)); try reflexivity.
  - unfold trap. cbn [Rsum length Nat.sub nth Nat.add]. unfold dw_q, dw_c, mom_elt. rnum. field.
  - intros o [= <-]. constructor.
Qed.
Lemma dw_grad_wrong :
  ~ is_derive (fun t => e_sde (dw_energy (K:=RNum) 1 0 1 [0; 0] [0; 0] (set_nth 0 t [1; 1]) [1; 1] (Some []))) 1
      (tweight 2 0 1 * gr (e_dm (dw_energy (K:=RNum) 1 0 1 [0; 0] [0; 0] [1; 1] [1; 1] (Some []))) 0).
Proof.
  assert (Hs : srt (Some [])) by (intros o [= <-]; constructor).
  intros H.
  assert (H' : is_derive (fun t => e_sde (dw_energy (K:=RNum) 1 0 1 [0; 0] [0; 0] (set_nth 0 t [1; 1]) [1; 1] (Some []))) 1
            (tweight 2 0 1 * (1 / 2 * (8 * dm_elt (K:=RNum) 6 1 1)))).
  { apply (esde_dm (dw_q (K:=RNum) 0) 1 1 [0; 0] [0; 0] [1; 1] [1; 1] (Some []) Hs); try reflexivity; try lra.
    - cbn. lia.
    - cbn [nth]. unfold dw_q, dw_c, mom_elt, dm_elt. rnum. auto_derive; [exact I|]. field. }
  apply is_derive_unique in H. apply is_derive_unique in H'. rewrite H in H'. clear H.
  revert H'. cbn [dw_energy e_dm map4 nth].
  unfold tweight, dw_dm, dw_c, dm_elt. cbn [Nat.ltb Nat.leb Nat.add]. rnum. lra.
Qed.
