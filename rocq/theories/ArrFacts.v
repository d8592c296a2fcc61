(** * Facts about arrays over the real numbers. *)
From Coq Require Import ZArith List Bool Reals Lra Lia FunctionalExtensionality.
From Verif Require Import Num Arr.
Import ListNotations.
Local Open Scope R_scope.

Notation Rvec := (vec RNum).
Notation Rmat := (mat RNum).
Notation rsum := (@sumn RNum).

(** ** Finite sums *)
Lemma sumn_S (n : nat) (f : nat -> R) : rsum (S n) f = rsum n f + f n.
Proof. reflexivity. Qed.

Lemma sumn_ext_gen (K : Num) n (f g : nat -> K) :
  (forall i, (i < n)%nat -> f i = g i) -> sumn n f = sumn n g.
Proof.
  induction n as [|n IH]; intros H; cbn; [reflexivity|].
  rewrite IH by (intros; apply H; lia). rewrite H by lia. reflexivity.
Qed.
Lemma sumn_ext n (f g : nat -> R) :
  (forall i, (i < n)%nat -> f i = g i) -> rsum n f = rsum n g.
Proof. apply (sumn_ext_gen RNum). Qed.

Lemma sumn_plus n (f g : nat -> R) : rsum n (fun i => f i + g i) = rsum n f + rsum n g.
Proof. induction n as [|n IH]; cbn -[rsum]; rewrite ?sumn_S, ?IH; cbn; lra. Qed.
Lemma sumn_minus n (f g : nat -> R) : rsum n (fun i => f i - g i) = rsum n f - rsum n g.
Proof. induction n as [|n IH]; cbn -[rsum]; rewrite ?sumn_S, ?IH; cbn; lra. Qed.
Lemma sumn_opp n (f : nat -> R) : rsum n (fun i => - f i) = - rsum n f.
Proof. induction n as [|n IH]; cbn -[rsum]; rewrite ?sumn_S, ?IH; cbn; lra. Qed.
Lemma sumn_scal n a (f : nat -> R) : rsum n (fun i => a * f i) = a * rsum n f.
Proof. induction n as [|n IH]; cbn -[rsum]; rewrite ?sumn_S, ?IH; cbn; lra. Qed.
Lemma sumn_scal_r n a (f : nat -> R) : rsum n (fun i => f i * a) = rsum n f * a.
Proof. induction n as [|n IH]; cbn -[rsum]; rewrite ?sumn_S, ?IH; cbn; lra. Qed.
Lemma sumn_zero n (f : nat -> R) : (forall i, (i < n)%nat -> f i = 0) -> rsum n f = 0.
Proof.
  induction n as [|n IH]; intros H; [reflexivity|].
  rewrite sumn_S, IH, H by (intros; try apply H; lia). lra.
Qed.
Lemma sumn_const n c : rsum n (fun _ => c) = INR n * c.
Proof. induction n as [|n IH]; [cbn; lra|]. rewrite sumn_S, IH, S_INR. lra. Qed.
Lemma sumn_swap n m (f : nat -> nat -> R) :
  rsum n (fun i => rsum m (fun j => f i j)) = rsum m (fun j => rsum n (fun i => f i j)).
Proof.
  induction n as [|n IH].
  - cbn. symmetry; apply sumn_zero; auto.
  - rewrite sumn_S, IH. rewrite <- sumn_plus. reflexivity.
Qed.
Lemma sumn_single n (f : nat -> R) i :
  (i < n)%nat -> (forall j, (j < n)%nat -> j <> i -> f j = 0) -> rsum n f = f i.
Proof.
  induction n as [|n IH]; intros Hi H; [lia|].
  rewrite sumn_S. destruct (Nat.eq_dec i n) as [->|Hne].
  - rewrite sumn_zero; [lra|]. intros; apply H; lia.
  - rewrite IH; try lia; [|intros; apply H; lia]. rewrite (H n) by lia. lra.
Qed.
Lemma sumn_nonneg n (f : nat -> R) :
  (forall i, (i < n)%nat -> 0 <= f i) -> 0 <= rsum n f.
Proof.
  induction n as [|n IH]; intros H; [cbn; lra|].
  rewrite sumn_S. assert (0 <= f n) by (apply H; lia).
  assert (0 <= rsum n f) by (apply IH; intros; apply H; lia). lra.
Qed.
Lemma sumn_le n (f g : nat -> R) :
  (forall i, (i < n)%nat -> f i <= g i) -> rsum n f <= rsum n g.
Proof.
  induction n as [|n IH]; intros H; [cbn; lra|].
  rewrite !sumn_S. assert (f n <= g n) by (apply H; lia).
  assert (rsum n f <= rsum n g) by (apply IH; intros; apply H; lia). lra.
Qed.
Lemma sumn_shift n (f : nat -> R) : rsum (S n) f = f 0%nat + rsum n (fun i => f (S i)).
Proof.
  induction n as [|n IH]; [cbn; lra|].
  rewrite sumn_S, IH, (sumn_S n). lra.
Qed.
Lemma sumn_split n m (f : nat -> R) :
  rsum (n + m) f = rsum n f + rsum m (fun i => f (n + i)%nat).
Proof.
  induction m as [|m IH].
  - rewrite Nat.add_0_r. cbn. lra.
  - rewrite Nat.add_succ_r, !sumn_S, IH. lra.
Qed.

(** ** Linear test functionals: two array values are equal when all their
    entries are, and every element-wise operation acts entry by entry. *)
Record ValEv (V : Val RNum) := mkValEv {
  vidx : Type;
  ev : vidx -> V -> R;
  ev_add : forall i x y, ev i (vadd x y) = ev i x + ev i y;
  ev_sub : forall i x y, ev i (vsub x y) = ev i x - ev i y;
  ev_opp : forall i x, ev i (vopp x) = - ev i x;
  ev_scale : forall i (a : R) x, ev i (vscale (a : RNum) x) = a * ev i x;
  ev_divs : forall i x (a : R), ev i (vdivs x (a : RNum)) = ev i x / a;
  ev_zero : forall i, ev i (vzero V) = 0;
  ev_ext : forall x y, (forall i, ev i x = ev i y) -> x = y;
}.
Arguments vidx {V} _.
Arguments ev {V} _ _ _.
Arguments ev_add {V} _ _ _ _.
Arguments ev_sub {V} _ _ _ _.
Arguments ev_opp {V} _ _ _.
Arguments ev_scale {V} _ _ _ _.
Arguments ev_divs {V} _ _ _ _.
Arguments ev_zero {V} _ _.
Arguments ev_ext {V} _ _ _ _.

Program Definition scalEv : ValEv (scalV RNum) :=
  mkValEv (scalV RNum) unit (fun _ x => x) _ _ _ _ _ _ _.
Next Obligation. apply (H tt). Qed.

Program Definition vecEv : ValEv (vecV RNum) :=
  mkValEv (vecV RNum) nat (fun i x => x i) _ _ _ _ _ _ _.
Next Obligation. apply functional_extensionality; auto. Qed.

Program Definition matEv : ValEv (matV RNum) :=
  mkValEv (matV RNum) (nat * nat) (fun i x => x (fst i) (snd i)) _ _ _ _ _ _ _.
Next Obligation.
  apply functional_extensionality; intros i; apply functional_extensionality; intros j.
  apply (H (i, j)).
Qed.

(** Proves an identity between element-wise combinations, entry by entry. *)
Ltac ev_expand E :=
  rewrite ?(ev_add E), ?(ev_sub E), ?(ev_opp E), ?(ev_scale E), ?(ev_divs E), ?(ev_zero E).
Ltac vring E := apply (ev_ext E); intros; repeat progress (ev_expand E); rnum; try (ring || field).

(** ** Matrix algebra over R, dimension d *)
Definition meq (d : nat) (A B : Rmat) : Prop :=
  forall i j, (i < d)%nat -> (j < d)%nat -> A i j = B i j.
Definition veq (d : nat) (u v : Rvec) : Prop := forall i, (i < d)%nat -> u i = v i.
Definition msym (d : nat) (A : Rmat) : Prop :=
  forall i j, (i < d)%nat -> (j < d)%nat -> A i j = A j i.

Lemma meq_refl d A : meq d A A. Proof. intros i j _ _; reflexivity. Qed.
Lemma meq_sym d A B : meq d A B -> meq d B A.
Proof. intros H i j Hi Hj; symmetry; auto. Qed.
Lemma meq_trans d A B C : meq d A B -> meq d B C -> meq d A C.
Proof. intros H1 H2 i j Hi Hj; rewrite H1, H2; auto. Qed.

Lemma mmul_ext d A A' B B' : meq d A A' -> meq d B B' -> meq d (mmul d A B) (mmul d A' B').
Proof.
  intros HA HB i j Hi Hj. unfold mmul. apply sumn_ext; intros k Hk.
  rewrite HA, HB; auto.
Qed.

Lemma mmul_assoc d (A B C : Rmat) i j :
  mmul d A (mmul d B C) i j = mmul d (mmul d A B) C i j.
Proof.
  unfold mmul; rnum.
  transitivity (rsum d (fun k => rsum d (fun l => A i k * (B k l * C l j)))).
  { apply sumn_ext; intros; rewrite <- sumn_scal; apply sumn_ext; intros; ring. }
  rewrite sumn_swap. apply sumn_ext; intros l Hl.
  rewrite <- sumn_scal_r. apply sumn_ext; intros; ring.
Qed.

Lemma mmul_eye_l d (A : Rmat) i j : (i < d)%nat -> mmul d meye A i j = A i j.
Proof.
  intros Hi. unfold mmul, meye; rnum.
  rewrite (sumn_single d _ i Hi).
  - rewrite Nat.eqb_refl. rnum. ring.
  - intros k Hk Hne. destruct (Nat.eqb_spec i k); [congruence|rnum; ring].
Qed.
Lemma mmul_eye_r d (A : Rmat) i j : (j < d)%nat -> mmul d A meye i j = A i j.
Proof.
  intros Hj. unfold mmul, meye; rnum.
  rewrite (sumn_single d _ j Hj).
  - rewrite Nat.eqb_refl. rnum. ring.
  - intros k Hk Hne. destruct (Nat.eqb_spec k j); [congruence|rnum; ring].
Qed.

Lemma mtr_mmul d (A B : Rmat) i j : mtr (mmul d A B) i j = mmul d (mtr B) (mtr A) i j.
Proof. unfold mtr, mmul; rnum. apply sumn_ext; intros; ring. Qed.

Lemma mvec_mmul d (A B : Rmat) (v : Rvec) i :
  mvec d (mmul d A B) v i = mvec d A (mvec d B v) i.
Proof.
  unfold mvec, mmul; rnum.
  transitivity (rsum d (fun k => rsum d (fun l => A i l * (B l k * v k)))).
  { apply sumn_ext; intros; rewrite <- sumn_scal_r; apply sumn_ext; intros; ring. }
  rewrite sumn_swap. apply sumn_ext; intros; rewrite <- sumn_scal; apply sumn_ext; intros; ring.
Qed.

Lemma vdot_comm d (u v : Rvec) : vdot d u v = vdot d v u.
Proof. unfold vdot; apply sumn_ext; intros; rnum; ring. Qed.
Lemma vdot_mvec d (A : Rmat) (u v : Rvec) :
  vdot d u (mvec d A v) = vdot d (mvec d (mtr A) u) v.
Proof.
  unfold vdot, mvec, mtr; rnum.
  transitivity (rsum d (fun k => rsum d (fun l => u k * (A k l * v l)))).
  { apply sumn_ext; intros; rewrite <- sumn_scal; reflexivity. }
  rewrite sumn_swap. apply sumn_ext; intros; rewrite <- sumn_scal_r.
  apply sumn_ext; intros; ring.
Qed.
Lemma vdot_self_nonneg d (u : Rvec) : 0 <= vdot d u u.
Proof. unfold vdot; apply sumn_nonneg; intros; rnum; nra. Qed.
Lemma vdot_self_zero d (u : Rvec) : vdot d u u = 0 -> forall i, (i < d)%nat -> u i = 0.
Proof.
  unfold vdot. induction d as [|d IH]; intros H i Hi; [lia|].
  rewrite sumn_S in H. rnum_in_all.
  assert (H0 : 0 <= rsum d (fun k => u k * u k)) by (apply sumn_nonneg; intros; nra).
  assert (u d * u d = 0) by nra.
  assert (rsum d (fun k => u k * u k) = 0) by nra.
  destruct (Nat.eq_dec i d) as [->|]; [nra|]. apply IH; auto; lia.
Qed.

(** [ring]/[field] after normalising the carrier of [RNum] to [R]. *)
Ltac rring := rnum; ring.
Ltac rfield := rnum; field.

Lemma sumn_ge_term n (f : nat -> R) i :
  (forall k, (k < n)%nat -> 0 <= f k) -> (i < n)%nat -> f i <= rsum n f.
Proof.
  induction n as [|n IH]; intros H Hi; [lia|]. rewrite sumn_S.
  destruct (Nat.eq_dec i n) as [->|Hne].
  - assert (0 <= rsum n f) by (apply sumn_nonneg; intros; apply H; lia). lra.
  - assert (f i <= rsum n f) by (apply IH; [intros; apply H; lia|lia]).
    specialize (H n ltac:(lia)). lra.
Qed.
