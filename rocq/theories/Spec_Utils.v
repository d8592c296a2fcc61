(** * Independent specifications for the numerical utilities. *)
From Coq Require Import Reals List Arith.
Import ListNotations.
Local Open Scope R_scope.

(** Finite sum of reals, f 0 + ... + f (n-1). *)
Fixpoint Rsum (n : nat) (f : nat -> R) : R :=
  match n with O => 0 | S m => Rsum m f + f m end.

(** Composite trapezoidal rule for the n samples f 0, ..., f (n-1) with step dx. *)
Definition trap (n : nat) (f : nat -> R) (dx : R) : R :=
  Rsum (n - 1) (fun k => dx * (f k + f (k + 1)%nat) / 2).

(** Positive definiteness of the leading d x d block. *)
Definition posdef (d : nat) (x : nat -> nat -> R) : Prop :=
  forall v : nat -> R, (exists i, (i < d)%nat /\ v i <> 0) ->
    0 < Rsum d (fun i => Rsum d (fun j => v i * x i j * v j)).

(** C = A B on the leading d x d blocks *)
Definition is_prod (d : nat) (A B C : nat -> nat -> R) : Prop :=
  forall i j, (i < d)%nat -> (j < d)%nat -> Rsum d (fun k => A i k * B k j) = C i j.
Definition ident (i j : nat) : R := if Nat.eqb i j then 1 else 0.
Definition symm (d : nat) (A : nat -> nat -> R) : Prop :=
  forall i j, (i < d)%nat -> (j < d)%nat -> A i j = A j i.
Definition transp (A : nat -> nat -> R) : nat -> nat -> R := fun i j => A j i.
(** lower triangular with positive diagonal *)
Definition lower_tri (d : nat) (L : nat -> nat -> R) : Prop :=
  (forall i j, (i < j < d)%nat -> L i j = 0) /\ (forall i, (i < d)%nat -> 0 < L i i).

(** i-th coordinate direction *)
Definition unit_step (i : nat) (h : R) (k : nat) : R := if Nat.eqb k i then h else 0.

(** the point x moved by h along coordinate i *)
Fixpoint move (i : nat) (h : R) (x : list R) : list R :=
  match x, i with
  | [], _ => []
  | a :: x', O => (a + h) :: x'
  | a :: x', S i' => a :: move i' h x'
  end.

(** mean and covariance of N weighted points (one per row) *)
Definition wmean (N : nat) (w : nat -> R) (p : nat -> nat -> R) (i : nat) : R :=
  Rsum N (fun r => w r * p r i).
Definition wcov (N : nat) (w : nat -> R) (p : nat -> nat -> R) (i j : nat) : R :=
  Rsum N (fun r => w r * (p r i - wmean N w p i) * (p r j - wmean N w p j)).

(** B x + c (i-th entry), x of dimension d *)
Definition affine (d : nat) (B : nat -> nat -> R) (c x : nat -> R) (i : nat) : R :=
  Rsum d (fun l => B i l * x l) + c i.
(** B S B' *)
Definition sandwich (d : nat) (B S : nat -> nat -> R) (i j : nat) : R :=
  Rsum d (fun l => Rsum d (fun m => B i l * S l m * B j m)).
(** i-th entry of a quadratic map: x' q_i x + B x + c, and its expectation under mean m
    and covariance S *)
Definition quadr (d : nat) (q : nat -> nat -> nat -> R) B c (x : nat -> R) (i : nat) : R :=
  Rsum d (fun l => Rsum d (fun k => q i l k * (x l * x k))) + affine d B c x i.
Definition quadr_mean (d : nat) (q : nat -> nat -> nat -> R) B c (m : nat -> R) (S : nat -> nat -> R) (i : nat) : R :=
  Rsum d (fun l => Rsum d (fun k => q i l k * (S l k + m l * m k))) + affine d B c m i.
