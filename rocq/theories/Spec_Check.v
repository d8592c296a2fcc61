(** * Euclidean distance and central differences.  Independent of the model of the code. *)
From Coq Require Import List Reals.
From Coquelicot Require Import Coquelicot.
From Verif Require Import Spec_Utils.
Import ListNotations.
Local Open Scope R_scope.
(** Euclidean norm of (u_0, ..., u_(n-1)) *)
Definition enorm (n : nat) (u : nat -> R) : R := sqrt (Rsum n (fun i => u i ^ 2)).
(** central difference quotient along coordinate i with step h *)
Definition central (h : R) (fn : list R -> R) (x : list R) (i : nat) : R :=
  (fn (move i h x) - fn (move i (- h) x)) / (2 * h).
(** the points of the central differences, coordinate by coordinate *)
Definition central_points (h : R) (x : list R) : list (list R) :=
  flat_map (fun k => [move k h x; move k (- h) x]) (seq 0 (length x)).
(** three times differentiable along coordinate i near x, third derivative at most M *)
Definition smooth_along (fn : list R -> R) (x : list R) (i : nat) (M : R) : Prop :=
  let h := / 10 ^ 6 in
  exists r, h < r /\ (forall t k, Rabs t < r -> (k <= 3)%nat -> ex_derive_n (fun t => fn (move i t x)) k t) /\
  (forall t, Rabs t <= h -> Rabs (Derive_n (fun t => fn (move i t x)) 3 t) <= M).
