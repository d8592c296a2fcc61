(** * Model of src/dynamics/lorenz_96.py: roll-based shifts, l96, E96_drift, E96_drift_dx.
    Definitions only. *)
From Coq Require Import ZArith List Bool Arith.
From Verif Require Import Num Arr.
Import ListNotations.

Section L96.
Context {K : Num}.
Local Open Scope num_scope.

(** np.roll(x, k) of an array of n entries: entry i of the result is entry (i - k) mod n. *)
Definition roll_ix (n : nat) (k : Z) (i : nat) : nat :=
  Z.to_nat ((Z.of_nat i - k) mod Z.of_nat n).
Definition roll {A} (n : nat) (k : Z) (x : nat -> A) : nat -> A := fun i => x (roll_ix n k i).

(** lines 9-32 *)
Definition fwd_1 {A} (n : nat) (x : nat -> A) : nat -> A := roll n (-1) x.
Definition bwd_1 {A} (n : nat) (x : nat -> A) : nat -> A := roll n 1 x.
Definition bwd_2 {A} (n : nat) (x : nat -> A) : nat -> A := roll n 2 x.
Definition shift_vectors {A} (n : nat) (x : nat -> A) : (nat -> A) * (nat -> A) * (nat -> A) :=
  (roll n (-1) x, roll n 1 x, roll n 2 x).

(** lines 85-101, one state of dimension n; u is the forcing (a scalar is broadcast to a
    constant vector) *)
Definition l96 (n : nat) (x u : vec K) : vec K :=
  let '(fwd_1x, bwd_1x, bwd_2x) := shift_vectors n x in
  fun i => (fwd_1x i - bwd_2x i) * bwd_1x i - x i + u i.

(** np.roll(x, k) of an r x c matrix without `axis`: the array is flattened (row-major),
    rolled and restored to its shape. *)
Definition roll2 (r c : nat) (k : Z) (x : mat K) : mat K :=
  fun i j => let p := roll_ix (r * c) k (i * c + j) in x (p / c)%nat (p mod c)%nat.
(** lines 85-101 on an r x c matrix of states, as called by Lorenz96.energy through
    ut_approx (lines 380-383) *)
Definition l96_batch (r c : nat) (x : mat K) (u : vec K) : mat K :=
  let fwd_1x := roll2 r c (-1) x in
  let bwd_1x := roll2 r c 1 x in
  let bwd_2x := roll2 r c 2 x in
  fun i j => (fwd_1x i j - bwd_2x i j) * bwd_1x i j - x i j + u j.

(** G[j] = v *)
Definition aset (j : nat) (v : K) (G : vec K) : vec K := fun i => if Nat.eqb i j then v else G i.

(** lines 34-83 *)
Definition E96_drift_dx (n : nat) (x : vec K) : mat K :=
  let '(fwd_1i, bwd_1i, bwd_2i) := shift_vectors n (fun i => i) in
  let '(fwd_1x, bwd_1x, bwd_2x) := shift_vectors n x in
  fun k =>
    let Gx := fun _ => nZ 0 in
    let Gx := aset k (- nZ 1) Gx in
    let Gx := aset (fwd_1i k) (bwd_1x k) Gx in
    let Gx := aset (bwd_2i k) (- bwd_1x k) Gx in
    let Gx := aset (bwd_1i k) (fwd_1x k - bwd_2x k) Gx in
    Gx.

(** lines 440-462 *)
Definition E96_drift (n : nat) (theta mt : vec K) (st : mat K) : vec K :=
  let '(fwd_1i, bwd_1i, bwd_2i) := shift_vectors n (fun i => i) in
  let Cxx := fun i => st (fwd_1i i) (bwd_1i i) - st (bwd_2i i) (bwd_1i i) in
  fun i => Cxx i + (fwd_1 n mt i - bwd_2 n mt i) * bwd_1 n mt i - mt i + theta i.
End L96.
