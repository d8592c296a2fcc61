(** * Quadratic objectives *)
From Coq Require Import Reals List Arith.
From Verif Require Import Spec_Utils.
Import ListNotations.
Local Open Scope R_scope.

(** sum of the squares of the n entries of x *)
Definition sumsq (n : nat) (x : list R) : R := Rsum n (fun i => nth i x 0 ^ 2).
(** f(x) = c + b'x + x'Qx / 2 for x of length n, and its gradient b + Qx *)
Definition quadratic (n : nat) (Q : nat -> nat -> R) (b : nat -> R) (c : R) (x : list R) : R :=
  c + Rsum n (fun i => b i * nth i x 0) + / 2 * Rsum n (fun i => Rsum n (fun j => nth i x 0 * Q i j * nth j x 0)).
Definition quad_grad (n : nat) (Q : nat -> nat -> R) (b : nat -> R) (x : list R) : list R :=
  map (fun i => b i + Rsum n (fun j => Q i j * nth j x 0)) (seq 0 n).
(** Q is symmetric with eigenvalues between l > 0 and L *)
Definition between (n : nat) (l L : R) (Q : nat -> nat -> R) : Prop :=
  symm n Q /\ 0 < l <= L /\
  forall v : nat -> R, l * Rsum n (fun i => v i ^ 2) <= Rsum n (fun i => Rsum n (fun j => v i * Q i j * v j))
                       <= L * Rsum n (fun i => v i ^ 2).
(** factor by which an iteration reduces the distance of the objective to its minimum, at least *)
Definition quad_rate (l L : R) : R := 1 - l / ((L + 1) * (1 + L / l) ^ 2).
(** np.sum(x ** 2), test_scg.py:39 *)
Definition sphere (x : list R) : R := fold_right Rplus 0 (map (fun v => v ^ 2) x).
