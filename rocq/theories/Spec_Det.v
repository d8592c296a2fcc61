(** * The determinant of a real matrix, by Laplace expansion along the first column. *)
From Coq Require Import Reals Arith.
From Verif Require Import Spec_Utils.
Local Open Scope R_scope.

(** k-th index among those different from i *)
Definition skip (i k : nat) : nat := if Nat.ltb k i then k else S k.
(** determinant of the leading d x d block *)
Fixpoint detR (d : nat) (x : nat -> nat -> R) : R :=
  match d with
  | O => 1
  | S d' => Rsum (S d') (fun i => (-1) ^ i * x i O * detR d' (fun r c => x (skip i r) (S c)))
  end.
