(** * Independent specification of the one-dimensional models. *)
From Coq Require Import Reals Arith List.
From Verif Require Import Spec_Utils Spec_Gauss.
Local Open Scope R_scope.

(** Drift functions (of the documentation), their derivatives, and the linear
    approximation. *)
Definition f_ou (theta x : R) : R := - theta * x.
Definition f_dw (theta x : R) : R := 4 * x * (theta - x ^ 2).
Definition df_ou (theta x : R) : R := - theta.
Definition df_dw (theta x : R) : R := 4 * theta - 12 * x ^ 2.
Definition g_lin (a b x : R) : R := - a * x + b.

(** Squared drift mismatch, weighted by the noise. *)
Definition mismatch (f : R -> R) (sigma a b x : R) : R := (f x - g_lin a b x) ^ 2 / (2 * sigma).

(** Weight of sample k (of n) in the composite trapezoidal rule. *)
Definition tweight (n k : nat) (dx : R) : R :=
  (if Nat.ltb (k + 1) n then dx / 2 else 0) + (if Nat.ltb 0 k then dx / 2 else 0).

(** x with entry k replaced *)
Fixpoint set_nth (k : nat) (v : R) (x : list R) : list R :=
  match x, k with
  | nil, _ => nil
  | cons _ x', O => cons v x'
  | cons a x', S k' => cons a (set_nth k' v x')
  end.
