(** * Independent specification of the assertions of the shipped unit tests. *)
From Coq Require Import Reals List Arith ZArith SpecFloat.
From Verif Require Import Spec_Utils.
Import ListNotations.
Local Open Scope R_scope.

(** np.allclose(a, b) for one number: rtol = 1e-5, atol = 1e-8 *)
Definition close (a b : R) : Prop := Rabs (a - b) <= / 10 ^ 8 + / 10 ^ 5 * Rabs b.
(** the point and the true gradient of test_finite_diff's last function *)
Definition sin_sq (x : list R) : R := sin (nth 0 x 0 ^ 2 * nth 1 x 0 ^ 2).
Definition sin_sq_grad : list R :=
  [cos ((3 / 2) ^ 2 * 2 ^ 2) * 2 * (3 / 2) * 2 ^ 2; cos ((3 / 2) ^ 2 * 2 ^ 2) * 2 * (3 / 2) ^ 2 * 2].
(** np.linspace(lo, hi, n) *)
Definition linspace (lo hi : R) (n k : nat) : R := lo + INR k * ((hi - lo) / INR (n - 1)).
(** test_chol_inv: the numbers of linspace(0.5, 1.5, n^2) row by row, symmetrised, plus n on the diagonal *)
Definition test_matrix (n : nat) (i j : nat) : R :=
  / 2 * (linspace (1 / 2) (3 / 2) (n * n) (i * n + j) + linspace (1 / 2) (3 / 2) (n * n) (j * n + i)) +
  ident i j * INR n.
(** np.mean of an n x n matrix *)
Definition mat_mean (n : nat) (x : nat -> nat -> R) : R := Rsum n (fun i => Rsum n (fun j => x i j)) / INR (n * n).
(** np.diag of a vector *)
Definition diagm (v : nat -> R) (i j : nat) : R := if Nat.eqb i j then v i else 0.
(** a binary64 number that is neither infinite nor nan *)
Definition finite64 (x : spec_float) : Prop :=
  match x with S754_zero _ => True | S754_finite _ _ _ => True | _ => False end.
