(** * Model of the linear algebra used by the code: numpy/scipy Cholesky factor,
    triangular solve, and utilities.py chol_inv / log_det.  Definitions only. *)
From Coq Require Import ZArith List Bool Arith.
From Verif Require Import Num Arr.
Import ListNotations.

(** An input array of unknown rank: scalar, vector of n entries, r x c matrix, or
    anything of rank >= 3. *)
Inductive arr (K : Num) :=
| A0 (x : K)
| A1 (n : nat) (v : vec K)
| A2 (r c : nat) (m : mat K)
| A3.
Arguments A0 {K} x.
Arguments A1 {K} n v.
Arguments A2 {K} r c m.
Arguments A3 {K}.

Section LinAlg.
Context {K : Num}.
Local Open Scope num_scope.

(** x[:, j] = col *)
Definition setcol (j : nat) (col : vec K) (L : mat K) : mat K :=
  fun i k => if Nat.eqb k j then col i else L i k.

(** numpy.linalg.cholesky (LAPACK potrf, lower): column by column; only the lower
    triangle of x is read; a pivot that is not > 0 raises LinAlgError; the strict
    upper triangle of the result is zero.  Column j: *)
Definition chol_pivot (x L : mat K) (j : nat) : K :=
  x j j - sumn j (fun k => L j k * L j k).
Definition chol_col (x L : mat K) (j : nat) : vec K :=
  let p := nsqrt (chol_pivot x L j) in
  fun i => if Nat.ltb i j then nZ 0
           else if Nat.eqb i j then p
           else (x i j - sumn j (fun k => L i k * L j k)) / p.
Fixpoint chol_upto (x : mat K) (j : nat) : result (mat K) :=
  match j with
  | O => Ok (fun _ _ => nZ 0)
  | S j' =>
      let* L := chol_upto x j' in
      if nZ 0 <? chol_pivot x L j'
      then Ok (setcol j' (chol_col x L j') L)
      else Err LinAlgError
  end.
Definition cholesky (d : nat) (x : mat K) : result (mat K) := chol_upto x d.

(** numpy.linalg.solve(L, B) for a lower triangular L, as used by chol_inv_fast
    (utilities.py:211).  numpy runs LU with partial pivoting; for the non-singular
    systems solved here the solution is unique, and it is computed in the model by forward
    substitution, one row after the other (C06_solve_unique). *)
Definition setrow (i : nat) (row : vec K) (X : mat K) : mat K :=
  fun r c => if Nat.eqb r i then row c else X r c.
Fixpoint fwd_subst (L B : mat K) (n : nat) : mat K :=
  match n with
  | O => fun _ _ => nZ 0
  | S n' =>
      let X := fwd_subst L B n' in
      setrow n' (fun c => (B n' c - sumn n' (fun k => L n' k * X k c)) / L n' n') X
  end.
Definition solve_lower (d : nat) (L B : mat K) : mat K := fwd_subst L B d.

(** utilities.py:203-217 chol_inv_fast *)
Definition chol_inv_fast (d : nat) (x : mat K) : result (mat K * mat K) :=
  let* L := cholesky d x in
  let c_inv := solve_lower d L meye in
  let x_inv := mmul d (mtr c_inv) c_inv in
  Ok (x_inv, c_inv).

(** utilities.py:219-237 chol_inv.  Scalars: (1/x, 1/sqrt x).  A matrix that is not square
    makes cholesky raise LinAlgError; other ranks are rejected by numba's typing
    (modelled as TypeError). *)
Definition chol_inv (x : arr K) : result (arr K * arr K) :=
  match x with
  | A0 x => Ok (A0 (nZ 1 / x), A0 (nZ 1 / nsqrt x))
  | A2 r c m =>
      if Nat.eqb r c
      then let* (y, ci) := chol_inv_fast r m in Ok (A2 r r y, A2 r r ci)
      else Err LinAlgError
  | _ => Err TypeError
  end.

(** utilities.py:68-105 log_det ([nln] is np.log).  `rows, cols = x.shape` raises
    ValueError for rank >= 3. *)
Definition log_det_mat (nln : K -> K) (d : nat) (x : mat K) : result K :=
  let* L := cholesky d x in
  Ok (nZ 2 * sumn d (fun i => nln (L i i))).
Definition log_det (nln : K -> K) (x : arr K) : result K :=
  match x with
  | A0 x => Ok (nln x)
  | A1 n v => log_det_mat nln n (mdiag v)
  | A2 r c m => if Nat.eqb r c then log_det_mat nln r m else Err RuntimeError
  | A3 => Err ValueError
  end.
End LinAlg.
