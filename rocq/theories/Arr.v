(** * Array values of the model.

    A value stored at one time point is a scalar (1-D models), a vector or a
    square matrix (n-D models).  numpy's element-wise operations act on all three
    alike, so the code that only uses them is modelled over a record [Val] of
    element-wise operations.  Vectors and matrices are functions of their
    indices; the dimension [d] is an argument of the operations that sum over an
    index (numpy's dot).  Simplification: numpy's run-time shape errors between
    per-time-point operands are not modelled (entries beyond the dimension exist
    but are never read by sums). *)
From Coq Require Import ZArith List Bool Reals Lra Lia FunctionalExtensionality.
From Verif Require Import Num.
Import ListNotations.

Record Val (K : Num) := mkVal {
  vcar :> Type;
  vadd : vcar -> vcar -> vcar;
  vsub : vcar -> vcar -> vcar;
  vopp : vcar -> vcar;
  vscale : K -> vcar -> vcar;     (* scalar * array (and array * scalar) *)
  vdivs : vcar -> K -> vcar;      (* array / scalar *)
  vzero : vcar;                   (* np.zeros *)
}.
Arguments vcar {K} _.
Arguments vadd {K v} _ _.
Arguments vsub {K v} _ _.
Arguments vopp {K v} _.
Arguments vscale {K v} _ _.
Arguments vdivs {K v} _ _.
Arguments vzero {K} v.

Declare Scope val_scope.
Delimit Scope val_scope with val.
Notation "x +v y" := (vadd x y) (at level 50, left associativity) : val_scope.
Notation "x -v y" := (vsub x y) (at level 50, left associativity) : val_scope.
Notation "-v x" := (vopp x) (at level 35, right associativity) : val_scope.
Notation "a *v x" := (vscale a x) (at level 40, left associativity) : val_scope.
Notation "x /v a" := (vdivs x a) (at level 40, left associativity) : val_scope.

Section Ops.
Context (K : Num).
Open Scope num_scope.

Definition scalV : Val K :=
  mkVal K K nadd nsub nopp nmul ndiv (nZ 0).

Definition vec := nat -> K.
Definition mat := nat -> nat -> K.

Definition vecV : Val K :=
  mkVal K vec
    (fun u v i => u i + v i) (fun u v i => u i - v i) (fun u i => - u i)
    (fun a u i => a * u i) (fun u a i => u i / a) (fun _ => nZ 0).

Definition matV : Val K :=
  mkVal K mat
    (fun u v i j => u i j + v i j) (fun u v i j => u i j - v i j) (fun u i j => - u i j)
    (fun a u i j => a * u i j) (fun u a i j => u i j / a) (fun _ _ => nZ 0).

(** f 0 + f 1 + ... + f (n-1), accumulated left to right from 0.
    Simplification: BLAS may accumulate in another order. *)
Fixpoint sumn (n : nat) (f : nat -> K) : K :=
  match n with
  | O => nZ 0
  | S n' => sumn n' f + f n'
  end.

(** Sum of a list (np.sum). *)
Definition suml (l : list K) : K := fold_left nadd l (nZ 0).

Definition vdot (d : nat) (u v : vec) : K := sumn d (fun k => u k * v k).
(** A.dot(v) *)
Definition mvec (d : nat) (A : mat) (v : vec) : vec := fun i => sumn d (fun k => A i k * v k).
(** v.dot(A) *)
Definition vecm (d : nat) (v : vec) (A : mat) : vec := fun j => sumn d (fun k => v k * A k j).
(** A.dot(B) *)
Definition mmul (d : nat) (A B : mat) : mat := fun i j => sumn d (fun k => A i k * B k j).
(** A.T *)
Definition mtr (A : mat) : mat := fun i j => A j i.
(** np.outer *)
Definition mouter (u v : vec) : mat := fun i j => u i * v j.
(** np.eye *)
Definition meye : mat := fun i j => if Nat.eqb i j then nZ 1 else nZ 0.
(** np.diag of a vector *)
Definition mdiag (v : vec) : mat := fun i j => if Nat.eqb i j then v i else nZ 0.
(** diagonal of a matrix *)
Definition diagv (A : mat) : vec := fun i => A i i.
(** element-wise product *)
Definition mhad (A B : mat) : mat := fun i j => A i j * B i j.
Definition vhad (u v : vec) : vec := fun i => u i * v i.

(** element-wise sum/product/negation etc. are those of [vecV] and [matV] *)
Definition madd (A B : mat) : mat := fun i j => A i j + B i j.
Definition msub (A B : mat) : mat := fun i j => A i j - B i j.
Definition mopp (A : mat) : mat := fun i j => - A i j.
Definition mscale (a : K) (A : mat) : mat := fun i j => a * A i j.
Definition vaddv (u v : vec) : vec := fun i => u i + v i.
Definition vsubv (u v : vec) : vec := fun i => u i - v i.
Definition voppv (u : vec) : vec := fun i => - u i.
Definition vscalev (a : K) (u : vec) : vec := fun i => a * u i.

(** Entry of a list used as a 1-D array. *)
Definition geti {A} (z : A) (l : list A) (i : nat) : A := nth i l z.

End Ops.
Arguments sumn {K} n f.
Arguments suml {K} l.
Arguments vdot {K} d u v.
Arguments mvec {K} d A v.
Arguments vecm {K} d v A.
Arguments mmul {K} d A B.
Arguments mtr {K} A.
Arguments mouter {K} u v.
Arguments meye {K}.
Arguments mdiag {K} v.
Arguments diagv {K} A.
Arguments mhad {K} A B.
Arguments vhad {K} u v.
Arguments madd {K} A B.
Arguments msub {K} A B.
Arguments mopp {K} A.
Arguments mscale {K} a A.
Arguments vaddv {K} u v.
Arguments vsubv {K} u v.
Arguments voppv {K} u.
Arguments vscalev {K} a u.
