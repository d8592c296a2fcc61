(** * Independent specification of the Lorenz-63 system and of the linear approximation. *)
From Coq Require Import Reals Arith.
From Verif Require Import Spec_Utils.
Local Open Scope R_scope.

(** x' = s (y - x),  y' = x (r - z) - y,  z' = x y - b z *)
Definition f63 (s r b : R) (x : nat -> R) (i : nat) : R :=
  match i with
  | O => s * (x 1%nat - x 0%nat)
  | 1%nat => x 0%nat * (r - x 2%nat) - x 1%nat
  | _ => x 0%nat * x 1%nat - b * x 2%nat
  end.
(** entry i of - A x + b *)
Definition glin (n : nat) (A : nat -> nat -> R) (b x : nat -> R) (i : nat) : R :=
  b i - Rsum n (fun k => A i k * x k).
(** A with the entries (i,j) and (j,i) set to t *)
Definition sset (i j : nat) (t : R) (A : nat -> nat -> R) : nat -> nat -> R :=
  fun a b => if orb (andb (Nat.eqb a i) (Nat.eqb b j)) (andb (Nat.eqb a j) (Nat.eqb b i)) then t else A a b.
(** list with entry k replaced *)
Fixpoint lset {A} (k : nat) (v : A) (x : list A) : list A :=
  match x, k with
  | nil, _ => nil
  | cons _ x', O => cons v x'
  | cons a x', S k' => cons a (lset k' v x')
  end.
