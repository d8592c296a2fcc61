(** * Independent specification of the Lorenz-96 system. *)
From Coq Require Import Reals Arith ZArith.
Local Open Scope R_scope.

(** index i + z on a cycle of n places (successor and predecessor written out) *)
Definition nxt (n i : nat) : nat := if Nat.eqb (i + 1) n then 0%nat else (i + 1)%nat.
Definition prv (n i : nat) : nat := if Nat.eqb i 0 then (n - 1)%nat else (i - 1)%nat.

(** dx_i/dt = (x_{i+1} - x_{i-2}) x_{i-1} - x_i + F *)
Definition f96 (n : nat) (F : nat -> R) (x : nat -> R) (i : nat) : R :=
  (x (nxt n i) - x (prv n (prv n i))) * x (prv n i) - x i + F i.
(** its quadratic part *)
Definition f96_quad (n : nat) (x : nat -> R) (i : nat) : R :=
  (x (nxt n i) - x (prv n (prv n i))) * x (prv n i).
(** cyclic shift by one *)
Definition rot (n : nat) (x : nat -> R) : nat -> R := fun i => x (nxt n i).

(** A linear expectation functional with mean m and covariance S. *)
Record is_expectation (n : nat) (E : ((nat -> R) -> R) -> R) (m : nat -> R) (S : nat -> nat -> R) : Prop := {
  exp_lin : forall a b f g, E (fun x => a * f x + b * g x) = a * E f + b * E g;
  exp_one : E (fun _ => 1) = 1;
  exp_mean : forall i, (i < n)%nat -> E (fun x => x i) = m i;
  exp_cov : forall i j, (i < n)%nat -> (j < n)%nat -> E (fun x => x i * x j) = S i j + m i * m j }.
