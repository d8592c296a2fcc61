(** * Expectations under a multivariate normal distribution, as iterated improper
    Riemann integrals. *)
From Coq Require Import Reals Arith.
From Coquelicot Require Import Coquelicot.
From Verif Require Import Spec_Utils Spec_Gauss.
Local Open Scope R_scope.

(** z with entry k replaced by t *)
Definition vset (k : nat) (t : R) (z : nat -> R) : nat -> R :=
  fun i => if Nat.eqb i k then t else z i.

(** [E_std n g e]: integrating g successively against the standard normal density in its
    entries n-1, ..., 0, every integral exists and the final value is e. *)
Fixpoint E_std (n : nat) (g : (nat -> R) -> R) (e : R) : Prop :=
  match n with
  | O => e = g (fun _ => 0)
  | S n' => exists h : (nat -> R) -> R,
      (forall z, E_normal 0 1 (fun t => g (vset n' t z)) (h z)) /\ E_std n' h e
  end.

(** x = m + L z with z standard normal in dimension n: normal with mean m and
    covariance L L'. *)
Definition mvn_point (n : nat) (m : nat -> R) (L : nat -> nat -> R) (z : nat -> R) : nat -> R :=
  fun i => m i + Rsum n (fun k => L i k * z k).
Definition is_root (n : nat) (L S : nat -> nat -> R) : Prop :=
  forall i j, (i < n)%nat -> (j < n)%nat -> Rsum n (fun k => L i k * L j k) = S i j.

(** Expectation of g under N(m, S) in dimension n: for every matrix root L of S. *)
Definition E_mvn (n : nat) (m : nat -> R) (S : nat -> nat -> R) (g : (nat -> R) -> R) (e : R) : Prop :=
  forall L, is_root n L S -> E_std n (fun z => g (mvn_point n m L z)) e.
