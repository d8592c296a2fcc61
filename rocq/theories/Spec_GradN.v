(** * Objectives built on the Euler paths of mean and covariance in d dimensions.
    Independent of the model of the code. *)
From Coq Require Import Reals Arith List.
From Coq Require Import Sorted.
From Coquelicot Require Import Coquelicot.
From Verif Require Import Spec_Utils Spec_Gauss Spec_GaussN Spec_L63 Spec_VarGP Spec_Prior.
Import ListNotations.
Local Open Scope R_scope.

(** Euler steps of dm/dt = - A m + b and dS/dt = - A S - S A' + C *)
Fixpoint path_mn (d : nat) (dt : R) (a : nat -> nat -> nat -> R) (b : nat -> nat -> R) (m0 : nat -> R) (k : nat) : nat -> R :=
  match k with
  | O => m0
  | S k' => fun i => path_mn d dt a b m0 k' i
      + dt * (- Rsum d (fun j => a k' i j * path_mn d dt a b m0 k' j) + b k' i)
  end.
Fixpoint path_sn (d : nat) (dt : R) (a : nat -> nat -> nat -> R) (C s0 : nat -> nat -> R) (k : nat) : nat -> nat -> R :=
  match k with
  | O => s0
  | S k' => fun i j => path_sn d dt a C s0 k' i j
      + dt * (- Rsum d (fun l => a k' i l * path_sn d dt a C s0 k' l j)
              - Rsum d (fun l => path_sn d dt a C s0 k' i l * a k' j l) + C i j)
  end.
(** what the derivative of the mean path in the direction (ua, ub) would be if its linear part
    were the transpose of a; m is the mean path itself *)
Fixpoint transposed_dm (d : nat) (dt : R) (a : nat -> nat -> nat -> R) (m : nat -> nat -> R)
    (ua : nat -> nat -> nat -> R) (ub : nat -> nat -> R) (k : nat) : nat -> R :=
  match k with
  | O => fun _ => 0
  | S k' => fun i => transposed_dm d dt a m ua ub k' i
      + dt * (- Rsum d (fun j => a k' j i * transposed_dm d dt a m ua ub k' j)
              - Rsum d (fun j => ua k' i j * m k' j) + ub k' i)
  end.

(** the flat vector: first the matrices a, then the vectors b, each in row-major order *)
Definition part_a (d : nat) (x : nat -> R) (k i j : nat) : R := x ((k * d + i) * d + j)%nat.
Definition part_b (n d : nat) (x : nat -> R) (k i : nat) : R := x (n * d * d + k * d + i)%nat.
Definition entry (x : list R) (q : nat) : R := nth q x 0.
(** x moved by h in the direction u *)
Definition moved (x : list R) (u : nat -> R) (h : R) : list R :=
  map (fun q => nth q x 0 + h * u q) (seq 0 (length x)).

(** inner products of vectors, of matrices, and below the diagonal only *)
Definition dot (d : nat) (u v : nat -> R) : R := Rsum d (fun i => u i * v i).
Definition dots (d : nat) (A B : nat -> nat -> R) : R := Rsum d (fun i => Rsum d (fun j => A i j * B i j)).
Definition dot_below (d : nat) (A B : nat -> nat -> R) : R := Rsum d (fun i => Rsum i (fun j => A i j * B i j)).

(** the d-dimensional version of [rect_objective] (Spec_VarGP) *)
Definition rect_objective_n (d : nat) (e : (nat -> nat -> R) -> (nat -> R) -> (nat -> R) -> (nat -> nat -> R) -> R)
    (n : nat) (dt : R) (C : nat -> nat -> R) (m0 : nat -> R) (s0 : nat -> nat -> R)
    (om : nat -> nat -> R) (os a : nat -> nat -> nat -> R) (b : nat -> nat -> R) : R :=
  let m := path_mn d dt a b m0 in
  let s := path_sn d dt a C s0 in
  dt * Rsum n (fun k => e (a k) (b k) (m k) (s k)) +
  Rsum (n - 1) (fun k => dot d (om k) (m (k + 1)%nat) + dots d (os k) (s (k + 1)%nat)).

(** a problem with n grid points in dimension d: symmetric noise C, proper initial, prior and
    observation covariances s0, tau and Rn, ordered distinct observation indexes t inside the
    grid, and a flat vector x of the right length; s0 and tau commute (otherwise the energy of
    the initial state is not the right number, see C26, or there is none) *)
Definition well_posed (n d : nat) (C s0 tau Rn : nat -> nat -> R) (y : list (nat -> R)) (t : list nat) (x : list R) : Prop :=
  (0 < n)%nat /\ symm d C /\ symm d s0 /\ posdef d s0 /\ symm d tau /\ posdef d tau /\ commute d s0 tau /\
  symm d Rn /\ posdef d Rn /\ length y = length t /\ List.Forall (fun i => (i < n)%nat) t /\ NoDup t /\ Sorted le t /\
  length x = (n * d * (d + 1))%nat.
(** the matrix P has no entries off the diagonal *)
Definition diag_only (d : nat) (P : nat -> nat -> R) : Prop :=
  forall i j, (i < d)%nat -> (j < d)%nat -> i <> j -> P i j = 0.
(** the direction that moves only the entry q of the flat vector *)
Definition unit_at (q : nat) : nat -> R := fun p => if Nat.eqb p q then 1 else 0.
(** what the observations y at the times t (noise inverse Ri) contribute to the derivatives of
    the objective in the mean and the covariance at each grid point, at the means m *)
Definition obs_slopes (d : nat) (Ri : nat -> nat -> R) (y : list (nat -> R)) (t : list nat) (m : nat -> nat -> R)
    (gm : nat -> nat -> R) (gs : nat -> nat -> nat -> R) : Prop :=
  (forall j, (j < length t)%nat ->
     (forall i, (i < d)%nat -> gm (nth j t O) i = - Rsum d (fun l => Ri i l * (nth j y (fun _ => 0) l - m (nth j t O) l))) /\
     (forall i l, (i < d)%nat -> (l < d)%nat -> gs (nth j t O) i l = 1 / 2 * Ri i l)) /\
  (forall k, ~ In k t -> (forall i, gm k i = 0) /\ (forall i l, gs k i l = 0)).

(** e is the expected mismatch, em its derivative in the mean, es its derivative in the
    covariance, where an entry off the diagonal is moved together with its mirror image *)
Definition energy63 (th : nat -> R) (P : nat -> nat -> R) (e : (nat -> nat -> R) -> (nat -> R) -> (nat -> R) -> (nat -> nat -> R) -> R)
    (em : (nat -> nat -> R) -> (nat -> R) -> (nat -> R) -> (nat -> nat -> R) -> nat -> R)
    (es : (nat -> nat -> R) -> (nat -> R) -> (nat -> R) -> (nat -> nat -> R) -> nat -> nat -> R) : Prop :=
  (forall A b m S, symm 3 S -> E_mvn 3 m S (mismatch_n 3 P (f63 (th 0%nat) (th 1%nat) (th 2%nat)) (glin 3 A b)) (e A b m S)) /\
  (forall A b m S i, (i < 3)%nat -> is_derive (fun t => e A b (vset i t m) S) (m i) (em A b m S i)) /\
  (forall A b m S i j, (i < 3)%nat -> (j < 3)%nat -> symm 3 S -> is_derive (fun t => e A b m (sset i j t S)) (S i j) (es A b m S i j)).
(** the flat vector of two points in dimension 3 with a = 0 and b = 0 except b_1 = (v, 0, 0) *)
Definition x0 (v : R) : list R := (repeat 0 21 ++ [v; 0; 0])%list.
(** the parameters 1, 0, 0 *)
Definition th100 (i : nat) : R := match i with O => 1 | _ => 0 end.
