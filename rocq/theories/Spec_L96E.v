(** * Independent specification of the unscented estimate of the Lorenz-96 energy. *)
From Coq Require Import Reals Arith List Sorted.
From Verif Require Import Num Arr M_L63 Spec_Utils Spec_L96.
Local Open Scope R_scope.

(** 2 d + 1 points: the mean, and the mean plus and minus the columns of L *)
Definition sig_pt (d : nat) (m : nat -> R) (L : nat -> nat -> R) (r i : nat) : R :=
  match r with
  | O => m i
  | S r' => if Nat.ltb r' d then m i + L i r' else m i - L i (r' - d)%nat
  end.
(** their weights, and weighted averages over the points *)
Definition sig_w (d r : nat) : R := match r with O => 21 / 41 | _ => 10 / (41 * INR d) end.
Definition uavg (d : nat) (f : nat -> R) : R := Rsum (2 * d + 1) (fun r => sig_w d r * f r).
(** L is the lower triangular root of (41/20) d S *)
Definition scaled_root (d : nat) (S L : nat -> nat -> R) : Prop :=
  lower_tri d L /\
  forall i j, (i < d)%nat -> (j < d)%nat -> Rsum d (fun k => L i k * L j k) = 41 / 20 * INR d * S i j.

(** N states of dimension d written behind each other and closed to one ring of N d sites;
    the Lorenz-96 drift on that ring, at site j of state r *)
Definition flat (d : nat) (x : nat -> nat -> R) (p : nat) : R := x (p / d)%nat (p mod d)%nat.
Definition ring_drift (N d : nat) (F : nat -> R) (x : nat -> nat -> R) (r j : nat) : R :=
  f96 (N * d) (fun p => F (p mod d)%nat) (flat d x) (r * d + j).
(** the right one: every state is a ring of its own *)
Definition own_drift (d : nat) (F : nat -> R) (x : nat -> nat -> R) (r j : nat) : R := f96 d F (x r) j.
(** drift minus linear drift -A x + b *)
Definition misfit (d : nat) (A : nat -> nat -> R) (b : nat -> R) (f x : nat -> nat -> R) (r j : nat) : R :=
  f r j + Rsum d (fun k => A j k * x r k) - b j.
(** half the squared misfit of state r, weighted with the diagonal of P *)
Definition hmis (d : nat) (P A : nat -> nat -> R) (b : nat -> R) (f x : nat -> nat -> R) (r : nat) : R :=
  1 / 2 * Rsum d (fun j => P j j * misfit d A b f x r j ^ 2).

(** what is assumed of np.linalg.solve: for symmetric positive definite matrices it returns the
    solution, and its only exception is LinAlgError *)
Definition solver_ok (solve : nat -> (nat -> nat -> R) -> result ((nat -> R) -> nat -> R)) : Prop :=
  (forall d S, symm d S -> posdef d S -> exists f, solve d S = Ok f /\
     forall b i, (i < d)%nat -> Rsum d (fun k => S i k * f b k) = b i) /\
  (forall d S e, solve d S = Err e -> e = LinAlgError).
(** the same at the 2 d + 1 points, with the drift of the one ring *)
Definition hring (d : nat) (F : nat -> R) (P A : nat -> nat -> R) (b m : nat -> R) (L : nat -> nat -> R) (r : nat) : R :=
  hmis d P A b (ring_drift (2 * d + 1) d F (sig_pt d m L)) (sig_pt d m L) r.
(** the first component of what the method returns *)
Definition esde_of (r : result (EnergyN RNum)) : R := match r with Ok e => n_sde e | Err _ => 0 end.
(** well-formed input: arrays of one length, sorted observation indexes, covariances *)
Definition wf96 (d : nat) (A : list (nat -> nat -> R)) (B M : list (nat -> R)) (S : list (nat -> nat -> R))
  (obs : option (list nat)) : Prop :=
  (0 < d)%nat /\ length B = length A /\ length M = length A /\ length S = length A /\
  (forall o, obs = Some o -> Sorted le o) /\
  (forall k, (k < length A)%nat -> symm d (nth k S (fun _ _ => 0)) /\ posdef d (nth k S (fun _ _ => 0))).
