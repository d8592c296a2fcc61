(** * Convergence on coefficients that vary in time: what the statements say.
    Independent of the model of the code. *)
From Coq Require Import List Reals.
From Coquelicot Require Import Coquelicot.
Import ListNotations.
Local Open Scope R_scope.

(** [f] has [k] derivatives on [0,T]; they and [f] are bounded there. *)
Fixpoint smooth (k : nat) (T : R) (f : R -> R) : Prop :=
  (exists M, forall t, 0 <= t <= T -> Rabs (f t) <= M) /\
  match k with
  | O => True
  | S k' => exists f', (forall t, 0 <= t <= T -> is_derive f t (f' t)) /\ smooth k' T f'
  end.

(** The values of a function of time on the grid 0, dt, 2 dt, .. (n points). *)
Definition grid {A : Type} (dt : R) (n : nat) (f : R -> A) : list A :=
  map (fun k => f (INR k * dt)) (seq 0 n).

(** A solution with jumps, described backwards in time from T: [y0] down to the first jump; a
    jump [(tau, c, y)] adds c at time tau and the solution continues to the left as [y]. *)
Definition piece (A : Type) : Type := (R * A * (R -> A))%type.
(** its value at time t (jumps at t included) *)
Fixpoint with_jumps {A : Type} (y0 : R -> A) (ps : list (piece A)) (t : R) : A :=
  match ps with
  | [] => y0 t
  | (tau, _, y) :: r => if Rle_dec t tau then with_jumps y r t else y0 t
  end.
(** the jump at time t, [z] if there is none *)
Fixpoint jump_at {A : Type} (z : A) (ps : list (piece A)) (t : R) : A :=
  match ps with
  | [] => z
  | (tau, c, _) :: r => if Req_EM_T t tau then c else jump_at z r t
  end.
(** the pieces fit together; [sol u v y] says that y solves the equation on [u,v],
    [glue v u c] that v = u + c *)
Fixpoint fits {A : Type} (sol : R -> R -> (R -> A) -> Prop) (glue : A -> A -> A -> Prop)
    (T : R) (y0 : R -> A) (ps : list (piece A)) : Prop :=
  match ps with
  | [] => sol 0 T y0
  | (tau, c, y) :: r => 0 <= tau < T /\ sol tau T y0 /\ glue (y tau) (y0 tau) c /\ fits sol glue tau y r
  end.
(** every jump is at a grid time *)
Definition on_grid {A : Type} (dt : R) (ps : list (piece A)) : Prop :=
  forall p, In p ps -> exists o, fst (fst p) = INR o * dt.
