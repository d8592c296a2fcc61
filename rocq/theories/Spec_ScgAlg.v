(** * The scaled conjugate gradient method, written with the current point, the proposed
    direction and the damping as the only memory.  Independent of the model of the code.
    F is the objective, G its gradient, n the number of variables. *)
From Coq Require Import Reals List Arith.
From Verif Require Import Spec_Utils.
Import ListNotations.
Local Open Scope R_scope.

(** scalar product, sum of the absolute values, a u + b v *)
Definition dotp (u v : list R) : R := Rsum (length u) (fun i => nth i u 0 * nth i v 0).
Definition norm1 (u : list R) : R := Rsum (length u) (fun i => Rabs (nth i u 0)).
Definition comb (a : R) (u : list R) (b : R) (v : list R) : list R :=
  map (fun i => a * nth i u 0 + b * nth i v 0) (seq 0 (length u)).
Definition minus (u : list R) : list R := map Ropp u.

Record place := mkPlace {
  here : list R;        (* current point *)
  plan : list R;        (* proposed direction *)
  damp : R;             (* damping of the curvature *)
  moves : nat;          (* steps accepted so far *)
  before : list R }.    (* the point before the last accepted step *)

Section Alg.
Variables (F : list R -> R) (G : list R -> list R) (n : nat).

Definition start (x0 : list R) : place := mkPlace x0 (minus (G x0)) 1 0 x0.
(** the proposed direction if the objective falls along it, otherwise steepest descent *)
Definition heading (s : place) : list R :=
  if Rle_dec 0 (dotp (plan s) (G (here s))) then minus (G (here s)) else plan s.
Definition slope (s : place) : R := dotp (heading s) (G (here s)).
Definition size2 (s : place) : R := dotp (heading s) (heading s).
(** second derivative along the heading, from the gradient at distance 1/1000 *)
Definition probe (s : place) : R := 1 / 1000 / sqrt (size2 s).
Definition curvature (s : place) : R :=
  dotp (heading s) (comb 1 (G (comb 1 (here s) (probe s) (heading s))) (- 1) (G (here s))) / probe s.
Definition damped (s : place) : R := curvature s + damp s * size2 s.
Definition damp_used (s : place) : R :=
  if Rle_dec (damped s) 0 then damp s - curvature s / size2 s else damp s.
Definition step_length (s : place) : R :=
  - (slope s / (if Rle_dec (damped s) 0 then damp s * size2 s else damped s)).
Definition trial (s : place) : list R := comb 1 (here s) (step_length s) (heading s).
(** the step is accepted if the objective does not grow *)
Definition downhill (s : place) : Prop := F (trial s) <= F (here s).
(** decrease achieved over decrease predicted *)
Definition ratio (s : place) : R := 2 * (F (trial s) - F (here s)) / (step_length s * slope s).
Definition next_damp (s : place) : R :=
  if Rlt_dec (ratio s) (1 / 4) then Rmin (4 * damp_used s) (10 ^ 100)
  else if Rlt_dec (3 / 4) (ratio s) then Rmax (damp_used s / 2) (/ 10 ^ 15) else damp_used s.
(** Polak-Ribiere; steepest descent after every n accepted steps *)
Definition next_plan (s : place) : list R :=
  let g := G (here s) in let g' := G (trial s) in
  if Nat.eqb (Nat.modulo (S (moves s)) n) 0 then minus g'
  else comb (Rmax (dotp g' (comb 1 g (- 1) g') / slope s) 0) (heading s) (- 1) g'.
Definition advance (s : place) : place :=
  if Rle_dec (F (trial s)) (F (here s))
  then mkPlace (trial s) (next_plan s) (next_damp s) (S (moves s)) (here s)
  else mkPlace (here s) (heading s) (next_damp s) (moves s) (before s).
(** the place after j steps *)
Fixpoint place_at (x0 : list R) (j : nat) : place :=
  match j with O => start x0 | S i => advance (place_at x0 i) end.

(** ** reasons to stop *)
Definition stuck (s : place) : Prop := size2 s < 1 / 2 ^ 52.
Definition settled (xtol ftol : R) (s : place) : Prop :=
  (forall i, (i < n)%nat -> Rabs (nth i (trial s) 0 - nth i (here s) 0) <= xtol) /\
  Rabs (F (trial s) - F (here s)) <= ftol.
Definition flat (s : place) : Prop := dotp (G (trial s)) (G (trial s)) <= 1 / 10 ^ 8.
Definition finished (xtol ftol : R) (s : place) : Prop :=
  stuck s \/ downhill s /\ (settled xtol ftol s \/ flat s).

(** a run of at most [nit] iterations ends at [x], having tried [k] steps, in iteration number
    [maxit] *)
Definition scg_ends (nit : nat) (xtol ftol : R) (x0 x : list R) (k maxit : nat) : Prop :=
  (k = nit /\ maxit = nit /\ x = here (place_at x0 k) /\ forall j, (j < nit)%nat -> ~ finished xtol ftol (place_at x0 j)) \/
  (k < nit /\ maxit = S k /\ x = here (place_at x0 k) /\ stuck (place_at x0 k) /\
   forall j, (j < k)%nat -> ~ finished xtol ftol (place_at x0 j))%nat \/
  (exists r, (r < nit)%nat /\ k = S r /\ maxit = S r /\ x = here (place_at x0 (S r)) /\
   ~ stuck (place_at x0 r) /\ finished xtol ftol (place_at x0 r) /\ forall j, (j < r)%nat -> ~ finished xtol ftol (place_at x0 j)).
End Alg.
