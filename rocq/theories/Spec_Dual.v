(** * Inner products of vectors and of matrices.  Independent of the model of the code. *)
From Coq Require Import List Reals.
From Verif Require Import Num Arr ArrFacts Spec_Ode.
Import ListNotations.
Local Open Scope R_scope.

(** u . v *)
Definition dotp (d : nat) (u v : Rvec) : R := rsum d (fun i => u i * v i).
(** sum of the products of corresponding entries, trace (A' B) *)
Definition frobp (d : nat) (A B : Rmat) : R := rsum d (fun i => rsum d (fun j => A i j * B i j)).
(** difference of two vectors, of two matrices *)
Definition vdiff (u v : Rvec) : Rvec := fun i => u i - v i.
Definition mdiff (A B : Rmat) : Rmat := fun i j => A i j - B i j.
(** entry k of a list of vectors, of matrices *)
Definition atv (l : list Rvec) (k : nat) : Rvec := nth k l (fun _ => 0).
Definition atm (l : list Rmat) (k : nat) : Rmat := nth k l (fun _ _ => 0).
Definition symmetric (d : nat) (A : Rmat) : Prop := forall i j, (i < d)%nat -> (j < d)%nat -> A i j = A j i.

(** the running cost g . m of the step from grid point k, integrated by the scheme T that also integrates
    the moments; everything is linear between the grid points *)
Definition mean_cost1 (T : tableau) (A b g : list R) (dt : R) (k : nat) (m : R) : R :=
  let at_ th l := interp (V := scalV RNum) th (nth k l 0) (nth (k + 1) l 0) in
  rk_integral (V := scalV RNum) T (fun th x => mean_rhs1 (at_ th A) (at_ th b) x) (fun th x => at_ th g * x) dt m.
Definition cov_cost1 (T : tableau) (A g : list R) (sigma dt : R) (k : nat) (s : R) : R :=
  let at_ th l := interp (V := scalV RNum) th (nth k l 0) (nth (k + 1) l 0) in
  rk_integral (V := scalV RNum) T (fun th x => cov_rhs1 (at_ th A) sigma x) (fun th x => at_ th g * x) dt s.
Definition mean_costn (d : nat) (T : tableau) (A : list Rmat) (b g : list Rvec) (dt : R) (k : nat) (m : Rvec) : R :=
  let atv_ th l := interp (V := vecV RNum) th (atv l k) (atv l (k + 1)) in
  let atm_ th l := interp (V := matV RNum) th (atm l k) (atm l (k + 1)) in
  rk_integral (V := vecV RNum) T (fun th x => mean_rhsn d (atm_ th A) (atv_ th b) x) (fun th x => dotp d (atv_ th g) x) dt m.
Definition cov_costn (d : nat) (T : tableau) (A g : list Rmat) (sigma : Rmat) (dt : R) (k : nat) (s : Rmat) : R :=
  let atm_ th l := interp (V := matV RNum) th (atm l k) (atm l (k + 1)) in
  rk_integral (V := matV RNum) T (fun th x => cov_rhsn d (atm_ th A) sigma x) (fun th x => frobp d (atm_ th g) x) dt s.
