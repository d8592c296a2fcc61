(** * Model of src/numerics/utilities.py (except chol_inv, log_det: M_LinAlg.v).
    Definitions only. *)
From Coq Require Import ZArith List Bool Arith.
From Verif Require Import Num Arr M_LinAlg.
Import ListNotations.

(** ** trapezoid, my_trapz (utilities.py:144-201) *)
Section Trapz.
Context {K : Num} {V : Val K}.

(** Python slices y[a:], y[a:b] with 0 <= a, b (clipped at the end of the array). *)
Definition slice_from {A} (a : nat) (l : list A) : list A := skipn a l.
Definition slice {A} (a b : nat) (l : list A) : list A := firstn (b - a) (skipn a l).

(** scipy.integrate.trapezoid(y, dx=dx, axis=0):
    sum over axis 0 of dx * (y[1:] + y[:-1]) / 2.0 (zero for fewer than two samples).
    Simplification: numpy may add the terms in another order. *)
Definition trapezoid (y : list V) (dx : K) : V :=
  fold_left vadd
    (map2 (fun u v => vdivs (vscale dx (vadd u v)) (nZ 2)) (slice_from 1 y) y)
    (vzero V).

(** utilities.py:179-192: the loop over obs_t, accumulating (tot_area, f).  Observation
    indexes are natural numbers (negative indexes are not modelled). *)
Definition trapz_loop (fx : list V) (dx : K) (obs_t : list nat) : V * nat :=
  fold_left (fun acc l =>
               let '(tot_area, f) := acc in
               (vadd tot_area (trapezoid (slice f (l + 1) fx) dx), l))
            obs_t (vzero V, 0).

(** utilities.py:144-201.  [f != fx.shape[0] - 1] is a comparison of integers:
    for an empty fx the right-hand side is -1. *)
Definition my_trapz (fx : list V) (dx : K) (obs_t : option (list nat)) : V :=
  match obs_t with
  | None => trapezoid fx dx
  | Some obs =>
      let '(tot_area, f) := trapz_loop fx dx obs in
      if negb (Z.eqb (Z.of_nat f) (Z.of_nat (length fx) - 1))
      then vadd tot_area (trapezoid (slice_from f fx) dx)
      else tot_area
  end.
End Trapz.

Section Scalar.
Context {K : Num}.
Local Open Scope num_scope.

(** np.minimum / np.maximum of two numbers (nan is not considered: safe_log is compiled
    with fastmath, which assumes there is none). *)
Definition nmin (x y : K) : K := if x <=? y then x else y.
Definition nmax (x y : K) : K := if x <=? y then y else x.

(** ** safe_log (utilities.py:107-142), element-wise; [nln] is np.log *)
Definition safe_log (nln : K -> K) (x : K) : K :=
  nln (nmax (nmin x (nZ (10 ^ 300))) (nlit 1 (10 ^ 300)%positive)).

(** ** finite_diff (utilities.py:15-66)
    [fun] is the objective (with its extra arguments applied); the model also returns the
    list of points at which it is evaluated, in order. *)
Definition delta_h : K := nlit 1 1000000.                        (* line 41 *)
Fixpoint fd_loop (fn : list K -> K) (x : list K) (dim_x i todo : nat) : list K * list (list K) :=
  match todo with
  | O => ([], [])
  | S todo' =>
      let e := upd i delta_h (repeat (nZ 0) dim_x) in             (* lines 44, 49, 61 *)
      let xp := map2 nadd x e in
      let xm := map2 nsub x e in
      let f_p := fn xp in                                          (* line 52 *)
      let f_m := fn xm in                                          (* line 55 *)
      let g := nlit 1 2 * (f_p - f_m) / delta_h in                 (* line 58 *)
      let '(gs, log) := fd_loop fn x dim_x (S i) todo' in
      (g :: gs, xp :: xm :: log)
  end.
Inductive scal_or_vec := Sc (x : K) | Ve (x : list K).
Definition finite_diff (fn : list K -> K) (x : scal_or_vec) : scal_or_vec * list (list K) :=
  let x1 := match x with Sc y => [y] | Ve l => l end in            (* line 32 *)
  let dim_x := length x1 in
  let '(g, log) := fd_loop fn x1 dim_x 0 dim_x in
  (if Nat.eqb dim_x 1 then Sc (nth 0 g (nZ 0)) else Ve g, log).    (* line 65 *)

(** ** ut_approx (utilities.py:239-310)
    [fn] maps the matrix of sigma points (one per row) to the matrix of images, with
    dim_k columns. *)
Definition ut_k (d : nat) : K := nlit 105 100 * nZ (Z.of_nat d).   (* line 271 *)
(** lines 274-280; the try/except *)
Definition ut_root (d : nat) (x_cov : mat K) : result (mat K) :=
  match cholesky d (mscale (nZ (Z.of_nat d) + ut_k d) x_cov) with
  | Ok L => Ok (mtr L)
  | Err LinAlgError =>
      let* L := cholesky d (mhad x_cov meye) in Ok (mtr L)
  | Err e => Err e
  end.
(** lines 282-288 *)
Definition ut_chi (d : nat) (x_bar : vec K) (sPxx : mat K) : mat K :=
  fun r c => if Nat.eqb r 0 then x_bar c
             else if Nat.leb r d then x_bar c + sPxx (r - 1)%nat c
             else x_bar c - sPxx (r - 1 - d)%nat c.
(** lines 289-292 *)
Definition ut_weight (d : nat) : vec K :=
  fun r => let k := ut_k d in
           let dd := nZ (Z.of_nat d) in
           if Nat.eqb r 0 then k / (dd + k) else nZ 1 / (nZ 2 * (dd + k)).
(** lines 296-306 *)
Definition ut_wm (d : nat) : mat K := fun i j => meye i j - ut_weight d j.
Definition ut_Q (d : nat) : mat K :=
  let m := (2 * d + 1)%nat in
  mmul m (mmul m (ut_wm d) (mdiag (ut_weight d))) (mtr (ut_wm d)).
Definition ut_approx (fn : mat K -> mat K) (d : nat) (x_bar : vec K) (x_cov : mat K)
  : result (vec K * mat K) :=
  let* sPxx := ut_root d x_cov in
  let m := (2 * d + 1)%nat in
  let chi := ut_chi d x_bar sPxx in
  let y := fn chi in
  let y_bar := vecm m (ut_weight d) y in
  let y_cov := mmul m (mmul m (mtr y) (ut_Q d)) y in
  Ok (y_bar, y_cov).
End Scalar.
Arguments scal_or_vec K : clear implicits.
