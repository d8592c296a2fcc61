(** * Model of SCG.check_gradient_function (optim_scg.py:297-343).  Definitions only.

    The printed relative difference and outcome are returned as a pair.  As in M_Scg, the
    gradient is assumed to have as many entries as x. *)
From Coq Require Import ZArith List Bool Arith.
From Verif Require Import Num Arr M_Utils M_Scg.
Import ListNotations.

Section Check.
Context {K : Num} {W : Type}.
Variable f : list K -> W -> result K * W.
Variable df : list K -> bool -> W -> result (list K) * W.
Local Open Scope num_scope.

(** np.linalg.norm of a 1-D array *)
Definition norm2 (v : list K) : K := nsqrt (ldot v v).

(** finite_diff (utilities.py:15-66) with an objective that keeps state and may raise; the
    loop of [M_Utils.fd_loop] *)
Fixpoint fd_run (x : list K) (dim_x i todo : nat) : M (K := K) (W := W) (list K) :=
  match todo with
  | O => ret []
  | S todo' =>
      let e := upd i delta_h (repeat (nZ 0) dim_x) in
      mbind (call_f f (map2 nadd x e)) (fun f_p =>
      mbind (call_f f (map2 nsub x e)) (fun f_m =>
      mbind (fd_run x dim_x (S i) todo') (fun gs =>
      ret (nlit 1 2 * (f_p - f_m) / delta_h :: gs))))
  end.

(** default tol = 1.0e-4 (line 298) *)
Definition check_tol (tol : option K) : K := or_default tol (nlit 1 10000).
(** lines 312-337: relative difference and "PASSED" *)
Definition check_gradient (x : list K) (tol : option K) : M (K := K) (W := W) (K * bool) :=
  mbind (call_df df x true) (fun grad_a =>
  mbind (fd_run x (length x) 0 (length x)) (fun grad_n =>
  let norm_a := norm2 grad_a in
  let norm_n := norm2 grad_n in
  let norm_diff := norm2 (lsub grad_a grad_n) in
  let rel_diff := norm_diff / (norm_a + norm_n) in
  ret (rel_diff, norm_diff / nZ (Z.of_nat (length x)) <=? check_tol tol))).
End Check.
