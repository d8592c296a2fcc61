(** * Model of prior_kl0.py (PriorKL0).  Definitions only. *)
From Coq Require Import ZArith List Bool.
From Verif Require Import Num Arr M_LinAlg.
Import ListNotations.

Section Prior.
Context {K : Num}.
Local Open Scope num_scope.
Variable nln : K -> K.            (* np.log *)

(** prior_kl0.py:46-65 gauss_1d; [mu] and [tau] are self.mu0 and self.tau0 *)
Definition kl0_1d (mu tau m0 s0 : K) : K :=
  let z0 := m0 - mu in
  - nln s0 - nlit 1 2 * (nZ 1 - nln tau) + nlit 1 2 / tau * (npow z0 2 + s0).

(** prior_kl0.py:88 z0.T.dot(z0).  For the 1-D array that Simulation.run passes, .T changes
    nothing and the product is a scalar, which the following sum broadcasts over the matrix;
    for an r x d array it is the d x d product of the transposed array with the array. *)
Definition zz_vec (d : nat) (z : vec K) : mat K := fun _ _ => vdot d z z.
Definition zz_rows (r : nat) (z : mat K) : mat K := fun i j => sumn r (fun k => z k i * z k j).

(** prior_kl0.py:77-91 gauss_nd, given z0.T.dot(z0).  chol_inv of a square matrix is
    [chol_inv_fast]. *)
Definition kl0_nd_zz (d : nat) (tau : mat K) (zz s0 : mat K) : result K :=
  let* (inv_tau0, _) := chol_inv_fast d tau in
  let* (inv_s0, _) := chol_inv_fast d s0 in
  let* ld := log_det_mat nln d (mmul d tau inv_s0) in
  Ok (nlit 1 2 * (ld + sumn d (diagv (mmul d inv_tau0 (msub (madd zz s0) tau))))).
(** prior_kl0.py:67-92 gauss_nd for 1-D arrays m0, mu0 *)
Definition kl0_nd (d : nat) (mu : vec K) (tau : mat K) (m0 : vec K) (s0 : mat K) : result K :=
  kl0_nd_zz d tau (zz_vec d (vsubv m0 mu)) s0.
(** prior_kl0.py:67-92 gauss_nd for r x d arrays m0, mu0 *)
Definition kl0_nd_rows (d r : nat) (mu : mat K) (tau : mat K) (m0 : mat K) (s0 : mat K) : result K :=
  kl0_nd_zz d tau (zz_rows r (msub m0 mu)) s0.

(** prior_kl0.py:115-141 gradients_1d *)
Definition kl0_grad_1d (mu tau m0 s0 lam0 psi0 : K) : K * K :=
  let z0 := m0 - mu in
  (lam0 + z0 / tau, psi0 + nlit 1 2 * (nZ 1 / tau - nZ 1 / s0)).

(** prior_kl0.py:143-175 gradients_nd for 1-D arrays.  np.linalg.solve(tau0, z0) (LU
    decomposition in numpy) is modelled by the product of z0 with the inverse that line 159
    has computed; the system has no other solution (C26_solve). *)
Definition kl0_grad_nd (d : nat) (mu : vec K) (tau : mat K) (m0 : vec K) (s0 : mat K)
  (lam0 : vec K) (psi0 : mat K) : result (vec K * mat K) :=
  let* (inv_tau0, _) := chol_inv_fast d tau in
  let* (inv_s0, _) := chol_inv_fast d s0 in
  let z0 := vsubv m0 mu in
  Ok (vaddv lam0 (mvec d inv_tau0 z0),
      madd psi0 (mscale (nlit 1 2) (msub inv_tau0 inv_s0))).
End Prior.
