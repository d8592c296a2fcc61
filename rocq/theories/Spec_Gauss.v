(** * Expectations under a normal distribution, as improper Riemann integrals. *)
From Coq Require Import Reals.
From Coquelicot Require Import Coquelicot.
Local Open Scope R_scope.

(** Density of N(m, v) at x. *)
Definition normal_density (m v x : R) : R :=
  exp (- (x - m) ^ 2 / (2 * v)) / sqrt (2 * PI * v).

(** [E_normal m v g l]: the integral of g against the density over the real line exists
    and equals l. *)
Definition E_normal (m v : R) (g : R -> R) (l : R) : Prop :=
  is_RInt_gen (fun x => g x * normal_density m v x) (Rbar_locally m_infty) (Rbar_locally p_infty) l.
