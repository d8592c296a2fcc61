(** * Textbook Runge-Kutta methods and the moment / multiplier equations.
    Independent of the model of the code. *)
From Coq Require Import List Reals.
From Verif Require Import Num Arr ArrFacts.
Import ListNotations.
Local Open Scope R_scope.

(** An explicit Runge-Kutta method: for each stage its node c_i and row a_i1 .. a_i(i-1),
    then the weights b_i (a Butcher tableau). *)
Record tableau := mkTab { tab_rows : list (R * list R); tab_b : list R }.

Definition tab_euler := mkTab [(0, [])] [1].
Definition tab_heun := mkTab [(0, []); (1, [1])] [1/2; 1/2].
Definition tab_midpoint := mkTab [(0, []); (1/2, [1/2])] [0; 1].
Definition tab_rk4 :=
  mkTab [(0, []); (1/2, [1/2]); (1/2, [0; 1/2]); (1, [0; 0; 1])] [1/6; 1/3; 1/3; 1/6].

Section RK.
Context {V : Val RNum}.

Fixpoint lincomb (a : list R) (k : list V) : V :=
  match a, k with
  | x :: a', u :: k' => vadd (vscale (x : RNum) u) (lincomb a' k')
  | _, _ => vzero V
  end.

(** [F theta y]: the right-hand side at relative position theta in [0,1] of the step. *)
Fixpoint rk_stages (F : R -> V -> V) (h : R) (y : V) (rows : list (R * list R)) (ks : list V)
  : list V :=
  match rows with
  | [] => ks
  | (c, a) :: r => rk_stages F h y r (ks ++ [F c (vadd y (vscale (h : RNum) (lincomb a ks)))])
  end.

Definition rk_step (T : tableau) (F : R -> V -> V) (h : R) (y : V) : V :=
  vadd y (vscale (h : RNum) (lincomb (tab_b T) (rk_stages F h y (tab_rows T) []))).

(** The integral of a cost density C along the step, by the same scheme: the stages are visited at the
    states Y_i = y + h (a_i1 k_1 + ...), and the integral is h (b_1 C(c_1, Y_1) + ...).  This is what the
    scheme gives for J when dJ/dt = C(t, y) is added to the equations. *)
Fixpoint rk_visited (F : R -> V -> V) (h : R) (y : V) (rows : list (R * list R)) (ks : list V) : list (R * V) :=
  match rows with
  | [] => []
  | (c, a) :: r => let Y := vadd y (vscale (h : RNum) (lincomb a ks)) in
                   (c, Y) :: rk_visited F h y r (ks ++ [F c Y])
  end.
Definition rk_integral (T : tableau) (F : R -> V -> V) (C : R -> V -> R) (h : R) (y : V) : R :=
  h * fold_right (fun '(b, (c, Y)) r => b * C c Y + r) 0 (combine (tab_b T) (rk_visited F h y (tab_rows T) [])).

(** Coefficients known at the two ends of a step, linear in between. *)
Definition interp (theta : R) (u v : V) : V :=
  vadd (vscale ((1 - theta) : RNum) u) (vscale (theta : RNum) v).
End RK.

(** dm/dt = - A m + b,   dS/dt = - A S - S A' + Sigma *)
Definition mean_rhs1 (a b m : R) : R := - a * m + b.
Definition mean_rhsn (d : nat) (A : Rmat) (b m : Rvec) : Rvec :=
  fun i => - rsum d (fun k => A i k * m k) + b i.
Definition cov_rhs1 (a sigma s : R) : R := - 2 * a * s + sigma.
Definition cov_rhsn (d : nat) (A Sigma S_ : Rmat) : Rmat :=
  fun i j => - rsum d (fun k => A i k * S_ k j) - rsum d (fun k => S_ i k * A j k) + Sigma i j.

(** d lam/dt = - dE/dm + A' lam,   d psi/dt = - dE/dS + psi A + A' psi *)
Definition lam_rhs1 (g a l : R) : R := - g + a * l.
Definition lam_rhsn (d : nat) (g : Rvec) (A : Rmat) (l : Rvec) : Rvec :=
  fun i => - g i + rsum d (fun k => A k i * l k).
Definition psi_rhs1 (g a p : R) : R := - g + 2 * a * p.
Definition psi_rhsn (d : nat) (g A p : Rmat) : Rmat :=
  fun i j => - g i j + rsum d (fun k => p i k * A k j) + rsum d (fun k => A k i * p k j).

(** ** Solver names, compared up to letter case *)
From Coq Require Import String Ascii.
Definition letter_variant (c c' : ascii) : Prop :=
  c = c' \/
  (exists k, (k < 26)%nat /\
    ((nat_of_ascii c = 65 + k /\ nat_of_ascii c' = 97 + k) \/
     (nat_of_ascii c' = 65 + k /\ nat_of_ascii c = 97 + k)))%nat.
Fixpoint same_up_to_case (s s' : string) : Prop :=
  match s, s' with
  | EmptyString, EmptyString => True
  | String c t, String c' t' => letter_variant c c' /\ same_up_to_case t t'
  | _, _ => False
  end.
