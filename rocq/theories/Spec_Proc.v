(** * Independent specifications for the stochastic processes. *)
From Coq Require Import ZArith Reals List Arith.
From Verif Require Import Spec_Utils Spec_Gauss Spec_GaussN.
From Verif Require Num M_Proc.
Import ListNotations.
Local Open Scope R_scope.

(** n points t0, t0 + dt, ..., t0 + (n-1) dt *)
Definition uniform_grid (t0 dt : R) (n : nat) (tk : list R) : Prop :=
  length tk = n /\ forall i, (i < n)%nat -> nth i tk 0 = t0 + INR i * dt.
(** the grid of n points is the shortest one that reaches tf *)
Definition reaches (t0 dt tf : R) (n : nat) : Prop :=
  (1 <= n)%nat /\ tf <= t0 + INR (n - 1) * dt /\ forall i, (i < n - 1)%nat -> t0 + INR i * dt < tf.
(** z is the integer part of x *)
Definition int_part (x : R) (z : Z) : Prop := IZR z <= x < IZR z + 1.

(** the density given is the number v; v is not above the integer part of 1 / dt *)
Definition density_is (n_obs : M_Proc.dens Num.RNum) (v : R) : Prop :=
  n_obs = M_Proc.DNum (v : Num.car Num.RNum) \/ exists z, n_obs = M_Proc.DInt z /\ v = IZR z.
(** a density as it is written in a parameter file: an integer, a number with a fraction, true or false *)
Inductive rate := Whole (z : Z) | Frac (x : R) | Flag (b : bool).
Definition rate_val (q : rate) : R := match q with Whole z => IZR z | Frac x => x | Flag b => if b then 1 else 0 end.
Definition rate_dens (q : rate) : M_Proc.dens Num.RNum := match q with Whole z => M_Proc.DInt z | Frac x => M_Proc.DNum (x : Num.car Num.RNum) | Flag b => M_Proc.DInt (if b then 1 else 0)%Z end.
Definition fits_step (v dt : R) : Prop := exists k : Z, v <= IZR k <= 1 / dt.

(** m distinct increasing indexes among 1, ..., n - 1, the i-th being the integer part of
    (i + 1) n / (m + 1) *)
Definition spread (n m : nat) (ts : list nat) : Prop :=
  length ts = m /\
  (forall i j, (i < j < m)%nat -> (nth i ts 0 < nth j ts 0)%nat) /\
  (forall i, (i < m)%nat -> (1 <= nth i ts 0%nat <= n - 1)%nat) /\
  (forall i, (i < m)%nat -> int_part (INR (i + 1) * INR n / INR (m + 1)) (Z.of_nat (nth i ts 0%nat))).

(** x[0] = x0 and x[t] = x[t-1] + f(x[t-1]) dt + noise[t], at every t < n *)
Definition euler_maruyama (f : R -> R) (dt x0 : R) (noise : nat -> R) (n : nat) (x : list R) : Prop :=
  length x = n /\ nth 0 x 0 = x0 /\
  forall t, (1 <= t < n)%nat -> nth t x 0 = nth (t - 1) x 0 + f (nth (t - 1) x 0) * dt + noise t.
Definition vzero0 : nat -> R := fun _ => 0.
Definition euler_maruyama_n (d : nat) (f : (nat -> R) -> nat -> R) (dt : R) (x0 : nat -> R)
  (noise : nat -> nat -> R) (n : nat) (x : list (nat -> R)) : Prop :=
  length x = n /\ nth 0 x vzero0 = x0 /\
  forall t i, (1 <= t < n)%nat -> (i < d)%nat ->
    nth t x vzero0 i = nth (t - 1) x vzero0 i + f (nth (t - 1) x vzero0) i * dt + noise t i.

(** x is the state after k Euler steps of size dt from x0, without noise *)
Definition euler_steps (d : nat) (f : (nat -> R) -> nat -> R) (dt : R) (x0 : nat -> R) (k : nat) (x : nat -> R) : Prop :=
  exists y : nat -> nat -> R, y 0%nat = x0 /\ y k = x /\
    forall j i, (j < k)%nat -> (i < d)%nat -> y (S j) i = y j i + f (y j) i * dt.
(** the increasing list of the places of the entries equal to true *)
Definition selected (mask : list bool) (cols : list nat) : Prop :=
  (forall i j, (i < j < length cols)%nat -> (nth i cols 0 < nth j cols 0)%nat) /\
  forall c, In c cols <-> nth c mask false = true.

(** the mask that is applied: every component when none is given *)
Definition mask_of (d : nat) (h : option (list bool)) : list bool :=
  match h with None | Some [] => repeat true d | Some l => l end.

(** covariance of F z for d independent standard normal z *)
Definition noise_cov (d : nat) (F C : nat -> nat -> R) : Prop :=
  forall i j, (i < d)%nat -> (j < d)%nat ->
    E_std d (fun z => Rsum d (fun k => F i k * z k) * Rsum d (fun k => F j k * z k)) (C i j).
Definition diagonal (d : nat) (A : nat -> nat -> R) : Prop :=
  forall i j, (i < d)%nat -> (j < d)%nat -> i <> j -> A i j = 0.

(** (a + i b) is an eigenvalue of M: M (u + i v) = (a + i b) (u + i v) for some u + i v <> 0 *)
Definition eigen (d : nat) (M : nat -> nat -> R) (z : R * R) : Prop :=
  exists u v : nat -> R,
    (exists i, (i < d)%nat /\ (u i <> 0 \/ v i <> 0)) /\
    forall i, (i < d)%nat ->
      Rsum d (fun k => M i k * u k) = fst z * u i - snd z * v i /\
      Rsum d (fun k => M i k * v k) = snd z * u i + fst z * v i.
(** the list holds the eigenvalues of M and nothing else *)
Definition spectrum (d : nat) (M : nat -> nat -> R) (l : list (R * R)) : Prop :=
  forall z, In z l <-> eigen d M z.
(** y is the inverse of x *)
Definition inverse (d : nat) (x y : nat -> nat -> R) : Prop :=
  is_prod d x y ident /\ is_prod d y x ident.
