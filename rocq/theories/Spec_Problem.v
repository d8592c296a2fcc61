(** * The data-assimilation problem that a set of parameters describes, in one dimension.
    Independent of the model of the code, apart from the abstract random generator. *)
From Coq Require Import Reals ZArith List String.
From Verif Require Import Num Arr M_Proc Spec_Utils Spec_Gauss Spec_Ode Spec_Sde1 Spec_Prior Spec_Like Spec_Proc.
Import ListNotations.
Local Open Scope R_scope.

(** the state of the generator before the first draw: a seed other than zero fixes it *)
Definition starts (G : Rng RNum) (seed : option Z) (h g : r_state G) : Prop :=
  match seed with
  | None => g = h
  | Some z => z = 0%Z /\ g = h \/ z <> 0%Z /\ g = r_seeded G (SeedInt z)
  end.

(** the path of the named system on n points, with the draws that lead from g to g' *)
Definition path_named (G : Rng RNum) (name : string) (sigma theta dt : R) (n : nat) (g g' : r_state G) (x : list R) : Prop :=
  same_up_to_case name "OU" /\
    (exists z, normals G n g = (z, g') /\
      euler_maruyama (f_ou theta) dt 0 (fun t => sqrt (sigma * dt) * nth t z 0) n x) \/
  same_up_to_case name "DW" /\
    (exists u g1 z0 g2 z, r_uniform G g = (u, g1) /\ r_normal G g1 = (z0, g2) /\ normals G n g2 = (z, g') /\
      euler_maruyama (f_dw theta) dt
        ((if Rlt_dec (1 / 2) u then theta else - theta) + sqrt (1 / 2 * sigma * dt) * z0)
        (fun t => sqrt (sigma * dt) * nth t z 0) n x).
(** m observations of the path x with noise variance r, and the draws behind them *)
Definition observed (G : Rng RNum) (n m : nat) (r : R) (x : list R) (g g' : r_state G) (ts : list nat) (ys : list R) : Prop :=
  exists z, normals G m g = (z, g') /\ spread n m ts /\ List.length ys = m /\
    forall i, (i < m)%nat -> nth i ys 0 = nth (nth i ts 0%nat) x 0 + sqrt r * nth i z 0.

(** mt and st solve the moment equations of dx = (- a x + b) dt + sqrt sigma dw with the Runge-Kutta method T
    on n points; the variance is left open for the midpoint method (see C12) *)
Definition moments_solve (T : tableau) (n : nat) (dt sigma m0 s0 : R) (a b mt st : list R) : Prop :=
  List.length a = n /\ List.length b = n /\ List.length mt = n /\ List.length st = n /\
  nth 0 mt 0 = m0 /\ nth 0 st 0 = s0 /\
  forall k, (k + 1 < n)%nat ->
    nth (k + 1) mt 0 =
      rk_step (V := scalV RNum) T (fun th m => mean_rhs1 (interp (V:=scalV RNum) th (nth k a 0) (nth (k + 1) a 0))
                                                 (interp (V:=scalV RNum) th (nth k b 0) (nth (k + 1) b 0)) m) dt (nth k mt 0) /\
    (T <> tab_midpoint ->
     nth (k + 1) st 0 =
       rk_step (V := scalV RNum) T (fun th s => cov_rhs1 (interp (V:=scalV RNum) th (nth k a 0) (nth (k + 1) a 0)) sigma s) dt (nth k st 0)).

(** the Runge-Kutta method of that name *)
Definition tableau_named (name : string) (T : tableau) : Prop :=
  same_up_to_case name "euler" /\ T = tab_euler \/ same_up_to_case name "heun" /\ T = tab_heun \/
  same_up_to_case name "rk2" /\ T = tab_midpoint \/ same_up_to_case name "rk4" /\ T = tab_rk4.

(** the drift of the named system, and what the integral of the code lacks per unit of E[x^6] (see C21) *)
Definition drift_named (name : string) (sigma theta : R) (f : R -> R) (c : R) : Prop :=
  same_up_to_case name "OU" /\ f = f_ou theta /\ c = 0 \/
  same_up_to_case name "DW" /\ f = f_dw theta /\ c = 4 / sigma.
(** what the code takes for the free energy: the divergence of the initial distribution from the prior, short of
    half the logarithm of its variance (see C26), the trapezoidal integral of the expected drift mismatch, short of
    c E[x^6], and the expected negative log-likelihood of the observations *)
Definition free_energy_of (name : string) (sigma theta dt : R) (n : nat) (mu0 tau0 r : R) (ts : list nat) (ys : list R)
  (a b mt st : list R) (v : R) : Prop :=
  exists f c kl eo (e x6 : nat -> R),
    drift_named name sigma theta f c /\ KL1 (nth 0 mt 0) (nth 0 st 0) mu0 tau0 kl /\ obs_energy_1d ys ts r mt st eo /\
    (forall k, (k < n)%nat ->
       E_normal (nth k mt 0) (nth k st 0) (mismatch f sigma (nth k a 0) (nth k b 0)) (e k) /\
       E_normal (nth k mt 0) (nth k st 0) (fun x => x ^ 6) (x6 k)) /\
    v = kl - 1 / 2 * ln (nth 0 st 0) + trap n (fun k => e k - c * x6 k) dt + eo.
(** the point where the optimiser starts: a = 2 sigma, and b interpolates the observations *)
Definition starting_point (spline : list R -> list R -> R -> R) (sigma t0 dt : R) (n : nat) (ts : list nat) (ys : list R)
  (a b : list R) : Prop :=
  List.length a = n /\ List.length b = n /\
  forall k, (k < n)%nat ->
    nth k a 0 = 2 * sigma /\
    nth k b 0 = spline (map (fun i => t0 + INR i * dt) (0%nat :: ts ++ [(n - 1)%nat])%list)
                       (nth 0 ys 0 :: ys ++ [last ys 0])%list (t0 + INR k * dt).
(** the moments and, if the variances are positive, the free energy at the variational parameters (a, b) *)
Definition evaluates (T : tableau) (name : string) (sigma theta dt : R) (n : nat) (mu0 tau0 r : R) (ts : list nat) (ys : list R)
  (m0 s0 : R) (a b mt st : list R) (v : R) : Prop :=
  moments_solve T n dt sigma m0 s0 a b mt st /\
  ((forall i, (i < n)%nat -> 0 < nth i st 0) -> free_energy_of name sigma theta dt n mu0 tau0 r ts ys a b mt st v).
