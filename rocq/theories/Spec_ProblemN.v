(** * The data-assimilation problem that a set of parameters describes, for the Lorenz models.
    Independent of the model of the code, apart from the abstract random generator and the
    representation of the parameters. *)
From Coq Require Import Reals ZArith List String.
From Verif Require Import Num Arr M_LinAlg M_Proc M_Sim M_SimN Spec_Utils Spec_Gauss Spec_GaussN Spec_Ode Spec_L63 Spec_L96 Spec_L96E
  Spec_Prior Spec_Like Spec_Proc Spec_Sim Spec_SimN.
Import ListNotations.
Local Open Scope R_scope.

(** the parameters of the drift: three numbers for Lorenz-63, one forcing for all sites of Lorenz-96 *)
Definition drift_is (k : kindn) (x : parn) (th : nat -> R) : Prop :=
  match k with
  | L63 => exists t, x = PLeaf (NArr t (A1 (K:=RNum) 3 th))
  | L96 => exists v, num_n x v /\ th = (fun _ => v)
  end.
Definition drift_fun (k : kindn) (th : nat -> R) : (nat -> R) -> nat -> R :=
  match k with L63 => f63 (th 0%nat) (th 1%nat) (th 2%nat) | L96 => f96 40 th end.
(** where the system is released before it is observed *)
Definition first_state (k : kindn) (th : nat -> R) : nat -> R :=
  match k with L63 => fun _ => 1 | L96 => fun i => if Nat.eqb i 20 then th i + 1 / 1000 else th i end.
(** the path of the system on n points, with the draws that lead from g to g': 5000 steps without noise, then
    Euler-Maruyama steps with the noise L' z, where L is the Cholesky factor of C dt (see C40) *)
Definition path_n (G : Rng RNum) (k : kindn) (C : nat -> nat -> R) (th : nat -> R) (dt : R) (n : nat) (g g' : r_state G)
  (x : list (nat -> R)) : Prop :=
  let d := dim_n k in
  exists z x0 L, normals G (d * n) g = (z, g') /\
    euler_steps d (drift_fun k th) (1 / 1000) (first_state k th) 5000 x0 /\
    lower_tri d L /\ is_prod d L (transp L) (fun i j => C i j * dt) /\
    euler_maruyama_n d (drift_fun k th) dt x0 (fun t i => Rsum d (fun j => L j i * nth (j * n + t) z 0)) n x.
(** m observations of all components of the path x with noise variances v, and the draws behind them *)
Definition observed_n (G : Rng RNum) (d n m : nat) (v : nat -> R) (x : list (nat -> R)) (g g' : r_state G) (ts : list nat)
  (ys : list (nat -> R)) : Prop :=
  exists z, normals G (d * m) g = (z, g') /\ spread n m ts /\ List.length ys = m /\
    forall i j, (i < m)%nat -> (j < d)%nat ->
      nth i ys zvec j = nth (nth i ts 0%nat) x zvec j + sqrt (v j) * nth (j * m + i) z 0.

(** mt and st solve the moment equations of dx = (- a x + b) dt + C^(1/2) dw with the Runge-Kutta method T
    on n points; the covariance is left open for the midpoint method (see C12) *)
Definition moments_solve_n (d : nat) (T : tableau) (n : nat) (dt : R) (C : nat -> nat -> R) (m0 : nat -> R) (s0 : nat -> nat -> R)
  (a : list (nat -> nat -> R)) (b mt : list (nat -> R)) (st : list (nat -> nat -> R)) : Prop :=
  List.length a = n /\ List.length b = n /\ List.length mt = n /\ List.length st = n /\
  nth 0 mt zvec = m0 /\ nth 0 st zmat = s0 /\
  forall k, (k + 1 < n)%nat ->
    nth (k + 1) mt zvec =
      rk_step (V := vecV RNum) T (fun th m => mean_rhsn d (interp (V:=matV RNum) th (nth k a zmat) (nth (k + 1) a zmat))
                                                 (interp (V:=vecV RNum) th (nth k b zvec) (nth (k + 1) b zvec)) m) dt (nth k mt zvec) /\
    (T <> tab_midpoint ->
     nth (k + 1) st zmat =
       rk_step (V := matV RNum) T (fun th s => cov_rhsn d (interp (V:=matV RNum) th (nth k a zmat) (nth (k + 1) a zmat)) C s) dt (nth k st zmat)).

(** c times the identity *)
Definition times_id (c : R) : nat -> nat -> R := fun i j => if Nat.eqb i j then c else 0.
(** the mismatch of the drifts at one point, weighted with the diagonal of P: its expectation for Lorenz-63, for
    Lorenz-96 the unscented estimate of C50 *)
Definition mismatch_n (k : kindn) (th : nat -> R) (P : nat -> nat -> R) (a : nat -> nat -> R) (b m : nat -> R) (s : nat -> nat -> R)
  (e : R) : Prop :=
  match k with
  | L63 => E_mvn 3 m s (fun x => 1 / 2 * Rsum 3 (fun i => P i i * (drift_fun L63 th x i - glin 3 a b x i) ^ 2)) e
  | L96 => exists L, scaled_root 40 s L /\ e = uavg 40 (hring 40 th P a b m L)
  end.
(** what the code takes for the free energy: the divergence of the initial distribution from the prior, plus
    (d - 1) / (2 tau0) times the square of m0 - mu0 (see C26), the trapezoidal integral of the expected mismatch, and the
    expected negative log-likelihood, which has the variances of the grid points 0, 1, 2 ... where those of the
    observed ones belong (see C28) *)
Definition free_energy_n (k : kindn) (C : nat -> nat -> R) (th : nat -> R) (dt : R) (n : nat) (mu0 tau0 : R) (v : nat -> R)
  (ts : list nat) (ys : list (nat -> R)) (m0 : nat -> R) (a : list (nat -> nat -> R)) (b mt : list (nat -> R))
  (st : list (nat -> nat -> R)) (val : R) : Prop :=
  let d := dim_n k in
  exists P Rn kl eo (e : nat -> R),
    inverse d C P /\ KLn d m0 (times_id (1 / 5)) (fun _ => mu0) (times_id tau0) kl /\
    (forall i j, (i < d)%nat -> (j < d)%nat -> Rn i j = if Nat.eqb i j then v i else 0) /\
    obs_energy_nd d ys ts Rn mt st eo /\
    (forall t, (t < n)%nat -> mismatch_n k th P (nth t a zmat) (nth t b zvec) (nth t mt zvec) (nth t st zmat) (e t)) /\
    val = kl + (INR d - 1) / (2 * tau0) * Rsum d (fun i => (m0 i - mu0) ^ 2) + trap n e dt + eo
          + 1 / 2 * Rsum (List.length ts) (fun j => Rsum d (fun i => (nth j st zmat i i - nth (nth j ts 0%nat) st zmat i i) / v i)).
(** the point where the optimiser starts: a = diag (2 C), and b makes the mean follow the interpolated observations *)
Definition starting_point_n (spline : list R -> list R -> R -> R) (d : nat) (C : nat -> nat -> R) (t0 dt : R) (n : nat)
  (ts : list nat) (ys : list (nat -> R)) (a : list (nat -> nat -> R)) (b : list (nat -> R)) : Prop :=
  let curve := fun k i => spline (map (fun t => t0 + INR t * dt) (0%nat :: ts ++ [(n - 1)%nat])%list)
                 (map (fun y => y i) (nth 0 ys zvec :: ys ++ [last ys zvec])%list) (t0 + INR k * dt) in
  List.length a = n /\ List.length b = n /\
  forall k i, (k < n)%nat -> (i < d)%nat ->
    (forall j, (j < d)%nat -> nth k a zmat i j = if Nat.eqb i j then 2 * C i i else 0) /\
    nth k b zvec i = (if Nat.ltb (k + 1) n then (curve (k + 1)%nat i - curve k i) / dt else 0) + 2 * C i i * curve k i.
(** the moments and the free energy at the variational parameters (a, b) *)
Definition evaluates_n (k : kindn) (T : tableau) (C : nat -> nat -> R) (th : nat -> R) (dt : R) (n : nat) (mu0 tau0 : R) (v : nat -> R)
  (ts : list nat) (ys : list (nat -> R)) (m0 : nat -> R) (a : list (nat -> nat -> R)) (b mt : list (nat -> R))
  (st : list (nat -> nat -> R)) (val : R) : Prop :=
  moments_solve_n (dim_n k) T n dt C m0 (times_id (1 / 5)) a b mt st /\
  free_energy_n k C th dt n mu0 tau0 v ts ys m0 a b mt st val.

(** the result under the name key is the array of these n vectors, or matrices, of d components *)
Definition holds_vecs (out : list (string * oval RNum)) (key : string) (d n : nat) (b : list (nat -> R)) : Prop :=
  exists l : list R, has out key (OArr [n; d] (l : list RNum)) /\ List.length l = (n * d)%nat /\
    forall k i, (k < n)%nat -> (i < d)%nat -> nth (k * d + i) l 0 = nth k b zvec i.
Definition holds_mats (out : list (string * oval RNum)) (key : string) (d n : nat) (a : list (nat -> nat -> R)) : Prop :=
  exists l : list R, has out key (OArr [n; d; d] (l : list RNum)) /\ List.length l = (n * d * d)%nat /\
    forall k i j, (k < n)%nat -> (i < d)%nat -> (j < d)%nat -> nth ((k * d + i) * d + j) l 0 = nth k a zmat i j.
