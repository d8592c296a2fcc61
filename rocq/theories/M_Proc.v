(** * Model of stochastic_process.py and of the constructors, setters and trajectories of the four
    dynamical systems.  Definitions only.

    Every method is a function from the object to its result and the object afterwards, also when
    it raises.  Printing is left out.  Parameters of one-dimensional systems are numbers; the
    observation density is an integer. *)
From Coq Require Import ZArith List Bool Arith.
From Verif Require Import Num Arr M_LinAlg M_Utils M_L63 M_L96 M_Like.
Import ListNotations.

(** ** Random numbers.
    A bit generator is a state with the two draws the code uses; how numpy computes them is left
    open.  [r_seeded] is default_rng(SeedSequence(seed)). *)
Inductive pyseed := SeedNone | SeedInt (z : Z) | SeedList (l : list Z).
Record Rng (K : Num) := mkRng {
  r_state : Type;
  r_normal : r_state -> K * r_state;       (* standard_normal() *)
  r_uniform : r_state -> K * r_state;      (* random() *)
  r_seeded : pyseed -> r_state;
}.
Arguments r_state {K} _.
Arguments r_normal {K} _ _.
Arguments r_uniform {K} _ _.
Arguments r_seeded {K} _ _.

(** truth value of the seed, `if r_seed` *)
Definition seed_truthy (s : pyseed) : bool :=
  match s with
  | SeedNone => false
  | SeedInt z => negb (Z.eqb z 0)
  | SeedList l => match l with [] => false | _ => true end
  end.
(** SeedSequence raises ValueError on negative integers *)
Definition seed_valid (s : pyseed) : bool :=
  match s with
  | SeedNone => true
  | SeedInt z => Z.leb 0 z
  | SeedList l => forallb (Z.leb 0) l
  end.
(** stochastic_process.py:21-25; [entropy] is the state that default_rng() would take from the
    operating system at this call *)
Definition make_rng {K} (G : Rng K) (s : pyseed) (entropy : r_state G) : result (r_state G) :=
  if seed_truthy s
  then if seed_valid s then Ok (r_seeded G s) else Err ValueError
  else Ok entropy.

(** standard_normal(n): n draws one after the other *)
Fixpoint normals {K} (G : Rng K) (n : nat) (g : r_state G) : list K * r_state G :=
  match n with
  | O => ([], g)
  | S n' =>
      let '(z, g1) := r_normal G g in
      let '(l, g2) := normals G n' g1 in
      (z :: l, g2)
  end.

(** ** The attributes of StochasticProcess (stochastic_process.py:10-34); X is what one time point
    of a sample path holds *)
Record Base {K : Num} (G : Rng K) (X : Type) := mkBase {
  b_xt : option (list X);
  b_tk : option (list K);
  b_rng : r_state G;
}.
Arguments mkBase {K G X}.
Arguments b_xt {K G X}. Arguments b_tk {K G X}. Arguments b_rng {K G X}.

(** the argument n_obs of collect_obs: a Python integer (true and false count as 1 and 0), a float, or
    something that is no number *)
Inductive dens (K : Num) := DInt (z : Z) | DNum (x : K) | DBad.
Arguments DInt {K}. Arguments DNum {K}. Arguments DBad {K}.

Section Common.
Context {K : Num} (G : Rng K) {X : Type}.
Local Open Scope num_scope.

(** stochastic_process.py:12-35 *)
Definition base_init (s : pyseed) (entropy : r_state G) : result (Base G X) :=
  let* g := make_rng G s entropy in Ok (mkBase None None g).
(** stochastic_process.py:47-73, 75-101 *)
Definition get_path (b : Base G X) : result (list X) :=
  match b_xt b with None => Err NotImplementedError | Some x => Ok x end.
Definition set_path (x : list X) (b : Base G X) : Base G X := mkBase (Some x) (b_tk b) (b_rng b).
Definition get_window (b : Base G X) : result (list K) :=
  match b_tk b with None => Err NotImplementedError | Some t => Ok t end.
Definition set_window (t : list K) (b : Base G X) : Base G X := mkBase (b_xt b) (Some t) (b_rng b).
Definition set_rng (g : r_state G) (b : Base G X) : Base G X := mkBase (b_xt b) (b_tk b) g.
(** stochastic_process.py:103-118 *)
Definition time_step (b : Base G X) : result K :=
  match b_tk b with
  | None => Err NotImplementedError
  | Some (t0 :: t1 :: _) => Ok (nabs (t1 - t0))
  | Some _ => Err IndexError
  end.

(** np.arange(start, stop, step): ceil((stop - start) / step) values.  The first two are start
    and start + step, the others start + i * delta with delta their difference (numpy's fill
    function).  Sizes that do not fit into memory are not modelled. *)
Definition arange_at (start step : K) (i : nat) : K :=
  match i with
  | O => start
  | 1%nat => start + step
  | _ => start + nZ (Z.of_nat i) * ((start + step) - start)
  end.
Definition arange (start stop step : K) : result (list K) :=
  if neqb step (nZ 0) then Err ZeroDivisionError
  else match nceil ((stop - start) / step) with
       | None => Err ValueError
       | Some n => Ok (map (arange_at start step) (seq 0 (Z.to_nat n)))
       end.

(** int(x) for a float: truncation; OverflowError for infinities, ValueError for nan *)
Definition py_int (x : K) : result Z :=
  match (if nZ 0 <=? x then nfloor x else nceil x) with
  | Some z => Ok z
  | None => if neqb x x then Err OverflowError else Err ValueError
  end.
(** int(np.floor(x)) *)
Definition floor_int (x : K) : result Z :=
  match nfloor x with
  | Some z => Ok z
  | None => if neqb x x then Err OverflowError else Err ValueError
  end.

(** sorted(np.unique(l)) *)
Fixpoint uinsert (z : Z) (l : list Z) : list Z :=
  match l with
  | [] => [z]
  | y :: l' => if Z.ltb z y then z :: l else if Z.eqb z y then l else y :: uinsert z l'
  end.
Definition np_unique (l : list Z) : list Z := fold_right uinsert [] l.

(** np.linspace(0, dim_t, num, dtype=int)[k] for 0 < k < num - 1: floor(k * step + 0) with
    step = dim_t / (num - 1).  (numpy takes another formula when step is zero; here dim_t >= 2.) *)
Definition linspace_at (dim_t : nat) (dim_m : Z) (k : nat) : result Z :=
  floor_int (nZ (Z.of_nat k) * (nZ (Z.of_nat dim_t) / nZ (dim_m + 1))).
Fixpoint mapM {A B} (f : A -> result B) (l : list A) : result (list B) :=
  match l with
  | [] => Ok []
  | a :: l' => let* b := f a in let* r := mapM f l' in Ok (b :: r)
  end.

(** stochastic_process.py:160: n_obs > int(1.0 / dt).  Python compares a float with an integer exactly, and
    this integer is the integer part of a float, so nothing is lost by making it one again; what is no number
    has no order. *)
Definition exceeds (n_obs : dens K) (cap : Z) : result bool :=
  match n_obs with DInt n => Ok (Z.ltb cap n) | DNum x => Ok (nZ cap <? x) | DBad => Err TypeError end.
(** the factor of line 166 *)
Definition rate_of (n_obs : dens K) : K := match n_obs with DInt n => nZ n | DNum x => x | DBad => nZ 0 end.
(** stochastic_process.py:155-175: (dim_m, obs_t).  A negative dim_m ends in a ValueError (of
    np.linspace or of standard_normal). *)
Definition obs_indexes (n_obs : dens K) (tk : list K) : result (nat * list nat) :=
  match tk with
  | t0 :: t1 :: _ =>
      let dt := t1 - t0 in
      let* cap := py_int (nZ 1 / dt) in
      let* over := exceeds n_obs cap in
      if over then Err ValueError
      else
        let* dim_m := floor_int (nabs (t0 - last tk t0) * rate_of n_obs) in
        if Z.ltb dim_m 0 then Err ValueError
        else
          let* idx := mapM (linspace_at (length tk) dim_m) (seq 1 (Z.to_nat dim_m)) in
          Ok (Z.to_nat dim_m, map Z.to_nat (np_unique idx))
  | _ => Err IndexError
  end.

(** sample paths: x[0] = x0, x[t] = next x[t-1] ek[t] *)
Fixpoint em_path {Y E} (next : Y -> E -> Y) (x : Y) (ek : list E) : list Y :=
  x :: match ek with [] => [] | e :: ek' => em_path next (next x e) ek' end.
End Common.

(** ** One dimension *)
Record P1 {K : Num} (G : Rng K) := mkP1 {
  p_sigma : K; p_theta : K; p_isig : K; p_base : Base G K }.
Arguments mkP1 {K G}. Arguments p_sigma {K G}. Arguments p_theta {K G}.
Arguments p_isig {K G}. Arguments p_base {K G}.

Section OneD.
Context {K : Num} (G : Rng K).
Local Open Scope num_scope.

(** ornstein_uhlenbeck.py:17-51 *)
Definition ou_init (sigma theta : K) (s : pyseed) (entropy : r_state G) : result (P1 G) :=
  let* b := base_init G s entropy in
  if sigma <=? nZ 0 then Err ValueError
  else if theta <=? nZ 0 then Err ValueError
  else Ok (mkP1 sigma theta (nZ 1 / sigma) b).
(** double_well.py:22-51 *)
Definition dw_init (sigma theta : K) (s : pyseed) (entropy : r_state G) : result (P1 G) :=
  let* b := base_init G s entropy in
  if sigma <=? nZ 0 then Err ValueError
  else Ok (mkP1 sigma theta (nZ 1 / sigma) b).
(** ornstein_uhlenbeck.py:91-110, double_well.py:82-101 *)
Definition set_sigma1 (v : K) (p : P1 G) : result unit * P1 G :=
  if v <=? nZ 0 then (Err ValueError, p)
  else (Ok tt, mkP1 v (p_theta p) (nZ 1 / v) (p_base p)).
(** ornstein_uhlenbeck.py:63-79 *)
Definition ou_set_theta (v : K) (p : P1 G) : result unit * P1 G :=
  if v <=? nZ 0 then (Err ValueError, p)
  else (Ok tt, mkP1 (p_sigma p) v (p_isig p) (p_base p)).
(** double_well.py:62-71 *)
Definition dw_set_theta (v : K) (p : P1 G) : result unit * P1 G :=
  (Ok tt, mkP1 (p_sigma p) v (p_isig p) (p_base p)).
Definition with_base (b : Base G K) (p : P1 G) : P1 G :=
  mkP1 (p_sigma p) (p_theta p) (p_isig p) b.

(** ornstein_uhlenbeck.py:154-155 *)
Definition ou_next (theta mu dt : K) (x e : K) : K := x + theta * (mu - x) * dt + e.
(** ornstein_uhlenbeck.py:122-163 *)
Definition ou_trajectory (t0 tf dt mu : K) (p : P1 G) : result unit * P1 G :=
  match arange t0 (tf + dt) dt with
  | Err e => (Err e, p)
  | Ok tk =>
      let dim_t := length tk in
      if Nat.eqb dim_t 0 then (Err IndexError, p)
      else
        let '(z, g) := normals G dim_t (b_rng (p_base p)) in
        let ek := map (fun u => nsqrt (p_sigma p * dt) * u) z in
        let x := em_path (ou_next (p_theta p) mu dt) mu (tl ek) in
        (Ok tt, with_base (mkBase (Some x) (Some tk) g) p)
  end.

(** double_well.py:154-156 *)
Definition dw_next (theta dt : K) (x e : K) : K := x + nZ 4 * x * (theta - npow x 2) * dt + e.
(** double_well.py:113-163 *)
Definition dw_trajectory (t0 tf dt : K) (p : P1 G) : result unit * P1 G :=
  match arange t0 (tf + dt) dt with
  | Err e => (Err e, p)
  | Ok tk =>
      let dim_t := length tk in
      let '(u, g1) := r_uniform G (b_rng (p_base p)) in
      let p1 := with_base (set_rng G g1 (p_base p)) p in
      if Nat.eqb dim_t 0 then (Err IndexError, p1)
      else
        let x0 := if nlit 1 2 <? u then p_theta p else - p_theta p in
        let '(z0, g2) := r_normal G g1 in
        let x0 := x0 + nsqrt (nlit 1 2 * p_sigma p * dt) * z0 in
        let '(z, g3) := normals G dim_t g2 in
        let ek := map (fun u => nsqrt (p_sigma p * dt) * u) z in
        let x := em_path (dw_next (p_theta p) dt) x0 (tl ek) in
        (Ok tt, with_base (mkBase (Some x) (Some tk) g3) p)
  end.

(** stochastic_process.py:130-230 on a sample path of numbers.  `obs_y[:, h_mask]` on a
    one-dimensional array raises IndexError, so a (non-empty) mask does; rn is broadcast to the
    dim_m draws. *)
Definition noise1 (dim_m : nat) (rn : arr K) : result (nat -> K) :=
  match rn with
  | A0 r => Ok (fun _ => nsqrt r)
  | A1 n v =>
      if Nat.eqb n dim_m then Ok (fun j => nsqrt (v j))
      else if Nat.eqb n 1 then Ok (fun _ => nsqrt (v 0%nat))
      else Err ValueError
  | _ => Err ValueError
  end.
Definition mask_given (h : option (list bool)) : option (list bool) :=
  match h with None | Some [] => None | Some l => Some l end.
Definition collect1 (n_obs : dens K) (rn : arr K) (h : option (list bool)) (b : Base G K)
  : result (list nat * list K * arr K) * Base G K :=
  match b_tk b, b_xt b with
  | Some tk, Some xt =>
      match (let* (dim_m, obs_t) := obs_indexes n_obs tk in
             let* obs_y := take xt obs_t in
             match mask_given h with Some _ => Err IndexError | None => Ok (dim_m, obs_t, obs_y) end) with
      | Err e => (Err e, b)
      | Ok (dim_m, obs_t, obs_y) =>
          let '(z, g) := normals G dim_m (b_rng b) in
          (let* sq := noise1 dim_m rn in
           let* _ := same_len obs_y z in
           Ok (obs_t, map2 nadd obs_y (map2 nmul (map sq (seq 0 dim_m)) z), rn),
           set_rng G g b)
      end
  | _, _ => (Err NotImplementedError, b)
  end.
End OneD.

(** ** n dimensions *)
(** element type of an array given as noise: Python integers make an integer array *)
Inductive dtype := Int64 | Float64.
Record PN {K : Num} (G : Rng K) := mkPN {
  q_dim : nat; q_theta : vec K; q_sigma : mat K; q_isig : mat K; q_base : Base G (vec K) }.
Arguments mkPN {K G}. Arguments q_dim {K G}. Arguments q_theta {K G}. Arguments q_sigma {K G}.
Arguments q_isig {K G}. Arguments q_base {K G}.

Section ND.
Context {K : Num} (G : Rng K).
Local Open Scope num_scope.
(** np.linalg.eigvals of a d x d matrix: complex numbers (real part, imaginary part) *)
Variable eigvals : nat -> mat K -> list (K * K).

(** numpy compares complex numbers lexicographically; with a zero imaginary part this is the
    comparison of the real parts *)
Definition cle0 (z : K * K) : bool :=
  (fst z <? nZ 0) || (neqb (fst z) (nZ 0) && (snd z <=? nZ 0)).
Definition cgt0 (z : K * K) : bool :=
  (nZ 0 <? fst z) || (neqb (fst z) (nZ 0) && (nZ 0 <? snd z)).

(** chol_inv on a d x d matrix (utilities.py:203-237).  numba refuses to compile the Cholesky
    factorisation of an integer array (TypingError, modelled as TypeError). *)
Definition np_chol_inv (t : dtype) (d : nat) (m : mat K) : result (mat K) :=
  match t with
  | Int64 => Err TypeError
  | Float64 => let* (y, _) := chol_inv_fast d m in Ok y
  end.

(** lorenz_63.py:66-88, lorenz_96.py:137-158: the noise matrix.  np.isscalar of an array is False,
    so the first branch is never taken and a scalar (rank 0) falls through to the last one. *)
Definition np_isscalar_of_array (x : arr K) : bool := false.
Definition noise_matrix (d : nat) (sigma : arr K) : result (mat K) :=
  let* (r, c, m) :=
    if np_isscalar_of_array sigma
    then match sigma with A0 x => Ok (d, d, mscale x meye) | _ => Err ValueError end
    else match sigma with
         | A1 n v => Ok (n, n, mdiag v)
         | A2 r c m => Ok (r, c, m)
         | _ => Err ValueError
         end in
  if Nat.eqb r d && Nat.eqb c d then Ok m else Err ValueError.

(** lorenz_63.py:46-100; theta is np.asarray(theta) *)
Definition l63_init (t : dtype) (sigma : arr K) (theta : vec K) (s : pyseed) (entropy : r_state G)
  : result (PN G) :=
  let* b := base_init G s entropy in
  let* m := noise_matrix 3 sigma in
  if existsb cle0 (eigvals 3 m) then Err RuntimeError
  else let* y := np_chol_inv t 3 m in
       Ok (mkPN 3 theta m y b).
(** lorenz_96.py:113-171 *)
Definition l96_init (t : dtype) (sigma : arr K) (theta : vec K) (s : pyseed) (d : nat) (entropy : r_state G)
  : result (PN G) :=
  let* b := base_init G s entropy in
  if Nat.ltb d 10 then Err ValueError
  else
    let* m := noise_matrix d sigma in
    if forallb cgt0 (eigvals d m)
    then let* y := np_chol_inv t d m in Ok (mkPN d theta m y b)
    else Err RuntimeError.

(** lorenz_63.py:133-159, lorenz_96.py:204-228.  The new value is an array; the matrix is stored
    before its inverse is computed. *)
Definition set_sigmaN (t : dtype) (v : arr K) (p : PN G) : result unit * PN G :=
  match v with
  | A2 r c m =>
      if Nat.eqb r (q_dim p) && Nat.eqb c (q_dim p) then
        if forallb cle0 (eigvals (q_dim p) m) then (Err RuntimeError, p)
        else
          let p1 := mkPN (q_dim p) (q_theta p) m (q_isig p) (q_base p) in
          match np_chol_inv t (q_dim p) m with
          | Err e => (Err e, p1)
          | Ok y => (Ok tt, mkPN (q_dim p) (q_theta p) m y (q_base p))
          end
      else (Err ValueError, p)
  | _ => (Err ValueError, p)
  end.
(** lorenz_63.py:111-121, lorenz_96.py:182-192 *)
Definition set_thetaN (v : vec K) (p : PN G) : result unit * PN G :=
  (Ok tt, mkPN (q_dim p) v (q_sigma p) (q_isig p) (q_base p)).
Definition with_baseN (b : Base G (vec K)) (p : PN G) : PN G :=
  mkPN (q_dim p) (q_theta p) (q_sigma p) (q_isig p) b.

(** scipy.linalg.cholesky(a): the upper factor U, with U^T U = a; only the upper triangle of a is
    read *)
Definition scipy_cholesky (d : nat) (a : mat K) : result (mat K) :=
  let* L := cholesky d (mtr a) in Ok (mtr L).
(** lorenz_63.py:207-219, lorenz_96.py:281-293 *)
Definition noise_factor (d : nat) (sigma : mat K) (dt : K) : mat K :=
  match scipy_cholesky d (fun i j => sigma i j * dt) with
  | Ok U => U
  | Err _ => fun i j => nsqrt (meye i j * sigma i j * dt)
  end.
(** ek = factor.dot(rng.standard_normal((d, dim_t))).T: the draws fill the d x dim_t array row by
    row *)
Definition draws_matrix (dim_t : nat) (z : list K) : mat K :=
  fun k t => nth (k * dim_t + t) z (nZ 0).
Definition noise_at (d dim_t : nat) (F : mat K) (z : list K) (t : nat) : vec K :=
  fun i => sumn d (fun k => F i k * draws_matrix dim_t z k t).

(** the common part of lorenz_63.py:189-233 and lorenz_96.py:262-307: [x0] is the start of the
    path, [f] the drift *)
Definition trajectoryN (f : vec K -> vec K) (x0 : vec K) (t0 tf dt : K) (p : PN G) : result unit * PN G :=
  match arange t0 (tf + dt) dt with
  | Err e => (Err e, p)
  | Ok tk =>
      let dim_t := length tk in
      if Nat.eqb dim_t 0 then (Err IndexError, p)
      else
        let d := q_dim p in
        let F := noise_factor d (q_sigma p) dt in
        let '(z, g) := normals G (d * dim_t) (b_rng (q_base p)) in
        let next := fun (x e : vec K) => fun i => x i + f x i * dt + e i in
        let x := em_path next x0 (map (noise_at d dim_t F z) (seq 1 (dim_t - 1))) in
        (Ok tt, with_baseN (mkBase (Some x) (Some tk) g) p)
  end.
(** the burn-in loops, lorenz_63.py:197-203, lorenz_96.py:270-279 *)
Fixpoint burn_in (n : nat) (f : vec K -> vec K) (x : vec K) : vec K :=
  match n with
  | O => x
  | S n' => burn_in n' f (fun i => x i + f x i * nlit 1 1000)
  end.
Definition l63_start (theta : vec K) : vec K := burn_in 5000 (fun x => l63 x theta) (fun _ => nZ 1).
Definition l63_trajectory (t0 tf dt : K) (p : PN G) : result unit * PN G :=
  trajectoryN (fun x => l63 x (q_theta p)) (l63_start (q_theta p)) t0 tf dt p.
(** lorenz_96.py:267-279; int(dim_d / 2.0) is the integer quotient *)
Definition l96_start (d : nat) (theta : vec K) : vec K :=
  let x0 := fun i => theta i * nZ 1 in
  let x1 := fun i => if Nat.eqb i (d / 2) then x0 i + nlit 1 1000 else x0 i in
  burn_in 5000 (fun x => l96 d x theta) x1.
Definition l96_trajectory (t0 tf dt : K) (p : PN G) : result unit * PN G :=
  trajectoryN (fun x => l96 (q_dim p) x (q_theta p)) (l96_start (q_dim p) (q_theta p)) t0 tf dt p.

(** stochastic_process.py:130-230 on a sample path of d-vectors *)
(** obs_y[:, h_mask]: the selected columns; IndexError if the mask has another length *)
Fixpoint positions (k : nat) (l : list bool) : list nat :=
  match l with
  | [] => []
  | b :: l' => if b then k :: positions (S k) l' else positions (S k) l'
  end.
Definition columns (d : nat) (h : option (list bool)) : result (list nat) :=
  match mask_given h with
  | None => Ok (seq 0 d)
  | Some l => if Nat.eqb (length l) d then Ok (positions 0 l) else Err IndexError
  end.
(** lines 190-198 with an obs_y of dim_m rows and one column: adding the dim_m draws broadcasts to
    dim_m x dim_m, which does not fit unless dim_m = 1 *)
Definition noise_col (dim_m : nat) (rn : arr K) : result K :=
  if Nat.eqb dim_m 1 then
    match rn with
    | A0 r => Ok (nsqrt r)
    | A1 1%nat v => Ok (nsqrt (v 0%nat))
    | A2 1%nat 1%nat m => Ok (nsqrt (m 0%nat 0%nat))
    | _ => Err ValueError
    end
  else Err ValueError.
(** lines 202-222: obs_noise (a dim_d x dim_d matrix); np.sqrt of it is element-wise *)
Definition obs_noise (dim_d : nat) (rn : arr K) : result (mat K) :=
  match rn with
  | A0 r => Ok (mscale r meye)
  | A1 n v => if Nat.eqb n dim_d then Ok (mdiag v) else Err ValueError
  | A2 r c m =>
      if (Nat.eqb r dim_d || Nat.eqb r 1) && (Nat.eqb c dim_d || Nat.eqb c 1)
      then Ok (fun i j => m (if Nat.eqb r dim_d then i else 0%nat) (if Nat.eqb c dim_d then j else 0%nat) * meye i j)
      else Err ValueError
  | A3 => Err ValueError
  end.
(** the observations of the columns [cols] *)
Definition collect_cols (n_obs : dens K) (rn : arr K) (cols : result (list nat)) (b : Base G (vec K))
  : result (list nat * list (vec K) * arr K) * Base G (vec K) :=
  match b_tk b, b_xt b with
  | Some tk, Some xt =>
      match (let* (dim_m, obs_t) := obs_indexes n_obs tk in
             let* rows := take xt obs_t in
             let* cols := cols in
             Ok (dim_m, obs_t, cols, map (fun x => fun i => x (nth i cols 0%nat)) rows)) with
      | Err e => (Err e, b)
      | Ok (dim_m, obs_t, cols, obs_y) =>
          let dim_d := length cols in
          if Nat.eqb dim_d 1 then
            let '(z, g) := normals G dim_m (b_rng b) in
            (let* sq := noise_col dim_m rn in
             Ok (obs_t, map2 (fun y u => fun i => y i + sq * u) obs_y z, rn),
             set_rng G g b)
          else
            match obs_noise dim_d rn with
            (* rn * np.eye raises before the draws, the product of the wrong shapes after them *)
            | Err e =>
                (Err e, match rn with
                        | A2 _ _ _ => b
                        | _ => set_rng G (snd (normals G (dim_d * dim_m) (b_rng b))) b
                        end)
            | Ok C =>
                let '(z, g) := normals G (dim_d * dim_m) (b_rng b) in
                let sq := fun i j => nsqrt (C i j) in
                let e := map (noise_at dim_d dim_m sq z) (seq 0 dim_m) in
                (let* _ := same_len obs_y e in
                 Ok (obs_t, map2 (fun y u => fun i => y i + u i) obs_y e, A2 dim_d dim_d C),
                 set_rng G g b)
            end
      end
  | _, _ => (Err NotImplementedError, b)
  end.
Definition collectN (n_obs : dens K) (rn : arr K) (h : option (list bool)) (d : nat) (b : Base G (vec K))
  : result (list nat * list (vec K) * arr K) * Base G (vec K) :=
  collect_cols n_obs rn (columns d h) b.

(** ** lines 181-184 with other values of h_mask than masks *)
(** an index of an axis of length d: negative ones count from the end *)
Definition wrap (d : nat) (z : Z) : result nat :=
  if Z.leb (- Z.of_nat d) z && Z.ltb z (Z.of_nat d) then Ok (Z.to_nat (if Z.ltb z 0 then z + Z.of_nat d else z)%Z)
  else Err IndexError.
Fixpoint wrap_all (d : nat) (l : list Z) : result (list nat) :=
  match l with
  | [] => Ok []
  | z :: l' => let* i := wrap d z in let* r := wrap_all d l' in Ok (i :: r)
  end.
(** obs_y[:, l] for a list of integers: these columns, in this order *)
Definition collect_ints (n_obs : dens K) (rn : arr K) (l : list Z) (d : nat) (b : Base G (vec K)) :=
  collect_cols n_obs rn (wrap_all d l) b.
(** obs_y[:, z] for an integer: numbers instead of rows, as in one dimension *)
Definition collect_one (n_obs : dens K) (rn : arr K) (z : Z) (d : nat) (b : Base G (vec K))
  : result (list nat * list K * arr K) * Base G (vec K) :=
  match b_tk b, b_xt b with
  | Some tk, Some xt =>
      match (let* (dim_m, obs_t) := obs_indexes n_obs tk in
             let* rows := take xt obs_t in
             let* c := wrap d z in
             Ok (dim_m, obs_t, map (fun x => x c) rows)) with
      | Err e => (Err e, b)
      | Ok (dim_m, obs_t, obs_y) =>
          let '(u, g) := normals G dim_m (b_rng b) in
          (let* sq := noise1 dim_m rn in
           let* _ := same_len obs_y u in
           Ok (obs_t, map2 nadd obs_y (map2 nmul (map sq (seq 0 dim_m)) u), rn),
           set_rng G g b)
      end
  | _, _ => (Err NotImplementedError, b)
  end.
(** obs_y[:, ix] for a list of r rows of c integers (c > 0): a matrix of r rows and c columns for each
    observation.  The dim_m rows of the noise are added to the r rows of each matrix, which fits for
    dim_m = r and for dim_m = 1; with c = 1 the dim_m draws are added along the columns. *)
Definition collect_grid (n_obs : dens K) (rn : arr K) (r c : nat) (ix : nat -> nat -> Z) (d : nat) (b : Base G (vec K))
  : result (list nat * list (mat K) * arr K) * Base G (vec K) :=
  match b_tk b, b_xt b with
  | Some tk, Some xt =>
      match (let* (dim_m, obs_t) := obs_indexes n_obs tk in
             let* rows := take xt obs_t in
             let* cols := wrap_all d (flat_map (fun i => map (ix i) (seq 0 c)) (seq 0 r)) in
             Ok (dim_m, obs_t, map (fun x => fun i j => x (nth (i * c + j) cols 0%nat)) rows)) with
      | Err e => (Err e, b)
      | Ok (dim_m, obs_t, obs_y) =>
          if Nat.eqb c 1 then
            let '(z, g) := normals G dim_m (b_rng b) in
            (let* sq := noise_col dim_m rn in
             Ok (obs_t, map2 (fun y u => fun i j => y i j + sq * u) obs_y z, rn),
             set_rng G g b)
          else
            match obs_noise c rn with
            | Err e =>
                (Err e, match rn with
                        | A2 _ _ _ => b
                        | _ => set_rng G (snd (normals G (c * dim_m) (b_rng b))) b
                        end)
            | Ok C =>
                let '(z, g) := normals G (c * dim_m) (b_rng b) in
                let sq := fun i j => nsqrt (C i j) in
                let e := map (noise_at c dim_m sq z) (seq 0 dim_m) in
                (if Nat.eqb dim_m r || Nat.eqb dim_m 1
                 then Ok (obs_t, map (fun y => fun i j => y i j + nth (if Nat.eqb dim_m 1 then 0%nat else i) e (fun _ => nZ 0) j) obs_y, A2 c c C)
                 else Err ValueError,
                 set_rng G g b)
            end
      end
  | _, _ => (Err NotImplementedError, b)
  end.
End ND.

(** ** Histories: a sequence of method calls on one object *)
Inductive call1 (K : Num) :=
| C_sigma (v : K) | C_theta (v : K)
| C_path (x : list K) | C_window (t : list K)
| C_traj (t0 tf dt mu : K)
| C_collect (n_obs : dens K) (rn : arr K) (h : option (list bool)).
Arguments C_sigma {K}. Arguments C_theta {K}. Arguments C_path {K}. Arguments C_window {K}.
Arguments C_traj {K}. Arguments C_collect {K}.
Inductive kind1 := OU | DW.
(** what a call returns: nothing, or observations *)
Inductive reply (K : Num) (Y : Type) :=
| Done
| Obs (t : list nat) (y : list Y) (noise : arr K)
| Raised (e : exn).
Arguments Done {K Y}. Arguments Obs {K Y}. Arguments Raised {K Y}.

Section Histories.
Context {K : Num} (G : Rng K).
Definition reply_unit {Y} (r : result unit) : reply K Y := match r with Ok _ => Done | Err e => Raised e end.
Definition step1 (k : kind1) (c : call1 K) (p : P1 G) : reply K K * P1 G :=
  match c with
  | C_sigma v => let '(r, p') := set_sigma1 G v p in (reply_unit r, p')
  | C_theta v => let '(r, p') := match k with OU => ou_set_theta G v p | DW => dw_set_theta G v p end in
                 (reply_unit r, p')
  | C_path x => (Done, with_base G (set_path G x (p_base p)) p)
  | C_window t => (Done, with_base G (set_window G t (p_base p)) p)
  | C_traj t0 tf dt mu =>
      let '(r, p') := match k with OU => ou_trajectory G t0 tf dt mu p | DW => dw_trajectory G t0 tf dt p end in
      (reply_unit r, p')
  | C_collect n rn h =>
      let '(r, b) := collect1 G n rn h (p_base p) in
      (match r with Ok (t, y, nz) => Obs t y nz | Err e => Raised e end, with_base G b p)
  end.
Fixpoint run1 (k : kind1) (cs : list (call1 K)) (p : P1 G) : list (reply K K) * P1 G :=
  match cs with
  | [] => ([], p)
  | c :: cs' =>
      let '(r, p1) := step1 k c p in
      let '(rs, p2) := run1 k cs' p1 in
      (r :: rs, p2)
  end.
Definition init1d (k : kind1) := match k with OU => ou_init G | DW => dw_init G end.

Variable eigvals : nat -> mat K -> list (K * K).
Inductive calln :=
| CN_sigma (t : dtype) (v : arr K) | CN_theta (v : vec K)
| CN_path (x : list (vec K)) | CN_window (t : list K)
| CN_traj (t0 tf dt : K)
| CN_collect (n_obs : dens K) (rn : arr K) (h : option (list bool)).
Inductive kindn := L63 | L96.
Definition stepn (k : kindn) (c : calln) (p : PN G) : reply K (vec K) * PN G :=
  match c with
  | CN_sigma t v => let '(r, p') := set_sigmaN G eigvals t v p in (reply_unit r, p')
  | CN_theta v => let '(r, p') := set_thetaN G v p in (reply_unit r, p')
  | CN_path x => (Done, with_baseN G (set_path G x (q_base p)) p)
  | CN_window t => (Done, with_baseN G (set_window G t (q_base p)) p)
  | CN_traj t0 tf dt =>
      let '(r, p') := match k with L63 => l63_trajectory G t0 tf dt p | L96 => l96_trajectory G t0 tf dt p end in
      (reply_unit r, p')
  | CN_collect n rn h =>
      let '(r, b) := collectN G n rn h (q_dim p) (q_base p) in
      (match r with Ok (t, y, nz) => Obs t y nz | Err e => Raised e end, with_baseN G b p)
  end.
Fixpoint runn (k : kindn) (cs : list calln) (p : PN G) : list (reply K (vec K)) * PN G :=
  match cs with
  | [] => ([], p)
  | c :: cs' =>
      let '(r, p1) := stepn k c p in
      let '(rs, p2) := runn k cs' p1 in
      (r :: rs, p2)
  end.
(** [d] is the argument dim_d of Lorenz96 *)
Definition initnd (k : kindn) (t : dtype) (sigma : arr K) (theta : vec K) (s : pyseed) (d : nat) (e : r_state G)
  : result (PN G) :=
  match k with
  | L63 => l63_init G eigvals t sigma theta s e
  | L96 => l96_init G eigvals t sigma theta s d e
  end.
End Histories.
