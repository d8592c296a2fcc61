(** * Model of variational.py (VarGP) and of the unpacking in simulation.py.  Definitions only.

    The class is written once over a record [Env] that holds what its attributes (model,
    likelihood, kl0, fwd_ode, bwd_ode) do when called; [vgp1] and [vgpn] build the record for
    one-dimensional models (model.single_dim = True, dim_d = 1) and n-dimensional ones
    (single_dim = False, dim_d <> 1). *)
From Coq Require Import ZArith List Bool Arith.
From Verif Require Import Num Arr M_LinAlg M_Utils M_Ode M_Sde1 M_L63 M_Prior M_Like.
Import ListNotations.

Record Env (K : Num) := mkEnv {
  v_sys : Sys K;
  v_n : nat;                                            (* self.dim_n *)
  v_dt : K;                                             (* self.dt *)
  v_m0 : VM v_sys; v_s0 : VS v_sys;                     (* self.output["m0"], ["s0"] *)
  v_sigma : VS v_sys; v_isig : VS v_sys;                (* model.sigma, model.inverse_sigma *)
  v_unpack : list K -> result (list (VS v_sys) * list (VM v_sys));
  v_pack : list (VS v_sys) -> list (VM v_sys) -> list K;
  v_fwd : list (VS v_sys) -> list (VM v_sys) -> VM v_sys -> VS v_sys -> VS v_sys ->
          result (list (VM v_sys) * list (VS v_sys));
  v_like : list (VM v_sys) -> list (VS v_sys) -> result K;
  v_energy : list (VS v_sys) -> list (VM v_sys) -> list (VM v_sys) -> list (VS v_sys) ->
             result (K * (list (VM v_sys) * list (VS v_sys)) * (list (VM v_sys) * list (VS v_sys)));
  v_like_grad : list (VM v_sys) -> list (VS v_sys) -> result (list (VM v_sys) * list (VS v_sys));
  v_bwd : list (VS v_sys) -> list (VM v_sys) -> list (VS v_sys) -> list (VM v_sys) -> list (VS v_sys) ->
          result (list (VM v_sys) * list (VS v_sys));
  v_kl0 : VM v_sys -> VS v_sys -> result K;
  v_db : VS v_sys -> VM v_sys -> VM v_sys -> VS v_sys -> VM v_sys -> VM v_sys;
  v_da : VS v_sys -> VS v_sys -> VM v_sys -> VS v_sys -> VS v_sys -> VM v_sys -> VS v_sys;
  v_ga : VS v_sys -> VM v_sys -> VM v_sys -> VS v_sys -> VS v_sys -> VS v_sys;
}.
Arguments mkEnv {K} v_sys.
Arguments v_sys {K} e. Arguments v_n {K} e. Arguments v_dt {K} e.
Arguments v_m0 {K} e. Arguments v_s0 {K} e. Arguments v_sigma {K} e. Arguments v_isig {K} e.
Arguments v_unpack {K} e x. Arguments v_pack {K} e a b.
Arguments v_fwd {K} e _ _ _ _ _. Arguments v_like {K} e _ _. Arguments v_energy {K} e _ _ _ _.
Arguments v_like_grad {K} e _ _. Arguments v_bwd {K} e _ _ _ _ _. Arguments v_kl0 {K} e _ _.
Arguments v_db {K} e _ _ _ _ _. Arguments v_da {K} e _ _ _ _ _ _. Arguments v_ga {K} e _ _ _ _ _.

Section VarGP.
Context {K : Num} (E : Env K).
Local Open Scope num_scope.
Local Open Scope val_scope.
Notation M := (VM (v_sys E)).
Notation S_ := (VS (v_sys E)).

(** The entries that free_energy adds to self.output (lines 187-196); "m0" and "s0" are
    never reassigned. *)
Record Out := mkOut {
  o_mt : list M; o_st : list S_; o_Efx : list M; o_Edf : list S_; o_lam : list M; o_psi : list S_ }.
(** None: free_energy has not completed yet, so the keys do not exist. *)
Definition state := option Out.

(** lines 141-200: everything free_energy computes *)
Definition fe_core (x : list K) : result (K * Out) :=
  let* (linear_a, offset_b) := v_unpack E x in
  let* (mt, st) := v_fwd E linear_a offset_b (v_m0 E) (v_s0 E) (v_sigma E) in
  let* Eobs := v_like E mt st in
  let* (en, dE) := v_energy E linear_a offset_b mt st in
  let '(Esde, (Efx, Edf)) := en in
  let '(dEsde_dm, dEsde_ds) := dE in
  let* (dEobs_dm, dEobs_ds) := v_like_grad E mt st in
  let* (lamt, psit) := v_bwd E linear_a dEsde_dm dEsde_ds dEobs_dm dEobs_ds in
  let* E0 := v_kl0 E (v_m0 E) (v_s0 E) in
  Ok ((E0 + Esde + Eobs)%num, mkOut mt st Efx Edf lamt psit).
(** the output dictionary is written after everything that can raise *)
Definition free_energy (x : list K) (s : state) : result K * state :=
  match fe_core x with
  | Ok (v, o) => (Ok v, Some o)
  | Err e => (Err e, s)
  end.

(** lines 266-283: the loop body at time k *)
Definition gm_ := gm (v_sys E).
Definition ga_ := ga (v_sys E).
Definition grad_at (at_ : list S_) (bt : list M) (o : Out) (k : nat) : S_ * M :=
  let ak := ga_ at_ k in
  let sk := ga_ (o_st o) k in
  let mk := gm_ (o_mt o) k in
  let lamk := gm_ (o_lam o) k in
  let dEsde_dbt := v_db E (v_isig E) (gm_ (o_Efx o) k) mk ak (gm_ bt k) in
  let dEsde_dat := v_da E (v_isig E) ak mk sk (ga_ (o_Edf o) k) dEsde_dbt in
  (v_ga E dEsde_dat lamk mk (ga_ (o_psi o) k) sk, dEsde_dbt +v lamk).
(** every array is read at 0 .. dim_n - 1 *)
Definition grad_reads_ok (at_ : list S_) (bt : list M) (o : Out) : bool :=
  forallb (fun l => Nat.leb (v_n E) l)
    [length at_; length bt; length (o_mt o); length (o_st o); length (o_Efx o);
     length (o_Edf o); length (o_lam o); length (o_psi o)].
(** lines 227-289 (after the optional call of free_energy) *)
Definition grad_core (x : list K) (s : state) : result (list K) :=
  let* (at_, bt) := v_unpack E x in
  match s with
  | None => Err KeyError
  | Some o =>
      if grad_reads_ok at_ bt o then
        let gs := map (grad_at at_ bt o) (seq 0 (v_n E)) in
        Ok (v_pack E (map (fun g => v_dt E *v fst g) gs) (map (fun g => v_dt E *v snd g) gs))
      else Err IndexError
  end.
(** lines 202-289 *)
Definition gradient (x : list K) (eval_fun : bool) (s : state) : result (list K) * state :=
  if eval_fun then
    match free_energy x s with
    | (Err e, s') => (Err e, s')
    | (Ok _, s') => (grad_core x s', s')
    end
  else (grad_core x s, s).
End VarGP.
Arguments mkOut {K E}.
Arguments o_mt {K E}. Arguments o_st {K E}. Arguments o_Efx {K E}.
Arguments o_Edf {K E}. Arguments o_lam {K E}. Arguments o_psi {K E}.

(** ** Layout of the flat vector *)
Section Pack.
Context {K : Num}.
Local Open Scope num_scope.

(** lines 154-155, 229-230, dim_d = 1: x[:dim_tot], x[dim_tot:] *)
Definition unpack1 (n : nat) (x : list K) : list K * list K :=
  let dim_tot := (n * 1 * 1)%nat in (firstn dim_tot x, skipn dim_tot x).
(** lines 138, 289: np.concatenate((a.ravel(), b.ravel())) *)
Definition pack1 (a b : list K) : list K := a ++ b.

(** a.ravel() of n x d and n x d x d arrays *)
Definition ravel2 (d : nat) (b : list (vec K)) : list K :=
  flat_map (fun v => map v (seq 0 d)) b.
Definition ravel3 (d : nat) (a : list (mat K)) : list K :=
  flat_map (fun A => flat_map (fun i => map (A i) (seq 0 d)) (seq 0 d)) a.
Definition packn (d : nat) (a : list (mat K)) (b : list (vec K)) : list K := ravel3 d a ++ ravel2 d b.
(** x.reshape(n, d) and x.reshape(n, d, d): row-major; ValueError if the size differs *)
Definition reshape2 (n d : nat) (x : list K) : result (list (vec K)) :=
  if Nat.eqb (length x) (n * d)
  then Ok (map (fun k => fun i => nth (k * d + i) x (nZ 0)) (seq 0 n))
  else Err ValueError.
Definition reshape3 (n d : nat) (x : list K) : result (list (mat K)) :=
  if Nat.eqb (length x) (n * d * d)
  then Ok (map (fun k => fun i j => nth ((k * d + i) * d + j) x (nZ 0)) (seq 0 n))
  else Err ValueError.
(** lines 158-160, 237-238 *)
Definition unpackn (n d : nat) (x : list K) : result (list (mat K) * list (vec K)) :=
  let dim_tot := (n * d * d)%nat in
  let* a := reshape3 n d (firstn dim_tot x) in
  let* b := reshape2 n d (skipn dim_tot x) in
  Ok (a, b).

(** simulation.py:246-247: x[:dim_n], x[dim_n:] *)
Definition sim_unpack1 (dim_n : nat) (x : list K) : list K * list K :=
  (firstn dim_n x, skipn dim_n x).
(** simulation.py:250-257 *)
Definition sim_unpackn (dim_n dim_d : nat) (x : list K) : result (list (mat K) * list (vec K)) :=
  let dim_tot := (dim_n * dim_d * dim_d)%nat in
  let* a := reshape3 dim_n dim_d (firstn dim_tot x) in
  let* b := reshape2 dim_n dim_d (skipn dim_tot x) in
  Ok (a, b).
End Pack.

(** ** One dimension *)
Section One.
Context {K : Num}.
Local Open Scope num_scope.
(** _dEsde_db, _dEsde_da, _grad_at (lines 300-334), single_dim branches *)
Definition dEsde_db1 (inv_sigma Efx mt at_ bt : K) : K := inv_sigma * (- Efx - at_ * mt + bt).
Definition dEsde_da1 (inv_sigma at_ mt st Edf dEsde_dbt : K) : K :=
  inv_sigma * (Edf + at_) * st - dEsde_dbt * mt.
Definition grad_at1 (dEsde_dak lamk mk psik sk : K) : K :=
  dEsde_dak - lamk * mk - nZ 2 * psik * sk.

(** one-dimensional models: energy(linear_a, offset_b, m, s, obs_t) of the class *)
Definition sde1 := list K -> list K -> list K -> list K -> option (list nat) -> Energy1 K.

(** VarGP with a one-dimensional model; [obs_y], [obs_t], [noise], [H] are those of the
    likelihood, [mu], [tau] those of the prior *)
Definition vgp1 (nln : K -> K) (npi : K) (energy : sde1) (mtd : method) (n : nat) (dt sigma isig : K)
  (m0 s0 mu tau : K) (obs_y : list K) (obs_t : list nat) (noise H : K) : Env K :=
  mkEnv (sys1 K) n dt m0 s0 sigma isig
    (fun x => Ok (unpack1 n x)) pack1
    (solve_fwd (sys1 K) mtd dt)
    (like_1d nln npi obs_y obs_t noise)
    (fun a b m s => let e := energy a b m s (Some obs_t) in
                    Ok (e_sde e, (e_f e, e_df e), (e_dm e, e_ds e)))
    (fun m s => let* (g, _) := like_grad_1d obs_y obs_t noise H m s in Ok g)
    (solve_bwd (sys1 K) mtd dt)
    (fun m s => Ok (kl0_1d nln mu tau m s))
    dEsde_db1 dEsde_da1 grad_at1.
End One.

(** ** n dimensions *)
Section Nd.
Context {K : Num}.
Local Open Scope num_scope.
(** _dEsde_db, _dEsde_da, _grad_at (lines 300-334), n-D branches *)
Definition dEsde_dbn (d : nat) (inv_sigma : mat K) (Efx mt : vec K) (at_ : mat K) (bt : vec K) : vec K :=
  mvec d inv_sigma (fun i => - Efx i - mvec d at_ mt i + bt i).
Definition dEsde_dan (d : nat) (inv_sigma at_ : mat K) (mt : vec K) (st Edf : mat K) (dEsde_dbt : vec K) : mat K :=
  msub (mmul d (mmul d inv_sigma (madd Edf at_)) st) (mouter dEsde_dbt mt).
Definition grad_atn (d : nat) (dEsde_dak : mat K) (lamk mk : vec K) (psik sk : mat K) : mat K :=
  msub (msub dEsde_dak (mouter lamk mk)) (mscale (nZ 2) (mmul d psik sk)).

Definition sden := list (mat K) -> list (vec K) -> list (vec K) -> list (mat K) -> option (list nat) ->
                   result (EnergyN K).
Definition vgpn (nln : K -> K) (npi : K) (energy : sden) (mtd : method) (n d : nat) (dt : K) (sigma isig : mat K)
  (m0 : vec K) (s0 : mat K) (mu : vec K) (tau : mat K) (obs_y : list (vec K)) (obs_t : list nat) (noise H : mat K) : Env K :=
  mkEnv (sysn K d) n dt m0 s0 sigma isig
    (unpackn n d) (packn d)
    (solve_fwd (sysn K d) mtd dt)
    (like_nd nln npi d obs_y obs_t noise H)
    (fun a b m s => let* e := energy a b m s (Some obs_t) in
                    Ok (n_sde e, (n_f e, n_df e), (n_dm e, n_ds e)))
    (fun m s => let* (g, _) := like_grad_nd d obs_y obs_t noise H m in Ok g)
    (solve_bwd (sysn K d) mtd dt)
    (fun m s => kl0_nd nln d mu tau m s)
    (dEsde_dbn d) (dEsde_dan d) (grad_atn d).
End Nd.

(** ** initialization (lines 73-139) *)
Section Init.
Context {K : Num}.
Local Open Scope num_scope.
(** scipy.interpolate.CubicSpline(x, z) as a function of x, z and time; which interpolant it
    is plays no part in the theorems *)
Variable spline : list K -> list K -> K -> K.

Fixpoint increasing (l : list K) : bool :=
  match l with
  | x :: ((y :: _) as l') => (x <? y) && increasing l'
  | _ => true
  end.
(** CubicSpline raises ValueError unless there are at least two knots, in strictly increasing
    order, and as many values *)
Definition knots_ok {A} (x : list K) (z : list A) : result unit :=
  if Nat.leb 2 (length x) && Nat.eqb (length x) (length z) && increasing x
  then Ok tt else Err ValueError.

(** [l[0], *mid, l[-1]] for the end points of l *)
Definition ends {A} (l mid : list A) : result (list A) :=
  match l with
  | [] => Err IndexError
  | a :: _ => Ok (a :: mid ++ [last l a])
  end.
(** line 87 *)
Definition time_knots (tw : list K) (obs_t : list nat) : result (list K) :=
  let* o := take tw obs_t in ends tw o.

(** single_dim branch, lines 90-103 and 138; dim_n is the length of the time window *)
Definition init1 (sigma : K) (tw : list K) (obs_t : list nat) (obs_y : list K) : result (list K) :=
  let* time_x := time_knots tw obs_t in
  let* obs_z := ends obs_y obs_y in
  let* _ := knots_ok time_x obs_z in
  let a0 := map (fun _ => nlit 1 2 * (sigma / nlit 1 4) * nZ 1) tw in
  let b0 := map (spline time_x obs_z) tw in
  Ok (pack1 a0 b0).

(** n-D branch, lines 104-138 *)
Definition diag_k (sigma : mat K) : mat K := mdiag (fun i => sigma i i / (nlit 1 4 * nZ 1)).
Definition init_a (sigma : mat K) : mat K := mscale (nlit 1 2) (diag_k sigma).
(** [mt0] is the interpolant on the grid; dmt0[k] = (mt0[k+1] - mt0[k]) / dt *)
Definition init_b (dt : K) (sigma : mat K) (mt0 : list (vec K)) (k : nat) : vec K :=
  let mk := nth k mt0 (fun _ => nZ 0) in
  let mk1 := nth (k + 1) mt0 (fun _ => nZ 0) in
  if Nat.ltb (k + 1) (length mt0)
  then fun i => (mk1 i - mk i) / dt + init_a sigma i i * mk i
  else fun i => init_a sigma i i * mk i.
Definition interp (time_x : list K) (obs_z : list (vec K)) (t : K) : vec K :=
  fun i => spline time_x (map (fun z => z i) obs_z) t.
Definition initn (d : nat) (dt : K) (sigma : mat K) (tw : list K) (obs_t : list nat) (obs_y : list (vec K))
  : result (list K) :=
  let* time_x := time_knots tw obs_t in
  let* obs_z := ends obs_y obs_y in
  let* _ := knots_ok time_x obs_z in
  let mt0 := map (interp time_x obs_z) tw in
  let n := length tw in
  Ok (packn d (map (fun _ => init_a sigma) tw) (map (init_b dt sigma mt0) (seq 0 n))).
End Init.
