(** * Model of the ODE solvers (src/numerics/{ode_solver,euler,heun,runge_kutta2,
    runge_kutta4}.py, src/var_bayes/{fwd_ode,bwd_ode}.py).  Definitions only.

    Written once over a record [Sys] holding the two value types (means and
    covariances) and the four auxiliary functions of OdeSolver; [sys1] is the
    single_dim = True instance and [sysn d] the single_dim = False instance.

    Simplifications: shape errors inside one time point are not modelled (see
    Arr.v); reading past the end of an input array is (IndexError). *)
From Coq Require Import ZArith Bool String Ascii.
From Coq Require Import List.
From Verif Require Import Num Arr.
Import ListNotations.

Record Sys (K : Num) := mkSys {
  VM : Val K;
  VS : Val K;
  f_mt : VM -> VS -> VM -> VM;
  f_st : VS -> VS -> VS -> VS;
  f_lam : VM -> VS -> VM -> VM;
  f_psi : VS -> VS -> VS -> VS;
}.
Arguments VM {K} _.
Arguments VS {K} _.
Arguments f_mt {K} _ _ _ _.
Arguments f_st {K} _ _ _ _.
Arguments f_lam {K} _ _ _ _.
Arguments f_psi {K} _ _ _ _.

Section Aux.
Context (K : Num).
Local Open Scope num_scope.

(** ode_solver.py:31-45, single_dim branch: -(at * mt) + bt *)
Definition fun_mt_1 (mt at_ bt : K) : K := - (at_ * mt) + bt.
(** ode_solver.py:31-45, n-D branch: -at.dot(mt) + bt *)
Definition fun_mt_n (d : nat) (mt : vec K) (at_ : mat K) (bt : vec K) : vec K :=
  fun i => - (mvec d at_ mt i) + bt i.
(** ode_solver.py:47-61, single_dim branch: -(2.0 * at * st) + sn *)
Definition fun_st_1 (st at_ sn : K) : K := - (nZ 2 * at_ * st) + sn.
(** ode_solver.py:47-61, n-D branch: -at.dot(st) - st.dot(at.T) + sn *)
Definition fun_st_n (d : nat) (st at_ sn : mat K) : mat K :=
  fun i j => - (mmul d at_ st i j) - mmul d st (mtr at_) i j + sn i j.
(** ode_solver.py:63-78, single_dim branch: -df_dm + (lam_t * at) *)
Definition fun_lam_1 (df_dm at_ lam_t : K) : K := - df_dm + lam_t * at_.
(** ode_solver.py:63-78, n-D branch: -df_dm + lam_t.dot(at.T) *)
Definition fun_lam_n (d : nat) (df_dm : vec K) (at_ : mat K) (lam_t : vec K) : vec K :=
  fun i => - df_dm i + vecm d lam_t (mtr at_) i.
(** ode_solver.py:80-95, single_dim branch: -df_ds + (2.0 * psi_t * at) *)
Definition fun_psi_1 (df_ds at_ psi_t : K) : K := - df_ds + nZ 2 * psi_t * at_.
(** ode_solver.py:80-95, n-D branch: -df_ds + psi_t.dot(at) + at.T.dot(psi_t) *)
Definition fun_psi_n (d : nat) (df_ds at_ psi_t : mat K) : mat K :=
  fun i j => - df_ds i j + mmul d psi_t at_ i j + mmul d (mtr at_) psi_t i j.

Definition sys1 : Sys K :=
  mkSys K (scalV K) (scalV K) fun_mt_1 fun_st_1 fun_lam_1 fun_psi_1.
Definition sysn (d : nat) : Sys K :=
  mkSys K (vecV K) (matV K) (fun_mt_n d) (fun_st_n d) (fun_lam_n d) (fun_psi_n d).
End Aux.

Inductive method := Euler | Heun | RK2 | RK4.

Section Solvers.
Context {K : Num} (P : Sys K).
Local Open Scope num_scope.
Local Open Scope val_scope.

Notation M := (VM P).
Notation S_ := (VS P).
(** lin_a[k], off_b[k], ...: reads guarded by the length checks below *)
Definition ga (l : list (VS P)) (k : nat) : VS P := nth k l (vzero (VS P)).
Definition gm (l : list (VM P)) (k : nat) : VM P := nth k l (vzero (VM P)).

Definition half : K := nlit 1 2.

(** 0.5 * (x[0:-1] + x[1:])  (runge_kutta2.py:74-75, 134-136; runge_kutta4.py:72-73, 146-148) *)
Definition mids {V : Val K} (x : list V) : list V :=
  map2 (fun u v => half *v (u +v v)) (removelast x) (tl x).

(** One iteration of the forward loop: index k, current mean and covariance. *)

(** euler.py:74-88 *)
Definition euler_fwd_body (dt : K) (lin_a : list S_) (off_b : list M) (sigma : S_)
           (k : nat) (mk : M) (sk : S_) : M * S_ :=
  let ak := ga lin_a k in
  let bk := gm off_b k in
  (mk +v dt *v f_mt P mk ak bk,
   sk +v dt *v f_st P sk ak sigma).

(** heun.py:74-107 *)
Definition heun_fwd_body (dt : K) (lin_a : list S_) (off_b : list M) (sigma : S_)
           (k : nat) (mk : M) (sk : S_) : M * S_ :=
  let h := (half * dt)%num in
  let ak := ga lin_a k in
  let bk := gm off_b k in
  let a_plus := ga lin_a (k + 1) in
  let b_plus := gm off_b (k + 1) in
  let f_predict := f_mt P mk ak bk in
  let f_correct := f_mt P (mk +v dt *v f_predict) a_plus b_plus in
  let m_new := mk +v h *v (f_predict +v f_correct) in
  let g_predict := f_st P sk ak sigma in
  let g_correct := f_st P (sk +v dt *v g_predict) a_plus sigma in
  let s_new := sk +v h *v (g_predict +v g_correct) in
  (m_new, s_new).

(** runge_kutta2.py:71-98; note fun_st(sk, sk, sigma) in line 96 *)
Definition rk2_fwd_body (dt : K) (lin_a : list S_) (off_b : list M) (sigma : S_)
           (k : nat) (mk : M) (sk : S_) : M * S_ :=
  let h := (half * dt)%num in
  let ak_mid := mids lin_a in
  let bk_mid := mids off_b in
  let ak := ga lin_a k in
  let bk := gm off_b k in
  let a_mid := ga ak_mid k in
  let b_mid := gm bk_mid k in
  (mk +v dt *v f_mt P (mk +v h *v f_mt P mk ak bk) a_mid b_mid,
   sk +v dt *v f_st P (sk +v h *v f_st P sk sk sigma) a_mid sigma).

(** runge_kutta4.py:72-109 *)
Definition rk4_fwd_body (dt : K) (lin_a : list S_) (off_b : list M) (sigma : S_)
           (k : nat) (mk : M) (sk : S_) : M * S_ :=
  let ak_mid := mids lin_a in
  let bk_mid := mids off_b in
  let h := (half * dt)%num in
  let ak := ga lin_a k in
  let bk := gm off_b k in
  let a_mid := ga ak_mid k in
  let b_mid := gm bk_mid k in
  let K1 := f_mt P mk ak bk in
  let K2 := f_mt P (mk +v h *v K1) a_mid b_mid in
  let K3 := f_mt P (mk +v h *v K2) a_mid b_mid in
  let K4 := f_mt P (mk +v dt *v K3) (ga lin_a (k + 1)) (gm off_b (k + 1)) in
  let m_new := mk +v (dt *v (K1 +v nZ 2 *v (K2 +v K3) +v K4)) /v nZ 6 in
  let L1 := f_st P sk ak sigma in
  let L2 := f_st P (sk +v h *v L1) a_mid sigma in
  let L3 := f_st P (sk +v h *v L2) a_mid sigma in
  let L4 := f_st P (sk +v dt *v L3) (ga lin_a (k + 1)) sigma in
  let s_new := sk +v (dt *v (L1 +v nZ 2 *v (L2 +v L3) +v L4)) /v nZ 6 in
  (m_new, s_new).

Definition fwd_body (mtd : method) :=
  match mtd with
  | Euler => euler_fwd_body
  | Heun => heun_fwd_body
  | RK2 => rk2_fwd_body
  | RK4 => rk4_fwd_body
  end.

(** The common frame of solve_fwd: pre-allocation, initial values, loop
    (euler.py:46-91, heun.py:46-110, runge_kutta2.py:43-101, runge_kutta4.py:44-112). *)
Definition fwd_loop (body : nat -> M -> S_ -> M * S_) (n : nat) (m0 : M) (s0 : S_)
  : list M * list S_ :=
  fold_left
    (fun '(mt, st) k =>
       let '(m, s) := body k (gm mt k) (ga st k) in
       (upd (k + 1) m mt, upd (k + 1) s st))
    (seq 0 (n - 1))
    (upd 0 m0 (repeat (vzero M) n), upd 0 s0 (repeat (vzero S_) n)).

(** mt[0] = m0 fails on an empty array; lin_a[k] is read for k < n-1 (Euler) or
    k <= n-1 (the others, which also read lin_a[k+1] or average lin_a). *)
Definition fwd_reads_ok (mtd : method) (n la : nat) : bool :=
  negb (Nat.eqb n 0) &&
  match mtd with
  | Euler => Nat.leb (n - 1) la
  | _ => Nat.leb n 1 || Nat.leb n la
  end.

Definition solve_fwd (mtd : method) (dt : K) (lin_a : list S_) (off_b : list M)
           (m0 : M) (s0 sigma : S_) : result (list M * list S_) :=
  let n := length off_b in
  if fwd_reads_ok mtd n (length lin_a)
  then Ok (fwd_loop (fwd_body mtd dt lin_a off_b sigma) n m0 s0)
  else Err IndexError.

(** One iteration of the backward loop: index t, multipliers at t; returns the
    multipliers at t - 1. *)

(** euler.py:139-150 *)
Definition euler_bwd_body (dt : K) (lin_a : list S_) (dm : list M) (ds : list S_)
           (om : list M) (os : list S_) (t : nat) (lamt : M) (psit : S_) : M * S_ :=
  let at_ := ga lin_a t in
  (lamt -v dt *v f_lam P (gm dm t) at_ lamt +v gm om (t - 1),
   psit -v dt *v f_psi P (ga ds t) at_ psit +v ga os (t - 1)).

(** heun.py:157-186 *)
Definition heun_bwd_body (dt : K) (lin_a : list S_) (dm : list M) (ds : list S_)
           (om : list M) (os : list S_) (t : nat) (lamt : M) (psit : S_) : M * S_ :=
  let h := (half * dt)%num in
  let at_ := ga lin_a t in
  let ak := ga lin_a (t - 1) in
  let f_predict := f_lam P (gm dm t) at_ lamt in
  let f_correct := f_lam P (gm dm (t - 1)) ak (lamt -v dt *v f_predict) in
  let l_new := lamt -v h *v (f_predict +v f_correct) +v gm om (t - 1) in
  let g_predict := f_psi P (ga ds t) at_ psit in
  let g_correct := f_psi P (ga ds (t - 1)) ak (psit -v dt *v g_predict) in
  let p_new := psit -v h *v (g_predict +v g_correct) +v ga os (t - 1) in
  (l_new, p_new).

(** runge_kutta2.py:131-190; the arrays of mid points get a zero appended
    (lines 148-150, 161-163), which is never read *)
Definition rk2_bwd_body (dt : K) (lin_a : list S_) (dm : list M) (ds : list S_)
           (om : list M) (os : list S_) (t : nat) (lam_t : M) (psi_t : S_) : M * S_ :=
  let h := (half * dt)%num in
  let ak_mid := mids lin_a ++ [vzero S_] in
  let dEmk_mid := mids dm ++ [vzero M] in
  let dEsk_mid := mids ds ++ [vzero S_] in
  let at_ := ga lin_a t in
  let ak := ga ak_mid (t - 1) in
  let dEmk := gm dEmk_mid (t - 1) in
  let dEsk := ga dEsk_mid (t - 1) in
  let lamk := lam_t -v h *v f_lam P (gm dm t) at_ lam_t in
  let l_new := lam_t -v dt *v f_lam P dEmk ak lamk +v gm om (t - 1) in
  let psik := psi_t -v h *v f_psi P (ga ds t) at_ psi_t in
  let p_new := psi_t -v dt *v f_psi P dEsk ak psik +v ga os (t - 1) in
  (l_new, p_new).

(** runge_kutta4.py:139-207 *)
Definition rk4_bwd_body (dt : K) (lin_a : list S_) (dm : list M) (ds : list S_)
           (om : list M) (os : list S_) (t : nat) (lam_t : M) (psi_t : S_) : M * S_ :=
  let h := (half * dt)%num in
  let ak_mid := mids lin_a ++ [vzero S_] in
  let dEmk_mid := mids dm ++ [vzero M] in
  let dEsk_mid := mids ds ++ [vzero S_] in
  let at_ := ga lin_a t in
  let ak := ga ak_mid (t - 1) in
  let dEmk := gm dEmk_mid (t - 1) in
  let dEsk := ga dEsk_mid (t - 1) in
  let K1 := f_lam P (gm dm t) at_ lam_t in
  let K2 := f_lam P dEmk ak (lam_t -v h *v K1) in
  let K3 := f_lam P dEmk ak (lam_t -v h *v K2) in
  let K4 := f_lam P (gm dm (t - 1)) (ga lin_a (t - 1)) (lam_t -v dt *v K3) in
  let l_new := lam_t -v (dt *v (K1 +v nZ 2 *v (K2 +v K3) +v K4)) /v nZ 6
               +v gm om (t - 1) in
  let L1 := f_psi P (ga ds t) at_ psi_t in
  let L2 := f_psi P dEsk ak (psi_t -v h *v L1) in
  let L3 := f_psi P dEsk ak (psi_t -v h *v L2) in
  let L4 := f_psi P (ga ds (t - 1)) (ga lin_a (t - 1)) (psi_t -v dt *v L3) in
  let p_new := psi_t -v (dt *v (L1 +v nZ 2 *v (L2 +v L3) +v L4)) /v nZ 6
               +v ga os (t - 1) in
  (l_new, p_new).

Definition bwd_body (mtd : method) :=
  match mtd with
  | Euler => euler_bwd_body
  | Heun => heun_bwd_body
  | RK2 => rk2_bwd_body
  | RK4 => rk4_bwd_body
  end.

(** for t in range(dim_n - 1, 0, -1)  (euler.py:114-153, heun.py:132-189,
    runge_kutta2.py:138-193, runge_kutta4.py:150-210) *)
Definition bwd_loop (body : nat -> M -> S_ -> M * S_) (n : nat) : list M * list S_ :=
  fold_left
    (fun '(lam, psi) t =>
       let '(l, p) := body t (gm lam t) (ga psi t) in
       (upd (t - 1) l lam, upd (t - 1) p psi))
    (rev (seq 1 (n - 1)))
    (repeat (vzero M) n, repeat (vzero S_) n).

(** dim_n = dEsde_dm.size; lin_a and dEsde_ds are read up to index n-1, the
    observation derivatives up to n-2. *)
Definition bwd_reads_ok (n la ls lom los : nat) : bool :=
  Nat.leb n 1 ||
  (Nat.leb n la && Nat.leb n ls && Nat.leb (n - 1) lom && Nat.leb (n - 1) los).

Definition solve_bwd (mtd : method) (dt : K) (lin_a : list S_)
           (dEsde_dm : list M) (dEsde_ds : list S_)
           (dEobs_dm : list M) (dEobs_ds : list S_) : result (list M * list S_) :=
  let n := length dEsde_dm in
  if bwd_reads_ok n (length lin_a) (length dEsde_ds) (length dEobs_dm) (length dEobs_ds)
  then Ok (bwd_loop (bwd_body mtd dt lin_a dEsde_dm dEsde_ds dEobs_dm dEobs_ds) n)
  else Err IndexError.

End Solvers.

(** ** Solver selection *)

(** str.lower(); simplification: ASCII strings *)
Definition lower_ascii (c : ascii) : ascii :=
  let n := nat_of_ascii c in
  if (Nat.leb 65 n && Nat.leb n 90)%bool then ascii_of_nat (n + 32) else c.
Fixpoint lower (s : string) : string :=
  match s with
  | EmptyString => EmptyString
  | String c s' => String (lower_ascii c) (lower s')
  end.

(** utilities.py:12-13: num_integration *)
Definition num_integration : list (string * method) :=
  [("euler", Euler); ("heun", Heun); ("rk2", RK2); ("rk4", RK4)]%string.
Fixpoint lookup (s : string) (l : list (string * method)) : option method :=
  match l with
  | [] => None
  | (k, v) :: l' => if String.eqb s k then Some v else lookup s l'
  end.

Record solver (K : Num) := mkSolver { sol_method : method; sol_dt : K; sol_single : bool }.
Arguments mkSolver {K} _ _ _.
Arguments sol_method {K} _.
Arguments sol_dt {K} _.
Arguments sol_single {K} _.

(** ode_solver.py:11-28, called by every concrete constructor *)
Definition ode_solver_init {K : Num} (m : method) (dt : K) (single : bool) : result (solver K) :=
  if nle dt (nZ 0) then Err ValueError else Ok (mkSolver m dt single).

(** fwd_ode.py:14-42 *)
Definition fwd_ode_init {K : Num} (dt : K) (name : string) (single : bool) : result (solver K) :=
  if nle dt (nZ 0) then Err ValueError
  else match lookup (lower name) num_integration with
       | Some m => ode_solver_init m dt single
       | None => Err ValueError            (* KeyError caught, re-raised *)
       end.

(** bwd_ode.py:14-42 *)
Definition bwd_ode_init {K : Num} (dt : K) (name : string) (single : bool) : result (solver K) :=
  if nle dt (nZ 0) then Err ValueError
  else match lookup (lower name) num_integration with
       | Some m => ode_solver_init m dt single
       | None => Err ValueError
       end.

(** fwd_ode.py:45-64 (n-D and 1-D objects; the flag selects the instance) *)
Definition fwd_ode_call1 {K : Num} (s : solver K) := solve_fwd (sys1 K) (sol_method s) (sol_dt s).
Definition fwd_ode_calln {K : Num} (d : nat) (s : solver K) :=
  solve_fwd (sysn K d) (sol_method s) (sol_dt s).
(** bwd_ode.py:45-64 *)
Definition bwd_ode_call1 {K : Num} (s : solver K) := solve_bwd (sys1 K) (sol_method s) (sol_dt s).
Definition bwd_ode_calln {K : Num} (d : nat) (s : solver K) :=
  solve_bwd (sysn K d) (sol_method s) (sol_dt s).
