(** * Model of optim_scg.py (SCG).  Definitions only.

    The objective and its gradient are called as f(x) and df(x), df(x, eval_fun=True).  They
    may keep state (VarGP does) and may raise; [W] is the type of that state.  The additional
    positional arguments *args (never used in the repository) and the printing are left out.
    Arrays are lists; the gradient is assumed to have as many entries as x, so that numpy does
    no broadcasting. *)
From Coq Require Import ZArith List Bool Arith.
From Verif Require Import Num Arr.
Import ListNotations.

Section Vec.
Context {K : Num}.
Local Open Scope num_scope.
(** u.T.dot(v), summed in index order *)
Definition ldot (u v : list K) : K := suml (map2 nmul u v).
Definition ladd (u v : list K) : list K := map2 nadd u v.
Definition lsub (u v : list K) : list K := map2 nsub u v.
Definition lscale (c : K) (v : list K) : list K := map (nmul c) v.
Definition lopp (v : list K) : list K := map nopp v.
(** np.sum(np.abs(v)) *)
Definition labs_sum (v : list K) : K := suml (map nabs v).
(** np.abs(v).max() <= tol for a non-empty array (false as soon as an entry is nan) *)
Definition abs_max_le (v : list K) (tol : K) : bool := forallb (fun y => nabs y <=? tol) v.
(** np.minimum, np.maximum: nan if an operand is nan *)
Definition npmin (a b : K) : K := if a <=? b then a else if b <=? a then b else a + b.
Definition npmax (a b : K) : K := if b <=? a then a else if a <=? b then b else a + b.
(** np.isclose(v, 0.0) *)
Definition isclose0 (v : K) : bool :=
  nabs (v - nZ 0) <=? nlit 1 100000000 + nlit 1 100000 * nabs (nZ 0).
(** np.finfo(float).eps = 2^-52 *)
Definition eps_float : K := nlit 1 4503599627370496.
Definition sigma0 : K := nlit 1 1000.                                       (* line 96 *)
Definition beta_min : K := nlit 1 1000000000000000.                         (* line 122 *)
Definition beta_max : K := nZ (10 ^ 100).
End Vec.

(** ** Options (lines 36-67) *)
Record Opts (K : Num) := mkOpts { o_nit : nat; o_xtol : K; o_ftol : K }.
Arguments mkOpts {K}. Arguments o_nit {K}. Arguments o_xtol {K}. Arguments o_ftol {K}.
Definition or_default {A} (o : option A) (a : A) : A := match o with Some b => b | None => a end.
Definition scg_options {K : Num} (max_it : option nat) (x_tol f_tol : option K) : Opts K :=
  mkOpts (or_default max_it 150) (or_default x_tol (nlit 1 1000000)) (or_default f_tol (nlit 1 100000000)).

(** self.stats (lines 70-72); the evaluation counts are floats in python *)
Record Stats (K : Num) := mkStats {
  s_maxit : nat; s_fx : list K; s_dfx : list K; s_beta : list K; s_feval : nat; s_dfeval : nat }.
Arguments mkStats {K}. Arguments s_maxit {K}. Arguments s_fx {K}. Arguments s_dfx {K}.
Arguments s_beta {K}. Arguments s_feval {K}. Arguments s_dfeval {K}.
Definition fresh_stats {K : Num} (nit : nat) : Stats K :=
  mkStats nit (repeat (nZ 0) nit) (repeat (nZ 0) nit) (repeat (nZ 0) nit) 0 0.

(** The local variables of __call__ at the top of the loop. *)
Record Loc (K : Num) := mkLoc {
  l_x : list K; l_fnow : K; l_fold : K; l_gnew : list K; l_gold : list K; l_d : list K;
  l_success : bool; l_count : nat; l_beta : K; l_kappa : K; l_theta : K; l_mu : K }.
Arguments mkLoc {K}.
Arguments l_x {K}. Arguments l_fnow {K}. Arguments l_fold {K}. Arguments l_gnew {K}.
Arguments l_gold {K}. Arguments l_d {K}. Arguments l_success {K}. Arguments l_count {K}.
Arguments l_beta {K}. Arguments l_kappa {K}. Arguments l_theta {K}. Arguments l_mu {K}.

Section Scg.
Context {K : Num} {W : Type}.
Variable f : list K -> W -> result K * W.
Variable df : list K -> bool -> W -> result (list K) * W.
Local Open Scope num_scope.

(** computations that update the statistics and the objective's state, and may raise *)
Definition M (A : Type) := Stats K -> W -> result A * Stats K * W.
Definition ret {A} (a : A) : M A := fun s w => (Ok a, s, w).
Definition mbind {A B} (m : M A) (k : A -> M B) : M B := fun s w =>
  match m s w with
  | (Ok a, s', w') => k a s' w'
  | (Err e, s', w') => (Err e, s', w')
  end.
Notation "'do' x <- m 'in' k" := (mbind m (fun x => k)) (at level 200, x pattern, m at level 100, k at level 200).
Definition call_f (x : list K) : M K := fun s w => let '(r, w') := f x w in (r, s, w').
Definition call_df (x : list K) (eval_fun : bool) : M (list K) := fun s w => let '(r, w') := df x eval_fun w in (r, s, w').
Definition set_stats (u : Stats K -> Stats K) : M unit := fun s w => (Ok tt, u s, w).
Definition add_evals (nf ndf : nat) : M unit :=
  set_stats (fun s => mkStats (s_maxit s) (s_fx s) (s_dfx s) (s_beta s) (s_feval s + nf) (s_dfeval s + ndf)).
Definition set_maxit (j : nat) : M unit :=
  set_stats (fun s => mkStats j (s_fx s) (s_dfx s) (s_beta s) (s_feval s) (s_dfeval s)).
Definition record (j : nat) (fx beta dfx : K) : M unit :=
  set_stats (fun s => mkStats (s_maxit s) (upd j fx (s_fx s)) (upd j dfx (s_dfx s)) (upd j beta (s_beta s))
                              (s_feval s) (s_dfeval s)).

(** lines 90-128 *)
Definition scg_start (x0 : list K) : M (Loc K) :=
  let x := x0 in
  do f_now <- call_f x in
  do grad_new <- call_df x false in
  do _ <- add_evals 1 1 in
  ret (mkLoc x f_now f_now grad_new grad_new (lopp grad_new) true 0 (nZ 1) (nZ 0) (nZ 0) (nZ 0)).

(** lines 133-175: inl for the local variables after the block, inr for "return x, fx" *)
Definition scg_directions (j : nat) (s : Loc K) : M (Loc K + list K * K) :=
  if l_success s then
    let mu := ldot (l_d s) (l_gnew s) in
    let d := if nZ 0 <=? mu then lopp (l_gnew s) else l_d s in
    let mu := if nZ 0 <=? mu then ldot d (l_gnew s) else mu in
    let kappa := ldot d d in
    if kappa <? eps_float then
      do _ <- set_maxit (j + 1) in ret (inr (l_x s, l_fnow s))
    else
      let sigma := sigma0 / nsqrt kappa in
      let x_plus := ladd (l_x s) (lscale sigma d) in
      do g_plus <- call_df x_plus true in
      do _ <- add_evals 1 1 in
      let theta := ldot d (lsub g_plus (l_gnew s)) / sigma in
      ret (inl (mkLoc (l_x s) (l_fnow s) (l_fold s) (l_gnew s) (l_gold s) d (l_success s) (l_count s)
                      (l_beta s) kappa theta mu))
  else ret (inl s).

(** lines 178-182: effective curvature and the adjusted beta *)
Definition scg_curvature (s : Loc K) : K * K :=
  let delta := l_theta s + l_beta s * l_kappa s in
  if delta <=? nZ 0
  then (l_beta s * l_kappa s, l_beta s - l_theta s / l_kappa s)
  else (delta, l_beta s).
(** line 185 *)
Definition scg_alpha (s : Loc K) : K := - (l_mu s / fst (scg_curvature s)).
(** lines 254-261 *)
Definition scg_beta (beta delta : K) : K :=
  let beta := if delta <? nlit 1 4 then npmin (nZ 4 * beta) beta_max else beta in
  if nlit 3 4 <? delta then npmax (nlit 1 2 * beta) beta_min else beta.

(** lines 177-274 *)
Definition scg_step (o : Opts K) (dim_x j : nat) (s : Loc K) : M (Loc K + list K * K) :=
  let beta := snd (scg_curvature s) in
  let alpha := scg_alpha s in
  let x_new := ladd (l_x s) (lscale alpha (l_d s)) in
  do f_new <- call_f x_new in
  do _ <- add_evals 1 0 in
  let delta := nZ 2 * (f_new - l_fold s) / (alpha * l_mu s) in
  let success := nZ 0 <=? delta in
  let count := if success then S (l_count s) else l_count s in
  let x := if success then x_new else l_x s in
  let f_now := if success then f_new else l_fold s in
  let g_now := if success then l_gnew s else l_gold s in
  do _ <- record j f_now beta (labs_sum g_now) in
  if success then
    if abs_max_le (lscale alpha (l_d s)) (o_xtol o) && (nabs (f_new - l_fold s) <=? o_ftol o) then
      do _ <- set_maxit (j + 1) in ret (inr (x, f_new))
    else
      let f_old := f_new in
      let grad_old := l_gnew s in
      do f_now <- call_f x in
      do grad_new <- call_df x false in
      do _ <- add_evals 1 1 in
      if isclose0 (ldot grad_new grad_new) then
        do _ <- set_maxit (j + 1) in ret (inr (x, f_now))
      else
        let beta := scg_beta beta delta in
        let restart := Nat.eqb count dim_x in
        let gamma := npmax (ldot grad_new (lsub grad_old grad_new) / l_mu s) (nZ 0) in
        let d := if restart then lopp grad_new else lsub (lscale gamma (l_d s)) grad_new in
        ret (inl (mkLoc x f_now f_old grad_new grad_old d true (if restart then 0 else count)%nat beta
                        (l_kappa s) (l_theta s) (l_mu s)))
  else
    let beta := scg_beta beta delta in
    let restart := Nat.eqb count dim_x in
    let d := if restart then lopp (l_gnew s) else l_d s in
    ret (inl (mkLoc x f_now (l_fold s) (l_gnew s) (l_gold s) d false (if restart then 0 else count)%nat beta
                    (l_kappa s) (l_theta s) (l_mu s))).

(** one iteration *)
Definition scg_body (o : Opts K) (dim_x j : nat) (s : Loc K) : M (Loc K + list K * K) :=
  do r <- scg_directions j s in
  match r with
  | inr out => ret (inr out)
  | inl s1 => scg_step o dim_x j s1
  end.

(** lines 131-284: [k] iterations are left, the next one has number [j] *)
Fixpoint scg_loop (o : Opts K) (dim_x k j : nat) (s : Loc K) : M (list K * K) :=
  match k with
  | O => ret (l_x s, l_fold s)
  | S k' =>
      do r <- scg_body o dim_x j s in
      match r with
      | inr out => ret out
      | inl s' => scg_loop o dim_x k' (S j) s'
      end
  end.

(** __call__; x0.flatten() of a list is the list *)
Definition scg_call (o : Opts K) (x0 : list K) : M (list K * K) :=
  do s <- scg_start x0 in
  scg_loop o (length x0) (o_nit o) 0 s.
End Scg.

(** SCG(f, df, options)(x0) on a new object *)
Definition scg_run {K : Num} {W} f df (o : Opts K) (x0 : list K) (w : W) :=
  scg_call f df o x0 (fresh_stats (o_nit o)) w.
