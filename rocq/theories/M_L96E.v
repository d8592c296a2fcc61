(** * Model of Lorenz96.energy (src/dynamics/lorenz_96.py:316-438) and of grad_Esde_dm_ds
    (src/var_bayes/variational.py:338-398).  Definitions only. *)
From Coq Require Import ZArith List Bool Arith.
From Verif Require Import Num Arr M_LinAlg M_Utils M_Sde1 M_L63 M_L96.
Import ListNotations.

Section Energy.
Context {K : Num}.
Local Open Scope num_scope.
(** np.linalg.solve(a, b) with a of shape d x d: [solve d a] is the function of one right-hand
    side, or the exception; several right-hand sides are the columns of b.  Which algorithm
    LAPACK uses plays no part. *)
Variable solve : nat -> mat K -> result (vec K -> vec K).

(** the loop of lines 386-426, stopped by the first exception *)
Fixpoint map4r {A B C D E} (f : A -> B -> C -> D -> result E) (a : list A) (b : list B)
  (c : list C) (d : list D) : result (list E) :=
  match a, b, c, d with
  | a0 :: a', b0 :: b', c0 :: c', d0 :: d' =>
      let* e := f a0 b0 c0 d0 in
      let* l := map4r f a' b' c' d' in
      Ok (e :: l)
  | _, _, _, _ => Ok []
  end.

(** lines 379-380 (fun_1) and variational.py:372: x is dim_n x dim_d, one state per row;
    theta is the forcing (a scalar is broadcast to a constant vector) *)
Definition sq_res (dim_n d : nat) (theta : vec K) (x at_ : mat K) (bt : vec K) : mat K :=
  fun r j => npow (l96_batch dim_n d x theta r j + mmul d x (mtr at_) r j - bt j) 2.

(** variational.py:338-398 with fun = l96(., theta); [sol] is solve(st, .), [inv_st] the first
    entry of chol_inv(st).  The result has d (d + 1) columns, the rows of dst are raveled. *)
Definition grad_rows (dim_n d : nat) (theta mt : vec K) (at_ : mat K) (bt dsi : vec K)
  (sol : vec K -> vec K) (inv_st x : mat K) : mat K :=
  let x_mat := sq_res dim_n d theta x at_ bt in
  let var := fun r => vdot d dsi (x_mat r) in                              (* line 373 *)
  let dmt := fun r => sol (fun i => var r * x r i) in                      (* line 376 *)
  let dst := fun r p =>                                                    (* lines 382-391 *)
    let zt := fun i => x r i - mt i in
    let zk := mouter zt zt in
    let sk : mat K := fun i j => sol (fun a => zk a j) i in
    var r * mmul d sk inv_st (p / d)%nat (p mod d)%nat in
  fun r c => if Nat.ltb c d then nlit 1 2 * dmt r c else nlit 1 2 * dst r (c - d)%nat.

Record Point := mkPoint {
  q_e : K; q_f : vec K; q_df : mat K; q_dm : vec K; q_ds : mat K; q_th : vec K; q_sig : vec K }.

(** lines 386-426, one time point.  solve and chol_inv are called inside the second
    ut_approx; its own root has been computed by the first, so the order of the exceptions is
    the same. *)
Definition l96_point (d : nat) (theta dsi : vec K) (at_ : mat K) (bt mt : vec K) (st : mat K) : result Point :=
  let dim_n := (2 * d + 1)%nat in
  let* (m_bar, _) := ut_approx (fun x => sq_res dim_n d theta x at_ bt) d mt st in
  let esde := nlit 1 2 * vdot d dsi m_bar in
  let ef := E96_drift d theta mt st in
  let edf := E96_drift_dx d mt in
  let* sol := solve d st in
  let* (inv_st, _) := chol_inv_fast d st in
  let* (dmS, _) := ut_approx (grad_rows dim_n d theta mt at_ bt dsi sol inv_st) d mt st in
  let dm := fun i => dmS i - esde * sol mt i in
  let ds := fun i j => nlit 1 2 * (dmS (d + (i * d + j))%nat - esde * sol (fun a => meye a j) i) in
  let dth := fun i => ef i + vecm d mt (mtr at_) i - bt i in
  Ok (mkPoint esde ef edf dm ds dth m_bar).

(** lines 316-438.  The arrays over time are lists, read up to the shortest (the code reads
    time_window.size entries). *)
Definition l96_energy (d : nat) (theta : vec K) (inv_sigma : mat K) (dt : K)
  (lin_a : list (mat K)) (off_b m : list (vec K)) (s : list (mat K))
  (obs : option (list nat)) : result (EnergyN K) :=
  let dsi := diagv inv_sigma in
  let* pts := map4r (l96_point d theta dsi) lin_a off_b m s in
  Ok {| n_sde := my_trapz (V := scalV K) (map q_e pts) dt obs;
        n_f := map q_f pts; n_df := map q_df pts; n_dm := map q_dm pts; n_ds := map q_ds pts;
        n_dth := vhad dsi (my_trapz (V := vecV K) (map q_th pts) dt obs);
        n_dsig := mscale (- nlit 1 2)
          (mmul d (mmul d inv_sigma (mdiag (my_trapz (V := vecV K) (map q_sig pts) dt obs))) inv_sigma) |}.
End Energy.
