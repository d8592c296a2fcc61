(** * Property C39 for observed components given by their numbers *)
From Coq Require Import ZArith List Bool Arith Reals Lra Lia.
From Verif Require Import Num Arr M_LinAlg M_Proc M_Sim M_SimN Spec_Utils Spec_Proc Spec_Oper P_RMat P_Proc P_Traj P_Index.
Import ListNotations.
Local Open Scope R_scope.

(** one number: each observation is that component of the path (negative numbers count from the end) plus noise.
    The variances [v] are one number for all, or one for each observation *)
Theorem C39_single_index :
  forall (G : Rng RNum) d (b : Base G (vec RNum)) (tk : list R) (xt : list (nat -> R)) t0 dt n (n_obs : dens RNum) (f : R) m z c (rn : arr RNum) v,
  b_tk b = Some tk -> b_xt b = Some xt -> uniform_grid t0 dt n tk -> (2 <= n)%nat -> 0 < dt -> length xt = n ->
  density_is n_obs f /\ 0 <= f -> fits_step f dt -> int_part (INR (n - 1) * dt * f) (Z.of_nat m) ->
  counted d z c ->
  (exists r, rn = A0 (K:=RNum) r /\ forall i, v i = r) \/ rn = A1 (K:=RNum) m v \/ (exists w, rn = A1 (K:=RNum) 1 w /\ forall i, v i = w 0%nat) ->
  exists ts (ys u : list R) g, normals G m (b_rng b) = (u, g) /\
    collect_one G n_obs rn z d b = (Ok (ts, ys, rn), mkBase (Some xt) (Some tk) g) /\
    spread n m ts /\ length ys = m /\
    forall i, (i < m)%nat -> nth i ys 0 = nth (nth i ts 0%nat) xt vzero0 c + sqrt (v i) * nth i u 0.
Proof. intros. eapply one_index; eassumption. Qed.
Print Assumptions C39_single_index.

(** a table of r rows and c numbers, c other than 1: each observation is a table of components.  The noise, meant to
    differ between observations, differs between rows, so that it fits only if there are as many observations as
    rows, or one; it is the same for all observations.  Otherwise ValueError, after the draws were made *)
Theorem C39_index_table_refuted :
  forall (G : Rng RNum) d (b : Base G (vec RNum)) (tk : list R) (xt : list (nat -> R)) t0 dt n (n_obs : dens RNum) (f : R) m r c ix q (rn : arr RNum) v,
  b_tk b = Some tk -> b_xt b = Some xt -> uniform_grid t0 dt n tk -> (2 <= n)%nat -> 0 < dt -> length xt = n ->
  density_is n_obs f /\ 0 <= f -> fits_step f dt -> int_part (INR (n - 1) * dt * f) (Z.of_nat m) ->
  (forall i j, (i < r)%nat -> (j < c)%nat -> counted d (ix i j) (q i j)) -> c <> 1%nat -> noise_diag_of c rn v ->
  exists u g, normals G (c * m) (b_rng b) = (u, g) /\
  ((m = r \/ m = 1%nat) -> exists ts ys C,
    collect_grid G n_obs rn r c ix d b = (Ok (ts, ys, A2 (K:=RNum) c c C), mkBase (Some xt) (Some tk) g) /\
    diagonal c C /\ (forall i, (i < c)%nat -> C i i = v i) /\ spread n m ts /\ length ys = m /\
    forall k i j, (k < m)%nat -> (i < r)%nat -> (j < c)%nat ->
      nth k ys (fun _ _ => 0) i j = nth (nth k ts 0%nat) xt vzero0 (q i j) + sqrt (v j) * nth (j * m + (if Nat.eqb m 1 then 0 else i)) u 0) /\
  (m <> r -> m <> 1%nat -> collect_grid G n_obs rn r c ix d b = (Err ValueError, mkBase (Some xt) (Some tk) g)).
Proof. intros. eapply table_many; eassumption. Qed.
Print Assumptions C39_index_table_refuted.
(** variances that are not one for each column are refused, after the draws *)
Theorem C39_index_table_noise :
  forall (G : Rng RNum) d (b : Base G (vec RNum)) (tk : list R) (xt : list (nat -> R)) t0 dt n (n_obs : dens RNum) (f : R) m r c ix q k w,
  b_tk b = Some tk -> b_xt b = Some xt -> uniform_grid t0 dt n tk -> (2 <= n)%nat -> 0 < dt -> length xt = n ->
  density_is n_obs f /\ 0 <= f -> fits_step f dt -> int_part (INR (n - 1) * dt * f) (Z.of_nat m) ->
  (forall i j, (i < r)%nat -> (j < c)%nat -> counted d (ix i j) (q i j)) -> c <> 1%nat -> k <> c ->
  collect_grid G n_obs (A1 (K:=RNum) k w) r c ix d b = (Err ValueError, mkBase (Some xt) (Some tk) (snd (normals G (c * m) (b_rng b)))).
Proof. intros. eapply table_refused; [eassumption..|reflexivity|eassumption]. Qed.
Print Assumptions C39_index_table_noise.
(** a table of one column *)
Theorem C39_index_column_refuted :
  forall (G : Rng RNum) d (b : Base G (vec RNum)) (tk : list R) (xt : list (nat -> R)) t0 dt n (n_obs : dens RNum) (f : R) m r ix q (rn : arr RNum),
  b_tk b = Some tk -> b_xt b = Some xt -> uniform_grid t0 dt n tk -> (2 <= n)%nat -> 0 < dt -> length xt = n ->
  density_is n_obs f /\ 0 <= f -> fits_step f dt -> int_part (INR (n - 1) * dt * f) (Z.of_nat m) ->
  (forall i, (i < r)%nat -> counted d (ix i 0%nat) (q i 0%nat)) ->
  exists u g, normals G m (b_rng b) = (u, g) /\
  (m <> 1%nat -> collect_grid G n_obs rn r 1 ix d b = (Err ValueError, mkBase (Some xt) (Some tk) g)) /\
  (m = 1%nat -> forall v,
     rn = A0 (K:=RNum) v \/ (exists w, rn = A1 (K:=RNum) 1 w /\ w 0%nat = v) \/ (exists w, rn = A2 (K:=RNum) 1 1 w /\ w 0%nat 0%nat = v) ->
     exists t y, collect_grid G n_obs rn r 1 ix d b = (Ok ([t], [y], rn), mkBase (Some xt) (Some tk) g) /\ spread n 1 [t] /\
       forall i, (i < r)%nat -> y i 0%nat = nth t xt vzero0 (q i 0%nat) + sqrt v * nth 0 u 0).
Proof.
  intros. eapply table_column; try eassumption; [|reflexivity]. intros i j Hi Hj. replace j with 0%nat by lia. auto.
Qed.
Print Assumptions C39_index_column_refuted.

(** two observations of components 0, 1 and 2, 0 of a path with three components on a grid of five points *)
Example C39_index_instance :
  forall (G : Rng RNum) (g0 : r_state G), exists ts ys C g,
  let xt := map (fun (k i : nat) => INR (3 * k + i)) (seq 0 5) in
  let b := mkBase (G:=G) (X:=vec RNum) (Some (xt : list (vec RNum))) (Some ([0; 1/4; 1/2; 3/4; 1] : list RNum)) g0 in
  let u := fst (normals G 4 g0) in
  collect_grid G (DInt 2) (A0 (K:=RNum) 4) 2 2 (fun i j => if Nat.eqb i 0 then Z.of_nat j else if Nat.eqb j 0 then -1 else 0)%Z 3 b =
    (Ok (ts, ys, A2 (K:=RNum) 2 2 C), mkBase (Some xt) (Some ([0; 1/4; 1/2; 3/4; 1] : list RNum)) g) /\ spread 5 2 ts /\
  nth 0 ys (fun _ _ => 0) 1%nat 0%nat = nth (nth 0 ts 0%nat) xt vzero0 2%nat + 2 * nth 1 u 0.
Proof.
  intros G g0. set (xt := map (fun (k i : nat) => INR (3 * k + i)) (seq 0 5)).
  set (b := mkBase (G:=G) (X:=vec RNum) (Some (xt : list (vec RNum))) (Some ([0; 1/4; 1/2; 3/4; 1] : list RNum)) g0).
  destruct (C39_index_table_refuted G 3 b [0; 1/4; 1/2; 3/4; 1] xt 0 (1/4) 5 (DInt 2) 2 2 2 2
    (fun i j => if Nat.eqb i 0 then Z.of_nat j else if Nat.eqb j 0 then -1 else 0)%Z
    (fun i j => if Nat.eqb i 0 then j else if Nat.eqb j 0 then 2%nat else 0%nat) (A0 (K:=RNum) 4) (fun _ => 4)) as (u & g & Eu & H & _).
  - reflexivity.
  - reflexivity.
  - split; [reflexivity|]. intros i Hi. destruct i as [|[|[|[|[|i]]]]]; cbn in Hi |- *; try lra; lia.
  - lia.
  - lra.
  - reflexivity.
  - split; [right; exists 2%Z; split; [reflexivity|lra]|lra].
  - exists 2%Z. lra.
  - unfold int_part. cbn. lra.
  - intros i j Hi Hj. destruct i as [|[|i]], j as [|[|j]]; try lia; split; cbn; lia.
  - lia.
  - intros i. reflexivity.
  - destruct (H (or_introl eq_refl)) as (ts & ys & C & E & _ & _ & Hs & _ & Hv).
    exists ts, ys, C, g. cbv zeta. change (normals G 4 g0 = (u, g)) in Eu. rewrite Eu. cbn [fst].
    split; [exact E|]. split; [exact Hs|]. rewrite (Hv 0%nat 1%nat 0%nat) by lia. cbn [Nat.eqb]. f_equal.
    replace (sqrt 4) with 2; [reflexivity|]. replace 4 with (2 * 2) by lra. rewrite sqrt_square; lra.
Qed.
