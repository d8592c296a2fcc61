(** * Property C56: what setup prepares and run minimises *)
From Coq Require Import ZArith List Bool Arith Reals Lra Lia String.
From Verif Require Import Num Arr M_LinAlg M_Proc M_Sim M_Sim1 M_SimN Spec_Utils Spec_Gauss Spec_GaussN Spec_Ode Spec_L63 Spec_L96 Spec_L96E Spec_Prior Spec_Like Spec_Proc
  Spec_Sim Spec_Sim1 Spec_SimN Spec_Problem Spec_ProblemN P_Noise P_RMat P_Spectral P_Sim P_Sim2 P_Main P_Problem2 P_SimN P_SimN2 P_ProblemN3 Props_Sim Props_SimN.
Import ListNotations.
Local Open Scope string_scope.
Local Open Scope R_scope.

(** one dimension: the generator is seeded as the parameters say; setup draws a path of the named system on the
    given window, observations of that path, and the initial mean, in this order; run returns variational
    parameters whose free energy for these data, as the code takes it, is the returned number, and that number is
    not above the one at the interpolation of the observations.  The moments of the result solve the
    moment equations for some variational parameters *)
Theorem C56_one_dim_partial :    (* missing: variances that are not positive, the optimality of the result, and the terms of C21 and C26 *)
  forall (G : Rng RNum) (spline : list R -> list R -> R -> R) (show : pv (leaf RNum) -> string),
  let W := world1 RNum G ln PI spline show in
  forall params name method sigma theta r t0 tf dt mu0 tau0 density seed (h : r_state G) (s : Sim W),
  entries params name method sigma theta r t0 tf dt mu0 tau0 density seed ->
  acceptable name method sigma theta t0 tf dt density seed -> 0 < tau0 -> 0 < r ->
  exists n m T, reaches t0 dt tf n /\ int_part (INR (n - 1) * dt * rate_val density) (Z.of_nat m) /\ tableau_named method T /\
  ((1 <= m)%nat -> (m + 1 < n)%nat ->
   exists g0 g1 g2 g3 x ts ys z s1 s2 a b fx mt st mt1 st1 a0 b0 mt0 st0 f0 a1 b1 f1,
     let m0 := nth 0 x 0 + 1 / 10 * z in let s0 := 1 / 5 in
     sim_setup W params DNone h s = (Ok tt, s1) /\ sim_run W s1 = (Ok tt, s2) /\
     starts G seed h g0 /\ path_named G name sigma theta dt n g0 g1 x /\ observed G n m r x g1 g2 ts ys /\ r_normal G g2 = (z, g3) /\
     has (s_out s2) "at" (OArr [n] (a : list RNum)) /\ has (s_out s2) "bt" (OArr [n] (b : list RNum)) /\
     has (s_out s2) "fx" (OScal (fx : RNum)) /\
     has (s_out s2) "mt" (OArr [n] (mt : list RNum)) /\ has (s_out s2) "st" (OArr [n] (st : list RNum)) /\
     has (s_out s2) "m0" (OScal (m0 : RNum)) /\ has (s_out s2) "s0" (OScal (s0 : RNum)) /\
     evaluates T name sigma theta dt n mu0 tau0 r ts ys m0 s0 a b mt1 st1 fx /\
     starting_point spline sigma t0 dt n ts ys a0 b0 /\
     evaluates T name sigma theta dt n mu0 tau0 r ts ys m0 s0 a0 b0 mt0 st0 f0 /\
     fx <= f0 /\
     evaluates T name sigma theta dt n mu0 tau0 r ts ys m0 s0 a1 b1 mt st f1).
Proof. intros G spline show W. exact (problem1 G spline show). Qed.
Print Assumptions C56_one_dim_partial.
Example C56_one_dim_instance :
  forall (G : Rng RNum) (spline : list R -> list R -> R -> R) (show : pv (leaf RNum) -> string),
  let W := world1 RNum G ln PI spline show in
  forall (h : r_state G) (s : Sim W),
  exists s1 s2 g1 g2 g3 x ts ys z, sim_setup W (ou_params (Whole 3)) DNone h s = (Ok tt, s1) /\ sim_run W s1 = (Ok tt, s2) /\
    path_named G "ou" (8 / 10) 2 (1 / 10) 11 h g1 x /\ observed G 11 3 (4 / 100) x g1 g2 ts ys /\ r_normal G g2 = (z, g3) /\
    has (s_out s2) "m0" (OScal (nth 0 x 0 + 1 / 10 * z : RNum)).
Proof.
  intros G spline show W h s.
  destruct (C56_one_dim_partial G spline show _ _ _ _ _ _ _ _ _ _ _ _ _ h s (ou_entries (Whole 3)) (ou_acceptable (Whole 3) ltac:(cbn; lra)) ltac:(lra) ltac:(lra))
    as (n & m & T & Hr & Hm & _ & H).
  apply ou_points in Hr. subst n. cbn [rate_val] in Hm. destruct Hm as [Hm1 Hm2]. replace (INR (11 - 1)) with 10 in * by (cbn; lra).
  assert (m = 3%nat).
  { apply Nat2Z.inj. assert (C1 : (Z.of_nat m < 4)%Z) by (apply lt_IZR; lra). assert (C2 : (2 < Z.of_nat m)%Z) by (apply lt_IZR; lra). lia. }
  subst m. destruct (H ltac:(lia) ltac:(lia)) as (g0 & g1 & g2 & g3 & x & ts & ys & z & s1 & s2 & a & b & fx & mt & st & mt1 & st1 & a0 & b0 & mt0 & st0 & f0 & a1 & b1 & f1 & P).
  cbv zeta in P. destruct P as (P1 & P2 & P3 & P4 & P5 & P6 & _ & _ & _ & _ & _ & P7 & _). cbn [starts] in P3. subst g0.
  exists s1, s2, g1, g2, g3, x, ts, ys, z. repeat (split; [assumption|]). assumption.
Qed.

(** Lorenz-63 and Lorenz-96: the same with vectors.  For Lorenz-96 the run can also end with LinAlgError *)
Theorem C56_lorenz_partial :    (* missing: other shapes and noise, the optimality of the result, and the terms of C26, C28 and C50 *)
  forall (G : Rng RNum) eigvals solve (spline : list R -> list R -> R -> R) (show : parn -> string),
  let W := worldn RNum G eigvals solve ln PI spline show in
  forall k params name method sys theta obs C th v t0 tf dt mu0 tau0 density seed (h : r_state G) (s : Sim W),
  let d := dim_n k in (k = L96 -> solver_ok solve) ->
  entries_n params name method sys theta obs t0 tf dt mu0 tau0 density seed ->
  acceptable_n k name method C v t0 tf dt tau0 density seed ->
  drift_is k theta th -> sys_n d sys C -> obs_n d obs v -> spectrum d C (eigvals d C) ->
  exists n m T, reaches t0 dt tf n /\ int_part (INR (n - 1) * dt * rate_val density) (Z.of_nat m) /\ tableau_named method T /\
  ((1 <= m)%nat -> (m + 1 < n)%nat ->
   exists g0 g1 g2 g3 x ts ys z s1,
     let m0 := fun i => nth 0 x zvec i + 1 / 10 * nth i z 0 in
     sim_setup W params DNone h s = (Ok tt, s1) /\
     starts G seed h g0 /\ path_n G k C th dt n g0 g1 x /\ observed_n G d n m v x g1 g2 ts ys /\ normals G d g2 = (z, g3) /\
     ((exists s2 a b fx mt st mt1 st1 a0 b0 mt0 st0 f0 a1 b1 f1,
         sim_run W s1 = (Ok tt, s2) /\
         holds_mats (s_out s2) "at" d n a /\ holds_vecs (s_out s2) "bt" d n b /\ has (s_out s2) "fx" (OScal (fx : RNum)) /\
         holds_vecs (s_out s2) "mt" d n mt /\ holds_mats (s_out s2) "st" d n st /\
         has (s_out s2) "m0" (OArr [d] (map m0 (seq 0 d) : list RNum)) /\
         evaluates_n k T C th dt n mu0 tau0 v ts ys m0 a b mt1 st1 fx /\
         starting_point_n spline d C t0 dt n ts ys a0 b0 /\
         evaluates_n k T C th dt n mu0 tau0 v ts ys m0 a0 b0 mt0 st0 f0 /\
         fx <= f0 /\
         evaluates_n k T C th dt n mu0 tau0 v ts ys m0 a1 b1 mt st f1) \/
      (k = L96 /\ sim_run W s1 = (Err LinAlgError, s1)))).
Proof. intros G eigvals solve spline show W. exact (problemn G eigvals solve spline show). Qed.
Print Assumptions C56_lorenz_partial.
(** the file of C52_instance: the path starts at the released Lorenz-63 state, there are 100 observations of all
    three components, and the run returns a free energy not above the one at the interpolation *)
Example C56_lorenz_instance :
  forall (G : Rng RNum) solve spline show h,
  let W := worldn RNum G diag_eigvals solve ln PI spline show in
  let C := fun i j : nat => if Nat.eqb i j then three 10 10 10 i else 0 in
  forall s : Sim W, exists n s1 s2 g0 g1 g2 x ts ys T m0 a b fx mt st f0 a0 b0 mt0 st0,
    Z.of_nat n = 2001%Z /\ sim_setup W l3d_list DNone h s = (Ok tt, s1) /\ sim_run W s1 = (Ok tt, s2) /\
    starts G (Some 31415926535%Z) h g0 /\ path_n G L63 C (three 10 28 (2667 / 1000)) (1 / 100) n g0 g1 x /\
    observed_n G 3 n 100 (fun _ => 2) x g1 g2 ts ys /\ tableau_named "Heun" T /\
    holds_mats (s_out s2) "at" 3 n a /\ holds_vecs (s_out s2) "bt" 3 n b /\ has (s_out s2) "fx" (OScal (fx : RNum)) /\
    evaluates_n L63 T C (three 10 28 (2667 / 1000)) (1 / 100) n 1 (1 / 2) (fun _ => 2) ts ys m0 a b mt st fx /\
    evaluates_n L63 T C (three 10 28 (2667 / 1000)) (1 / 100) n 1 (1 / 2) (fun _ => 2) ts ys m0 a0 b0 mt0 st0 f0 /\ fx <= f0.
Proof.
  intros G solve spline show h W C s.
  assert (HC : diagonal 3 C).
  { intros i j _ _ Hne. unfold C. destruct (Nat.eqb_spec i j); [contradiction|reflexivity]. }
  destruct (C56_lorenz_partial G diag_eigvals solve spline show L63 l3d_list "L63" "Heun"
    (PLeaf (NArr Float64 (A1 (K:=RNum) 3 (three 10 10 10)))) (PLeaf (NArr Float64 (A1 (K:=RNum) 3 (three 10 28 (2667 / 1000)))))
    (PLeaf (NNum (2 : RNum))) C (three 10 28 (2667 / 1000)) (fun _ => 2) 0 20 (1 / 100) 1 (1 / 2) (Whole 5) (Some 31415926535%Z) h s)
    as (n & m & T & Hr & Hm & HT & H).
  - discriminate.
  - unfold entries_n. do 10 eexists. entries_tac.
  - unfold acceptable_n. cbn [dim_n name_n]. split; [apply diagonal_symm; exact HC|]. split.
    { apply diag_posdef; [exact HC|]. intros i Hi. unfold C. rewrite Nat.eqb_refl. unfold three.
      destruct i as [|[|[|i]]]; cbn; lra || lia. }
    split; [intros; lra|]. split; [repeat split; try lra; exists 100%Z; cbn [rate_val]; lra|]. split; [cbn [rate_val]; lra|]. split; [cbn; unfold Spec_Ode.letter_variant; auto|]. split.
    + exists "heun". split; [cbn; auto|]. cbn. unfold Spec_Ode.letter_variant.
      repeat split; try (left; reflexivity). right. exists 7%nat. cbn. lia.
    + cbn. lia.
  - eexists. reflexivity.
  - left. exists (three 10 10 10). split; reflexivity.
  - left. exists 2. split; [left; reflexivity|reflexivity].
  - apply diag_spectrum. exact HC.
  - apply (points 2000) in Hr; [|lra|lra|lia].
    replace (INR (n - 1)) with 2000 in Hm by (rewrite INR_IZR_INZ; f_equal; lia).
    cbn [rate_val] in Hm; apply (count 100) in Hm; [|lra].
    destruct (H ltac:(lia) ltac:(lia)) as (g0 & g1 & g2 & g3 & x & ts & ys & z & s1 & P).
    cbv zeta in P. destruct P as (P1 & P2 & P3 & P4 & _ & [P|[P _]]); [|discriminate].
    destruct P as (s2 & a & b & fx & mt & st & mt1 & st1 & a0 & b0 & mt0 & st0 & f0 & a1 & b1 & f1 & E & O1 & O2 & O3 & _ & _ & _ & V & _ & V0 & L & _).
    replace 100%nat with m by lia.
    eexists n, s1, s2, g0, g1, g2, x, ts, ys, T, _, a, b, fx, mt1, st1, f0, a0, b0, mt0, st0.
    split; [lia|]. repeat (split; [first [eassumption|exact P2]|]). exact L.
Qed.
