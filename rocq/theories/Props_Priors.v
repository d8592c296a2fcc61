(** * Property C61: priors given by lists *)
From Coq Require Import ZArith List Bool Arith Reals Lra Lia Sorted String.
From Verif Require Import Num Arr M_LinAlg M_Prior M_Proc M_Sim M_Sim1 M_SimN Spec_Utils Spec_Gauss Spec_GaussN Spec_Ode Spec_L63 Spec_L96 Spec_L96E Spec_Prior Spec_Like Spec_Proc
  Spec_Sim Spec_Sim1 Spec_SimN Spec_Problem Spec_ProblemN P_Noise P_RMat P_Spectral P_Sim P_Sim2 P_Main P_Problem2 P_SimN P_SimN2 P_ProblemN3 Props_Sim Props_SimN
  Spec_Priors P_ProblemN3 P_Priors Props_Problem.
From Verif Require P_PriorMany.
Import ListNotations.
Local Open Scope string_scope.
Local Open Scope R_scope.

(** The prior mean is a number, a list or rows, the prior covariance a number, a list of variances or a matrix.
    The run minimises the free energy with the Gaussian prior of this mean (the first row) and these variances; a
    mean with one axis adds [excess] to the divergence, so do the other rows, a mean given as one row does not. *)
Theorem C61_used_partial :    (* missing: covariances of different components; the terms of C56 *)
  forall (G : Rng RNum) eigvals solve (spline : list R -> list R -> R -> R) (show : parn -> string),
  let W := worldn RNum G eigvals solve ln PI spline show in
  forall k params name method sys theta obs xmu xtau C th v mu tau flat t0 tf dt density seed (h : r_state G) (s : Sim W),
  let d := dim_n k in (k = L96 -> solver_ok solve) ->
  entries_p params name method sys theta obs xmu xtau t0 tf dt density seed ->
  acceptable_p k name method C v t0 tf dt density seed ->
  mean_n d (as_numbers xmu) mu flat -> cov_n d (as_numbers xtau) tau -> (forall i, (i < d)%nat -> 0 < tau i) ->
  drift_is k theta th -> sys_n d sys C -> obs_n d obs v -> spectrum d C (eigvals d C) ->
  exists n m T, reaches t0 dt tf n /\ int_part (INR (n - 1) * dt * rate_val density) (Z.of_nat m) /\ tableau_named method T /\
  ((1 <= m)%nat -> (m + 1 < n)%nat ->
   exists g0 g1 g2 g3 x ts ys z s1,
     let m0 := fun i => nth 0 x zvec i + 1 / 10 * nth i z 0 in
     sim_setup W params DNone h s = (Ok tt, s1) /\
     starts G seed h g0 /\ path_n G k C th dt n g0 g1 x /\ observed_n G d n m v x g1 g2 ts ys /\ normals G d g2 = (z, g3) /\
     ((exists s2 a b fx mt st mt1 st1 a0 b0 mt0 st0 f0 a1 b1 f1,
         sim_run W s1 = (Ok tt, s2) /\
         holds_mats (s_out s2) "at" d n a /\ holds_vecs (s_out s2) "bt" d n b /\ has (s_out s2) "fx" (OScal (fx : RNum)) /\
         holds_vecs (s_out s2) "mt" d n mt /\ holds_mats (s_out s2) "st" d n st /\
         has (s_out s2) "m0" (OArr [d] (map m0 (seq 0 d) : list RNum)) /\
         evaluates_p k T C th dt n flat mu tau v ts ys m0 a b mt1 st1 fx /\
         starting_point_n spline d C t0 dt n ts ys a0 b0 /\
         evaluates_p k T C th dt n flat mu tau v ts ys m0 a0 b0 mt0 st0 f0 /\
         fx <= f0 /\
         evaluates_p k T C th dt n flat mu tau v ts ys m0 a1 b1 mt st f1) \/
      (k = L96 /\ sim_run W s1 = (Err LinAlgError, s1)))).
Proof. intros G eigvals solve spline show W. exact (problemp G eigvals solve spline show). Qed.
Print Assumptions C61_used_partial.

(** PriorKL0 with means of several rows: every row after the first adds half of its squared distance *)
Theorem C26_nd_rows_partial :    (* missing: one term for one mean *)
  forall d r (mu T m S : nat -> nat -> R), symm d S -> posdef d S -> symm d T -> posdef d T -> commute d S T ->
  exists k Ti, KLn d (m 0%nat) S (mu 0%nat) T k /\ is_inv d T Ti /\
    kl0_nd_rows (K:=RNum) ln d (Datatypes.S r) mu T m S =
    Ok (k + 1 / 2 * Rsum r (fun q => Rsum d (fun i => Rsum d (fun j =>
          (m (Datatypes.S q) i - mu (Datatypes.S q) i) * Ti i j * (m (Datatypes.S q) j - mu (Datatypes.S q) j))))).
Proof. exact P_PriorMany.kl0_many. Qed.
Print Assumptions C26_nd_rows_partial.
(** the same row twice is no other mean, but another objective *)
Theorem C61_rows_refuted :
  forall d t (mu tau m0 : nat -> R), d <> 1%nat -> (forall i, (i < d)%nat -> 0 < tau i) -> (exists i, (i < d)%nat /\ m0 i <> mu i) ->
  mean_n d (PLeaf (NArr t (A2 (K:=RNum) 1 d (fun _ => mu)))) mu (Rows []) /\
  mean_n d (PLeaf (NArr t (A2 (K:=RNum) 2 d (fun _ => mu)))) mu (Rows [mu]) /\
  excess d (Rows []) m0 mu tau < excess d (Rows [mu]) m0 mu tau.
Proof.
  intros d t mu tau m0 Hd Ht (i & Hi & Hne). apply Nat.eqb_neq in Hd.
  split; [|split].
  - right. exists t, 0%nat, d, (fun _ => mu). split; [reflexivity|]. split; [right; reflexivity|]. cbv zeta. rewrite Hd. split; reflexivity.
  - right. exists t, 1%nat, d, (fun _ => mu). split; [reflexivity|]. split; [right; reflexivity|]. cbv zeta. rewrite Hd. split; reflexivity.
  - unfold excess. cbn [map fold_right].
    assert (H : 0 < Rsum d (fun j => (m0 j - mu j) ^ 2 / tau j)).
    { assert (Hp : forall j, (j < d)%nat -> 0 <= (m0 j - mu j) ^ 2 / tau j).
      { intros j Hj. apply Rmult_le_pos; [apply pow2_ge_0|left; apply Rinv_0_lt_compat, Ht, Hj]. }
      assert (Hi0 : 0 < (m0 i - mu i) ^ 2 / tau i).
      { apply Rmult_lt_0_compat; [|apply Rinv_0_lt_compat, Ht, Hi]. replace ((m0 i - mu i) ^ 2) with (Rsqr (m0 i - mu i)) by (unfold Rsqr; ring).
        apply Rsqr_pos_lt. lra. }
      clear Hd Ht Hne. induction d as [|d IH]; [lia|]. cbn [Rsum].
      destruct (Nat.eq_dec i d) as [->|].
      - assert (0 <= Rsum d (fun j => (m0 j - mu j) ^ 2 / tau j)) by (apply Rsum_nonneg; intros j Hj; apply Hp; lia). lra.
      - assert (0 < Rsum d (fun j => (m0 j - mu j) ^ 2 / tau j)) by (apply IH; [lia|intros j Hj; apply Hp; lia]).
        pose proof (Hp d ltac:(lia)). lra. }
    lra.
Qed.
Print Assumptions C61_rows_refuted.
(** lists of another length: setup raises ValueError *)
Theorem C61_misfit :
  forall (G : Rng RNum) eigvals solve (spline : list R -> list R -> R -> R) (show : parn -> string),
  let W := worldn RNum G eigvals solve ln PI spline show in
  forall k params name method sys theta obs xmu xtau C th v t0 tf dt density seed (h : r_state G) (s : Sim W),
  let d := dim_n k in
  entries_p params name method sys theta obs xmu xtau t0 tf dt density seed ->
  acceptable_p k name method C v t0 tf dt density seed ->
  drift_is k theta th -> sys_n d sys C -> obs_n d obs v -> spectrum d C (eigvals d C) ->
  mean_misfit d (as_numbers xmu) \/ (exists mu flat, mean_n d (as_numbers xmu) mu flat) /\ cov_misfit d (as_numbers xtau) ->
  fst (sim_setup W params DNone h s) = Err ValueError.
Proof. intros G eigvals solve spline show W. exact (misfit G eigvals solve spline show). Qed.
Print Assumptions C61_misfit.

(** Parameters that agree except for the covariances between different components of the prior lead to the same
    outcome of run, with the same results, though the divergences from the two priors differ. *)
Theorem C61_covariance_refuted :
  (forall (G : Rng RNum) eigvals solve (spline : list R -> list R -> R -> R) (show : parn -> string),
   let W := worldn RNum G eigvals solve ln PI spline show in
   forall params params' mu t t' d (M M' : nat -> nat -> R) (h : r_state G) (s s1 : Sim W),
   agree_but_prior params params' mu (PLeaf (NArr t (A2 (K:=RNum) d d M))) mu (PLeaf (NArr t' (A2 (K:=RNum) d d M'))) ->
   (forall i, M i i = M' i i) ->
   sim_setup W params DNone h s = (Ok tt, s1) ->
   exists s1', sim_setup W params' DNone h s = (Ok tt, s1') /\
     fst (sim_run W s1') = fst (sim_run W s1) /\ s_out (snd (sim_run W s1')) = s_out (snd (sim_run W s1))) /\
  (exists M M', (forall i, M i i = M' i i) /\ symm 3 M /\ posdef 3 M /\ symm 3 M' /\ posdef 3 M' /\
   forall m, exists k k', KLn 3 m (times_id (1 / 5)) m M k /\ KLn 3 m (times_id (1 / 5)) m M' k' /\ k < k').
Proof.
  split.
  - intros G eigvals solve spline show W params params' mu t t' d M M' h s s1 (H1 & H2) HM Hs.
    apply (same_prior W params params' mu _ mu _ h s s1 (fun _ => eq_refl) H1 H2 (fun _ => eq_refl)); [|exact Hs].
    apply diagonal_counts. exact HM.
  - exists (corr 0), (corr (1 / 10)). split; [intros i; unfold corr; rewrite Nat.eqb_refl; reflexivity|].
    split; [apply corr_symm|]. split; [rewrite corr_zero; apply P_ProblemN2.times_id_posdef; lra|].
    split; [apply corr_symm|]. split; [apply corr_pd|]. apply divergences_differ.
Qed.
Print Assumptions C61_covariance_refuted.

(** The Lorenz-63 file with the prior mean [[1, 2, 3]] and the prior variances [1/2, 1, 2]; with the mean [1, 2]
    setup fails *)
Definition l3d_prior (mu tau : parn) : parn :=
  match l3d_list with PObj d => PObj (dset "Prior" (PObj [("mu0", mu); ("tau0", tau)]) d) | x => x end.
Definition mean_row : parn := PLeaf (NArr Int64 (A2 (K:=RNum) 1 3 (fun _ => three 1 2 3))).
Definition var_list : parn := PLeaf (NArr Float64 (A1 (K:=RNum) 3 (three (1 / 2) 1 2))).
Example C61_instance :
  forall (G : Rng RNum) solve spline show h,
  let W := worldn RNum G diag_eigvals solve ln PI spline show in
  let C := fun i j : nat => if Nat.eqb i j then three 10 10 10 i else 0 in
  (forall s : Sim W, exists n s1 s2 ts ys T m0 a b fx mt st,
    Z.of_nat n = 2001%Z /\ sim_setup W (l3d_prior mean_row var_list) DNone h s = (Ok tt, s1) /\ sim_run W s1 = (Ok tt, s2) /\
    has (s_out s2) "fx" (OScal (fx : RNum)) /\
    evaluates_p L63 T C (three 10 28 (2667 / 1000)) (1 / 100) n (Rows []) (three 1 2 3) (three (1 / 2) 1 2) (fun _ => 2) ts ys m0 a b mt st fx) /\
  (forall s : Sim W, fst (sim_setup W (l3d_prior (PLeaf (NArr Int64 (A1 (K:=RNum) 2 (three 1 2 3)))) var_list) DNone h s) = Err ValueError).
Proof.
  intros G solve spline show h W C.
  assert (HC : diagonal 3 C).
  { intros i j _ _ Hne. unfold C. destruct (Nat.eqb_spec i j); [contradiction|reflexivity]. }
  assert (Ha : acceptable_p L63 "L63" "Heun" C (fun _ => 2) 0 20 (1 / 100) (Whole 5) (Some 31415926535%Z)).
  { unfold acceptable_p. cbn [dim_n name_n]. split; [apply diagonal_symm; exact HC|]. split.
    { apply diag_posdef; [exact HC|]. intros i Hi. unfold C. rewrite Nat.eqb_refl. unfold three.
      destruct i as [|[|[|i]]]; cbn; lra || lia. }
    split; [intros; lra|]. split; [repeat split; try lra; exists 100%Z; cbn [rate_val]; lra|]. split; [cbn [rate_val]; lra|]. split; [cbn; unfold Spec_Ode.letter_variant; auto|]. split.
    + exists "heun". split; [cbn; auto|]. cbn. unfold Spec_Ode.letter_variant.
      repeat split; try (left; reflexivity). right. exists 7%nat. cbn. lia.
    + cbn. lia. }
  split.
  - intros s.
    destruct (C61_used_partial G diag_eigvals solve spline show L63 (l3d_prior mean_row var_list) "L63" "Heun"
      (PLeaf (NArr Float64 (A1 (K:=RNum) 3 (three 10 10 10)))) (PLeaf (NArr Float64 (A1 (K:=RNum) 3 (three 10 28 (2667 / 1000)))))
      (PLeaf (NNum (2 : RNum))) mean_row var_list C (three 10 28 (2667 / 1000)) (fun _ => 2) (three 1 2 3) (three (1 / 2) 1 2) (Rows []) 0 20 (1 / 100) (Whole 5) (Some 31415926535%Z) h s)
      as (n & m & T & Hr & Hm & HT & H).
    + discriminate.
    + unfold entries_p. do 8 eexists. entries_tac.
    + exact Ha.
    + right. do 4 eexists. split; [reflexivity|]. split; [right; reflexivity|]. split; reflexivity.
    + right. left. eexists. reflexivity.
    + intros i Hi. cbn in Hi. unfold three. destruct i as [|[|[|i]]]; cbn; lra || lia.
    + eexists. reflexivity.
    + left. exists (three 10 10 10). split; reflexivity.
    + left. exists 2. split; [left; reflexivity|reflexivity].
    + apply diag_spectrum. exact HC.
    + apply (points 2000) in Hr; [|lra|lra|lia].
      replace (INR (n - 1)) with 2000 in Hm by (rewrite INR_IZR_INZ; f_equal; lia).
      cbn [rate_val] in Hm; apply (count 100) in Hm; [|lra].
      destruct (H ltac:(lia) ltac:(lia)) as (g0 & g1 & g2 & g3 & x & ts & ys & z & s1 & P).
      cbv zeta in P. destruct P as (P1 & P2 & P3 & P4 & _ & [P|[P _]]); [|discriminate].
      destruct P as (s2 & a & b & fx & mt & st & mt1 & st1 & a0 & b0 & mt0 & st0 & f0 & a1 & b1 & f1 & E & O1 & O2 & O3 & _ & _ & _ & V & _).
      eexists n, s1, s2, ts, ys, T, _, a, b, fx, mt1, st1.
      split; [lia|]. repeat (split; [eassumption|]). exact V.
  - intros s.
    apply (C61_misfit G diag_eigvals solve spline show L63 (l3d_prior (PLeaf (NArr Int64 (A1 (K:=RNum) 2 (three 1 2 3)))) var_list) "L63" "Heun"
      (PLeaf (NArr Float64 (A1 (K:=RNum) 3 (three 10 10 10)))) (PLeaf (NArr Float64 (A1 (K:=RNum) 3 (three 10 28 (2667 / 1000)))))
      (PLeaf (NNum (2 : RNum))) (PLeaf (NArr Int64 (A1 (K:=RNum) 2 (three 1 2 3)))) var_list C (three 10 28 (2667 / 1000)) (fun _ => 2) 0 20 (1 / 100) (Whole 5) (Some 31415926535%Z) h s).
    + unfold entries_p. do 8 eexists. entries_tac.
    + exact Ha.
    + eexists. reflexivity.
    + left. exists (three 10 10 10). split; reflexivity.
    + left. exists 2. split; [left; reflexivity|reflexivity].
    + apply diag_spectrum. exact HC.
    + left. left. do 3 eexists. split; [reflexivity|]. cbn. lia.
Qed.
(** booleans: [true, false, true] is the mean (1, 0, 1), two of them fit no vector of three *)
Example C61_booleans :
  mean_n 3 (as_numbers (PLeaf (NMask [true; false; true]))) (fun i => if nth i [true; false; true] false then 1 else 0) Flat /\
  mean_misfit 3 (as_numbers (PLeaf (NMask [true; false]))) /\ cov_misfit 3 (as_numbers (PLeaf (NMask [true; false]))).
Proof.
  split; [left; split; [reflexivity|]; right; left; eexists; reflexivity|].
  split; left; do 3 eexists; (split; [reflexivity|]; cbn; lia).
Qed.
(** two rows (0, 0, 0), unit variances, m0 = (1, 2, 0): the second row adds 5/2 *)
Example C61_rows_instance :
  excess 3 (Rows [fun _ => 0]) (three 1 2 0) (fun _ => 0) (fun _ => 1) = 5 / 2 /\
  exists k, KLn 3 (three 1 2 0) ident (fun _ => 0) ident k /\
    kl0_nd_rows (K:=RNum) ln 3 2 (fun _ _ => 0) ident (fun _ => three 1 2 0) ident = Ok (k + 5 / 2).
Proof.
  split; [unfold excess, three; cbn; field|].
  destruct (C26_nd_rows_partial 3 1 (fun _ _ => 0) ident (fun _ => three 1 2 0) ident (P_Prior.ident_symm 3) (P_Prior.ident_posdef 3) (P_Prior.ident_symm 3) (P_Prior.ident_posdef 3)
    ltac:(intros i j _ _; reflexivity)) as (k & Ti & K1 & K2 & K3).
  exists k. split; [exact K1|]. rewrite K3. do 2 f_equal.
  assert (V : forall i j, (i < 3)%nat -> (j < 3)%nat -> Ti i j = ident i j).
  { intros i j Hi Hj. destruct K2 as [K2 _]. specialize (K2 i j Hi Hj). rewrite <- K2. symmetry.
    rewrite (Rsum_single 3 _ i Hi); [unfold ident; rewrite Nat.eqb_refl; ring|].
    intros q _ Hq. unfold ident. destruct (Nat.eqb_spec i q); [congruence|ring]. }
  cbn [Rsum]. rewrite !V by lia. unfold ident, three. cbn. field.
Qed.
