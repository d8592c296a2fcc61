(** * Property C55: observation operators *)
From Coq Require Import ZArith List Bool Arith Reals Lra Lia String.
From Verif Require Import Num Arr M_LinAlg M_Like M_Proc M_Sim M_Sim1 M_SimN Spec_Utils Spec_Det Spec_Ode Spec_Prior Spec_L63 Spec_Like Spec_Proc Spec_Sim Spec_Sim1 Spec_SimN Spec_Oper
  P_Det P_Noise P_RMat P_Spectral P_Prior P_Like P_Proc P_Sim P_Sim2 P_Main P_SimN P_SimN2 P_Oper P_Oper2 P_Oper3 P_Oper4 Props_Sim Props_SimN.
Import ListNotations.
Local Open Scope string_scope.
Local Open Scope R_scope.

(** one dimension: no number, text, object or list that counts as true gets past setup *)
Theorem C55_one_dim_refuted :
  forall (G : Rng RNum) (spline : list R -> list R -> R -> R) show,
  let W := world1 RNum G ln PI spline show in
  forall op params name method sigma theta r t0 tf dt mu0 tau0 density seed h (s : Sim W),
  entries_op op params name method sigma theta r t0 tf dt mu0 tau0 density seed ->
  acceptable name method sigma theta t0 tf dt density seed -> counts_as_true op ->
  exists s', sim_setup W params DNone h s = (Err IndexError, s').
Proof. intros G spline show W op params name method sigma theta r t0 tf dt mu0 tau0 density seed h s. apply sim1_operator. Qed.
Print Assumptions C55_one_dim_refuted.
(** true itself raises ValueError in setup, or in run when there is one observation *)
Theorem C55_one_dim_true_refuted :
  forall (G : Rng RNum) (spline : list R -> list R -> R -> R) show,
  let W := world1 RNum G ln PI spline show in
  forall params name method sigma theta r t0 tf dt mu0 tau0 density seed h (s : Sim W),
  entries_op (PLeaf (LBool true)) params name method sigma theta r t0 tf dt mu0 tau0 density seed ->
  acceptable name method sigma theta t0 tf dt density seed ->
  exists n m, reaches t0 dt tf n /\ int_part (INR (n - 1) * dt * rate_val density) (Z.of_nat m) /\
    (m <> 1%nat -> exists s', sim_setup W params DNone h s = (Err ValueError, s')) /\
    (m = 1%nat -> exists s1, sim_setup W params DNone h s = (Ok tt, s1) /\ sim_run W s1 = (Err ValueError, s1)).
Proof. intros G spline show W params name method sigma theta r t0 tf dt mu0 tau0 density seed h s. apply sim1_true. Qed.
Print Assumptions C55_one_dim_true_refuted.
(** zero and false: all observations are kept and the run completes as it does without operator *)
Theorem C55_one_dim_zero_partial :
  forall (G : Rng RNum) (spline : list R -> list R -> R -> R) show,
  let W := world1 RNum G ln PI spline show in
  forall op params name method sigma theta r t0 tf dt mu0 tau0 density seed h (s : Sim W),
  entries_op op params name method sigma theta r t0 tf dt mu0 tau0 density seed ->
  acceptable name method sigma theta t0 tf dt density seed -> number op 0 ->
  exists n m, reaches t0 dt tf n /\ int_part (INR (n - 1) * dt * rate_val density) (Z.of_nat m) /\ (m + 1 <= n)%nat /\
    exists s1 (ys : list R), sim_setup W params DNone h s = (Ok tt, s1) /\
      has (s_data s1) "obs_y" (SVal (W:=W) (VVals (ys : list RNum))) /\ List.length ys = m /\
      ((1 <= m)%nat -> (m + 1 < n)%nat -> exists s2, sim_run W s1 = (Ok tt, s2) /\ completed n (s_out s2)) /\
      ((1 <= m)%nat -> (m + 1 = n)%nat -> sim_run W s1 = (Err ValueError, s1)) /\
      (m = 0%nat -> sim_run W s1 = (Err IndexError, s1)).
Proof.
  intros G spline show W op params name method sigma theta r t0 tf dt mu0 tau0 density seed h s He Ha Hz.
  destruct (zero_false op Hz) as [Hf Hv].
  destruct (sim1_false G spline show op (Ok (0 : RNum)) params name method sigma theta r t0 tf dt mu0 tau0 density seed h s He Ha Hf Hv)
    as (n & m & H1 & H2 & H3 & s1 & ys & H4 & H5 & H6 & H7 & H8 & H9).
  exists n, m. repeat (split; [assumption|]). exists s1, ys. repeat (split; [assumption|]). split; [|auto].
  intros A B. apply (proj1 (H7 A B) _ eq_refl).
Qed.
Print Assumptions C55_one_dim_zero_partial.
(** empty text, objects and lists: setup keeps all observations, and the run raises *)
Theorem C55_one_dim_empty_refuted :
  forall (G : Rng RNum) (spline : list R -> list R -> R -> R) show,
  let W := world1 RNum G ln PI spline show in
  forall op e params name method sigma theta r t0 tf dt mu0 tau0 density seed h (s : Sim W),
  entries_op op params name method sigma theta r t0 tf dt mu0 tau0 density seed ->
  acceptable name method sigma theta t0 tf dt density seed -> empty_op1 op e ->
  exists n m, reaches t0 dt tf n /\ int_part (INR (n - 1) * dt * rate_val density) (Z.of_nat m) /\ (m + 1 <= n)%nat /\
    exists s1 (ys : list R), sim_setup W params DNone h s = (Ok tt, s1) /\
      has (s_data s1) "obs_y" (SVal (W:=W) (VVals (ys : list RNum))) /\ List.length ys = m /\
      sim_run W s1 = (Err (if Nat.eqb m 0 then IndexError else if Nat.eqb (m + 1) n then ValueError else e), s1).
Proof.
  intros G spline show W op e params name method sigma theta r t0 tf dt mu0 tau0 density seed h s He Ha Hz.
  destruct (empty_false op e Hz) as [Hf Hv].
  destruct (sim1_false G spline show op (Err e) params name method sigma theta r t0 tf dt mu0 tau0 density seed h s He Ha Hf Hv)
    as (n & m & H1 & H2 & H3 & s1 & ys & H4 & H5 & H6 & H7 & H8 & H9).
  exists n, m. repeat (split; [assumption|]). exists s1, ys. repeat (split; [assumption|]).
  destruct (Nat.eqb_spec m 0) as [E|E]; [auto|]. destruct (Nat.eqb_spec (m + 1) n) as [E'|E'].
  - apply H8; [lia|exact E'].
  - apply (proj2 (H7 ltac:(lia) ltac:(lia)) e eq_refl).
Qed.
Print Assumptions C55_one_dim_empty_refuted.
Definition ou_op (density : rate) (op : pv (leaf RNum)) : pv (leaf RNum) :=
  let num := fun x : R => PLeaf (LNum (x : RNum)) in
  PObj [("Output_Name", PLeaf (LStr "x")); ("Model", PLeaf (LStr "ou")); ("Ode-method", PLeaf (LStr "Euler"));
    ("Time-window", PObj [("t0", PLeaf (LInt 0)); ("tf", PLeaf (LInt 1)); ("dt", num (1 / 10))]);
    ("Noise", PObj [("sys", num (8 / 10)); ("obs", num (4 / 100))]);
    ("Drift", PObj [("theta", PLeaf (LInt 2))]);
    ("Prior", PObj [("mu0", PLeaf (LInt 0)); ("tau0", num (1 / 2))]);
    ("Observations", PObj [("density", rate_leaf1 density); ("operator", op)]);
    ("Random-Seed", PLeaf LNull)].
Lemma ou_op_entries density op : entries_op op (ou_op density op) "ou" "Euler" (8 / 10) 2 (4 / 100) 0 1 (1 / 10) 0 (1 / 2) density None.
Proof.
  unfold entries_op. unfold ou_op. cbv zeta. do 13 eexists.
  repeat match goal with
  | |- _ /\ _ => split
  | |- field _ _ _ => apply item_field; reflexivity
  | |- number _ _ => first [left; reflexivity | right; left; eexists; split; reflexivity]
  end.
Qed.
(** ten steps and three observations: true raises in setup, [] in run, and false completes *)
Example C55_instance_one_dim :
  forall (G : Rng RNum) (spline : list R -> list R -> R -> R) show,
  let W := world1 RNum G ln PI spline show in
  forall h (s : Sim W),
  (exists s', sim_setup W (ou_op (Whole 3) (PLeaf (LBool true))) DNone h s = (Err ValueError, s')) /\
  (exists s1, sim_setup W (ou_op (Whole 3) (PLeaf (LInts []))) DNone h s = (Ok tt, s1) /\ sim_run W s1 = (Err ValueError, s1)) /\
  (exists s1, sim_setup W (ou_op (Whole 3) (PObj [])) DNone h s = (Ok tt, s1) /\ sim_run W s1 = (Err TypeError, s1)) /\
  (exists s1 s2, sim_setup W (ou_op (Whole 3) (PLeaf (LBool false))) DNone h s = (Ok tt, s1) /\ sim_run W s1 = (Ok tt, s2) /\
     completed 11 (s_out s2)).
Proof.
  intros G spline show W h s. pose proof (ou_acceptable (Whole 3) ltac:(cbn; lra)) as Ha.
  assert (Hm : forall n m, reaches 0 (1 / 10) 1 n -> int_part (INR (n - 1) * (1 / 10) * rate_val (Whole 3)) (Z.of_nat m) -> n = 11%nat /\ m = 3%nat).
  { intros n m Hn [H1 H2]. apply ou_points in Hn. subst n. split; [reflexivity|].
    change (INR (11 - 1)) with (1+1+1+1+1+1+1+1+1+1) in *. cbn [rate_val] in *. rewrite <- INR_IZR_INZ in *.
    assert (A : (m <= 3)%nat) by (apply INR_le; cbn; lra). assert (B : (3 < m + 1)%nat) by (apply INR_lt; rewrite plus_INR; cbn; lra). lia. }
  split; [|split; [|split]].
  - destruct (C55_one_dim_true_refuted G spline show _ _ _ _ _ _ _ _ _ _ _ _ _ h s (ou_op_entries (Whole 3) _) Ha) as (n & m & Hr & Hi & H & _).
    destruct (Hm n m Hr Hi) as [-> ->]. apply H. lia.
  - destruct (C55_one_dim_empty_refuted G spline show _ ValueError _ _ _ _ _ _ _ _ _ _ _ _ _ h s (ou_op_entries (Whole 3) (PLeaf (LInts []))) Ha) as (n & m & Hr & Hi & _ & s1 & ys & E1 & _ & _ & E2).
    { right. auto. }
    destruct (Hm n m Hr Hi) as [-> ->]. exists s1. split; [exact E1|exact E2].
  - destruct (C55_one_dim_empty_refuted G spline show _ TypeError _ _ _ _ _ _ _ _ _ _ _ _ _ h s (ou_op_entries (Whole 3) (PObj [])) Ha) as (n & m & Hr & Hi & _ & s1 & ys & E1 & _ & _ & E2).
    { left. auto. }
    destruct (Hm n m Hr Hi) as [-> ->]. exists s1. split; [exact E1|exact E2].
  - destruct (C55_one_dim_zero_partial G spline show _ _ _ _ _ _ _ _ _ _ _ _ _ _ h s (ou_op_entries (Whole 3) (PLeaf (LBool false))) Ha) as (n & m & Hr & Hi & _ & s1 & ys & E1 & _ & _ & E2 & _).
    { right. right. exists false. auto. }
    destruct (Hm n m Hr Hi) as [-> ->]. destruct (E2 ltac:(lia) ltac:(lia)) as (s2 & R1 & R2). exists s1, s2. auto.
Qed.

(** Lorenz models: matrices and lists of floating point numbers, numbers with a fraction, text, objects,
    masks of another length and integers out of range are refused in setup *)
Theorem C55_matrix_refuted :
  forall (G : Rng RNum) eigvals solve spline show (k : kindn),
  let W := worldn RNum G eigvals solve ln PI spline show in
  forall op params name method sys theta obs C v t0 tf dt mu0 tau0 density seed h (s : Sim W),
  entries_n_op op params name method sys theta obs t0 tf dt mu0 tau0 density seed ->
  acceptable_n k name method C v t0 tf dt tau0 density seed ->
  drift_n k theta -> sys_n (dim_n k) sys C -> spectrum (dim_n k) C (eigvals (dim_n k) C) ->
  refused (dim_n k) op ->
  exists s', sim_setup W params DNone h s = (Err IndexError, s').
Proof.
  intros G eigvals solve spline show k W op params name method sys theta obs C v t0 tf dt mu0 tau0 density seed h s.
  apply simn_refused.
Qed.
Print Assumptions C55_matrix_refuted.

(** a mask selecting one component: ValueError in setup, unless there is one observation *)
Theorem C55_single_refuted :
  forall (G : Rng RNum) eigvals solve spline show (k : kindn),
  let W := worldn RNum G eigvals solve ln PI spline show in
  (k = L96 -> forall d S e, solve d S = Err e -> e = LinAlgError) ->
  forall l c params name method sys theta obs C v t0 tf dt mu0 tau0 density seed h (s : Sim W),
  entries_n_op (PLeaf (NMask l)) params name method sys theta obs t0 tf dt mu0 tau0 density seed ->
  acceptable_n k name method C v t0 tf dt tau0 density seed ->
  drift_n k theta -> sys_n (dim_n k) sys C -> spectrum (dim_n k) C (eigvals (dim_n k) C) ->
  List.length l = dim_n k -> selected l [c] -> obs_n 1 obs v ->
  exists n m, reaches t0 dt tf n /\ int_part (INR (n - 1) * dt * rate_val density) (Z.of_nat m) /\
    (m <> 1%nat -> exists s', sim_setup W params DNone h s = (Err ValueError, s')).
Proof.
  intros G eigvals solve spline show k W Hs l c params name method sys theta obs C v t0 tf dt mu0 tau0 density seed h s He Ha Hd Hn Hsp Hl Hc Ho.
  destruct (simn_mask G eigvals solve spline show k Hs l [c] params name method sys theta obs C v t0 tf dt mu0 tau0 density seed h s He Ha Hd Hn Hsp Hl Hc Ho)
    as (n & m & H1 & H2 & _ & H3 & _). exists n, m. auto.
Qed.
Print Assumptions C55_single_refuted.

(** other masks: setup leaves the selected components of the path at the observation times, each with
    its own noise; the run fails for every random stream when some but not all components are
    selected *)
Theorem C55_mask_partial :
  forall (G : Rng RNum) eigvals solve spline show (k : kindn),
  let W := worldn RNum G eigvals solve ln PI spline show in
  (k = L96 -> forall d S e, solve d S = Err e -> e = LinAlgError) ->
  forall l cols params name method sys theta obs C v t0 tf dt mu0 tau0 density seed h (s : Sim W),
  let q := List.length cols in
  entries_n_op (PLeaf (NMask l)) params name method sys theta obs t0 tf dt mu0 tau0 density seed ->
  acceptable_n k name method C v t0 tf dt tau0 density seed ->
  drift_n k theta -> sys_n (dim_n k) sys C -> spectrum (dim_n k) C (eigvals (dim_n k) C) ->
  List.length l = dim_n k -> selected l cols -> obs_n q obs v -> q <> 1%nat ->
  exists n m s1 ts (ys x : list (nat -> R)) (p : PN G) z g g',
    reaches t0 dt tf n /\ int_part (INR (n - 1) * dt * rate_val density) (Z.of_nat m) /\ (m + 1 <= n)%nat /\
    sim_setup W params DNone h s = (Ok tt, s1) /\
    has (s_data s1) "obs_t" (SVal (W:=W) (WIdx ts)) /\ has (s_data s1) "obs_y" (SVal (W:=W) (WRows (ys : list (vec RNum)))) /\
    has (s_data s1) "model" (SModel (W:=W) (k, p)) /\ b_xt (q_base p) = Some x /\ spread n m ts /\ List.length ys = m /\
    normals G (q * m) g = (z, g') /\
    (forall i j, (i < m)%nat -> (j < q)%nat ->
       nth i ys (fun _ => 0) j = nth (nth i ts 0%nat) x (fun _ => 0) (nth j cols 0%nat) + sqrt (v j) * nth (j * m + i) z 0).
Proof.
  intros G eigvals solve spline show k W Hs l cols params name method sys theta obs C v t0 tf dt mu0 tau0 density seed h s q He Ha Hd Hn Hsp Hl Hc Ho Hq.
  destruct (simn_mask G eigvals solve spline show k Hs l cols params name method sys theta obs C v t0 tf dt mu0 tau0 density seed h s He Ha Hd Hn Hsp Hl Hc Ho)
    as (n & m & H1 & H2 & H3 & _ & H). destruct (H Hq) as (s1 & ts & ys & p & x & z & g & g' & E1 & E2 & E3 & E4 & E5 & E6 & E7 & E8 & E9 & _).
  exists n, m, s1, ts, ys, x, p, z, g, g'. repeat (split; [assumption|]). exact E9.
Qed.
Print Assumptions C55_mask_partial.
Theorem C55_mask_refuted :
  forall (G : Rng RNum) eigvals solve spline show (k : kindn),
  let W := worldn RNum G eigvals solve ln PI spline show in
  (k = L96 -> forall d S e, solve d S = Err e -> e = LinAlgError) ->
  forall l cols params name method sys theta obs C v t0 tf dt mu0 tau0 density seed h (s : Sim W),
  entries_n_op (PLeaf (NMask l)) params name method sys theta obs t0 tf dt mu0 tau0 density seed ->
  acceptable_n k name method C v t0 tf dt tau0 density seed ->
  drift_n k theta -> sys_n (dim_n k) sys C -> spectrum (dim_n k) C (eigvals (dim_n k) C) ->
  List.length l = dim_n k -> selected l cols -> obs_n (List.length cols) obs v ->
  (2 <= List.length cols < dim_n k)%nat ->
  exists s1 e, sim_setup W params DNone h s = (Ok tt, s1) /\ sim_run W s1 = (Err e, s1) /\ (e = ValueError \/ e = IndexError).
Proof.
  intros G eigvals solve spline show k W Hs l cols params name method sys theta obs C v t0 tf dt mu0 tau0 density seed h s He Ha Hd Hn Hsp Hl Hc Ho Hq.
  destruct (simn_mask G eigvals solve spline show k Hs l cols params name method sys theta obs C v t0 tf dt mu0 tau0 density seed h s He Ha Hd Hn Hsp Hl Hc Ho)
    as (n & m & H1 & H2 & H3 & _ & H).
  destruct (H ltac:(lia)) as (s1 & ts & ys & p & x & z & g & g' & E1 & E2 & E3 & E4 & E5 & E6 & E7 & E8 & E9 & R1 & R2 & R3).
  exists s1. destruct m as [|m].
  - exists IndexError. split; [exact E1|]. split; [apply R3; reflexivity|]. right. reflexivity.
  - exists ValueError. split; [exact E1|]. split; [|left; reflexivity]. apply R1; [lia|]. left. lia.
Qed.
Print Assumptions C55_mask_refuted.
(** every component selected: the run completes only with as many observations as components *)
Theorem C55_all_refuted :
  forall (G : Rng RNum) eigvals solve spline show (k : kindn),
  let W := worldn RNum G eigvals solve ln PI spline show in
  (k = L96 -> forall d S e, solve d S = Err e -> e = LinAlgError) ->
  forall l params name method sys theta obs C v t0 tf dt mu0 tau0 density seed h (s : Sim W),
  entries_n_op (PLeaf (NMask l)) params name method sys theta obs t0 tf dt mu0 tau0 density seed ->
  acceptable_n k name method C v t0 tf dt tau0 density seed ->
  drift_n k theta -> sys_n (dim_n k) sys C -> spectrum (dim_n k) C (eigvals (dim_n k) C) ->
  List.length l = dim_n k -> (forall i, (i < dim_n k)%nat -> nth i l false = true) -> obs_n (dim_n k) obs v ->
  exists n m s1, reaches t0 dt tf n /\ int_part (INR (n - 1) * dt * rate_val density) (Z.of_nat m) /\ (m + 1 <= n)%nat /\
    sim_setup W params DNone h s = (Ok tt, s1) /\
    ((1 <= m)%nat -> m <> dim_n k \/ (m + 1 = n)%nat -> sim_run W s1 = (Err ValueError, s1)) /\
    (m = dim_n k -> (m + 1 < n)%nat ->
       (exists s2, sim_run W s1 = (Ok tt, s2) /\ completed_n (dim_n k) n (s_out s2)) \/ (k = L96 /\ sim_run W s1 = (Err LinAlgError, s1))) /\
    (m = 0%nat -> sim_run W s1 = (Err IndexError, s1)).
Proof.
  intros G eigvals solve spline show k W Hs l params name method sys theta obs C v t0 tf dt mu0 tau0 density seed h s He Ha Hd Hn Hsp Hl Hall Ho.
  rewrite <- Hl in Hall. apply selected_full in Hall. rewrite Hl in Hall.
  assert (Hq : List.length (seq 0 (dim_n k)) = dim_n k) by apply seq_length. assert (Hd1 : dim_n k <> 1%nat) by (destruct k; cbn; lia).
  destruct (simn_mask G eigvals solve spline show k Hs l (seq 0 (dim_n k)) params name method sys theta obs C v t0 tf dt mu0 tau0 density seed h s He Ha Hd Hn Hsp Hl Hall
    ltac:(rewrite Hq; exact Ho))
    as (n & m & H1 & H2 & H3 & _ & H).
  destruct (H ltac:(rewrite Hq; exact Hd1)) as (s1 & ts & ys & p & x & z & g & g' & E1 & E2 & E3 & E4 & E5 & E6 & E7 & E8 & E9 & R1 & R2 & R3).
  exists n, m, s1. repeat (split; [assumption|]). split; [intros A B; apply R1; tauto|]. split; [|exact R3]. intros A B. apply R2; assumption.
Qed.
Print Assumptions C55_all_refuted.

(** the value with every component selected and d observations: the d residuals of an observation are
    added up to one number, and the observation energy is the quadratic form of these sums *)
Theorem C55_all_value_partial :
  forall d (y : list (nat -> R)) t (Rn : nat -> nat -> R) (m : list (nat -> R)) (s : list (nat -> nat -> R)),
  symm d Rn -> posdef d Rn -> List.length y = d -> List.length t = d -> List.length s = List.length m ->
  List.Forall (fun i => (i < List.length m)%nat) t -> NoDup t ->
  exists Ri l, is_inv d Rn Ri /\ like_n RNum (WRows (y : list (vec RNum))) (WIdx t) (WNoise (A2 (K:=RNum) d d Rn)) (PLeaf (NMask (repeat true d))) false = Ok l /\
  like_calln RNum ln PI l m s =
  Ok (let w := fun j => Rsum d (fun i => nth j y (fun _ => 0) i - nth (nth j t 0%nat) m (fun _ => 0) i) in
      1 / 2 * (Rsum d (fun a => Rsum d (fun b => w a * Ri a b * w b))
        + Rsum d (fun j => Rsum d (fun i => Ri i i * nth j s (fun _ _ => 0) i i))
        + INR d * (INR d * ln (2 * PI) + ln (detR d Rn)))).
Proof.
  intros d y t Rn m s H1 H2 Hy Ht Hs Hf Hn.
  destruct (vec_val d y t Rn (fun i => of_bool RNum (nth i (repeat true d) false)) m s H1 H2 ltac:(lia) Hs Hf Hn Ht) as (Ri & HRi & E).
  exists Ri. eexists. split; [exact HRi|]. split; [reflexivity|].
  unfold like_calln. cbn [kn_d kn_y kn_t kn_noise kn_H]. rewrite repeat_length, Nat.eqb_refl. etransitivity; [exact E|].
  cbv zeta. do 4 f_equal. unfold quad, along.
  assert (Hw : forall j, Rsum d (fun i => (nth j y zvec i - nth (nth j t 0%nat) m zvec i) * of_bool RNum (nth i (repeat true d) false)) =
                         Rsum d (fun i => nth j y (fun _ => 0) i - nth (nth j t 0%nat) m (fun _ => 0) i)).
  { intros j. apply Rsum_ext. intros i Hi. rewrite (nth_repeat_lt true) by exact Hi. unfold zvec, of_bool. apply Rmult_1_r. }
  apply Rsum_ext. intros a _. apply Rsum_ext. intros b _. rewrite !Hw. reflexivity.
Qed.
Print Assumptions C55_all_value_partial.
(** it is not the energy without an operator *)
Theorem C55_all_value_refuted :
  forall d, (2 <= d)%nat -> exists (y : list (nat -> R)) t (Rn : nat -> nat -> R) (m : list (nat -> R)) (s : list (nat -> nat -> R)) l1 l2 v1 v2,
  symm d Rn /\ posdef d Rn /\
  like_n RNum (WRows (y : list (vec RNum))) (WIdx t) (WNoise (A2 (K:=RNum) d d Rn)) (PLeaf NNull) false = Ok l1 /\
  like_n RNum (WRows (y : list (vec RNum))) (WIdx t) (WNoise (A2 (K:=RNum) d d Rn)) (PLeaf (NMask (repeat true d))) false = Ok l2 /\
  like_calln RNum ln PI l1 m s = Ok v1 /\ like_calln RNum ln PI l2 m s = Ok v2 /\ v1 = v2 + INR d.
Proof.
  intros d Hd. assert (HH : forall i, (i < d)%nat -> of_bool RNum (nth i (repeat true d) false) = 1)
    by (intros i Hi; unfold of_bool; rewrite (nth_repeat_lt true) by exact Hi; reflexivity).
  destruct (mask_witness d _ Hd HH) as (y & t & Rn & m & s & v1 & v2 & H1 & H2 & Hy & Hm & Hs & E1 & E2 & E).
  exists y, t, Rn, m, s. eexists. eexists. exists v1, v2. split; [exact H1|]. split; [exact H2|].
  destruct y as [|y0 y]; [cbn in Hy; lia|]. split; [reflexivity|]. split; [reflexivity|].
  split; [exact E1|]. split; [|exact E].
  unfold like_calln. cbn [kn_d kn_y kn_t kn_noise kn_H]. rewrite repeat_length, Nat.eqb_refl.
  exact E2.
Qed.
Print Assumptions C55_all_value_refuted.

(** lists of integers: setup leaves these components of the path (negative integers count from the end),
    each with its own noise *)
Theorem C55_columns_partial :
  forall (G : Rng RNum) eigvals solve spline show (k : kindn),
  let W := worldn RNum G eigvals solve ln PI spline show in
  (k = L96 -> forall d S e, solve d S = Err e -> e = LinAlgError) ->
  forall op l cols params name method sys theta obs C v t0 tf dt mu0 tau0 density seed h (s : Sim W),
  let q := List.length cols in
  entries_n_op op params name method sys theta obs t0 tf dt mu0 tau0 density seed ->
  acceptable_n k name method C v t0 tf dt tau0 density seed ->
  drift_n k theta -> sys_n (dim_n k) sys C -> spectrum (dim_n k) C (eigvals (dim_n k) C) ->
  int_list op l -> l <> [] -> Forall2 (counted (dim_n k)) l cols -> (forall i, 0 < v i) -> obs_n q obs v -> q <> 1%nat ->
  exists n m s1 ts (ys x : list (nat -> R)) (p : PN G) z g g',
    reaches t0 dt tf n /\ int_part (INR (n - 1) * dt * rate_val density) (Z.of_nat m) /\ (m + 1 <= n)%nat /\
    sim_setup W params DNone h s = (Ok tt, s1) /\
    has (s_data s1) "obs_t" (SVal (W:=W) (WIdx ts)) /\ has (s_data s1) "obs_y" (SVal (W:=W) (WRows (ys : list (vec RNum)))) /\
    has (s_data s1) "model" (SModel (W:=W) (k, p)) /\ b_xt (q_base p) = Some x /\ spread n m ts /\ List.length ys = m /\
    normals G (q * m) g = (z, g') /\
    (forall i j, (i < m)%nat -> (j < q)%nat ->
       nth i ys (fun _ => 0) j = nth (nth i ts 0%nat) x (fun _ => 0) (nth j cols 0%nat) + sqrt (v j) * nth (j * m + i) z 0).
Proof.
  intros G eigvals solve spline show k W Hs op l cols params name method sys theta obs C v t0 tf dt mu0 tau0 density seed h s q He Ha Hd Hn Hsp Hi Hl Hc Hv Ho Hq.
  pose proof Hi as (u & -> & Hu).
  destruct (simn_cols G eigvals solve spline show k Hs _ cols (List.length l) u params name method sys theta obs C v t0 tf dt mu0 tau0 density seed h s He Ha Hd Hn Hsp
    (ints_picks G _ _ _ _ Hi Hl Hc) (fun ys => eq_refl) (or_intror Hv) Ho) as (n & m & H1 & H2 & H3 & _ & H).
  destruct (H Hq) as (s1 & ts & ys & p & x & z & g & g' & E1 & E2 & E3 & E4 & E5 & E6 & E7 & E8 & E9 & _).
  exists n, m, s1, ts, ys, x, p, z, g, g'. repeat (split; [assumption|]). exact E9.
Qed.
Print Assumptions C55_columns_partial.
(** the run completes only with as many integers and as many observations as components *)
Theorem C55_columns_refuted :
  forall (G : Rng RNum) eigvals solve spline show (k : kindn),
  let W := worldn RNum G eigvals solve ln PI spline show in
  (k = L96 -> forall d S e, solve d S = Err e -> e = LinAlgError) ->
  forall op l cols params name method sys theta obs C v t0 tf dt mu0 tau0 density seed h (s : Sim W),
  let q := List.length cols in
  entries_n_op op params name method sys theta obs t0 tf dt mu0 tau0 density seed ->
  acceptable_n k name method C v t0 tf dt tau0 density seed ->
  drift_n k theta -> sys_n (dim_n k) sys C -> spectrum (dim_n k) C (eigvals (dim_n k) C) ->
  int_list op l -> l <> [] -> Forall2 (counted (dim_n k)) l cols -> (forall i, 0 < v i) -> obs_n q obs v ->
  exists n m, reaches t0 dt tf n /\ int_part (INR (n - 1) * dt * rate_val density) (Z.of_nat m) /\ (m + 1 <= n)%nat /\
    (q = 1%nat -> m <> 1%nat -> exists s', sim_setup W params DNone h s = (Err ValueError, s')) /\
    (q <> 1%nat -> exists s1, sim_setup W params DNone h s = (Ok tt, s1) /\
      ((1 <= m)%nat -> q <> dim_n k \/ m <> dim_n k \/ (m + 1 = n)%nat -> sim_run W s1 = (Err ValueError, s1)) /\
      (q = dim_n k -> m = dim_n k -> (m + 1 < n)%nat ->
         (exists s2, sim_run W s1 = (Ok tt, s2) /\ completed_n (dim_n k) n (s_out s2)) \/ (k = L96 /\ sim_run W s1 = (Err LinAlgError, s1))) /\
      (m = 0%nat -> sim_run W s1 = (Err IndexError, s1))).
Proof.
  intros G eigvals solve spline show k W Hs op l cols params name method sys theta obs C v t0 tf dt mu0 tau0 density seed h s q He Ha Hd Hn Hsp Hi Hl Hc Hv Ho.
  pose proof Hi as (u & -> & Hu).
  destruct (simn_cols G eigvals solve spline show k Hs _ cols (List.length l) u params name method sys theta obs C v t0 tf dt mu0 tau0 density seed h s He Ha Hd Hn Hsp
    (ints_picks G _ _ _ _ Hi Hl Hc) (fun ys => eq_refl) (or_intror Hv) Ho) as (n & m & H1 & H2 & H3 & H4 & H).
  exists n, m. repeat (split; [assumption|]). intros Hq.
  destruct (H Hq) as (s1 & ts & ys & p & x & z & g & g' & E1 & E2 & E3 & E4 & E5 & E6 & E7 & E8 & E9 & R1 & R2 & R3).
  exists s1. split; [exact E1|]. split; [intros Q1 Q2; apply R1; tauto|]. split; [|exact R3].
  intros Q1 Q2 Q3. apply R2; auto. rewrite (f2_length _ _ _ Hc). exact Q1.
Qed.
Print Assumptions C55_columns_refuted.
(** and then the integers, which are positions, are taken for weights of the residuals *)
Theorem C55_columns_value_partial :
  forall d op l (y : list (nat -> R)) t (Rn : nat -> nat -> R) (m : list (nat -> R)) (s : list (nat -> nat -> R)),
  int_list op l -> List.length l = d ->
  symm d Rn -> posdef d Rn -> List.length y = d -> List.length t = d -> List.length s = List.length m ->
  List.Forall (fun i => (i < List.length m)%nat) t -> NoDup t ->
  exists Ri lk, is_inv d Rn Ri /\ like_n RNum (WRows (y : list (vec RNum))) (WIdx t) (WNoise (A2 (K:=RNum) d d Rn)) op false = Ok lk /\
  like_calln RNum ln PI lk m s =
  Ok (let w := fun j => Rsum d (fun i => IZR (nth i l 0%Z) * (nth j y (fun _ => 0) i - nth (nth j t 0%nat) m (fun _ => 0) i)) in
      1 / 2 * (Rsum d (fun a => Rsum d (fun b => w a * Ri a b * w b))
        + Rsum d (fun j => Rsum d (fun i => Ri i i * nth j s (fun _ _ => 0) i i))
        + INR d * (INR d * ln (2 * PI) + ln (detR d Rn)))).
Proof.
  intros d op l y t Rn m s (u & -> & Hu) Hd H1 H2 Hy Ht Hs Hf Hn.
  destruct (vec_val d y t Rn u m s H1 H2 ltac:(lia) Hs Hf Hn Ht) as (Ri & HRi & E).
  exists Ri. eexists. split; [exact HRi|]. split; [reflexivity|].
  unfold like_calln. cbn [kn_d kn_y kn_t kn_noise kn_H]. rewrite Hd, Nat.eqb_refl. etransitivity; [exact E|].
  cbv zeta. do 4 f_equal. unfold quad, along.
  assert (Hw : forall j, Rsum d (fun i => (nth j y zvec i - nth (nth j t 0%nat) m zvec i) * u i) =
                         Rsum d (fun i => IZR (nth i l 0%Z) * (nth j y (fun _ => 0) i - nth (nth j t 0%nat) m (fun _ => 0) i))).
  { intros j. apply Rsum_ext. intros i Hi. rewrite Hu by lia. unfold zvec. cbn. apply Rmult_comm. }
  apply Rsum_ext. intros a _. apply Rsum_ext. intros b _. rewrite !Hw. reflexivity.
Qed.
Print Assumptions C55_columns_value_partial.
(** the list of all components in their order: the first component is not compared with its
    observations at all *)
Theorem C55_columns_value_refuted :
  forall d op (y y' : list (nat -> R)) t (Rn : nat -> nat -> R) (m : list (nat -> R)) (s : list (nat -> nat -> R)),
  int_list op (map Z.of_nat (seq 0 d)) ->
  symm d Rn -> posdef d Rn -> List.length y = d -> List.length y' = d -> List.length t = d -> List.length s = List.length m ->
  List.Forall (fun i => (i < List.length m)%nat) t -> NoDup t ->
  (forall j i, (j < d)%nat -> (0 < i < d)%nat -> nth j y (fun _ => 0) i = nth j y' (fun _ => 0) i) ->
  exists lk lk' e, like_n RNum (WRows (y : list (vec RNum))) (WIdx t) (WNoise (A2 (K:=RNum) d d Rn)) op false = Ok lk /\
    like_n RNum (WRows (y' : list (vec RNum))) (WIdx t) (WNoise (A2 (K:=RNum) d d Rn)) op false = Ok lk' /\
    like_calln RNum ln PI lk m s = Ok e /\ like_calln RNum ln PI lk' m s = Ok e.
Proof.
  intros d op y y' t Rn m s Hi H1 H2 Hy Hy' Ht Hs Hf Hn He.
  assert (Hd : List.length (map Z.of_nat (seq 0 d)) = d) by (rewrite map_length; apply seq_length).
  destruct (C55_columns_value_partial d op _ y t Rn m s Hi Hd H1 H2 Hy Ht Hs Hf Hn) as (Ri & lk & HR & E1 & E2).
  destruct (C55_columns_value_partial d op _ y' t Rn m s Hi Hd H1 H2 Hy' Ht Hs Hf Hn) as (Ri' & lk' & HR' & E1' & E2').
  exists lk, lk'. eexists. split; [exact E1|]. split; [exact E1'|]. split; [exact E2|]. rewrite E2'. cbv zeta. apply (f_equal (@Ok R)). apply f_equal.
  assert (HRR : forall a b, (a < d)%nat -> (b < d)%nat -> Ri' a b = Ri a b) by (apply (inv_same d Rn); assumption).
  assert (Hw : forall j, (j < d)%nat -> Rsum d (fun i => IZR (nth i (map Z.of_nat (seq 0 d)) 0%Z) * (nth j y' (fun _ => 0) i - nth (nth j t 0%nat) m (fun _ => 0) i)) =
    Rsum d (fun i => IZR (nth i (map Z.of_nat (seq 0 d)) 0%Z) * (nth j y (fun _ => 0) i - nth (nth j t 0%nat) m (fun _ => 0) i))).
  { intros j Hj. apply Rsum_ext. intros i Hi'. change 0%Z with (Z.of_nat 0). rewrite map_nth, seq_nth by exact Hi'.
    destruct i as [|i]; [cbn; ring|]. apply f_equal. apply (f_equal (fun u => u - _)). symmetry. apply He; lia. }
  apply (f_equal (fun u => u + _)). apply f_equal2.
  - apply Rsum_ext. intros a Ha'. apply Rsum_ext. intros b Hb. rewrite !Hw, HRR by assumption. reflexivity.
  - apply Rsum_ext. intros j _. apply Rsum_ext. intros i Hi'. rewrite HRR by assumption. reflexivity.
Qed.
Print Assumptions C55_columns_value_refuted.
(** one integer, a list of rows of integers (for instance the unit matrix), or true: no run completes.  The
    rows have to be as many as the observations, or the observation is one; otherwise setup fails *)
Theorem C55_number_refuted :
  forall (G : Rng RNum) eigvals solve spline show (k : kindn),
  let W := worldn RNum G eigvals solve ln PI spline show in
  forall z c params name method sys theta obs C v t0 tf dt mu0 tau0 density seed h (s : Sim W) op,
  op = PLeaf (NInt z) -> z <> 0%Z -> counted (dim_n k) z c ->
  entries_n_op op params name method sys theta obs t0 tf dt mu0 tau0 density seed ->
  acceptable_n k name method C v t0 tf dt tau0 density seed ->
  drift_n k theta -> sys_n (dim_n k) sys C -> spectrum (dim_n k) C (eigvals (dim_n k) C) ->
  (exists s', sim_setup W params DNone h s = (Err ValueError, s')) \/
  (exists s1 e, sim_setup W params DNone h s = (Ok tt, s1) /\ sim_run W s1 = (Err e, s1) /\ (e = ValueError \/ e = IndexError)).
Proof.
  intros G eigvals solve spline show k W z c params name method sys theta obs C v t0 tf dt mu0 tau0 density seed h s op -> Hz Hc He Ha Hd Hn Hsp.
  destruct (simn_other G eigvals solve spline show k (PLeaf (NInt z)) params name method sys theta obs C v t0 tf dt mu0 tau0 density seed h s He Ha Hd Hn Hsp) as (n & m & _ & _ & _ & H).
  - destruct Ha as (_ & _ & _ & (_ & Q5 & _ & Q7) & Q8 & _). intros n p tk x Hp Htk Hx Hg Hn2 Hl m Hm Hmn.
    apply (one_apart G k (dim_n k) obs density t0 dt n m p tk x Hp Htk Hx Hg Hn2 Q5 Hl Q8 Q7 Hm Hmn z c Hz Hc).
  - destruct H as [H|(_ & s1 & E1 & E2)]; [left; exact H|right]. exists s1. eexists. split; [exact E1|]. split; [exact E2|].
    destruct (Nat.eqb m 0); auto.
Qed.
Print Assumptions C55_number_refuted.
Theorem C55_rows_refuted :
  forall (G : Rng RNum) eigvals solve spline show (k : kindn),
  let W := worldn RNum G eigvals solve ln PI spline show in
  forall op r c ix params name method sys theta obs C v t0 tf dt mu0 tau0 density seed h (s : Sim W),
  entries_n_op op params name method sys theta obs t0 tf dt mu0 tau0 density seed ->
  acceptable_n k name method C v t0 tf dt tau0 density seed ->
  drift_n k theta -> sys_n (dim_n k) sys C -> spectrum (dim_n k) C (eigvals (dim_n k) C) ->
  int_rows op r c ix -> (forall i j, (i < r)%nat -> (j < c)%nat -> exists q, counted (dim_n k) (ix i j) q) ->
  exists n m, reaches t0 dt tf n /\ int_part (INR (n - 1) * dt * rate_val density) (Z.of_nat m) /\ (m + 1 <= n)%nat /\
  ((exists s', sim_setup W params DNone h s = (Err ValueError, s')) \/
   ((m = r \/ m = 1%nat) /\ exists s1, sim_setup W params DNone h s = (Ok tt, s1) /\
      sim_run W s1 = (Err (if Nat.eqb m 0 then IndexError else ValueError), s1))).
Proof.
  intros G eigvals solve spline show k W op r c ix params name method sys theta obs C v t0 tf dt mu0 tau0 density seed h s He Ha Hd Hn Hsp Hi Hin.
  destruct (simn_other G eigvals solve spline show k op params name method sys theta obs C v t0 tf dt mu0 tau0 density seed h s He Ha Hd Hn Hsp) as (n & m & H1 & H2 & H3 & H).
  - destruct Ha as (_ & _ & _ & (_ & Q5 & _ & Q7) & Q8 & _). intros n p tk x Hp Htk Hx Hg Hn2 Hl m Hm Hmn.
    eapply rows_apart; eassumption.
  - exists n, m. repeat (split; [assumption|]). destruct Hi as (_ & _ & M & -> & _). exact H.
Qed.
Print Assumptions C55_rows_refuted.
Theorem C55_true_refuted :
  forall (G : Rng RNum) eigvals solve spline show (k : kindn),
  let W := worldn RNum G eigvals solve ln PI spline show in
  forall op params name method sys theta obs C v t0 tf dt mu0 tau0 density seed h (s : Sim W),
  op = PLeaf (NBool true) ->
  entries_n_op op params name method sys theta obs t0 tf dt mu0 tau0 density seed ->
  acceptable_n k name method C v t0 tf dt tau0 density seed ->
  drift_n k theta -> sys_n (dim_n k) sys C -> spectrum (dim_n k) C (eigvals (dim_n k) C) ->
  exists n m, reaches t0 dt tf n /\ int_part (INR (n - 1) * dt * rate_val density) (Z.of_nat m) /\ (m + 1 <= n)%nat /\
  ((exists s', sim_setup W params DNone h s = (Err ValueError, s')) \/
   (m = 1%nat /\ exists s1, sim_setup W params DNone h s = (Ok tt, s1) /\ sim_run W s1 = (Err ValueError, s1))).
Proof.
  intros G eigvals solve spline show k W op params name method sys theta obs C v t0 tf dt mu0 tau0 density seed h s -> He Ha Hd Hn Hsp.
  destruct (simn_other G eigvals solve spline show k (PLeaf (NBool true)) params name method sys theta obs C v t0 tf dt mu0 tau0 density seed h s He Ha Hd Hn Hsp) as (n & m & H1 & H2 & H3 & H).
  - destruct Ha as (_ & _ & _ & (_ & Q5 & _ & Q7) & Q8 & _). intros n p tk x Hp Htk Hx Hg Hn2 Hl m Hm Hmn.
    eapply true_apart; eassumption.
  - exists n, m. repeat (split; [assumption|]). destruct H as [H|(Hm & s1 & E1 & E2)]; [left; exact H|right]. cbn [must_fit] in Hm. subst m.
    split; [reflexivity|]. exists s1. auto.
Qed.
Print Assumptions C55_true_refuted.
(** the empty list selects all components in setup, and the run fails *)
Theorem C55_empty_refuted :
  forall (G : Rng RNum) eigvals solve spline show (k : kindn),
  let W := worldn RNum G eigvals solve ln PI spline show in
  (k = L96 -> forall d S e, solve d S = Err e -> e = LinAlgError) ->
  forall op params name method sys theta obs C v t0 tf dt mu0 tau0 density seed h (s : Sim W),
  entries_n_op op params name method sys theta obs t0 tf dt mu0 tau0 density seed ->
  acceptable_n k name method C v t0 tf dt tau0 density seed ->
  drift_n k theta -> sys_n (dim_n k) sys C -> spectrum (dim_n k) C (eigvals (dim_n k) C) ->
  empty_list op -> obs_n (dim_n k) obs v ->
  exists s1 e, sim_setup W params DNone h s = (Ok tt, s1) /\ sim_run W s1 = (Err e, s1) /\ (e = ValueError \/ e = IndexError).
Proof.
  intros G eigvals solve spline show k W Hs op params name method sys theta obs C v t0 tf dt mu0 tau0 density seed h s He Ha Hd Hn Hsp Hi Ho.
  assert (Hq : List.length (seq 0 (dim_n k)) = dim_n k) by apply seq_length. assert (Hd1 : dim_n k <> 1%nat) by (destruct k; cbn; lia).
  assert (Hd0 : 0%nat <> dim_n k) by (destruct k; cbn; lia).
  assert (Hop : exists hh, forall ys, op_like RNum ys op = Ok (OpVec (K:=RNum) 0 hh)) by (destruct Hi as [->|(t & u & ->)]; eexists; reflexivity).
  destruct Hop as (hh & Hop).
  destruct (simn_cols G eigvals solve spline show k Hs op (seq 0 (dim_n k)) 0 hh params name method sys theta obs C v t0 tf dt mu0 tau0 density seed h s He Ha Hd Hn Hsp
    (empty_picks G _ _ Hi) Hop ltac:(left; rewrite Hq; apply le_n) ltac:(rewrite Hq; exact Ho)) as (n & m & H1 & H2 & H3 & _ & H).
  destruct (H ltac:(rewrite Hq; exact Hd1)) as (s1 & ts & ys & p & x & z & g & g' & E1 & E2 & E3 & E4 & E5 & E6 & E7 & E8 & E9 & R1 & R2 & R3).
  exists s1. destruct m as [|m].
  - exists IndexError. split; [exact E1|]. split; [apply R3; reflexivity|]. right. reflexivity.
  - exists ValueError. split; [exact E1|]. split; [|left; reflexivity]. apply R1; [lia|]. auto.
Qed.
Print Assumptions C55_empty_refuted.
(** zero and false: all components are observed and the run completes, but the observations and the means
    do not enter the observation energy, and its gradients are zero *)
Theorem C55_zero_partial :
  forall (G : Rng RNum) eigvals solve spline show (k : kindn),
  let W := worldn RNum G eigvals solve ln PI spline show in
  (k = L96 -> forall d S e, solve d S = Err e -> e = LinAlgError) ->
  forall op params name method sys theta obs C v t0 tf dt mu0 tau0 density seed h (s : Sim W),
  entries_n_op op params name method sys theta obs t0 tf dt mu0 tau0 density seed ->
  acceptable_n k name method C v t0 tf dt tau0 density seed ->
  drift_n k theta -> sys_n (dim_n k) sys C -> spectrum (dim_n k) C (eigvals (dim_n k) C) ->
  zero_op op -> obs_n (dim_n k) obs v ->
  exists n m, reaches t0 dt tf n /\ int_part (INR (n - 1) * dt * rate_val density) (Z.of_nat m) /\ (m + 1 <= n)%nat /\
    exists s1 (ys : list (nat -> R)), sim_setup W params DNone h s = (Ok tt, s1) /\
      has (s_data s1) "obs_y" (SVal (W:=W) (WRows (ys : list (vec RNum)))) /\ List.length ys = m /\
      ((1 <= m)%nat -> (m + 1 = n)%nat -> sim_run W s1 = (Err ValueError, s1)) /\
      ((1 <= m)%nat -> (m + 1 < n)%nat ->
         (exists s2, sim_run W s1 = (Ok tt, s2) /\ completed_n (dim_n k) n (s_out s2)) \/ (k = L96 /\ sim_run W s1 = (Err LinAlgError, s1))) /\
      (m = 0%nat -> sim_run W s1 = (Err IndexError, s1)).
Proof.
  intros G eigvals solve spline show k W Hs op params name method sys theta obs C v t0 tf dt mu0 tau0 density seed h s He Ha Hd Hn Hsp Hi Ho.
  apply (simn_zero G eigvals solve spline show k Hs op params name method sys theta obs C v t0 tf dt mu0 tau0 density seed h s He Ha Hd Hn Hsp Hi Ho).
Qed.
Print Assumptions C55_zero_partial.
Theorem C55_zero_value_refuted :
  forall d op (y : list (nat -> R)) t (Rn : nat -> nat -> R) (m : list (nat -> R)) (s : list (nat -> nat -> R)),
  zero_op op -> symm d Rn -> posdef d Rn -> List.length y = List.length t -> List.length s = List.length m ->
  List.Forall (fun i => (i < List.length m)%nat) t -> NoDup t ->
  exists Ri lk gm gs sh, is_inv d Rn Ri /\
  like_n RNum (WRows (y : list (vec RNum))) (WIdx t) (WNoise (A2 (K:=RNum) d d Rn)) op false = Ok lk /\
  like_calln RNum ln PI lk m s =
  Ok (1 / 2 * (Rsum (List.length t) (fun j => Rsum d (fun i => Ri i i * nth j s (fun _ _ => 0) i i))
        + INR (List.length t) * (INR d * ln (2 * PI) + ln (detR d Rn)))) /\
  like_gradn RNum lk m = Ok (gm, gs, sh) /\ List.length gm = List.length m /\ List.length gs = List.length m /\
  (forall j i, nth j gm (fun _ => 0) i = 0) /\ (forall j i k, nth j gs (fun _ _ => 0) i k = 0).
Proof.
  intros d op y t Rn m s Hz H1 H2 Hy Hs Hf Hn.
  destruct (zero_val d y t Rn m s H1 H2 Hy Hs Hf Hn) as (Ri & HRi & E).
  destruct (zero_grad d y t Rn m H1 H2 Hy Hf) as (gm & gs & sh & E' & L1 & L2 & L3 & L4).
  exists Ri. eexists. exists gm, gs, sh. split; [exact HRi|]. split.
  - cbn [like_n]. destruct Hz as [->|[->|[(z & -> & Hz)|([] & -> & Hz)]]]; [reflexivity|reflexivity| |lra|reflexivity]. apply (eq_IZR 0) in Hz. subst z. reflexivity.
  - split; [exact E|]. split; [exact E'|]. auto.
Qed.
Print Assumptions C55_zero_value_refuted.

(** the Lorenz-63 file with the noise as a list, observing the first and the third component: setup
    succeeds and the run ends with ValueError *)
Definition l3d_mask : parn :=
  PObj (dset "Observations" (PObj [("density", PLeaf (NInt 5)); ("operator", PLeaf (NMask [true; false; true]))])
    (dset "Noise" (PObj [("sys", PLeaf (NArr Float64 (A1 (K:=RNum) 3 (three 10 10 10)))); ("obs", PLeaf (NNum (2 : RNum)))]) l3d_file)).
Example C55_instance :
  forall (G : Rng RNum) solve spline show h,
  let W := worldn RNum G diag_eigvals solve ln PI spline show in
  forall s : Sim W, exists s1 e, sim_setup W l3d_mask DNone h s = (Ok tt, s1) /\ sim_run W s1 = (Err e, s1).
Proof.
  intros G solve spline show h W s. set (C := fun i j : nat => if Nat.eqb i j then three 10 10 10 i else 0).
  assert (HC : diagonal 3 C).
  { intros i j _ _ Hne. unfold C. destruct (Nat.eqb_spec i j); [contradiction|reflexivity]. }
  destruct (C55_mask_refuted G diag_eigvals solve spline show L63 ltac:(discriminate) [true; false; true] [0%nat; 2%nat] l3d_mask "L63" "Heun"
    (PLeaf (NArr Float64 (A1 (K:=RNum) 3 (three 10 10 10)))) (PLeaf (NArr Float64 (A1 (K:=RNum) 3 (three 10 28 (2667 / 1000)))))
    (PLeaf (NNum (2 : RNum))) C (fun _ => 2) 0 20 (1 / 100) 1 (1 / 2) (Whole 5) (Some 31415926535%Z) h s)
    as (s1 & e & E1 & E2 & _); [..|exists s1, e; auto].
  - unfold entries_n_op. do 10 eexists. entries_tac.
  - unfold acceptable_n. cbn [dim_n name_n]. split; [apply diagonal_symm; exact HC|]. split.
    { apply diag_posdef; [exact HC|]. intros i Hi. unfold C. rewrite Nat.eqb_refl. unfold three.
      destruct i as [|[|[|i]]]; cbn; lra || lia. }
    split; [intros; lra|]. split; [repeat split; try lra; exists 100%Z; cbn [rate_val]; lra|]. split; [cbn [rate_val]; lra|]. split; [cbn; unfold Spec_Ode.letter_variant; auto|]. split.
    + exists "heun". split; [cbn; auto|]. cbn. unfold Spec_Ode.letter_variant.
      repeat split; try (left; reflexivity). right. exists 7%nat. cbn. lia.
    + cbn. lia.
  - do 2 eexists. reflexivity.
  - left. exists (three 10 10 10). split; reflexivity.
  - apply diag_spectrum. exact HC.
  - reflexivity.
  - split.
    + intros i j Hij. cbn in Hij. destruct i as [|[|i]], j as [|[|j]]; cbn; lia.
    + intros c. cbn [In]. destruct c as [|[|[|[|c]]]]; cbn; split; intros Hc; try discriminate; try tauto; repeat (destruct Hc as [Hc|Hc]; try discriminate Hc); contradiction.
  - left. exists 2. split; [left; reflexivity|reflexivity].
  - cbn. lia.
Qed.
(** the same file with the integers 0 and 2, or with the unit matrix, as the operator: the run fails, and
    setup fails *)
Definition l3d_op (op : parn) : parn :=
  PObj (dset "Observations" (PObj [("density", PLeaf (NInt 5)); ("operator", op)])
    (dset "Noise" (PObj [("sys", PLeaf (NArr Float64 (A1 (K:=RNum) 3 (three 10 10 10)))); ("obs", PLeaf (NNum (2 : RNum)))]) l3d_file)).
Ltac l3d_tac HC :=
  match goal with
  | |- entries_n_op _ _ _ _ _ _ _ _ _ _ _ _ _ _ => unfold entries_n_op; do 10 eexists; entries_tac
  | |- acceptable_n _ _ _ _ _ _ _ _ _ _ _ =>
      unfold acceptable_n; cbn [dim_n name_n]; split; [apply diagonal_symm; exact HC|]; split;
      [apply diag_posdef; [exact HC|]; intros i Hi; rewrite Nat.eqb_refl; unfold three; destruct i as [|[|[|i]]]; cbn; lra || lia|];
      split; [intros; lra|]; split; [repeat split; try lra; exists 100%Z; cbn [rate_val]; lra|]; split; [cbn [rate_val]; lra|]; split; [cbn; unfold Spec_Ode.letter_variant; auto|]; split;
      [exists "heun"; split; [cbn; auto|]; cbn; unfold Spec_Ode.letter_variant;
       repeat split; try (left; reflexivity); right; exists 7%nat; cbn; lia | cbn; lia]
  | |- drift_n _ _ => do 2 eexists; reflexivity
  | |- sys_n _ _ _ => left; exists (three 10 10 10); split; reflexivity
  | |- spectrum _ _ _ => apply diag_spectrum; exact HC
  | |- obs_n _ _ _ => left; exists 2; split; [left; reflexivity|reflexivity]
  end.
Example C55_instance_integers :
  forall (G : Rng RNum) solve spline show h,
  let W := worldn RNum G diag_eigvals solve ln PI spline show in
  forall s : Sim W, exists s1 e, sim_setup W (l3d_op (PLeaf (NArr Int64 (A1 (K:=RNum) 2 (three 0 (-1) 0))))) DNone h s = (Ok tt, s1) /\ sim_run W s1 = (Err e, s1).
Proof.
  intros G solve spline show h W s. set (op := PLeaf (NArr Int64 (A1 (K:=RNum) 2 (three 0 (-1) 0)))).
  assert (HC : diagonal 3 (fun i j : nat => if Nat.eqb i j then three 10 10 10 i else 0)).
  { intros i j _ _ Hne. destruct (Nat.eqb_spec i j); [contradiction|reflexivity]. }
  destruct (C55_columns_refuted G diag_eigvals solve spline show L63 ltac:(discriminate) op [0; -1]%Z [0%nat; 2%nat] (l3d_op op) "L63" "Heun"
    (PLeaf (NArr Float64 (A1 (K:=RNum) 3 (three 10 10 10)))) (PLeaf (NArr Float64 (A1 (K:=RNum) 3 (three 10 28 (2667 / 1000)))))
    (PLeaf (NNum (2 : RNum))) (fun i j : nat => if Nat.eqb i j then three 10 10 10 i else 0) (fun _ => 2) 0 20 (1 / 100) 1 (1 / 2) (Whole 5) (Some 31415926535%Z) h s)
    as (n & m & _ & _ & _ & _ & H); try l3d_tac HC.
  - exists (three 0 (-1) 0). split; [reflexivity|]. intros [|[|i]] Hi; cbn in *; try reflexivity; lia.
  - discriminate.
  - repeat constructor; cbn; lia.
  - intros; lra.
  - destruct (H ltac:(cbn; lia)) as (s1 & E1 & E2 & _ & E4). exists s1. destruct m as [|m].
    + exists IndexError. auto.
    + exists ValueError. split; [exact E1|]. apply E2; [lia|]. left. cbn. lia.
Qed.
Example C55_instance_unit :
  forall (G : Rng RNum) solve spline show h,
  let W := worldn RNum G diag_eigvals solve ln PI spline show in
  forall s : Sim W, exists s1, sim_setup W (l3d_op (PLeaf (NArr Int64 (A2 (K:=RNum) 3 3 (fun i j => if Nat.eqb i j then 1 else 0))))) DNone h s = (Err ValueError, s1).
Proof.
  intros G solve spline show h W s. set (op := PLeaf (NArr Int64 (A2 (K:=RNum) 3 3 (fun i j => if Nat.eqb i j then 1 else 0)))).
  assert (HC : diagonal 3 (fun i j : nat => if Nat.eqb i j then three 10 10 10 i else 0)).
  { intros i j _ _ Hne. destruct (Nat.eqb_spec i j); [contradiction|reflexivity]. }
  destruct (C55_rows_refuted G diag_eigvals solve spline show L63 op 3 3 (fun i j => if Nat.eqb i j then 1 else 0)%Z (l3d_op op) "L63" "Heun"
    (PLeaf (NArr Float64 (A1 (K:=RNum) 3 (three 10 10 10)))) (PLeaf (NArr Float64 (A1 (K:=RNum) 3 (three 10 28 (2667 / 1000)))))
    (PLeaf (NNum (2 : RNum))) (fun i j : nat => if Nat.eqb i j then three 10 10 10 i else 0) (fun _ => 2) 0 20 (1 / 100) 1 (1 / 2) (Whole 5) (Some 31415926535%Z) h s)
    as (n & m & H1 & H2 & H3 & H); try l3d_tac HC.
  - split; [lia|]. split; [lia|]. exists (fun i j => if Nat.eqb i j then 1 else 0). split; [reflexivity|]. intros i j _ _. destruct (Nat.eqb i j); reflexivity.
  - intros i j _ _. destruct (Nat.eqb i j); [exists 1%nat|exists 0%nat]; split; cbn; lia.
  - destruct H as [H|(Hm & _)]; [exact H|exfalso].
    destruct H1 as (_ & H1 & _). unfold int_part in H2. rewrite <- INR_IZR_INZ in H2. destruct H2 as [_ H2].
    assert (H4 : INR m <= 3) by (destruct Hm as [-> | ->]; cbn; lra). cbn [rate_val] in *. lra.
Qed.
