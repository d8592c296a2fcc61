(** * Property C52: the shipped simulations and the Lorenz models *)
From Coq Require Import ZArith List Bool Arith Reals Lra Lia String Permutation.
From Verif Require Import Num Arr M_LinAlg M_Proc M_Sim M_Sim1 M_SimN Spec_Utils Spec_Ode Spec_Proc Spec_Sim Spec_Sim1 Spec_SimN
  P_Noise P_RMat P_Spectral P_Sim P_Save P_Sim2 P_Main P_SimN P_SimN2 Props_Sim.
Import ListNotations.
Local Open Scope string_scope.
Local Open Scope R_scope.

(** the parameter files in the repository, sim_params_DW.json, sim_params_L3D.json and
    sim_params_L40D.json *)
Definition shipped {L} (str : string -> L) (int : Z -> L) (num : R -> L) (null : L)
  (output model method : string) (theta : L) (tf sys obs : R) (density : Z) : list (string * pv L) :=
  [("Info", PLeaf (str "Input parameters file for the VGPA simulation")); ("Author", PLeaf (str "Michail Vrettas, PhD"));
   ("Contact", PLeaf (str "michail.vrettas@gmail.com")); ("Date", PLeaf (str "2022-05-09"));
   ("Output_Name", PLeaf (str output)); ("Model", PLeaf (str model)); ("Ode-method", PLeaf (str method));
   ("Random-Seed", PLeaf (int 31415926535%Z));
   ("Time-window", PObj [("t0", PLeaf (num 0)); ("tf", PLeaf (num tf)); ("dt", PLeaf (num (1 / 100)))]);
   ("Noise", PObj [("sys", PLeaf (num sys)); ("obs", PLeaf (num obs))]);
   ("Observations", PObj [("density", PLeaf (int density)); ("operator", PLeaf null)]);
   ("Drift", PObj [("theta", PLeaf theta)]);
   ("Prior", PObj [("tau0", PLeaf (num (1 / 2))); ("mu0", PLeaf (num 1))])].
Definition dw_file : list (string * pv (leaf RNum)) :=
  shipped LStr LInt (fun x => LNum (x : RNum)) LNull "Sim_DW" "DW" "Euler" (LNum (1 : RNum)) 10 (8 / 10) (4 / 100) 2.
Definition three (a b c : R) : nat -> R := fun i => nth i [a; b; c] 0.
Definition l3d_file : list (string * parn) :=
  shipped NStr NInt (fun x => NNum (x : RNum)) NNull "Sim_L3D" "L63" "Heun"
    (NArr Float64 (A1 (K:=RNum) 3 (three 10 28 (2667 / 1000)))) 20 10 2 5.
Definition l40d_file : list (string * parn) :=
  shipped NStr NInt (fun x => NNum (x : RNum)) NNull "Sim_L40D" "L96" "RK2" (NNum (8 : RNum)) 4 4 1 8.

Ltac entries_tac :=
  repeat match goal with
  | |- _ /\ _ => split
  | |- field _ _ _ => apply item_field; reflexivity
  | |- number _ _ => left; reflexivity
  | |- num_n _ _ => left; reflexivity
  end.
Lemma nine_has {L} (d : list (string * pv L)) : forallb (fun k => match dget k d with Some _ => true | None => false end) nine = true ->
  forall k, In k nine -> exists v, has d k v.
Proof.
  intros H k Hk. rewrite forallb_forall in H. specialize (H k Hk). destruct (dget k d) as [v|] eqn:E; [|discriminate].
  exists v. apply dget_has. exact E.
Qed.
Lemma points z n dt tf : 0 < dt -> tf = IZR z * dt -> (0 < z)%Z -> reaches 0 dt tf n -> n = (Z.to_nat z + 1)%nat.
Proof.
  intros Hd -> Hz (H1 & H2 & H3). rewrite Rplus_0_l in H2. apply Rmult_le_reg_r in H2; [|exact Hd].
  rewrite INR_IZR_INZ in H2. apply le_IZR in H2.
  destruct (le_lt_dec n (Z.to_nat z + 1)) as [|Hn]; [lia|]. exfalso. specialize (H3 (Z.to_nat z) ltac:(lia)).
  rewrite Rplus_0_l, INR_IZR_INZ, Z2Nat.id in H3 by lia. lra.
Qed.
Lemma count z x m : x = IZR z -> int_part x (Z.of_nat m) -> Z.of_nat m = z.
Proof.
  intros -> [H1 H2]. apply le_IZR in H1. rewrite <- plus_IZR in H2. apply lt_IZR in H2. lia.
Qed.

Lemma run_name (W : World) (s : Sim W) r s' : sim_run W s = (r, s') -> s_name s' = s_name s.
Proof. unfold sim_run. destruct (fst (run_core W (s_data s))); intros E; inversion E; reflexivity. Qed.
Lemma setup_name (W : World) params data h (s : Sim W) r s' : sim_setup W params data h s = (r, s') -> s_name s' = s_name s.
Proof. unfold sim_setup. destruct (setup W params data h (s_data s)); intros E; inversion E; reflexivity. Qed.

(** the double-well file: main returns, and the file Sim_DW.h5 then holds the eleven results *)
Theorem C52_shipped_dw :
  forall (G : Rng RNum) (spline : list R -> list R -> R -> R) show (Path : Type) (path : string -> Path) (path_eqb : Path -> Path -> bool)
    of_group read_json read_csv order none_name pf h (k : Disk Path (@H5 RNum)),
  let W := world1 RNum G ln PI spline show in
  (forall p q, path_eqb p q = true <-> p = q) -> Permutation order nine ->
  read_json pf = Ok (PObj dw_file) -> d_can_write k (path "Sim_DW.h5") = true ->
  exists k' d, main W path path_eqb read_json read_csv order (Some pf) None none_name h k = (Return, k') /\
    load path of_group (Some "Sim_DW.h5") k' = Ok d /\
    (forall key, In key ["at"; "bt"; "mt"; "st"; "Efx"; "Edf"; "lamt"; "psit"] ->
       exists l : list R, has d key (OArr [1001%nat] (l : list RNum)) /\ Z.of_nat (List.length l) = 1001%Z) /\
    (forall key, In key ["fx"; "m0"; "s0"] -> exists v : R, has d key (OArr [1%nat] [v : RNum])).
Proof.
  intros G spline show Path path path_eqb of_group read_json read_csv order none_name pf h k W Hp Ho Hj Hw.
  set (s0 := sim_init W (Some (PLeaf (LStr "Sim_DW")))).
  assert (He : entries (PObj dw_file) "DW" "Euler" (8 / 10) 1 (4 / 100) 0 10 (1 / 100) 1 (1 / 2) (Whole 2) (Some 31415926535%Z)).
  { unfold entries. do 13 eexists. entries_tac. }
  assert (Ha : acceptable "DW" "Euler" (8 / 10) 1 0 10 (1 / 100) (Whole 2) (Some 31415926535%Z)).
  { repeat split; try lra; try lia.
    - exists 100%Z. cbn [rate_val]. lra.
    - cbn [rate_val]. lra.
    - right. cbn. unfold Spec_Ode.letter_variant. auto.
    - exists "euler". split; [cbn; auto|]. cbn. unfold Spec_Ode.letter_variant.
      repeat split; try (left; reflexivity). right. exists 4%nat. cbn. lia. }
  destruct (C44_one_dim_partial G spline show _ _ _ _ _ _ _ _ _ _ _ _ _ h s0 He Ha) as (n & m & s1 & Hr & Hm & _ & Hset & Hrun & _).
  apply (points 1000) in Hr; [|lra|lra|lia].
  replace (INR (n - 1)) with 1000 in Hm by (rewrite INR_IZR_INZ; f_equal; lia).
  cbn [rate_val] in Hm. apply (count 20) in Hm; [|lra].
  destruct (Hrun ltac:(lia) ltac:(lia)) as (s2 & Hr2 & [HC1 HC2]).
  assert (Hname : s_name s2 = "Sim_DW").
  { rewrite (run_name _ _ _ _ Hr2), (setup_name _ _ _ _ _ _ _ Hset). reflexivity. }
  assert (Haf : s1 = after (W:=W) [Setup (W:=W) (PObj dw_file) DNone h] s0).
  { cbn [after]. exact (eq_sym (f_equal snd Hset)). }
  assert (Hr3 : sim_run W (after (W:=W) [Setup (W:=W) (PObj dw_file) DNone h] s0) = (Ok tt, s2)) by (rewrite <- Haf; exact Hr2).
  destruct (C45_one_dim RNum G ln PI spline show (Some (PLeaf (LStr "Sim_DW"))) Path path path_eqb of_group [Setup (W:=W) (PObj dw_file) DNone h] s2 k Hp Hr3) as (k' & out' & d & E1 & E2 & E3 & E4).
  { rewrite Hname. exact Hw. }
  exists k', d. split; [|split; [rewrite Hname in E2; exact E2|]].
  - destruct (C46_stages W Path path path_eqb read_json read_csv none_name order h k pf dw_file (PLeaf (LStr "Sim_DW")) Ho Hj) as [_ Hst].
    { apply nine_has. reflexivity. } { apply dget_has. reflexivity. }
    exact (proj2 (proj2 (Hst s1 Hset) s2 Hr2) k' out' E1).
  - split; intros key Hk.
    + destruct (HC1 key Hk) as (l & Hl1 & Hl2). assert (E : n = 1001%nat) by lia. rewrite E in Hl1, Hl2.
      exists l. split; [|lia]. apply E4. eexists. split; [exact Hl1|reflexivity].
    + destruct (HC2 key Hk) as (v & Hv). exists v. apply E4. eexists. split; [exact Hv|reflexivity].
Qed.
Print Assumptions C52_shipped_dw.

(** a number as system noise: the constructors of the Lorenz models raise ValueError (they cannot tell
    a number from an array any more, see C42), so setup does, and main ends with status 1 without writing
    anything *)
Theorem C52_scalar_noise_refuted :
  forall (G : Rng RNum) eigvals solve spline show (k : kindn),
  let W := worldn RNum G eigvals solve ln PI spline show in
  forall params name method sys theta obs x t0 tf dt mu0 tau0 density seed data h (s : Sim W),
  entries_n params name method sys theta obs t0 tf dt mu0 tau0 density seed ->
  same_up_to_case name (name_n k) -> drift_n k theta -> seed_ok seed -> num_n sys x ->
  exists s', sim_setup W params data h s = (Err ValueError, s').
Proof.
  intros G eigvals solve spline show k W params name method sys theta obs x t0 tf dt mu0 tau0 density seed data h s
    (dr & nz & tw & os & pr & x4 & x5 & x6 & x7 & x8 & F1 & F2 & F3 & F4 & F5 & F6 & F7 &
    F8 & F9 & N4 & F10 & N5 & F11 & N6 & F12 & F13 & N7 & F14 & N8 & F15 & F16 & F17 & F18) Hn Hd Hs Hx.
  pose proof (buildn_scalar G eigvals k name x sys theta seed h Hn Hd Hx Hs) as HB.
  destruct (setup_build_fails W params data h (s_data s) dr nz tw os pr _ _ sys theta x7 x8 (NStr name) ValueError
    F3 F5 F8 F2 F18 F15 F12 F1 F13 F14 F6 F4 HB ltac:(discriminate)) as (d & E).
  unfold sim_setup. rewrite E. eauto.
Qed.
Print Assumptions C52_scalar_noise_refuted.
Theorem C52_shipped_lorenz_refuted :
  forall (G : Rng RNum) eigvals solve spline show (Path : Type) (path : string -> Path) path_eqb
    read_json read_csv order none_name pf h (k : Disk Path (@H5 RNum)) file,
  let W := worldn RNum G eigvals solve ln PI spline show in
  Permutation order nine -> file = l3d_file \/ file = l40d_file -> read_json pf = Ok (PObj file) ->
  main W path path_eqb read_json read_csv order (Some pf) None none_name h k = (Exit 1, k).
Proof.
  intros G eigvals solve spline show Path path path_eqb read_json read_csv order none_name pf h k file W Ho Hf Hj.
  assert (HS : exists name, has file "Output_Name" name /\ (forall key, In key nine -> exists v, has file key v) /\
    forall s : Sim W, exists s', sim_setup W (PObj file) DNone h s = (Err ValueError, s')).
  { destruct Hf as [-> | ->].
    - eexists. split; [apply dget_has; reflexivity|]. split; [apply nine_has; reflexivity|]. intros s.
      eapply (C52_scalar_noise_refuted G eigvals solve spline show L63 (PObj l3d_file) "L63" "Heun" _ _ _ 10 0 20 (1 / 100) 1 (1 / 2) (Whole 5) (Some 31415926535%Z)).
      + unfold entries_n. do 10 eexists. entries_tac.
      + cbn. unfold Spec_Ode.letter_variant. auto.
      + do 2 eexists. reflexivity.
      + cbn. lia.
      + left. reflexivity.
    - eexists. split; [apply dget_has; reflexivity|]. split; [apply nine_has; reflexivity|]. intros s.
      eapply (C52_scalar_noise_refuted G eigvals solve spline show L96 (PObj l40d_file) "L96" "RK2" _ _ _ 4 0 4 (1 / 100) 1 (1 / 2) (Whole 8) (Some 31415926535%Z)).
      + unfold entries_n. do 10 eexists. entries_tac.
      + cbn. unfold Spec_Ode.letter_variant. auto.
      + eexists. left. reflexivity.
      + cbn. lia.
      + left. reflexivity. }
  destruct HS as (name & Hname & Hk & HS).
  destruct (C46_stages W Path path path_eqb read_json read_csv none_name order h k pf file name Ho Hj Hk Hname) as [HE _].
  destruct (HS (sim_init W (Some (title W none_name name)))) as (s1 & E). exact (HE _ _ E).
Qed.
Print Assumptions C52_shipped_lorenz_refuted.

(** Lorenz-63 with a list or a matrix of floats as system noise (symmetric, positive definite), generated
    observations, exact arithmetic: as for the one-dimensional models (C44) *)
Theorem C52_l63_partial :
  forall (G : Rng RNum) eigvals solve spline show,
  let W := worldn RNum G eigvals solve ln PI spline show in
  forall params name method sys theta obs C v t0 tf dt mu0 tau0 density seed h (s : Sim W),
  entries_n params name method sys theta obs t0 tf dt mu0 tau0 density seed ->
  acceptable_n L63 name method C v t0 tf dt tau0 density seed ->
  drift_n L63 theta -> sys_n 3 sys C -> obs_n 3 obs v -> spectrum 3 C (eigvals 3%nat C) ->
  exists n m s1, reaches t0 dt tf n /\ int_part (INR (n - 1) * dt * rate_val density) (Z.of_nat m) /\ (m + 1 <= n)%nat /\
    sim_setup W params DNone h s = (Ok tt, s1) /\
    ((1 <= m)%nat -> (m + 1 < n)%nat -> exists s2, sim_run W s1 = (Ok tt, s2) /\ completed_n 3 n (s_out s2)) /\
    ((1 <= m)%nat -> (m + 1 = n)%nat -> sim_run W s1 = (Err ValueError, s1)) /\
    (m = 0%nat -> sim_run W s1 = (Err IndexError, s1)).
Proof.
  intros G eigvals solve spline show W params name method sys theta obs C v t0 tf dt mu0 tau0 density seed h s He Ha Hd Hs Hv Hsp.
  destruct (simn_completes G eigvals solve spline show L63 params name method sys theta obs C v t0 tf dt mu0 tau0 density seed h s
    ltac:(discriminate) He Ha Hd Hs Hv Hsp) as (n & m & s1 & H1 & H2 & H3 & H4 & H5 & H6 & H7).
  exists n, m, s1. repeat (split; [assumption|]). split; [|auto].
  intros A B. destruct (H5 A B) as [H|[H _]]; [exact H|discriminate].
Qed.
Print Assumptions C52_l63_partial.
(** Lorenz-96 (40 components): the same, but a covariance that is not positive definite or a failing
    np.linalg.solve in the energy ends the run with LinAlgError *)
Theorem C52_l96_partial :
  forall (G : Rng RNum) eigvals solve spline show,
  let W := worldn RNum G eigvals solve ln PI spline show in
  (forall d S e, solve d S = Err e -> e = LinAlgError) ->
  forall params name method sys theta obs C v t0 tf dt mu0 tau0 density seed h (s : Sim W),
  entries_n params name method sys theta obs t0 tf dt mu0 tau0 density seed ->
  acceptable_n L96 name method C v t0 tf dt tau0 density seed ->
  drift_n L96 theta -> sys_n 40 sys C -> obs_n 40 obs v -> spectrum 40 C (eigvals 40%nat C) ->
  exists n m s1, reaches t0 dt tf n /\ int_part (INR (n - 1) * dt * rate_val density) (Z.of_nat m) /\ (m + 1 <= n)%nat /\
    sim_setup W params DNone h s = (Ok tt, s1) /\
    ((1 <= m)%nat -> (m + 1 < n)%nat ->
       (exists s2, sim_run W s1 = (Ok tt, s2) /\ completed_n 40 n (s_out s2)) \/ sim_run W s1 = (Err LinAlgError, s1)) /\
    ((1 <= m)%nat -> (m + 1 = n)%nat -> sim_run W s1 = (Err ValueError, s1)) /\
    (m = 0%nat -> sim_run W s1 = (Err IndexError, s1)).
Proof.
  intros G eigvals solve spline show W Hsolve params name method sys theta obs C v t0 tf dt mu0 tau0 density seed h s He Ha Hd Hs Hv Hsp.
  destruct (simn_completes G eigvals solve spline show L96 params name method sys theta obs C v t0 tf dt mu0 tau0 density seed h s
    (fun _ => Hsolve) He Ha Hd Hs Hv Hsp) as (n & m & s1 & H1 & H2 & H3 & H4 & H5 & H6 & H7).
  exists n, m, s1. repeat (split; [assumption|]). split; [|auto].
  intros A B. destruct (H5 A B) as [H|[_ H]]; [left; exact H|right; exact H].
Qed.
Print Assumptions C52_l96_partial.

(** the initial moments and the prior: the start of the sample path plus a tenth of the next d standard
    normal draws, 0.2 I, the vector with all entries mu0, and tau0 I *)
Theorem C52_initial_moments :
  forall (K : Num) (G : Rng K) eigvals solve nln npi spline show k (p : PN G) (a : vec K) l z g (mu tau : K),
  let W := worldn K G eigvals solve nln npi spline show in
  b_xt (q_base p) = Some (a :: l) -> normals G (q_dim p) (b_rng (q_base p)) = (z, g) ->
  exists p' m0, w_m0 W (k, p) = (Ok (WVec m0), (k, p')) /\
    (forall i, m0 i = nadd (a i) (nmul (nlit 1 10) (nth i z (nZ 0)))) /\
    b_rng (q_base p') = g /\ b_xt (q_base p') = b_xt (q_base p) /\ b_tk (q_base p') = b_tk (q_base p) /\
    q_sigma p' = q_sigma p /\ q_theta p' = q_theta p /\ q_isig p' = q_isig p /\ q_dim p' = q_dim p /\
    (exists s0, w_s0 W (k, p') = WMat s0 /\ forall i j, s0 i j = nmul (nlit 1 5) (if Nat.eqb i j then nZ 1 else nZ 0)) /\
    (exists mu', w_mu0 W (PLeaf (NNum mu)) (k, p') = Ok (WVec mu') /\ forall i, mu' i = nmul mu (nZ 1)) /\
    (exists tau', w_tau0 W (PLeaf (NNum tau)) (k, p') = Ok (WMat tau') /\ forall i j, tau' i j = nmul tau (if Nat.eqb i j then nZ 1 else nZ 0)).
Proof.
  intros K G eigvals solve nln npi spline show k p a l z g mu tau W Hx Hz. cbn [W worldn w_m0 w_s0 w_mu0 w_tau0].
  unfold m0_n, get_path. cbn [fst snd]. rewrite Hx, Hz. eexists _, _. split; [reflexivity|]. split; [reflexivity|].
  cbn. rewrite ?Hx. repeat (split; [reflexivity|]).
  split; [eexists; split; reflexivity|]. split; eexists; split; reflexivity.
Qed.
Print Assumptions C52_initial_moments.
(** what a run of a Lorenz model leaves can be saved and loaded, in any arithmetic and after every
    history of calls *)
Theorem C52_saved :
  forall (K : Num) (G : Rng K) eigvals solve nln npi spline show name (Path : Type) (path : string -> Path) (path_eqb : Path -> Path -> bool) of_group,
  let W := worldn K G eigvals solve nln npi spline show in
  forall (cs : list (call W)) s' (k : Disk Path (@H5 K)),
  (forall p q, path_eqb p q = true <-> p = q) ->
  sim_run W (after cs (sim_init W name)) = (Ok tt, s') ->
  d_can_write k (path (file_name (s_name s'))) = true ->
  exists k' out' d, save_out path path_eqb (s_name s') (s_out s') k = (Ok tt, k', out') /\
    load path of_group (Some (file_name (s_name s'))) k' = Ok d /\ keys d = keys (s_out s') /\
    forall key v, has d key v <-> exists u, has (s_out s') key u /\ v = as_array u.
Proof.
  intros K G eigvals solve nln npi spline show name Path path path_eqb of_group W cs s' k Hp Hr Hw.
  destruct (sim_runn_saveable K G eigvals solve nln npi spline show _ s'
    (after_saveable_n K G eigvals solve nln npi spline show cs (sim_init W name) saveable_nil) Hr) as ((H1 & H2) & H3 & _).
  destruct (C45_round_trip_partial K Path path path_eqb of_group (s_name s') (s_out s') k Hp H3 H1) as (k' & out' & E & (d & L1 & L2 & L3) & _).
  - intros key v Hi. rewrite Forall_forall in H2. exact (H2 _ Hi).
  - exact Hw.
  - exists k', out', d. auto.
Qed.
Print Assumptions C52_saved.

(** the file of the Lorenz-63 simulation with its noise written as a list: 2001 grid points, 100
    observations, and the run completes *)
Definition l3d_list : parn :=
  PObj (dset "Noise" (PObj [("sys", PLeaf (NArr Float64 (A1 (K:=RNum) 3 (three 10 10 10)))); ("obs", PLeaf (NNum (2 : RNum)))]) l3d_file).
Example C52_instance :
  forall (G : Rng RNum) solve spline show h,
  let W := worldn RNum G diag_eigvals solve ln PI spline show in
  forall s : Sim W, exists s1 s2, sim_setup W l3d_list DNone h s = (Ok tt, s1) /\ sim_run W s1 = (Ok tt, s2) /\
    completed_n 3 (Z.to_nat 2001) (s_out s2).
Proof.
  intros G solve spline show h W s. set (C := fun i j : nat => if Nat.eqb i j then three 10 10 10 i else 0).
  assert (HC : diagonal 3 C).
  { intros i j _ _ Hne. unfold C. destruct (Nat.eqb_spec i j); [contradiction|reflexivity]. }
  destruct (C52_l63_partial G diag_eigvals solve spline show l3d_list "L63" "Heun"
    (PLeaf (NArr Float64 (A1 (K:=RNum) 3 (three 10 10 10)))) (PLeaf (NArr Float64 (A1 (K:=RNum) 3 (three 10 28 (2667 / 1000)))))
    (PLeaf (NNum (2 : RNum))) C (fun _ => 2) 0 20 (1 / 100) 1 (1 / 2) (Whole 5) (Some 31415926535%Z) h s)
    as (n & m & s1 & Hr & Hm & _ & Hset & Hrun & _).
  - unfold entries_n. do 10 eexists. entries_tac.
  - unfold acceptable_n. cbn [dim_n name_n]. split; [apply diagonal_symm; exact HC|]. split.
    { apply diag_posdef; [exact HC|]. intros i Hi. unfold C. rewrite Nat.eqb_refl. unfold three.
      destruct i as [|[|[|i]]]; cbn; lra || lia. }
    split; [intros; lra|]. split; [repeat split; try lra; exists 100%Z; cbn [rate_val]; lra|]. split; [cbn [rate_val]; lra|]. split; [cbn; unfold Spec_Ode.letter_variant; auto|]. split.
    + exists "heun". split; [cbn; auto|]. cbn. unfold Spec_Ode.letter_variant.
      repeat split; try (left; reflexivity). right. exists 7%nat. cbn. lia.
    + cbn. lia.
  - do 2 eexists. reflexivity.
  - left. exists (three 10 10 10). split; reflexivity.
  - left. exists 2. split; [left; reflexivity|reflexivity].
  - apply diag_spectrum. exact HC.
  - apply (points 2000) in Hr; [|lra|lra|lia].
    replace (INR (n - 1)) with 2000 in Hm by (rewrite INR_IZR_INZ; f_equal; lia).
    cbn [rate_val] in Hm. apply (count 100) in Hm; [|lra].
    destruct (Hrun ltac:(lia) ltac:(lia)) as (s2 & H1 & H2). exists s1, s2.
    replace (Z.to_nat 2001) with n by lia. auto.
Qed.
