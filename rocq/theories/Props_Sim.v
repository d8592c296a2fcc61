(** * Properties C44-C46: Simulation, load, vgpa_main.py *)
From Coq Require Import ZArith List Bool Arith Reals Lra Lia String Permutation.
From Verif Require Import Num Arr M_LinAlg M_Proc M_Sim M_Sim1 Spec_Utils Spec_Proc Spec_Sim Spec_Sim1
  P_ProcWit P_Sim P_Save P_Sim2 P_Main.
Import ListNotations.
Local Open Scope string_scope.

(** ** C44: a configured simulation runs to completion *)
(** generated observations: after every history of calls, a setup that succeeds leaves every quantity
    the run needs, and they are those of this call; the run is the composition of its components on
    them *)
Theorem C44_generated :
  forall (W : World) name (cs : list (call W)) params h s',
  sim_setup W params DNone h (after cs (sim_init W name)) = (Ok tt, s') ->
  exists i m1 m2, finds (s_data s') i /\ given params h i m1 m2 /\ collected params i m1 m2 /\
    (forall out, run_on i = Ok out -> exists s'', sim_run W s' = (Ok tt, s'')) /\
    (forall e, run_on i = Err e -> sim_run W s' = (Err e, s')).
Proof.
  intros W name cs params h s' H. unfold sim_setup in H.
  destruct (setup W params DNone h (s_data (after cs (sim_init W name)))) as [r d] eqn:E. injection H as -> <-.
  destruct (setup_generated W params h _ d E) as (i & m1 & m2 & F1 & F2 & F3). exists i, m1, m2. cbn [s_data].
  split; [exact F1|]. split; [exact F2|]. split; [exact F3|]. unfold sim_run. cbn [s_data]. rewrite (run_finds W d i F1). split.
  - intros out ->. eauto.
  - intros e ->. reflexivity.
Qed.
Print Assumptions C44_generated.
(** one-dimensional models: the initial mean is the start of the sample path plus a tenth of the next
    standard normal draw of the model's generator, the initial variance is 0.2 *)
Theorem C44_initial_moments_1d :
  forall (K : Num) (G : Rng K) nln npi spline show k p (a : K) l z g,
  let W := world1 K G nln npi spline show in
  b_xt (p_base p) = Some (a :: l) -> r_normal G (b_rng (p_base p)) = (z, g) ->
  exists p', w_m0 W (k, p) = (Ok (VNum (nadd a (nmul (nlit 1 10) z))), (k, p')) /\
    b_rng (p_base p') = g /\ b_xt (p_base p') = b_xt (p_base p) /\ b_tk (p_base p') = b_tk (p_base p) /\
    p_sigma p' = p_sigma p /\ p_theta p' = p_theta p /\ p_isig p' = p_isig p /\
    w_s0 W (k, p') = VNum (nlit 1 5).
Proof.
  intros K G nln npi spline show k p a l z g W Hx Hz. cbn [W world1 w_m0 w_s0]. unfold m0_1, get_path.
  cbn [fst snd]. rewrite Hx, Hz. eexists. split; [reflexivity|]. cbn. rewrite ?Hx. repeat split; auto.
Qed.
Print Assumptions C44_initial_moments_1d.
(** user-supplied data: obs_noise is never set.  After every history in which all data were supplied,
    the run cannot succeed; it raises KeyError when the time step and method are accepted *)
Theorem C44_user_data_refuted :
  forall (W : World) name (cs : list (call W)) params data h s', only_user cs -> data <> DNone ->
  sim_setup W params data h (after cs (sim_init W name)) = (Ok tt, s') ->
  (forall u s'', sim_run W s' <> (Ok u, s'')) /\
  ((forall tw dt mtd single, field params "Time-window" tw -> field tw "dt" dt -> field params "Ode-method" mtd ->
      exists f b, w_fwd W dt mtd single = Ok f /\ w_bwd W dt mtd single = Ok b) ->
   sim_run W s' = (Err KeyError, s')).
Proof.
  intros W name cs params data h s' Hu Hd H. split.
  - replace s' with (after (cs ++ [Setup params data h])%list (sim_init W name)).
    + apply only_user_run. intros p d h' Hi. apply in_app_iff in Hi. destruct Hi as [Hi|[Hi|[]]]; [exact (Hu _ _ _ Hi)|congruence].
    + assert (A : forall c1 c2 (s : Sim W), after (c1 ++ c2)%list s = after c2 (after c1 s)).
      { induction c1 as [|[? ? ?|] c1 IH]; intros c2 s; cbn [after app]; [reflexivity| |]; apply IH. }
      rewrite A. cbn [after]. rewrite H. reflexivity.
  - intros Hode. pose proof (only_user_noise W cs (sim_init W name) Hu) as Hn. cbn [sim_init s_data dget] in Hn.
    unfold sim_setup in H. destruct (setup W params data h (s_data (after cs (sim_init W name)))) as [r d] eqn:E. injection H as -> <-.
    destruct (setup_user W params data h _ d Hd E) as (t & y & l & _ & Ht & Hy & (tw & dt & mtd & single & F1 & F2 & F3 & F4 & F5 & F6) & Hno & _).
    rewrite Hn in Hno. destruct (Hode tw dt mtd single F1 F3 F4) as (f & b & Hf & Hb).
    unfold sim_run. cbn [s_data]. rewrite (run_noise_missing W d dt mtd single f b tw Hno F2 F3 F5 F6 Hf Hb); eauto.
Qed.
Print Assumptions C44_user_data_refuted.
(** if obs_noise is there from an earlier call with generated observations, that old value is used,
    whatever the new parameters say *)
Theorem C44_user_data_partial :
  forall (W : World) (s : Sim W) params data h s' n op, data <> DNone ->
  sim_setup W params data h s = (Ok tt, s') -> has (s_data s) "obs_noise" (SVal n) ->
  (exists os, field params "Observations" os /\ field os "operator" op) ->
  exists i m1 t y l, data = DSeq (t :: y :: l) /\ finds (s_data s') i /\ given params h i m1 m1 /\
    i_t i = t /\ i_y i = y /\ i_noise i = n /\
    (forall e, run_on i = Err e -> sim_run W s' = (Err e, s')) /\
    (forall out, run_on i = Ok out -> exists s'', sim_run W s' = (Ok tt, s'')).
Proof.
  intros W s params data h s' n op Hd H Hn Hop. unfold sim_setup in H.
  destruct (setup W params data h (s_data s)) as [r d] eqn:E. injection H as -> <-.
  destruct (setup_user W params data h _ d Hd E) as (t & y & l & El & _ & _ & _ & _ & Hall).
  destruct (Hall n op Hn Hop) as (i & m1 & F1 & F2 & F3 & F4 & F5 & _). exists i, m1, t, y, l. cbn [s_data].
  repeat (split; [assumption|]). unfold sim_run. cbn [s_data]. rewrite (run_finds W d i F1). split.
  - intros e ->. reflexivity.
  - intros out ->. eauto.
Qed.
Print Assumptions C44_user_data_partial.
(** the data frame that main passes is indexed with 0, which is no column name: with a data file,
    main never completes *)
Theorem C44_data_file_refuted :
  forall (W : World) (Path : Type) (path : string -> Path) path_eqb rj rc order pf df none_name h k,
  fst (main W path path_eqb rj rc order pf (Some df) none_name h k) <> Return /\
  snd (main W path path_eqb rj rc order pf (Some df) none_name h k) = k.
Proof.
  intros. unfold main. destruct pf as [pf|]; [|split; [discriminate|reflexivity]].
  destruct (validate W order (rj pf)) as [params|[]]; try (split; [discriminate|reflexivity]).
  destruct (rc df) as [u|e]; cbn [bind]; [|split; [discriminate|reflexivity]].
  destruct (item params "Output_Name") as [x|e]; [|split; [discriminate|reflexivity]].
  match goal with |- context [stages ?a ?b ?c ?n ?p ?d ?e ?f] => destruct (stages a b c n p d e f) as [[[]|e'] k'] eqn:E end; cbn [fst snd].
  - exfalso. apply stages_ok in E. destruct E as (s1 & s2 & out & E & _). unfold sim_setup in E.
    match type of E with context [setup ?a ?b ?c ?d ?e] => destruct (setup a b c d e) as [r d'] eqn:E' end. injection E as -> <-.
    assert (Hd : @DFrame (w_val W) <> DNone) by discriminate.
    apply (setup_user W params DFrame h _ _ Hd) in E'. destruct E' as (t & y & l & E' & _). discriminate E'.
  - split; [discriminate|]. unfold stages in E.
    match type of E with context [sim_setup ?a ?b ?c ?d ?e] => destruct (sim_setup a b c d e) as [[u1|e1] s1] eqn:E1 end; [|congruence].
    exfalso. unfold sim_setup in E1.
    match type of E1 with context [setup ?a ?b ?c ?d ?e] => destruct (setup a b c d e) as [r d'] eqn:E' end. injection E1 as -> <-. destruct u1.
    assert (Hd : @DFrame (w_val W) <> DNone) by discriminate.
    apply (setup_user W params DFrame h _ _ Hd) in E'. destruct E' as (t & y & l & E' & _). discriminate E'.
Qed.
Print Assumptions C44_data_file_refuted.

Section OneDim.
Local Open Scope R_scope.
(** Ornstein-Uhlenbeck and double well, generated observations, exact arithmetic: setup succeeds for
    every acceptable parameter dictionary and every history.  n is the number of grid points and m the
    number of observations.  The run completes for 1 <= m < n - 1.  It fails for m = n - 1 (the last
    observation is at the last grid point, and the interpolation of the initial mean gets that knot
    twice) and for m = 0. *)
Theorem C44_one_dim_partial :
  forall (G : Rng RNum) (spline : list R -> list R -> R -> R) (show : pv (leaf RNum) -> string),
  let W := world1 RNum G ln PI spline show in
  forall params name method sigma theta r t0 tf dt mu0 tau0 density seed (h : r_state G) (s : Sim W),
  entries params name method sigma theta r t0 tf dt mu0 tau0 density seed ->
  acceptable name method sigma theta t0 tf dt density seed ->
  exists n m s1, reaches t0 dt tf n /\ int_part (INR (n - 1) * dt * rate_val density) (Z.of_nat m) /\ (m + 1 <= n)%nat /\
    sim_setup W params DNone h s = (Ok tt, s1) /\
    ((1 <= m)%nat -> (m + 1 < n)%nat -> exists s2, sim_run W s1 = (Ok tt, s2) /\ completed n (s_out s2)) /\
    ((1 <= m)%nat -> (m + 1 = n)%nat -> sim_run W s1 = (Err ValueError, s1)) /\
    (m = 0%nat -> sim_run W s1 = (Err IndexError, s1)).
Proof. intros G spline show W params. intros. eapply sim1_completes; eassumption. Qed.
Print Assumptions C44_one_dim_partial.

Definition ou_params (density : rate) : pv (leaf RNum) :=
  let num := fun x : R => PLeaf (LNum (x : RNum)) in
  PObj [("Output_Name", PLeaf (LStr "x")); ("Model", PLeaf (LStr "ou")); ("Ode-method", PLeaf (LStr "Euler"));
    ("Time-window", PObj [("t0", PLeaf (LInt 0)); ("tf", PLeaf (LInt 1)); ("dt", num (1 / 10))]);
    ("Noise", PObj [("sys", num (8 / 10)); ("obs", num (4 / 100))]);
    ("Drift", PObj [("theta", PLeaf (LInt 2))]);
    ("Prior", PObj [("mu0", PLeaf (LInt 0)); ("tau0", num (1 / 2))]);
    ("Observations", PObj [("density", rate_leaf1 density); ("operator", PLeaf LNull)]);
    ("Random-Seed", PLeaf LNull)].
Lemma ou_entries density : entries (ou_params density) "ou" "Euler" (8 / 10) 2 (4 / 100) 0 1 (1 / 10) 0 (1 / 2) density None.
Proof.
  unfold entries. unfold ou_params. cbv zeta. do 13 eexists.
  repeat match goal with
  | |- _ /\ _ => split
  | |- field _ _ _ => apply item_field; reflexivity
  | |- number _ _ => first [left; reflexivity | right; left; eexists; split; reflexivity]
  end.
Qed.
Lemma ou_acceptable density : 0 <= rate_val density <= 10 -> acceptable "ou" "Euler" (8 / 10) 2 0 1 (1 / 10) density None.
Proof.
  intros [H1 H2]. repeat split; try lra; try lia.
  - exists 10%Z. lra.
  - left. split; [|lra]. cbn. unfold Spec_Ode.letter_variant. cbn. split; [right; exists 14%nat; lia|]. split; [right; exists 20%nat; lia|exact I].
  - exists "euler". split; [cbn; auto|]. cbn. unfold Spec_Ode.letter_variant.
    repeat split; try (left; reflexivity). right. exists 4%nat. cbn. lia.
Qed.
Lemma ou_points n : reaches 0 (1 / 10) 1 n -> n = 11%nat.
Proof.
  intros (H1 & H2 & H3). assert (10 <= n - 1)%nat.
  { apply INR_le. change (INR 10) with (1+1+1+1+1+1+1+1+1+1). lra. }
  destruct (le_lt_dec n 11) as [|Hn]; [lia|]. exfalso. specialize (H3 10%nat ltac:(lia)).
  change (INR 10) with (1+1+1+1+1+1+1+1+1+1) in H3. lra.
Qed.
(** a density that collect_obs accepts (as many observations per time unit as grid points) makes the
    run fail; so does a density of zero *)
Theorem C44_density_refuted :
  forall (G : Rng RNum) (spline : list R -> list R -> R -> R) (show : pv (leaf RNum) -> string),
  let W := world1 RNum G ln PI spline show in
  forall (h : r_state G) (s : Sim W),
  (exists s1, sim_setup W (ou_params (Whole 10)) DNone h s = (Ok tt, s1) /\ sim_run W s1 = (Err ValueError, s1)) /\
  (exists s1, sim_setup W (ou_params (Whole 0)) DNone h s = (Ok tt, s1) /\ sim_run W s1 = (Err IndexError, s1)).
Proof.
  intros G spline show W h s. split.
  - destruct (C44_one_dim_partial G spline show _ _ _ _ _ _ _ _ _ _ _ _ _ h s (ou_entries (Whole 10)) (ou_acceptable (Whole 10) ltac:(cbn; lra)))
      as (n & m & s1 & Hr & [Hm1 Hm2] & _ & Hs & _ & Hv & _).
    apply ou_points in Hr. subst n. cbn [rate_val] in *. exists s1. split; [exact Hs|]. replace (INR (11 - 1)) with 10 in * by (cbn; lra).
    assert (m = 10%nat).
    { apply Nat2Z.inj. assert (C1 : (Z.of_nat m < 11)%Z) by (apply lt_IZR; lra). assert (C2 : (9 < Z.of_nat m)%Z) by (apply lt_IZR; lra). lia. }
    apply Hv; lia.
  - destruct (C44_one_dim_partial G spline show _ _ _ _ _ _ _ _ _ _ _ _ _ h s (ou_entries (Whole 0)) (ou_acceptable (Whole 0) ltac:(cbn; lra)))
      as (n & m & s1 & Hr & [Hm1 Hm2] & _ & Hs & _ & _ & Hi).
    exists s1. split; [exact Hs|]. apply Hi. cbn [rate_val] in *. rewrite Rmult_0_r in *.
    apply Nat2Z.inj. assert (C1 : (Z.of_nat m < 1)%Z) by (apply lt_IZR; lra). lia.
Qed.
Print Assumptions C44_density_refuted.
Example C44_instance :
  forall (G : Rng RNum) (spline : list R -> list R -> R -> R) (show : pv (leaf RNum) -> string),
  let W := world1 RNum G ln PI spline show in
  forall (h : r_state G) (s : Sim W),
  forall density, density = Whole 3 \/ density = Frac (7 / 2) ->
  exists s1 s2, sim_setup W (ou_params density) DNone h s = (Ok tt, s1) /\ sim_run W s1 = (Ok tt, s2) /\ completed 11 (s_out s2).
Proof.
  intros G spline show W h s density Hden. assert (Hv : 3 <= rate_val density <= 7 / 2) by (destruct Hden as [-> | ->]; cbn [rate_val]; lra).
  destruct (C44_one_dim_partial G spline show _ _ _ _ _ _ _ _ _ _ _ _ _ h s (ou_entries density) (ou_acceptable density ltac:(lra)))
    as (n & m & s1 & Hr & [Hm1 Hm2] & _ & Hs & Hc & _).
  apply ou_points in Hr. subst n. replace (INR (11 - 1)) with 10 in * by (cbn; lra).
  assert (m = 3%nat).
  { apply Nat2Z.inj. assert (C1 : (Z.of_nat m < 4)%Z) by (apply lt_IZR; lra). assert (C2 : (2 < Z.of_nat m)%Z) by (apply lt_IZR; lra). lia. }
  subst m. destruct (Hc ltac:(lia) ltac:(lia)) as (s2 & H1 & H2). eauto.
Qed.
End OneDim.

(** user data in binary64: setup succeeds, run raises KeyError *)
Definition f_params : pv (leaf FNum) :=
  PObj [("Output_Name", PLeaf (LStr "x")); ("Model", PLeaf (LStr "OU")); ("Ode-method", PLeaf (LStr "euler"));
    ("Time-window", PObj [("t0", PLeaf (LInt 0)); ("tf", PLeaf (LInt 2)); ("dt", PLeaf (LInt 1))]);
    ("Noise", PObj [("sys", PLeaf (LInt 1)); ("obs", PLeaf (LInt 1))]);
    ("Drift", PObj [("theta", PLeaf (LInt 2))]);
    ("Prior", PObj [("mu0", PLeaf (LInt 0)); ("tau0", PLeaf (LInt 1))]);
    ("Observations", PObj [("density", PLeaf (LInt 1)); ("operator", PLeaf LNull)]);
    ("Random-Seed", PLeaf LNull)].
Example C44_user_data_instance :
  let W := world1 FNum (count_rng FNum) (fun x => x) (nZ 3) (fun _ _ x => x) (fun _ => "") in
  match sim_setup W f_params (DSeq [VIdx [1%nat]; VVals [nZ (K:=FNum) 1]]) 0%Z (sim_init W None) with
  | (Ok _, s) => match sim_run W s with (Err KeyError, _) => true | _ => false end
  | _ => false
  end = true.
Proof. vm_compute. reflexivity. Qed.

(** ** C45: saved results can be loaded back *)
(** for every name and every output whose keys have no slash (and are not empty or "."), whose arrays
    have at least one dimension, and every disk on which the file can be written *)
Theorem C45_round_trip_partial :
  forall (N Path : Type) (path : string -> Path) (path_eqb : Path -> Path -> bool) of_group name (out : list (string * oval N))
    (k : Disk Path (@H5 N)),
  (forall p q, path_eqb p q = true <-> p = q) ->
  out <> [] -> NoDup (keys out) -> (forall key v, In (key, v) out -> plain_key key /\ storable v) ->
  d_can_write k (path (file_name name)) = true ->
  exists k' out', save_out path path_eqb name out k = (Ok tt, k', out') /\
    (* loading returns the same keys, in the same order, with the values as arrays *)
    (exists d, load path of_group (Some (file_name name)) k' = Ok d /\ keys d = keys out /\
       forall key v, has d key v <-> exists u, has out key u /\ v = as_array u) /\
    (* no other file changes *)
    (forall q, q <> path (file_name name) -> d_read k' q = d_read k q) /\
    (* saving again gives the same file *)
    (exists k'' out'', save_out path path_eqb name out' k' = (Ok tt, k'', out'') /\ out'' = out' /\ forall q, d_read k'' q = d_read k' q).
Proof.
  intros N Path path path_eqb of_group name out k Hp Hne Hd Hs Hw.
  assert (Hs' : Forall (fun kv => plain_key (fst kv) /\ storable (snd kv)) out)
    by (apply Forall_forall; intros [key v] Hi; exact (Hs key v Hi)).
  rewrite (save_ok path path_eqb name out k Hne Hd Hs' Hw). do 2 eexists. split; [reflexivity|]. split; [|split].
  - exists (arrays out). split; [|split; [apply keys_arrays|intros; apply has_arrays]].
    unfold load. rewrite read_write. rewrite (proj2 (Hp _ _) eq_refl). apply load_dsets.
  - intros q Hq. rewrite read_write. destruct (path_eqb (path (file_name name)) q) eqn:E; [|reflexivity].
    apply Hp in E. congruence.
  - rewrite (save_ok path path_eqb name (arrays out)).
    + do 2 eexists. split; [reflexivity|]. split; [apply arrays_twice|]. intros q. cbn [d_read write]. rewrite dsets_arrays.
      destruct (path_eqb (path (file_name name)) q); reflexivity.
    + destruct out; [congruence|discriminate].
    + rewrite keys_arrays. exact Hd.
    + apply arrays_storable. exact Hs'.
    + exact Hw.
Qed.
Print Assumptions C45_round_trip_partial.
(** a new object has no output; its name is the given one, "ID_None" for None, the empty string and
    the other values Python takes for false *)
Theorem C45_new_object :
  forall (W : World) (name : option (pv (w_leaf W))),
  s_out (sim_init W name) = [] /\ s_data (sim_init W name) = [] /\
  (name = None -> s_name (sim_init W name) = "ID_None") /\
  (forall x, name = Some x -> w_truthy W x = false -> s_name (sim_init W name) = "ID_None") /\
  (forall x, name = Some x -> w_truthy W x = true -> s_name (sim_init W name) = w_str W x).
Proof.
  intros W name. split; [reflexivity|]. split; [reflexivity|]. unfold sim_init. cbn [s_name].
  split; [intros ->; reflexivity|]. split; intros x -> ->; reflexivity.
Qed.
Print Assumptions C45_new_object.
(** no output: nothing is written *)
Theorem C45_empty :
  forall (N Path : Type) (path : string -> Path) path_eqb name (k : Disk Path (@H5 N)),
  save_out path path_eqb name [] k = (Ok tt, k, []).
Proof. reflexivity. Qed.
Print Assumptions C45_empty.
(** a file that cannot be written (missing directory): the exception is raised, nothing changes *)
Theorem C45_write_error :
  forall (N Path : Type) (path : string -> Path) path_eqb name (out : list (string * oval N)) (k : Disk Path (@H5 N)),
  out <> [] -> d_can_write k (path (file_name name)) = false ->
  save_out path path_eqb name out k = (Err FileNotFoundError, k, out).
Proof. intros N Path path path_eqb name [|kv out] k H Hw; [congruence|]. unfold save_out. rewrite Hw. reflexivity. Qed.
Print Assumptions C45_write_error.
(** load without a name, and of a file that is not there *)
Theorem C45_load_errors :
  forall (N Path : Type) (path : string -> Path) of_group (k : Disk Path (@H5 N)) f,
  load path of_group None k = Err RuntimeError /\
  (d_read k (path f) = None -> load path of_group (Some f) k = Err FileNotFoundError).
Proof. intros. split; [reflexivity|]. unfold load. intros ->. reflexivity. Qed.
Print Assumptions C45_load_errors.
(** the outputs of the one-dimensional models are of this kind, in any arithmetic and after every history
    of calls; so a successful run can be saved and loaded *)
Theorem C45_one_dim :
  forall (K : Num) (G : Rng K) nln npi spline show name (Path : Type) (path : string -> Path) (path_eqb : Path -> Path -> bool) of_group,
  let W := world1 K G nln npi spline show in
  forall (cs : list (call W)) s' (k : Disk Path (@H5 K)),
  (forall p q, path_eqb p q = true <-> p = q) ->
  sim_run W (after cs (sim_init W name)) = (Ok tt, s') ->
  d_can_write k (path (file_name (s_name s'))) = true ->
  exists k' out' d, save_out path path_eqb (s_name s') (s_out s') k = (Ok tt, k', out') /\
    load path of_group (Some (file_name (s_name s'))) k' = Ok d /\ keys d = keys (s_out s') /\
    forall key v, has d key v <-> exists u, has (s_out s') key u /\ v = as_array u.
Proof.
  intros K G nln npi spline show name Path path path_eqb of_group W cs s' k Hp Hr Hw.
  destruct (sim_run1_saveable K G nln npi spline show _ s' (after_saveable K G nln npi spline show cs (sim_init W name) saveable_nil) Hr) as ((H1 & H2) & H3 & _).
  destruct (C45_round_trip_partial K Path path path_eqb of_group (s_name s') (s_out s') k Hp H3 H1) as (k' & out' & E & (d & L1 & L2 & L3) & _).
  - intros key v Hi. rewrite Forall_forall in H2. exact (H2 _ Hi).
  - exact Hw.
  - exists k', out', d. auto.
Qed.
Print Assumptions C45_one_dim.
(** an array without dimensions (np.array(1.0)) is not converted and cannot be compressed: TypeError, and
    the file that was there before is gone *)
Theorem C45_zero_dim_refuted :
  forall (N Path : Type) (path : string -> Path) (path_eqb : Path -> Path -> bool) of_group name key (x : N)
    (k : Disk Path (@H5 N)),
  (forall p q, path_eqb p q = true <-> p = q) -> d_can_write k (path (file_name name)) = true ->
  exists k' out', save_out path path_eqb name [(key, OArr [] [x])] k = (Err TypeError, k', out') /\
    load path of_group (Some (file_name name)) k' = Ok [].
Proof.
  intros N Path path path_eqb of_group name key x k Hp Hw. unfold save_out. rewrite Hw. cbn [save_loop unscalar create_dataset].
  do 2 eexists. split; [reflexivity|]. unfold load. rewrite read_write, (proj2 (Hp _ _) eq_refl). reflexivity.
Qed.
Print Assumptions C45_zero_dim_refuted.
(** a key with a slash is written into a group, and load has no such key *)
Theorem C45_slash_refuted :
  forall (N Path : Type) (path : string -> Path) (path_eqb : Path -> Path -> bool) of_group name (x : N)
    (k : Disk Path (@H5 N)),
  (forall p q, path_eqb p q = true <-> p = q) -> d_can_write k (path (file_name name)) = true ->
  exists k' out', save_out path path_eqb name [("a/b", OArr [1%nat] [x])] k = (Ok tt, k', out') /\
    forall d, load path of_group (Some (file_name name)) k' = Ok d -> ~ In "a/b" (keys d).
Proof.
  intros N Path path path_eqb of_group name x k Hp Hw. unfold save_out. rewrite Hw.
  do 2 eexists. split; [reflexivity|]. intros d. unfold load. rewrite read_write, (proj2 (Hp _ _) eq_refl).
  cbn. destruct (of_group _) as [v|e]; cbn [bind]; [|discriminate]. intros H; inversion H. cbn. intros [E|[]]. discriminate E.
Qed.
Print Assumptions C45_slash_refuted.
(** names that differ in spaces share their file: the results saved first are lost *)
Theorem C45_collision_refuted :
  forall (N Path : Type) (path : string -> Path) (path_eqb : Path -> Path -> bool) of_group (x y : N)
    (k : Disk Path (@H5 N)),
  (forall p q, path_eqb p q = true <-> p = q) -> d_can_write k (path (file_name "a b")) = true ->
  let '(r1, k1, _) := save_out path path_eqb "a b" [("u", OScal x)] k in
  let '(r2, k2, _) := save_out path path_eqb "a_b" [("w", OScal y)] k1 in
  r1 = Ok tt /\ r2 = Ok tt /\ load path of_group (Some (file_name "a b")) k2 = Ok [("w", OArr [1%nat] [y])].
Proof.
  intros N Path path path_eqb of_group x y k Hp Hw.
  assert (P : forall key (z : N), key = "u" \/ key = "w" -> Forall (fun kv => plain_key (fst kv) /\ storable (snd kv)) [(key, OScal z)]).
  { intros key z Hk. constructor; [|constructor]. cbn [fst snd]. split; [|exact I].
    split; [|destruct Hk as [-> | ->]; split; discriminate].
    intros a b. destruct Hk as [-> | ->]; intros E; (destruct a as [|c [|? ?]]; cbn in E; discriminate). }
  rewrite (save_ok path path_eqb "a b" [("u", OScal x)] k); [|discriminate|repeat constructor; intros []|apply P; auto|exact Hw].
  rewrite (save_ok path path_eqb "a_b" [("w", OScal y)]); [|discriminate|repeat constructor; intros []|apply P; auto|exact Hw].
  split; [reflexivity|]. split; [reflexivity|]. unfold load. rewrite read_write. change (file_name "a_b") with (file_name "a b").
  rewrite (proj2 (Hp _ _) eq_refl). reflexivity.
Qed.
Print Assumptions C45_collision_refuted.
Example C45_instance :
  let '(r, k, _) := save_out (fun s => s) String.eqb " my run " [("fx", OScal 7%Z); ("at", OArr [2%nat] [1; 2]%Z)] (mkDisk (fun _ => None) (fun _ => true)) in
  r = Ok tt /\ load (fun s => s) (fun _ => Err ValueError) (Some "my_run.h5") k = Ok [("fx", OArr [1%nat] [7%Z]); ("at", OArr [2%nat] [1; 2]%Z)].
Proof. split; reflexivity. Qed.

(** ** C46: validation and exit status *)
Definition nine : list string :=
  ["Output_Name"; "Model"; "Ode-method"; "Time-window"; "Noise"; "Observations"; "Drift"; "Prior"; "Random-Seed"].
(** whatever the order in which the set of required keys is traversed *)
Theorem C46_validate :
  forall (W : World) order (d : list (string * pv (w_leaf W))), Permutation order nine ->
  ((forall k, In k nine -> exists v, has d k v) -> validate W order (Ok (PObj d)) = Ok (PObj d)) /\
  (forall k, In k nine -> (forall v, ~ has d k v) -> validate W order (Ok (PObj d)) = Err ValueError) /\
  (forall x, validate W order (Ok (PObj d)) = Ok x -> x = PObj d /\ forall k, In k nine -> exists v, has d k v).
Proof.
  intros W order d Hp. destruct (validate_obj W order d Hp) as [H1 H2]. change required_keys with nine in *.
  assert (E : forall k, In k (keys d) <-> exists v, has d k v).
  { intros k. split.
    - intros Hi. destruct (dget k d) as [v|] eqn:Eg; [exists v; apply dget_has; exact Eg|]. apply dget_none in Eg. contradiction.
    - intros [v Hv]. exact (has_in _ _ _ Hv). }
  split; [|split].
  - intros H. apply H1. intros k Hk. apply E, H, Hk.
  - intros k Hk Hn. apply H2. intros H. apply H in Hk. apply E in Hk. destruct Hk as [v Hv]. exact (Hn v Hv).
  - intros x Hx. split; [exact (validate_same W order _ _ Hx)|].
    assert (D : (forall k, In k nine -> In k (keys d)) \/ ~ (forall k, In k nine -> In k (keys d))).
    { destruct (check_obj W nine d) as [C1 [C2|C2]]; [left; apply C1; exact C2|right; intros H; apply C1 in H; congruence]. }
    destruct D as [D|D]; [intros k Hk; apply E, D, Hk|]. rewrite (H2 D) in Hx. discriminate.
Qed.
Print Assumptions C46_validate.
Section MainProps.
Context (W : World) (Path : Type) (path : string -> Path) (path_eqb : Path -> Path -> bool).
Variables (read_json : string -> result (pv (w_leaf W))) (read_csv : string -> result unit) (none_name : w_leaf W).
Notation disk := (Disk Path (@H5 (w_num W))).
Notation vgpa_main := (main W path path_eqb read_json read_csv).
(** the name of the simulation *)
Definition title (x : pv (w_leaf W)) : pv (w_leaf W) :=
  match x with PLeaf l => if w_isnone W l then PLeaf none_name else x | _ => x end.
(** no file, a file that is no JSON text, a missing key *)
Theorem C46_no_parameters :
  forall order data_file h (k : disk), Permutation order nine ->
  vgpa_main order None data_file none_name h k = (Exit 1, k) /\
  (forall pf, read_json pf = Err ValueError -> vgpa_main order (Some pf) data_file none_name h k = (Exit 1, k)) /\
  (forall pf d key, read_json pf = Ok (PObj d) -> In key nine -> (forall v, ~ has d key v) ->
     vgpa_main order (Some pf) data_file none_name h k = (Exit 1, k)).
Proof.
  intros order data_file h k Hp. split; [reflexivity|]. split.
  - intros pf H. unfold main. rewrite H. reflexivity.
  - intros pf d key H Hk Hn. unfold main. rewrite H. destruct (C46_validate W order d Hp) as (_ & Hv & _).
    rewrite (Hv key Hk Hn). reflexivity.
Qed.
(** a valid file without data: each of the three stages can fail, and only if all succeed main returns;
    the disk is touched by the last stage only *)
Theorem C46_stages :
  forall order h (k : disk) pf d name, Permutation order nine ->
  read_json pf = Ok (PObj d) -> (forall key, In key nine -> exists v, has d key v) -> has d "Output_Name" name ->
  let result := vgpa_main order (Some pf) None none_name h k in
  let s0 := sim_init W (Some (title name)) in
  (forall e s1, sim_setup W (PObj d) DNone h s0 = (Err e, s1) -> result = (Exit 1, k)) /\
  (forall s1, sim_setup W (PObj d) DNone h s0 = (Ok tt, s1) ->
     (forall e s2, sim_run W s1 = (Err e, s2) -> result = (Exit 1, k)) /\
     (forall s2, sim_run W s1 = (Ok tt, s2) ->
        (forall e k' out, save_out path path_eqb (s_name s2) (s_out s2) k = (Err e, k', out) -> result = (Exit 1, k')) /\
        (forall k' out, save_out path path_eqb (s_name s2) (s_out s2) k = (Ok tt, k', out) -> result = (Return, k')))).
Proof.
  intros order h k pf d name Hp Hj Hk Hn. cbv zeta. destruct (C46_validate W order d Hp) as (Hv & _).
  assert (E : forall r k', stages W path path_eqb (Some (title name)) (PObj d) DNone h k = (r, k') ->
    vgpa_main order (Some pf) None none_name h k = (match r with Ok _ => Return | Err _ => Exit 1 end, k')).
  { intros r k' H. unfold main. rewrite Hj, (Hv Hk). cbn [item]. rewrite (proj2 (ditem_ok d "Output_Name" name) Hn).
    unfold title in H. rewrite H. destruct r; reflexivity. }
  unfold stages in E. split; [|intros s1 H1; split; [|intros s2 H2; split]].
  - intros e s1 H. rewrite H in E. exact (E _ _ eq_refl).
  - intros e s2 H. rewrite H1, H in E. exact (E _ _ eq_refl).
  - intros e k' out H. rewrite H1, H2, H in E. exact (E _ _ eq_refl).
  - intros k' out H. rewrite H1, H2, H in E. exact (E _ _ eq_refl).
Qed.
(** in general: the exit status is 0 or 1, it is 0 exactly when main returns, and then every stage
    succeeded; results are written only after setup and run succeeded.  Whatever else goes wrong
    before the stages ends in status 1 as well, as an exception that nobody catches. *)
Theorem C46_status :
  forall order params_file data_file h (k : disk) o k',
  vgpa_main order params_file data_file none_name h k = (o, k') ->
  (exit_status o = 0%Z <-> o = Return) /\ (exit_status o = 0%Z \/ exit_status o = 1%Z) /\
  (o = Return -> exists pf params name data s1 s2 out, params_file = Some pf /\ read_json pf = Ok params /\
     field params "Output_Name" name /\
     sim_setup W params data h (sim_init W (Some (title name))) = (Ok tt, s1) /\ sim_run W s1 = (Ok tt, s2) /\
     save_out path path_eqb (s_name s2) (s_out s2) k = (Ok tt, k', out)) /\
  (k' <> k -> exists pf params name data s1 s2, params_file = Some pf /\ read_json pf = Ok params /\
     sim_setup W params data h (sim_init W (Some (title name))) = (Ok tt, s1) /\ sim_run W s1 = (Ok tt, s2)).
Proof.
  intros order pf df h k o k' H.
  assert (Bad : forall o, o <> Return -> (exists e, o = Uncaught e) \/ o = Exit 1 ->
    (exit_status o = 0%Z <-> o = Return) /\ (exit_status o = 0%Z \/ exit_status o = 1%Z)).
  { intros o' Hn [(e & ->)| ->]; cbn; (split; [split; [lia|congruence]|auto]). }
  unfold main in H. destruct pf as [pf|]; [|injection H as <- <-; split; [apply Bad; auto; discriminate|split; [apply Bad; auto; discriminate|split; [discriminate|congruence]]]].
  destruct (validate W order (read_json pf)) as [params|e] eqn:Ev.
  2:{ assert (o <> Return /\ ((exists e, o = Uncaught e) \/ o = Exit 1) /\ k' = k) as (B1 & B2 & ->).
      { destruct e; injection H as <- <-; (split; [discriminate|]); (split; [eauto|reflexivity]). }
      destruct (Bad o B1 B2) as [C1 C2]. split; [exact C1|]. split; [exact C2|]. split; [congruence|congruence]. }
  assert (Hj : read_json pf = Ok params).
  { destruct (read_json pf) as [x|e]; [|discriminate]. f_equal. symmetry. exact (validate_same W order _ _ Ev). }
  destruct (match df with None => Ok DNone | Some df => let* _ := read_csv df in Ok DFrame end) as [data|e].
  2:{ injection H as <- <-. destruct (Bad (Uncaught e) ltac:(discriminate) ltac:(eauto)) as [C1 C2]. split; [exact C1|]. split; [exact C2|]. split; [discriminate|congruence]. }
  destruct (item params "Output_Name") as [name|e] eqn:En.
  2:{ injection H as <- <-. destruct (Bad (Uncaught e) ltac:(discriminate) ltac:(eauto)) as [C1 C2]. split; [exact C1|]. split; [exact C2|]. split; [discriminate|congruence]. }
  fold (title name) in H.
  destruct (stages W path path_eqb (Some (title name)) params data h k) as [r kk] eqn:Es.
  assert (Hdisk : kk <> k -> exists s1 s2, sim_setup W params data h (sim_init W (Some (title name))) = (Ok tt, s1) /\ sim_run W s1 = (Ok tt, s2))
    by (exact (stages_disk W path path_eqb _ _ _ _ _ _ _ Es)).
  destruct r as [[]|e]; injection H as <- <-.
  - split; [split; auto|]. split; [auto|]. split.
    + intros _. apply stages_ok in Es. destruct Es as (s1 & s2 & out & S1 & S2 & S3).
      exists pf, params, name, data, s1, s2, out. apply item_field in En. auto 10.
    + intros Hk. destruct (Hdisk Hk) as (s1 & s2 & S1 & S2). exists pf, params, name, data, s1, s2. auto.
  - destruct (Bad (Exit 1) ltac:(discriminate) ltac:(auto)) as [C1 C2]. split; [exact C1|]. split; [exact C2|]. split; [discriminate|].
    intros Hk. destruct (Hdisk Hk) as (s1 & s2 & S1 & S2). exists pf, params, name, data, s1, s2. auto.
Qed.
End MainProps.
Print Assumptions C46_no_parameters.
Print Assumptions C46_stages.
Print Assumptions C46_status.
(** a parameter file that cannot be opened is not reported by main: the exception is not caught (the
    interpreter's status is 1 all the same) *)
Theorem C46_unreadable_file :
  forall (W : World) (Path : Type) (path : string -> Path) path_eqb rj rc order pf df none_name h k,
  rj pf = Err FileNotFoundError ->
  main W path path_eqb rj rc order (Some pf) df none_name h k = (Uncaught FileNotFoundError, k).
Proof. intros. unfold main. rewrite H. reflexivity. Qed.
Print Assumptions C46_unreadable_file.
Example C46_instance :
  let W := world1 FNum (count_rng FNum) (fun x => x) (nZ 3) (fun _ _ x => x) (fun _ => "") in
  let go := fun params => fst (main W (fun s => s) String.eqb (fun _ => Ok params) (fun _ => Ok tt) nine (Some "p.json") None LNull 0%Z
                              (mkDisk (fun _ => None) (fun _ => true))) in
  match validate W nine (Ok f_params) with Ok _ => true | Err _ => false end = true /\
  match go (PObj [("Model", PLeaf (LStr "OU"))]) with Exit 1 => true | _ => false end = true.
Proof. split; vm_compute; reflexivity. Qed.
