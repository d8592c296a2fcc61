(** * Property C53: a simulation is reproducible from its parameter file *)
From Coq Require Import ZArith List Bool Arith Reals Lra Lia String.
From Verif Require Import Num Arr M_LinAlg M_Proc M_Sim M_Sim1 M_SimN Spec_Utils Spec_Proc Spec_Sim Spec_Sim1
  P_ProcWit P_Sim P_Save P_Sim2 P_Repro Spec_Seed P_Seed Props_Sim.
Import ListNotations.
Local Open Scope string_scope.

(** with a seed other than 0, setup has the same outcome and leaves the same object whatever the
    entropy of the operating system, for every model, data, state of the object and arithmetic; so
    main ends in the same way and leaves the same disk *)
Theorem C53_seeded_partial :
  forall (K : Num) (G : Rng K) eigvals solve nln npi spline show1 showN z, z <> 0%Z ->
  (let W := world1 K G nln npi spline show1 in
   forall params, field params "Random-Seed" (PLeaf (LInt z)) ->
   (forall data h h' (s : Sim W), sim_setup W params data h s = sim_setup W params data h' s) /\
   forall Path (path : string -> Path) path_eqb read_json read_csv order pf df none h h' k, read_json pf = Ok params ->
     main W path path_eqb read_json read_csv order (Some pf) df none h k =
     main W path path_eqb read_json read_csv order (Some pf) df none h' k) /\
  (let W := worldn K G eigvals solve nln npi spline showN in
   forall params, field params "Random-Seed" (PLeaf (NInt z)) ->
   (forall data h h' (s : Sim W), sim_setup W params data h s = sim_setup W params data h' s) /\
   forall Path (path : string -> Path) path_eqb read_json read_csv order pf df none h h' k, read_json pf = Ok params ->
     main W path path_eqb read_json read_csv order (Some pf) df none h k =
     main W path path_eqb read_json read_csv order (Some pf) df none h' k).
Proof.
  intros K G eigvals solve nln npi spline show1 showN z Hz.
  assert (A : forall (W : World) seed params, det_seed W seed -> field params "Random-Seed" seed ->
    (forall data h h' (s : Sim W), sim_setup W params data h s = sim_setup W params data h' s) /\
    forall Path (path : string -> Path) path_eqb read_json read_csv order pf df none h h' k, read_json pf = Ok params ->
     main W path path_eqb read_json read_csv order (Some pf) df none h k =
     main W path path_eqb read_json read_csv order (Some pf) df none h' k).
  { intros W seed params Hd Hf.
    assert (S1 : forall data h h' (s : Sim W), sim_setup W params data h s = sim_setup W params data h' s).
    { intros data h h' s. unfold sim_setup. rewrite (setup_det W params data h h' seed _ Hf Hd). reflexivity. }
    split; [exact S1|]. intros Path path path_eqb read_json read_csv order pf df none h h' k Hj. unfold main, stages. rewrite Hj.
    destruct (validate W order (Ok params)) as [q|e] eqn:Ev; [|reflexivity].
    assert (q = params).
    { unfold validate in Ev. cbn [bind] in Ev. destruct (check_keys W order params); [|discriminate]. cbn [bind] in Ev. congruence. }
    subst q. destruct (match df with Some d => let* _ := read_csv d in Ok DFrame | None => Ok DNone end) as [data|]; [|reflexivity].
    destruct (item params "Output_Name") as [name|]; [|reflexivity]. rewrite (S1 data h h'). reflexivity. }
  split; intros W params Hf; eapply A; try exact Hf.
  - apply det_seed1, Hz.
  - apply det_seedn, Hz.
Qed.
Print Assumptions C53_seeded_partial.
(** seeds of all kinds.  Non-zero integers, true, and lists of integers or truth values that are not empty fix the
    generator, so that setup does not depend on the entropy of the operating system; zero, false, null and whatever is
    empty make the same model as null; with all other values the constructor raises TypeError or earlier errors and no
    setup succeeds.  For the one-dimensional models these are all values. *)
Theorem C53_seed_kinds :
  forall (K : Num) (G : Rng K) eigvals solve nln npi spline show1 showN,
  (let W := world1 K G nln npi spline show1 in
   forall params x, field params "Random-Seed" x ->
   (fixes1 x \/ no_seed1 x \/ wrong1 x) /\
   (fixes1 x -> forall data h h' (s : Sim W), sim_setup W params data h s = sim_setup W params data h' s) /\
   (no_seed1 x -> forall name noise drift h, w_build W name noise drift x h = w_build W name noise drift (PLeaf LNull) h) /\
   (wrong1 x -> (forall noise drift h, w_build W "DW" noise drift x h = Some (Err TypeError) /\ w_build W "OU" noise drift x h = Some (Err TypeError)) /\
      forall data h (s s' : Sim W), sim_setup W params data h s <> (Ok tt, s'))) /\
  (let W := worldn K G eigvals solve nln npi spline showN in
   forall params x, field params "Random-Seed" x ->
   (fixesn x -> forall data h h' (s : Sim W), sim_setup W params data h s = sim_setup W params data h' s) /\
   (no_seedn x -> forall name noise drift h, w_build W name noise drift x h = w_build W name noise drift (PLeaf NNull) h) /\
   (wrongn x -> forall data h (s s' : Sim W), sim_setup W params data h s <> (Ok tt, s'))).
Proof.
  intros K G eigvals solve nln npi spline show1 showN.
  assert (A : forall (W : World) seed params, det_seed W seed -> field params "Random-Seed" seed ->
    forall data h h' (s : Sim W), sim_setup W params data h s = sim_setup W params data h' s).
  { intros W seed params Hd Hf data h h' s. unfold sim_setup. rewrite (setup_det W params data h h' seed _ Hf Hd). reflexivity. }
  assert (B : forall (W : World) x params, field params "Random-Seed" x ->
    (forall name noise drift h m, w_build W name noise drift x h <> Some (Ok m)) ->
    forall data h (s s' : Sim W), sim_setup W params data h s <> (Ok tt, s')).
  { intros W x params Hf Hb data h s s' E. apply (setup_refused_seed W params data h (s_data s) x Hf (fun a b c m => Hb a b c h m)).
    unfold sim_setup in E. destruct (setup W params data h (s_data s)) as [r d]. cbn [fst]. congruence. }
  split; intros W params x Hf.
  - split; [apply seeds1|]. split; [|split].
    + intros H. exact (A W x params (fixes1_det K G nln npi spline show1 x H) Hf).
    + intros H name noise drift h. exact (no_seed1_none K G nln npi spline show1 x name noise drift h H).
    + intros H. split.
      * intros noise drift h. split; apply wrong1_build; auto.
      * apply (B W x params Hf). intros. apply wrong1_never, H.
  - split; [|split].
    + intros H. exact (A W x params (fixesn_det K G eigvals solve nln npi spline showN x H) Hf).
    + intros H name noise drift h. exact (no_seedn_none K G eigvals solve nln npi spline showN x name noise drift h H).
    + intros H. apply (B W x params Hf). intros. apply wrongn_never, H.
Qed.
Print Assumptions C53_seed_kinds.
(** [3, 1] fixes the generator, false does not, "7" is refused *)
Example C53_seed_instance :
  fixes1 (K:=RNum) (PLeaf (LInts [3%Z; 1%Z])) /\ no_seed1 (K:=RNum) (PLeaf (LBool false)) /\ wrong1 (K:=RNum) (PLeaf (LStr "7")).
Proof.
  split; [|split].
  - do 2 right. left. eexists. split; [reflexivity|discriminate].
  - do 2 right. left. reflexivity.
  - right. left. eexists. split; [reflexivity|discriminate].
Qed.

(** what happened to the object before does not matter: after every history of calls, setup has the
    outcome it has on a new object, and with generated observations a run that follows has the same
    outcome, and all results of the run on the new object are among those of the used one *)
Theorem C53_history :
  forall (W : World) name name' (cs : list (call W)) params data h r1 s1 r2 s2,
  sim_setup W params data h (after cs (sim_init W name)) = (r1, s1) ->
  sim_setup W params data h (sim_init W name') = (r2, s2) ->
  r1 = r2 /\
  (data = DNone -> r1 = Ok tt -> forall q1 t1 q2 t2, sim_run W s1 = (q1, t1) -> sim_run W s2 = (q2, t2) ->
   q1 = q2 /\ (q1 = Ok tt -> forall k v, has (s_out t2) k v -> has (s_out t1) k v)).
Proof.
  intros W name name' cs params data h r1 s1 r2 s2 H1 H2. unfold sim_setup in H1, H2. split.
  { pose proof (rel_setup_data W params data h (s_data (after cs (sim_init W name))) (s_data (sim_init W name'))
      (fun k Hk => match Hk with end)) as Hrel.
    destruct (setup W params data h (s_data (after cs (sim_init W name)))) as [a1 d1].
    destruct (setup W params data h (s_data (sim_init W name'))) as [a2 d2].
    injection H1 as <- _. injection H2 as <- _.
    destruct a1 as [u1|e1], a2 as [u2|e2]; try contradiction; [destruct Hrel|]; congruence. }
  intros -> Er.
  pose proof (rel_setup W params h (s_data (after cs (sim_init W name))) (s_data (sim_init W name'))
    (fun k Hk => match Hk with end)) as Hrel.
  destruct (setup W params DNone h (s_data (after cs (sim_init W name)))) as [a1 d1].
  destruct (setup W params DNone h (s_data (sim_init W name'))) as [a2 d2].
  injection H1 as <- <-. injection H2 as <- <-.
  destruct a1 as [u1|e1], a2 as [u2|e2]; try contradiction; [|discriminate].
  destruct Hrel as [Hu Hag]. intros q1 t1 q2 t2 R1 R2.
  unfold sim_run in R1, R2. cbn [s_data s_name s_out sim_init] in R1, R2.
  pose proof (rel_run W d1 d2 Hag) as Hrun.
  destruct (run_core W d1) as [[o1|e1] f1], (run_core W d2) as [[o2|e2] f2]; cbn [fst] in R1, R2; try contradiction.
  - destruct Hrun as [<- _]. injection R1 as <- <-. injection R2 as <- <-. split; [reflexivity|]. intros _ k v. cbn [s_out].
    rewrite <- !dget_has. apply store_grow.
  - injection R1 as <- _. injection R2 as <- _. split; [congruence|discriminate].
Qed.
Print Assumptions C53_history.

(** a second run gives the same results again and changes nothing *)
Theorem C53_rerun :
  forall (W : World) name (cs : list (call W)) s1,
  sim_run W (after cs (sim_init W name)) = (Ok tt, s1) -> sim_run W s1 = (Ok tt, s1).
Proof.
  intros W name cs s1 H. assert (N : NoDup (keys (s_out (after cs (sim_init W name))))) by (apply after_nodup; constructor).
  unfold sim_run in *. destruct (fst (run_core W (s_data (after cs (sim_init W name))))) as [r|] eqn:E; [|discriminate].
  injection H as <-. cbn [s_data s_name s_out]. rewrite E, (store_twice W r _ N). reflexivity.
Qed.
Print Assumptions C53_rerun.

Local Open Scope R_scope.
(** without a seed, or with seed 0, nothing of this holds: for all acceptable parameters of the
    one-dimensional models for which the run completes, there is a random number generator and there
    are two runs with different results *)
Theorem C53_unseeded_refuted :
  forall spline show params name method sigma theta r t0 tf dt mu0 tau0 density seed n m,
  entries params name method sigma theta r t0 tf dt mu0 tau0 density seed -> seed = None \/ seed = Some 0%Z ->
  acceptable name method sigma theta t0 tf dt density seed ->
  reaches t0 dt tf n -> int_part (INR (n - 1) * dt * rate_val density) (Z.of_nat m) -> (1 <= m)%nat -> (m + 1 < n)%nat ->
  exists (G : Rng RNum) (h h' : r_state G),
  let W := world1 RNum G ln PI spline show in
  forall s s' : Sim W, exists s1 s2 s1' s2' (v v' : R),
    sim_setup W params DNone h s = (Ok tt, s1) /\ sim_run W s1 = (Ok tt, s2) /\ has (s_out s2) "m0" (OScal (v : RNum)) /\
    sim_setup W params DNone h' s' = (Ok tt, s1') /\ sim_run W s1' = (Ok tt, s2') /\ has (s_out s2') "m0" (OScal (v' : RNum)) /\
    v <> v'.
Proof.
  intros spline show params name method sigma theta r t0 tf dt mu0 tau0 density seed n m He Hseed Ha Hr Hi H1 H2.
  exists plain_rng. exists 0, 1. intros W s s'.
  assert (Hn : forall n', reaches t0 dt tf n' -> n' = n).
  { intros n' Hr'. destruct Hr as (A1 & A2 & A3), Hr' as (B1 & B2 & B3).
    destruct (lt_eq_lt_dec n n') as [[L|L]|L]; [|auto|].
    - specialize (B3 (n - 1)%nat ltac:(lia)). lra.
    - specialize (A3 (n' - 1)%nat ltac:(lia)). lra. }
  assert (Hm : forall m', int_part (INR (n - 1) * dt * rate_val density) (Z.of_nat m') -> m' = m).
  { intros m' [B1 B2]. destruct Hi as [A1 A2].
    assert (C1 : IZR (Z.of_nat m') < IZR (Z.of_nat m + 1)) by (rewrite plus_IZR; lra).
    assert (C2 : IZR (Z.of_nat m) < IZR (Z.of_nat m' + 1)) by (rewrite plus_IZR; lra).
    apply lt_IZR in C1, C2. lia. }
  assert (Hs : exists sd, field params "Random-Seed" sd /\ In sd [PLeaf LNull; PLeaf (LInt (K:=RNum) 0%Z)]).
  { destruct He as (dr & nz & tw & os & pr & x1 & x2 & x3 & x4 & x5 & x6 & x7 & x8 & He).
    do 25 apply proj2 in He. eexists. split; [exact He|]. destruct Hseed as [->| ->]; cbn; auto. }
  destruct Hs as (sd & Hf & Hin).
  destruct (sim1_completes plain_rng spline show params name method sigma theta r t0 tf dt mu0 tau0 density seed 0 s He Ha)
    as (n1 & m1 & s1 & E1 & E2 & _ & E4 & E5 & _).
  destruct (sim1_completes plain_rng spline show params name method sigma theta r t0 tf dt mu0 tau0 density seed 1 s' He Ha)
    as (n2 & m2 & s1' & E1' & E2' & _ & E4' & E5' & _).
  apply Hn in E1, E1'. subst n1 n2. apply Hm in E2, E2'. subst m1 m2.
  destruct (E5 H1 H2) as (s2 & R1 & _). destruct (E5' H1 H2) as (s2' & R1' & _).
  destruct (unseeded_m0 spline show params 0 s s1 s2 sd Hf Hin E4 R1) as (k & th & sg & d & D & M).
  destruct (unseeded_m0 spline show params 1 s' s1' s2' sd Hf Hin E4' R1') as (k' & th' & sg' & d' & D' & M').
  destruct (described_fun show params _ _ _ _ _ _ _ _ D D') as (<- & <- & <- & <-).
  exists s1, s2, s1', s2'. do 2 eexists. repeat (split; [eassumption|]).
  pose proof (sqrt_pos (1 / 2 * sg * d)). destruct k; cbn [start]; lra.
Qed.
Print Assumptions C53_unseeded_refuted.

(** the results shown are those of the last run that completed: setup and a run that raises leave
    them as they are, and save() writes them under the current settings *)
Theorem C53_stale_refuted :
  (forall (W : World) (s s1 s2 : Sim W) params data h r e,
   sim_setup W params data h s = (r, s1) -> sim_run W s1 = (Err e, s2) -> s_out s2 = s_out s /\ s_name s2 = s_name s) /\
  forall (G : Rng RNum) (spline : list R -> list R -> R -> R) (show : pv (leaf RNum) -> string),
  let W := world1 RNum G ln PI spline show in
  forall (h h' : r_state G) (s : Sim W), exists s1 s2 s3 e,
    sim_setup W (ou_params (Whole 3)) DNone h s = (Ok tt, s1) /\ sim_run W s1 = (Ok tt, s2) /\ completed 11 (s_out s2) /\
    sim_setup W (ou_params (Whole 10)) DNone h' s2 = (Ok tt, s3) /\ sim_run W s3 = (Err e, s3) /\ s_out s3 = s_out s2.
Proof.
  split.
  - intros W s s1 s2 params data h r e H1 H2. pose proof (setup_out W params data h s) as A. rewrite H1 in A. cbn [snd] in A.
    unfold sim_setup in H1. destruct (setup W params data h (s_data s)) as [r' d]. injection H1 as _ <-.
    unfold sim_run in H2. cbn [s_data s_name s_out] in *. destruct (fst (run_core W d)); [discriminate|]. injection H2 as _ <-. auto.
  - intros G spline show W h h' s.
    destruct (C44_instance G spline show h s (Whole 3) (or_introl eq_refl)) as (s1 & s2 & E1 & E2 & E3).
    destruct (C44_density_refuted G spline show h' s2) as [(s3 & E4 & E5) _].
    exists s1, s2, s3, ValueError. repeat (split; [assumption|]).
    pose proof (setup_out (world1 RNum G ln PI spline show) (ou_params (Whole 10)) DNone h' s2) as A.
    change (w_entropy (world1 RNum G ln PI spline show)) with (r_state G) in A. rewrite E4 in A. exact A.
Qed.
Print Assumptions C53_stale_refuted.

(** a seeded simulation in binary64 with a generator that counts its draws: two entropies, a new and a
    used object, the same results *)
Definition f_seeded : pv (leaf FNum) :=
  PObj [("Output_Name", PLeaf (LStr "x")); ("Model", PLeaf (LStr "OU")); ("Ode-method", PLeaf (LStr "euler"));
    ("Time-window", PObj [("t0", PLeaf (LInt 0)); ("tf", PLeaf (LInt 2)); ("dt", PLeaf (LInt 1))]);
    ("Noise", PObj [("sys", PLeaf (LInt 1)); ("obs", PLeaf (LInt 1))]);
    ("Drift", PObj [("theta", PLeaf (LInt 2))]);
    ("Prior", PObj [("mu0", PLeaf (LInt 0)); ("tau0", PLeaf (LInt 1))]);
    ("Observations", PObj [("density", PLeaf (LInt 1)); ("operator", PLeaf LNull)]);
    ("Random-Seed", PLeaf (LInt 7))].
Example C53_instance :
  let W := world1 FNum (count_rng FNum) (fun x => x) (nZ 3) (fun _ _ x => x) (fun _ => "") in
  (exists s, sim_setup W f_seeded DNone 3%Z (sim_init W None) = (Ok tt, s) /\
             sim_setup W f_seeded DNone 5%Z (sim_init W None) = (Ok tt, s)) /\
  match sim_setup W f_params DNone 3%Z (sim_init W None), sim_setup W f_params DNone 5%Z (sim_init W None) with
  | (Ok _, s), (Ok _, s') => s <> s'
  | _, _ => False
  end.
Proof.
  intros W. split.
  - destruct (sim_setup W f_seeded DNone 3%Z (sim_init W None)) as [[[]|e] s] eqn:E.
    + exists s. split; [reflexivity|]. rewrite <- E.
      destruct (C53_seeded_partial FNum (count_rng FNum) (fun _ _ => []) (fun _ _ => Err ValueError) (fun x => x) (nZ 3) (fun _ _ x => x)
        (fun _ => "") (fun _ => "") 7%Z ltac:(discriminate)) as [A _]. apply A. apply item_field. reflexivity.
    + exfalso. assert (F : match fst (sim_setup W f_seeded DNone 3%Z (sim_init W None)) with Ok _ => true | _ => false end = true)
        by (vm_compute; reflexivity). rewrite E in F. discriminate.
  - destruct (sim_setup W f_params DNone 3%Z (sim_init W None)) as [[[]|e] s] eqn:E1.
    2:{ assert (F : match fst (sim_setup W f_params DNone 3%Z (sim_init W None)) with Ok _ => true | _ => false end = true)
        by (vm_compute; reflexivity). rewrite E1 in F. discriminate. }
    destruct (sim_setup W f_params DNone 5%Z (sim_init W None)) as [[[]|e] s'] eqn:E2.
    2:{ assert (F : match fst (sim_setup W f_params DNone 5%Z (sim_init W None)) with Ok _ => true | _ => false end = true)
        by (vm_compute; reflexivity). rewrite E2 in F. discriminate. }
    intros H.
    assert (F : let state x := match dget "model" (s_data (snd (sim_setup W f_params DNone x (sim_init W None)))) with
                Some (SModel m) => b_rng (p_base (snd m)) | _ => 0%Z end in Z.eqb (state 3%Z) (state 5%Z) = false)
      by (vm_compute; reflexivity).
    cbv beta zeta in F. rewrite E1, E2, H, Z.eqb_refl in F. discriminate.
Qed.
