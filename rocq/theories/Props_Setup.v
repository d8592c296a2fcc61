(** * Property C64: which parameters Simulation.setup refuses, and what a refusal leaves behind *)
From Coq Require Import ZArith List Bool Arith String Lia.
From Verif Require Import Num Arr M_LinAlg M_Proc M_Sim M_Sim1 M_SimN Spec_Ode Spec_Sim Spec_SimN Spec_Setup Spec_Seed P_ProcWit P_Sim P_Sim2 P_Setup P_Seed Props_Sim.
Import ListNotations.
Local Open Scope string_scope.

(** setup raises e exactly for the obstacle that is met first: entries are looked up in a fixed order
    (KeyError when one is missing, TypeError when what should hold it is no dictionary), an unknown model
    raises ValueError, and the errors of the constructor, of the trajectory, of the observations and of
    the prior moments are passed on.  The state of the object does not matter. *)
Theorem C64_outcome :
  forall (W : World) params data h (s : Sim W),
  (forall e, (exists s', sim_setup W params data h s = (Err e, s')) <-> refusal params data h e) /\
  ((exists s', sim_setup W params data h s = (Ok tt, s')) <-> forall e, ~ refusal params data h e).
Proof.
  intros W params data h s. unfold sim_setup.
  pose proof (setup_pure W params data h (s_data s)) as E. destruct (setup W params data h (s_data s)) as [r d]. cbn [fst] in E. subst r.
  split.
  - intros e. rewrite <- pure_refusal. split; [intros (s' & H); congruence|]. intros ->. eauto.
  - split.
    + intros (s' & H) e He. apply pure_refusal in He. congruence.
    + intros H. destruct (pure W params data h) as [[]|e] eqn:E; [eauto|]. exfalso. apply (H e). apply pure_refusal. exact E.
Qed.
Print Assumptions C64_outcome.
(** the first missing entry decides, whatever follows it *)
Theorem C64_missing_entry :
  forall (W : World) (d : dict (pv (w_leaf W))) k data h (s : Sim W),
  In k ["Drift"; "Noise"; "Time-window"; "Ode-method"; "Random-Seed"; "Observations"; "Prior"] -> ~ In k (keys d) ->
  exists s', sim_setup W (PObj d) data h s = (Err KeyError, s') /\ s_name s' = s_name s /\ s_out s' = s_out s.
Proof.
  intros W d k data h s Hk Hn.
  assert (Hr : pure W (PObj d) data h = Err KeyError).
  { assert (Hi : item (PObj d) k = Err KeyError) by (cbn [item]; unfold ditem; apply dget_none in Hn; rewrite Hn; reflexivity).
    assert (Hall : forall k', (exists v, item (PObj d) k' = Ok v) \/ item (PObj d) k' = Err KeyError).
    { intros k'. cbn [item]. unfold ditem. destruct (dget k' d); eauto. }
    unfold pure. cbn [reads first_entries look].
    destruct (Hall "Drift") as [(v1 & E1)|E1]; rewrite E1; cbn [bind]; [|reflexivity].
    destruct (Hall "Noise") as [(v2 & E2)|E2]; rewrite E2; cbn [bind]; [|reflexivity].
    destruct (Hall "Time-window") as [(v3 & E3)|E3]; rewrite E3; cbn [bind]; [|reflexivity].
    destruct (Hall "Ode-method") as [(v4 & E4)|E4]; rewrite E4; cbn [bind]; [|reflexivity].
    destruct (Hall "Random-Seed") as [(v5 & E5)|E5]; rewrite E5; cbn [bind]; [|reflexivity].
    destruct (Hall "Observations") as [(v6 & E6)|E6]; rewrite E6; cbn [bind]; [|reflexivity].
    destruct (Hall "Prior") as [(v7 & E7)|E7]; rewrite E7; cbn [bind]; [|reflexivity].
    exfalso. cbn in Hk. destruct Hk as [<-|[<-|[<-|[<-|[<-|[<-|[<-|[]]]]]]]]; congruence. }
  unfold sim_setup. pose proof (setup_pure W (PObj d) data h (s_data s)) as E.
  destruct (setup W (PObj d) data h (s_data s)) as [r d']. cbn [fst] in E. subst r. rewrite Hr. eexists. split; [reflexivity|]. auto.
Qed.
Print Assumptions C64_missing_entry.
(** a setup that succeeds has found all the entries *)
Theorem C64_complete :
  forall (W : World) params data h (s s' : Sim W), sim_setup W params data h s = (Ok tt, s') ->
  all_there params first_entries /\ all_there params window_entries /\ (data = DNone -> all_there params obs_entries).
Proof.
  intros W params data h s s' H. unfold sim_setup in H.
  pose proof (setup_pure W params data h (s_data s)) as E. destruct (setup W params data h (s_data s)) as [r d]. cbn [fst] in E. subst r.
  injection H as H _. unfold pure in H.
  destruct (reads params first_entries) as [[]|] eqn:E0; cbn [bind] in H; [|discriminate]. apply reads_all in E0. split; [exact E0|].
  destruct (look params ["Model"]); cbn [bind] in H; [|discriminate]. destruct (look params ["Noise"; "sys"]); cbn [bind] in H; [|discriminate].
  destruct (look params ["Drift"; "theta"]); cbn [bind] in H; [|discriminate]. destruct (look params ["Random-Seed"]); cbn [bind] in H; [|discriminate].
  destruct (stochastic_model W _ _ _ _ h); cbn [bind] in H; [|discriminate].
  destruct (look params ["Time-window"; "t0"]) as [t0|] eqn:E1; cbn [bind] in H; [|discriminate].
  destruct (look params ["Time-window"; "tf"]) as [tf|] eqn:E2; cbn [bind] in H; [|discriminate].
  destruct (look params ["Time-window"; "dt"]) as [dt|] eqn:E3; cbn [bind] in H; [|discriminate].
  split; [apply reads_all; cbn [reads window_entries]; rewrite E1, E2, E3; reflexivity|].
  intros ->. destruct (w_traj W t0 tf dt _) as [[]]; [|discriminate]. cbn [pure_obs] in H.
  destruct (look params ["Observations"; "density"]) eqn:E4; cbn [bind] in H; [|discriminate].
  destruct (look params ["Noise"; "obs"]) eqn:E5; cbn [bind] in H; [|discriminate].
  destruct (look params ["Observations"; "operator"]) eqn:E6; cbn [bind] in H; [|discriminate].
  apply reads_all. cbn [reads obs_entries]. rewrite E4, E5, E6. reflexivity.
Qed.
Print Assumptions C64_complete.
(** ... and numbers where numbers are needed: in the simulations of one dimension *)
Theorem C64_numbers_1d :
  forall (K : Num) (G : Rng K) nln npi spline show,
  let W := world1 K G nln npi spline show in
  forall params h (s s' : Sim W), sim_setup W params DNone h s = (Ok tt, s') ->
  forall p, In p [["Noise"; "sys"]; ["Drift"; "theta"]; ["Time-window"; "t0"]; ["Time-window"; "tf"]; ["Time-window"; "dt"];
                  ["Observations"; "density"]; ["Noise"; "obs"]] -> exists x, at_path params p x /\ number1 x.
Proof.
  intros K G nln npi spline show W params h s s' H p Hp. unfold sim_setup in H.
  destruct (setup W params DNone h (s_data s)) as [r d] eqn:E. injection H as -> _.
  destruct (setup_parts W params h _ _ E) as (name & sys & theta & seed & m & t0 & tf & dt & m1 & density & noise & op & x & m2 & A1 & A2 & A3 & A4 & A5 & A6 & A7 & A8 & A9 & A10 & A11 & A12 & A13).
  assert (N : forall y v, as_num K y = Ok v -> number1 y).
  { intros [[v0|z|t| |b|l|l|l]|o] v Hv; cbn in Hv; try discriminate; [left; eauto|right; left; eauto|right; right; eauto]. }
  assert (B1 : number1 sys /\ number1 theta).
  { unfold stochastic_model in A5. destruct name as [l|o]; [|discriminate].
    change (w_build W) with (build1 K G) in A5. unfold build1 in A5.
    destruct (as_seed K seed) as [sd|e0]; [|cbn [bind] in A5; exfalso; repeat match type of A5 with context [if ?b then _ else _] => destruct b end; destruct e0; discriminate].
    cbn [bind] in A5. destruct (base_init (X:=K) G sd h) as [b0|e0] eqn:F0; [|cbn [bind] in A5; exfalso; repeat match type of A5 with context [if ?b then _ else _] => destruct b end; destruct e0; discriminate].
    cbn [bind] in A5.
    destruct (as_num K sys) as [v1|e1] eqn:F1; [|cbn [bind] in A5; exfalso; repeat match type of A5 with context [if ?b then _ else _] => destruct b end; destruct e1; discriminate].
    destruct (as_num K theta) as [v2|e2] eqn:F2; [|cbn [bind] in A5; exfalso; repeat match type of A5 with context [if ?b then _ else _] => destruct b end; destruct e2; discriminate]. eauto. }
  assert (B2 : number1 t0 /\ number1 tf /\ number1 dt).
  { change (w_traj W) with (traj1 K G) in A9. unfold traj1 in A9.
    destruct (as_num K t0) as [v1|] eqn:F1; [|discriminate]. destruct (as_num K tf) as [v2|] eqn:F2; [|discriminate].
    destruct (as_num K dt) as [v3|] eqn:F3; [|discriminate]. eauto 6. }
  assert (B3 : number1 density /\ number1 noise).
  { change (w_collect W) with (collect_1 K G) in A13. unfold collect_1 in A13.
    destruct (as_num K noise) as [v1|] eqn:F1; [|discriminate]. cbn [bind] in A13. split; [|eauto].
    assert (Q : as_dens K density = DBad -> False).
    { intros Hd. rewrite Hd in A13. unfold collect1, collect_true in A13.
      destruct op as [[| | | |[]| | |]|]; cbv beta iota in A13;
      destruct (b_tk _) as [tk|]; try discriminate; destruct (b_xt _) as [xt|]; try discriminate;
      destruct (obs_bad_err tk) as (e & He); rewrite He in A13; discriminate. }
    destruct density as [[v0|z|t| |b|l|l|l]|o']; [left; eauto|right; left; eauto| | |right; right; eauto| | | |]; exfalso; apply Q; reflexivity. }
  destruct B1 as [C1 C2], B2 as (C3 & C4 & C5), B3 as [C6 C7].
  cbn in Hp. repeat (destruct Hp as [<-|Hp]; [eauto|]). destruct Hp.
Qed.
Print Assumptions C64_numbers_1d.
(** ... and in the Lorenz simulations *)
Theorem C64_numbers_nd :
  forall (K : Num) (G : Rng K) eigvals solve nln npi spline show,
  let W := worldn K G eigvals solve nln npi spline show in
  forall params h (s s' : Sim W), sim_setup W params DNone h s = (Ok tt, s') ->
  forall p, In p [["Time-window"; "t0"]; ["Time-window"; "tf"]; ["Time-window"; "dt"]; ["Observations"; "density"]] ->
  exists x, at_path params p x /\ numbern x.
Proof.
  intros K G eigvals solve nln npi spline show W params h s s' H p Hp. unfold sim_setup in H.
  destruct (setup W params DNone h (s_data s)) as [r d] eqn:E. injection H as -> _.
  destruct (setup_parts W params h _ _ E) as (name & sys & theta & seed & m & t0 & tf & dt & m1 & density & noise & op & x & m2 & A1 & A2 & A3 & A4 & A5 & A6 & A7 & A8 & A9 & A10 & A11 & A12 & A13).
  assert (N : forall y v, nas_num K y = Ok v -> numbern y).
  { unfold numbern. intros [[]|o] v Hv; cbn in Hv; try discriminate; eauto. }
  assert (B2 : numbern t0 /\ numbern tf /\ numbern dt).
  { change (w_traj W) with (trajn K G) in A9. unfold trajn in A9.
    destruct (nas_num K t0) as [v1|] eqn:F1; [|discriminate]. destruct (nas_num K tf) as [v2|] eqn:F2; [|discriminate].
    destruct (nas_num K dt) as [v3|] eqn:F3; [|discriminate]. eauto 6. }
  assert (B3 : numbern density).
  { change (w_collect W) with (collect_n K G) in A13.
    assert (Hd : nas_dens K density = DBad -> False).
    { intros Hb. unfold collect_n in A13. rewrite Hb in A13.
      destruct (op_sel K (q_dim (snd m1)) op) as [[]|]; try discriminate;
        unfold collectN, collect_ints, collect_cols, collect_one, collect_grid in A13;
        (destruct (b_tk _) as [tk|]; [|discriminate]); (destruct (b_xt _) as [xt|]; [|discriminate]);
        destruct (obs_bad_err tk) as (e & He); rewrite He in A13; discriminate. }
    unfold numbern. destruct density as [[]|o]; eauto; exfalso; apply Hd; reflexivity. }
  destruct B2 as (C3 & C4 & C5).
  cbn in Hp. repeat (destruct Hp as [<-|Hp]; [eauto|]). destruct Hp.
Qed.
Print Assumptions C64_numbers_nd.
(** Which models are refused in one dimension: the seed is looked at first, then the noise, then the drift. *)
Theorem C64_model_1d :
  forall (K : Num) (G : Rng K) nln npi spline show,
  let W := world1 K G nln npi spline show in
  forall params data h (s : Sim W) name noise drift seed, all_there params first_entries ->
  at_path params ["Model"] (PLeaf (LStr name)) -> at_path params ["Noise"; "sys"] noise ->
  at_path params ["Drift"; "theta"] drift -> at_path params ["Random-Seed"] seed ->
  same_up_to_case name "OU" \/ same_up_to_case name "DW" ->
  let raises e := exists s', sim_setup W params data h s = (Err e, s') in
  (wrong1 seed -> raises TypeError) /\
  (negative1 seed -> raises ValueError) /\
  (~ wrong1 seed -> ~ negative1 seed ->
     (~ number1 noise -> raises TypeError) /\
     (forall v, value1 noise v ->
        (nle v (nZ 0) = true -> raises ValueError) /\
        (nle v (nZ 0) = false ->
           (~ number1 drift -> raises TypeError) /\
           (forall u, value1 drift u -> nle u (nZ 0) = true -> same_up_to_case name "OU" -> raises ValueError)))).
Proof.
  intros K G nln npi spline show W params data h s name noise drift seed A0 A1 A2 A3 A4 Hn raises.
  assert (Q : forall e, e <> KeyError -> build1 K G (upper name) noise drift seed h = Some (Err e) -> raises e).
  { intros e He B. unfold raises. apply (proj2 (proj1 (C64_outcome W params data h s) e)). right; left. split; [exact A0|].
    exists (PLeaf (LStr name)), noise, drift, seed. repeat (split; [assumption|]). right. eexists. split; [reflexivity|].
    right; right. split; [exact B|exact He]. }
  assert (V : forall x v, value1 x v -> as_num K x = Ok v).
  { intros x v [->|[(z & -> & ->)|(b & -> & ->)]]; [reflexivity..|destruct b; reflexivity]. }
  assert (N : forall x, ~ number1 x -> as_num K x = Err TypeError).
  { intros [[v0|z|t| |b|l|l|l]|o] Hx; try reflexivity; exfalso; apply Hx; [left|right; left|right; right]; eauto. }
  assert (U : upper name = "OU" \/ upper name = "DW").
  { destruct Hn as [H|H]; [left|right]; (apply upper_spec; [cbn; lia|exact H]). }
  assert (S1 : ~ wrong1 seed -> ~ negative1 seed -> exists s0 b0, as_seed K seed = Ok s0 /\ base_init (X:=K) G s0 h = Ok b0).
  { intros Hw Hneg. destruct (seeds1 K seed) as [Hf|[Hz|Hb]]; [| |contradiction].
    - destruct (fixes1_seed K seed Hf) as (s0 & E & Et).
      assert (Hv : seed_valid s0 = true).
      { destruct Hf as [(z & -> & Hz)|[->|[(l & -> & Hl)|(l & -> & Hl)]]]; cbn in E; injection E as <-; cbn.
        - apply Z.leb_le. destruct (Z_lt_le_dec z 0); [|assumption]. exfalso. apply Hneg. exists z. auto.
        - reflexivity.
        - apply forallb_forall. intros z Hi. apply Z.leb_le. destruct (Z_lt_le_dec z 0); [|assumption]. exfalso. apply Hneg. exists z. split; [assumption|]. right; eauto.
        - apply forallb_forall. intros z Hi. apply in_map_iff in Hi. destruct Hi as ([] & <- & _); reflexivity. }
      exists s0. unfold base_init, make_rng. rewrite Et, Hv. eexists. split; [exact E|reflexivity].
    - destruct (no_seed1_seed K seed Hz) as (s0 & E & Et). exists s0. unfold base_init, make_rng. rewrite Et. eexists. split; [exact E|reflexivity]. }
  split; [|split].
  - intros Hw. apply Q; [discriminate|]. pose proof (wrong1_build K G nln npi spline show seed (upper name) noise drift h Hw) as B.
    apply B. tauto.
  - intros (z & Hz & Hl). apply Q; [discriminate|]. unfold build1.
    assert (E : exists s0, as_seed K seed = Ok s0 /\ base_init (X:=K) G s0 h = Err ValueError).
    { destruct Hl as [->|(l & -> & Hi)]; eexists; (split; [reflexivity|]); unfold base_init, make_rng; cbn [seed_truthy seed_valid].
      - destruct (Z.eqb_spec z 0); [lia|]. cbn [negb]. destruct (Z.leb_spec 0 z); [lia|]. reflexivity.
      - destruct l as [|z0 l]; [destruct Hi|]. destruct (forallb (Z.leb 0) (z0 :: l)) eqn:F; [|reflexivity].
        exfalso. rewrite forallb_forall in F. specialize (F z Hi). apply Z.leb_le in F. lia. }
    destruct E as (s0 & -> & E). cbn [bind]. rewrite E. destruct U as [-> | ->]; reflexivity.
  - intros Hw Hneg. destruct (S1 Hw Hneg) as (s0 & b0 & E1 & E2).
    assert (B : forall e, e <> KeyError ->
      (forall k, (let* sigma := as_num K noise in
                  match as_num K drift with
                  | Ok theta => let* p := init1d G k sigma theta s0 h in Ok (k, p)
                  | Err e' => if nle sigma (nZ 0) then Err ValueError else Err e'
                  end) = Err e \/ k = DW /\ upper name <> "DW") -> raises e).
    { intros e He H. apply Q; [exact He|]. unfold build1. rewrite E1. cbn [bind]. rewrite E2. cbn [bind].
      destruct U as [U|U]; rewrite U; cbn [String.eqb Ascii.eqb Bool.eqb].
      - destruct (H OU) as [->|[? _]]; [reflexivity|discriminate].
      - destruct (H DW) as [->|[_ ?]]; [reflexivity|contradiction]. }
    split; [|intros v Hv; rewrite (V _ _ Hv) in B; cbn [bind] in B; split; [|intros Hp; split]].
    + intros Hx. apply B; [discriminate|]. intros k. left. rewrite (N _ Hx). reflexivity.
    + intros Hp. apply B; [discriminate|]. intros k. left. destruct (as_num K drift); [|rewrite Hp; reflexivity].
      destruct k; unfold init1d, ou_init, dw_init; rewrite E2; cbn [bind]; rewrite Hp; reflexivity.
    + intros Hx. apply B; [discriminate|]. intros k. left. rewrite (N _ Hx), Hp. reflexivity.
    + intros u Hu Hq Ho. apply B; [discriminate|]. intros k. rewrite (V _ _ Hu). destruct k.
      * left. unfold init1d, ou_init. rewrite E2. cbn [bind]. rewrite Hp, Hq. reflexivity.
      * right. split; [reflexivity|]. apply upper_spec in Ho; [|cbn; lia]. rewrite Ho. discriminate.
Qed.
Print Assumptions C64_model_1d.
(** The same for the Lorenz models: a noise that is no matrix or diagonal of the size of the system is refused
    before the drift is looked at, and so is every matrix and diagonal of integers. *)
Theorem C64_model_nd :
  forall (K : Num) (G : Rng K) eigvals solve nln npi spline show,
  let W := worldn K G eigvals solve nln npi spline show in
  forall k params data h (s : Sim W) name noise drift seed, all_there params first_entries ->
  at_path params ["Model"] (PLeaf (NStr name)) -> at_path params ["Noise"; "sys"] noise ->
  at_path params ["Drift"; "theta"] drift -> at_path params ["Random-Seed"] seed ->
  same_up_to_case name (name_n k) ->
  let raises e := exists s', sim_setup W params data h s = (Err e, s') in
  let d := match k with L63 => 3 | L96 => 40 end in
  (wrongn seed -> raises TypeError) /\
  (negativen seed -> raises ValueError) /\
  (fixesn seed \/ no_seedn seed -> ~ negativen seed ->
     (misshaped d noise -> raises ValueError) /\
     (of_integers d noise -> raises TypeError \/ raises RuntimeError)).
Proof.
  intros K G eigvals solve nln npi spline show W k params data h s name noise drift seed A0' A1' A2' A3 A4 Hn raises d.
  assert (Q : forall e, e <> KeyError -> buildn K G eigvals (upper name) noise drift seed h = Some (Err e) -> raises e).
  { intros e He B. unfold raises. apply (proj2 (proj1 (C64_outcome W params data h s) e)). right; left. split; [exact A0'|].
    exists (PLeaf (NStr name)), noise, drift, seed. repeat (split; [assumption|]). right. eexists. split; [reflexivity|].
    right; right. split; [exact B|exact He]. }
  assert (U : upper name = name_n k) by (apply upper_spec; [destruct k; cbn; lia|exact Hn]).
  set (init := fun t sg theta s0 => match k with L63 => l63_init G eigvals t sg theta s0 h | L96 => l96_init G eigvals t sg theta s0 default_dim h end).
  assert (B : forall e s0, nas_seed K seed = Ok s0 -> (forall theta, init (fst (nas_arr K noise)) (snd (nas_arr K noise)) theta s0 = Err e) ->
    buildn K G eigvals (upper name) noise drift seed h = Some (Err e)).
  { intros e s0 E H. unfold buildn. destruct (nas_arr K noise) as [t sg]. cbn [fst snd] in H. rewrite E, U. cbn [bind]. unfold init in H.
    destruct k; cbn [name_n String.eqb Ascii.eqb Bool.eqb]; (match goal with |- context [nas_theta K ?k drift] => destruct (nas_theta K k drift) end);
      rewrite H; reflexivity. }
  split; [|split].
  - intros Hw. apply Q; [discriminate|]. unfold buildn. destruct (nas_arr K noise). rewrite (wrongn_seed K seed Hw), U. destruct k; reflexivity.
  - intros (z & Hz & Hl). apply Q; [discriminate|].
    assert (E : exists s0, nas_seed K seed = Ok s0 /\ base_init (X:=vec K) G s0 h = Err ValueError).
    { assert (L : forall l, In z l -> base_init (X:=vec K) G (SeedList l) h = Err ValueError).
      { intros l Hi. unfold base_init, make_rng. cbn [seed_truthy seed_valid].
        destruct l as [|z0 l]; [destruct Hi|]. destruct (forallb (Z.leb 0) (z0 :: l)) eqn:F; [|reflexivity].
        exfalso. rewrite forallb_forall in F. specialize (F z Hi). apply Z.leb_le in F. lia. }
      destruct Hl as [->|[(n & v & i & -> & Hi & Hv)|(r & c & m & i & j & -> & Hi & Hj & Hv)]].
      - eexists. split; [reflexivity|]. unfold base_init, make_rng. cbn [seed_truthy seed_valid].
        destruct (Z.eqb_spec z 0); [lia|]. cbn [negb]. destruct (Z.leb_spec 0 z); [lia|]. reflexivity.
      - eexists. split; [reflexivity|]. apply L. apply in_map_iff. exists i. split; [unfold to_int; rewrite Hv; reflexivity|apply in_seq; lia].
      - destruct r as [|r]; [lia|]. destruct c as [|c]; [lia|]. eexists. split; [reflexivity|]. apply L. apply in_flat_map. exists i. split; [apply in_seq; lia|].
        apply in_map_iff. exists j. split; [unfold to_int; rewrite Hv; reflexivity|apply in_seq; lia]. }
    destruct E as (s0 & E & E0). apply (B _ s0 E). intros theta. unfold init, l63_init, l96_init. rewrite E0. destruct k; reflexivity.
  - intros Hs Hneg.
    assert (E : exists s0 b0, nas_seed K seed = Ok s0 /\ base_init (X:=vec K) G s0 h = Ok b0).
    { destruct Hs as [Hf|Hz].
      - destruct (fixesn_seed K seed Hf) as (s0 & E & Et).
        assert (P : forall v z, nfloor v = Some z -> to_int K v = z) by (intros v z H; unfold to_int; rewrite H; reflexivity).
        assert (P' : forall v : K, (to_int K v < 0)%Z -> nfloor v = Some (to_int K v)).
        { intros v. unfold to_int. destruct (nfloor v); [reflexivity|lia]. }
        assert (Hv : seed_valid s0 = true).
        { destruct Hf as [(z & -> & Hz)|[->|[(l & -> & Hl)|[(n & v & -> & Hz)|(r & c & m & -> & Hr & Hc)]]]].
          - cbn in E; injection E as <-. cbn. apply Z.leb_le. destruct (Z_lt_le_dec z 0); [|assumption]. exfalso. apply Hneg. exists z. auto.
          - cbn in E; injection E as <-. reflexivity.
          - cbn in E; injection E as <-. cbn. apply forallb_forall. intros z Hi. apply in_map_iff in Hi. destruct Hi as ([] & <- & _); reflexivity.
          - cbn in E; injection E as <-. cbn. apply forallb_forall. intros z Hi. apply in_map_iff in Hi. destruct Hi as (i & Hz' & Hi). apply in_seq in Hi.
            apply Z.leb_le. destruct (Z_lt_le_dec z 0) as [Hl|]; [|assumption]. exfalso. apply Hneg. exists z. split; [assumption|]. right; left.
            exists n, v, i. subst z. split; [reflexivity|]. split; [lia|]. apply P'. exact Hl.
          - destruct r as [|r]; [contradiction|]. destruct c as [|c]; [contradiction|]. 
            assert (E' : s0 = SeedList (flat_map (fun i => map (fun j => to_int K (m i j)) (seq 0 (S c))) (seq 0 (S r)))) by (cbn [nas_seed] in E; congruence).
            rewrite E'. unfold seed_valid.
            apply forallb_forall. intros z Hi. apply in_flat_map in Hi. destruct Hi as (i & Hi & Hj). apply in_map_iff in Hj. destruct Hj as (j & Hz' & Hj).
            apply in_seq in Hi, Hj. apply Z.leb_le. destruct (Z_lt_le_dec z 0) as [Hl|]; [|assumption]. exfalso. apply Hneg. exists z. split; [assumption|]. right; right.
            exists (S r), (S c), m, i, j. subst z. split; [reflexivity|]. split; [lia|]. split; [lia|]. apply P'. exact Hl. }
        exists s0. unfold base_init, make_rng. rewrite Et, Hv. eexists. split; [exact E|reflexivity].
      - destruct (no_seedn_seed K seed Hz) as (s0 & E & Et). exists s0. unfold base_init, make_rng. rewrite Et. eexists. split; [exact E|reflexivity]. }
    destruct E as (s0 & b0 & E & E0). split.
    + intros Hm. apply Q; [discriminate|]. apply (B _ s0 E). intros theta.
      assert (N : noise_matrix d (snd (nas_arr K noise)) = Err ValueError).
      { destruct Hm as [[(v & ->)|[(z & ->)|(b & ->)]]|[(t & ->)|[->|[(o & ->)|[(t & v & ->)|[(t & n & v & -> & Hd)|(t & r & c & m & -> & Hd)]]]]]]; try reflexivity;
          cbn [nas_arr snd]; unfold noise_matrix; cbn [np_isscalar_of_array bind].
        - rewrite (proj2 (Nat.eqb_neq n d) Hd). reflexivity.
        - destruct (Nat.eqb_spec r d), (Nat.eqb_spec c d); try reflexivity. tauto. }
      unfold init, l63_init, l96_init. rewrite E0. destruct k; cbn [bind]; [|change (Nat.ltb default_dim 10) with false; cbv iota]; cbn [d] in N;
        (match goal with |- context [noise_matrix ?x ?y] => change (noise_matrix x y) with (noise_matrix d y) end); rewrite N; reflexivity.
    + intros Hi.
      assert (N : exists m, fst (nas_arr K noise) = Int64 /\ noise_matrix d (snd (nas_arr K noise)) = Ok m).
      { destruct Hi as [(v & ->)|(m & ->)]; eexists; (split; [reflexivity|]); cbn [nas_arr snd]; unfold noise_matrix; cbn [np_isscalar_of_array bind];
          rewrite Nat.eqb_refl; reflexivity. }
      destruct N as (m & T & N).
      assert (I : (forall theta, init (fst (nas_arr K noise)) (snd (nas_arr K noise)) theta s0 = Err TypeError) \/
                  (forall theta, init (fst (nas_arr K noise)) (snd (nas_arr K noise)) theta s0 = Err RuntimeError)).
      { rewrite T. unfold init, l63_init, l96_init. rewrite E0. destruct k; cbn [bind]; [|change (Nat.ltb default_dim 10) with false; cbv iota];
          (match goal with |- context [noise_matrix ?x ?y] => change (noise_matrix x y) with (noise_matrix d y) end); rewrite N; cbn [bind].
        - destruct (existsb cle0 (eigvals 3 m)); [right|left]; reflexivity.
        - destruct (forallb cgt0 (eigvals default_dim m)); [left|right]; reflexivity. }
      destruct I as [I|I]; [left|right]; (apply Q; [discriminate|]); apply (B _ s0 E); exact I.
Qed.
Print Assumptions C64_model_nd.
(** a refusal before the model is made leaves the model, the observations and the initial moments of
    the previous setup *)
Theorem C64_unchanged_partial :
  forall (W : World) params data h (s : Sim W) e,
  first_missing params first_entries e \/ (all_there params first_entries /\ makes_none params h e) ->
  exists s', sim_setup W params data h s = (Err e, s') /\ s_name s' = s_name s /\ s_out s' = s_out s /\
    forall k v, In k ["model"; "single_dim"; "obs_t"; "obs_y"; "obs_noise"; "m0"; "s0"] -> (has (s_data s') k v <-> has (s_data s) k v).
Proof.
  intros W params data h s e He.
  assert (Hr : pure W params data h = Err e) by (apply pure_refusal; unfold refusal; tauto).
  unfold sim_setup. pose proof (setup_pure W params data h (s_data s)) as E.
  assert (K : forall k, In k ["model"; "single_dim"; "obs_t"; "obs_y"; "obs_noise"; "m0"; "s0"] -> dget k (snd (setup W params data h (s_data s))) = dget k (s_data s)).
  { intros k Hk. apply (setup_early W params data h k (s_data s) e); [|exact He].
    cbn in Hk |- *. intros H. repeat (destruct Hk as [<-|Hk]; [repeat (destruct H as [H|H]; [discriminate H|]); exact H|]). exact Hk. }
  destruct (setup W params data h (s_data s)) as [r d']. cbn [fst snd] in *. subst r. rewrite Hr. eexists. split; [reflexivity|]. split; [reflexivity|]. split; [reflexivity|].
  intros k v Hk. cbn [s_data]. rewrite <- !dget_has, (K k Hk). reflexivity.
Qed.
Print Assumptions C64_unchanged_partial.
(** but not the rest: a dictionary without prior raises KeyError, and a following run goes ahead with the
    time step, the method and the operator of the refused dictionary and with everything else from before *)
Theorem C64_mixture_refuted :
  forall (W : World) (s : Sim W) (i : inputs W) (d : dict (pv (w_leaf W))) data h dr nz tw dt mtd seed os op,
  finds (s_data s) i ->
  field (PObj d) "Drift" dr -> field (PObj d) "Noise" nz -> field (PObj d) "Time-window" tw -> field tw "dt" dt ->
  field (PObj d) "Ode-method" mtd -> field (PObj d) "Random-Seed" seed -> field (PObj d) "Observations" os -> field os "operator" op ->
  ~ In "Prior" (keys d) ->
  exists s', sim_setup W (PObj d) data h s = (Err KeyError, s') /\
    let j := mkInputs dt mtd (i_single i) (i_y i) (i_t i) (i_noise i) op (i_mu0 i) (i_tau0 i) (i_model i) (i_m0 i) (i_s0 i) in
    finds (s_data s') j /\
    (forall out, run_on j = Ok out -> exists s'', sim_run W s' = (Ok tt, s'')) /\ (forall e, run_on j = Err e -> sim_run W s' = (Err e, s')).
Proof.
  intros W s i d data h dr nz tw dt mtd seed os op Hf F1 F2 F3 F4 F5 F6 F7 F8 Hn.
  assert (Hp : item (PObj d) "Prior" = Err KeyError) by (cbn [item]; unfold ditem; apply dget_none in Hn; rewrite Hn; reflexivity).
  apply item_field in F1, F2, F3, F5, F6, F7.
  assert (E : setup W (PObj d) data h (s_data s) = (Err KeyError, dset "obs_setup" (SPar os) (dset "random_seed" (SPar seed)
     (dset "ode_solver" (SPar mtd) (dset "time_window" (SPar tw) (dset "noise" (SPar nz) (dset "drift" (SPar dr) (s_data s)))))))).
  { unfold setup. unfold sbind at 1. unfold setup_params, sbind, lift, put. rewrite F1, F2, F3, F5, F6, F7, Hp. reflexivity. }
  unfold sim_setup. rewrite E. eexists. split; [reflexivity|]. cbv zeta.
  set (j := mkInputs dt mtd (i_single i) (i_y i) (i_t i) (i_noise i) op (i_mu0 i) (i_tau0 i) (i_model i) (i_m0 i) (i_s0 i)).
  cbn [s_data].
  assert (Hj : finds (dset "obs_setup" (SPar os) (dset "random_seed" (SPar seed)
     (dset "ode_solver" (SPar mtd) (dset "time_window" (SPar tw) (dset "noise" (SPar nz) (dset "drift" (SPar dr) (s_data s))))))) j).
  { destruct Hf as ((tw0 & T1 & T2) & H1 & H2 & H3 & H4 & H5 & (os0 & T3 & T4) & H6 & H7 & H8 & H9 & H10).
    apply dget_has in H2, H3, H4, H5, H6, H7, H8, H9, H10.
    unfold finds, j. cbn [i_dt i_method i_single i_y i_t i_noise i_op i_mu0 i_tau0 i_model i_m0 i_s0].
    split; [exists tw; split; [|exact F4]; apply dget_has; look; reflexivity|].
    split; [apply dget_has; look; reflexivity|]. split; [apply dget_has; look; assumption|]. split; [apply dget_has; look; assumption|].
    split; [apply dget_has; look; assumption|]. split; [apply dget_has; look; assumption|].
    split; [exists os; split; [|exact F8]; apply dget_has; look; reflexivity|].
    split; [apply dget_has; look; assumption|]. split; [apply dget_has; look; assumption|]. split; [apply dget_has; look; assumption|].
    split; apply dget_has; look; assumption. }
  split; [exact Hj|]. unfold sim_run. cbn [s_data]. rewrite (run_finds W _ j Hj). split.
  - intros out ->. eauto.
  - intros e ->. reflexivity.
Qed.
Print Assumptions C64_mixture_refuted.
(** binary64 instance: setup with four observations on nine grid points and then, without prior, with another
    time step: the second setup raises KeyError, and the run completes *)
Definition first_params : pv (leaf FNum) :=
  PObj [("Model", PLeaf (LStr "OU")); ("Ode-method", PLeaf (LStr "euler"));
    ("Time-window", PObj [("t0", PLeaf (LInt 0)); ("tf", PLeaf (LInt 4)); ("dt", PLeaf (LNum (nlit (n:=FNum) 1 2)))]);
    ("Noise", PObj [("sys", PLeaf (LInt 1)); ("obs", PLeaf (LInt 1))]); ("Drift", PObj [("theta", PLeaf (LInt 2))]);
    ("Prior", PObj [("mu0", PLeaf (LInt 0)); ("tau0", PLeaf (LInt 1))]);
    ("Observations", PObj [("density", PLeaf (LInt 1)); ("operator", PLeaf LNull)]);
    ("Random-Seed", PLeaf LNull)].
Definition second_params : pv (leaf FNum) :=
  PObj [("Model", PLeaf (LStr "DW")); ("Ode-method", PLeaf (LStr "heun"));
    ("Time-window", PObj [("t0", PLeaf (LInt 0)); ("tf", PLeaf (LInt 8)); ("dt", PLeaf (LNum (nlit (n:=FNum) 1 4)))]);
    ("Noise", PObj [("sys", PLeaf (LInt 2)); ("obs", PLeaf (LInt 2))]); ("Drift", PObj [("theta", PLeaf (LInt 3))]);
    ("Observations", PObj [("density", PLeaf (LInt 1)); ("operator", PLeaf LNull)]);
    ("Random-Seed", PLeaf LNull)].
Example C64_instance :
  let W := world1 FNum (count_rng FNum) (fun x => x) (nZ 3) (fun _ _ x => x) (fun _ => "") in
  match sim_setup W first_params DNone 0%Z (sim_init W None) with
  | (Ok _, s) => match sim_setup W second_params DNone 0%Z s with
                 | (Err KeyError, s') => match sim_run W s' with (Ok _, _) => true | _ => false end
                 | _ => false
                 end
  | _ => false
  end = true.
Proof. vm_cast_no_check (eq_refl true). Qed.

(** C64_model_1d on parameters with one number and one text: which error is met first *)
Definition with_model (name : string) (noise drift seed : pv (leaf FNum)) : pv (leaf FNum) :=
  let o := PObj [] in
  PObj [("Model", PLeaf (LStr name)); ("Drift", PObj [("theta", drift)]); ("Noise", PObj [("sys", noise)]); ("Time-window", o);
        ("Ode-method", o); ("Random-Seed", seed); ("Observations", o); ("Prior", PObj [("mu0", o); ("tau0", o)])].
Example C64_model_instance :
  let W := world1 FNum (count_rng FNum) (fun x => x) (nZ 3) (fun _ _ x => x) (fun _ => "") in
  let e name noise drift seed := fst (sim_setup W (with_model name noise drift seed) DNone 0%Z (sim_init W None)) in
  let text := PLeaf (LStr "1") in let i z := PLeaf (LInt z) in
  [e "OU" text text (i (-1)); e "dw" text text text; e "dw" text (i 1) (i 0); e "DW" (i (-1)) text (i 7); e "ou" (i 1) text (i 7);
   e "ou" (i 1) (i 0) (PLeaf (LInts [3; -1]%Z)); e "Ou" (i 1) (i 0) (i 7); e "DW" (i 1) (i 0) (i 7)]%Z =
  [Err ValueError; Err TypeError; Err TypeError; Err ValueError; Err TypeError; Err ValueError; Err ValueError; Err KeyError].
Proof. vm_compute. reflexivity. Qed.

(** C64_model_nd likewise, with the diagonal of the noise as eigenvalues *)
Definition with_modeln (name : string) (noise drift seed : pv (leafn FNum)) : pv (leafn FNum) :=
  let o := PObj [] in
  PObj [("Model", PLeaf (NStr name)); ("Drift", PObj [("theta", drift)]); ("Noise", PObj [("sys", noise)]); ("Time-window", o);
        ("Ode-method", o); ("Random-Seed", seed); ("Observations", o); ("Prior", PObj [("mu0", o); ("tau0", o)])].
Example C64_modeln_instance :
  let W := worldn FNum (count_rng FNum) (fun d m => map (fun i => (m i i, nZ (K:=FNum) 0)) (seq 0 d)) (fun _ _ => Err ValueError) (fun x => x) (nZ 3) (fun _ _ x => x) (fun _ => "") in
  let e name noise drift seed := fst (sim_setup W (with_modeln name noise drift seed) DNone 0%Z (sim_init W None)) in
  let text := PLeaf (NStr "1") in let i z := PLeaf (NInt z) in
  let l t n z := PLeaf (NArr t (A1 (K:=FNum) n (fun _ => nZ (K:=FNum) z))) in
  [e "L63" text text (i (-1)); e "l63" text text text; e "l96" (i 1) text (i 0); e "L63" (l Float64 2%nat 1) text (i 7); e "L63" (l Int64 3%nat 1) text (i 7);
   e "L63" (l Int64 3%nat 0) text (i 7); e "l63" text text (l Int64 2%nat (-3)); e "L63" (l Float64 3%nat 1) (l Int64 3%nat 1) (l Int64 2%nat 3)]%Z =
  [Err ValueError; Err TypeError; Err ValueError; Err ValueError; Err TypeError; Err RuntimeError; Err ValueError; Err KeyError].
Proof. vm_compute. reflexivity. Qed.
