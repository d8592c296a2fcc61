(** * Property C63: the command line of vgpa_main.py *)
From Coq Require Import ZArith List Bool Arith String Lia.
From Verif Require Import Num M_Proc M_Sim M_Sim1 M_Cli Spec_Utils Spec_Proc Spec_Sim Spec_Sim1 Spec_Cli P_Cli P_Cli2 P_ProcWit Props_Sim.
Import ListNotations.
Local Open Scope string_scope.

Section CliProps.
Context (W : World) (Path : Type) (path : string -> Path) (path_eqb : Path -> Path -> bool).
Variables (read_json : string -> result (pv (w_leaf W))) (read_csv : string -> result unit) (none_name : w_leaf W).
Notation disk := (Disk Path (@H5 (w_num W))).
Notation vgpa_main := (main W path path_eqb read_json read_csv).
Notation run_program := (program W path path_eqb read_json read_csv).

(** the lines of the grammar, and only they, run main, on the last value given for each option; the
    closing message is shown when main returns *)
Theorem C63_accepted :
  forall argv r order h (k : disk), argv <> [] -> line argv r ->
  let '(o, k') := vgpa_main order (last_value Params r) (last_value Data r) none_name h k in
  run_program argv order none_name h k = (exit_status o, match o with Return => true | _ => false end, k').
Proof.
  intros argv r order h k Hne Hr. unfold program.
  rewrite (accepted_line argv r Hne Hr).
  destruct (vgpa_main order (last_value Params r) (last_value Data r) none_name h k) as [o k']. reflexivity.
Qed.
(** the grammar assigns at most one value to an option: a line cannot be read in two ways *)
Theorem C63_unambiguous :
  forall argv r r', line argv r -> line argv r' ->
  last_value Params r = last_value Params r' /\ last_value Data r = last_value Data r'.
Proof.
  intros argv r r' H H'. destruct argv as [|s l]; [inversion H; inversion H'; subst; split; reflexivity|].
  assert (Hne : s :: l <> []) by discriminate.
  pose proof (accepted_line (s :: l) r Hne H) as A. pose proof (accepted_line (s :: l) r' Hne H') as B.
  rewrite A in B. injection B as B1 B2. split; assumption.
Qed.
(** without --params the status is 1 and nothing is done *)
Theorem C63_params_required :
  forall argv r order h (k : disk), argv <> [] -> line argv r -> last_value Params r = None ->
  run_program argv order none_name h k = (1%Z, false, k).
Proof.
  intros argv r order h k Hne Hr E. pose proof (C63_accepted argv r order h k Hne Hr) as H. rewrite E in H. exact H.
Qed.
(** the possible endings *)
Theorem C63_status :
  forall argv order h (k : disk) z shown k',
  run_program argv order none_name h k = (z, shown, k') ->
  (z = 0%Z \/ z = 1%Z \/ z = 2%Z) /\
  (shown = true -> z = 0%Z) /\
  (z = 0%Z -> shown = false -> exists w, In w argv /\ ((exists x, w = "-h" ++ x) \/ abbreviates w "--help")) /\
  (shown = true \/ k' <> k -> exists r pf params name data s1 s2, line argv r /\ last_value Params r = Some pf /\ read_json pf = Ok params /\
     sim_setup W params data h (sim_init W (Some (title W none_name name))) = (Ok tt, s1) /\ sim_run W s1 = (Ok tt, s2)).
Proof.
  intros argv order h k z shown k' H. unfold program in H. destruct (command_line argv) as [| | |p d] eqn:E.
  - injection H as <- <- <-. split; [tauto|]. split; [discriminate|]. split; [discriminate|]. intros [Q|Q]; congruence.
  - injection H as <- <- <-. split; [tauto|]. split; [discriminate|]. split; [intros _ _; apply help_word, E|]. intros [Q|Q]; congruence.
  - injection H as <- <- <-. split; [tauto|]. split; [discriminate|]. split; [discriminate|]. intros [Q|Q]; congruence.
  - destruct (vgpa_main order p d none_name h k) as [o k2] eqn:M. injection H as <- <- <-.
    destruct (C46_status W Path path path_eqb read_json read_csv none_name order p d h k o k2 M) as (S1 & S2 & S3 & S4).
    apply accepted_iff in E. destruct E as [_ (r & Hr & -> & ->)].
    split; [destruct S2; tauto|]. split; [destruct o; try discriminate; reflexivity|].
    split; [intros Z; apply S1 in Z; subst o; discriminate|].
    intros [Q|Q].
    + destruct o; try discriminate. destruct (S3 eq_refl) as (pf & params & name & data & s1 & s2 & out & A1 & A2 & A3 & A4 & A5 & A6).
      exists r, pf, params, name, data, s1, s2. auto.
    + destruct (S4 Q) as (pf & params & name & data & s1 & s2 & A1 & A2 & A3 & A4). exists r, pf, params, name, data, s1, s2. auto.
Qed.
End CliProps.
Print Assumptions C63_accepted.
Print Assumptions C63_unambiguous.
Print Assumptions C63_params_required.
Print Assumptions C63_status.
(** every other line ends with status 0 or 2 before anything is read: whatever the simulation, the
    files and the disk, there is no closing message and the disk is unchanged; an empty line ends with 1 *)
Theorem C63_rejected :
  forall argv, (forall r, ~ line argv r) -> exists z, (z = 0%Z \/ z = 2%Z) /\
  forall W Path path path_eqb rj rc order none_name h (k : Disk Path (@H5 (w_num W))),
  program W path path_eqb rj rc argv order none_name h k = (z, false, k).
Proof.
  intros argv H. destruct (command_line argv) as [| | |p d] eqn:E.
  - destruct argv as [|s l]; [destruct (H [] line_nil)|destruct (never_nothing s l E)].
  - exists 0%Z. split; [auto|]. intros. unfold program. rewrite E. reflexivity.
  - exists 2%Z. split; [auto|]. intros. unfold program. rewrite E. reflexivity.
  - exfalso. apply accepted_iff in E. destruct E as [_ (r & Hr & _)]. exact (H r Hr).
Qed.
Print Assumptions C63_rejected.
Theorem C63_nothing :
  forall W Path path path_eqb rj rc order none_name h (k : Disk Path (@H5 (w_num W))),
  program W path path_eqb rj rc [] order none_name h k = (1%Z, false, k).
Proof. reflexivity. Qed.
Print Assumptions C63_nothing.
(** the help option after correct options shows the help, whatever follows (except a word "--=..."),
    and nothing is run *)
Theorem C63_help :
  forall l r w rest, line l r -> w = "-h" \/ abbreviates w "--help" -> (forall v x, In v rest -> v <> "--=" ++ x) ->
  forall W Path path path_eqb rj rc order none_name h (k : Disk Path (@H5 (w_num W))),
  program W path path_eqb rj rc (l ++ w :: rest)%list order none_name h k = (0%Z, false, k).
Proof. intros l r w rest Hl Hw Hr W Path path path_eqb rj rc order none_name h k. unfold program. rewrite (help_line l r w rest Hl Hw Hr). reflexivity. Qed.
Print Assumptions C63_help.
(** text in the same word as -h: any number of letters h, then nothing or a text that begins with another
    character; the help is shown unless that character is a dash or an equals sign, which is an error *)
Theorem C63_help_text :
  forall l r n t rest, line l r -> (forall v x, In v rest -> v <> "--=" ++ x) ->
  (forall t', t <> "h" ++ t') ->
  forall W Path path path_eqb rj rc order none_name h (k : Disk Path (@H5 (w_num W))),
  let argv := (l ++ ("-h" ++ hs n ++ t)%string :: rest)%list in
  ((forall t', t <> "-" ++ t' /\ t <> "=" ++ t') -> program W path path_eqb rj rc argv order none_name h k = (0%Z, false, k)) /\
  (forall t', t = "-" ++ t' \/ t = "=" ++ t' -> program W path path_eqb rj rc argv order none_name h k = (2%Z, false, k)).
Proof.
  intros l r n t rest Hl Hr Ht W Path path path_eqb rj rc order none_name h k. cbv zeta.
  destruct (help_word_line l r n t rest Hl Hr) as [A B].
  { destruct t as [|c t]; [exact I|]. intros ->. apply (Ht t). reflexivity. }
  unfold program. split.
  - intros H. rewrite A; [reflexivity|]. destruct t as [|c t]; [exact I|]. intros [-> | ->]; [apply (proj1 (H t)); reflexivity|apply (proj2 (H t)); reflexivity].
  - intros t' H. rewrite B; [reflexivity|]. destruct H as [-> | ->]; [left; reflexivity|right; reflexivity].
Qed.
Print Assumptions C63_help_text.
(** the exact ending of every line that is not accepted: status 0 for the lines that show the help, 2 for all others;
    a line that shows the help is never accepted *)
Theorem C63_exact_ending :
  forall argv,
  (helps argv -> (forall r, ~ line argv r) /\
   forall W Path path path_eqb rj rc order none_name h (k : Disk Path (@H5 (w_num W))),
   program W path path_eqb rj rc argv order none_name h k = (0%Z, false, k)) /\
  (~ helps argv -> (forall r, ~ line argv r) ->
   forall W Path path path_eqb rj rc order none_name h (k : Disk Path (@H5 (w_num W))),
   program W path path_eqb rj rc argv order none_name h k = (2%Z, false, k)).
Proof.
  intros argv. split.
  - intros H. apply helps_iff in H. split; [|intros; unfold program; rewrite H; reflexivity].
    intros r Hr. destruct argv as [|s l]; [discriminate|]. rewrite (accepted_line (s :: l) r ltac:(discriminate) Hr) in H. discriminate.
  - intros N H W Path path path_eqb rj rc order none_name h k. unfold program. destruct (command_line argv) as [| | |p d] eqn:E.
    + destruct argv as [|s l]; [destruct (H [] line_nil)|destruct (never_nothing s l E)].
    + destruct N. apply helps_iff, E.
    + reflexivity.
    + exfalso. apply accepted_iff in E. destruct E as [_ (r & Hr & _)]. exact (H r Hr).
Qed.
Print Assumptions C63_exact_ending.
Example C63_exact_ending_instance :
  helps ["x"; "--unknown"; "-d3"; "--p=q"; "-hhx"; "--params"] /\
  ~ helps ["x"; "--"; "-h"] /\ ~ helps ["-h"; "--=x"] /\ helps ["-h"; "--"; "--=x"] /\ ~ helps ["-hh-h"; "-h"] /\ ~ helps ["--params"; "-h"].
Proof. rewrite <- !helps_iff. repeat match goal with |- _ /\ _ => split end; try (vm_compute; reflexivity); intros H; vm_compute in H; discriminate. Qed.
Print Assumptions C63_exact_ending_instance.
(** repeated options: the last one counts; abbreviations and both ways to give the value; a value that begins
    with a dash is refused unless it is a number or has a blank *)
Example C63_instance :
  line ["--params=a.json"; "--dat"; "d.csv"; "--p"; "-1.5"] [(Params, "a.json"); (Data, "d.csv"); (Params, "-1.5")] /\
  last_value Params [(Params, "a.json"); (Data, "d.csv"); (Params, "-1.5")] = Some "-1.5" /\
  (forall r, ~ line ["--params"; "-x.json"] r) /\ (forall r, ~ line ["a.json"] r) /\ (forall r, ~ line ["--params"] r) /\
  command_line ["--params"; "-x.json"] = CError /\ command_line ["--params"; "-x .json"] = CMain (Some "-x .json") None /\
  command_line ["--params=-x.json"] = CMain (Some "-x.json") None /\
  (let W := world1 FNum (count_rng FNum) (fun x => x) (nZ 3) (fun _ _ x => x) (fun _ => "") in
   let go := fun argv => fst (program W (fun s => s) String.eqb (fun _ => Ok (PObj [("Model", PLeaf (LStr "OU"))])) (fun _ => Ok tt) argv nine LNull 0%Z
                              (mkDisk (fun _ => None) (fun _ => true))) in
   go ["--par=p.json"] = (1%Z, false) /\ go ["--data"; "p.json"] = (1%Z, false) /\ go ["--par=p.json"; "--he"] = (0%Z, false) /\ go ["p.json"] = (2%Z, false)).
Proof.
  assert (X : forall argv, argv <> [] -> command_line argv = CError -> forall r, ~ line argv r).
  { intros argv Hne E r Hr. pose proof (accepted_line argv r Hne Hr) as A. rewrite E in A. discriminate. }
  split.
  - apply (line_eq Params "--params" "a.json"); [split; [cbn; lia|exists ""; reflexivity]|].
    apply (line_two Data "--dat"); [split; [cbn; lia|exists "a"; reflexivity]|left; intros r; discriminate|].
    apply (line_two Params "--p"); [split; [cbn; lia|exists "arams"; reflexivity]| |constructor].
    right; right. split.
    + left. exists "1", "". split; [cbn; unfold digit_char; cbn; lia|]. split; [auto|]. right. exists "5". split; [cbn; unfold digit_char; cbn; lia|]. split; [discriminate|reflexivity].
    + intros [(r & E)|(p & r & full & Hin & Hl & (q & Hq) & E & _)]; [discriminate|].
      destruct p as [|a [|b p]]; [cbn in Hl; lia|cbn in Hl; lia|]. injection E as <- <- _. destruct Hin as [<-|[<-|[<-|[]]]]; discriminate.
  - split; [reflexivity|]. split; [apply X; [discriminate|reflexivity]|]. split; [apply X; [discriminate|reflexivity]|]. split; [apply X; [discriminate|reflexivity]|].
    cbv zeta. repeat match goal with |- _ /\ _ => split end; vm_compute; reflexivity.
Qed.
Print Assumptions C63_instance.
