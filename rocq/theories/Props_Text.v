(** * Properties C45 and C46: file names, and parameter files that are no dictionaries *)
From Coq Require Import ZArith List String Ascii Bool Arith Lia Permutation.
From Verif Require Import Num M_Proc M_Sim M_Sim1 M_SimN Spec_Sim Spec_File Spec_Text P_Sim P_File P_Text Props_Sim Props_File.
Import ListNotations.
Local Open Scope string_scope.

(** save writes to the file whose name is the name of the simulation without the white space around it,
    with underscores for blanks, and load finds it under this name *)
Theorem C45_file_name :
  forall (N Path : Type) (path : string -> Path) (path_eqb : Path -> Path -> bool) of_group before core after f (out : list (string * oval N))
    (k : Disk Path (@H5 N)),
  (forall p q, path_eqb p q = true <-> p = q) ->
  all_white before -> all_white after -> trimmed core -> underscored core f ->
  out <> [] -> writable out -> d_can_write k (path (f ++ ".h5")) = true ->
  exists k' out' g, save_out path path_eqb (before ++ core ++ after) out k = (Ok tt, k', out') /\
    d_read k' (path (f ++ ".h5")) = Some g /\ holds g out /\
    (forall q, q <> path (f ++ ".h5") -> d_read k' q = d_read k q) /\
    (forall d, load path of_group (Some (f ++ ".h5")) k' = Ok d ->
       forall key s v, In (key, v) out -> key_path key [s] -> has d s (as_array v)).
Proof.
  intros N Path path path_eqb of_group before core after f out k Hp Hb Ha Ht Hu Hne Hw Hc.
  assert (E : file_name (before ++ core ++ after) = f ++ ".h5").
  { unfold file_name. rewrite (strip_trims _ _ _ Hb Ha Ht), (underscores_spec _ _ Hu). reflexivity. }
  pose proof (C45_all_keys N Path path path_eqb of_group (before ++ core ++ after) out k Hp Hne Hw) as H. rewrite E in H. exact (H Hc).
Qed.
Print Assumptions C45_file_name.
Example C45_file_name_instance :
  all_white (String "009" " ") /\ all_white (String "028" "") /\ trimmed "my run" /\ underscored "my run" "my_run".
Proof.
  split; [|split; [|split]].
  - intros a c b H. destruct a as [|x [|y a]]; cbn in H.
    + injection H as <- _. left. cbn. lia.
    + injection H as _ <- _. right. cbn. lia.
    + injection H as _ _ H. destruct a; discriminate.
  - intros a c b H. destruct a as [|x a]; cbn in H.
    + injection H as <- _. right. cbn. lia.
    + injection H as _ H. destruct a; discriminate.
  - split.
    + intros c b H. injection H as <- _. cbv. lia.
    + intros a c H. do 6 (destruct a as [|? a]; [try discriminate H; injection H; intros; subst; cbv; lia|]). destruct a; discriminate.
  - split; [reflexivity|]. intros i c H. do 6 (destruct i as [|i]; [injection H as <-; reflexivity|]). destruct i; discriminate.
Qed.

(** A parameter file that is no dictionary.  Numbers and null have no keys: TypeError, which nobody
    catches.  Text counts as having a key when the key is a part of it: without all nine main ends with
    status 1, with all nine TypeError follows when Output_Name is looked up. *)
Theorem C46_no_dictionary_1d :
  forall (K : Num) (G : Rng K) nln npi spline show Path (path : string -> Path) path_eqb read_json read_csv none_name order pf h k,
  let W := world1 K G nln npi spline show in
  let result := main W path path_eqb read_json read_csv order (Some pf) None none_name h k in
  Permutation order nine ->
  (forall v, read_json pf = Ok (PLeaf (LNum v)) -> result = (Uncaught TypeError, k)) /\
  (forall z, read_json pf = Ok (PLeaf (LInt z)) -> result = (Uncaught TypeError, k)) /\
  (read_json pf = Ok (PLeaf LNull) -> result = (Uncaught TypeError, k)) /\
  (forall s, read_json pf = Ok (PLeaf (LStr s)) ->
     ((forall key, In key nine -> part_of key s) -> result = (Uncaught TypeError, k)) /\
     (forall key, In key nine -> ~ part_of key s -> result = (Exit 1, k))).
Proof.
  intros K G nln npi spline show Path path path_eqb read_json read_csv none_name order pf h k W result Hp.
  assert (Hne : exists a l, order = a :: l).
  { destruct order as [|a l]; [|eauto]. apply Permutation_nil in Hp. discriminate. }
  destruct Hne as (a & l & Ho).
  assert (Hw : forall u, w_contains W u a = Err TypeError -> read_json pf = Ok (PLeaf u) -> result = (Uncaught TypeError, k)).
  { intros u Hu Hj. unfold result, main. rewrite Hj, Ho. cbn [validate bind check_keys contains]. rewrite Hu. reflexivity. }
  split; [intros v; apply Hw; reflexivity|]. split; [intros z; apply Hw; reflexivity|]. split; [apply Hw; reflexivity|].
  intros s Hj.
  assert (C1 : forall o, (forall key, In key o -> part_of key s) -> check_keys W o (PLeaf (LStr s)) = Ok tt).
  { induction o as [|b o IH]; intros H; [reflexivity|]. cbn [check_keys]. change (contains W (PLeaf (LStr s)) b) with (Ok (substring_of b s)).
    cbn [bind]. rewrite (proj2 (substring_part b s) (H b (or_introl eq_refl))). apply IH. intros key Hk. apply H. right. exact Hk. }
  assert (C2 : forall o key, In key o -> ~ part_of key s -> check_keys W o (PLeaf (LStr s)) = Err ValueError).
  { induction o as [|b o IH]; intros key Hk Hn; [destruct Hk|]. cbn [check_keys]. change (contains W (PLeaf (LStr s)) b) with (Ok (substring_of b s)).
    cbn [bind]. destruct (substring_of b s) eqn:E; [|reflexivity]. destruct Hk as [->|Hk]; [apply substring_part in E; contradiction|]. exact (IH key Hk Hn). }
  split.
  - intros H. unfold result, main. rewrite Hj. unfold validate. cbn [bind]. rewrite C1; [reflexivity|].
    intros key Hk. apply H. apply (Permutation_in _ Hp). exact Hk.
  - intros key Hk Hn. unfold result, main. rewrite Hj. unfold validate. cbn [bind]. rewrite (C2 order key); [reflexivity| |exact Hn].
    apply (Permutation_in _ (Permutation_sym Hp)). exact Hk.
Qed.
Print Assumptions C46_no_dictionary_1d.
(** the same for the simulations of several dimensions; lists hold no key *)
Theorem C46_no_dictionary_nd :
  forall (K : Num) (G : Rng K) eigvals solve nln npi spline show Path (path : string -> Path) path_eqb read_json read_csv none_name order pf h k,
  let W := worldn K G eigvals solve nln npi spline show in
  let result := main W path path_eqb read_json read_csv order (Some pf) None none_name h k in
  Permutation order nine ->
  (forall v, read_json pf = Ok (PLeaf (NNum v)) -> result = (Uncaught TypeError, k)) /\
  (forall z, read_json pf = Ok (PLeaf (NInt z)) -> result = (Uncaught TypeError, k)) /\
  (forall b, read_json pf = Ok (PLeaf (NBool b)) -> result = (Uncaught TypeError, k)) /\
  (read_json pf = Ok (PLeaf NNull) -> result = (Uncaught TypeError, k)) /\
  (forall t a, read_json pf = Ok (PLeaf (NArr t a)) -> result = (Exit 1, k)) /\
  (forall l, read_json pf = Ok (PLeaf (NMask l)) -> result = (Exit 1, k)) /\
  (forall s, read_json pf = Ok (PLeaf (NStr s)) ->
     ((forall key, In key nine -> part_of key s) -> result = (Uncaught TypeError, k)) /\
     (forall key, In key nine -> ~ part_of key s -> result = (Exit 1, k))).
Proof.
  intros K G eigvals solve nln npi spline show Path path path_eqb read_json read_csv none_name order pf h k W result Hp.
  assert (Hne : exists a l, order = a :: l).
  { destruct order as [|a l]; [|eauto]. apply Permutation_nil in Hp. discriminate. }
  destruct Hne as (a & l & Ho).
  assert (Hw : forall u, w_contains W u a = Err TypeError -> read_json pf = Ok (PLeaf u) -> result = (Uncaught TypeError, k)).
  { intros u Hu Hj. unfold result, main. rewrite Hj, Ho. cbn [validate bind check_keys contains]. rewrite Hu. reflexivity. }
  assert (Hl : forall u, w_contains W u a = Ok false -> read_json pf = Ok (PLeaf u) -> result = (Exit 1, k)).
  { intros u Hu Hj. unfold result, main. rewrite Hj, Ho. cbn [validate bind check_keys contains]. rewrite Hu. reflexivity. }
  split; [intros v; apply Hw; reflexivity|]. split; [intros z; apply Hw; reflexivity|]. split; [intros b; apply Hw; reflexivity|].
  split; [apply Hw; reflexivity|]. split; [intros t x; apply Hl; reflexivity|]. split; [intros x; apply Hl; reflexivity|].
  intros s Hj.
  assert (C1 : forall o, (forall key, In key o -> part_of key s) -> check_keys W o (PLeaf (NStr s)) = Ok tt).
  { induction o as [|b o IH]; intros H; [reflexivity|]. cbn [check_keys]. change (contains W (PLeaf (NStr s)) b) with (Ok (nsubstring_of b s)).
    cbn [bind]. rewrite (proj2 (nsubstring_part b s) (H b (or_introl eq_refl))). apply IH. intros key Hk. apply H. right. exact Hk. }
  assert (C2 : forall o key, In key o -> ~ part_of key s -> check_keys W o (PLeaf (NStr s)) = Err ValueError).
  { induction o as [|b o IH]; intros key Hk Hn; [destruct Hk|]. cbn [check_keys]. change (contains W (PLeaf (NStr s)) b) with (Ok (nsubstring_of b s)).
    cbn [bind]. destruct (nsubstring_of b s) eqn:E; [|reflexivity]. destruct Hk as [->|Hk]; [apply nsubstring_part in E; contradiction|]. exact (IH key Hk Hn). }
  split.
  - intros H. unfold result, main. rewrite Hj. unfold validate. cbn [bind]. rewrite C1; [reflexivity|].
    intros key Hk. apply H. apply (Permutation_in _ Hp). exact Hk.
  - intros key Hk Hn. unfold result, main. rewrite Hj. unfold validate. cbn [bind]. rewrite (C2 order key); [reflexivity| |exact Hn].
    apply (Permutation_in _ (Permutation_sym Hp)). exact Hk.
Qed.
Print Assumptions C46_no_dictionary_nd.
(** a text with all nine names in it, and one without *)
Example C46_no_dictionary_instance :
  (forall key, In key nine -> part_of key "Output_Name Model Ode-method Time-window Noise Observations Drift Prior Random-Seed") /\
  ~ part_of "Drift" "Output_Name".
Proof.
  split.
  - intros key Hk. apply substring_part. cbn in Hk. repeat (destruct Hk as [<-|Hk]; [reflexivity|]). destruct Hk.
  - intros H. apply substring_part in H. discriminate.
Qed.
