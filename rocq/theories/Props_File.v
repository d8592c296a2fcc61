(** * Property C45, continued: saving an output with any keys *)
From Coq Require Import ZArith List Bool String.
From Verif Require Import Num M_Sim Spec_Sim Spec_File P_Sim P_Save P_File.
Import ListNotations.
Local Open Scope string_scope.

(** arrays with at least one dimension and keys whose paths do not meet: everything is written, each
    entry at its path, and nothing else; load finds the entries that are not in groups *)
Theorem C45_all_keys :
  forall (N Path : Type) (path : string -> Path) (path_eqb : Path -> Path -> bool) of_group name (out : list (string * oval N))
    (k : Disk Path (@H5 N)),
  (forall p q, path_eqb p q = true <-> p = q) ->
  out <> [] -> writable out -> d_can_write k (path (file_name name)) = true ->
  exists k' out' g, save_out path path_eqb name out k = (Ok tt, k', out') /\
    d_read k' (path (file_name name)) = Some g /\ holds g out /\
    (forall q, q <> path (file_name name) -> d_read k' q = d_read k q) /\
    (forall d, load path of_group (Some (file_name name)) k' = Ok d ->
       forall key s v, In (key, v) out -> key_path key [s] -> has d s (as_array v)).
Proof.
  intros N Path path path_eqb of_group name out k Hp Hne Hw Hc. unfold save_out. destruct out as [|kv out]; [congruence|]. rewrite Hc.
  destruct (loop_writes (kv :: out) [] [] (kv :: out) full_nil holds_nil Hw) as (g & out1 & E & _ & Hh).
  specialize (E []). rewrite app_nil_r in E. rewrite E. cbn [save_loop]. exists (write path_eqb (path (file_name name)) g k), out1, g.
  cbn [app] in Hh. split; [reflexivity|]. split; [|split; [exact Hh|split]].
  - rewrite read_write, (proj2 (Hp _ _) eq_refl). reflexivity.
  - intros q Hq. rewrite read_write. destruct (path_eqb (path (file_name name)) q) eqn:Eq; [|reflexivity]. apply Hp in Eq. congruence.
  - intros d. unfold load. rewrite read_write, (proj2 (Hp _ _) eq_refl). intros Hd key s v Hi Hk.
    assert (Hg : has g s (Dset (as_array v))) by (change (data_at g [s] (as_array v)); apply Hh; eauto).
    clear -Hd Hg. apply dget_has in Hg. apply dget_has. revert d Hd. induction g as [|[k' n] g IH]; intros d Hd; [discriminate|].
    cbn [load_all] in Hd. cbn [dget] in Hg. destruct (of_node of_group n) as [u|] eqn:En; cbn [bind] in Hd; [|discriminate].
    destruct (load_all of_group g) as [r|]; cbn [bind] in Hd; [|discriminate]. injection Hd as <-. cbn [dget].
    destruct (String.eqb s k'); [|apply IH; [exact Hg|reflexivity]]. injection Hg as ->. cbn in En. congruence.
Qed.
Print Assumptions C45_all_keys.
(** otherwise the first entry that cannot be written raises: an array without dimensions TypeError, a key
    without names, or with a path that meets an earlier one, ValueError; the file then holds the entries
    before it *)
Theorem C45_refused_key :
  forall (N Path : Type) (path : string -> Path) (path_eqb : Path -> Path -> bool) name l1 key v l2 e
    (k : Disk Path (@H5 N)),
  (forall p q, path_eqb p q = true <-> p = q) ->
  writable l1 -> unwritable l1 key v e -> d_can_write k (path (file_name name)) = true ->
  exists k' out' g, save_out path path_eqb name (l1 ++ (key, v) :: l2)%list k = (Err e, k', out') /\
    d_read k' (path (file_name name)) = Some g /\ holds g l1 /\
    (forall q, q <> path (file_name name) -> d_read k' q = d_read k q).
Proof.
  intros N Path path path_eqb name l1 key v l2 e k Hp Hw Hu Hc. unfold save_out.
  assert (Hne : exists x y, (l1 ++ (key, v) :: l2)%list = x :: y) by (destruct l1; cbn; eauto). destruct Hne as (x & y & Hne).
  rewrite Hc. destruct (loop_writes l1 [] [] (l1 ++ (key, v) :: l2)%list full_nil holds_nil Hw) as (g & out1 & E & Hf & Hh).
  destruct (loop_refuses l1 key v l2 g out1 e Hf Hh Hu) as (out2 & E2).
  rewrite Hne in E |- *. rewrite <- Hne in E |- *. rewrite E, E2. exists (write path_eqb (path (file_name name)) g k), out2, g.
  split; [reflexivity|]. split; [|split; [exact Hh|]].
  - rewrite read_write, (proj2 (Hp _ _) eq_refl). reflexivity.
  - intros q Hq. rewrite read_write. destruct (path_eqb (path (file_name name)) q) eqn:Eq; [|reflexivity]. apply Hp in Eq. congruence.
Qed.
Print Assumptions C45_refused_key.
(** "a", then "b/c", then "./a//": the third is refused *)
Example C45_refused_instance :
  forall (N Path : Type) (path : string -> Path) (path_eqb : Path -> Path -> bool) name (x y z : N) (k : Disk Path (@H5 N)),
  (forall p q, path_eqb p q = true <-> p = q) -> d_can_write k (path (file_name name)) = true ->
  exists k' out' g, save_out path path_eqb name [("a", OScal x); ("b/c", OScal y); ("./a//", OScal z)] k = (Err ValueError, k', out') /\
    d_read k' (path (file_name name)) = Some g /\ data_at g ["a"] (OArr [1%nat] [x]) /\ data_at g ["b"; "c"] (OArr [1%nat] [y]).
Proof.
  intros N Path path path_eqb name x y z k Hp Hc.
  destruct (C45_refused_key N Path path path_eqb name [("a", OScal x); ("b/c", OScal y)] "./a//" (OScal z) [] ValueError k Hp) as (k' & out' & g & H1 & H2 & H3 & _).
  - split.
    + intros key v [E|[E|[]]]; injection E as <- <-; (split; [exact I|]); intros H; apply key_path_components in H; discriminate H.
    + intros a key v b key' v' c p p' E Hk Hk'. apply key_path_components in Hk, Hk'.
      destruct a as [|a0 [|a1 [|a2 a]]]; cbn [app] in E.
      * destruct b as [|b0 [|b1 b]]; cbn [app] in E; try discriminate E. injection E as <- _ <- _ _. subst p p'. cbn. intros (r & [H|H]); discriminate H.
      * destruct b as [|b0 b]; cbn [app] in E; discriminate E.
      * discriminate E.
      * discriminate E.
  - right. split; [exact I|]. split; [reflexivity|]. right. exists "a", (OScal x), ["a"], ["a"]. split; [left; reflexivity|].
    split; [apply key_path_components; reflexivity|]. split; [apply key_path_components; reflexivity|]. exists []. auto.
  - exact Hc.
  - exists k', out', g. split; [exact H1|]. split; [exact H2|]. split; apply H3.
    + exists "a", (OScal x). split; [left; reflexivity|]. split; [apply key_path_components; reflexivity|reflexivity].
    + exists "b/c", (OScal y). split; [right; left; reflexivity|]. split; [apply key_path_components; reflexivity|reflexivity].
Qed.
