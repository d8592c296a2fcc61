(** * The files written by Simulation.save: all keys *)
From Coq Require Import List String Ascii Bool Arith Lia.
From Verif Require Import Num M_Sim Spec_Sim Spec_File P_Sim P_Save.
Import ListNotations.
Local Open Scope string_scope.

(** ** the components of a key *)
Lemma concat_cons a b l : String.concat "/" (a :: b :: l) = a ++ "/" ++ String.concat "/" (b :: l).
Proof. reflexivity. Qed.
Lemma no_slash_app a s : has_no_slash (a ++ s) -> has_no_slash s.
Proof. intros H x y E. apply (H (a ++ x) y). rewrite E, !app_assoc_s. reflexivity. Qed.
Lemma no_slash_char c s : has_no_slash (String c s) -> Ascii.eqb c "/" = false.
Proof. intros H. destruct (Ascii.eqb_spec c "/") as [->|]; [|reflexivity]. exfalso. apply (H "" s). reflexivity. Qed.
Lemma split_part a s acc : has_no_slash a -> split_slash (a ++ "/" ++ s) acc = (acc ++ a) :: split_slash s "".
Proof.
  revert acc. induction a as [|c a IH]; intros acc H.
  - cbn. rewrite app_nil_s. reflexivity.
  - cbn [append]. cbn [split_slash]. rewrite (no_slash_char c a H). rewrite IH; [|exact (no_slash_app (String c "") a H)].
    rewrite app_assoc_s. reflexivity.
Qed.
Lemma split_concat parts : parts <> [] -> (forall s, In s parts -> has_no_slash s) -> split_slash (String.concat "/" parts) "" = parts.
Proof.
  induction parts as [|a [|b parts] IH]; intros Hn H; [congruence| |].
  - cbn [String.concat]. rewrite split_no_slash; [reflexivity|]. exact (H a (or_introl eq_refl)).
  - rewrite concat_cons, split_part by (apply H; left; reflexivity). cbn [append]. f_equal. apply IH; [discriminate|].
    intros s Hs. apply H. right. exact Hs.
Qed.
Lemma split_parts s : forall acc, has_no_slash acc -> split_slash s acc <> [] /\ acc ++ s = String.concat "/" (split_slash s acc) /\ forall x, In x (split_slash s acc) -> has_no_slash x.
Proof.
  induction s as [|c s IH]; intros acc Ha.
  - cbn. rewrite app_nil_s. split; [discriminate|]. split; [reflexivity|]. intros x [<-|[]]. exact Ha.
  - cbn [split_slash]. destruct (Ascii.eqb_spec c "/") as [->|Hc].
    + destruct (IH "") as (H1 & H2 & H3); [intros x y E; destruct x; discriminate|]. split; [discriminate|]. split.
      * destruct (split_slash s "") as [|b l] eqn:E; [congruence|]. rewrite concat_cons, <- H2. reflexivity.
      * intros x [<-|Hx]; [exact Ha|auto].
    + destruct (IH (acc ++ String c "")) as (H1 & H2 & H3).
      { intros x y E. revert x E. assert (G : forall acc, has_no_slash acc -> forall x, acc ++ String c "" <> x ++ "/" ++ y); [|exact (G acc Ha)].
        clear -Hc. induction acc as [|d acc IH]; intros Ha x E.
        - destruct x as [|e x]; cbn in E; injection E as E1 E2; [congruence|]. destruct x; discriminate.
        - destruct x as [|e x]; cbn in E; injection E as E1 E2.
          + pose proof (no_slash_char d acc Ha) as H. subst d. discriminate.
          + apply (IH (no_slash_app (String d "") acc Ha) x). exact E2. }
      split; [exact H1|]. split; [|exact H3]. rewrite <- H2, app_assoc_s. reflexivity.
Qed.
Lemma key_path_components k p : key_path k p <-> p = components k.
Proof.
  unfold key_path, components. split.
  - intros (parts & H1 & -> & H2 & ->). rewrite split_concat by assumption. reflexivity.
  - intros ->. destruct (split_parts k "") as (H1 & H2 & H3); [intros x y E; destruct x; discriminate|].
    exists (split_slash k ""). auto.
Qed.

(** ** trees in which every group leads to a data set *)
Section Tree.
Context {A : Type}.
Implicit Types (g l : dict (node A)) (p q : list string).
Fixpoint full_node (n : node A) : Prop :=
  match n with
  | Dset _ => True
  | Group l => l <> [] /\ (fix all (l : dict (node A)) : Prop := match l with [] => True | (_, n) :: l' => full_node n /\ all l' end) l
  end.
Definition full g : Prop := Forall (fun kn => full_node (snd kn)) g.
Lemma full_group l : full_node (Group l) <-> l <> [] /\ full l.
Proof.
  cbn [full_node]. unfold full. assert (H : (fix all (l : dict (node A)) : Prop := match l with [] => True | (_, n) :: l' => full_node n /\ all l' end) l <-> Forall (fun kn => full_node (snd kn)) l); [|rewrite H; reflexivity].
  induction l as [|[k n] l IH]; [split; [constructor|auto]|]. split.
  - intros [H1 H2]. constructor; [exact H1|apply IH; exact H2].
  - intros H. inversion H; subst. split; [assumption|apply IH; assumption].
Qed.
Lemma full_get g k n : full g -> dget k g = Some n -> full_node n.
Proof.
  unfold full. induction g as [|[k' n'] g IH]; cbn [dget]; [discriminate|]. intros H. inversion H; subst.
  destruct (String.eqb k k'); [intros E; injection E as <-; assumption|auto].
Qed.
Lemma full_set g k n : full g -> full_node n -> full (dset k n g).
Proof.
  unfold full. intros H Hn. induction g as [|[k' n'] g IH]; cbn [dset]; [constructor; [exact Hn|constructor]|].
  inversion H; subst. destruct (String.eqb k k'); constructor; auto.
Qed.
Lemma dset_nonempty g k n : dset k n g <> [].
Proof. destruct g as [|[k' n'] g]; cbn; [discriminate|]. destruct (String.eqb k k'); discriminate. Qed.
(** depth, for induction *)
Fixpoint depth (n : node A) : nat :=
  match n with
  | Dset _ => 0
  | Group l => S ((fix mx (l : dict (node A)) : nat := match l with [] => 0 | (_, n) :: l' => Nat.max (depth n) (mx l') end) l)
  end.
Lemma leads_fuel f : forall n, (depth n <= f)%nat -> full_node n -> match n with Dset _ => True | Group l => exists p a, data_at l p a end.
Proof.
  induction f as [|f IH]; intros [a|l] Hd Hf; auto; [cbn in Hd; lia|]. apply full_group in Hf. destruct Hf as [Hn Hf].
  destruct l as [|[k n] l]; [congruence|]. cbn [depth] in Hd. inversion Hf as [|? ? Hfn _]; subst. cbn [snd] in Hfn.
  assert (Hh : has ((k, n) :: l) k n) by (exists [], l; split; [reflexivity|auto]).
  destruct n as [a|l'].
  - exists [k], a. exact Hh.
  - destruct (IH (Group l') ltac:(lia) Hfn) as (p & a & Hp). exists (k :: p), a. destruct p as [|k' p]; [destruct Hp|]. exists l'. auto.
Qed.
Lemma leads l : full_node (Group l) -> exists p a, data_at l p a.
Proof. intros H. exact (leads_fuel _ (Group l) (le_n _) H). Qed.
Lemma data_cons g k p a : p <> [] -> (data_at g (k :: p) a <-> exists l, has g k (Group l) /\ data_at l p a).
Proof. destruct p; [congruence|reflexivity]. Qed.
Lemma data_ne g p a : data_at g p a -> p <> [].
Proof. destruct p; [tauto|discriminate]. Qed.
Lemma data_empty p (a : A) : ~ data_at [] p a.
Proof.
  destruct p as [|k [|k' p]]; cbn [data_at]; [tauto| |]; [intros H|intros (l & H & _)]; apply dget_has in H; discriminate.
Qed.
Lemma way_cons k p q : in_the_way (k :: p) (k :: q) <-> in_the_way p q.
Proof.
  unfold in_the_way. split; intros (r & [H|H]); exists r; cbn [app] in *.
  - left. congruence.
  - right. congruence.
  - left. congruence.
  - right. congruence.
Qed.
Lemma way_head k k' p q : in_the_way (k :: p) (k' :: q) -> k = k'.
Proof. intros (r & [H|H]); cbn [app] in H; congruence. Qed.
Lemma way_nil p : in_the_way [] p /\ in_the_way p [].
Proof. split; exists p; auto. Qed.
(** creating a data set *)
Lemma create_ok p : forall g (a : A), full g -> p <> [] -> (forall q b, data_at g q b -> ~ in_the_way q p) ->
  exists g', h5_create p a g = Ok g' /\ full g' /\ g' <> [] /\ forall q b, data_at g' q b <-> (q = p /\ b = a) \/ data_at g q b.
Proof.
  induction p as [|k p IH]; intros g a Hf Hp Hc; [congruence|]. destruct p as [|k1 p].
  - cbn [h5_create]. destruct (dget k g) as [n|] eqn:E.
    + exfalso. destruct n as [b|l].
      * apply (Hc [k] b); [apply dget_has; exact E|]. exists []. auto.
      * destruct (leads l (full_get g k _ Hf E)) as (q & b & Hq). apply (Hc (k :: q) b).
        -- apply data_cons; [exact (data_ne _ _ _ Hq)|]. exists l. split; [apply dget_has; exact E|exact Hq].
        -- exists q. auto.
    + eexists. split; [reflexivity|]. split; [apply full_set; [exact Hf|exact I]|]. split; [apply dset_nonempty|].
      intros q b. destruct q as [|k' q]; [cbn; split; [tauto|intros [[H _]|H]; [discriminate|exact H]]|]. destruct q as [|k2 q].
      * cbn [data_at]. rewrite <- !dget_has, dget_dset. destruct (String.eqb_spec k' k) as [->|Hk].
        -- rewrite E. split; [intros H; injection H as <-; auto|]. intros [[_ ->]|H]; [reflexivity|discriminate].
        -- split; [auto|]. intros [[H _]|H]; [congruence|exact H].
      * rewrite !data_cons by discriminate. split.
        -- intros (l & H1 & H2). right. exists l. rewrite <- dget_has, dget_dset in H1. destruct (String.eqb_spec k' k) as [->|Hk]; [discriminate|].
           rewrite dget_has in H1. auto.
        -- intros [[H _]|(l & H1 & H2)]; [discriminate|]. exists l. split; [|exact H2]. rewrite <- dget_has, dget_dset in *.
           destruct (String.eqb_spec k' k) as [->|Hk]; [congruence|exact H1].
  - remember (k1 :: p) as p1 eqn:Ep. assert (Hp1 : p1 <> []) by (subst; discriminate).
    assert (Hstep : h5_create (k :: p1) a g = match dget k g with
        | None => let* g' := h5_create p1 a [] in Ok (dset k (Group g') g)
        | Some (Group l) => let* g' := h5_create p1 a l in Ok (dset k (Group g') g)
        | Some (Dset _) => Err ValueError end) by (subst p1; reflexivity).
    assert (Hsub : exists l, full l /\ (dget k g = Some (Group l) \/ dget k g = None /\ l = []) /\
       h5_create (k :: p1) a g = (let* g' := h5_create p1 a l in Ok (dset k (Group g') g)) /\
       (forall q b, q <> [] -> (data_at g (k :: q) b <-> data_at l q b)) /\ (forall b, ~ data_at g [k] b)).
    { rewrite Hstep. destruct (dget k g) as [[b|l]|] eqn:E.
      - exfalso. apply (Hc [k] b); [apply dget_has; exact E|]. exists p1. auto.
      - exists l. pose proof (full_get g k _ Hf E) as Hl. apply full_group in Hl. split; [exact (proj2 Hl)|]. split; [auto|]. split; [reflexivity|]. split.
        + intros q b Hq. rewrite data_cons by exact Hq. split.
          * intros (l' & H1 & H2). apply dget_has in H1. rewrite E in H1. injection H1 as <-. exact H2.
          * intros H. exists l. split; [apply dget_has; exact E|exact H].
        + intros b H. apply dget_has in H. congruence.
      - exists []. split; [constructor|]. split; [auto|]. split; [reflexivity|]. split.
        + intros q b Hq. rewrite data_cons by exact Hq. split.
          * intros (l' & H1 & _). apply dget_has in H1. congruence.
          * intros H. exfalso. exact (data_empty _ _ H).
        + intros b H. apply dget_has in H. congruence. }
    destruct Hsub as (l & Hl & Hdl & E & Hsub & Hno).
    destruct (IH l a Hl Hp1) as (g' & E' & F' & N' & H').
    { intros q b Hq Hw. apply (Hc (k :: q) b); [apply Hsub; [exact (data_ne _ _ _ Hq)|exact Hq]|]. apply way_cons. exact Hw. }
    rewrite E, E'. cbn [bind]. eexists. split; [reflexivity|]. split; [apply full_set; [exact Hf|]; apply full_group; auto|]. split; [apply dset_nonempty|].
    intros q b. destruct q as [|k' q]; [cbn; split; [tauto|intros [[H _]|H]; [discriminate|exact H]]|]. destruct q as [|k2 q].
    + cbn [data_at]. rewrite <- !dget_has, dget_dset. destruct (String.eqb_spec k' k) as [->|Hk].
      * split; [discriminate|]. intros [[H _]|H]; [congruence|]. exfalso. apply (Hno b). apply dget_has. exact H.
      * split; [auto|]. intros [[H _]|H]; [congruence|exact H].
    + remember (k2 :: q) as q1 eqn:Eq. assert (Hq1 : q1 <> []) by (subst; discriminate).
      destruct (string_dec k' k) as [->|Hk].
      * rewrite Hsub by exact Hq1. rewrite data_cons by exact Hq1. split.
        -- intros (l' & H1 & H2). rewrite <- dget_has, dget_dset, String.eqb_refl in H1. injection H1 as <-.
           apply H' in H2. destruct H2 as [[-> ->]|H2]; auto.
        -- intros H. exists g'. split; [apply dget_has; rewrite dget_dset, String.eqb_refl; reflexivity|]. apply H'.
           destruct H as [[H ->]|H]; [left; split; congruence|auto].
      * rewrite !data_cons by exact Hq1. apply String.eqb_neq in Hk. split.
        -- intros (l' & H1 & H2). right. exists l'. rewrite <- dget_has, dget_dset, Hk in H1. rewrite dget_has in H1. auto.
        -- intros [[H _]|(l' & H1 & H2)]; [apply String.eqb_neq in Hk; congruence|]. exists l'. split; [|exact H2].
           rewrite <- dget_has, dget_dset, Hk. apply dget_has. exact H1.
Qed.
Lemma create_bad p : forall g (a : A), p = [] \/ (exists q b, data_at g q b /\ in_the_way q p) -> h5_create p a g = Err ValueError.
Proof.
  induction p as [|k p IH]; intros g a H; [reflexivity|]. destruct H as [H|(q & b & Hq & Hw)]; [discriminate|].
  destruct q as [|k' q]; [destruct Hq|]. pose proof (way_head _ _ _ _ Hw) as ->. rewrite way_cons in Hw.
  destruct p as [|k1 p].
  - cbn [h5_create]. destruct (dget k g) as [n|] eqn:E; [reflexivity|]. exfalso. destruct q as [|k2 q].
    + apply dget_has in Hq. congruence.
    + rewrite data_cons in Hq by discriminate. destruct Hq as (l & H1 & _). apply dget_has in H1. congruence.
  - change (h5_create (k :: k1 :: p) a g) with (match dget k g with
        | None => let* g' := h5_create (k1 :: p) a [] in Ok (dset k (Group g') g)
        | Some (Group l) => let* g' := h5_create (k1 :: p) a l in Ok (dset k (Group g') g)
        | Some (Dset _) => Err ValueError end).
    destruct q as [|k2 q].
    + cbn [data_at] in Hq. apply dget_has in Hq. rewrite Hq. reflexivity.
    + rewrite data_cons in Hq by discriminate. destruct Hq as (l & H1 & H2). apply dget_has in H1. rewrite H1.
      rewrite (IH l a); [reflexivity|]. right. exists (k2 :: q), b. split; [exact H2|exact Hw].
Qed.
End Tree.

(** ** the loop *)
Section Loop.
Context {N : Type}.
Notation out_t := (list (string * oval N)).
Lemma way_sym p q : in_the_way p q -> in_the_way q p.
Proof. intros (r & [H|H]); exists r; auto. Qed.
Lemma create_array k (v : oval N) g : storable v -> create_dataset k (unscalar v) g = h5_create (components k) (as_array v) g.
Proof. rewrite unscalar_array. destruct v as [x|[|n s] l]; cbn; [reflexivity|congruence|reflexivity]. Qed.
Lemma create_rank0 k (v : oval N) g : ~ storable v -> create_dataset k (unscalar v) g = Err TypeError.
Proof. destruct v as [x|[|n s] l]; cbn; intros H; [tauto|reflexivity|]. exfalso. apply H. discriminate. Qed.
Lemma writable_app l1 l2 : writable (N:=N) (l1 ++ l2)%list -> writable l1.
Proof.
  intros [H1 H2]. split; [intros k v Hi; apply (H1 k v); apply in_app_iff; auto|].
  intros a k v b k' v' c p p' E. apply (H2 a k v b k' v' (c ++ l2)%list). rewrite E, <- !app_assoc. cbn [app]. rewrite <- app_assoc. reflexivity.
Qed.
Lemma writable_last l1 k v : writable (N:=N) (l1 ++ [(k, v)])%list -> storable v /\ ~ key_path k [] /\
  forall k' v' p p', In (k', v') l1 -> key_path k p -> key_path k' p' -> ~ in_the_way p' p.
Proof.
  intros [H1 H2]. destruct (H1 k v) as [Hs Hp]; [apply in_app_iff; right; left; reflexivity|]. split; [exact Hs|]. split; [exact Hp|].
  intros k' v' p p' Hi Hk Hk'. apply in_split in Hi. destruct Hi as (a & b & ->).
  apply (H2 a k' v' b k v [] p' p); [|exact Hk'|exact Hk]. rewrite <- app_assoc. reflexivity.
Qed.
(** after writing the entries of [fin] the loop goes on with the rest *)
Lemma loop_writes todo : forall (fin : out_t) g out0, full g -> holds g fin -> writable (fin ++ todo)%list ->
  exists g' out1, (forall rest, save_loop (todo ++ rest)%list g out0 = save_loop rest g' out1) /\ full g' /\ holds g' (fin ++ todo)%list.
Proof.
  induction todo as [|[k v] todo IH]; intros fin g out0 Hf Hh Hw.
  - exists g, out0. split; [reflexivity|]. rewrite app_nil_r. auto.
  - assert (Hw1 : writable (fin ++ [(k, v)])%list) by (apply (writable_app _ todo); rewrite <- app_assoc; exact Hw).
    destruct (writable_last fin k v Hw1) as (Hs & Hn & Hc).
    destruct (create_ok (components k) g (as_array v) Hf) as (g1 & E & F1 & _ & D1).
    + intros H. apply Hn. apply key_path_components. auto.
    + intros q b Hq. apply Hh in Hq. destruct Hq as (k' & v' & Hi & Hk' & _).
      apply (Hc k' v' (components k) q Hi); [apply key_path_components; reflexivity|exact Hk'].
    + destruct (IH (fin ++ [(k, v)])%list g1 (dset k (unscalar v) out0) F1) as (g' & out1 & E' & F' & H').
      * intros p a. rewrite D1. rewrite (Hh p a). split.
        -- intros [[-> ->]|(k' & v' & Hi & H)]; [exists k, v|exists k', v'; split; [apply in_app_iff; auto|exact H]].
           split; [apply in_app_iff; right; left; reflexivity|]. split; [apply key_path_components; reflexivity|reflexivity].
        -- intros (k' & v' & Hi & H & Ha). apply in_app_iff in Hi. destruct Hi as [Hi|[Hi|[]]]; [right; eauto|]. injection Hi as <- <-.
           left. apply key_path_components in H. auto.
      * rewrite <- app_assoc. exact Hw.
      * exists g', out1. rewrite <- app_assoc in H'. split; [|split; [exact F'|exact H']]. intros rest. cbn [app save_loop].
        rewrite (create_array k v g Hs), E. apply E'.
Qed.
Lemma loop_refuses (fin : out_t) k v rest g out0 e : full g -> holds g fin -> unwritable fin k v e ->
  exists out1, save_loop ((k, v) :: rest) g out0 = (Err e, g, out1).
Proof.
  intros Hf Hh Hu. cbn [save_loop]. destruct Hu as [[Hs ->]|(Hs & -> & Hu)].
  - rewrite (create_rank0 k v g Hs). eauto.
  - rewrite (create_array k v g Hs), create_bad; [eauto|]. destruct Hu as [Hu|(k' & v' & p & p' & Hi & Hp & Hp' & Hw)].
    + left. apply key_path_components in Hu. auto.
    + right. apply key_path_components in Hp. subst p. exists p', (as_array v'). split; [|exact Hw]. apply Hh. eauto.
Qed.
Lemma full_nil : full (A:=oval N) []. Proof. constructor. Qed.
Lemma holds_nil : holds (N:=N) [] [].
Proof. intros p a. split; [intros H; exfalso; exact (data_empty _ _ H)|intros (k & v & [] & _)]. Qed.
End Loop.
