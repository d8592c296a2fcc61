(** * The command line. *)
From Coq Require Import ZArith List Bool Arith String Ascii Lia.
From Verif Require Import Num M_Sim M_Cli Spec_Cli.
Import ListNotations.
Local Open Scope string_scope.

(** ** Strings *)
Lemma prefix_app p q : prefix p q = true <-> exists r, q = p ++ r.
Proof.
  revert q. induction p as [|c p IH]; intros q.
  - cbn. split; [intros _; exists q; destruct q; reflexivity|destruct q; reflexivity].
  - destruct q as [|c' q]; cbn; [split; [discriminate|intros (r & E); discriminate]|].
    destruct (ascii_dec c c') as [->|N].
    + rewrite IH. split; intros (r & E); exists r; [rewrite E; reflexivity|injection E as E; exact E].
    + split; [discriminate|]. intros (r & E). injection E as E _. congruence.
Qed.
Definition tail_of (e : option string) : string := match e with None => "" | Some x => "=" ++ x end.
Lemma partition_eq s : let '(p, e) := partition s in s = p ++ tail_of e.
Proof.
  induction s as [|c s IH]; [reflexivity|]. cbn. destruct (Ascii.eqb_spec c equals) as [->|N]; [reflexivity|].
  destruct (partition s) as [p e]. cbn. rewrite <- IH. reflexivity.
Qed.
(** no "=" in the first part *)
Fixpoint no_eq (s : string) : Prop := match s with EmptyString => True | String c s' => c <> equals /\ no_eq s' end.
Lemma partition_no_eq s : no_eq (fst (partition s)).
Proof.
  induction s as [|c s IH]; [exact I|]. cbn. destruct (Ascii.eqb_spec c equals); [exact I|].
  destruct (partition s). cbn in *. auto.
Qed.
Lemma partition_app p e : no_eq p -> partition (p ++ tail_of e) = (p, e).
Proof.
  induction p as [|c p IH]; intros H.
  - destruct e; reflexivity.
  - destruct H as [Hc Hp]. cbn. destruct (Ascii.eqb_spec c equals); [contradiction|]. rewrite (IH Hp). reflexivity.
Qed.
Lemma has_space_iff s : has_space s = true <-> spaced s.
Proof.
  induction s as [|c s IH]; cbn.
  - split; [discriminate|]. intros (a & b & E). destruct a; discriminate.
  - rewrite orb_true_iff, IH. split.
    + intros [H|(a & b & ->)]; [apply Ascii.eqb_eq in H; subst c; exists "", s; reflexivity|exists (String c a), b; reflexivity].
    + intros (a & b & E). destruct a as [|c' a]; injection E as -> ->; [left; apply Ascii.eqb_refl|right; exists a, b; reflexivity].
Qed.
Lemma is_digit_iff c : is_digit c = true <-> digit_char c.
Proof. unfold is_digit, digit_char. rewrite andb_true_iff, !Nat.leb_le. reflexivity. Qed.
Lemma skip_digits_split s : exists a, all_digits a /\ s = a ++ skip_digits s /\ starts_digit (skip_digits s) = false /\ (starts_digit s = true <-> a <> "").
Proof.
  induction s as [|c s IH]; cbn.
  - exists "". split; [exact I|]. split; [reflexivity|]. split; [reflexivity|]. split; congruence.
  - destruct (is_digit c) eqn:E.
    + destruct IH as (a & Ha & Es & Hn & _). exists (String c a). split; [split; [apply is_digit_iff, E|exact Ha]|].
      split; [cbn; rewrite <- Es; reflexivity|]. split; [exact Hn|]. split; [discriminate|reflexivity].
    + exists "". split; [exact I|]. split; [reflexivity|]. split; [cbn; exact E|]. split; congruence.
Qed.
Lemma skip_digits_app a s : all_digits a -> starts_digit s = false -> skip_digits (a ++ s) = s.
Proof.
  induction a as [|c a IH]; intros Ha Hs; cbn.
  - destruct s as [|c s]; [reflexivity|]. cbn in *. rewrite Hs. reflexivity.
  - destruct Ha as [Hc Ha]. apply is_digit_iff in Hc. rewrite Hc. apply IH; auto.
Qed.
Lemma at_end_iff s : at_end s = true <-> s = "" \/ s = String "010" "".
Proof.
  destruct s as [|c [|c' s]]; cbn.
  - split; auto.
  - rewrite Ascii.eqb_eq. split; [intros ->; auto|intros [E|E]; [discriminate|congruence]].
  - split; [discriminate|intros [E|E]; discriminate].
Qed.
Lemma app_empty s : s ++ "" = s.
Proof. induction s as [|c s IH]; cbn; [reflexivity|rewrite IH; reflexivity]. Qed.
Lemma app_assoc_s a b c : (a ++ b) ++ c = a ++ (b ++ c).
Proof. induction a as [|x a IH]; cbn; [reflexivity|rewrite IH; reflexivity]. Qed.
Lemma starts_digit_app a s : all_digits a -> a <> "" -> starts_digit (a ++ s) = true.
Proof. destruct a as [|c a]; [congruence|]. intros [Hc _] _. cbn. apply is_digit_iff, Hc. Qed.
Lemma neg_number_iff s : negative_number s = true <-> neg_number s.
Proof.
  destruct s as [|c s]; cbn [negative_number].
  - split; [discriminate|]. intros (a & nl & _ & _ & [[_ E]|(b & _ & _ & E)]); discriminate.
  - rewrite andb_true_iff, Ascii.eqb_eq. destruct (skip_digits_split s) as (a & Ha & Es & Hn & Hd). split.
    + intros [-> H]. apply orb_true_iff in H. destruct H as [H|H].
      * apply andb_true_iff in H. destruct H as [H1 H2]. apply at_end_iff in H2. exists a, (skip_digits s).
        split; [exact Ha|]. split; [exact H2|]. left. split; [apply Hd, H1|]. rewrite <- Es. reflexivity.
      * destruct (skip_digits s) as [|p r] eqn:Er; [discriminate|]. rewrite !andb_true_iff, Ascii.eqb_eq in H. destruct H as [[-> H1] H2].
        destruct (skip_digits_split r) as (b & Hb & Eb & _ & Hdb). apply at_end_iff in H2.
        exists a, (skip_digits r). split; [exact Ha|]. split; [exact H2|]. right. exists b. split; [exact Hb|]. split; [apply Hdb, H1|].
        rewrite <- Eb. cbn. rewrite Es. reflexivity.
    + intros (a' & nl & Ha' & Hnl & H).
      assert (Hnl' : starts_digit nl = false) by (destruct Hnl as [-> | ->]; reflexivity).
      assert (Hnl2 : at_end nl = true) by (apply at_end_iff, Hnl).
      destruct H as [[Hne E]|(b & Hb & Hbe & E)]; injection E as -> ->; (split; [reflexivity|]); apply orb_true_iff.
      * left. rewrite (skip_digits_app a' nl Ha' Hnl'), Hnl2, (starts_digit_app a' nl Ha' Hne). reflexivity.
      * right. pose proof (skip_digits_app a' ("." ++ b ++ nl) Ha' eq_refl) as Q. cbn [append] in Q |- *. rewrite Q. rewrite (skip_digits_app b nl Hb Hnl'), Hnl2, (starts_digit_app b nl Hb Hbe). reflexivity.
Qed.

(** ** One word *)
Definition act_of (o : opt) : act := match o with Params => AParams | Data => AData end.
Ltac strings := repeat match goal with
  | E : String _ _ = String _ _ |- _ => injection E as E; subst
  | E : String _ _ = "" |- _ => discriminate
  | E : "" = String _ _ |- _ => discriminate
  end.
(** the beginnings of a name *)
Fixpoint beginnings (s : string) : list string :=
  "" :: match s with EmptyString => [] | String c s' => map (String c) (beginnings s') end.
Lemma beginnings_in p q : In p (beginnings (p ++ q)).
Proof. induction p as [|c p IH]; [destruct q; left; reflexivity|]. right. apply in_map, IH. Qed.
Lemma abbrev_name n o : abbreviates n (full_name o) ->
  In n (match o with Params => ["--p"; "--pa"; "--par"; "--para"; "--param"; "--params"] | Data => ["--d"; "--da"; "--dat"; "--data"] end).
Proof.
  intros [L (r & E)]. pose proof (beginnings_in n r) as H. rewrite <- E in H. destruct o; cbn in H;
  repeat (destruct H as [<-|H]; [cbn in L; first [lia|cbn; tauto]|]); contradiction.
Qed.
Lemma parse_abbrev n o : abbreviates n (full_name o) -> parse_optional n = Some (KOpt (Some (act_of o)) false false None) /\ n <> "--".
Proof.
  intros H. apply abbrev_name in H. destruct o; cbn in H; repeat (destruct H as [<-|H]; [split; [reflexivity|discriminate]|]); contradiction.
Qed.
Lemma parse_eq n o v : abbreviates n (full_name o) ->
  parse_optional (n ++ "=" ++ v) = Some (KOpt (Some (act_of o)) false true (Some v)) /\ n ++ "=" ++ v <> "--".
Proof.
  intros H. apply abbrev_name in H. destruct o; cbn in H; repeat (destruct H as [<-|H]; [split; [reflexivity|discriminate]|]); contradiction.
Qed.

(** the options, from the text: [lookup] *)
Lemma lookup_some s a : lookup s options = Some a ->
  (a = AHelp /\ (s = "-h" \/ s = "--help")) \/ (a = AParams /\ s = "--params") \/ (a = AData /\ s = "--data").
Proof.
  cbn [lookup options]. repeat match goal with |- context [String.eqb s ?t] => destruct (String.eqb_spec s t) as [->|] end;
  intros E; try discriminate; injection E as <-; tauto.
Qed.
(** the words with one dash *)
Lemma option_tuples_short c2 rest : c2 <> dash -> c2 <> "h"%char -> option_tuples (String dash (String c2 rest)) = [].
Proof.
  intros N1 N2. unfold option_tuples. destruct (Ascii.eqb_spec c2 dash); [contradiction|]. cbn [flat_map options fst snd].
  assert (H1 : String.eqb "-h" (String dash (String c2 "")) = false) by (apply String.eqb_neq; congruence).
  assert (H2 : forall n, String.eqb (String dash (String dash n)) (String dash (String c2 "")) = false) by (intros x; apply String.eqb_neq; congruence).
  assert (H3 : prefix (String dash (String c2 rest)) "-h" = false) by (apply not_true_iff_false; rewrite prefix_app; intros (r & E); injection E; congruence).
  assert (H4 : forall n, prefix (String dash (String c2 rest)) (String dash (String dash n)) = false) by (intros x; apply not_true_iff_false; rewrite prefix_app; intros (r & E); injection E; congruence).
  rewrite H1, H3. change "--help" with (String dash (String dash "help")). change "--params" with (String dash (String dash "params")).
  change "--data" with (String dash (String dash "data")). rewrite !H2, !H4. reflexivity.
Qed.
Lemma partition_dashes rest : exists p e, partition (String dash (String dash rest)) = (String dash (String dash p), e) /\ partition rest = (p, e).
Proof. cbn. destruct (partition rest) as [p e]. exists p, e. split; reflexivity. Qed.
(** the beginnings of the names after the dashes *)
Definition long_of (p : string) : list act :=
  (if prefix p "help" then [AHelp] else []) ++ (if prefix p "params" then [AParams] else []) ++ (if prefix p "data" then [AData] else []).
Lemma prefix_cons c p q : prefix (String c p) (String c q) = prefix p q.
Proof. cbn. destruct (ascii_dec c c); congruence. Qed.
Lemma option_tuples_long rest : option_tuples (String dash (String dash rest)) =
  map (fun a => KOpt (Some a) false (match snd (partition rest) with Some _ => true | None => false end) (snd (partition rest)))
      (long_of (fst (partition rest))).
Proof.
  unfold option_tuples. change (Ascii.eqb dash dash) with true. cbv iota.
  destruct (partition_dashes rest) as (p & e & E & E'). rewrite E, E'. cbn [fst snd].
  cbn [filter options fst].
  replace (prefix (String dash (String dash p)) "-h") with false by (symmetry; apply not_true_iff_false; rewrite prefix_app; intros (r & Q); discriminate).
  change "--help" with (String dash (String dash "help")). change "--params" with (String dash (String dash "params")).
  change "--data" with (String dash (String dash "data")). rewrite !prefix_cons. unfold long_of.
  destruct (prefix p "help"), (prefix p "params"), (prefix p "data"); reflexivity.
Qed.
Lemma long_of_cases p : (p = "" /\ long_of p = [AHelp; AParams; AData]) \/
  (exists o, abbreviates (String dash (String dash p)) (full_name o) /\ long_of p = [act_of o]) \/
  ((exists q, "help" = p ++ q) /\ p <> "" /\ long_of p = [AHelp]) \/
  (long_of p = [] /\ forall full q, In full ["help"; "params"; "data"] -> full <> p ++ q).
Proof.
  destruct (prefix p "help") eqn:H1.
  - apply prefix_app in H1. destruct H1 as (r & E). pose proof (beginnings_in p r) as B. rewrite <- E in B. cbn in B.
    destruct B as [<-|B]; [left; split; reflexivity|]. right; right; left.
    repeat (destruct B as [<-|B]; [split; [exists r; exact E|split; [discriminate|reflexivity]]|]); contradiction.
  - destruct (prefix p "params") eqn:H2.
    { apply prefix_app in H2. destruct H2 as (r & E). right; left. exists Params.
      assert (Hp : p <> "") by (intros ->; cbn in H1; discriminate). split.
      - split; [destruct p; [congruence|cbn; lia]|]. exists r. cbn. rewrite <- E. reflexivity.
      - pose proof (beginnings_in p r) as B. rewrite <- E in B. cbn in B. destruct B as [<-|B]; [congruence|].
        repeat (destruct B as [<-|B]; [reflexivity|]); contradiction. }
    destruct (prefix p "data") eqn:H3.
    { apply prefix_app in H3. destruct H3 as (r & E). right; left. exists Data.
      assert (Hp : p <> "") by (intros ->; cbn in H1; discriminate). split.
      - split; [destruct p; [congruence|cbn; lia]|]. exists r. cbn. rewrite <- E. reflexivity.
      - pose proof (beginnings_in p r) as B. rewrite <- E in B. cbn in B. destruct B as [<-|B]; [congruence|].
        repeat (destruct B as [<-|B]; [reflexivity|]); contradiction. }
    right; right; right. unfold long_of. rewrite H1, H2, H3. split; [reflexivity|].
    intros full q [<-|[<-|[<-|[]]]] E.
    + assert (Q : prefix p "help" = true) by (apply prefix_app; exists q; exact E). congruence.
    + assert (Q : prefix p "params" = true) by (apply prefix_app; exists q; exact E). congruence.
    + assert (Q : prefix p "data" = true) by (apply prefix_app; exists q; exact E). congruence.
Qed.

(** what a word can be *)
Inductive word (s : string) : option kind -> Prop :=
| word_plain : plain s -> word s (Some KArg)
| word_name o : abbreviates s (full_name o) -> word s (Some (KOpt (Some (act_of o)) false false None))
| word_eq o n v : abbreviates n (full_name o) -> s = n ++ "=" ++ v -> word s (Some (KOpt (Some (act_of o)) false true (Some v)))
| word_help sh sep e : looks_option s -> (e = None -> s = "-h" \/ abbreviates s "--help") -> (sh = true -> exists r, s = "-h" ++ r) -> word s (Some (KOpt (Some AHelp) sh sep e))
| word_unknown : ~ plain s -> ~ looks_option s -> word s (Some (KOpt None false false None))
| word_ambiguous : (s = "--" \/ exists x, s = "--=" ++ x) -> word s None.
Lemma word_parse s : word s (parse_optional s).
Proof.
  destruct s as [|c rest]; [apply word_plain; left; intros r; discriminate|].
  cbn [parse_optional]. destruct (Ascii.eqb_spec c dash) as [->|N]; cbn [negb].
  2: { apply word_plain. left. intros r E. injection E as E _. contradiction. }
  destruct (lookup (String dash rest) options) as [a|] eqn:L.
  { apply lookup_some in L. destruct L as [[-> H]|[[-> H]|[-> H]]].
    - apply word_help; [| |intros Q; apply String.eqb_eq in Q; exists ""; exact Q].
      + destruct H as [-> | ->]; [left; exists ""; reflexivity|]. right. exists "--help", "", "--help".
        split; [left; reflexivity|]. split; [cbn; lia|]. split; [exists ""; reflexivity|]. split; [reflexivity|left; reflexivity].
      + intros _. destruct H as [-> | ->]; [left; reflexivity|]. right. split; [cbn; lia|exists ""; reflexivity].
    - rewrite H. apply (word_name _ Params). split; [cbn; lia|]. exists "". reflexivity.
    - rewrite H. apply (word_name _ Data). split; [cbn; lia|]. exists "". reflexivity. }
  destruct (String.eqb_spec rest "") as [->|Hr]; [apply word_plain; right; left; reflexivity|].
  destruct (partition (String dash rest)) as [p e] eqn:P.
  pose proof (partition_eq (String dash rest)) as PE. rewrite P in PE.
  set (m := match e with Some x => match lookup p options with Some a => Some (a, x) | None => None end | None => None end).
  destruct m as [[a x]|] eqn:M; unfold m in M.
  { destruct e as [y|]; [|discriminate]. destruct (lookup p options) as [b|] eqn:L'; [|discriminate]. injection M as <- <-.
    apply lookup_some in L'. destruct L' as [[-> H]|[[-> H]|[-> H]]].
    - apply word_help; [|discriminate|intros Q; apply String.eqb_eq in Q; rewrite PE, Q; exists (tail_of (Some y)); reflexivity].
      rewrite PE. destruct H as [-> | ->]; [left; exists (tail_of (Some y)); reflexivity|]. right. exists "--help", (tail_of (Some y)), "--help".
      split; [left; reflexivity|]. split; [cbn; lia|]. split; [exists ""; reflexivity|]. split; [reflexivity|right; exists y; reflexivity].
    - rewrite H. apply (word_eq _ Params "--params"); [split; [cbn; lia|exists ""; reflexivity]|rewrite PE, H; reflexivity].
    - rewrite H. apply (word_eq _ Data "--data"); [split; [cbn; lia|exists ""; reflexivity]|rewrite PE, H; reflexivity]. }
  clear m M. destruct rest as [|c2 rest]; [congruence|].
  destruct (ascii_dec c2 dash) as [->|N2].
  - rewrite option_tuples_long. destruct (partition_dashes rest) as (p' & e' & Q1 & Q2). rewrite Q1 in P. injection P as <- <-. rewrite Q2. cbn [fst snd].
    destruct (long_of_cases p') as [[-> Hl]|[(o & Ho & Hl)|[((q & Hq) & Hn & Hl)|[Hl Hno]]]]; rewrite Hl; cbn [map].
    + apply word_ambiguous. rewrite PE. destruct e' as [x|]; [right; exists x; reflexivity|left; reflexivity].
    + destruct e' as [x|].
      * apply (word_eq _ o (String dash (String dash p'))); [exact Ho|exact PE].
      * rewrite PE in *. cbn [tail_of] in *. rewrite app_empty in *. apply word_name, Ho.
    + apply word_help; [| |discriminate].
      2: { intros ->. rewrite PE. cbn [tail_of]. rewrite app_empty. right. split; [destruct p' as [|? ?]; [congruence|cbn; lia]|]. exists q. cbn. rewrite <- Hq. reflexivity. }
      rewrite PE. right. exists (String dash (String dash p')), (tail_of e'), "--help".
      split; [left; reflexivity|]. split; [cbn; lia|]. split; [exists q; cbn; rewrite <- Hq; reflexivity|]. split; [reflexivity|].
      destruct e' as [x|]; [right; exists x; reflexivity|left; reflexivity].
    + assert (NL : ~ looks_option (String dash (String dash rest))).
      { intros [(r & E)|(pp & r & full & Hin & Hlen & (q & Hq) & E & Hr')]; [discriminate|].
        assert (Hd : exists p2 f2, pp = String dash (String dash p2) /\ full = String dash (String dash f2) /\ In f2 ["help"; "params"; "data"]).
        { destruct pp as [|a1 [|a2 p2]]; [cbn in Hlen; lia|cbn in Hlen; lia|]. injection E as <- <- E. exists p2.
          destruct Hin as [<-|[<-|[<-|[]]]]; [exists "help"|exists "params"|exists "data"]; (split; [reflexivity|split; [reflexivity|cbn; tauto]]). }
        destruct Hd as (p2 & f2 & -> & -> & Hf). injection Hq as Hq. injection E as E.
        assert (NE : no_eq p2).
        { assert (forall a b, In (a ++ b) ["help"; "params"; "data"] -> no_eq a) as HH.
          { intros a b Hab. pose proof (beginnings_in a b) as B. destruct Hab as [W|[W|[W|[]]]]; rewrite <- W in B; cbn in B;
            repeat (destruct B as [<-|B]; [cbn; repeat split; discriminate|]); contradiction. }
          apply (HH p2 q). rewrite <- Hq. exact Hf. }
        assert (Er : exists e2, r = tail_of e2) by (destruct Hr' as [-> |(x & ->)]; [exists None; reflexivity|exists (Some x); reflexivity]).
        destruct Er as (e2 & ->). rewrite E, (partition_app p2 e2 NE) in Q2. injection Q2 as <- <-.
        apply (Hno f2 q Hf). exact Hq. }
      destruct (negative_number (String dash (String dash rest))) eqn:G1; [apply word_plain; right; right; split; [left; apply neg_number_iff, G1|exact NL]|].
      destruct (has_space (String dash (String dash rest))) eqn:G2; [apply word_plain; right; right; split; [right; apply has_space_iff, G2|exact NL]|].
      apply word_unknown; [|exact NL]. intros [H|[H|[[H|H] _]]];
        [apply (H _ eq_refl)|discriminate|apply neg_number_iff in H; congruence|apply has_space_iff in H; congruence].
  - destruct (ascii_dec c2 "h"%char) as [->|N3].
    + assert (LO : looks_option (String dash (String "h" rest))) by (left; exists rest; reflexivity).
      change (option_tuples (String dash (String "h" rest))) with [KOpt (Some AHelp) true false (Some rest)]. apply word_help; [exact LO|discriminate|intros _; exists rest; reflexivity].
    + rewrite option_tuples_short by assumption.
      assert (NL : ~ looks_option (String dash (String c2 rest))).
      { intros [(r & E)|(pp & r & full & Hin & Hlen & (q & Hq) & E & Hr')]; [injection E; congruence|].
        destruct pp as [|a1 [|a2 p2]]; [cbn in Hlen; lia|cbn in Hlen; lia|]. injection E as <- <- E.
        unfold dash in N2. destruct Hin as [<-|[<-|[<-|[]]]]; injection Hq; congruence. }
      destruct (negative_number (String dash (String c2 rest))) eqn:G1; [apply word_plain; right; right; split; [left; apply neg_number_iff, G1|exact NL]|].
      destruct (has_space (String dash (String c2 rest))) eqn:G2; [apply word_plain; right; right; split; [right; apply has_space_iff, G2|exact NL]|].
      apply word_unknown; [|exact NL]. intros [H|[H|[[H|H] _]]];
        [apply (H _ eq_refl)|discriminate|apply neg_number_iff in H; congruence|apply has_space_iff in H; congruence].
Qed.

Lemma looks_not_plain s : looks_option s -> ~ plain s.
Proof.
  intros L [H|[H|[_ H]]]; [|subst s|apply H, L].
  - destruct L as [(r & ->)|(p & r & full & Hin & Hlen & (q & Hq) & -> & _)]; [apply (H (String "h" r)); reflexivity|].
    destruct p as [|a p]; [cbn in Hlen; lia|]. apply (H (p ++ r)). destruct Hin as [<-|[<-|[<-|[]]]]; injection Hq as <- _; reflexivity.
  - destruct L as [(r & E)|(p & r & full & Hin & Hlen & _ & E & _)]; [discriminate|].
    destruct p as [|a [|b p]]; [cbn in Hlen; lia|cbn in Hlen; lia|discriminate].
Qed.
Lemma abbrev_looks n o e : abbreviates n (full_name o) -> looks_option (n ++ tail_of e).
Proof.
  intros [L (r & E)]. right. exists n, (tail_of e), (full_name o). split; [destruct o; cbn; tauto|]. split; [lia|].
  split; [exists r; exact E|]. split; [reflexivity|]. destruct e as [x|]; [right; exists x; reflexivity|left; reflexivity].
Qed.
Lemma parse_plain s : plain s -> parse_optional s = Some KArg.
Proof.
  intros H. assert (X : forall k, parse_optional s = k -> k = Some KArg); [|apply X; reflexivity].
  intros k E. pose proof (word_parse s) as Wd. rewrite E in Wd. destruct Wd as [Hp|o Ho|o n v Ho Es|sh sep e L _ _|N _|Hd]; [reflexivity|exfalso..].
  - apply (looks_not_plain s); [|exact H]. rewrite <- (app_empty s). apply (abbrev_looks s o None Ho).
  - apply (looks_not_plain s); [|exact H]. rewrite Es. apply (abbrev_looks n o (Some v) Ho).
  - apply (looks_not_plain s L H).
  - apply N, H.
  - apply (looks_not_plain s); [|exact H]. right. destruct Hd as [-> |(x & ->)]; [exists "--", "", "--help"|exists "--", ("=" ++ x), "--help"];
    (split; [left; reflexivity|split; [cbn; lia|split; [exists "help"; reflexivity|split; [reflexivity|]]]]); [left; reflexivity|right; exists x; reflexivity].
Qed.
Lemma plain_not_dashes s : plain s -> s <> "--".
Proof.
  intros H ->. refine (looks_not_plain "--" _ H). right. exists "--", "", "--help".
  split; [left; reflexivity|split; [cbn; lia|split; [exists "help"; reflexivity|split; [reflexivity|left; reflexivity]]]].
Qed.

(** ** Lines *)
Definition or_default (o : option string) (d : option string) : option string := match o with Some _ => o | None => d end.
Definition ns_after (r : list (opt * string)) (n : ns) : ns :=
  mkNs (or_default (last_value Params r) (n_params n)) (or_default (last_value Data r) (n_data n)).
Lemma ns_after_cons o v r n : ns_after ((o, v) :: r) n = ns_after r (store (act_of o) v n).
Proof.
  unfold ns_after. cbn [last_value]. destruct o; cbn [act_of store n_params n_data];
  destruct (last_value Params r), (last_value Data r); reflexivity.
Qed.
Lemma ns_after_nil n : ns_after [] n = n.
Proof. destruct n; reflexivity. Qed.
(** accepted lines are read as the grammar says, whatever comes after them *)
Lemma classify_line l r : line l r -> forall rest cl, classify rest = Some cl ->
  exists k, classify (l ++ rest)%list = Some k /\ forall ex n, consume k ex n = consume cl ex (ns_after r n).
Proof.
  intros H. induction H as [|o n v l r Hn Hv Hl IH|o n v l r Hn Hl IH]; intros rest cl Hc.
  - exists cl. split; [exact Hc|]. intros ex n. rewrite ns_after_nil. reflexivity.
  - destruct (IH rest cl Hc) as (k & Ek & Hk). destruct (parse_abbrev n o Hn) as [P1 P2].
    exists ((n, KOpt (Some (act_of o)) false false None, true) :: (v, KArg, true) :: k). split.
    + cbn [app classify]. destruct (String.eqb_spec n "--"); [contradiction|]. rewrite P1.
      destruct (String.eqb_spec v "--") as [E|]; [destruct (plain_not_dashes v Hv E)|]. rewrite (parse_plain v Hv), Ek. reflexivity.
    + intros ex n0. rewrite ns_after_cons, <- Hk. destruct o; reflexivity.
  - destruct (IH rest cl Hc) as (k & Ek & Hk). destruct (parse_eq n o v Hn) as [P1 P2].
    exists (((n ++ "=" ++ v), KOpt (Some (act_of o)) false true (Some v), true) :: k). split.
    + cbn [app classify]. destruct (String.eqb_spec (n ++ "=" ++ v) "--"); [contradiction|]. rewrite P1, Ek. reflexivity.
    + intros ex n0. rewrite ns_after_cons, <- Hk. destruct o; reflexivity.
Qed.
(** once something is left over, nothing is accepted *)
Lemma consume_extras l : forall n p d, consume l true n <> CMain p d.
Proof.
  assert (X : forall m l, (List.length l <= m)%nat -> forall n p d, consume l true n <> CMain p d).
  { induction m as [|m IH]; intros k Hk n p d.
    - destruct k; [discriminate|cbn in Hk; lia].
    - destruct k as [|[[s kd] b] k]; [discriminate|]. cbn [List.length] in Hk. destruct kd as [|a sh sep e]; cbn [consume]; [apply IH; lia|].
      destruct a as [[]|]; [|..|apply IH; lia].
      + destruct e; [|discriminate]. destruct (sh && help_text sep s0); discriminate.
      + destruct e; [apply IH; lia|]. destruct k as [|[[v []] []] k]; try discriminate. apply IH. cbn [List.length] in Hk. lia.
      + destruct e; [apply IH; lia|]. destruct k as [|[[v []] []] k]; try discriminate. apply IH. cbn [List.length] in Hk. lia. }
  apply (X (List.length l) l (Nat.le_refl _)).
Qed.
Lemma classify_cons s l cl : classify (s :: l) = Some cl ->
  (s = "--" /\ exists t, cl = (s, KArg, false) :: t) \/
  (s <> "--" /\ exists k t, cl = (s, k, true) :: t /\ classify l = Some t /\ word s (Some k)).
Proof.
  cbn [classify]. destruct (String.eqb_spec s "--") as [->|N]; intros E.
  - injection E as <-. left. split; [reflexivity|]. eexists. reflexivity.
  - right. split; [exact N|]. pose proof (word_parse s) as Wd. destruct (parse_optional s) as [k|]; [|discriminate].
    destruct (classify l) as [t|]; [|discriminate]. injection E as <-. exists k, t. repeat split; auto.
Qed.
Lemma word_arg s : word s (Some KArg) -> plain s.
Proof. intros H. inversion H. assumption. Qed.
Lemma word_none s o sh sep : word s (Some (KOpt (Some (act_of o)) sh sep None)) -> abbreviates s (full_name o).
Proof.
  intros H. remember (Some (KOpt (Some (act_of o)) sh sep None)) as k eqn:E. destruct H as [|o' Ho| | | |]; try discriminate.
  - injection E as E _ _. destruct o, o'; try discriminate; exact Ho.
  - injection E as E _ _ _. destruct o; discriminate.
Qed.
Lemma word_some s o sh sep v : word s (Some (KOpt (Some (act_of o)) sh sep (Some v))) -> exists n, abbreviates n (full_name o) /\ s = n ++ "=" ++ v.
Proof.
  intros H. remember (Some (KOpt (Some (act_of o)) sh sep (Some v))) as k eqn:E. destruct H as [| |o' n w Ho Es| | |]; try discriminate.
  - injection E as E _ _ ->. exists n. split; [destruct o, o'; try discriminate; exact Ho|exact Es].
  - injection E as E _ _ _. destruct o; discriminate.
Qed.
Lemma consume_line m : forall l, (List.length l <= m)%nat -> forall cl n p d, classify l = Some cl -> consume cl false n = CMain p d ->
  exists r, line l r /\ mkNs p d = ns_after r n.
Proof.
  induction m as [|m IH]; intros l Hm cl n p d Hc Hd.
  - destruct l; [|cbn in Hm; lia]. injection Hc as <-. cbn in Hd. injection Hd as <- <-. exists []. split; [constructor|]. rewrite ns_after_nil. destruct n; reflexivity.
  - destruct l as [|s l]; [injection Hc as <-; cbn in Hd; injection Hd as <- <-; exists []; split; [constructor|]; rewrite ns_after_nil; destruct n; reflexivity|].
    cbn [List.length] in Hm. destruct (classify_cons s l cl Hc) as [[_ (t & ->)]|[_ (k & t & -> & Ht & Wd)]].
    + exfalso. apply (consume_extras t n p d). exact Hd.
    + destruct k as [|a sh sep e]; [exfalso; apply (consume_extras t n p d); exact Hd|].
      destruct a as [a|]; [|exfalso; apply (consume_extras t n p d); exact Hd].
      assert (A : a = AHelp \/ exists o, a = act_of o) by (destruct a; [left; reflexivity|right; exists Params; reflexivity|right; exists Data; reflexivity]).
      destruct A as [-> |(o & ->)].
      { exfalso. cbn [consume] in Hd. destruct e as [e|]; [destruct (sh && help_text sep e)|]; discriminate. }
      destruct e as [v|].
      * destruct (word_some s o sh sep v Wd) as (nm & Hnm & ->).
        assert (Hd' : consume t false (store (act_of o) v n) = CMain p d) by (destruct o; exact Hd).
        destruct (IH l ltac:(lia) t _ p d Ht Hd') as (r & Hr & En). exists ((o, v) :: r). split; [constructor; assumption|]. rewrite ns_after_cons. exact En.
      * pose proof (word_none s o sh sep Wd) as Hnm.
        destruct l as [|v l]; [injection Ht as <-; destruct o; discriminate|].
        destruct (classify_cons v l t Ht) as [[_ (t' & ->)]|[_ (k' & t' & -> & Ht' & Wd')]]; [destruct o; discriminate|].
        destruct k' as [|a' sh' sep' e']; [|destruct o; discriminate].
        assert (Hd' : consume t' false (store (act_of o) v n) = CMain p d) by (destruct o; exact Hd).
        cbn [List.length] in Hm.
        destruct (IH l ltac:(lia) t' _ p d Ht' Hd') as (r & Hr & En). exists ((o, v) :: r). split; [constructor; [exact Hnm|apply word_arg, Wd'|exact Hr]|]. rewrite ns_after_cons. exact En.
Qed.
Lemma accepted_iff argv p d : command_line argv = CMain p d <->
  argv <> [] /\ exists r, line argv r /\ p = last_value Params r /\ d = last_value Data r.
Proof.
  split.
  - intros H. destruct argv as [|s l]; [discriminate|]. split; [discriminate|]. unfold command_line in H.
    destruct (classify (s :: l)) as [cl|] eqn:Hc; [|discriminate].
    destruct (consume_line _ (s :: l) (Nat.le_refl _) cl _ p d Hc H) as (r & Hr & En). exists r. split; [exact Hr|].
    unfold ns_after in En. injection En as -> ->. cbn [n_params n_data]. destruct (last_value Params r), (last_value Data r); split; reflexivity.
  - intros [Hne (r & Hr & -> & ->)]. destruct (classify_line argv r Hr [] [] eq_refl) as (k & Ek & Hk). rewrite app_nil_r in Ek.
    unfold command_line. destruct argv as [|s l]; [congruence|]. rewrite Ek, Hk. cbn. destruct (last_value Params r), (last_value Data r); reflexivity.
Qed.

(** ** Help *)
Lemma parse_help h : h = "-h" \/ abbreviates h "--help" -> h <> "--" /\ exists sh, parse_optional h = Some (KOpt (Some AHelp) sh false None).
Proof.
  intros [-> |[L (r & E)]]; [split; [discriminate|exists true; reflexivity]|].
  pose proof (beginnings_in h r) as B. rewrite <- E in B. cbn in B.
  repeat (destruct B as [<-|B]; [first [cbn in L; lia|split; [discriminate|eexists; reflexivity]]|]); contradiction.
Qed.
Lemma classify_some l : (forall w x, In w l -> w <> "--=" ++ x) -> exists cl, classify l = Some cl.
Proof.
  induction l as [|s l IH]; intros H; [eexists; reflexivity|]. cbn [classify]. destruct (String.eqb_spec s "--"); [eexists; reflexivity|].
  destruct IH as (cl & ->); [intros w x Hw; apply H; right; exact Hw|]. pose proof (word_parse s) as Wd.
  destruct (parse_optional s); [eexists; reflexivity|]. exfalso. inversion Wd as [| | | | |[Q|(x & Q)]]; [contradiction|].
  apply (H s x (or_introl eq_refl) Q).
Qed.
Lemma help_line l r h rest : line l r -> h = "-h" \/ abbreviates h "--help" -> (forall w x, In w rest -> w <> "--=" ++ x) ->
  command_line (l ++ h :: rest)%list = CHelp.
Proof.
  intros Hl Hh Hr. destruct (classify_some rest Hr) as (cl & Hc). destruct (parse_help h Hh) as (N & sh & P).
  assert (Hc' : classify (h :: rest) = Some ((h, KOpt (Some AHelp) sh false None, true) :: cl)).
  { cbn [classify]. destruct (String.eqb_spec h "--"); [contradiction|]. rewrite P, Hc. reflexivity. }
  destruct (classify_line l r Hl (h :: rest) _ Hc') as (k & Ek & Hk). unfold command_line.
  destruct (l ++ h :: rest)%list eqn:E; [destruct l; discriminate|]. rewrite Ek, Hk. reflexivity.
Qed.
Definition in_kinds (l : list string) (cl : list (string * kind * bool)) : Prop :=
  forall s k b, In (s, k, b) cl -> In s l /\ (k = KArg \/ word s (Some k)).
Lemma classify_words l : forall cl, classify l = Some cl -> in_kinds l cl.
Proof.
  induction l as [|s l IH]; intros cl Hc.
  - injection Hc as <-. intros s k b [].
  - cbn [classify] in Hc. destruct (String.eqb_spec s "--") as [->|N].
    + injection Hc as <-. intros s k b [E|E]; [injection E as <- <- <-; split; [left; reflexivity|left; reflexivity]|].
      apply in_map_iff in E. destruct E as (x & E & Hx). injection E as <- <- <-. split; [right; exact Hx|left; reflexivity].
    + pose proof (word_parse s) as Wd. destruct (parse_optional s) as [k|]; [|discriminate]. destruct (classify l) as [t|]; [|discriminate].
      injection Hc as <-. intros s' k' b [E|E]; [injection E as <- <- <-; split; [left; reflexivity|right; exact Wd]|].
      destruct (IH t eq_refl s' k' b E) as [H1 H2]. split; [right; exact H1|exact H2].
Qed.
Lemma consume_help m : forall cl, (List.length cl <= m)%nat -> forall ex n, consume cl ex n = CHelp ->
  exists s sh sep e b, In (s, KOpt (Some AHelp) sh sep e, b) cl /\ (e = None \/ sh = true).
Proof.
  induction m as [|m IH]; intros cl Hm ex n H.
  - destruct cl; [cbn in H; destruct ex; discriminate|cbn in Hm; lia].
  - destruct cl as [|[[s k] b] t]; [cbn in H; destruct ex; discriminate|]. cbn [List.length] in Hm.
    assert (G : forall ex n, consume t ex n = CHelp -> exists s' sh sep e b', In (s', KOpt (Some AHelp) sh sep e, b') ((s, k, b) :: t) /\ (e = None \/ sh = true)).
    { intros ex' n' H'. destruct (IH t ltac:(lia) ex' n' H') as (s' & sh & sep & e & b' & Hin & He). exists s', sh, sep, e, b'. split; [right; exact Hin|exact He]. }
    assert (G2 : forall v t', t = (v, KArg, true) :: t' -> forall ex n, consume t' ex n = CHelp ->
      exists s' sh sep e b', In (s', KOpt (Some AHelp) sh sep e, b') ((s, k, b) :: t) /\ (e = None \/ sh = true)).
    { intros v t' -> ex' n' H'. cbn [List.length] in Hm. destruct (IH t' ltac:(lia) ex' n' H') as (s' & sh & sep & e & b' & Hin & He).
      exists s', sh, sep, e, b'. split; [right; right; exact Hin|exact He]. }
    destruct k as [|[a|] sh sep e]; cbn [consume] in H; [exact (G _ _ H)| |exact (G _ _ H)].
    destruct a.
    + exists s, sh, sep, e, b. split; [left; reflexivity|]. destruct e as [e|]; [|left; reflexivity]. right.
      destruct sh; [reflexivity|discriminate].
    + destruct e as [e|]; [exact (G _ _ H)|]. destruct t as [|[[v []] []] t']; try discriminate. exact (G2 v t' eq_refl _ _ H).
    + destruct e as [e|]; [exact (G _ _ H)|]. destruct t as [|[[v []] []] t']; try discriminate. exact (G2 v t' eq_refl _ _ H).
Qed.
Lemma help_word argv : command_line argv = CHelp -> exists w, In w argv /\ ((exists r, w = "-h" ++ r) \/ abbreviates w "--help").
Proof.
  unfold command_line. destruct argv as [|s l]; [discriminate|]. destruct (classify (s :: l)) as [cl|] eqn:Hc; [|discriminate]. intros H.
  destruct (consume_help _ cl (Nat.le_refl _) _ _ H) as (w & sh & sep & e & b & Hin & He).
  destruct (classify_words _ _ Hc w _ b Hin) as [Hw [Q|Wd]]; [discriminate|]. exists w. split; [exact Hw|].
  remember (Some (KOpt (Some AHelp) sh sep e)) as k eqn:E. destruct Wd as [Hp|o Ho|o n v Ho Es|sh' sep' e' L H1 H2|N|Hd]; try discriminate.
  - injection E as E _ _. destruct o; discriminate.
  - injection E as E _ _. destruct o; discriminate.
  - injection E as -> -> ->. destruct He as [He|He]; [|left; apply H2, He]. destruct (H1 He) as [-> |Q]; [left; exists ""; reflexivity|right; exact Q].
Qed.
Lemma never_nothing s l : command_line (s :: l) <> CNothing.
Proof.
  unfold command_line. destruct (classify (s :: l)) as [cl|]; [|discriminate].
  assert (X : forall m cl, (List.length cl <= m)%nat -> forall ex n, consume cl ex n <> CNothing).
  { induction m as [|m IH]; intros k Hk ex n.
    - destruct k; [cbn; destruct ex; discriminate|cbn in Hk; lia].
    - destruct k as [|[[w kd] b] k]; [cbn; destruct ex; discriminate|]. cbn [List.length] in Hk. destruct kd as [|a sh sep e]; cbn [consume]; [apply IH; lia|].
      destruct a as [[]|]; [|..|apply IH; lia].
      + destruct e as [e|]; [|discriminate]. destruct (sh && help_text sep e); discriminate.
      + destruct e; [apply IH; lia|]. destruct k as [|[[v []] []] k]; try discriminate. apply IH. cbn [List.length] in Hk. lia.
      + destruct e; [apply IH; lia|]. destruct k as [|[[v []] []] k]; try discriminate. apply IH. cbn [List.length] in Hk. lia. }
  apply (X _ cl (Nat.le_refl _)).
Qed.
Lemma accepted_line argv r : argv <> [] -> line argv r -> command_line argv = CMain (last_value Params r) (last_value Data r).
Proof. intros Hne Hr. apply accepted_iff. split; [exact Hne|]. exists r. split; [exact Hr|]. split; reflexivity. Qed.
(** -h with text in the same word *)
Lemma partition_single t : forall c, c <> dash -> forall p x, partition (String dash (String c t)) = (p, Some x) -> c <> equals -> t <> "=" ++ x -> 
  (exists a p', p = String dash (String c (String a p'))).
Proof.
  intros c _ p x. cbn. intros E N1 N2. destruct (Ascii.eqb_spec c equals); [contradiction|].
  destruct t as [|a t]; [discriminate|]. cbn in E. destruct (Ascii.eqb_spec a equals) as [->|]; [injection E as _ ->; exfalso; apply N2; reflexivity|].
  destruct (partition t) as [p' e']. injection E as <- ->. exists a, p'. reflexivity.
Qed.
Lemma lookup_long c p : lookup (String dash (String "h" (String c p))) options = None.
Proof. reflexivity. Qed.
Lemma parse_help_text e : e <> "" ->
  parse_optional ("-h" ++ e) = Some (match e with String c x => if Ascii.eqb c equals then KOpt (Some AHelp) true true (Some x) else KOpt (Some AHelp) true false (Some e) | _ => KArg end).
Proof.
  intros He. destruct e as [|c x]; [congruence|]. cbn [append]. cbn [parse_optional].
  change (Ascii.eqb "-" dash) with true. cbn [negb]. change (String "-"%char (String "h" (String c x))) with (String dash (String "h" (String c x))).
  rewrite lookup_long. change (String.eqb (String "h" (String c x)) "") with false. cbv iota.
  destruct (Ascii.eqb_spec c equals) as [->|N]; [reflexivity|].
  destruct (partition (String dash (String "h" (String c x)))) as [p [y|]] eqn:P.
  - destruct (partition_single (String c x) "h"%char ltac:(discriminate) p y P ltac:(discriminate)) as (a & p' & ->); [intros Q; injection Q as Q _; exact (N Q)|].
    rewrite lookup_long. reflexivity.
  - reflexivity.
Qed.
Definition stops (c : ascii) : Prop := c = dash \/ c = equals.
Lemma help_text_hs n : forall t, (match t with EmptyString => (1 <= n)%nat | String c _ => c <> "h"%char /\ ~ stops c end) -> help_text false (hs n ++ t) = true.
Proof.
  induction n as [|n IH]; intros t Ht.
  - destruct t as [|c t]; [lia|]. destruct Ht as [H1 H2]. cbn. destruct (Ascii.eqb_spec c dash); [exfalso; apply H2; left; assumption|].
    destruct (Ascii.eqb_spec c "h"); [contradiction|]. reflexivity.
  - cbn [hs append help_text]. change (false || Ascii.eqb "h" dash) with false. change (Ascii.eqb "h" "h") with true. cbv iota.
    destruct (hs n ++ t) as [|c2 e2] eqn:E; [reflexivity|].
    destruct (Ascii.eqb_spec c2 equals) as [->|].
    + exfalso. destruct n as [|n]; cbn in E; [destruct t as [|c t]; [discriminate|injection E as -> _; apply (proj2 Ht); right; reflexivity]|discriminate].
    + rewrite <- E. apply IH. destruct t; [|exact Ht]. destruct n; [cbn in E; discriminate|lia].
Qed.
Lemma help_text_sep e : help_text true e = false.
Proof. destruct e; reflexivity. Qed.
Lemma help_text_stop n : forall c t, stops c -> (c = equals -> (1 <= n)%nat) -> help_text false (hs n ++ String c t) = false.
Proof.
  induction n as [|n IH]; intros c t Hc He.
  - cbn. destruct Hc as [->|Hc]; [reflexivity|specialize (He Hc); lia].
  - cbn [hs append help_text]. change (false || Ascii.eqb "h" dash) with false. change (Ascii.eqb "h" "h") with true. cbv iota.
    destruct n as [|n].
    + cbn [hs append]. destruct (Ascii.eqb_spec c equals) as [->|N]; [apply help_text_sep|]. apply (IH c t Hc). intros; contradiction.
    + assert (G := IH c t Hc ltac:(lia)). cbn [hs append] in G |- *. change (Ascii.eqb "h" equals) with false. cbv iota. exact G.
Qed.
Lemma help_word_line l r n t rest : line l r -> (forall w x, In w rest -> w <> "--=" ++ x) ->
  match t with EmptyString => True | String c _ => c <> "h"%char end ->
  (match t with EmptyString => True | String c _ => ~ stops c end -> command_line (l ++ ("-h" ++ hs n ++ t)%string :: rest)%list = CHelp) /\
  (match t with EmptyString => False | String c _ => stops c end -> command_line (l ++ ("-h" ++ hs n ++ t)%string :: rest)%list = CError).
Proof.
  intros Hl Hr Ht. destruct (classify_some rest Hr) as (cl & Hc).
  assert (X : forall k, parse_optional ("-h" ++ hs n ++ t) = Some k -> command_line (l ++ ("-h" ++ hs n ++ t)%string :: rest)%list = consume (("-h" ++ hs n ++ t, k, true) :: cl) false (ns_after r (mkNs None None))).
  { intros k P. assert (Hc' : classify (("-h" ++ hs n ++ t) :: rest) = Some (("-h" ++ hs n ++ t, k, true) :: cl)).
    { cbn [classify]. change (String.eqb ("-h" ++ hs n ++ t) "--") with false. cbv iota. rewrite P, Hc. reflexivity. }
    destruct (classify_line l r Hl _ _ Hc') as (q & Eq & Hq). unfold command_line.
    destruct (l ++ ("-h" ++ hs n ++ t)%string :: rest)%list eqn:E; [destruct l; discriminate|]. rewrite Eq, Hq. reflexivity. }
  destruct (hs n ++ t) as [|c e] eqn:E.
  - assert (T0 : t = "" /\ n = 0%nat) by (destruct n; [cbn in E; auto|discriminate]). destruct T0 as [-> ->].
    split; [|contradiction]. intros _. apply (help_line l r "-h" rest Hl (or_introl eq_refl) Hr).
  - assert (He : String c e <> "") by discriminate. pose proof (X _ (parse_help_text _ He)) as Y. cbv iota in Y.
    split; intros Hs; rewrite Y.
    + assert (Nc : c <> equals).
      { intros ->. destruct n as [|n]; [|discriminate E]. cbn in E. subst t. apply Hs. right. reflexivity. }
      destruct (Ascii.eqb_spec c equals); [contradiction|]. cbn [consume]. rewrite <- E, help_text_hs; [reflexivity|].
      destruct t as [|c' t']; [destruct n; [discriminate|lia]|]. split; assumption.
    + destruct t as [|c' t']; [contradiction|]. destruct (Ascii.eqb_spec c equals) as [->|N].
      * cbn [consume]. rewrite help_text_sep. reflexivity.
      * cbn [consume]. rewrite <- E, help_text_stop; [reflexivity|exact Hs|]. intros ->. destruct n; [cbn in E; injection E as E _; congruence|lia].
Qed.
