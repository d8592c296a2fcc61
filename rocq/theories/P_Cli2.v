(** * Which command lines show the help *)
From Coq Require Import ZArith List Bool Arith String Ascii Lia.
From Verif Require Import Num M_Sim M_Cli Spec_Cli P_Cli.
Import ListNotations.
Local Open Scope string_scope.

Lemma left_kind w : ~ looks_option w -> w <> "--" /\ (parse_optional w = Some KArg \/ parse_optional w = Some (KOpt None false false None)).
Proof.
  intros NL. assert (D : looks_option "--").
  { right. exists "--", "", "--help". split; [left; reflexivity|]. split; [cbn; lia|]. split; [exists "help"; reflexivity|]. split; [reflexivity|left; reflexivity]. }
  split; [intros ->; exact (NL D)|]. pose proof (word_parse w) as Wd. destruct Wd as [Hp|o Ho|o n v Ho Es|sh sep e L _ _|N _|Hd]; [left; reflexivity| | | |right; reflexivity|]; exfalso; apply NL.
  - rewrite <- (app_empty w). apply (abbrev_looks w o None Ho).
  - rewrite Es. apply (abbrev_looks n o (Some v) Ho).
  - exact L.
  - destruct Hd as [-> |(x & ->)]; [exact D|]. right. exists "--", ("=" ++ x), "--help". split; [left; reflexivity|]. split; [cbn; lia|]. split; [exists "help"; reflexivity|]. split; [reflexivity|right; exists x; reflexivity].
Qed.
Lemma classify_clear l : clear l -> exists cl, classify l = Some cl.
Proof.
  induction l as [|s l IH]; intros H; [eexists; reflexivity|]. cbn [classify]. destruct (String.eqb_spec s "--") as [|N]; [eexists; reflexivity|].
  destruct H as [H|[H1 H2]]; [contradiction|]. destruct (IH H2) as (cl & ->). pose proof (word_parse s) as Wd.
  destruct (parse_optional s); [eexists; reflexivity|]. exfalso. inversion Wd as [| | | | |[Q|(x & Q)]]; [contradiction|]. exact (H1 x Q).
Qed.
Lemma parse_ambiguous x : parse_optional ("--=" ++ x) = None.
Proof. reflexivity. Qed.
Lemma clear_classify l cl : classify l = Some cl -> clear l.
Proof.
  revert cl. induction l as [|s l IH]; intros cl H; [exact I|]. cbn [classify clear] in *. destruct (String.eqb_spec s "--") as [|N]; [left; assumption|]. right.
  split; [intros x ->; rewrite parse_ambiguous in H; discriminate|]. destruct (parse_optional s); [|discriminate]. destruct (classify l) as [t|] eqn:E; [|discriminate]. exact (IH t eq_refl).
Qed.
Lemma classify_begins l : begins l -> forall rest cl, classify rest = Some cl ->
  exists k, classify (l ++ rest)%list = Some k /\ forall ex n, exists ex' n', consume k ex n = consume cl ex' n'.
Proof.
  intros H. induction H as [|o n v l Hn Hv Hl IH|o n v l Hn Hl IH|w l Hw Hl IH]; intros rest cl Hc.
  - exists cl. split; [exact Hc|]. intros ex n. exists ex, n. reflexivity.
  - destruct (IH rest cl Hc) as (k & Ek & Hk). destruct (parse_abbrev n o Hn) as [P1 P2].
    exists ((n, KOpt (Some (act_of o)) false false None, true) :: (v, KArg, true) :: k). split.
    + cbn [app classify]. destruct (String.eqb_spec n "--"); [contradiction|]. rewrite P1.
      destruct (String.eqb_spec v "--") as [E|]; [destruct (plain_not_dashes v Hv E)|]. rewrite (parse_plain v Hv), Ek. reflexivity.
    + intros ex n0. destruct (Hk ex (store (act_of o) v n0)) as (ex' & n' & E). exists ex', n'. rewrite <- E. destruct o; reflexivity.
  - destruct (IH rest cl Hc) as (k & Ek & Hk). destruct (parse_eq n o v Hn) as [P1 P2].
    exists (((n ++ "=" ++ v), KOpt (Some (act_of o)) false true (Some v), true) :: k). split.
    + cbn [app classify]. destruct (String.eqb_spec (n ++ "=" ++ v) "--"); [contradiction|]. rewrite P1, Ek. reflexivity.
    + intros ex n0. destruct (Hk ex (store (act_of o) v n0)) as (ex' & n' & E). exists ex', n'. rewrite <- E. destruct o; reflexivity.
  - destruct (IH rest cl Hc) as (k & Ek & Hk). destruct (left_kind w Hw) as [N [P|P]]; eexists; (split; [cbn [app classify]; destruct (String.eqb_spec w "--"); [contradiction|]; rewrite P, Ek; reflexivity|]);
      intros ex n0; destruct (Hk true n0) as (ex' & n' & E); exists ex', n'; rewrite <- E; reflexivity.
Qed.
Lemma asks_kind w : asks_help w -> w <> "--" /\ exists k, parse_optional w = Some k /\ forall cl ex n, consume ((w, k, true) :: cl) ex n = CHelp.
Proof.
  intros [H|(n & t & -> & Ht)].
  - destruct (parse_help w (or_intror H)) as (N & sh & P). split; [exact N|]. eexists. split; [exact P|]. reflexivity.
  - split; [discriminate|]. destruct (hs n ++ t) as [|c e] eqn:E; [eexists; split; [reflexivity|reflexivity]|].
    eexists. split; [apply parse_help_text; discriminate|]. cbv iota.
    assert (Nc : c <> equals). { intros ->. destruct n as [|n]; [|discriminate E]. cbn in E. subst t. apply (proj2 (proj2 (Ht e))). reflexivity. }
    destruct (Ascii.eqb_spec c equals); [contradiction|]. intros cl ex n1. cbn [consume]. rewrite <- E, help_text_hs; [reflexivity|].
    destruct t as [|c' t']; [destruct n; [discriminate|lia]|]. destruct (Ht t') as (A & B & D). split; [intros ->; apply A; reflexivity|]. intros [-> | ->]; [apply B|apply D]; reflexivity.
Qed.
Lemma helps_shown argv : helps argv -> command_line argv = CHelp.
Proof.
  intros (l & w & rest & -> & Hl & Hw & Hr). destruct (classify_clear rest Hr) as (cl & Hc). destruct (asks_kind w Hw) as (N & k & P & Hk).
  assert (Hc' : classify (w :: rest) = Some ((w, k, true) :: cl)). { cbn [classify]. destruct (String.eqb_spec w "--"); [contradiction|]. rewrite P, Hc. reflexivity. }
  destruct (classify_begins l Hl _ _ Hc') as (q & Eq & Hq). unfold command_line. destruct (l ++ w :: rest)%list eqn:E; [destruct l; discriminate|]. rewrite Eq.
  destruct (Hq false (mkNs None None)) as (ex' & n' & ->). apply Hk.
Qed.

Lemma consume_left l : forall n, consume (map (fun x => (x, KArg, true)) l) true n = CError.
Proof. induction l as [|a l IH]; intros n; [reflexivity|apply IH]. Qed.
Lemma help_text_form e : help_text false e = true -> exists n t, e = hs n ++ t /\ (forall t', t <> "h" ++ t' /\ t <> "-" ++ t' /\ t <> "=" ++ t') \/ exists x, e = "=" ++ x.
Proof.
  assert (X : forall m e, (String.length e <= m)%nat -> help_text false e = true -> exists n t, e = hs n ++ t /\ (forall t', t <> "h" ++ t' /\ t <> "-" ++ t' /\ t <> "=" ++ t') \/ exists x, e = "=" ++ x).
  { induction m as [|m IH]; intros e0 L H; [destruct e0; [discriminate|cbn in L; lia]|]. destruct e0 as [|c e1]; [discriminate|]. cbn [String.length] in L. cbn [help_text] in H. change (false || Ascii.eqb c dash) with (Ascii.eqb c dash) in H.
    destruct (Ascii.eqb_spec c dash) as [|N1]; [discriminate|]. destruct (Ascii.eqb_spec c "h") as [->|N2].
    - destruct e1 as [|c2 e2]; [exists 1%nat, ""; left; split; [reflexivity|]; intros t'; repeat split; discriminate|].
      destruct (Ascii.eqb_spec c2 equals) as [->|N3]; [rewrite help_text_sep in H; discriminate|].
      destruct (IH (String c2 e2) ltac:(lia) H) as (n & t & [[E Ht]|(x & E)]); [|injection E as E _; unfold equals in N3; congruence]. exists (Datatypes.S n), t. left. split; [rewrite E; reflexivity|exact Ht].
    - destruct (ascii_dec c equals) as [->|N3]; [exists 0%nat, ""; right; exists e1; reflexivity|].
      exists 0%nat, (String c e1). left. split; [reflexivity|]. intros t'. split; [|split]; intros E; injection E as E _; unfold dash, equals in *; congruence. }
  exact (X _ e (Nat.le_refl _)).
Qed.
Lemma shown_helps_ind m : forall l, (List.length l <= m)%nat -> forall cl ex n, classify l = Some cl -> consume cl ex n = CHelp -> helps l.
Proof.
  induction m as [|m IH]; intros l Hm cl ex n Hc Hd.
  - destruct l; [|cbn in Hm; lia]. injection Hc as <-. cbn in Hd. destruct ex; discriminate.
  - destruct l as [|s l]; [injection Hc as <-; cbn in Hd; destruct ex; discriminate|]. cbn [List.length] in Hm. cbn [classify] in Hc.
    destruct (String.eqb_spec s "--") as [->|N]; [injection Hc as <-; cbn [consume] in Hd; rewrite consume_left in Hd; discriminate|].
    pose proof (word_parse s) as Wd. destruct (parse_optional s) as [k|] eqn:P; [|discriminate]. destruct (classify l) as [t|] eqn:Ht; [|discriminate]. injection Hc as <-.
    assert (Left : forall ex n, ~ looks_option s -> consume t ex n = CHelp -> helps (s :: l)).
    { intros ex' n' NL H. destruct (IH l ltac:(lia) t ex' n' Ht H) as (a & w & b & -> & B1 & B2 & B3). exists (s :: a)%list, w, b. split; [reflexivity|]. split; [constructor; assumption|]. split; assumption. }
    remember (Some k) as kk eqn:Ek. destruct Wd as [Hp|o Ho|o nm v Ho Es|sh sep e L H1 H2|NP NL|Hd']; [| | | | |discriminate]; injection Ek as <-.
    + apply (Left true n); [|exact Hd]. intros LO. exact (looks_not_plain s LO Hp).
    + destruct l as [|v l]; [injection Ht as <-; destruct o; discriminate|]. cbn [List.length] in Hm. cbn [classify] in Ht.
      destruct (String.eqb_spec v "--") as [->|Nv]; [injection Ht as <-; destruct o; discriminate|].
      pose proof (word_parse v) as Wv. destruct (parse_optional v) as [kv|]; [|discriminate]. destruct (classify l) as [t'|] eqn:Ht'; [|discriminate]. injection Ht as <-.
      destruct kv as [|a' sh' sep' e']; [|destruct o; discriminate]. apply word_arg in Wv.
      assert (H' : consume t' ex (store (act_of o) v n) = CHelp) by (destruct o; exact Hd).
      destruct (IH l ltac:(lia) t' _ _ Ht' H') as (a & w & b & -> & B1 & B2 & B3). exists (s :: v :: a)%list, w, b. split; [reflexivity|]. split; [apply (begins_two o); assumption|]. split; assumption.
    + assert (H' : consume t ex (store (act_of o) v n) = CHelp) by (destruct o; exact Hd).
      destruct (IH l ltac:(lia) t _ _ Ht H') as (a & w & b & -> & B1 & B2 & B3). exists (s :: a)%list, w, b. split; [reflexivity|]. split; [rewrite Es; apply (begins_eq o); assumption|]. split; assumption.
    + exists [], s, l. split; [reflexivity|]. split; [constructor|]. split; [|exact (clear_classify l t Ht)]. cbn [consume] in Hd.
      destruct e as [e|]; [|destruct (H1 eq_refl) as [-> |A]; [right; exists 0%nat, ""; split; [reflexivity|]; intros t'; repeat split; discriminate|left; exact A]].
      destruct sh; [|discriminate]. cbn [andb] in Hd. destruct (help_text sep e) eqn:Q; [|discriminate]. destruct (H2 eq_refl) as (r & ->).
      destruct r as [|c x]; [discriminate P|]. rewrite parse_help_text in P by discriminate. cbv iota in P.
      destruct (Ascii.eqb_spec c equals) as [->|Nc]; injection P as <- <-; [rewrite help_text_sep in Q; discriminate|].
      destruct (help_text_form _ Q) as (n1 & t1 & [[E Ht1]|(y & E)]); [|injection E as E _; unfold equals in Nc; congruence].
      right. exists n1, t1. split; [rewrite E; reflexivity|exact Ht1].
    + exact (Left true n NL Hd).
Qed.
Lemma helps_iff argv : command_line argv = CHelp <-> helps argv.
Proof.
  split; [|apply helps_shown]. unfold command_line. destruct argv as [|s l]; [discriminate|]. destruct (classify (s :: l)) as [cl|] eqn:Hc; [|discriminate].
  exact (shown_helps_ind _ (s :: l) (Nat.le_refl _) cl false _ Hc).
Qed.
