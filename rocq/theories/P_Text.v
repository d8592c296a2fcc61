(** * Text operations *)
From Coq Require Import List String Ascii Arith Bool Lia.
From Verif Require Import Num M_Sim M_Sim1 M_SimN Spec_Text.
Import ListNotations.
Local Open Scope string_scope.

Lemma is_space_white c : is_space c = true <-> white c.
Proof.
  unfold is_space, white. cbv zeta. rewrite orb_true_iff, !andb_true_iff, !Nat.leb_le. reflexivity.
Qed.
Lemma space_no c : ~ white c -> is_space c = false.
Proof. intros H. destruct (is_space c) eqn:E; [exfalso; apply H, is_space_white, E|reflexivity]. Qed.
Lemma sapp_assoc (a b c : string) : (a ++ b) ++ c = a ++ b ++ c.
Proof. induction a as [|x a IH]; cbn; [reflexivity|]. rewrite IH. reflexivity. Qed.
Lemma all_white_cons c s : all_white (String c s) -> white c /\ all_white s.
Proof. intros H. split; [exact (H "" c s eq_refl)|]. intros a c' b ->. exact (H (String c a) c' b eq_refl). Qed.
Lemma lstrip_white a s : all_white a -> lstrip (a ++ s) = lstrip s.
Proof.
  induction a as [|c a IH]; intros H; [reflexivity|]. apply all_white_cons in H. destruct H as [H1 H2].
  cbn. apply is_space_white in H1. rewrite H1. exact (IH H2).
Qed.
Lemma rstrip_white s : all_white s -> rstrip s = "".
Proof.
  induction s as [|c s IH]; intros H; [reflexivity|]. apply all_white_cons in H. destruct H as [H1 H2].
  cbn. rewrite (IH H2). apply is_space_white in H1. rewrite H1. reflexivity.
Qed.
Lemma rstrip_app s t : rstrip (s ++ t) = match rstrip t with EmptyString => rstrip s | r => s ++ r end.
Proof.
  induction s as [|c s IH]; cbn [append rstrip]; [destruct (rstrip t); reflexivity|].
  rewrite IH. destruct (rstrip t) as [|x r]; [reflexivity|]. destruct s; reflexivity.
Qed.
Lemma trimmed_tail c s : s <> "" -> (forall a x, String c s = a ++ String x "" -> ~ white x) -> forall a x, s = a ++ String x "" -> ~ white x.
Proof. intros _ H a x ->. exact (H (String c a) x eq_refl). Qed.
Lemma rstrip_same s : (forall a c, s = a ++ String c "" -> ~ white c) -> rstrip s = s.
Proof.
  induction s as [|c s IH]; intros H; [reflexivity|]. cbn. destruct s as [|c' s].
  - cbn. rewrite (space_no c); [reflexivity|]. exact (H "" c eq_refl).
  - rewrite IH; [reflexivity|]. intros a x E. exact (H (String c a) x (f_equal (String c) E)).
Qed.
Lemma strip_trims a s b : all_white a -> all_white b -> trimmed s -> strip (a ++ s ++ b) = s.
Proof.
  intros Ha Hb [H1 H2]. unfold strip. rewrite (lstrip_white a _ Ha).
  destruct s as [|c s].
  - cbn [append]. replace b with (b ++ "") by (clear; induction b as [|x b IH]; cbn; [|rewrite IH]; reflexivity).
    rewrite (lstrip_white b "" Hb). reflexivity.
  - cbn [append lstrip]. rewrite (space_no c (H1 c s eq_refl)).
    change (String c (s ++ b)) with (String c s ++ b). rewrite rstrip_app, (rstrip_white b Hb). exact (rstrip_same _ H2).
Qed.
Lemma underscores_spec s t : underscored s t -> underscores s = t.
Proof.
  revert t. induction s as [|c s IH]; intros [|c' t] [HL H]; cbn in HL; try discriminate; [reflexivity|].
  pose proof (H 0%nat c eq_refl) as H0. cbn in H0. injection H0 as ->. cbn. f_equal.
  - destruct (ascii_dec c " ") as [->|Hn]; [reflexivity|]. apply Ascii.eqb_neq in Hn. rewrite Hn. reflexivity.
  - apply IH. split; [lia|]. intros i x Hx. exact (H (S i) x Hx).
Qed.
Lemma underscores_is s : underscored s (underscores s).
Proof.
  induction s as [|c s [IH1 IH2]]; [split; [reflexivity|intros [|i] x Hx; discriminate Hx]|]. split; [cbn; lia|].
  intros [|i] x Hx; cbn in Hx |- *; [|exact (IH2 i x Hx)]. injection Hx as ->.
  destruct (ascii_dec x " ") as [->|Hn]; [reflexivity|]. apply Ascii.eqb_neq in Hn. rewrite Hn. reflexivity.
Qed.
Lemma prefix_app k s : String.prefix k s = true <-> exists b, s = k ++ b.
Proof.
  revert s. induction k as [|c k IH]; intros s.
  - split; [intros _; exists s; reflexivity|]. intros _. destruct s; reflexivity.
  - destruct s as [|c' s]; cbn.
    + split; [discriminate|]. intros (b & H). discriminate.
    + destruct (ascii_dec c c') as [->|Hn].
      * rewrite IH. split; intros (b & H); exists b; congruence.
      * split; [discriminate|]. intros (b & H). congruence.
Qed.
Lemma substring_part k s : substring_of k s = true <-> part_of k s.
Proof.
  unfold part_of. induction s as [|c s IH]; cbn [substring_of]; rewrite orb_true_iff, prefix_app.
  - split.
    + intros [(b & H)|H]; [exists "", b; exact H|discriminate].
    + intros (a & b & H). left. destruct a; [exists b; exact H|discriminate].
  - rewrite IH. split.
    + intros [(b & H)|(a & b & ->)]; [exists "", b; exact H|exists (String c a), b; reflexivity].
    + intros (a & b & H). destruct a as [|c' a]; [left; exists b; exact H|]. right. exists a, b. injection H as _ H. exact H.
Qed.
Lemma nsubstring_part k s : nsubstring_of k s = true <-> part_of k s.
Proof.
  rewrite <- substring_part. assert (E : nsubstring_of k s = substring_of k s); [|rewrite E; reflexivity].
  induction s as [|c s IH]; cbn; [reflexivity|]. rewrite IH. reflexivity.
Qed.
