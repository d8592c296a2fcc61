(** * str.format *)
From Coq Require Import ZArith List Bool String Ascii Arith Lia.
From Verif Require Import Num M_Moments Spec_Format.
Import ListNotations.
Local Open Scope string_scope.

Lemma digit_some c : digit_char c -> digit c = Some (nat_of_ascii c - 48)%nat.
Proof. intros [H1 H2]. unfold digit. apply Nat.leb_le in H1, H2. rewrite H1, H2. reflexivity. Qed.
Lemma index_decimal s : forall acc, all_chars digit_char s -> field_index s acc = Some (decimal_from acc s).
Proof.
  induction s as [|c s IH]; intros acc H; [reflexivity|]. destruct H as [Hc Hs]. cbn [field_index]. rewrite (digit_some c Hc), (IH _ Hs).
  cbn [decimal_from]. do 2 f_equal. lia.
Qed.
Lemma index_letters s : s <> "" -> all_chars letter_char s -> field_index s 0 = None.
Proof.
  destruct s as [|c s]; [congruence|]. intros _ [Hc _]. cbn [field_index]. unfold digit.
  replace ((48 <=? nat_of_ascii c)%nat && (nat_of_ascii c <=? 57)%nat) with false; [reflexivity|].
  symmetry. apply andb_false_iff. right. apply Nat.leb_gt. destruct Hc; lia.
Qed.
Definition no_brace (c : ascii) : Prop := c <> obrace /\ c <> cbrace.
Lemma digit_no_brace c : digit_char c -> no_brace c.
Proof. intros [H1 H2]. split; intros ->; cbn in *; lia. Qed.
Lemma letter_no_brace c : letter_char c -> no_brace c.
Proof. intros H. split; intros ->; destruct H as [H|H]; cbn in *; lia. Qed.
Lemma all_chars_mono (f g : ascii -> Prop) s : (forall c, f c -> g c) -> all_chars f s -> all_chars g s.
Proof. intros H. induction s as [|c s IH]; [auto|]. intros [H1 H2]. split; auto. Qed.
Lemma field_of s rest : all_chars no_brace s -> fmt_field (s ++ String "}" rest) 0 = Some (s, rest).
Proof.
  induction s as [|c s IH]; intros H; [reflexivity|]. destruct H as [[H1 H2] Hs]. cbn [append fmt_field].
  destruct (Ascii.eqb_spec c cbrace); [contradiction|]. destruct (Ascii.eqb_spec c obrace); [contradiction|].
  cbv zeta. rewrite (IH Hs). reflexivity.
Qed.
Lemma length_app_s a b : String.length (a ++ b) = (String.length a + String.length b)%nat.
Proof. induction a as [|c a IH]; [reflexivity|]. cbn. rewrite IH. reflexivity. Qed.
Lemma app_assoc_f a b c : (a ++ b) ++ c = a ++ (b ++ c).
Proof. induction a as [|x a IH]; cbn; [reflexivity|rewrite IH; reflexivity]. Qed.
Lemma py_place fuel s rest args : s <> "" -> all_chars no_brace s ->
  py_format (S fuel) ("{" ++ s ++ "}" ++ rest) args =
  match field_index s 0 with
  | None => Err KeyError
  | Some k => match nth_error args k with None => Err IndexError | Some a => let* r := py_format fuel rest args in Ok (a ++ r) end
  end.
Proof.
  intros Hs Hb. pose proof (field_of s rest Hb) as F. cbn [append]. cbn [append] in F.
  destruct s as [|c s]; [congruence|]. destruct Hb as [[H1 _] _]. cbn [append] in F |- *. cbn [py_format].
  change (Ascii.eqb "{" obrace) with true. cbv iota. destruct (Ascii.eqb_spec c obrace); [contradiction|]. rewrite F. reflexivity.
Qed.
Lemma format_filled l args : Forall well_formed l -> forall fuel, (String.length (template l) < fuel)%nat ->
  py_format fuel (template l) args = filled l args.
Proof.
  induction 1 as [|p l Hp Hl IH]; intros fuel Hf.
  - destruct fuel; [cbn in Hf; lia|reflexivity].
  - destruct fuel as [|fuel]; [lia|]. cbn [template] in *. rewrite length_app_s in Hf. destruct p as [c|ds|s]; cbn [written filled] in *.
    + destruct (Ascii.eqb_spec c "{") as [->|N1]; [|destruct (Ascii.eqb_spec c "}") as [->|N2]].
      * cbn [orb String.length] in Hf. cbn [orb append py_format]. change (Ascii.eqb "{" obrace) with true. cbv iota.
        rewrite IH by lia. destruct (filled l args); reflexivity.
      * cbn [orb String.length] in Hf. cbn [orb append py_format]. change (Ascii.eqb "}" obrace) with false. change (Ascii.eqb "}" cbrace) with true. cbv iota.
        rewrite IH by lia. destruct (filled l args); reflexivity.
      * cbn [orb String.length] in Hf. cbn [append orb py_format]. destruct (Ascii.eqb_spec c obrace); [contradiction|]. destruct (Ascii.eqb_spec c cbrace); [contradiction|].
        rewrite IH by lia. destruct (filled l args); reflexivity.
    + destruct Hp as [Hn Hd]. rewrite !app_assoc_f. rewrite py_place; [|exact Hn|apply (all_chars_mono _ _ ds digit_no_brace Hd)].
      rewrite (index_decimal ds 0 Hd). destruct (nth_error args (decimal_from 0 ds)); [|reflexivity].
      rewrite length_app_s in Hf. cbn [String.length] in Hf. rewrite IH by lia. destruct (filled l args); reflexivity.
    + destruct Hp as [Hn Hd]. rewrite !app_assoc_f. rewrite py_place; [|exact Hn|apply (all_chars_mono _ _ s letter_no_brace Hd)].
      rewrite (index_letters s Hn Hd). reflexivity.
Qed.
Lemma str_format_filled l args : Forall well_formed l -> str_format (template l) args = filled l args.
Proof. intros H. apply format_filled; [exact H|]. lia. Qed.
Lemma no_field s : all_chars (fun c => c <> "}"%char) s -> forall k, fmt_field s k = None.
Proof.
  induction s as [|c s IH]; intros H k; [reflexivity|]. destruct H as [Hc Hs]. cbn [fmt_field]. destruct (Ascii.eqb_spec c cbrace); [contradiction|].
  cbv zeta. rewrite (IH Hs). reflexivity.
Qed.
Lemma stray_fails s args fuel : stray s -> py_format (S fuel) s args = Err ValueError.
Proof.
  intros [(s' & -> & H)|(s' & -> & H & Ha)]; cbn [append py_format].
  - change (Ascii.eqb "}" obrace) with false. change (Ascii.eqb "}" cbrace) with true. cbv iota. destruct s' as [|c s']; [reflexivity|].
    destruct (Ascii.eqb_spec c cbrace) as [->|]; [|reflexivity]. exfalso. apply H. exists s'. reflexivity.
  - change (Ascii.eqb "{" obrace) with true. cbv iota. destruct s' as [|c s']; [reflexivity|].
    destruct (Ascii.eqb_spec c obrace) as [->|]; [exfalso; apply H; exists s'; reflexivity|]. rewrite (no_field _ Ha). reflexivity.
Qed.
Lemma format_stray l t args : Forall well_formed l -> stray t -> forall fuel, (String.length (template l ++ t) < fuel)%nat ->
  py_format fuel (template l ++ t) args = match filled l args with Ok _ => Err ValueError | Err e => Err e end.
Proof.
  intros Hl Ht. induction Hl as [|p l Hp Hl IH]; intros fuel Hf.
  - destruct fuel; [cbn in Hf; lia|]. cbn [template append filled]. apply stray_fails. exact Ht.
  - destruct fuel as [|fuel]; [lia|]. cbn [template] in *. rewrite app_assoc_f in *. rewrite length_app_s in Hf. destruct p as [c|ds|s]; cbn [written filled] in *.
    + destruct (Ascii.eqb_spec c "{") as [->|N1]; [|destruct (Ascii.eqb_spec c "}") as [->|N2]].
      * cbn [orb String.length] in Hf. cbn [orb append py_format]. change (Ascii.eqb "{" obrace) with true. cbv iota.
        rewrite IH by lia. destruct (filled l args); reflexivity.
      * cbn [orb String.length] in Hf. cbn [orb append py_format]. change (Ascii.eqb "}" obrace) with false. change (Ascii.eqb "}" cbrace) with true. cbv iota.
        rewrite IH by lia. destruct (filled l args); reflexivity.
      * cbn [orb String.length] in Hf. cbn [append orb py_format]. destruct (Ascii.eqb_spec c obrace); [contradiction|]. destruct (Ascii.eqb_spec c cbrace); [contradiction|].
        rewrite IH by lia. destruct (filled l args); reflexivity.
    + destruct Hp as [Hn Hd]. rewrite !app_assoc_f. rewrite py_place; [|exact Hn|apply (all_chars_mono _ _ ds digit_no_brace Hd)].
      rewrite (index_decimal ds 0 Hd). destruct (nth_error args (decimal_from 0 ds)); [|reflexivity].
      rewrite length_app_s in Hf. cbn [String.length] in Hf. rewrite IH by lia. destruct (filled l args); reflexivity.
    + destruct Hp as [Hn Hd]. rewrite !app_assoc_f. rewrite py_place; [|exact Hn|apply (all_chars_mono _ _ s letter_no_brace Hd)].
      rewrite (index_letters s Hn Hd). reflexivity.
Qed.
Lemma str_format_stray l t args : Forall well_formed l -> stray t ->
  str_format (template l ++ t) args = match filled l args with Ok _ => Err ValueError | Err e => Err e end.
Proof. intros H Ht. apply format_stray; [exact H|exact Ht|]. lia. Qed.
