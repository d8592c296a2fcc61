(** * Format strings: texts with numbered or named places.  Independent of the model. *)
From Coq Require Import List String Ascii Arith.
From Verif Require Import Num.
Import ListNotations.
Local Open Scope string_scope.

Definition digit_char (c : ascii) : Prop := (48 <= nat_of_ascii c <= 57)%nat.
Definition letter_char (c : ascii) : Prop := (65 <= nat_of_ascii c <= 90)%nat \/ (97 <= nat_of_ascii c <= 122)%nat.
Fixpoint all_chars (f : ascii -> Prop) (s : string) : Prop :=
  match s with EmptyString => True | String c s' => f c /\ all_chars f s' end.
(** a character of the text, a numbered place, a named place *)
Inductive piece := Char (c : ascii) | Place (digits : string) | Named (name : string).
Definition well_formed (p : piece) : Prop :=
  match p with
  | Char _ => True
  | Place ds => ds <> "" /\ all_chars digit_char ds
  | Named s => s <> "" /\ all_chars letter_char s
  end.
(** how it is written; braces of the text are doubled *)
Definition written (p : piece) : string :=
  match p with
  | Char c => if orb (Ascii.eqb c "{") (Ascii.eqb c "}") then String c (String c "") else String c ""
  | Place ds => "{" ++ ds ++ "}"
  | Named s => "{" ++ s ++ "}"
  end.
Fixpoint template (l : list piece) : string := match l with [] => "" | p :: l' => written p ++ template l' end.
(** the decimal number *)
Fixpoint decimal_from (acc : nat) (s : string) : nat :=
  match s with EmptyString => acc | String c s' => decimal_from (10 * acc + (nat_of_ascii c - 48)) s' end.
(** the text with the arguments in their places: IndexError for the first place without an argument,
    KeyError for the first named place, whichever comes first *)
Fixpoint filled (l : list piece) (args : list string) : result string :=
  match l with
  | [] => Ok ""
  | Char c :: l' => match filled l' args with Ok r => Ok (String c r) | Err e => Err e end
  | Place ds :: l' =>
      match nth_error args (decimal_from 0 ds) with
      | None => Err IndexError
      | Some a => match filled l' args with Ok r => Ok (a ++ r) | Err e => Err e end
      end
  | Named _ :: _ => Err KeyError
  end.
(** a brace without partner: a closing one that is not doubled, or an opening one that is not doubled and never closed *)
Definition starts_with (c : ascii) (s : string) : Prop := exists s', s = String c s'.
Definition stray (s : string) : Prop :=
  (exists s', s = "}" ++ s' /\ ~ starts_with "}" s') \/
  (exists s', s = "{" ++ s' /\ ~ starts_with "{" s' /\ all_chars (fun c => c <> "}"%char) s').
