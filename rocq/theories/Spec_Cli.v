(** * Independent specification of the command line: a grammar of the accepted lines. *)
From Coq Require Import List String Ascii Arith.
Import ListNotations.
Local Open Scope string_scope.

Inductive opt := Params | Data.
Definition full_name (o : opt) : string := match o with Params => "--params" | Data => "--data" end.
(** two dashes and at least one letter of the name *)
Definition abbreviates (n full : string) : Prop := (3 <= length n)%nat /\ exists r, full = n ++ r.

Definition digit_char (c : ascii) : Prop := (48 <= nat_of_ascii c <= 57)%nat.
Fixpoint all_digits (s : string) : Prop := match s with EmptyString => True | String c s' => digit_char c /\ all_digits s' end.
(** -12, -12.5 or -.5, perhaps followed by a newline *)
Definition neg_number (v : string) : Prop :=
  exists a nl, all_digits a /\ (nl = "" \/ nl = String "010" "") /\
  ((a <> "" /\ v = "-" ++ a ++ nl) \/ exists b, all_digits b /\ b <> "" /\ v = "-" ++ a ++ "." ++ b ++ nl).
Definition spaced (v : string) : Prop := exists a b, v = a ++ " " ++ b.
(** a word that is read as one of the options: it begins with -h, or it is two dashes and a (possibly empty) beginning of
    the name of an option, alone or followed by "=" *)
Definition looks_option (v : string) : Prop :=
  (exists r, v = "-h" ++ r) \/
  exists p r full, In full ["--help"; "--params"; "--data"] /\ (2 <= length p)%nat /\ (exists q, full = p ++ q) /\
    v = p ++ r /\ (r = "" \/ exists x, r = "=" ++ x).
(** a word that can be the value of an option in the next word *)
Definition plain (v : string) : Prop :=
  (forall r, v <> "-" ++ r) \/ v = "-" \/ ((neg_number v \/ spaced v) /\ ~ looks_option v).

(** accepted lines and what they assign, from left to right *)
Inductive line : list string -> list (opt * string) -> Prop :=
| line_nil : line [] []
| line_two o n v l r : abbreviates n (full_name o) -> plain v -> line l r -> line (n :: v :: l) ((o, v) :: r)
| line_eq o n v l r : abbreviates n (full_name o) -> line l r -> line ((n ++ "=" ++ v) :: l) ((o, v) :: r).
(** the last value of an option *)
Fixpoint last_value (o : opt) (r : list (opt * string)) : option string :=
  match r with
  | [] => None
  | (o', v) :: r' =>
      match last_value o r' with
      | Some w => Some w
      | None => match o, o' with Params, Params => Some v | Data, Data => Some v | _, _ => None end
      end
  end.
(** letters h *)
Fixpoint hs (n : nat) : string := match n with O => "" | Datatypes.S m => String "h" (hs m) end.

(** a beginning of a line: complete options and words that are no options *)
Inductive begins : list string -> Prop :=
| begins_nil : begins []
| begins_two o n v l : abbreviates n (full_name o) -> plain v -> begins l -> begins (n :: v :: l)
| begins_eq o n v l : abbreviates n (full_name o) -> begins l -> begins ((n ++ "=" ++ v) :: l)
| begins_left w l : ~ looks_option w -> begins l -> begins (w :: l).
(** words that ask for the help: -h, -hh, ..., perhaps with a text after it that does not begin with a dash or an
    equals sign, and the beginnings of --help *)
Definition asks_help (w : string) : Prop :=
  abbreviates w "--help" \/ exists n t, w = "-h" ++ hs n ++ t /\ forall t', t <> "h" ++ t' /\ t <> "-" ++ t' /\ t <> "=" ++ t'.
(** no word before the first "--" begins with "--=" *)
Fixpoint clear (l : list string) : Prop :=
  match l with [] => True | w :: l' => w = "--" \/ ((forall x, w <> "--=" ++ x) /\ clear l') end.
(** the lines that show the help *)
Definition helps (argv : list string) : Prop :=
  exists l w rest, argv = (l ++ w :: rest)%list /\ begins l /\ asks_help w /\ clear rest.
