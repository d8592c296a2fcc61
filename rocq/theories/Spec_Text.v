(** * Independent specification of the text operations: white space, blanks and parts of a text *)
From Coq Require Import List String Ascii Arith.
Import ListNotations.
Local Open Scope string_scope.

(** white space of ASCII text: tab, the line ends and feeds, the four separators and the blank *)
Definition white (c : ascii) : Prop := let n := nat_of_ascii c in (9 <= n <= 13)%nat \/ (28 <= n <= 32)%nat.
Definition all_white (s : string) : Prop := forall a c b, s = a ++ String c b -> white c.
(** no white space at either end *)
Definition trimmed (s : string) : Prop :=
  (forall c b, s = String c b -> ~ white c) /\ (forall a c, s = a ++ String c "" -> ~ white c).
(** t is s with an underscore in the place of every blank *)
Definition underscored (s t : string) : Prop :=
  String.length t = String.length s /\
  forall i c, String.get i s = Some c -> String.get i t = Some (if ascii_dec c " " then "_" else c)%char.
(** k is a part of s *)
Definition part_of (k s : string) : Prop := exists a b, s = a ++ k ++ b.
