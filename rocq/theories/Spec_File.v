(** * Independent specification of the files written by Simulation.save *)
From Coq Require Import List String.
From Verif Require Import Num M_Sim Spec_Sim.
Import ListNotations.
Local Open Scope string_scope.

(** the names along a key: its parts between slashes, without empty ones and "." *)
Definition has_no_slash (s : string) : Prop := forall a b, s <> a ++ "/" ++ b.
Definition key_path (k : string) (p : list string) : Prop :=
  exists parts, parts <> [] /\ k = String.concat "/" parts /\ (forall s, In s parts -> has_no_slash s) /\
    p = filter (fun s => negb (String.eqb s "" || String.eqb s ".")) parts.
(** the data set at a path *)
Fixpoint data_at {A} (g : dict (node A)) (p : list string) (a : A) : Prop :=
  match p with
  | [] => False
  | [k] => has g k (Dset a)
  | k :: p' => exists l, has g k (Group l) /\ data_at l p' a
  end.
(** one path leads through the other, or they are equal *)
Definition in_the_way (p q : list string) : Prop := exists r, q = (p ++ r)%list \/ p = (q ++ r)%list.

Section Out.
Context {N : Type}.
(** entries that can be written one after the other *)
Definition writable (out : list (string * oval N)) : Prop :=
  (forall k v, In (k, v) out -> storable v /\ ~ key_path k []) /\
  forall l1 k v l2 k' v' l3 p p', out = (l1 ++ (k, v) :: l2 ++ (k', v') :: l3)%list -> key_path k p -> key_path k' p' -> ~ in_the_way p p'.
(** the file holds the entries of this output, and nothing else *)
Definition holds (g : dict (node (oval N))) (out : list (string * oval N)) : Prop :=
  forall p a, data_at g p a <-> exists k v, In (k, v) out /\ key_path k p /\ a = as_array v.
(** the error of writing one more entry *)
Definition unwritable (done : list (string * oval N)) (k : string) (v : oval N) (e : exn) : Prop :=
  (~ storable v /\ e = TypeError) \/
  (storable v /\ e = ValueError /\
     (key_path k [] \/ exists k' v' p p', In (k', v') done /\ key_path k p /\ key_path k' p' /\ in_the_way p' p)).
End Out.
