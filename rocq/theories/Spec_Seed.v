(** * Independent specifications: values of the entry Random-Seed. *)
From Coq Require Import ZArith List String.
From Verif Require Import Num Arr M_LinAlg M_Proc M_Sim M_Sim1 M_SimN.
Import ListNotations.
Local Open Scope string_scope.

Section Seed.
Context {K : Num}.
(** one-dimensional models: values that fix the generator ... *)
Definition fixes1 (x : pv (leaf K)) : Prop :=
  (exists z, x = PLeaf (LInt z) /\ z <> 0%Z) \/ x = PLeaf (LBool true) \/
  (exists l, x = PLeaf (LInts l) /\ l <> []) \/ (exists l, x = PLeaf (LFlags l) /\ l <> []).
(** ... values that count as no seed ... *)
Definition no_seed1 (x : pv (leaf K)) : Prop :=
  x = PLeaf LNull \/ x = PLeaf (LInt 0) \/ x = PLeaf (LBool false) \/ (exists v, x = PLeaf (LNum v) /\ neqb v (nZ 0) = true) \/
  x = PLeaf (LStr "") \/ x = PObj [] \/ x = PLeaf (LInts []) \/ x = PLeaf (LFlags []) \/ x = PLeaf (LNums []).
(** ... and all others *)
Definition wrong1 (x : pv (leaf K)) : Prop :=
  (exists v, x = PLeaf (LNum v) /\ neqb v (nZ 0) = false) \/ (exists s, x = PLeaf (LStr s) /\ s <> "") \/
  (exists d, x = PObj d /\ d <> []) \/ (exists l, x = PLeaf (LNums l) /\ l <> []).
(** the same for the Lorenz models; a list of rows has at least one row, and rows at least one entry *)
Definition fixesn (x : pv (leafn K)) : Prop :=
  (exists z, x = PLeaf (NInt z) /\ z <> 0%Z) \/ x = PLeaf (NBool true) \/
  (exists l, x = PLeaf (NMask l) /\ l <> []) \/ (exists n v, x = PLeaf (NArr Int64 (A1 (K:=K) n v)) /\ n <> 0%nat) \/
  (exists r c m, x = PLeaf (NArr Int64 (A2 (K:=K) r c m)) /\ r <> 0%nat /\ c <> 0%nat).
Definition no_seedn (x : pv (leafn K)) : Prop :=
  x = PLeaf NNull \/ x = PLeaf (NInt 0) \/ x = PLeaf (NBool false) \/ (exists v, x = PLeaf (NNum v) /\ neqb v (nZ 0) = true) \/
  x = PLeaf (NStr "") \/ x = PObj [] \/ x = PLeaf (NMask []) \/ (exists t v, x = PLeaf (NArr t (A1 (K:=K) 0 v))).
Definition wrongn (x : pv (leafn K)) : Prop :=
  (exists v, x = PLeaf (NNum v) /\ neqb v (nZ 0) = false) \/ (exists s, x = PLeaf (NStr s) /\ s <> "") \/
  (exists d, x = PObj d /\ d <> []) \/ (exists n v, x = PLeaf (NArr Float64 (A1 (K:=K) n v)) /\ n <> 0%nat) \/
  (exists r c m, x = PLeaf (NArr Float64 (A2 (K:=K) r c m)) /\ r <> 0%nat /\ c <> 0%nat).
End Seed.
