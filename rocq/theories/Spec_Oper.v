(** * Independent specifications for observation operators. *)
From Coq Require Import Reals ZArith List String.
From Verif Require Import Num Arr M_LinAlg M_Proc M_Sim M_Sim1 M_SimN Spec_Utils Spec_Proc Spec_Sim Spec_Sim1 Spec_SimN.
Import ListNotations.
Local Open Scope string_scope.

(** the entries of the parameters with the operator op, one dimension *)
Definition entries_op (op params : pv (leaf RNum)) (name method : string) (sigma theta r t0 tf dt mu0 tau0 : R) (density : rate)
  (seed : option Z) : Prop :=
  exists dr nz tw os pr x1 x2 x3 x4 x5 x6 x7 x8,
    field params "Model" (PLeaf (LStr name)) /\ field params "Ode-method" (PLeaf (LStr method)) /\
    field params "Drift" dr /\ field dr "theta" x1 /\ number x1 theta /\
    field params "Noise" nz /\ field nz "sys" x2 /\ number x2 sigma /\ field nz "obs" x3 /\ number x3 r /\
    field params "Time-window" tw /\ field tw "t0" x4 /\ number x4 t0 /\ field tw "tf" x5 /\ number x5 tf /\
    field tw "dt" x6 /\ number x6 dt /\
    field params "Prior" pr /\ field pr "mu0" x7 /\ number x7 mu0 /\ field pr "tau0" x8 /\ number x8 tau0 /\
    field params "Observations" os /\ field os "density" (rate_leaf1 density) /\ field os "operator" op /\
    field params "Random-Seed" (match seed with None => PLeaf LNull | Some z => PLeaf (LInt z) end).
(** values that count as true: numbers other than zero, and text, objects and lists that are not empty; true itself
    is not among them *)
Definition counts_as_true (x : pv (leaf RNum)) : Prop :=
  (exists v : R, x = PLeaf (LNum (v : RNum)) /\ v <> 0%R) \/ (exists z, x = PLeaf (LInt z) /\ z <> 0%Z) \/
  (exists s, x = PLeaf (LStr s) /\ s <> "") \/ (exists d, x = PObj d /\ d <> []) \/
  (exists l, x = PLeaf (LInts l) /\ l <> []) \/ (exists l, x = PLeaf (LFlags l) /\ l <> []) \/
  (exists l : list R, x = PLeaf (LNums (l : list RNum)) /\ l <> []).

(** values that are empty, and the error of a calculation with them *)
Definition empty_op1 (op : pv (leaf RNum)) (e : exn) : Prop :=
  (op = PLeaf (LStr "") \/ op = PObj []) /\ e = TypeError \/
  (op = PLeaf (LInts []) \/ op = PLeaf (LFlags []) \/ op = PLeaf (LNums [])) /\ e = ValueError.

(** the same for the Lorenz models *)
Definition entries_n_op (op params : parn) (name method : string) (sys theta obs : parn) (t0 tf dt mu0 tau0 : R) (density : rate)
  (seed : option Z) : Prop :=
  exists dr nz tw os pr x4 x5 x6 x7 x8,
    field params "Model" (PLeaf (NStr name)) /\ field params "Ode-method" (PLeaf (NStr method)) /\
    field params "Drift" dr /\ field dr "theta" theta /\
    field params "Noise" nz /\ field nz "sys" sys /\ field nz "obs" obs /\
    field params "Time-window" tw /\ field tw "t0" x4 /\ num_n x4 t0 /\ field tw "tf" x5 /\ num_n x5 tf /\
    field tw "dt" x6 /\ num_n x6 dt /\
    field params "Prior" pr /\ field pr "mu0" x7 /\ num_n x7 mu0 /\ field pr "tau0" x8 /\ num_n x8 tau0 /\
    field params "Observations" os /\ field os "density" (rate_leafn density) /\ field os "operator" op /\
    field params "Random-Seed" (match seed with None => PLeaf NNull | Some z => PLeaf (NInt z) end).
(** an observation matrix or a list of weights in floating point numbers, a floating point number other
    than zero, and text and objects that are not empty *)
Definition no_index (op : parn) : Prop :=
  (exists r c (m : nat -> nat -> R), op = PLeaf (NArr Float64 (A2 (K:=RNum) r c m)) /\ r <> 0%nat /\ c <> 0%nat) \/
  (exists n (v : nat -> R), op = PLeaf (NArr Float64 (A1 (K:=RNum) n v)) /\ n <> 0%nat) \/
  (exists v : RNum, op = PLeaf (NNum v) /\ v <> 0%R) \/ (exists s, op = PLeaf (NStr s) /\ s <> "") \/ (exists d, op = PObj d /\ d <> []).
(** integers as indexes of d components; negative ones count from the end *)
Definition counted (d : nat) (z : Z) (c : nat) : Prop := (c < d)%nat /\ (z = Z.of_nat c \/ z = Z.of_nat c - Z.of_nat d)%Z.
Definition outside (d : nat) (z : Z) : Prop := (z < - Z.of_nat d \/ Z.of_nat d <= z)%Z.
(** lists of integers, and lists of r rows of c integers *)
Definition int_list (op : parn) (l : list Z) : Prop :=
  exists v : nat -> R, op = PLeaf (NArr Int64 (A1 (K:=RNum) (List.length l) v)) /\ forall i, (i < List.length l)%nat -> v i = IZR (nth i l 0%Z).
Definition int_rows (op : parn) (r c : nat) (ix : nat -> nat -> Z) : Prop :=
  r <> 0%nat /\ c <> 0%nat /\
  exists m : nat -> nat -> R, op = PLeaf (NArr Int64 (A2 (K:=RNum) r c m)) /\ forall i j, (i < r)%nat -> (j < c)%nat -> m i j = IZR (ix i j).
(** zero and false *)
Definition zero_op (op : parn) : Prop := op = PLeaf (NBool false) \/ num_n op 0.
(** operators that cannot be an index: these, masks of another length, and integers out of range *)
Definition refused (d : nat) (op : parn) : Prop :=
  no_index op \/ (exists l, op = PLeaf (NMask l) /\ l <> [] /\ List.length l <> d) \/
  (exists l, int_list op l /\ l <> [] /\ Exists (outside d) l) \/
  (exists z, op = PLeaf (NInt z) /\ outside d z) \/
  (exists r c ix, int_rows op r c ix /\ exists i j, (i < r)%nat /\ (j < c)%nat /\ outside d (ix i j)).
(** the empty list *)
Definition empty_list (op : parn) : Prop := op = PLeaf (NMask []) \/ exists t (v : nat -> R), op = PLeaf (NArr t (A1 (K:=RNum) 0 v)).
