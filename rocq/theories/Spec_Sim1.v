(** * Independent specifications for Simulation with the one-dimensional models. *)
From Coq Require Import Reals ZArith List String.
From Verif Require Import Num M_Proc M_Sim M_Sim1 Spec_Ode Spec_Proc Spec_Sim.
Import ListNotations.
Local Open Scope string_scope.

(** a parameter that is the number v *)
Definition number (x : pv (leaf RNum)) (v : R) : Prop :=
  x = PLeaf (LNum (v : RNum)) \/ (exists z, x = PLeaf (LInt z) /\ v = IZR z) \/
  exists b : bool, x = PLeaf (LBool b) /\ v = (if b then 1 else 0)%R.
(** the parameter for this density *)
Definition rate_leaf1 (q : rate) : pv (leaf RNum) := match q with Whole z => PLeaf (LInt z) | Frac x => PLeaf (LNum (x : RNum)) | Flag b => PLeaf (LBool b) end.
(** the entries of the parameters, without an observation operator *)
Definition entries (params : pv (leaf RNum)) (name method : string) (sigma theta r t0 tf dt mu0 tau0 : R) (density : rate)
  (seed : option Z) : Prop :=
  exists dr nz tw os pr x1 x2 x3 x4 x5 x6 x7 x8,
    field params "Model" (PLeaf (LStr name)) /\ field params "Ode-method" (PLeaf (LStr method)) /\
    field params "Drift" dr /\ field dr "theta" x1 /\ number x1 theta /\
    field params "Noise" nz /\ field nz "sys" x2 /\ number x2 sigma /\ field nz "obs" x3 /\ number x3 r /\
    field params "Time-window" tw /\ field tw "t0" x4 /\ number x4 t0 /\ field tw "tf" x5 /\ number x5 tf /\
    field tw "dt" x6 /\ number x6 dt /\
    field params "Prior" pr /\ field pr "mu0" x7 /\ number x7 mu0 /\ field pr "tau0" x8 /\ number x8 tau0 /\
    field params "Observations" os /\ field os "density" (rate_leaf1 density) /\ field os "operator" (PLeaf LNull) /\
    field params "Random-Seed" (match seed with None => PLeaf LNull | Some z => PLeaf (LInt z) end).
(** values that the classes accept *)
Definition acceptable (name method : string) (sigma theta t0 tf dt : R) (density : rate) (seed : option Z) : Prop :=
  (0 < sigma /\ 0 < dt /\ t0 < tf /\ fits_step (rate_val density) dt)%R /\ (0 <= rate_val density)%R /\
  (same_up_to_case name "OU" /\ (0 < theta)%R \/ same_up_to_case name "DW") /\
  (exists m, In m ["euler"; "heun"; "rk2"; "rk4"] /\ same_up_to_case method m) /\
  match seed with None => True | Some z => (0 <= z)%Z end.
(** eight arrays with n entries and three numbers *)
Definition completed (n : nat) (out : list (string * oval RNum)) : Prop :=
  (forall k, In k ["at"; "bt"; "mt"; "st"; "Efx"; "Edf"; "lamt"; "psit"] ->
     exists l : list R, has out k (OArr [n] (l : list RNum)) /\ List.length l = n) /\
  (forall k, In k ["fx"; "m0"; "s0"] -> exists v : R, has out k (OScal (v : RNum))).
