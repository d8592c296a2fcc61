(** * Independent specifications for Simulation with the Lorenz models. *)
From Coq Require Import Reals ZArith List String.
From Verif Require Import Num Arr M_LinAlg M_Proc M_Sim M_SimN Spec_Utils Spec_Ode Spec_Proc Spec_Sim.
Import ListNotations.
Local Open Scope string_scope.
Notation parn := (pv (leafn RNum)).

(** a parameter that is the number v *)
Definition num_n (x : parn) (v : R) : Prop :=
  x = PLeaf (NNum (v : RNum)) \/ (exists z, x = PLeaf (NInt z) /\ v = IZR z) \/
  exists b : bool, x = PLeaf (NBool b) /\ v = (if b then 1 else 0)%R.
(** three numbers for Lorenz-63, one for Lorenz-96 *)
Definition drift_n (k : kindn) (x : parn) : Prop :=
  match k with
  | L63 => exists t (v : vec RNum), x = PLeaf (NArr t (A1 3 v))
  | L96 => exists v, num_n x v
  end.
(** the number of components, with the one that the Lorenz-96 class takes if none is given *)
Definition dim_n (k : kindn) : nat := match k with L63 => 3 | L96 => 40 end.
Definition name_n (k : kindn) : string := match k with L63 => "L63" | L96 => "L96" end.
(** the system noise matrix C, given by its diagonal or in full, in floating point numbers *)
Definition sys_n (d : nat) (x : parn) (C : nat -> nat -> R) : Prop :=
  (exists v : nat -> R, x = PLeaf (NArr Float64 (A1 (K:=RNum) d v)) /\ C = (fun i j => if Nat.eqb i j then v i else 0%R)) \/
  x = PLeaf (NArr Float64 (A2 (K:=RNum) d d C)).
(** the observation noise variances v, given by one number, by their list or by a matrix with this
    diagonal *)
Definition obs_n (d : nat) (x : parn) (v : nat -> R) : Prop :=
  (exists r, num_n x r /\ forall i, v i = r) \/
  (exists t (u : nat -> R), x = PLeaf (NArr t (A1 (K:=RNum) d u)) /\ forall i, (i < d)%nat -> v i = u i) \/
  (exists t (m : nat -> nat -> R), x = PLeaf (NArr t (A2 (K:=RNum) d d m)) /\ forall i, (i < d)%nat -> v i = m i i).
(** the parameter for this density *)
Definition rate_leafn (q : rate) : parn := match q with Whole z => PLeaf (NInt z) | Frac x => PLeaf (NNum (x : RNum)) | Flag b => PLeaf (NBool b) end.
(** the entries of the parameters, without an observation operator *)
Definition entries_n (params : parn) (name method : string) (sys theta obs : parn) (t0 tf dt mu0 tau0 : R) (density : rate)
  (seed : option Z) : Prop :=
  exists dr nz tw os pr x4 x5 x6 x7 x8,
    field params "Model" (PLeaf (NStr name)) /\ field params "Ode-method" (PLeaf (NStr method)) /\
    field params "Drift" dr /\ field dr "theta" theta /\
    field params "Noise" nz /\ field nz "sys" sys /\ field nz "obs" obs /\
    field params "Time-window" tw /\ field tw "t0" x4 /\ num_n x4 t0 /\ field tw "tf" x5 /\ num_n x5 tf /\
    field tw "dt" x6 /\ num_n x6 dt /\
    field params "Prior" pr /\ field pr "mu0" x7 /\ num_n x7 mu0 /\ field pr "tau0" x8 /\ num_n x8 tau0 /\
    field params "Observations" os /\ field os "density" (rate_leafn density) /\ field os "operator" (PLeaf NNull) /\
    field params "Random-Seed" (match seed with None => PLeaf NNull | Some z => PLeaf (NInt z) end).
Definition seed_ok (seed : option Z) : Prop := match seed with None => True | Some z => (0 <= z)%Z end.
(** values that the classes accept *)
Definition acceptable_n (k : kindn) (name method : string) (C : nat -> nat -> R) (v : nat -> R) (t0 tf dt tau0 : R) (density : rate)
  (seed : option Z) : Prop :=
  symm (dim_n k) C /\ posdef (dim_n k) C /\ (forall i, (i < dim_n k)%nat -> 0 < v i)%R /\
  (0 < tau0 /\ 0 < dt /\ t0 < tf /\ fits_step (rate_val density) dt)%R /\ (0 <= rate_val density)%R /\
  same_up_to_case name (name_n k) /\
  (exists m, In m ["euler"; "heun"; "rk2"; "rk4"] /\ same_up_to_case method m) /\ seed_ok seed.
(** arrays of n vectors and of n square matrices with d components; the first moments; a number *)
Definition completed_n (d n : nat) (out : list (string * oval RNum)) : Prop :=
  (forall k, In k ["at"; "st"; "Edf"; "psit"] ->
     exists l : list R, has out k (OArr [n; d; d] (l : list RNum)) /\ List.length l = (n * d * d)%nat) /\
  (forall k, In k ["bt"; "mt"; "Efx"; "lamt"] ->
     exists l : list R, has out k (OArr [n; d] (l : list RNum)) /\ List.length l = (n * d)%nat) /\
  (exists l : list R, has out "m0" (OArr [d] (l : list RNum)) /\ List.length l = d) /\
  (exists l : list R, has out "s0" (OArr [d; d] (l : list RNum)) /\ List.length l = (d * d)%nat) /\
  (exists v : R, has out "fx" (OScal (v : RNum))).
