(** * Independent specification of the outcome of Simulation.setup *)
From Coq Require Import ZArith List String.
From Verif Require Import Num M_LinAlg M_Proc M_Sim M_Sim1 M_SimN Spec_Sim.
Import ListNotations.
Local Open Scope string_scope.

(** the value at a sequence of names, and the error of asking for it: what has no names raises
    TypeError, a missing name KeyError *)
Fixpoint at_path {L} (x : pv L) (p : list string) (v : pv L) : Prop :=
  match p with [] => x = v | k :: p' => exists y, field x k y /\ at_path y p' v end.
Fixpoint off_path {L} (x : pv L) (p : list string) (e : exn) : Prop :=
  match p with
  | [] => False
  | k :: p' => (exists l, x = PLeaf l /\ e = TypeError) \/ (exists d, x = PObj d /\ ~ In k (keys d) /\ e = KeyError) \/
               (exists y, field x k y /\ off_path y p' e)
  end.
Definition all_there {L} (x : pv L) (ps : list (list string)) : Prop := forall p, In p ps -> exists v, at_path x p v.
Definition first_missing {L} (x : pv L) (ps : list (list string)) (e : exn) : Prop :=
  exists l1 p l2, ps = (l1 ++ p :: l2)%list /\ all_there x l1 /\ off_path x p e.

(** the entries of the parameters in the order in which they are needed: before the model is made,
    before the trajectory, and before the observations *)
Definition first_entries : list (list string) :=
  [["Drift"]; ["Noise"]; ["Time-window"]; ["Ode-method"]; ["Random-Seed"]; ["Observations"];
   ["Prior"; "mu0"]; ["Prior"; "tau0"]; ["Noise"; "sys"]; ["Drift"; "theta"]; ["Model"]].
Definition window_entries : list (list string) := [["Time-window"; "t0"]; ["Time-window"; "tf"]; ["Time-window"; "dt"]].
Definition obs_entries : list (list string) := [["Observations"; "density"]; ["Noise"; "obs"]; ["Observations"; "operator"]].

Section Refusal.
Context {W : World} (params : pv (w_leaf W)) (data : udata (w_val W)) (h : w_entropy W).
(** the stochastic model m of the parameters, and the errors of making it: an unknown name, and a
    KeyError of the constructor, are reported as ValueError *)
Definition makes (m : w_model W) : Prop :=
  exists l sys theta seed, at_path params ["Model"] (PLeaf l) /\ at_path params ["Noise"; "sys"] sys /\
    at_path params ["Drift"; "theta"] theta /\ at_path params ["Random-Seed"] seed /\
    w_build W (upper (w_str W (PLeaf l))) sys theta seed h = Some (Ok m).
Definition makes_none (e : exn) : Prop :=
  exists name sys theta seed, at_path params ["Model"] name /\ at_path params ["Noise"; "sys"] sys /\
    at_path params ["Drift"; "theta"] theta /\ at_path params ["Random-Seed"] seed /\
    ((exists d, name = PObj d) /\ e = ValueError \/
     exists l, name = PLeaf l /\
       let b := w_build W (upper (w_str W name)) sys theta seed h in
       (b = None /\ e = ValueError \/ b = Some (Err KeyError) /\ e = ValueError \/ b = Some (Err e) /\ e <> KeyError)).
Definition moves (m : w_model W) (r : result unit) (m1 : w_model W) : Prop :=
  exists t0 tf dt, at_path params ["Time-window"; "t0"] t0 /\ at_path params ["Time-window"; "tf"] tf /\
    at_path params ["Time-window"; "dt"] dt /\ w_traj W t0 tf dt m = (r, m1).
(** observations: of the model, or the first two arrays of the data *)
Definition observes (m1 m2 : w_model W) : Prop :=
  match data with
  | DNone => exists density noise op x, at_path params ["Observations"; "density"] density /\ at_path params ["Noise"; "obs"] noise /\
      at_path params ["Observations"; "operator"] op /\ w_collect W density noise op m1 = (Ok x, m2)
  | DFrame => False
  | DSeq l => (2 <= List.length l)%nat /\ m2 = m1
  end.
Definition observes_none (m1 : w_model W) (e : exn) : Prop :=
  match data with
  | DNone => first_missing params obs_entries e \/
      exists density noise op m2, at_path params ["Observations"; "density"] density /\ at_path params ["Noise"; "obs"] noise /\
      at_path params ["Observations"; "operator"] op /\ w_collect W density noise op m1 = (Err e, m2)
  | DFrame => e = KeyError
  | DSeq l => (List.length l < 2)%nat /\ e = IndexError
  end.
(** the initial moments: several dimensions need prior moments too *)
Definition starts_none (single : bool) (m2 : w_model W) (e : exn) : Prop :=
  (exists m3, w_m0 W m2 = (Err e, m3)) \/
  (exists v m3 mu tau, w_m0 W m2 = (Ok v, m3) /\ single = false /\ at_path params ["Prior"; "mu0"] mu /\ at_path params ["Prior"; "tau0"] tau /\
     (w_mu0 W mu m3 = Err e \/ exists a, w_mu0 W mu m3 = Ok a /\ w_tau0 W tau m3 = Err e)).
(** setup raises e *)
Definition refusal (e : exn) : Prop :=
  first_missing params first_entries e \/
  (all_there params first_entries /\ makes_none e) \/
  (all_there params first_entries /\ exists m, makes m /\
    (first_missing params window_entries e \/
     (exists m1, moves m (Err e) m1) \/
     (exists m1, moves m (Ok tt) m1 /\
        (observes_none m1 e \/ exists m2, observes m1 m2 /\ starts_none (w_single W m) m2 e)))).
End Refusal.

(** what counts as a number in the parameters: floats, integers, true and false *)
Definition number1 {K} (x : pv (leaf K)) : Prop :=
  (exists v, x = PLeaf (LNum v)) \/ (exists z, x = PLeaf (LInt z)) \/ (exists b, x = PLeaf (LBool b)).
Definition numbern {K} (x : pv (leafn K)) : Prop :=
  (exists v, x = PLeaf (NNum v)) \/ (exists z, x = PLeaf (NInt z)) \/ (exists b, x = PLeaf (NBool b)).
(** ... with its value; and the integers that are no seed because they are negative *)
Definition value1 {K : Num} (x : pv (leaf K)) (v : K) : Prop :=
  x = PLeaf (LNum v) \/ (exists z, x = PLeaf (LInt z) /\ v = nZ z) \/ (exists b : bool, x = PLeaf (LBool b) /\ v = nZ (if b then 1 else 0)).
Definition negative1 {K : Num} (x : pv (leaf K)) : Prop :=
  exists z, (z < 0)%Z /\ (x = PLeaf (LInt z) \/ exists l, x = PLeaf (LInts l) /\ In z l).
(** the same for the Lorenz models, where lists of integers and rows of integers are arrays *)
Definition negativen {K : Num} (x : pv (leafn K)) : Prop :=
  exists z, (z < 0)%Z /\
  (x = PLeaf (NInt z) \/
   (exists n v i, x = PLeaf (NArr Int64 (A1 (K:=K) n v)) /\ (i < n)%nat /\ nfloor (v i) = Some z) \/
   (exists r c m i j, x = PLeaf (NArr Int64 (A2 (K:=K) r c m)) /\ (i < r)%nat /\ (j < c)%nat /\ nfloor (m i j) = Some z)).
(** a noise that is no square matrix, or diagonal, of size d.  Lists of truth values are left out. *)
Definition misshaped {K : Num} (d : nat) (x : pv (leafn K)) : Prop :=
  numbern x \/ (exists t, x = PLeaf (NStr t)) \/ x = PLeaf NNull \/ (exists o, x = PObj o) \/
  (exists t v, x = PLeaf (NArr t (A0 (K:=K) v))) \/ (exists t n v, x = PLeaf (NArr t (A1 (K:=K) n v)) /\ n <> d) \/
  (exists t r c m, x = PLeaf (NArr t (A2 (K:=K) r c m)) /\ (r <> d \/ c <> d)).
(** a matrix, or diagonal, of the right size that is made of integers *)
Definition of_integers {K : Num} (d : nat) (x : pv (leafn K)) : Prop :=
  (exists v, x = PLeaf (NArr Int64 (A1 (K:=K) d v))) \/ (exists m, x = PLeaf (NArr Int64 (A2 (K:=K) d d m))).
