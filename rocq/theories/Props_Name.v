(** * Property C46: the name under which a simulation is saved *)
From Coq Require Import ZArith List Bool Reals Lra String.
From Verif Require Import Num Arr M_LinAlg M_Proc M_Sim M_Sim1 M_SimN Props_Sim.
Import ListNotations.
Local Open Scope string_scope.
Local Open Scope R_scope.

(** the class itself names a simulation without name "ID_None", the driver script "Sim_00"; a text is taken as it is, unless it is empty; 0, 0.0 and {} count as no
    name, as the empty text does; any other value is printed *)
Theorem C46_name_one_dim :
  forall (G : Rng RNum) spline show,
  let W := world1 RNum G ln PI spline show in
  let name := fun x => s_name (sim_init W (Some (title W (LStr "Sim_00" : w_leaf W) x))) in
  s_name (sim_init W (Some (PLeaf (LNull : w_leaf W)))) = "ID_None" /\
  name (PLeaf (LNull : w_leaf W)) = "Sim_00" /\
  (forall s, s <> "" -> name (PLeaf (LStr s : w_leaf W)) = s) /\
  name (PLeaf (LStr "" : w_leaf W)) = "ID_None" /\
  (forall z, name (PLeaf (LInt z : w_leaf W)) = if Z.eqb z 0 then "ID_None" else show (PLeaf (LInt z))) /\
  (forall v : R, v = 0 -> name (PLeaf (LNum (v : RNum) : w_leaf W)) = "ID_None") /\
  (forall v : R, v <> 0 -> name (PLeaf (LNum (v : RNum) : w_leaf W)) = show (PLeaf (LNum (v : RNum)))) /\
  name (PObj []) = "ID_None" /\
  (forall kv d, name (PObj (kv :: d)) = show (PObj (kv :: d))).
Proof.
  intros G spline show W name. split; [reflexivity|]. split; [reflexivity|]. split.
  { intros s Hs. unfold name, title, sim_init, W. cbn. apply String.eqb_neq in Hs. rewrite Hs. reflexivity. }
  split; [reflexivity|]. split.
  { intros z. unfold name, title, sim_init, W. cbn. destruct (Z.eqb z 0); reflexivity. }
  split.
  { intros v ->. unfold name, title, sim_init, W. cbn. destruct (Reqb_spec 0 0) as [_|N]; [reflexivity|contradiction]. }
  split.
  { intros v Hv. unfold name, title, sim_init, W. cbn. destruct (Reqb_spec v 0) as [E|_]; [contradiction|reflexivity]. }
  split; reflexivity.
Qed.
Print Assumptions C46_name_one_dim.
(** the same for the parameters of the Lorenz models, which may hold lists *)
Theorem C46_name_lorenz :
  forall (G : Rng RNum) eigvals solve spline show,
  let W := worldn RNum G eigvals solve ln PI spline show in
  let name := fun x => s_name (sim_init W (Some (title W (NStr "Sim_00" : w_leaf W) x))) in
  s_name (sim_init W (Some (PLeaf (NNull : w_leaf W)))) = "ID_None" /\
  name (PLeaf (NNull : w_leaf W)) = "Sim_00" /\
  (forall s, s <> "" -> name (PLeaf (NStr s : w_leaf W)) = s) /\
  name (PLeaf (NStr "" : w_leaf W)) = "ID_None" /\
  (forall z, name (PLeaf (NInt z : w_leaf W)) = if Z.eqb z 0 then "ID_None" else show (PLeaf (NInt z))) /\
  (forall v : R, v = 0 -> name (PLeaf (NNum (v : RNum) : w_leaf W)) = "ID_None") /\
  (forall v : R, v <> 0 -> name (PLeaf (NNum (v : RNum) : w_leaf W)) = show (PLeaf (NNum (v : RNum)))) /\
  name (PObj []) = "ID_None" /\
  (forall kv d, name (PObj (kv :: d)) = show (PObj (kv :: d))) /\
  (forall t n v, name (PLeaf (NArr t (M_LinAlg.A1 (K:=RNum) n v) : w_leaf W)) = match n with O => "ID_None" | _ => show (PLeaf (NArr t (M_LinAlg.A1 (K:=RNum) n v))) end) /\
  (forall l, name (PLeaf (NMask l : w_leaf W)) = match l with [] => "ID_None" | _ => show (PLeaf (NMask l)) end).
Proof.
  intros G eigvals solve spline show W name. split; [reflexivity|]. split; [reflexivity|]. split.
  { intros s Hs. unfold name, title, sim_init, W. cbn. apply String.eqb_neq in Hs. rewrite Hs. reflexivity. }
  split; [reflexivity|]. split.
  { intros z. unfold name, title, sim_init, W. cbn. destruct (Z.eqb z 0); reflexivity. }
  split.
  { intros v ->. unfold name, title, sim_init, W. cbn. destruct (Reqb_spec 0 0) as [_|N]; [reflexivity|contradiction]. }
  split.
  { intros v Hv. unfold name, title, sim_init, W. cbn. destruct (Reqb_spec v 0) as [E|_]; [contradiction|reflexivity]. }
  split; [reflexivity|]. split; [reflexivity|]. split.
  - intros t [|n] v; reflexivity.
  - intros [|b l]; reflexivity.
Qed.
Print Assumptions C46_name_lorenz.
Example C46_name_instance : forall (G : Rng RNum) spline show,
  let W := world1 RNum G ln PI spline show in
  s_name (sim_init W (Some (title W (LStr "Sim_00" : w_leaf W) (PLeaf (LStr "run 1" : w_leaf W))))) = "run 1".
Proof. reflexivity. Qed.
