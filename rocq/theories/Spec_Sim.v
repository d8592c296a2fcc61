(** * Independent specifications for Simulation, load and main. *)
From Coq Require Import List String ZArith.
From Verif Require Import Num M_Sim.
Import ListNotations.
Local Open Scope string_scope.

(** the value of key k in the dictionary d is v *)
Definition has {V} (d : list (string * V)) (k : string) (v : V) : Prop :=
  exists l1 l2, d = (l1 ++ (k, v) :: l2)%list /\ ~ In k (map fst l1).
(** the same for a parameter value *)
Definition field {L} (x : pv L) (k : string) (v : pv L) : Prop := exists d, x = PObj d /\ has d k v.
Definition keys {V} (d : list (string * V)) : list string := map fst d.
(** two dictionaries with the same keys and values *)
Definition same_dict {V} (d e : list (string * V)) : Prop := forall k v, has d k v <-> has e k v.

(** What Simulation.run takes from self.m_data *)
Record inputs (W : World) := mkInputs {
  i_dt : pv (w_leaf W); i_method : pv (w_leaf W); i_single : bool;
  i_y : w_val W; i_t : w_val W; i_noise : w_val W; i_op : pv (w_leaf W);
  i_mu0 : pv (w_leaf W) + w_val W; i_tau0 : pv (w_leaf W) + w_val W;
  i_model : w_model W; i_m0 : w_val W; i_s0 : w_val W }.
Arguments mkInputs {W}.
Arguments i_dt {W}. Arguments i_method {W}. Arguments i_single {W}. Arguments i_y {W}. Arguments i_t {W}.
Arguments i_noise {W}. Arguments i_op {W}. Arguments i_mu0 {W}. Arguments i_tau0 {W}. Arguments i_model {W}.
Arguments i_m0 {W}. Arguments i_s0 {W}.

Definition prior_slot {W} (x : pv (w_leaf W) + w_val W) : slot W := match x with inl p => SPar p | inr v => SVal v end.
(** every quantity is there *)
Definition finds {W : World} (d : list (string * slot W)) (i : inputs W) : Prop :=
  (exists tw, has d "time_window" (SPar tw) /\ field tw "dt" (i_dt i)) /\
  has d "ode_solver" (SPar (i_method i)) /\ has d "single_dim" (SFlag (i_single i)) /\
  has d "obs_y" (SVal (i_y i)) /\ has d "obs_t" (SVal (i_t i)) /\ has d "obs_noise" (SVal (i_noise i)) /\
  (exists os, has d "obs_setup" (SPar os) /\ field os "operator" (i_op i)) /\
  has d "mu0" (prior_slot (i_mu0 i)) /\ has d "tau0" (prior_slot (i_tau0 i)) /\
  has d "model" (SModel (i_model i)) /\ has d "m0" (SVal (i_m0 i)) /\ has d "s0" (SVal (i_s0 i)).
(** the components of the run, called on these quantities *)
Definition run_on {W : World} (i : inputs W) : result (run_result W) :=
  let* fwd := w_fwd W (i_dt i) (i_method i) (i_single i) in
  let* bwd := w_bwd W (i_dt i) (i_method i) (i_single i) in
  let* like := w_mklike W (i_y i) (i_t i) (i_noise i) (i_op i) (i_single i) in
  let* kl0 := w_mkkl0 W (i_mu0 i) (i_tau0 i) (i_single i) in
  w_optimise W (i_model i) (i_m0 i) (i_s0 i) fwd bwd like kl0 (i_y i) (i_t i).
(** the quantities that come from this call's parameters: the model is built from them, samples its
    trajectory (m1), goes through the observations (m2) and draws the first mean; h is the entropy *)
Definition given {W : World} (params : pv (w_leaf W)) (h : w_entropy W) (i : inputs W) (m1 m2 : w_model W) : Prop :=
  field params "Ode-method" (i_method i) /\
  (exists os, field params "Observations" os /\ field os "operator" (i_op i)) /\
  (exists name nz sys dr theta seed tw t0 tf m,
     field params "Model" (PLeaf name) /\ field params "Noise" nz /\ field nz "sys" sys /\
     field params "Drift" dr /\ field dr "theta" theta /\ field params "Random-Seed" seed /\
     field params "Time-window" tw /\ field tw "t0" t0 /\ field tw "tf" tf /\ field tw "dt" (i_dt i) /\
     w_build W (upper (w_str W (PLeaf name))) sys theta seed h = Some (Ok m) /\ i_single i = w_single W m /\
     w_traj W t0 tf (i_dt i) m = (Ok tt, m1)) /\
  w_m0 W m2 = (Ok (i_m0 i), i_model i) /\ i_s0 i = w_s0 W (i_model i) /\
  exists pr mu tau, field params "Prior" pr /\ field pr "mu0" mu /\ field pr "tau0" tau /\
    if i_single i then i_mu0 i = inl mu /\ i_tau0 i = inl tau
    else exists a b, i_mu0 i = inr a /\ w_mu0 W mu (i_model i) = Ok a /\ i_tau0 i = inr b /\ w_tau0 W tau (i_model i) = Ok b.
(** the observations of this call: what collect_obs of the model returned for the given density and
    noise *)
Definition collected {W : World} (params : pv (w_leaf W)) (i : inputs W) (m1 m2 : w_model W) : Prop :=
  exists os nz density noise,
    field params "Observations" os /\ field os "density" density /\ field os "operator" (i_op i) /\
    field params "Noise" nz /\ field nz "obs" noise /\
    w_collect W density noise (i_op i) m1 = (Ok (i_t i, i_y i, i_noise i), m2).

(** the object after a history of calls of setup and run, whatever their outcomes *)
Inductive call (W : World) := Setup (params : pv (w_leaf W)) (data : udata (w_val W)) (h : w_entropy W) | Run.
Arguments Setup {W}. Arguments Run {W}.
Fixpoint after {W : World} (cs : list (call W)) (s : Sim W) : Sim W :=
  match cs with
  | [] => s
  | Setup params data h :: cs' => after cs' (snd (sim_setup W params data h s))
  | Run :: cs' => after cs' (snd (sim_run W s))
  end.
(** user-supplied data in every call *)
Definition only_user {W : World} (cs : list (call W)) : Prop :=
  forall params data h, In (Setup params data h) cs -> data <> DNone.

(** ** Files *)
(** a number becomes an array with one element *)
Definition as_array {N} (v : oval N) : oval N := match v with OScal x => OArr [1%nat] [x] | OArr s l => OArr s l end.
(** numbers, and arrays with at least one dimension *)
Definition storable {N} (v : oval N) : Prop := match v with OScal _ => True | OArr s _ => s <> [] end.
(** names without a slash, other than the empty one and "." *)
Definition plain_key (k : string) : Prop := (forall a b, k <> a ++ "/" ++ b) /\ k <> "" /\ k <> ".".
