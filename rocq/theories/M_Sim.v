(** * Model of simulation.py (Simulation, load) and vgpa_main.py (validate_input_parameters_file,
    main).  Definitions only.

    Dictionaries are association lists in insertion order.  What the other classes compute is a
    parameter ([World]); M_Sim1.v fills it in for the one-dimensional models.  Printing and timing
    are left out.  Every [OSError] of a file operation is modelled as FileNotFoundError. *)
From Coq Require Import ZArith List Bool Arith String Ascii.
From Verif Require Import Num.
Import ListNotations.
Local Open Scope string_scope.

(** ** Dictionaries with string keys *)
Definition dict (V : Type) := list (string * V).
Fixpoint dget {V} (k : string) (d : dict V) : option V :=
  match d with
  | [] => None
  | (k', v) :: d' => if String.eqb k k' then Some v else dget k d'
  end.
(** d[k] = v: an existing entry keeps its place *)
Fixpoint dset {V} (k : string) (v : V) (d : dict V) : dict V :=
  match d with
  | [] => [(k, v)]
  | (k', v') :: d' => if String.eqb k k' then (k', v) :: d' else (k', v') :: dset k v d'
  end.
(** d.update(e) *)
Definition dupdate {V} (d e : dict V) : dict V := fold_left (fun d kv => dset (fst kv) (snd kv) d) e d.
(** d[k] *)
Definition ditem {V} (d : dict V) (k : string) : result V :=
  match dget k d with Some v => Ok v | None => Err KeyError end.

(** ** Parameter values: dictionaries (JSON objects) and everything else *)
Inductive pv (L : Type) := PLeaf (l : L) | PObj (d : dict (pv L)).
Arguments PLeaf {L}. Arguments PObj {L}.
(** x[k] for a string k: only dictionaries have such items *)
Definition item {L} (x : pv L) (k : string) : result (pv L) :=
  match x with PObj d => ditem d k | PLeaf _ => Err TypeError end.

(** The argument `data` of setup(): None, the data frame that main reads (its columns are called
    "t" and "Yt"), or a sequence of arrays *)
Inductive udata (V : Type) := DNone | DFrame | DSeq (l : list V).
Arguments DNone {V}. Arguments DFrame {V}. Arguments DSeq {V}.
(** data[i] *)
Definition data_item {V} (x : udata V) (i : nat) : result V :=
  match x with
  | DNone => Err TypeError
  | DFrame => Err KeyError
  | DSeq l => match nth_error l i with Some v => Ok v | None => Err IndexError end
  end.

(** ** Arrays in the output dictionary: a number, or shape and elements in row-major order (shape
    [] is a 0-dimensional array) *)
Inductive oval (N : Type) := OScal (x : N) | OArr (shape : list nat) (l : list N).
Arguments OScal {N}. Arguments OArr {N}.
(** simulation.py:296-298: np.isscalar / np.atleast_1d *)
Definition unscalar {N} (v : oval N) : oval N := match v with OScal x => OArr [1%nat] [x] | a => a end.

(** ** What the classes used by Simulation do *)
Record World := mkWorld {
  w_leaf : Type;                                  (* parameter values that are not dictionaries *)
  w_model : Type;                                 (* stochastic models, with their generator *)
  w_val : Type;                                   (* observations, moments, noise *)
  w_num : Type;                                   (* elements of output arrays *)
  w_entropy : Type;                               (* what the operating system gives to default_rng() *)
  w_str : pv w_leaf -> string;                    (* str(x) *)
  w_truthy : pv w_leaf -> bool;
  w_isnone : w_leaf -> bool;                      (* x is None *)
  w_contains : w_leaf -> string -> result bool;   (* k in x (lists, strings); TypeError for others *)
  (* dynamical_systems[name](noise, drift, seed) *)
  w_build : string -> pv w_leaf -> pv w_leaf -> pv w_leaf -> w_entropy -> option (result w_model);
  w_single : w_model -> bool;
  w_traj : pv w_leaf -> pv w_leaf -> pv w_leaf -> w_model -> result unit * w_model;
  w_collect : pv w_leaf -> pv w_leaf -> pv w_leaf -> w_model -> result (w_val * w_val * w_val) * w_model;
  w_m0 : w_model -> result w_val * w_model;       (* sample_path[0] + 0.1 * standard_normal(..) *)
  w_s0 : w_model -> w_val;
  w_mu0 : pv w_leaf -> w_model -> result w_val;   (* mu0 * ones(dim_d) *)
  w_tau0 : pv w_leaf -> w_model -> result w_val;  (* tau0 * eye(dim_d) *)
  w_ode : Type; w_like : Type; w_kl0 : Type;
  w_fwd : pv w_leaf -> pv w_leaf -> bool -> result w_ode;
  w_bwd : pv w_leaf -> pv w_leaf -> bool -> result w_ode;
  (* values, times, noise, operator *)
  w_mklike : w_val -> w_val -> w_val -> pv w_leaf -> bool -> result w_like;
  w_mkkl0 : pv w_leaf + w_val -> pv w_leaf + w_val -> bool -> result w_kl0;
  (* lines 209-266: model, m0, s0, forward, backward, likelihood, prior, obs_y, obs_t; the entries
     at, bt, fx and arg_out *)
  w_optimise : w_model -> w_val -> w_val -> w_ode -> w_ode -> w_like -> w_kl0 -> w_val -> w_val ->
               result (oval w_num * oval w_num * oval w_num * dict (oval w_num));
}.

(** Values of self.m_data *)
Inductive slot (W : World) :=
| SPar (x : pv (w_leaf W))         (* as given in the parameters *)
| SVal (v : w_val W)
| SModel (m : w_model W)
| SFlag (b : bool).
Arguments SPar {W}. Arguments SVal {W}. Arguments SModel {W}. Arguments SFlag {W}.
Definition mdata (W : World) := dict (slot W).

Section Sim.
Context (W : World).
Notation P := (pv (w_leaf W)).

(** ** setup: computations on self.m_data that may raise *)
Definition S_ (A : Type) := mdata W -> result A * mdata W.
Definition sret {A} (a : A) : S_ A := fun d => (Ok a, d).
Definition sbind {A B} (m : S_ A) (k : A -> S_ B) : S_ B := fun d =>
  match m d with (Ok a, d') => k a d' | (Err e, d') => (Err e, d') end.
Notation "'do' x <- m 'in' k" := (sbind m (fun x => k)) (at level 200, x pattern, m at level 100, k at level 200).
Definition lift {A} (r : result A) : S_ A := fun d => (r, d).
(** self.m_data[k] = v *)
Definition put (k : string) (v : slot W) : S_ unit := fun d => (Ok tt, dset k v d).
(** self.m_data[k] *)
Definition get (k : string) : S_ (slot W) := fun d => (ditem d k, d).
(** self.m_data[k][j]; only parameter dictionaries are read in this way *)
Definition get2 (k j : string) : S_ P := fun d =>
  (let* s := ditem d k in match s with SPar x => item x j | _ => Err TypeError end, d).
(** self.m_data[k], used as an object of the type expected there *)
Definition get_par (k : string) : S_ P := fun d =>
  (let* s := ditem d k in match s with SPar x => Ok x | _ => Err AttributeError end, d).
Definition get_model (k : string) : S_ (w_model W) := fun d =>
  (let* s := ditem d k in match s with SModel m => Ok m | _ => Err AttributeError end, d).
Definition get_flag (k : string) : S_ bool := fun d =>
  (let* s := ditem d k in match s with SFlag b => Ok b | _ => Err AttributeError end, d).
Definition get_val (k : string) : S_ (w_val W) := fun d =>
  (let* s := ditem d k in match s with SVal v => Ok v | _ => Err AttributeError end, d).
Definition get_prior (k : string) : S_ (P + w_val W) := fun d =>
  (let* s := ditem d k in match s with SPar x => Ok (inl x) | SVal v => Ok (inr v) | _ => Err AttributeError end, d).
(** a method of the model that may change it (the model is a mutable object) *)
Definition on_model {A} (f : w_model W -> result A * w_model W) : S_ A :=
  do m <- get_model "model" in
  let '(r, m') := f m in
  do _ <- put "model" (SModel m') in lift r.

(** str(model).upper() on ASCII text *)
Definition upper_ascii (c : ascii) : ascii :=
  let n := nat_of_ascii c in if Nat.leb 97 n && Nat.leb n 122 then ascii_of_nat (n - 32) else c.
Fixpoint upper (s : string) : string :=
  match s with EmptyString => EmptyString | String c s' => String (upper_ascii c) (upper s') end.

(** simulation.py:67-91.  The text of a dictionary begins with a brace, so that it is no name of a
    model.  A KeyError raised by the constructor would be reported in the same way. *)
Definition stochastic_model (name noise drift seed : P) (h : w_entropy W) : result (w_model W) :=
  match name with
  | PObj _ => Err ValueError
  | PLeaf _ =>
      match w_build W (upper (w_str W name)) noise drift seed h with
      | None => Err ValueError
      | Some (Err KeyError) => Err ValueError
      | Some r => r
      end
  end.

(** lines 109-130 *)
Definition setup_params (params : P) : S_ unit :=
  do x <- lift (item params "Drift") in do _ <- put "drift" (SPar x) in
  do x <- lift (item params "Noise") in do _ <- put "noise" (SPar x) in
  do x <- lift (item params "Time-window") in do _ <- put "time_window" (SPar x) in
  do x <- lift (item params "Ode-method") in do _ <- put "ode_solver" (SPar x) in
  do x <- lift (item params "Random-Seed") in do _ <- put "random_seed" (SPar x) in
  do x <- lift (item params "Observations") in do _ <- put "obs_setup" (SPar x) in
  do x <- lift (item params "Prior") in do y <- lift (item x "mu0") in do _ <- put "mu0" (SPar y) in
  do x <- lift (item params "Prior") in do y <- lift (item x "tau0") in put "tau0" (SPar y).
(** lines 132-148 *)
Definition setup_model (params : P) (h : w_entropy W) : S_ unit :=
  do noise <- get2 "noise" "sys" in
  do drift <- get2 "drift" "theta" in
  do seed <- get_par "random_seed" in
  do name <- lift (item params "Model") in
  do m <- lift (stochastic_model name noise drift seed h) in
  do _ <- put "model" (SModel m) in
  do m <- get_model "model" in
  do _ <- put "single_dim" (SFlag (w_single W m)) in
  do t0 <- get2 "time_window" "t0" in
  do tf <- get2 "time_window" "tf" in
  do dt <- get2 "time_window" "dt" in
  on_model (w_traj W t0 tf dt).
(** lines 150-163 *)
Definition setup_obs (data : udata (w_val W)) : S_ unit :=
  match data with
  | DNone =>
      do density <- get2 "obs_setup" "density" in
      do noise <- get2 "noise" "obs" in
      do op <- get2 "obs_setup" "operator" in
      do (t, y, n) <- on_model (w_collect W density noise op) in
      do _ <- put "obs_t" (SVal t) in
      do _ <- put "obs_y" (SVal y) in
      put "obs_noise" (SVal n)
  | _ =>
      do t <- lift (data_item data 0) in
      do _ <- put "obs_t" (SVal t) in
      do y <- lift (data_item data 1) in
      put "obs_y" (SVal y)
  end.
(** lines 165-182 *)
Definition setup_moments : S_ unit :=
  do single <- get_flag "single_dim" in
  do m0 <- on_model (w_m0 W) in
  do _ <- put "m0" (SVal m0) in
  do m <- get_model "model" in
  do _ <- put "s0" (SVal (w_s0 W m)) in
  if single then sret tt
  else
    do mu0 <- get_par "mu0" in
    do x <- lift (w_mu0 W mu0 m) in
    do _ <- put "mu0" (SVal x) in
    do tau0 <- get_par "tau0" in
    do x <- lift (w_tau0 W tau0 m) in
    put "tau0" (SVal x).
(** lines 94-183 *)
Definition setup (params : P) (data : udata (w_val W)) (h : w_entropy W) : S_ unit :=
  do _ <- setup_params params in
  do _ <- setup_model params h in
  do _ <- setup_obs data in
  setup_moments.

(** ** run, lines 185-267 *)
Definition run_result := (oval (w_num W) * oval (w_num W) * oval (w_num W) * dict (oval (w_num W)))%type.
Definition run_core : S_ run_result :=
  do dt <- get2 "time_window" "dt" in
  do mtd <- get_par "ode_solver" in
  do single <- get_flag "single_dim" in
  do fwd <- lift (w_fwd W dt mtd single) in
  do bwd <- lift (w_bwd W dt mtd single) in
  do y <- get_val "obs_y" in
  do t <- get_val "obs_t" in
  do n <- get_val "obs_noise" in
  do op <- get2 "obs_setup" "operator" in
  do like <- lift (w_mklike W y t n op single) in
  do mu0 <- get_prior "mu0" in
  do tau0 <- get_prior "tau0" in
  do kl0 <- lift (w_mkkl0 W mu0 tau0 single) in
  do m <- get_model "model" in
  do m0 <- get_val "m0" in
  do s0 <- get_val "s0" in
  lift (w_optimise W m m0 s0 fwd bwd like kl0 y t).
(** lines 243-266: at, bt and fx are stored, then arg_out is merged in *)
Definition store (r : run_result) (out : dict (oval (w_num W))) : dict (oval (w_num W)) :=
  let '(a, b, fx, arg) := r in
  dupdate (dset "fx" fx (dset "bt" b (dset "at" a out))) arg.

(** ** The object *)
Record Sim := mkSim { s_name : string; s_data : mdata W; s_out : dict (oval (w_num W)) }.
(** lines 47-64 *)
Definition sim_init (name : option P) : Sim :=
  mkSim (match name with
         | Some x => if w_truthy W x then w_str W x else "ID_None"
         | None => "ID_None"
         end) [] [].
Definition sim_setup (params : P) (data : udata (w_val W)) (h : w_entropy W) (s : Sim) : result unit * Sim :=
  let '(r, d) := setup params data h (s_data s) in (r, mkSim (s_name s) d (s_out s)).
Definition sim_run (s : Sim) : result unit * Sim :=
  match fst (run_core (s_data s)) with
  | Ok r => (Ok tt, mkSim (s_name s) (s_data s) (store r (s_out s)))
  | Err e => (Err e, s)
  end.
End Sim.
Arguments s_name {W}. Arguments s_data {W}. Arguments s_out {W}. Arguments mkSim {W}.

(** ** HDF5 files: a tree of groups and datasets *)
Inductive node (A : Type) := Dset (a : A) | Group (l : dict (node A)).
Arguments Dset {A}. Arguments Group {A}.
(** the components of a dataset name; empty ones and "." stand for the group itself *)
Fixpoint split_slash (s : string) (acc : string) : list string :=
  match s with
  | EmptyString => [acc]
  | String c s' => if Ascii.eqb c "/" then acc :: split_slash s' "" else split_slash s' (acc ++ String c "")
  end.
Definition components (s : string) : list string :=
  filter (fun c => negb (String.eqb c "" || String.eqb c ".")) (split_slash s "").
(** create a dataset, with the groups on its way; ValueError when the name is taken or leads
    through a dataset, or has no components *)
Fixpoint h5_create {A} (p : list string) (a : A) (g : dict (node A)) : result (dict (node A)) :=
  match p with
  | [] => Err ValueError
  | [k] => match dget k g with None => Ok (dset k (Dset a) g) | Some _ => Err ValueError end
  | k :: p' =>
      match dget k g with
      | None => let* g' := h5_create p' a [] in Ok (dset k (Group g') g)
      | Some (Group l) => let* g' := h5_create p' a l in Ok (dset k (Group g') g)
      | Some (Dset _) => Err ValueError
      end
  end.
(** create_dataset(key, data=a, shape=a.shape, compression='gzip'): filters need at least one
    dimension *)
Definition create_dataset {N} (key : string) (v : oval N) (g : dict (node (oval N))) : result (dict (node (oval N))) :=
  match v with
  | OScal _ => Err AttributeError
  | OArr [] _ => Err TypeError
  | OArr _ _ => h5_create (components key) v g
  end.

(** ** Files *)
Record Disk (Path File : Type) := mkDisk { d_read : Path -> option File; d_can_write : Path -> bool }.
Arguments d_read {Path File}. Arguments d_can_write {Path File}. Arguments mkDisk {Path File}.

(** str.strip() and str.replace(" ", "_") on ASCII text *)
Definition is_space (c : ascii) : bool :=
  let n := nat_of_ascii c in (Nat.leb 9 n && Nat.leb n 13) || (Nat.leb 28 n && Nat.leb n 32).
Fixpoint lstrip (s : string) : string :=
  match s with String c s' => if is_space c then lstrip s' else s | EmptyString => s end.
Fixpoint rstrip (s : string) : string :=
  match s with
  | EmptyString => EmptyString
  | String c s' =>
      match rstrip s' with
      | EmptyString => if is_space c then EmptyString else String c EmptyString
      | r => String c r
      end
  end.
Definition strip (s : string) : string := rstrip (lstrip s).
Fixpoint underscores (s : string) : string :=
  match s with
  | EmptyString => EmptyString
  | String c s' => String (if Ascii.eqb c " " then "_" else c) (underscores s')
  end%char.
(** line 287 *)
Definition file_name (name : string) : string := underscores (strip name) ++ ".h5".

Section Files.
Context {N Path : Type} (path : string -> Path) (path_eqb : Path -> Path -> bool).
Definition H5 := dict (node (oval N)).
Notation disk := (Disk Path H5).
Definition write (p : Path) (f : H5) (k : disk) : disk :=
  mkDisk (fun q => if path_eqb p q then Some f else d_read k q) (d_can_write k).

(** lines 291-305: the loop over the output; what has been converted and written when an entry
    fails stays *)
Fixpoint save_loop (todo : dict (oval N)) (g : H5) (out : dict (oval N)) : result unit * H5 * dict (oval N) :=
  match todo with
  | [] => (Ok tt, g, out)
  | (k, v) :: todo' =>
      let v' := unscalar v in
      let out' := dset k v' out in
      match create_dataset k v' g with
      | Ok g' => save_loop todo' g' out'
      | Err e => (Err e, g, out')
      end
  end.
(** lines 269-308: the result, the disk and self.output afterwards *)
Definition save_out (name : string) (out : dict (oval N)) (k : disk) : result unit * disk * dict (oval N) :=
  match out with
  | [] => (Ok tt, k, out)
  | _ =>
      let p := path (file_name name) in
      if d_can_write k p then
        let '(r, g, out') := save_loop out [] out in (r, write p g k, out')
      else (Err FileNotFoundError, k, out)
  end.

(** lines 312-344.  What np.array makes of a group is left open. *)
Variable of_group : dict (node (oval N)) -> result (oval N).
Definition of_node (n : node (oval N)) : result (oval N) :=
  match n with Dset a => Ok a | Group g => of_group g end.
Fixpoint load_all (g : H5) : result (dict (oval N)) :=
  match g with
  | [] => Ok []
  | (k, n) :: g' => let* v := of_node n in let* r := load_all g' in Ok ((k, v) :: r)
  end.
Definition load (filename : option string) (k : disk) : result (dict (oval N)) :=
  match filename with
  | None => Err RuntimeError
  | Some f => match d_read k (path f) with None => Err FileNotFoundError | Some g => load_all g end
  end.
End Files.

(** ** vgpa_main.py *)
Definition required_keys : list string :=
  ["Output_Name"; "Model"; "Ode-method"; "Time-window"; "Noise"; "Observations"; "Drift"; "Prior"; "Random-Seed"].
Inductive outcome := Return | Exit (status : Z) | Uncaught (e : exn).
(** exit status of the interpreter *)
Definition exit_status (o : outcome) : Z := match o with Return => 0 | Exit z => z | Uncaught _ => 1 end.

Section Main.
Context (W : World) {Path : Type} (path : string -> Path) (path_eqb : Path -> Path -> bool).
Notation P := (pv (w_leaf W)).
Definition contains (x : P) (k : string) : result bool :=
  match x with PObj d => Ok (match dget k d with Some _ => true | None => false end) | PLeaf l => w_contains W l k end.
(** lines 37-50: [order] is the order in which the set is traversed *)
Fixpoint check_keys (order : list string) (x : P) : result unit :=
  match order with
  | [] => Ok tt
  | k :: order' => let* b := contains x k in if b then check_keys order' x else Err ValueError
  end.
(** lines 14-57; [parsed] is what open() and json.load() give (a malformed text raises
    JSONDecodeError, a ValueError) *)
Definition validate (order : list string) (parsed : result P) : result P :=
  let* x := parsed in
  let* _ := check_keys order x in
  Ok x.

(** open(f), then json.load, respectively pandas.read_csv with the column names "t" and "Yt" *)
Variable read_json : string -> result P.
Variable read_csv : string -> result unit.
Notation disk := (Disk Path (dict (node (oval (w_num W))))).

(** lines 123-142 *)
Definition stages (name : option P) (params : P) (data : udata (w_val W)) (h : w_entropy W) (k : disk)
  : result unit * disk :=
  let s := sim_init W name in
  match sim_setup W params data h s with
  | (Err e, _) => (Err e, k)
  | (Ok _, s1) =>
      match sim_run W s1 with
      | (Err e, _) => (Err e, k)
      | (Ok _, s2) => let '(r, k', _) := save_out path path_eqb (s_name s2) (s_out s2) k in (r, k')
      end
  end.
(** lines 60-144 *)
Definition main (order : list string) (params_file data_file : option string) (none_name : w_leaf W)
  (h : w_entropy W) (k : disk) : outcome * disk :=
  match params_file with
  | None => (Exit 1, k)
  | Some pf =>
      match validate order (read_json pf) with
      | Err ValueError => (Exit 1, k)
      | Err e => (Uncaught e, k)
      | Ok params =>
          let data := match data_file with
                      | None => Ok DNone
                      | Some df => let* _ := read_csv df in Ok DFrame
                      end in
          match data with
          | Err e => (Uncaught e, k)
          | Ok obs_data =>
              match item params "Output_Name" with
              | Err e => (Uncaught e, k)
              | Ok name =>
                  (* None becomes "Sim_00" *)
                  let name := match name with
                              | PLeaf l => if w_isnone W l then PLeaf none_name else name
                              | _ => name
                              end in
                  match stages (Some name) params obs_data h k with
                  | (Ok _, k') => (Return, k')
                  | (Err _, k') => (Exit 1, k')
                  end
              end
          end
      end
  end.
End Main.
