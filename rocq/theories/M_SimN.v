(** * The Lorenz models inside Simulation: the [World] of M_Sim.v filled in with the models of the
    other classes.  Definitions only.

    Only the names "L63" and "L96" are described.  Parameter values are numbers, integers, text,
    None, truth values, lists of numbers or of rows (an [arr] with the element type that np.asarray
    gives) and lists of truth values.
    A value of a kind the code does not expect is reported as TypeError (numpy's own errors for such
    values, and values that happen to work, for instance a list for the first time, are not modelled). *)
From Coq Require Import ZArith List Bool Arith String.
From Verif Require Import Num Arr M_LinAlg M_Ode M_Sde1 M_L63 M_L96 M_L96E M_Prior M_Like M_VarGP M_Scg M_Run M_Proc M_Sim.
Import ListNotations.
Local Open Scope string_scope.

Inductive leafn (K : Num) := NNum (x : K) | NInt (z : Z) | NStr (s : string) | NNull | NArr (t : dtype) (a : arr K) | NMask (l : list bool) | NBool (b : bool).
Arguments NMask {K}. Arguments NBool {K}. Arguments NNum {K}. Arguments NInt {K}. Arguments NStr {K}. Arguments NNull {K}. Arguments NArr {K}.
Inductive valn (K : Num) :=
| WIdx (l : list nat) | WRows (l : list (vec K)) | WCol (l : list K) | WGrid (l : list (mat K)) | WNoise (a : arr K) | WVec (v : vec K) | WMat (m : mat K).
Arguments WIdx {K}. Arguments WRows {K}. Arguments WCol {K}. Arguments WGrid {K}. Arguments WNoise {K}. Arguments WVec {K}. Arguments WMat {K}.

(** the operator of the likelihood: a matrix, the vector that np.asarray makes of a list of numbers or
    truth values, or something that is not looked at *)
Inductive opn (K : Num) := OpMat (H : mat K) | OpVec (n : nat) (h : vec K) | OpAny.
Arguments OpMat {K}. Arguments OpVec {K}. Arguments OpAny {K}.
(** the likelihood object of rows of observations; [kn_d] is the number of rows of the noise *)
Record LikeN (K : Num) := mkLikeN { kn_d : nat; kn_y : list (vec K); kn_t : list nat; kn_noise : mat K; kn_H : opn K }.
Arguments mkLikeN {K}. Arguments kn_d {K}. Arguments kn_y {K}. Arguments kn_t {K}. Arguments kn_noise {K}. Arguments kn_H {K}.

(** the mean that PriorKL0 stores: one row, or several rows *)
Inductive meann (K : Num) := MVec (v : vec K) | MRows (l : list (vec K)).
Arguments MVec {K}. Arguments MRows {K}.

(** lorenz_96.py:114, the default of dim_d; Simulation passes no other (simulation.py:134-137) *)
Definition default_dim : nat := 40.

Section WorldN.
Context (K : Num) (G : Rng K).
Variable eigvals : nat -> mat K -> list (K * K).
Variable solve : nat -> mat K -> result (vec K -> vec K).   (* np.linalg.solve, as in M_L96E.v *)
Variable nln : K -> K.
Variable npi : K.
Variable spline : list K -> list K -> K -> K.
Variable show : pv (leafn K) -> string.         (* str(x) of values that are no text *)
Local Open Scope num_scope.
Notation P := (pv (leafn K)).

(** true and false count as the integers 1 and 0 *)
Definition of_bool (b : bool) : K := if b then nZ 1 else nZ 0.
Definition nas_num (x : P) : result K :=
  match x with PLeaf (NNum v) => Ok v | PLeaf (NInt z) => Ok (nZ z) | PLeaf (NBool b) => Ok (of_bool b) | _ => Err TypeError end.
Definition nas_dens (x : P) : dens K :=
  match x with PLeaf (NInt z) => DInt z | PLeaf (NBool b) => DInt (Z.b2z b) | PLeaf (NNum v) => DNum v | _ => DBad end.
Definition nas_text (x : P) : string := match x with PLeaf (NStr s) => s | _ => show x end.
(** np.asarray(x): element type and array.  Everything that is not a list has rank 0; the
    constructors look at nothing else of such a value.  (Lists of truth values are modelled as
    operators only, not as noise.) *)
Definition nas_arr (x : P) : dtype * arr K :=
  match x with
  | PLeaf (NArr t a) => (t, a)
  | PLeaf (NNum v) => (Float64, A0 v)
  | PLeaf (NInt z) => (Int64, A0 (nZ z))
  | PLeaf (NBool b) => (Int64, A0 (of_bool b))
  | _ => (Float64, A0 (nZ 0))
  end.
(** np.asarray(theta), as a vector of the drift: three numbers for Lorenz-63 (lorenz_63.py:26), a
    number for Lorenz-96, which the sum of lorenz_96.py:100 broadcasts.  The constructors store any
    value; other ones fail when the trajectory is computed (not modelled). *)
Definition nas_theta (k : kindn) (x : P) : result (vec K) :=
  match k with
  | L63 => match x with PLeaf (NArr _ (A1 3%nat v)) => Ok v | _ => Err TypeError end
  | L96 => let* v := nas_num x in Ok (fun _ => v)
  end.
Definition ntruthy (x : P) : bool :=
  match x with
  | PLeaf (NNum v) => negb (neqb v (nZ 0))
  | PLeaf (NInt z) => negb (Z.eqb z 0)
  | PLeaf (NStr s) => negb (String.eqb s "")
  | PLeaf NNull => false
  | PLeaf (NArr _ (A1 O _)) | PLeaf (NArr _ (A2 O _ _)) => false
  | PLeaf (NArr _ _) => true
  | PLeaf (NMask l) => match l with [] => false | _ => true end
  | PLeaf (NBool b) => b
  | PObj d => match d with [] => false | _ => true end
  end.
(** the integers of an integer array *)
Definition to_int (v : K) : Z := match nfloor v with Some z => z | None => 0%Z end.
(** stochastic_process.py:21-24: what is false counts as no seed; SeedSequence takes integers (also true and
    false) and lists of them, of which it strings the rows together (lists of empty lists are not modelled) *)
Definition nas_seed (x : P) : result pyseed :=
  match x with
  | PLeaf (NInt z) => Ok (SeedInt z)
  | PLeaf (NBool b) => Ok (SeedInt (Z.b2z b))
  | PLeaf (NMask l) => Ok (SeedList (map Z.b2z l))
  | PLeaf (NArr Int64 (A1 n v)) => Ok (SeedList (map (fun i => to_int (v i)) (seq 0 n)))
  | PLeaf (NArr Int64 (A2 (S r) (S c) m)) =>
      Ok (SeedList (flat_map (fun i => map (fun j => to_int (m i j)) (seq 0 (S c))) (seq 0 (S r))))
  | _ => if ntruthy x then Err TypeError else Ok SeedNone
  end.
(** `k in x`: text is searched for k; a list of numbers or rows does not hold a text *)
Fixpoint nsubstring_of (k s : string) : bool :=
  String.prefix k s || match s with EmptyString => false | String _ s' => nsubstring_of k s' end.
Definition nin_leaf (l : leafn K) (k : string) : result bool :=
  match l with NStr s => Ok (nsubstring_of k s) | NArr _ _ | NMask _ => Ok false | _ => Err TypeError end.

Definition modeln := (kindn * PN G)%type.
(** simulation.py:20-21, 86; lorenz_63.py:46-100, lorenz_96.py:113-171: first the seed, then the noise.  A drift that
    does not fit is refused here, in the code by the trajectory. *)
Definition buildn (name : string) (noise drift seed : P) (h : r_state G) : option (result modeln) :=
  let '(t, sigma) := nas_arr noise in
  let mk k init := Some (let* s := nas_seed seed in
                         match nas_theta k drift with
                         | Ok theta => let* p := init theta s in Ok (k, p)
                         | Err e => let* _ := init (fun _ => nZ 0) s in Err e
                         end) in
  if String.eqb name "L63" then mk L63 (fun theta s => l63_init G eigvals t sigma theta s h)
  else if String.eqb name "L96" then mk L96 (fun theta s => l96_init G eigvals t sigma theta s default_dim h)
  else None.
Definition trajn (t0 tf dt : P) (m : modeln) : result unit * modeln :=
  match (let* a := nas_num t0 in let* b := nas_num tf in let* c := nas_num dt in Ok (a, b, c)) with
  | Err e => (Err e, m)
  | Ok (a, b, c) =>
      let '(r, p) := match fst m with
                     | L63 => l63_trajectory G a b c (snd m)
                     | L96 => l96_trajectory G a b c (snd m)
                     end in
      (r, (fst m, p))
  end.
(** simulation.py:151-153: the operator is given as the mask.  What obs_y[:, x] selects: *)
Inductive sel := SelAll | SelMask (l : list bool) | SelCols (l : list Z) | SelOne (z : Z) | SelGrid (r c : nat) (ix : nat -> nat -> Z) | SelBad.
(** Floating point numbers, text and objects are no indexes; true adds an axis of length one, which is
    the same as the list of one row of all columns.  Empty text, empty objects, lists of empty lists
    and deeper lists are not modelled. *)
Definition op_sel (d : nat) (op : P) : result sel :=
  match op with
  | PLeaf NNull | PLeaf (NBool false) | PLeaf (NInt 0%Z) | PLeaf (NMask []) | PLeaf (NArr _ (A1 O _)) => Ok SelAll
  | PLeaf (NNum _) => Ok (if ntruthy op then SelBad else SelAll)
  | PLeaf (NMask l) => Ok (SelMask l)
  | PLeaf (NInt z) => Ok (SelOne z)
  | PLeaf (NBool true) => Ok (SelGrid 1 d (fun _ j => Z.of_nat j))
  | PLeaf (NArr Int64 (A1 n v)) => Ok (SelCols (map (fun i => to_int (v i)) (seq 0 n)))
  | PLeaf (NArr Int64 (A2 (S r) (S c) m)) => Ok (SelGrid (S r) (S c) (fun i j => to_int (m i j)))
  | PLeaf (NArr Float64 (A1 _ _)) | PLeaf (NArr Float64 (A2 (S _) (S _) _)) => Ok SelBad
  | PLeaf (NStr _) | PObj _ => if ntruthy op then Ok SelBad else Err TypeError
  | _ => Err TypeError
  end.
Definition collect_n (density noise op : P) (m : modeln) : result (valn K * valn K * valn K) * modeln :=
  let d := q_dim (snd m) in
  let base := q_base (snd m) in
  let rn := snd (nas_arr noise) in
  let out {Y} (w : Y -> valn K) (x : result (list nat * Y * arr K) * Base G (vec K)) :=
    (let* (t, y, nz) := fst x in Ok (WIdx t, w y, WNoise nz), (fst m, with_baseN G (snd x) (snd m))) in
  let n := nas_dens density in
  match op_sel d op with
  | Err e => (Err e, m)
  | Ok SelAll => out WRows (collectN G n rn None d base)
  | Ok (SelMask l) => out WRows (collectN G n rn (Some l) d base)
  | Ok (SelCols l) => out WRows (collect_ints G n rn l d base)
  | Ok (SelOne z) => out WCol (collect_one G n rn z d base)
  | Ok (SelGrid r c ix) => out WGrid (collect_grid G n rn r c ix d base)
  | Ok SelBad => out WRows (collect_cols G n rn (Err IndexError) base)
  end.
(** simulation.py:166-171 *)
Definition m0_n (m : modeln) : result (valn K) * modeln :=
  match get_path G (q_base (snd m)) with
  | Err e => (Err e, m)
  | Ok [] => (Err IndexError, m)
  | Ok (x :: _) =>
      let '(z, g) := normals G (q_dim (snd m)) (b_rng (q_base (snd m))) in
      (Ok (WVec (fun i => x i + nlit 1 10 * nth i z (nZ 0))),
       (fst m, with_baseN G (set_rng G g (q_base (snd m))) (snd m)))
  end.
(** simulation.py:172 *)
Definition s0_n (m : modeln) : valn K := WMat (mscale (nlit 1 5) meye).
(** simulation.py:175-176: the product of the prior values with ones(dim_d), and with eye(dim_d).  A list on the
    left of *= has no such operator, so numpy multiplies its entries after fitting the shapes to each other: an
    extent of one is repeated, any other one has to agree.  The list of the caller stays as it is.  (An array
    would be changed in place; parameter files hold no arrays.)  The dimension is not one; lists of matrices are
    not modelled. *)
Definition fits (k d : nat) : bool := Nat.eqb k d || Nat.eqb k 1.
Definition pick (k i : nat) : nat := if Nat.eqb k 1 then 0%nat else i.
Definition nas_list (x : P) : P :=
  match x with
  | PLeaf (NMask l) => PLeaf (NArr Int64 (A1 (List.length l) (fun i => of_bool (nth i l false))))
  | PLeaf (NArr t (A0 v)) => PLeaf (NNum v)
  | _ => x
  end.
Definition mu0_n (x : P) (m : modeln) : result (valn K) :=
  let d := q_dim (snd m) in
  match nas_list x with
  | PLeaf (NArr _ (A1 k v)) => if fits k d then Ok (WVec (fun i => v (pick k i) * nZ 1)) else Err ValueError
  | PLeaf (NArr _ (A2 r c a)) =>
      if fits c d then Ok (WRows (map (fun i j => a i (pick c j) * nZ 1) (seq 0 r))) else Err ValueError
  | y => let* v := nas_num y in Ok (WVec (fun _ => v * nZ 1))
  end.
Definition tau0_n (x : P) (m : modeln) : result (valn K) :=
  let d := q_dim (snd m) in
  match nas_list x with
  | PLeaf (NArr _ (A1 k v)) => if fits k d then Ok (WMat (fun i j => v (pick k j) * meye i j)) else Err ValueError
  | PLeaf (NArr _ (A2 r c a)) =>
      if fits r d && fits c d then Ok (WMat (fun i j => a (pick r i) (pick c j) * meye i j)) else Err ValueError
  | y => let* v := nas_num y in Ok (WMat (mscale v meye))
  end.
(** simulation.py:199-203: the operator of the likelihood; a number is the multiple of the identity that
    it multiplies with.  Observations that are no rows, and the noise of rows of one component, are not
    kept: they make the run fail before they are used (see [optimisen]). *)
Definition op_like (y : list (vec K)) (op : P) : result (opn K) :=
  match op with
  | PLeaf NNull => let* H := like_op_nd y None in Ok (OpMat H)
  | PLeaf (NMask l) => Ok (OpVec (List.length l) (fun i => of_bool (nth i l false)))
  | PLeaf (NArr _ (A1 n v)) => Ok (OpVec n v)
  | PLeaf (NNum v) => Ok (OpMat (mscale v meye))
  | PLeaf (NInt z) => Ok (OpMat (mscale (nZ z) meye))
  | PLeaf (NBool b) => Ok (OpMat (mscale (of_bool b) meye))
  | _ => Err TypeError
  end.
Definition like_n (y t n : valn K) (op : P) (single : bool) : result (LikeN K) :=
  match y, t, n with
  | WRows y, WIdx t, WNoise (A2 d _ C) => let* H := op_like y op in Ok (mkLikeN d y t C H)
  | WCol _, WIdx t, WNoise _ | WGrid _, WIdx t, WNoise _ => Ok (mkLikeN 0 [] t meye OpAny)
  | _, _, _ => Err TypeError
  end.
Definition kl0_n (mu tau : P + valn K) (single : bool) : result (meann K * mat K) :=
  match mu, tau with
  | inr (WVec mu), inr (WMat tau) => Ok (MVec mu, tau)
  | inr (WRows mu), inr (WMat tau) => Ok (MRows mu, tau)
  | _, _ => Err TypeError
  end.

Definition energyn (p : modeln) (dt : K) : @sden K :=
  match fst p with
  | L63 => fun a b m s o => Ok (l63_energy (q_theta (snd p)) (q_isig (snd p)) dt a b m s o)
  | L96 => l96_energy solve (q_dim (snd p)) (q_theta (snd p)) (q_isig (snd p)) dt
  end.
(** calling the likelihood object, and its gradients.  A vector of another length than the rows
    does not fit the product with it (gaussian_like.py:119, 222); the rows of the noise, of the observations and
    the dimension agree (see [optimisen]). *)
Definition like_calln (l : LikeN K) (m : list (vec K)) (s : list (mat K)) : result K :=
  match kn_H l with
  | OpMat H => like_nd nln npi (kn_d l) (kn_y l) (kn_t l) (kn_noise l) H m s
  | OpVec n h =>
      if Nat.eqb n (kn_d l)
      then like_nd_vec nln npi (kn_d l) (kn_y l) (kn_t l) (kn_noise l) h m s
      else Err ValueError
  | OpAny => Err ValueError
  end.
Definition like_gradn (l : LikeN K) (m : list (vec K)) : result (list (vec K) * list (mat K) * (nat * nat * nat)) :=
  match kn_H l with
  | OpMat H => like_grad_nd (kn_d l) (kn_y l) (kn_t l) (kn_noise l) H m
  | OpVec n h =>
      if Nat.eqb n (kn_d l)
      then like_grad_nd_vec (kn_d l) (kn_y l) (kn_t l) (kn_noise l) h m
      else Err ValueError
  | OpAny => Err ValueError
  end.
(** calling the prior object: the mean of the path is subtracted from every row (prior_kl0.py:84) *)
Definition kl0_calln (d : nat) (pr : meann K * mat K) (m0 : vec K) (s0 : mat K) : result K :=
  match fst pr with
  | MVec mu => kl0_nd nln d mu (snd pr) m0 s0
  | MRows l => kl0_nd_rows nln d (List.length l) (fun i => nth i l (fun _ => nZ 0)) (snd pr) (fun _ => m0) s0
  end.
(** the VarGP object of lines 209-212: the forward and backward objects carry the time step of the
    parameters, the energy and the gradient the one of the model (variational.py:55) *)
Definition sim_envn (p : modeln) (n : nat) (step : K) (m0 : vec K) (s0 : mat K) (fwd bwd : solver K) (l : LikeN K)
  (pr : meann K * mat K) (obs_t : list nat) : Env K :=
  let d := q_dim (snd p) in
  mkEnv (sysn K d) n step m0 s0 (q_sigma (snd p)) (q_isig (snd p))
    (unpackn n d) (packn d)
    (fwd_ode_calln d fwd)
    (like_calln l)
    (fun a b m s => let* e := energyn p step a b m s (Some obs_t) in
                    Ok (n_sde e, (n_f e, n_df e), (n_dm e, n_ds e)))
    (fun m s => let* (g, _) := like_gradn l m in Ok g)
    (bwd_ode_calln d bwd)
    (fun m s => kl0_calln d pr m s)
    (dEsde_dbn d) (dEsde_dan d) (grad_atn d).

(** arrays of n vectors and of n matrices *)
Definition arr_v (d : nat) (l : list (vec K)) : oval K := OArr [List.length l; d] (ravel2 d l).
Definition arr_m (d : nat) (l : list (mat K)) : oval K := OArr [List.length l; d; d] (ravel3 d l).
(** variational.py:66 and 187-196: arg_out *)
Definition arg_outn (d : nat) (m0 : vec K) (s0 : mat K) (mt : list (vec K)) (st : list (mat K)) (Efx : list (vec K)) (Edf : list (mat K))
  (lamt : list (vec K)) (psit : list (mat K)) : dict (oval K) :=
  [("m0", OArr [d] (map m0 (seq 0 d))); ("s0", OArr [d; d] (ravel2 d (map s0 (seq 0 d))));
   ("mt", arr_v d mt); ("st", arr_m d st); ("Efx", arr_v d Efx); ("Edf", arr_m d Edf); ("lamt", arr_v d lamt); ("psit", arr_m d psit)].
(** With observations of fewer components than the state, the sum of variational.py:129 has terms of
    different lengths and raises ValueError.  (Rows of one component would pass it; but collect_obs
    gives them no covariance matrix unless there is one row, and then the inner product of
    gaussian_like.py:145 raises ValueError.)  Observations that are numbers or matrices do not fit
    the numpy.vstack of variational.py:105; with one number it succeeds, and then its shape is not a
    pair (gaussian_like.py:113): ValueError in each case, and IndexError if there are none. *)
Definition optimisen (m : modeln) (m0 s0 : valn K) (fwd bwd : solver K) (l : LikeN K) (pr : meann K * mat K) (y t : valn K)
  : result (oval K * oval K * oval K * dict (oval K)) :=
  match m0, s0, y, t with
  | WVec m0, WMat s0, WRows y, WIdx t =>
      let d := q_dim (snd m) in
      let* step := time_step G (q_base (snd m)) in
      let* path := get_path G (q_base (snd m)) in
      let* tw := get_window G (q_base (snd m)) in
      let n := List.length path in
      let* x0 := initn spline d step (q_sigma (snd m)) tw t y in
      let* _ := if Nat.eqb (kn_d l) d then Ok tt else Err ValueError in
      let E := sim_envn m n step m0 s0 fwd bwd l pr t in
      let* r := sim_runn E n d x0 in
      match r_arg r with
      | None => Err KeyError                    (* free_energy never completed: does not happen *)
      | Some o =>
          Ok (arr_m d (r_at r), arr_v d (r_bt r), OScal (r_fx r),
              arg_outn d m0 s0 (o_mt o) (o_st o) (o_Efx o) (o_Edf o) (o_lam o) (o_psi o))
      end
  | WVec _, WMat _, WCol y, WIdx _ => Err (match y with [] => IndexError | _ => ValueError end)
  | WVec _, WMat _, WGrid y, WIdx _ => Err (match y with [] => IndexError | _ => ValueError end)
  | _, _, _, _ => Err TypeError
  end.

Definition worldn : World :=
  mkWorld (leafn K) modeln (valn K) K (r_state G)
    nas_text ntruthy (fun l => match l with NNull => true | _ => false end) nin_leaf
    buildn (fun _ => false) trajn collect_n m0_n s0_n mu0_n tau0_n
    (solver K) (LikeN K) (meann K * mat K)
    (fun dt mtd single => let* d := nas_num dt in fwd_ode_init d (nas_text mtd) single)
    (fun dt mtd single => let* d := nas_num dt in bwd_ode_init d (nas_text mtd) single)
    like_n kl0_n optimisen.
End WorldN.
