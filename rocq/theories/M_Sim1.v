(** * The one-dimensional models inside Simulation: the [World] of M_Sim.v filled in with the
    models of the other classes.  Definitions only.

    Only the names "DW" and "OU" are described.  Parameter values are numbers, integers, text, None,
    true and false, and lists of integers, of truth values or of numbers (not nested; a list of integers may be
    empty).  A value of a kind the code does not expect is reported as TypeError (numpy's own errors for such
    values are not modelled, nor lists that happen to work: as observation noise, as prior, and as the operator of a
    run that follows a refused setup). *)
From Coq Require Import ZArith List Bool Arith String.
From Verif Require Import Num Arr M_LinAlg M_Ode M_Sde1 M_Prior M_Like M_VarGP M_Scg M_Run M_Proc M_Sim.
Import ListNotations.
Local Open Scope string_scope.

Inductive leaf (K : Num) := LNum (x : K) | LInt (z : Z) | LStr (s : string) | LNull | LBool (b : bool)
  | LInts (l : list Z) | LFlags (l : list bool) | LNums (l : list K).
Arguments LNum {K}. Arguments LInt {K}. Arguments LStr {K}. Arguments LNull {K}. Arguments LBool {K}.
Arguments LInts {K}. Arguments LFlags {K}. Arguments LNums {K}.
Inductive val1 (K : Num) := VIdx (l : list nat) | VVals (l : list K) | VNoise (a : arr K) | VNum (x : K)
  | VCol (x : K).                                (* a 1 x 1 array *)
Arguments VIdx {K}. Arguments VVals {K}. Arguments VNoise {K}. Arguments VNum {K}. Arguments VCol {K}.

(** the likelihood object of one-dimensional observations; the operator is used by the gradients only, where an
    operator that is no number raises *)
Record Like1 (K : Num) := mkLike1 { k_y : list K; k_t : list nat; k_noise : K; k_H : result K }.
Arguments mkLike1 {K}. Arguments k_y {K}. Arguments k_t {K}. Arguments k_noise {K}. Arguments k_H {K}.

Section World1.
Context (K : Num) (G : Rng K).
Variable nln : K -> K.
Variable npi : K.
Variable spline : list K -> list K -> K -> K.
Variable show : pv (leaf K) -> string.          (* str(x) of values that are no text *)
Local Open Scope num_scope.
Notation P := (pv (leaf K)).

Definition as_num (x : P) : result K :=
  match x with PLeaf (LNum v) => Ok v | PLeaf (LInt z) => Ok (nZ z) | PLeaf (LBool b) => Ok (nZ (Z.b2z b)) | _ => Err TypeError end.
Definition as_dens (x : P) : dens K :=
  match x with PLeaf (LInt z) => DInt z | PLeaf (LBool b) => DInt (Z.b2z b) | PLeaf (LNum v) => DNum v | _ => DBad end.
Definition as_text (x : P) : string := match x with PLeaf (LStr s) => s | _ => show x end.
(** false are 0, 0.0, the empty text, None, {}, [] *)
Definition truthy (x : P) : bool :=
  match x with
  | PLeaf (LNum v) => negb (neqb v (nZ 0))
  | PLeaf (LInt z) => negb (Z.eqb z 0)
  | PLeaf (LStr s) => negb (String.eqb s "")
  | PLeaf LNull => false
  | PLeaf (LBool b) => b
  | PLeaf (LInts l) => match l with [] => false | _ => true end
  | PLeaf (LFlags l) => match l with [] => false | _ => true end
  | PLeaf (LNums l) => match l with [] => false | _ => true end
  | PObj d => match d with [] => false | _ => true end
  end.
(** stochastic_process.py:21-24: what is false counts as no seed; SeedSequence takes integers (also true and
    false) and lists of them *)
Definition as_seed (x : P) : result pyseed :=
  match x with
  | PLeaf (LInt z) => Ok (SeedInt z)
  | PLeaf (LBool b) => Ok (SeedInt (Z.b2z b))
  | PLeaf (LInts l) => Ok (SeedList l)
  | PLeaf (LFlags l) => Ok (SeedList (map Z.b2z l))
  | _ => if truthy x then Err TypeError else Ok SeedNone
  end.
(** `k in x`: text is searched for k *)
Fixpoint substring_of (k s : string) : bool :=
  String.prefix k s || match s with EmptyString => false | String _ s' => substring_of k s' end.
Definition in_leaf (l : leaf K) (k : string) : result bool :=
  match l with
  | LStr s => Ok (substring_of k s)
  | LInts _ | LFlags _ | LNums _ => Ok false
  | _ => Err TypeError
  end.

Definition model1 := (kind1 * P1 G)%type.
(** ornstein_uhlenbeck.py:17-51, double_well.py:22-51: first the seed, then the noise, then the drift.  Simplification:
    a drift of DW that is no number is refused here; in the code make_trajectory does so, after the model has been
    replaced. *)
Definition build1 (name : string) (noise drift seed : P) (h : r_state G) : option (result model1) :=
  let mk k := Some (let* s := as_seed seed in
                    let* b := base_init (X:=K) G s h in
                    let* sigma := as_num noise in
                    match as_num drift with
                    | Ok theta => let* p := init1d G k sigma theta s h in Ok (k, p)
                    | Err e => if sigma <=? nZ 0 then Err ValueError else Err e
                    end) in
  if String.eqb name "DW" then mk DW else if String.eqb name "OU" then mk OU else None.
Definition traj1 (t0 tf dt : P) (m : model1) : result unit * model1 :=
  match (let* a := as_num t0 in let* b := as_num tf in let* c := as_num dt in Ok (a, b, c)) with
  | Err e => (Err e, m)
  | Ok (a, b, c) =>
      let '(r, p) := match fst m with
                     | OU => ou_trajectory G a b c (nZ 0) (snd m)
                     | DW => dw_trajectory G a b c (snd m)
                     end in
      (r, (fst m, p))
  end.
(** simulation.py:151-153: the operator is given as the mask.  What counts is whether it is true:
    observations of one dimension have no second index, so everything that is true raises IndexError,
    with the exception of true itself, which adds an axis (see [collect_true]). *)
Definition op_mask1 (op : P) : option (list bool) := if truthy op then Some [true] else None.
(** simulation.py:199-203: ... and as the operator of the likelihood.  H * m[obs_t] of gradients_1d raises for text
    and dictionaries, and for the empty list because its shape does not fit *)
Definition op_value1 (op : P) : option (result K) :=
  match op with
  | PLeaf LNull => None
  | PLeaf (LInts []) | PLeaf (LFlags []) | PLeaf (LNums []) => Some (Err ValueError)
  | _ => Some (as_num op)
  end.
(** obs_y[:, True] is a column of the u observations; the dim_m draws are added along its second axis, which fits
    only if there is one of them *)
Definition collect_true (n_obs : dens K) (rn : K) (b : Base G K) : result (val1 K * val1 K * val1 K) * Base G K :=
  match b_tk b, b_xt b with
  | Some tk, Some xt =>
      match (let* (dim_m, obs_t) := obs_indexes n_obs tk in
             let* obs_y := take xt obs_t in Ok (dim_m, obs_t, obs_y)) with
      | Err e => (Err e, b)
      | Ok (dim_m, obs_t, obs_y) =>
          let '(z, g) := normals G dim_m (b_rng b) in
          (match obs_y, z with
           | [y], [w] => Ok (VIdx obs_t, VCol (y + nsqrt rn * w), VNoise (A0 rn))
           | _, _ => Err ValueError
           end, set_rng G g b)
      end
  | _, _ => (Err NotImplementedError, b)
  end.
Definition collect_1 (density noise op : P) (m : model1) : result (val1 K * val1 K * val1 K) * model1 :=
  match as_num noise with
  | Err e => (Err e, m)
  | Ok r =>
      let '(res, b) :=
        match op with
        | PLeaf (LBool true) => collect_true (as_dens density) r (p_base (snd m))
        | _ => let '(res, b) := collect1 G (as_dens density) (A0 r) (op_mask1 op) (p_base (snd m)) in
               (let* (t, y, nz) := res in Ok (VIdx t, VVals y, VNoise nz), b)
        end in
      (res, (fst m, with_base G b (snd m)))
  end.
(** simulation.py:167-168 *)
Definition m0_1 (m : model1) : result (val1 K) * model1 :=
  match get_path G (p_base (snd m)) with
  | Err e => (Err e, m)
  | Ok [] => (Err IndexError, m)
  | Ok (x :: _) =>
      let '(z, g) := r_normal G (b_rng (p_base (snd m))) in
      (Ok (VNum (x + nlit 1 10 * z)), (fst m, with_base G (set_rng G g (p_base (snd m))) (snd m)))
  end.
(** likelihood.py:36-50; the operator of a 1 x 1 array of observations is never used *)
Definition like1 (y t n : val1 K) (op : P) (single : bool) : result (Like1 K) :=
  match y, t, n with
  | VVals y, VIdx t, VNoise (A0 r) =>
      match op_value1 op with
      | Some H => Ok (mkLike1 y t r H)
      | None => let* H := like_op_1d y None in Ok (mkLike1 y t r (Ok H))
      end
  | VCol y, VIdx t, VNoise (A0 r) => Ok (mkLike1 [y] t r (Err ValueError))
  | _, _, _ => Err TypeError
  end.
Definition kl0_1 (mu tau : P + val1 K) (single : bool) : result (K * K) :=
  match mu, tau with
  | inl mu, inl tau => let* a := as_num mu in let* b := as_num tau in Ok (a, b)
  | _, _ => Err TypeError
  end.

Definition energy1 (k : kind1) : K -> K -> K -> @sde1 K := match k with OU => ou_energy | DW => dw_energy end.
(** the VarGP object of lines 209-212: the forward and backward objects carry the time step of the
    parameters, the energy and the gradient the one of the model (variational.py:55) *)
Definition sim_env1 (k : kind1) (p : P1 G) (n : nat) (step : K) (m0 s0 : K) (fwd bwd : solver K) (l : Like1 K) (pr : K * K)
  (obs_t : list nat) : Env K :=
  mkEnv (sys1 K) n step m0 s0 (p_sigma p) (p_isig p)
    (fun x => Ok (unpack1 n x)) pack1
    (fwd_ode_call1 fwd)
    (like_1d nln npi (k_y l) (k_t l) (k_noise l))
    (fun a b m s => let e := energy1 k (p_sigma p) (p_theta p) step a b m s (Some obs_t) in
                    Ok (e_sde e, (e_f e, e_df e), (e_dm e, e_ds e)))
    (fun m s => let* H := k_H l in
                let* (g, _) := like_grad_1d (k_y l) (k_t l) (k_noise l) H m s in Ok g)
    (bwd_ode_call1 bwd)
    (fun m s => Ok (kl0_1d nln (fst pr) (snd pr) m s))
    dEsde_db1 dEsde_da1 grad_at1.

(** variational.py:66 and 187-196: arg_out *)
Definition arr1 (l : list K) : oval K := OArr [List.length l] l.
Definition arg_out1 (m0 s0 : K) (mt st Efx Edf lamt psit : list K) : dict (oval K) :=
  [("m0", OScal m0); ("s0", OScal s0); ("mt", arr1 mt); ("st", arr1 st); ("Efx", arr1 Efx); ("Edf", arr1 Edf);
   ("lamt", arr1 lamt); ("psit", arr1 psit)].
Definition optimise1 (m : model1) (m0 s0 : val1 K) (fwd bwd : solver K) (l : Like1 K) (pr : K * K) (y t : val1 K)
  : result (oval K * oval K * oval K * dict (oval K)) :=
  match m0, s0, y, t with
  | VNum m0, VNum s0, VVals y, VIdx t =>
      let* step := time_step G (p_base (snd m)) in
      let* path := get_path G (p_base (snd m)) in
      let* tw := get_window G (p_base (snd m)) in
      let n := List.length path in
      let* x0 := init1 spline (p_sigma (snd m)) tw t y in
      let E := sim_env1 (fst m) (snd m) n step m0 s0 fwd bwd l pr t in
      let* r := sim_run1 E n x0 in
      match r_arg r with
      | None => Err KeyError                    (* free_energy never completed: does not happen *)
      | Some o =>
          Ok (arr1 (r_at r), arr1 (r_bt r), OScal (r_fx r),
              arg_out1 m0 s0 (o_mt o) (o_st o) (o_Efx o) (o_Edf o) (o_lam o) (o_psi o))
      end
  (* np.hstack of arrays with one and with two axes (variational.py:94) *)
  | VNum _, VNum _, VCol _, VIdx _ =>
      let* _ := time_step G (p_base (snd m)) in
      let* _ := get_path G (p_base (snd m)) in
      let* _ := get_window G (p_base (snd m)) in
      Err ValueError
  | _, _, _, _ => Err TypeError
  end.

Definition world1 : World :=
  mkWorld (leaf K) model1 (val1 K) K (r_state G)
    as_text truthy (fun l => match l with LNull => true | _ => false end) in_leaf
    build1 (fun _ => true) traj1 collect_1 m0_1 (fun _ => VNum (nlit 1 5))
    (fun _ _ => Err TypeError) (fun _ _ => Err TypeError)
    (solver K) (Like1 K) (K * K)
    (fun dt mtd single => let* d := as_num dt in fwd_ode_init d (as_text mtd) single)
    (fun dt mtd single => let* d := as_num dt in bwd_ode_init d (as_text mtd) single)
    like1 kl0_1 optimise1.
End World1.
