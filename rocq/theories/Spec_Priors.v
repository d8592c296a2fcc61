(** * Prior distributions given by lists, for the Lorenz models.
    Independent of the model of the code, apart from the abstract random generator and the
    representation of the parameters. *)
From Coq Require Import Reals ZArith List String.
From Verif Require Import Num Arr M_LinAlg M_Proc M_Sim M_SimN Spec_Utils Spec_Gauss Spec_GaussN Spec_Ode Spec_L63 Spec_L96 Spec_L96E
  Spec_Prior Spec_Like Spec_Proc Spec_Sim Spec_SimN Spec_ProblemN.
Import ListNotations.
Local Open Scope string_scope.
Local Open Scope R_scope.

(** a list of booleans counts as the list of the numbers 1 and 0 *)
Definition as_numbers (x : parn) : parn :=
  match x with
  | PLeaf (NMask l) => PLeaf (NArr Int64 (A1 (K:=RNum) (List.length l) (fun i => if nth i l false then 1 else 0)))
  | _ => x
  end.
(** how a mean is written: along one axis, or as rows, with the rows after the first *)
Inductive spelling := Flat | Rows (more : list (nat -> R)).
(** the prior mean mu: one number for all components, their list, a list of one number, or the first of a list of
    rows (of d numbers, or of one number, which is repeated) *)
Definition mean_n (d : nat) (x : parn) (mu : nat -> R) (flat : spelling) : Prop :=
  (flat = Flat /\
    ((exists r, num_n x r /\ mu = (fun _ => r)) \/ (exists t, x = PLeaf (NArr t (A1 (K:=RNum) d mu))) \/
     (exists t (u : nat -> R), x = PLeaf (NArr t (A1 (K:=RNum) 1 u)) /\ mu = (fun _ => u 0%nat)))) \/
  (exists t r c (m : nat -> nat -> R), x = PLeaf (NArr t (A2 (K:=RNum) (S r) c m)) /\ (c = 1%nat \/ c = d) /\
     let row i := fun j => m i (if Nat.eqb c 1 then 0%nat else j) in
     mu = row 0%nat /\ flat = Rows (map (fun i => row (S i)) (seq 0 r))).
(** the prior variances tau: one number, their list, a list of one number, or rows (d x d, with this diagonal; of one
    row or of rows of one number, these are repeated) *)
Definition cov_n (d : nat) (x : parn) (tau : nat -> R) : Prop :=
  (exists r, num_n x r /\ tau = (fun _ => r)) \/ (exists t, x = PLeaf (NArr t (A1 (K:=RNum) d tau))) \/
  (exists t (u : nat -> R), x = PLeaf (NArr t (A1 (K:=RNum) 1 u)) /\ tau = (fun _ => u 0%nat)) \/
  (exists t r c (m : nat -> nat -> R), x = PLeaf (NArr t (A2 (K:=RNum) r c m)) /\ (r = 1%nat \/ r = d) /\ (c = 1%nat \/ c = d) /\
     tau = (fun i => m (if Nat.eqb r 1 then 0%nat else i) (if Nat.eqb c 1 then 0%nat else i))).
(** lists that fit no vector, or no matrix, of d components *)
Definition mean_misfit (d : nat) (x : parn) : Prop :=
  (exists t k (u : nat -> R), x = PLeaf (NArr t (A1 (K:=RNum) k u)) /\ k <> 1%nat /\ k <> d) \/
  (exists t r c (m : nat -> nat -> R), x = PLeaf (NArr t (A2 (K:=RNum) r c m)) /\ c <> 1%nat /\ c <> d).
Definition cov_misfit (d : nat) (x : parn) : Prop :=
  (exists t k (u : nat -> R), x = PLeaf (NArr t (A1 (K:=RNum) k u)) /\ k <> 1%nat /\ k <> d) \/
  (exists t r c (m : nat -> nat -> R), x = PLeaf (NArr t (A2 (K:=RNum) r c m)) /\
     ((r <> 1%nat /\ r <> d) \/ (c <> 1%nat /\ c <> d))).
Definition diag_of (tau : nat -> R) : nat -> nat -> R := fun i j => if Nat.eqb i j then tau i else 0.

(** the entries of the parameters, without an observation operator; mu and tau are the entries of the prior *)
Definition entries_p (params : parn) (name method : string) (sys theta obs mu tau : parn) (t0 tf dt : R) (density : rate)
  (seed : option Z) : Prop :=
  exists dr nz tw os pr x4 x5 x6,
    field params "Model" (PLeaf (NStr name)) /\ field params "Ode-method" (PLeaf (NStr method)) /\
    field params "Drift" dr /\ field dr "theta" theta /\
    field params "Noise" nz /\ field nz "sys" sys /\ field nz "obs" obs /\
    field params "Time-window" tw /\ field tw "t0" x4 /\ num_n x4 t0 /\ field tw "tf" x5 /\ num_n x5 tf /\
    field tw "dt" x6 /\ num_n x6 dt /\
    field params "Prior" pr /\ field pr "mu0" mu /\ field pr "tau0" tau /\
    field params "Observations" os /\ field os "density" (rate_leafn density) /\ field os "operator" (PLeaf NNull) /\
    field params "Random-Seed" (match seed with None => PLeaf NNull | Some z => PLeaf (NInt z) end).
(** values that the classes accept, apart from the prior *)
Definition acceptable_p (k : kindn) (name method : string) (C : nat -> nat -> R) (v : nat -> R) (t0 tf dt : R) (density : rate)
  (seed : option Z) : Prop :=
  symm (dim_n k) C /\ posdef (dim_n k) C /\ (forall i, (i < dim_n k)%nat -> 0 < v i)%R /\
  (0 < dt /\ t0 < tf /\ fits_step (rate_val density) dt)%R /\ (0 <= rate_val density)%R /\
  same_up_to_case name (name_n k) /\
  (exists m, In m ["euler"; "heun"; "rk2"; "rk4"] /\ same_up_to_case method m) /\ seed_ok seed.

(** what the code adds to the divergence of the prior when the mean has one axis (see C26), and when there are more
    rows than one; nothing when it is one row *)
Definition excess (d : nat) (flat : spelling) (m0 mu tau : nat -> R) : R :=
  match flat with
  | Flat => 1 / 2 * (Rsum d (fun i => (m0 i - mu i) ^ 2) * Rsum d (fun i => / tau i) - Rsum d (fun i => (m0 i - mu i) ^ 2 / tau i))
  | Rows more => 1 / 2 * fold_right Rplus 0 (map (fun u => Rsum d (fun i => (m0 i - u i) ^ 2 / tau i)) more)
  end.
(** [free_energy_n] and [evaluates_n] with the prior of mean mu and diagonal covariance tau *)
Definition free_energy_p (k : kindn) (C : nat -> nat -> R) (th : nat -> R) (dt : R) (n : nat) (flat : spelling) (mu tau v : nat -> R)
  (ts : list nat) (ys : list (nat -> R)) (m0 : nat -> R) (a : list (nat -> nat -> R)) (b mt : list (nat -> R))
  (st : list (nat -> nat -> R)) (val : R) : Prop :=
  let d := dim_n k in
  exists P Rn kl eo (e : nat -> R),
    inverse d C P /\ KLn d m0 (times_id (1 / 5)) mu (diag_of tau) kl /\
    (forall i j, (i < d)%nat -> (j < d)%nat -> Rn i j = if Nat.eqb i j then v i else 0) /\
    obs_energy_nd d ys ts Rn mt st eo /\
    (forall t, (t < n)%nat -> mismatch_n k th P (nth t a zmat) (nth t b zvec) (nth t mt zvec) (nth t st zmat) (e t)) /\
    val = kl + excess d flat m0 mu tau + trap n e dt + eo
          + 1 / 2 * Rsum (List.length ts) (fun j => Rsum d (fun i => (nth j st zmat i i - nth (nth j ts 0%nat) st zmat i i) / v i)).
Definition evaluates_p (k : kindn) (T : tableau) (C : nat -> nat -> R) (th : nat -> R) (dt : R) (n : nat) (flat : spelling) (mu tau v : nat -> R)
  (ts : list nat) (ys : list (nat -> R)) (m0 : nat -> R) (a : list (nat -> nat -> R)) (b mt : list (nat -> R))
  (st : list (nat -> nat -> R)) (val : R) : Prop :=
  moments_solve_n (dim_n k) T n dt C m0 (times_id (1 / 5)) a b mt st /\
  free_energy_p k C th dt n flat mu tau v ts ys m0 a b mt st val.

(** parameters that agree everywhere except in the entries of the prior *)
Definition agree_but_prior (p p' : parn) (mu tau mu' tau' : parn) : Prop :=
  (forall key x, key <> "Prior" -> field p key x <-> field p' key x) /\
  exists pr pr', field p "Prior" pr /\ field p' "Prior" pr' /\ field pr "mu0" mu /\ field pr "tau0" tau /\
    field pr' "mu0" mu' /\ field pr' "tau0" tau'.
