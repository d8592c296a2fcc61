(** * Model of Simulation.run (simulation.py:180-267), one dimension.  Definitions only.

    The objects built on lines 188-212 are the environment [E] of M_VarGP.v; the options of
    lines 215-216, the optimiser call of line 231, the unpacking of lines 243-249 and the merge
    of lines 263-266 are modelled.  The keys written by VarGP (m0, s0, mt, st, Efx, Edf, lamt,
    psit) are different from at, bt and fx, so that the merge overwrites nothing.  Timing and
    printing are left out. *)
From Coq Require Import ZArith List.
From Verif Require Import Num Arr M_Ode M_VarGP M_Scg.
Import ListNotations.

(** lines 215-216 *)
Definition sim_options {K : Num} : Opts K :=
  scg_options (Some 500%nat) (Some (nlit 1 1000000)) (Some (nlit 1 100000000)).

(** self.output after run(); [r_arg] is vgpa.arg_out ([None]: free_energy never completed) *)
Record RunOut {K : Num} (E : Env K) (A B : Type) := mkRunOut {
  r_at : A; r_bt : B; r_fx : K; r_arg : state E }.
Arguments mkRunOut {K E A B}. Arguments r_at {K E A B}. Arguments r_bt {K E A B}.
Arguments r_fx {K E A B}. Arguments r_arg {K E A B}.

(** [unpack] is lines 243-260 *)
Definition sim_optimise {K : Num} (E : Env K) {A B} (unpack : list K -> result (A * B)) (x0 : list K)
  : result (RunOut E A B) :=
  match scg_run (free_energy E) (gradient E) sim_options x0 None with
  | (Ok (x, fx), _, w) => let* (a, b) := unpack x in Ok (mkRunOut a b fx w)
  | (Err e, _, _) => Err e
  end.
Definition sim_run1 {K : Num} (E : Env K) (dim_n : nat) (x0 : list K) : result (RunOut E (list K) (list K)) :=
  sim_optimise E (fun x => Ok (sim_unpack1 dim_n x)) x0.
Definition sim_runn {K : Num} (E : Env K) (dim_n dim_d : nat) (x0 : list K)
  : result (RunOut E (list (mat K)) (list (vec K))) :=
  sim_optimise E (sim_unpackn dim_n dim_d) x0.
