(** * A run of Simulation.run in binary64 that uses up its 500 iterations and ends on a rejected
    step.

    Ornstein-Uhlenbeck, sigma = 2, theta = 0.5, dt = 0.01, three grid points, one observation 1.1 at
    index 1 with noise 1, m0 = -0.2, s0 = 0.2, prior mean 0 and variance 0.5, Euler; the start
    point is what initialization() returns when every observation is 1.1.  The objective stays
    finite and the run ends at the value 2.865.  The example is small because the checker replays
    the 500 iterations by plain conversion. *)
From Coq Require Import ZArith List Bool SpecFloat.
From Verif Require Import Num Arr M_Ode M_Sde1 M_Prior M_Like M_VarGP M_Scg M_Run.
Import ListNotations.

Notation fl := (nlit (n:=FNum)).
(** np.log on the four arguments met during the runs: 0.5, 1, 0.2 and 2 pi, correctly rounded *)
Definition log_tbl (x : FNum) : FNum :=
  let is (a : FNum) := neqb (n:=FNum) x a in
  if is (fl 1 2) then S754_finite true 6243314768165359 (-53)
  else if is (nZ 1) then nZ 0
  else if is (fl 1 5) then S754_finite true 7248263982714163 (-52)
  else S754_finite false 8277062471433908 (-52).
Definition pi64 : FNum := S754_finite false 7074237752028440 (-51).

Definition wit_env : Env FNum :=
  vgp1 (K:=FNum) log_tbl pi64 (ou_energy (K:=FNum) (nZ 2) (fl 1 2) (fl 1 100)) Euler 3 (fl 1 100)
       (nZ 2) (fl 1 2) (fl (-1) 5) (fl 1 5) (nZ 0) (fl 1 2) [fl 11 10] [1] (nZ 1) (nZ 1).
Definition wit_x0 : list FNum :=
  match init1 (K:=FNum) (fun _ _ _ => fl 11 10) (nZ 2)
              (map (fun k => nmul (n:=FNum) (nZ (Z.of_nat k)) (fl 1 100)) (seq 0 3)) [1] [fl 11 10] with
  | Ok x => x
  | Err _ => []
  end.
Definition mean_at (k : nat) (out : Out wit_env) : FNum := nth k (o_mt out) (nZ (K:=FNum) 0).
(** the stored mean differs from the mean of the stored parameters *)
Definition wit_test (r : RunOut wit_env (list FNum) (list FNum)) : bool :=
  match r_arg r, fe_core wit_env (pack1 (K:=FNum) (r_at r) (r_bt r)) with
  | Some out, Ok (v, out') =>
      (neqb (n:=FNum) v (r_fx r) && nlt (n:=FNum) (mean_at 1 out') (mean_at 1 out))%bool
  | _, _ => false
  end.
Definition wit_ok (r : result (RunOut wit_env (list FNum) (list FNum))) : bool :=
  match r with Ok r => wit_test r | Err _ => false end.
Definition wit_check : bool := wit_ok (sim_run1 (K:=FNum) wit_env 3 wit_x0).
Lemma wit_true : wit_check = true.
Proof. vm_cast_no_check (eq_refl true). Qed.

(** A run that converges: Ornstein-Uhlenbeck, sigma = 0.25, theta = 0.5, three grid points, one
    observation 0 at index 1 with noise 1, m0 = 1. *)
Definition conv_env : Env FNum :=
  vgp1 (K:=FNum) log_tbl pi64 (ou_energy (K:=FNum) (fl 1 4) (fl 1 2) (fl 1 100)) Euler 3 (fl 1 100)
       (fl 1 4) (nZ 4) (nZ 1) (fl 1 5) (nZ 0) (fl 1 2) [nZ 0] [1] (nZ 1) (nZ 1).
Definition conv_test (r : result (RunOut conv_env (list FNum) (list FNum))) : bool :=
  match r with
  | Ok ro =>
      match r_arg ro, fe_core conv_env (pack1 (K:=FNum) (r_at ro) (r_bt ro)) with
      | Some out, Ok (v, out') =>
          forallb (fun k => neqb (n:=FNum) (nth k (o_mt out) (nZ (K:=FNum) 0)) (nth k (o_mt out') (nZ (K:=FNum) 0))) (seq 0 3)
      | _, _ => false
      end
  | Err _ => false
  end.
Definition conv_x0 : list FNum := repeat (fl 1 2) 3 ++ repeat (nZ (K:=FNum) 0) 3.
Definition conv_check : bool := conv_test (sim_run1 (K:=FNum) conv_env 3 conv_x0).
Lemma conv_true : conv_check = true.
Proof. vm_cast_no_check (eq_refl true). Qed.
