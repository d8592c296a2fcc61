(** * The Rosenbrock test of test_scg.py in binary64: the outcome depends on the random start point.

    The run is that of test_scg.py:72-90 with max_it = 50, with a gradient that accepts the keyword
    eval_fun. *)
From Coq Require Import ZArith List Bool SpecFloat.
From Verif Require Import Num Arr M_Utils M_Scg.
Import ListNotations.

Notation fl := (nlit (n:=FNum)).
(** 100 * (x[1] - x[0] ** 2) ** 2 + (1 - x[0]) ** 2, test_scg.py:71 *)
Definition rosenbrock (x : list FNum) : FNum :=
  let a := nth 0 x (nZ 0) in let b := nth 1 x (nZ 0) in
  nadd (nmul (nZ 100) (npow (nsub b (npow a 2)) 2)) (npow (nsub (nZ 1) a) 2).
Definition rosen_f (x : list FNum) (w : unit) : result FNum * unit := (Ok (rosenbrock x), w).
(** gradf = lambda x: finite_diff(fun, x), test_scg.py:74 *)
Definition rosen_df (x : list FNum) (e : bool) (w : unit) : result (list FNum) * unit :=
  (Ok (match fst (finite_diff (K:=FNum) rosenbrock (Ve x)) with Ve g => g | Sc g => [g] end), w).
(** SCG(fun, gradf, {"max_it": 50, "display": True})(x0), test_scg.py:80-83 *)
Definition rosen_run (x0 : list FNum) := scg_run (K:=FNum) rosen_f rosen_df (scg_options (Some 50) None None) x0 tt.

(** both assertions fail by a wide margin *)
Definition rosen_far (r : result (list FNum * FNum)) : bool :=
  match r with
  | Ok ([a; b], fx) => nlt (n:=FNum) (fl 1 100) fx && nlt (n:=FNum) a (fl 9 10) && nlt (n:=FNum) b (fl 9 10)
  | _ => false
  end.
(** both assertions hold *)
Definition rosen_near (r : result (list FNum * FNum)) : bool :=
  let close (u : FNum) := nle (n:=FNum) (nabs (nsub u (nZ 1))) (fl 1 10000) in
  match r with
  | Ok ([a; b], fx) => nle (n:=FNum) (nabs fx) (fl 1 100000000) && close a && close b
  | _ => false
  end.
Lemma rosen_fails : rosen_far (fst (fst (rosen_run [fl (-2) 1; fl 1 1]))) = true.
Proof. vm_cast_no_check (eq_refl true). Qed.
Lemma rosen_holds : rosen_near (fst (fst (rosen_run [fl 1 2; fl (-1) 1]))) = true.
Proof. vm_cast_no_check (eq_refl true). Qed.
