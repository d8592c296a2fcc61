(** * What a run of the optimiser is, from the outside.

    The objective is instrumented: every call is appended to a log, so that statements about
    "the evaluations made during a run" do not depend on how the optimiser is written. *)
From Coq Require Import List Bool Arith Reals.
From Verif Require Import Num Arr M_Scg.
Import ListNotations.

Inductive event (X : Type) :=
| CallF (x : X)                       (* f(x) *)
| CallDF (x : X) (eval_fun : bool).   (* df(x) or df(x, eval_fun=True) *)
Arguments CallF {X}. Arguments CallDF {X}.

Section Log.
Context {K : Num} {W : Type}.
Variable f : list K -> W -> result K * W.
Variable df : list K -> bool -> W -> result (list K) * W.
Notation LW := (W * list (event (list K)))%type.

Definition logged_f (x : list K) (wl : LW) : result K * LW :=
  (fst (f x (fst wl)), (snd (f x (fst wl)), snd wl ++ [CallF x])).
Definition logged_df (x : list K) (e : bool) (wl : LW) : result (list K) * LW :=
  (fst (df x e (fst wl)), (snd (df x e (fst wl)), snd wl ++ [CallDF x e])).

(** The log of a run of a new SCG object from the state [w] of the objective. *)
Definition run_log (o : Opts K) (x0 : list K) (w : W) : list (event (list K)) :=
  snd (snd (scg_run logged_f logged_df o x0 (w, []))).
End Log.

(** Every gradient evaluation asks for a new objective evaluation, or directly follows one at
    the same point. *)
Definition no_stale_gradient {X} (l : list (event X)) : Prop :=
  forall l1 x e l2, l = l1 ++ CallDF x e :: l2 -> e = true \/ exists l0, l1 = l0 ++ [CallF x].

(** number of evaluations of the objective (df(x, eval_fun=True) makes one) and of the gradient *)
Definition evaluates_f {X} (v : event X) : bool :=
  match v with CallF _ => true | CallDF _ e => e end.
Definition evaluates_df {X} (v : event X) : bool :=
  match v with CallF _ => false | CallDF _ _ => true end.
Definition n_evals {X} (p : event X -> bool) (l : list (event X)) : nat := length (filter p l).

(** the point of the last evaluation of the objective *)
Definition event_pt {X} (v : event X) : X := match v with CallF x => x | CallDF x _ => x end.
Definition last_point {X} (l : list (event X)) : option X :=
  match rev (filter evaluates_f l) with v :: _ => Some (event_pt v) | [] => None end.

(** ** States met during a run: [reach j s st w] when iteration [j] starts with local variables
    [s], statistics [st] and objective state [w]. *)
Section Reach.
Context {K : Num} {W : Type}.
Variable f : list K -> W -> result K * W.
Variable df : list K -> bool -> W -> result (list K) * W.
Variables (o : Opts K) (x0 : list K) (st0 : Stats K) (w0 : W).

Inductive reach : nat -> Loc K -> Stats K -> W -> Prop :=
| reach_start s st w :
    scg_start f df x0 st0 w0 = (Ok s, st, w) -> reach 0 s st w
| reach_next j s st w s' st' w' :
    reach j s st w -> j < o_nit o ->
    scg_body f df o (length x0) j s st w = (Ok (inl s'), st', w') -> reach (S j) s' st' w'.

(** The run ends by a "return" in iteration [j], or the iterations are used up. *)
Inductive returns : nat -> list K * K -> Stats K -> W -> Prop :=
| returns_in j s st w out st' w' :
    reach j s st w -> j < o_nit o ->
    scg_body f df o (length x0) j s st w = (Ok (inr out), st', w') -> returns (S j) out st' w'
| returns_budget s st w :
    reach (o_nit o) s st w -> returns (o_nit o) (l_x s, l_fold s) st w.
End Reach.

(** Real arithmetic in which x / 0 is [z x] and the square root of a negative number is [q x]. *)
Definition RzNum (z q : R -> R) : Num :=
  mkNum R Rplus Rminus Rmult (fun x y => if Req_EM_T y 0 then z x else (x / y)%R) Ropp
        (fun x => if Rlt_dec x 0 then q x else sqrt x) Rabs rlit Rleb Rltb Reqb
        (fun x => Some (Rfloor x)) (fun x => Some (Rceil x)).
