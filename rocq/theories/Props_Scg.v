(** * Properties C33 - C38: the optimiser. *)
From Coq Require Import ZArith Reals Lra Lia Arith Bool List SpecFloat.
From Verif Require Import Num Arr M_Ode M_Sde1 M_VarGP M_Scg M_Run Spec_Scg
  P_Scg P_ScgPure P_ScgR P_ScgDiv P_RunWit P_ScgVgp.
Import ListNotations.
Local Open Scope R_scope.

(** Examples use the objective f(x) = x^2 with gradient 2x in binary64. *)
Definition ex_f (x : list FNum) (w : unit) : result FNum * unit :=
  (Ok (suml (map (fun v => nmul (n:=FNum) v v) x)), w).
Definition ex_df (x : list FNum) (e : bool) (w : unit) : result (list FNum) * unit :=
  (Ok (map (nmul (n:=FNum) (nZ 2)) x), w).
Definition ex_opts (k : nat) : Opts FNum := scg_options (Some k) None None.

(** ** C33: no stale gradient *)
(** any arithmetic, any objective with any internal state, runs that raise included *)
Theorem C33_no_stale_gradient :
  forall (K : Num) (W : Type) (f : list K -> W -> result K * W) (df : list K -> bool -> W -> result (list K) * W)
         (o : Opts K) (x0 : list K) (w : W),
  no_stale_gradient (run_log f df o x0 w).
Proof. intros. apply stale_run. Qed.
Print Assumptions C33_no_stale_gradient.
(** the log belongs to the run: instrumenting the objective does not change it *)
Theorem C33_log_faithful :
  forall (K : Num) (W : Type) (f : list K -> W -> result K * W) (df : list K -> bool -> W -> result (list K) * W)
         (o : Opts K) (x0 : list K) (w : W),
  fst (scg_run (logged_f f) (logged_df df) o x0 (w, [])) = fst (scg_run f df o x0 w) /\
  fst (snd (scg_run (logged_f f) (logged_df df) o x0 (w, []))) = snd (scg_run f df o x0 w).
Proof. intros. exact (er_call f df o x0 (fresh_stats (o_nit o)) (w, [])). Qed.
Print Assumptions C33_log_faithful.
(** for VarGP: the run is the one in which every gradient is evaluated with eval_fun=True *)
Theorem C33_vgp_gradients_fresh :
  forall (K : Num) (E : Env K) (o : Opts K) (x0 : list K) (w : state E),
  scg_run (free_energy E) (gradient E) o x0 w =
  scg_run (free_energy E) (fun x _ => gradient E x true) o x0 w.
Proof. intros. apply vgp_fresh_gradients. Qed.
Print Assumptions C33_vgp_gradients_fresh.
Example C33_instance :
  length (run_log ex_f ex_df (ex_opts 3) [nlit (n:=FNum) 1 1; nlit (n:=FNum) 1 2] tt) = 14%nat /\
  existsb (fun v => match v with CallDF _ false => true | _ => false end)
          (run_log ex_f ex_df (ex_opts 3) [nlit (n:=FNum) 1 1; nlit (n:=FNum) 1 2] tt) = true.
Proof. vm_compute. split; reflexivity. Qed.

(** ** C34: the returned value is the objective at the returned point, in any arithmetic.
    [F] is the value of the objective; its internal state may change with every call. *)
Theorem C34_value_of_returned_point :
  forall (K : Num) (W : Type) (f : list K -> W -> result K * W) (df : list K -> bool -> W -> result (list K) * W)
         (F : list K -> result K), (forall x w, fst (f x w) = F x) ->
  forall (o : Opts K) (x0 : list K) (st : Stats K) (w : W) x fx st' w',
  scg_call f df o x0 st w = (Ok (x, fx), st', w') -> F x = Ok fx.
Proof. intros K W f df F HF o x0 st w x fx st' w' H. eapply value_run; eauto. Qed.
Print Assumptions C34_value_of_returned_point.
Theorem C34_vgp :
  forall (K : Num) (E : Env K) (o : Opts K) (x0 : list K) (w : state E) x fx st' w',
  scg_run (free_energy E) (gradient E) o x0 w = (Ok (x, fx), st', w') ->
  forall s, fst (free_energy E x s) = Ok fx.
Proof.
  intros K E o x0 w x fx st' w' H s.
  apply (C34_value_of_returned_point K (state E) (free_energy E) (gradient E) (fun x => fst (free_energy E x s)))
    with (2 := H).
  intros y u. unfold free_energy. destruct (fe_core E y) as [[v out]|e]; reflexivity.
Qed.
Print Assumptions C34_vgp.
(** a run that raises raises what the objective or its gradient raised *)
Example C34_instance :
  match scg_run ex_f ex_df (ex_opts 2) [nlit (n:=FNum) 3 1] tt with
  | (Ok (x, fx), st, _) =>
      (neqb (n:=FNum) fx (suml (map (fun v => nmul (n:=FNum) v v) x)) && nlt (n:=FNum) fx (nlit 9 1) &&
       Nat.eqb (s_maxit st) 2)%bool
  | _ => false
  end = true.
Proof. vm_compute. reflexivity. Qed.

(** ** C35: never worse.
    [r] iterations tried a step; [xs i] is the iterate after [i] of them. *)
Theorem C35_descent :
  forall (W : Type) (f : list R -> W -> result R * W) (df : list R -> bool -> W -> result (list R) * W)
         (F : list R -> result R), (forall x w, fst (f x w) = F x) ->
  forall (o : Opts RNum) (x0 : list R) (w : W) x fx st' w',
  scg_run (K:=RNum) f df o x0 w = (Ok (x, fx), st', w') ->
  F x = Ok fx /\ (forall f0, F x0 = Ok f0 -> fx <= f0) /\
  exists r (xs : nat -> list R),
    xs 0%nat = x0 /\ xs r = x /\ (r <= s_maxit st' <= S r)%nat /\ (r <= o_nit o)%nat /\
    (forall i, (i < r)%nat -> exists a b, F (xs i) = Ok a /\ F (xs (S i)) = Ok b /\ b <= a /\ nth i (s_fx st') 0 = b) /\
    (forall i j, (i <= j < r)%nat -> nth j (s_fx st') 0 <= nth i (s_fx st') 0) /\
    (forall i, (r <= i)%nat -> nth i (s_fx st') 0 = 0).
Proof.
  intros W f df F HF o x0 w x fx st' w' H.
  destruct (run_R f df F HF o x0 w x fx st' w' H) as (Hv & r & xs & C & Ex & Hm & HL & Hz).
  split; [exact Hv|]. split.
  - intros f0 H0. apply (chain_le F x0 r _ xs C 0 r ltac:(lia)).
    + destruct C as [-> _]. exact H0.
    + rewrite Ex. exact Hv.
  - exists r, xs. split; [apply C|]. split; [exact Ex|]. split; [exact Hm|].
    assert (Hr : (r <= o_nit o)%nat).
    { destruct r as [|r]; [lia|]. destruct C as [_ C]. destruct (C r ltac:(lia)) as (a & b & _ & _ & _ & _ & Hl).
      exact (eq_ind _ (fun n => (S r <= n)%nat) Hl _ HL). }
    split; [exact Hr|]. split; [|split; [|exact Hz]].
    + intros i Hi. destruct C as [_ C]. destruct (C i Hi) as (a & b & A1 & A2 & A3 & A4 & _). eauto 6.
    + intros i j Hij. destruct C as [C0 C].
      destruct (C i ltac:(lia)) as (a & b & A1 & A2 & A3 & A4 & _).
      destruct (C j ltac:(lia)) as (a' & b' & B1 & B2 & B3 & B4 & _).
      change (@nth R j (s_fx st') 0 <= @nth R i (s_fx st') 0).
      refine (eq_ind_r (fun u => u <= _) _ B4). refine (eq_ind_r (fun u => _ <= u) _ A4).
      apply (chain_le F x0 r (s_fx st') xs (conj C0 C) (S i) (S j) ltac:(lia)); assumption.
Qed.
Print Assumptions C35_descent.
(** the iterate only moves to points where the objective is not larger *)
Theorem C35_moves_only_down :
  forall (W : Type) (f : list R -> W -> result R * W) (df : list R -> bool -> W -> result (list R) * W)
         (F : list R -> result R), (forall x w, fst (f x w) = F x) ->
  forall (o : Opts RNum) (x0 : list R) (st0 : Stats RNum) (w0 : W) j s st w r st' w',
  reach (K:=RNum) f df o x0 st0 w0 j s st w ->
  scg_body (K:=RNum) f df o (length x0) j s st w = (Ok r, st', w') ->
  let xn := match r with inl s' => l_x s' | inr out => fst out end in
  xn = l_x s \/ exists a b, F (l_x s) = Ok a /\ F xn = Ok b /\ b <= a.
Proof.
  intros W f df F HF o x0 st0 w0 j s st w r st' w' R H xn.
  pose proof (inv_reach f df o x0 st0 w0 j s st w R) as I.
  pose proof (val_reach f df F HF o x0 st0 w0 j s st w R) as V.
  pose proof (wp_and _ _ _ _ _ _ _ _ (body_R f df F HF o (length x0) j s st w I V) H) as B.
  destruct r as [s'|out]; cbn beta iota in B; subst xn.
  - destruct B as (_ & [[-> _]|[B1 B2]] & _); [left; reflexivity|]. right.
    exists (l_fold s), (l_fold s'). split; [apply V|]. auto.
  - destruct B as (_ & [(-> & _)|([[-> _]|[B1 B2]] & _)]); [left; reflexivity | left; reflexivity |].
    right. exists (l_fold s), (snd out). split; [apply V|]. auto.
Qed.
Print Assumptions C35_moves_only_down.
(** In binary64 a step that increases the objective can be accepted: the comparison ratio
    underflows to -0.0, and -0.0 >= 0.  Objective: 0 at the start point, 2^-1074 elsewhere;
    gradient: 10^10 everywhere. *)
Definition tiny : FNum := S754_finite false 1 (-1074).
Definition bad_f (x : list FNum) (w : unit) : result FNum * unit :=
  (Ok (if neqb (n:=FNum) (nth 0 x (nZ 0)) (nZ 1) then nZ 0 else tiny), w).
Definition bad_df (x : list FNum) (e : bool) (w : unit) : result (list FNum) * unit :=
  (Ok [nZ (K:=FNum) 10000000000], w).
Theorem C35_binary64_refuted :
  exists x fx f0 st,
    scg_run bad_f bad_df (ex_opts 1) [nZ (K:=FNum) 1] tt = (Ok (x, fx), st, tt) /\
    bad_f [nZ (K:=FNum) 1] tt = (Ok f0, tt) /\ nlt (n:=FNum) f0 fx = true.
Proof.
  assert (H : match scg_run bad_f bad_df (ex_opts 1) [nZ (K:=FNum) 1] tt with
              | (Ok (x, fx), st, _) => nlt (n:=FNum) (nZ 0) fx
              | _ => false end = true) by (vm_compute; reflexivity).
  destruct (scg_run bad_f bad_df (ex_opts 1) [nZ (K:=FNum) 1] tt) as [[[[x fx]|e] st] []]; [|discriminate].
  exists x, fx, (nZ (K:=FNum) 0), st. split; [reflexivity|]. split; [vm_compute; reflexivity|exact H].
Qed.
Print Assumptions C35_binary64_refuted.
(** When the run ends because the direction is too small, the last of the MaxIt recorded values
    is the initial 0.0 of the array, whatever the objective is. *)
Theorem C35_last_slot_not_written :
  forall (c : R), exists st,
  scg_run (K:=RNum) (fun _ w => (Ok c, w)) (fun x _ w => (Ok (map (fun _ => 0) x), w)) (scg_options (Some 5%nat) None None) [1] tt
    = (Ok ([1], c), st, tt) /\ s_maxit st = 1%nat /\ nth 0 (s_fx st) 7 = 0.
Proof.
  intros c. eexists. split; [|split].
  - unfold scg_run, scg_call, mbind, scg_start, call_f, call_df, add_evals, set_stats, ret. cbn [map length o_nit scg_options].
    cbn [or_default scg_loop]. unfold mbind, scg_body, scg_directions. cbn [l_success l_d l_gnew lopp map].
    unfold ldot, suml. cbn [map2 map fold_left lopp]. rnum.
    replace (Rleb 0 (0 + - 0 * 0)) with true by (destruct (Rleb_spec 0 (0 + - 0 * 0)); [reflexivity|lra]).
    cbn [map2 fold_left]. unfold eps_float. rnum.
    replace (Rltb (0 + - 0 * - 0) (1 / 4503599627370496)) with true
      by (destruct (Rltb_spec (0 + - 0 * - 0) (1 / 4503599627370496)); [reflexivity|lra]).
    cbn [mbind set_maxit set_stats ret l_x l_fnow]. reflexivity.
  - reflexivity.
  - reflexivity.
Qed.
Print Assumptions C35_last_slot_not_written.
Example C35_instance :
  match scg_run ex_f ex_df (ex_opts 6) [nlit (n:=FNum) 3 1; nlit (n:=FNum) 1 2] tt with
  | (Ok (x, fx), st, _) => (nlt (n:=FNum) fx (nth 0 (s_fx st) (nZ 0)) && nlt (n:=FNum) (nth 0 (s_fx st) (nZ 0)) (nlit 37 4))%bool
  | _ => false
  end = true.
Proof. vm_compute. reflexivity. Qed.

(** ** C36: well-defined arithmetic *)
(** At every step taken: with [s1] the local variables once the directional derivatives are
    known, kappa >= eps > 0, the scale and the effective curvature are positive, the step size
    is positive, the comparison ratio's denominator is negative, and the direction is a descent
    direction for the current gradient. *)
Theorem C36_denominators :
  forall (W : Type) (f : list R -> W -> result R * W) (df : list R -> bool -> W -> result (list R) * W)
         (o : Opts RNum) (x0 : list R) (st0 : Stats RNum) (w0 : W) j s st w s1 st1 w1,
  x0 <> [] -> reach (K:=RNum) f df o x0 st0 w0 j s st w ->
  scg_directions (K:=RNum) df j s st w = (Ok (inl s1), st1, w1) ->
  0 < / 10 ^ 15 <= (l_beta s : R) /\
  (l_kappa s1 : R) = ldot (l_d s1) (l_d s1) /\ 0 < / 4503599627370496 <= l_kappa s1 /\
  sqrt (l_kappa s1) <> 0 /\ sigma0 (K:=RNum) / sqrt (l_kappa s1) <> 0 /\
  (l_mu s1 : R) = ldot (l_d s1) (l_gnew s1) /\ (l_mu s1 : R) < 0 /\ l_gnew s1 = l_gnew s /\
  0 < fst (scg_curvature s1) /\ 0 < snd (scg_curvature s1) /\
  0 < scg_alpha s1 /\ scg_alpha s1 * l_mu s1 < 0.
Proof.
  intros W f df o x0 st0 w0 j s st w s1 st1 w1 Hx R H.
  pose proof (inv_reach f df o x0 st0 w0 j s st w R) as I.
  pose proof (wp_and _ _ _ _ _ _ _ _ (dir_R df (length x0) j s st w I) H) as B.
  cbn beta iota in B. destruct B as (G & (_ & _ & _ & Eg & _) & Hk & Hm & _).
  assert (Hn : (0 < length x0)%nat) by (destruct x0; [contradiction|cbn; lia]).
  specialize (Hk Hn). specialize (Hm Hn).
  destruct (good_curv s1 G) as [C1 C2]. destruct (good_alpha s1 G) as [A1 A2].
  assert (Hk0 : / 4503599627370496 <= l_kappa s1).
  { eapply Rle_trans; [|apply (g_kappa s1 G)]. unfold eps_float. rnum. lra. }
  assert (Hs : 0 < sqrt (l_kappa s1)).
  { apply sqrt_lt_R0. eapply Rlt_le_trans; [|exact Hk0]. lra. }
  assert (H15 : 0 < / 10 ^ 15) by (apply Rinv_0_lt_compat, pow_lt; lra).
  apply bmin_pos in C2.
  repeat split; auto; try apply I; try apply G; try lra.
  apply Rgt_not_eq. apply Rdiv_lt_0_compat; [apply sigma0_pos|exact Hs].
Qed.
Print Assumptions C36_denominators.
(** the update of the scale at the end of an iteration with comparison ratio delta *)
Theorem C36_scale_update :
  forall beta delta : R, scg_beta (K:=RNum) beta delta =
  if Rlt_dec delta (1 / 4) then Rmin (4 * beta) (10 ^ 100)
  else if Rlt_dec (3 / 4) delta then Rmax (beta / 2) (/ 10 ^ 15) else beta.
Proof. exact scg_beta_eq. Qed.
Print Assumptions C36_scale_update.
(** The whole run, result and statistics included, is the same whatever value is given to a
    division by zero and to the square root of a negative number. *)
Theorem C36_no_undefined_operation :
  forall (z q : R -> R) (W : Type) (f : list R -> W -> result R * W) (df : list R -> bool -> W -> result (list R) * W)
         (nit : nat) (xtol ftol : R) (x0 : list R) (w : W),
  let r := scg_run (K:=RNum) f df (mkOpts (K:=RNum) nit xtol ftol) x0 w in
  let r' := scg_run (K:=RzNum z q) f df (mkOpts (K:=RzNum z q) nit xtol ftol) x0 w in
  fst (fst r') = fst (fst r) /\ snd r' = snd r /\
  s_maxit (snd (fst r')) = s_maxit (snd (fst r)) /\ s_fx (snd (fst r')) = s_fx (snd (fst r)) /\
  s_dfx (snd (fst r')) = s_dfx (snd (fst r)) /\ s_beta (snd (fst r')) = s_beta (snd (fst r)) /\
  s_feval (snd (fst r')) = s_feval (snd (fst r)) /\ s_dfeval (snd (fst r')) = s_dfeval (snd (fst r)).
Proof.
  intros z q W f df nit xtol ftol x0 w r r'.
  pose proof (ag_call z q f df (mkOpts (K:=RNum) nit xtol ftol) x0 (fresh_stats (K:=RNum) nit) w) as A.
  unfold agree in A. change (scg_call (K:=RzNum z q) f df (cop z q (mkOpts (K:=RNum) nit xtol ftol)) x0
    (cst z q (fresh_stats (K:=RNum) nit)) w) with r' in A.
  change (scg_call (K:=RNum) f df (mkOpts (K:=RNum) nit xtol ftol) x0 (fresh_stats (K:=RNum) nit) w) with r in A.
  rewrite A. clear A r'. destruct r as [[[a|e] st] w']; cbn; repeat split.
Qed.
Print Assumptions C36_no_undefined_operation.
(** a step is taken: f(x) = x^2 from x = 1 *)
Example C36_instance :
  exists s st w s1 st1 w1,
  reach (K:=RNum) (fun x w => (Ok (nth 0 x 0 * nth 0 x 0), w)) (fun x _ w => (Ok [2 * nth 0 x 0], w))
        (scg_options (Some 5%nat) None None) [1] (fresh_stats 5) tt 0 s st w /\
  scg_directions (K:=RNum) (fun x _ w => (Ok [2 * nth 0 x 0], w)) 0 s st w = (Ok (inl s1), st1, w1).
Proof.
  do 6 eexists. split; [constructor; reflexivity|].
  unfold scg_directions. cbn [l_success l_d l_gnew lopp map nth]. unfold ldot, suml.
  cbn [map2 map fold_left]. rnum.
  match goal with |- context [Rleb 0 ?a] => destruct (Rleb_spec 0 a) as [H|H]; [exfalso; lra|] end.
  cbn [map2 map fold_left]. rnum. unfold eps_float. rnum.
  match goal with |- context [Rltb ?a ?b] => destruct (Rltb_spec a b) as [H2|H2]; [exfalso; lra|] end.
  reflexivity.
Qed.

(** ** C37: statistics of a new object *)
Theorem C37_evaluation_counts :
  forall (K : Num) (W : Type) (f : list K -> W -> result K * W) (df : list K -> bool -> W -> result (list K) * W)
         (o : Opts K) (x0 : list K) (w : W) out st' w',
  scg_run f df o x0 w = (Ok out, st', w') ->
  s_feval st' = n_evals evaluates_f (run_log f df o x0 w) /\
  s_dfeval st' = n_evals evaluates_df (run_log f df o x0 w).
Proof.
  intros K W f df o x0 w out st' w' H.
  destruct (C33_log_faithful K W f df o x0 w) as [E1 E2]. rewrite H in E1. unfold run_log.
  destruct (scg_run (logged_f f) (logged_df df) o x0 (w, [])) as [[r st] wl] eqn:Er. cbn [fst snd] in *.
  inversion E1; subst. exact (count_call f df 0 0 o x0 (fresh_stats (o_nit o)) (w, []) out st' wl (conj eq_refl eq_refl) Er).
Qed.
Print Assumptions C37_evaluation_counts.
(** MaxIt is the number of iterations begun, at most max_it *)
Theorem C37_iterations :
  forall (K : Num) (W : Type) (f : list K -> W -> result K * W) (df : list K -> bool -> W -> result (list K) * W)
         (o : Opts K) (x0 : list K) (w : W) out st' w',
  scg_run f df o x0 w = (Ok out, st', w') ->
  returns f df o x0 (fresh_stats (o_nit o)) w (s_maxit st') out st' w' /\ (s_maxit st' <= o_nit o)%nat.
Proof.
  intros K W f df o x0 w out st' w' H. apply run_returns in H. destruct H as [n H].
  destruct (maxit_returns f df o x0 _ w n out st' w' H) as [H1 [->|[-> H2]]].
  - auto.
  - rewrite H2. cbn. split; [exact H|lia].
Qed.
Print Assumptions C37_iterations.
(** On a second call of the same object the counts add up, and a run that uses up its iterations
    leaves the MaxIt of the previous run. *)
Theorem C37_second_call :
  forall (K : Num) (W : Type) (f : list K -> W -> result K * W) (df : list K -> bool -> W -> result (list K) * W)
         (o : Opts K) (x0 : list K) (st : Stats K) (w : W) out st' w',
  scg_call f df o x0 st w = (Ok out, st', w') ->
  let log := snd (snd (scg_call (logged_f f) (logged_df df) o x0 st (w, []))) in
  s_feval st' = (s_feval st + n_evals evaluates_f log)%nat /\
  s_dfeval st' = (s_dfeval st + n_evals evaluates_df log)%nat /\
  exists n, returns f df o x0 st w n out st' w' /\ (n <= o_nit o)%nat /\
            (s_maxit st' = n \/ n = o_nit o /\ s_maxit st' = s_maxit st).
Proof.
  intros K W f df o x0 st w out st' w' H log.
  destruct (er_call f df o x0 st (w, [])) as [E1 _]. cbn [fst] in E1. rewrite H in E1. subst log.
  destruct (scg_call (logged_f f) (logged_df df) o x0 st (w, [])) as [[r st1] wl] eqn:Er. cbn [fst snd] in *.
  inversion E1; subst.
  assert (Hc : cnt_inv (W:=W) (s_feval st) (s_dfeval st) st (w, [])) by (split; cbn; lia).
  destruct (count_call f df _ _ o x0 st (w, []) out st' wl Hc Er) as [H1 H2].
  split; [exact H1|]. split; [exact H2|].
  apply run_returns in H. destruct H as [n H]. exists n. split; [exact H|].
  exact (maxit_returns f df o x0 _ w n out st' w' H).
Qed.
Print Assumptions C37_second_call.
Example C37_instance :
  match scg_run ex_f ex_df (ex_opts 4) [nlit (n:=FNum) 3 1; nlit (n:=FNum) 1 2] tt with
  | (Ok _, st, _) => (s_feval st, s_dfeval st, s_maxit st)
  | _ => (0, 0, 0)%nat
  end = (13, 9, 4)%nat.
Proof. vm_compute. reflexivity. Qed.

(** ** C38: the stored moments and the stored parameters *)
(** Unless the 500 iterations are used up and the last trial step is rejected, what is stored is
    what free_energy computes at the stored parameters, and fx is its value there. *)
Theorem C38_moments_partial :
  forall (K : Num) (E : Env K) (dim_n : nat) (x0 : list K) (r : RunOut E (list K) (list K)),
  sim_run1 E dim_n x0 = Ok r ->
  (exists out, r_arg r = Some out /\ fe_core E (pack1 (r_at r) (r_bt r)) = Ok (r_fx r, out)) \/
  (exists s st, reach (free_energy E) (gradient E) sim_options x0 (fresh_stats 500) None 500 s st (r_arg r) /\
                l_success s = false /\ pack1 (r_at r) (r_bt r) = l_x s).
Proof.
  intros K E n x0 r H. apply run_output in H. destruct H as (x & Eu & H).
  assert (Ex : pack1 (r_at r) (r_bt r) = x).
  { inversion Eu. unfold pack1. apply firstn_skipn. }
  rewrite Ex. exact H.
Qed.
Print Assumptions C38_moments_partial.
Theorem C38_moments_nd_partial :
  forall (K : Num) (E : Env K) (dim_n dim_d : nat) (x0 : list K) r,
  sim_runn E dim_n dim_d x0 = Ok r ->
  exists x, sim_unpackn dim_n dim_d x = Ok (r_at r, r_bt r) /\
  ((exists out, r_arg r = Some out /\ fe_core E x = Ok (r_fx r, out)) \/
   (exists s st, reach (free_energy E) (gradient E) sim_options x0 (fresh_stats 500) None 500 s st (r_arg r) /\
                 l_success s = false /\ x = l_x s)).
Proof. intros K E n d x0 r H. exact (run_output E (sim_unpackn n d) x0 r H). Qed.
Print Assumptions C38_moments_nd_partial.
(** In that case the stored moments belong to another point: the last evaluation made was at the
    rejected trial point. *)
Theorem C38_last_evaluation :
  forall (K : Num) (W : Type) (f : list K -> W -> result K * W) (df : list K -> bool -> W -> result (list K) * W)
         (o : Opts K) (x0 : list K) (w : W) out st' w',
  scg_run (logged_f f) (logged_df df) o x0 (w, []) = (Ok out, st', w') ->
  last_point (snd w') = Some (fst out) \/
  exists s, reach (logged_f f) (logged_df df) o x0 (fresh_stats (o_nit o)) (w, []) (o_nit o) s st' w' /\
            l_success s = false /\ fst out = l_x s.
Proof.
  intros K W f df o x0 w out st' w' H. apply run_returns in H. destruct H as [n H].
  exact (last_returns f df o x0 _ (w, []) n out st' w' H).
Qed.
Print Assumptions C38_last_evaluation.
(** A run of Simulation.run in binary64 in which this happens: the stored mean at grid point 1 is
    larger than the mean of the stored parameters. *)
Theorem C38_refuted :
  exists (E : Env FNum) (x0 : list FNum) (r : RunOut E (list FNum) (list FNum)) out v out',
  sim_run1 E 3 x0 = Ok r /\ r_arg r = Some out /\
  fe_core E (pack1 (r_at r) (r_bt r)) = Ok (v, out') /\ o_mt out <> o_mt out'.
Proof.
  destruct wit_run as (r & out & v & out' & H1 & H2 & H3 & H4).
  exists wit_env, wit_x0, r, out, v, out'. split; [exact H1|]. split; [exact H2|]. split; [exact H3|].
  intros E. unfold mean_at in H4. rewrite E in H4.
  assert (A : forall a : FNum, nlt (n:=FNum) a a = false).
  { intros a. cbn. unfold SFltb, SFcompare. destruct a as [b|b| |b m e]; try destruct b; try reflexivity.
    all: rewrite Z.compare_refl, ?Pos.compare_cont_refl; reflexivity. }
  rewrite A in H4. discriminate.
Qed.
Print Assumptions C38_refuted.
(** a run that converges and stores the right means *)
Example C38_instance : conv_check = true.
Proof. exact conv_true. Qed.
