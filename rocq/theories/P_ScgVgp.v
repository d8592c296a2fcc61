(** * The optimiser on VarGP: asking for a new evaluation with every gradient changes nothing *)
From Coq Require Import List Bool Arith ZArith Lia.
From Verif Require Import Num Arr M_Ode M_VarGP M_Scg M_Run Spec_Scg P_Scg P_ScgPure P_RunWit.
Import ListNotations.

Section Ext.
Context {K : Num} {W : Type}.
Lemma bind_ext {A B} (m m' : @M K W A) (k k' : A -> @M K W B) st w :
  m st w = m' st w -> (forall a st' w', m st w = (Ok a, st', w') -> k a st' w' = k' a st' w') ->
  mbind m k st w = mbind m' k' st w.
Proof.
  intros H Hk. unfold mbind. rewrite <- H. destruct (m st w) as [[[a|e] st'] w'] eqn:E; [apply Hk; reflexivity | reflexivity].
Qed.
Variable f : list K -> W -> result K * W.
Variables df dg : list K -> bool -> W -> result (list K) * W.
Hypothesis Htrue : forall x w, df x true w = dg x true w.
Hypothesis Hafter : forall x w v w', f x w = (Ok v, w') -> df x false w' = dg x false w'.

Lemma call_f_state x st w v st' w' : call_f f x st w = (Ok v, st', w') -> f x w = (Ok v, w').
Proof. unfold call_f. destruct (f x w). intros H; inversion H; subst; reflexivity. Qed.
Lemma call_df_ext x b st w : df x b w = dg x b w -> call_df df x b st w = call_df dg x b st w.
Proof. unfold call_df. intros ->. reflexivity. Qed.
Lemma start_ext x0 st w : scg_start f df x0 st w = scg_start f dg x0 st w.
Proof.
  unfold scg_start. cbv zeta. apply bind_ext; [reflexivity|]. intros v st1 w1 E1.
  apply bind_ext; [|reflexivity]. apply call_df_ext. apply call_f_state in E1. eauto.
Qed.
Lemma directions_ext j s st w : scg_directions df j s st w = scg_directions dg j s st w.
Proof.
  unfold scg_directions. cbv zeta. destruct (l_success s); [|reflexivity].
  match goal with |- (if ?c then _ else _) _ _ = _ => destruct c end; [reflexivity|].
  apply bind_ext; [|reflexivity]. apply call_df_ext. apply Htrue.
Qed.
Lemma step_ext o n j s st w : scg_step f df o n j s st w = scg_step f dg o n j s st w.
Proof.
  unfold scg_step. cbv zeta. apply bind_ext; [reflexivity|]. intros fn st1 w1 _.
  apply bind_ext; [reflexivity|]. intros _ st2 w2 _. apply bind_ext; [reflexivity|]. intros _ st3 w3 _.
  match goal with |- (if ?c then _ else _) _ _ = _ => destruct c end; [|reflexivity].
  match goal with |- (if ?c then _ else _) _ _ = _ => destruct c end; [reflexivity|].
  apply bind_ext; [reflexivity|]. intros v st4 w4 E4.
  apply bind_ext; [|reflexivity]. apply call_df_ext. apply call_f_state in E4. eauto.
Qed.
Lemma body_ext o n j s st w : scg_body f df o n j s st w = scg_body f dg o n j s st w.
Proof.
  unfold scg_body. apply bind_ext; [apply directions_ext|]. intros [s1|out] st1 w1 _; [apply step_ext|reflexivity].
Qed.
Lemma loop_ext o n k : forall j s st w, scg_loop f df o n k j s st w = scg_loop f dg o n k j s st w.
Proof.
  induction k as [|k IH]; intros j s st w; cbn [scg_loop]; [reflexivity|].
  apply bind_ext; [apply body_ext|]. intros [s1|out] st1 w1 _; [apply IH|reflexivity].
Qed.
Lemma call_ext o x0 st w : scg_call f df o x0 st w = scg_call f dg o x0 st w.
Proof. unfold scg_call. apply bind_ext; [apply start_ext|]. intros s st1 w1 _. apply loop_ext. Qed.
End Ext.

Lemma vgp_fresh_gradients {K : Num} (E : Env K) o x0 st w :
  scg_call (free_energy E) (gradient E) o x0 st w =
  scg_call (free_energy E) (fun x _ => gradient E x true) o x0 st w.
Proof.
  apply call_ext; [reflexivity|]. intros x w0 v w' H. unfold gradient, free_energy in *.
  destruct (fe_core E x) as [[v' out]|e]; inversion H; subst. reflexivity.
Qed.

(** Simulation.run *)
Lemma run_output {K : Num} (E : Env K) {A B} (unpack : list K -> result (A * B)) x0 (r : RunOut E A B) :
  sim_optimise E unpack x0 = Ok r ->
  exists x, unpack x = Ok (r_at r, r_bt r) /\
  ((exists out, r_arg r = Some out /\ fe_core E x = Ok (r_fx r, out)) \/
   exists s st, reach (free_energy E) (gradient E) sim_options x0 (fresh_stats 500) None 500 s st (r_arg r) /\
                l_success s = false /\ x = l_x s).
Proof.
  unfold sim_optimise.
  destruct (scg_run (free_energy E) (gradient E) sim_options x0 None) as [[[[x fx]|e] st] w] eqn:Er; [|discriminate].
  destruct (unpack x) as [[a b]|e] eqn:Eu; cbn [bind]; [|discriminate]. intros H; inversion H; subst; clear H.
  exists x. split; [exact Eu|]. cbn [r_arg r_fx].
  apply run_returns in Er. destruct Er as [n Er]. apply vgp_returns in Er.
  destruct Er as [(out & -> & Hc)|(s & R & Hs & -> & _)]; [left; eauto | right].
  exists s, st. split; [exact R|]. auto.
Qed.

Lemma wit_ok_spec r : wit_ok r = true ->
  exists ro out v out', r = Ok ro /\ r_arg ro = Some out /\
    fe_core wit_env (pack1 (K:=FNum) (r_at ro) (r_bt ro)) = Ok (v, out') /\
    nlt (n:=FNum) (mean_at 1 out') (mean_at 1 out) = true.
Proof.
  unfold wit_ok. destruct r as [ro|e]; [|discriminate]. unfold wit_test.
  destruct (r_arg ro) as [out|] eqn:E1; [|discriminate].
  destruct (fe_core wit_env (pack1 (K:=FNum) (r_at ro) (r_bt ro))) as [[v out']|e] eqn:E2; [|discriminate].
  intros H. apply andb_prop in H. destruct H as [_ H]. exists ro, out, v, out'. auto.
Qed.

Opaque sim_run1.
Lemma wit_run : exists ro out v out', sim_run1 (K:=FNum) wit_env 3 wit_x0 = Ok ro /\ r_arg ro = Some out /\
    fe_core wit_env (pack1 (K:=FNum) (r_at ro) (r_bt ro)) = Ok (v, out') /\
    nlt (n:=FNum) (mean_at 1 out') (mean_at 1 out) = true.
Proof. apply wit_ok_spec. exact wit_true. Qed.
