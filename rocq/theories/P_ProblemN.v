(** * The problem that setup prepares and run solves, Lorenz models *)
From Coq Require Import ZArith List Bool Arith Reals Lra Lia Sorted String FunctionalExtensionality.
From Verif Require Import Num Arr ArrFacts M_LinAlg M_Ode M_Sde1 M_L63 M_L96 M_L96E M_Prior M_Like M_VarGP M_Scg M_Run M_Proc M_Sim M_SimN
  Spec_Utils Spec_Gauss Spec_GaussN Spec_Ode Spec_L63 Spec_L96 Spec_L96E Spec_Prior Spec_Like Spec_Proc Spec_Sim Spec_SimN Spec_Problem Spec_ProblemN
  P_Det P_RMat P_Ode P_OdeR P_OdeRK P_OdeSel P_Like P_Init P_Proc P_Traj P_Noise P_VarGP P_Trapz P_ScgTotal P_ScgR P_Sim P_Sim2 P_SimN P_SimN2 P_Problem
  Props_Ode Props_L63 Props_Prior Props_Like Props_Proc Props_Scg.
From Verif Require Props_L96E.
Import ListNotations.
Local Open Scope R_scope.

(** ** the optimiser's state always comes from one evaluation of the free energy *)
Section RunN.
Context (G : Rng RNum) (solve : nat -> mat RNum -> result (vec RNum -> vec RNum)).
Variables (p : modeln RNum G) (n : nat) (step : R) (m0 : vec RNum) (s0 : mat RNum) (fwd bwd : solver RNum) (l : LikeN RNum) (pr : meann RNum * mat RNum) (obs_t : list nat).
Let d := q_dim (snd p).
Hypothesis Hsolve : fst p = L96 -> forall d S e, solve d S = Err e -> e = LinAlgError.
Hypothesis Hn : (0 < n)%nat.
Hypothesis Hlike : forall (m : list (vec RNum)) (s : list (mat RNum)), List.length m = n -> List.length s = n ->
  (exists v, like_calln RNum ln PI l m s = Ok v) /\
  (exists gm gs sh, like_gradn RNum l m = Ok (gm, gs, sh) /\
     List.length gm = n /\ List.length gs = n).
Hypothesis Hkl : exists v, kl0_calln RNum ln d pr m0 s0 = Ok v.
Let E := sim_envn RNum G solve ln PI p n step m0 s0 fwd bwd l pr obs_t.
Notation fulln' := (fulln G solve p n step m0 s0 fwd bwd l pr obs_t).
Notation raises' := (raises G p).

Definition from_calln (w : state E) : Prop :=
  fulln' w /\ exists x v o, List.length x = (n * d * (d + 1))%nat /\ fe_core E x = Ok (v, o) /\ w = Some o.
Lemma fe_outn x w : List.length x = (n * d * (d + 1))%nat ->
  (exists v w', free_energy E x w = (Ok v, w') /\ from_calln w') \/ (exists e w', free_energy E x w = (Err e, w') /\ raises' e).
Proof.
  intros Hx. destruct (fe_out G solve p n step m0 s0 fwd bwd l pr obs_t Hsolve Hn Hlike Hkl x Hx) as [(v & o & H & F)|(e & H & F)]; fold E in H; unfold free_energy; rewrite H.
  - left. exists v, (Some o). split; [reflexivity|]. split; [exact F|]. eauto 6.
  - right. eauto.
Qed.
Lemma grad_outn x b w : List.length x = (n * d * (d + 1))%nat -> (b = true \/ from_calln w) ->
  (exists g w', gradient E x b w = (Ok g, w') /\ List.length g = (n * d * (d + 1))%nat /\ from_calln w') \/
  (exists e w', gradient E x b w = (Err e, w') /\ raises' e).
Proof.
  intros Hx H. unfold gradient. destruct b.
  - destruct (fe_outn x w Hx) as [(v & w' & -> & F)|(e & w' & -> & F)]; [|eauto].
    destruct (gradn_core_total G solve p n step m0 s0 fwd bwd l pr obs_t Hn x w' Hx (proj1 F)) as (g & H1 & Hg). fold E in H1. rewrite H1. eauto 10.
  - destruct H as [H|F]; [discriminate|].
    destruct (gradn_core_total G solve p n step m0 s0 fwd bwd l pr obs_t Hn x w Hx (proj1 F)) as (g & H1 & Hg). fold E in H1. rewrite H1. eauto 10.
Qed.
Lemma sim_runn_spec x0 : List.length x0 = (n * d * (d + 1))%nat ->
  (exists x a b fx o x' v' o1 f0 o0,
    sim_runn E n d x0 = Ok (mkRunOut a b fx (Some o)) /\ List.length x = (n * d * (d + 1))%nat /\ unpackn n d x = Ok (a, b) /\ fulln' (Some o) /\
    fe_core E x = Ok (fx, o1) /\ fe_core E x0 = Ok (f0, o0) /\ fx <= f0 /\
    List.length x' = (n * d * (d + 1))%nat /\ fe_core E x' = Ok (v', o)) \/
  (exists e, sim_runn E n d x0 = Err e /\ raises' e).
Proof.
  intros Hx. destruct (scg_run_outcome (free_energy E) (gradient E) (n * d * (d + 1)) from_calln raises' fe_outn grad_outn
    sim_options x0 None Hx) as [(x & fx & st & w & H & Lx & (F & x' & v' & o & Lx' & Ho & ->))|(e & st & w & H & He)].
  2:{ right. exists e. unfold sim_runn, sim_optimise. rewrite H. auto. }
  left. destruct (packn_unpack d x n Lx) as (a & b & Eu & La & Lb & _).
  set (F0 := fun y => match fe_core E y with Ok (v, _) => Ok v | Err e => Err e end : result R).
  assert (HF : forall y w, fst (free_energy E y w) = F0 y).
  { intros y w. unfold free_energy, F0. destruct (fe_core E y) as [[v o']|e]; reflexivity. }
  destruct (C35_descent _ _ (gradient E) F0 HF _ _ _ _ _ _ _ H) as (V & D & _).
  assert (E0 : exists f0 o0, fe_core E x0 = Ok (f0, o0)).
  { destruct (fe_core E x0) as [[f0 o0]|e] eqn:E0; [eauto|]. exfalso.
    unfold scg_run, scg_call, scg_start, call_f, mbind in H. unfold free_energy at 1 in H. rewrite E0 in H. cbn in H. discriminate. }
  destruct E0 as (f0 & o0 & E0).
  unfold F0 in V. destruct (fe_core E x) as [[v1 o1]|e] eqn:E1; [|discriminate]. injection V as ->.
  exists x, a, b, fx, o, x', v', o1, f0, o0. split.
  { unfold sim_runn, sim_optimise. rewrite H. change (sim_unpackn n d x) with (unpackn n d x). rewrite Eu. reflexivity. }
  split; [exact Lx|]. split; [exact Eu|]. split; [exact F|]. split; [exact E1|]. split; [exact E0|]. split.
  { apply (D f0). unfold F0. rewrite E0. reflexivity. }
  split; [exact Lx'|exact Ho].
Qed.
Lemma fe_core_partsn x v o : fe_core E x = Ok (v, o) -> 
  exists a b eo en kl, unpackn n d x = Ok (a, b) /\
    solve_fwd (sysn RNum d) (sol_method fwd) (sol_dt fwd) a b m0 s0 (q_sigma (snd p)) = Ok (o_mt o, o_st o) /\
    like_calln RNum ln PI l (o_mt o) (o_st o) = Ok eo /\
    energyn RNum G solve p step a b (o_mt o) (o_st o) (Some obs_t) = Ok en /\
    kl0_calln RNum ln d pr m0 s0 = Ok kl /\
    v = kl + n_sde en + eo.
Proof.
  clear Hkl Hlike Hn Hsolve. intros H. unfold fe_core in H.
  change (v_unpack E x) with (unpackn n d x) in H. destruct (unpackn n d x) as [[a b]|]; [|discriminate]. cbn [bind] in H.
  change (v_fwd E a b (v_m0 E) (v_s0 E) (v_sigma E)) with (solve_fwd (sysn RNum d) (sol_method fwd) (sol_dt fwd) a b m0 s0 (q_sigma (snd p))) in H.
  destruct (solve_fwd (sysn RNum d) _ _ a b m0 s0 _) as [[mt st]|] eqn:E1; [|discriminate]. cbn [bind] in H.
  change (v_like E mt st) with (like_calln RNum ln PI l mt st) in H. destruct (like_calln _ _ _ l mt st) as [eo|] eqn:E2; [|discriminate]. cbn [bind] in H.
  change (v_energy E a b mt st) with (let* e := energyn RNum G solve p step a b mt st (Some obs_t) in Ok (n_sde e, (n_f e, n_df e), (n_dm e, n_ds e))) in H.
  destruct (energyn _ _ _ _ _ a b mt st _) as [en|] eqn:E3; [|discriminate]. cbn [bind] in H.
  destruct (v_like_grad E mt st) as [[g1 g2]|]; [|discriminate]. cbn [bind] in H.
  destruct (v_bwd E _ _ _ _ _) as [[lam psi]|]; [|discriminate]. cbn [bind] in H.
  change (v_kl0 E (v_m0 E) (v_s0 E)) with (kl0_calln RNum ln d pr m0 s0) in H.
  destruct (kl0_calln _ _ _ _ _ _) as [kl|] eqn:E4; [|discriminate]. cbn [bind] in H.
  injection H as <- <-. exists a, b, eo, en, kl. cbn [o_mt o_st]. repeat (split; [reflexivity || assumption|]). reflexivity.
Qed.
End RunN.
