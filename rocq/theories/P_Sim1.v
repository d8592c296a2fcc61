(** * The one-dimensional run completes *)
From Coq Require Import ZArith List Bool Arith Lia.
From Verif Require Import Num Arr ArrFacts M_LinAlg M_Ode M_Sde1 M_Prior M_Like M_VarGP M_Scg M_Run M_Proc M_Sim M_Sim1
  P_Sde1 P_Ode P_Like P_Proc P_VarGP P_ScgTotal.
Import ListNotations.

Section Total1.
Context {K : Num} (G : Rng K).
Variable nln : K -> K.
Variable npi : K.
Variables (k : kind1) (p : P1 G) (n : nat) (step m0 s0 : K) (fwd bwd : solver K) (l : Like1 K) (pr : K * K) (obs_t : list nat).
Hypothesis Hn : (0 < n)%nat.
Hypothesis Ht : forall i, In i (k_t l) -> (i < n)%nat.
Hypothesis Hy : length (k_y l) = length (k_t l).
Variable Hl : K.
Hypothesis HH : k_H l = Ok Hl.
Let E := sim_env1 K G nln npi k p n step m0 s0 fwd bwd l pr obs_t.

Definition full (w : state E) : Prop :=
  exists o, w = Some o /\ length (o_mt o : list K) = n /\ length (o_st o : list K) = n /\ length (o_Efx o : list K) = n /\
    length (o_Edf o : list K) = n /\ length (o_lam o : list K) = n /\ length (o_psi o : list K) = n.

Lemma energy1_len (a b m s : list K) o : length a = n -> length b = n -> length m = n -> length s = n ->
  let e := energy1 K k (p_sigma p) (p_theta p) step a b m s o in
  length (e_f e) = n /\ length (e_df e) = n /\ length (e_dm e) = n /\ length (e_ds e) = n.
Proof.
  intros A B C D. unfold energy1. destruct k; cbn [ou_energy dw_energy e_f e_df e_dm e_ds];
    rewrite ?map_length, ?map2_length, ?(map4_length (E:=K)) by congruence; repeat split; rewrite ?A, ?B, ?C, ?D, ?Nat.min_id; reflexivity.
Qed.
Lemma fe_total x : length x = (2 * n)%nat ->
  exists v o, fe_core E x = Ok (v, o) /\ full (Some o).
Proof.
  intros Hx. unfold fe_core, E. cbn -[fwd_ode_call1 bwd_ode_call1 like_1d like_grad_1d energy1 kl0_1d Nat.mul].
  set (a := firstn _ x). set (b := skipn _ x).
  assert (Ha : length a = n) by (unfold a; rewrite firstn_length; lia).
  assert (Hb : length b = n) by (unfold b; rewrite skipn_length; lia).
  destruct (solve_fwd_total (sys1 K) (sol_method fwd) (sol_dt fwd) a b m0 s0 (p_sigma p)) as (mt & st & E1).
  { cbn. lia. } { cbn. lia. }
  destruct (solve_fwd_shape _ _ _ _ _ _ _ _ _ _ E1) as (M1 & M2 & _).
  assert (M1' : length (mt : list K) = n) by (transitivity (length b); [exact M1|exact Hb]).
  assert (M2' : length (st : list K) = n) by (transitivity (length b); [exact M2|exact Hb]). clear M1 M2. rename M1' into M1, M2' into M2.
  unfold fwd_ode_call1. rewrite E1. cbn [bind].
  assert (Tm : forall q : list K, length q = n -> take q (k_t l) = Ok (map (fun i => nth i q (nZ 0)) (k_t l))).
  { intros q Hq. apply take_ok. intros i Hi. rewrite Hq. apply Ht, Hi. }
  rewrite HH. cbn [bind]. unfold like_1d, like_grad_1d. rewrite !Tm by assumption. cbn [bind]. unfold same_len.
  rewrite map_length, <- Hy, Nat.eqb_refl. cbn [bind].
  pose proof (energy1_len a b mt st (Some obs_t) Ha Hb M1 M2) as (L1 & L2 & L3 & L4).
  set (e := energy1 _ _ _ _ _ _ _ _ _ _) in *.
  set (om := scatter _ (map (fun w : K => _) _) (repeat _ _)).
  set (os := scatter _ (map (fun _ : nat => _) _) (repeat _ _)).
  assert (O1 : length om = n) by (unfold om; rewrite scatter_length, repeat_length; exact M1).
  assert (O2 : length os = n) by (unfold os; rewrite scatter_length, repeat_length; exact M1).
  destruct (solve_bwd_total (sys1 K) (sol_method bwd) (sol_dt bwd) a (e_dm e) (e_ds e) om os) as (lam & psi & E2);
    [cbn in *; lia..|].
  destruct (solve_bwd_ok _ _ _ _ _ _ _ _ _ _ E2) as (P1 & P2 & _).
  assert (P1' : length (lam : list K) = n) by (transitivity (length (e_dm e)); [exact P1|exact L3]).
  assert (P2' : length (psi : list K) = n) by (transitivity (length (e_dm e)); [exact P2|exact L3]).
  unfold bwd_ode_call1. rewrite E2. cbn [bind]. eexists _, _. split; [reflexivity|].
  eexists. split; [reflexivity|]. cbn. auto 10.
Qed.
Lemma fe_total' x w : length x = (2 * n)%nat -> exists v w', free_energy E x w = (Ok v, w') /\ full w'.
Proof. intros Hx. destruct (fe_total x Hx) as (v & o & H & F). unfold free_energy. rewrite H. eauto. Qed.
Lemma grad_core_total x w : length x = (2 * n)%nat -> full w -> exists g, grad_core E x w = Ok g /\ length g = (2 * n)%nat.
Proof.
  intros Hx (o & -> & H1 & H2 & H3 & H4 & H5 & H6). unfold grad_core.
  change (v_unpack E x) with (Ok (unpack1 n x) : result (list K * list K)). unfold unpack1. cbn [bind].
  match goal with |- context [if ?b then _ else _] => assert (Hb : b = true) end.
  { unfold grad_reads_ok. cbn [forallb]. change (v_n E) with n.
    assert (A1 : length (firstn (n * 1 * 1) x) = n) by (rewrite firstn_length; lia).
    assert (A2 : length (skipn (n * 1 * 1) x) = n) by (rewrite skipn_length; lia).
    rewrite !andb_true_iff, !Nat.leb_le.
    refine (conj _ (conj _ (conj _ (conj _ (conj _ (conj _ (conj _ (conj _ eq_refl)))))))); apply Nat.eq_le_incl; symmetry; assumption. }
  rewrite Hb. eexists. split; [reflexivity|]. cbn. unfold pack1. rewrite app_length, !map_length, seq_length. lia.
Qed.
Lemma grad_total x b w : length x = (2 * n)%nat -> (b = true \/ full w) ->
  exists g w', gradient E x b w = (Ok g, w') /\ length g = (2 * n)%nat /\ full w'.
Proof.
  intros Hx H. unfold gradient. destruct b.
  - destruct (fe_total' x w Hx) as (v & w' & -> & F). destruct (grad_core_total x w' Hx F) as (g & -> & Hg). eauto.
  - destruct H as [H|F]; [discriminate|]. destruct (grad_core_total x w Hx F) as (g & -> & Hg). eauto.
Qed.
Lemma sim_run1_total x0 : length x0 = (2 * n)%nat ->
  exists a b fx o, sim_run1 E n x0 = Ok (mkRunOut a b fx (Some o)) /\ length a = n /\ length b = n /\ full (Some o).
Proof.
  intros Hx. destruct (scg_run_total (free_energy E) (gradient E) (2 * n) full fe_total' grad_total
    sim_options x0 None Hx) as (x & fx & st & w & H & Lx & (o & -> & F)).
  exists (firstn n x), (skipn n x), fx, o. unfold sim_run1, sim_optimise. rewrite H. cbn [bind sim_unpack1].
  rewrite firstn_length, skipn_length. repeat split; try lia. exists o. auto.
Qed.
End Total1.
