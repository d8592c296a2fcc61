(** * The run of the Lorenz models completes, or raises LinAlgError *)
From Coq Require Import ZArith List Bool Arith Reals Lra Lia.
From Verif Require Import Num Arr ArrFacts M_LinAlg M_Utils M_Ode M_Sde1 M_L63 M_L96 M_L96E M_Prior M_Like M_VarGP M_Scg M_Run M_Proc M_Sim M_SimN
  Spec_Utils Spec_Prior Spec_Proc P_LinAlg P_Det P_RMat P_Sde1 P_Ode P_Prior P_Like P_Proc P_VarGP P_ScgTotal P_Spectral.
Import ListNotations.

(** ** Only LinAlgError *)
Lemma chol_upto_err {K : Num} (x : mat K) j e : chol_upto x j = Err e -> e = LinAlgError.
Proof.
  revert e; induction j as [|j IH]; intros e; cbn [chol_upto]; [discriminate|].
  destruct (chol_upto x j) as [L|e']; cbn [bind].
  - destruct (nlt _ _); [discriminate|congruence].
  - intros Q; injection Q as <-. auto.
Qed.
Lemma chol_inv_fast_err {K : Num} d (x : mat K) e : chol_inv_fast d x = Err e -> e = LinAlgError.
Proof.
  unfold chol_inv_fast. destruct (cholesky d x) as [L|e'] eqn:E; cbn [bind]; [discriminate|].
  intros Q; injection Q as <-. exact (chol_upto_err _ _ _ E).
Qed.
Lemma ut_approx_err {K : Num} fn d (m : vec K) S e : ut_approx fn d m S = Err e -> e = LinAlgError.
Proof.
  unfold ut_approx, ut_root.
  destruct (cholesky d (mscale _ S)) as [L|e'] eqn:E; cbn [bind]; [discriminate|].
  rewrite (chol_upto_err _ _ _ E). destruct (cholesky d (mhad S meye)) as [L|e''] eqn:E'; cbn [bind]; [discriminate|].
  intros Q; injection Q as <-. exact (chol_upto_err _ _ _ E').
Qed.
Lemma l96_point_err {K : Num} (solve : nat -> mat K -> result (vec K -> vec K)) d th dsi a b m S e :
  (forall d S e, solve d S = Err e -> e = LinAlgError) -> l96_point solve d th dsi a b m S = Err e -> e = LinAlgError.
Proof.
  intros Hs. unfold l96_point. destruct (ut_approx _ d m S) as [[mb ?]|e1] eqn:E1; cbn [bind]; [|intros Q; injection Q as <-; exact (ut_approx_err _ _ _ _ _ E1)].
  destruct (solve d S) as [sol|e2] eqn:E2; cbn [bind]; [|intros Q; injection Q as <-; exact (Hs _ _ _ E2)].
  destruct (chol_inv_fast d S) as [[is ?]|e3] eqn:E3; cbn [bind]; [|intros Q; injection Q as <-; exact (chol_inv_fast_err _ _ _ E3)].
  match goal with |- context [ut_approx ?f d m S] => destruct (ut_approx f d m S) as [[dm ?]|e4] eqn:E4 end; cbn [bind]; [discriminate|intros Q; injection Q as <-; exact (ut_approx_err _ _ _ _ _ E4)].
Qed.
Lemma map4r_out {A B C D E} (f : A -> B -> C -> D -> result E) (Q : exn -> Prop) :
  (forall a b c d e, f a b c d = Err e -> Q e) ->
  forall la lb lc ld, length la = length lb -> length la = length lc -> length la = length ld ->
  (exists l, map4r f la lb lc ld = Ok l /\ length l = length la) \/ (exists e, map4r f la lb lc ld = Err e /\ Q e).
Proof.
  intros Hf. induction la as [|a la IH]; intros [|b lb] [|c lc] [|d ld] H1 H2 H3; try discriminate; cbn [map4r].
  - left. exists []. auto.
  - destruct (f a b c d) as [x|e] eqn:Ef; cbn [bind]; [|right; exists e; split; [reflexivity|exact (Hf _ _ _ _ _ Ef)]].
    destruct (IH lb lc ld) as [(l & -> & Hl)|(e & -> & He)]; cbn in *; [lia..| |]; cbn [bind].
    + left. exists (x :: l). cbn. auto.
    + right. exists e. auto.
Qed.

(** ** The parts of the free energy that cannot fail *)
Section Parts.
Local Open Scope R_scope.
Lemma diagonal_symm d (C : nat -> nat -> R) : diagonal d C -> symm d C.
Proof.
  intros H i j Hi Hj. destruct (Nat.eq_dec i j) as [->|Hne]; [reflexivity|]. rewrite (H i j), (H j i) by auto. reflexivity.
Qed.
Lemma eye_val (c : R) i j : mscale (K:=RNum) c meye i j = if Nat.eqb i j then c else 0.
Proof. unfold mscale, meye. destruct (Nat.eqb i j); rnum; rring. Qed.
Lemma eye_diagonal d (c : R) : diagonal d (mscale (K:=RNum) c meye).
Proof. intros i j _ _ Hne. rewrite eye_val. destruct (Nat.eqb_spec i j); [contradiction|reflexivity]. Qed.
Lemma eye_posdef d (c : R) : 0 < c -> posdef d (mscale (K:=RNum) c meye).
Proof. intros Hc. apply diag_posdef; [apply eye_diagonal|]. intros i _. rewrite eye_val, Nat.eqb_refl. exact Hc. Qed.
Lemma kl0_ok d (mu m : nat -> R) (tau s0 : R) : 0 < tau -> 0 < s0 ->
  exists v, kl0_nd (K:=RNum) ln d mu (mscale (K:=RNum) tau meye) m (mscale (K:=RNum) s0 meye) = Ok v.
Proof.
  intros Ht Hs. set (T := mscale (K:=RNum) tau meye). set (S := mscale (K:=RNum) s0 meye).
  assert (HT : symm d T) by apply diagonal_symm, eye_diagonal. assert (HS : symm d S) by apply diagonal_symm, eye_diagonal.
  assert (PT : posdef d T) by (apply eye_posdef; exact Ht). assert (PS : posdef d S) by (apply eye_posdef; exact Hs).
  destruct (kl0_nd_zz_val d T (zz_vec (K:=RNum) d (vsubv m mu)) S HS PS HT PT) as (Si & Ti & HSi & _ & _ & _ & E).
  eexists. apply E. assert (Hsy : symm d Si) by (apply (inv_symm d S); [exact HS|apply HSi|apply HSi]).
  assert (V : forall i j, (i < d)%nat -> (j < d)%nat -> rmm d T Si i j = tau * Si i j).
  { intros i j Hi Hj. unfold rmm. rewrite (Rsum_single d _ i Hi).
    - unfold T. rewrite eye_val, Nat.eqb_refl. reflexivity.
    - intros k Hk Hne. unfold T. rewrite eye_val. destruct (Nat.eqb_spec i k); [congruence|]. ring. }
  intros i j Hi Hj. rewrite !V by assumption. rewrite (Hsy i j) by assumption. reflexivity.
Qed.
Lemma like_ok d (y : list (nat -> R)) t (C : nat -> nat -> R) (m : list (nat -> R)) (s : list (nat -> nat -> R)) :
  diagonal d C -> (forall i, (i < d)%nat -> 0 < C i i) -> length y = length t -> length s = length m ->
  (forall i, In i t -> (i < length m)%nat) -> NoDup t ->
  (exists v, like_nd (K:=RNum) ln PI d y t C meye m s = Ok v) /\
  (exists gm gs sh, like_grad_nd (K:=RNum) d y t C meye m = Ok (gm, gs, sh) /\ length gm = length m /\ length gs = length m).
Proof.
  intros HC Hp Hy Hs Ht Hn. assert (Ht' : List.Forall (fun i => (i < length m)%nat) t) by (apply Forall_forall; exact Ht).
  assert (Hsy := diagonal_symm d C HC). assert (Hpd : posdef d C) by (apply diag_posdef; assumption).
  split.
  - destruct (like_nd_val d y t C m s Hsy Hpd Hy Hs Ht' Hn) as (Ri & _ & E). eauto.
  - destruct (like_grad_nd_val d y t C m s Hsy Hpd Hy Hs Ht' Hn) as (Ri & gm & gs & _ & _ & E & L1 & L2 & _). eauto 10.
Qed.
End Parts.

(** ** The run *)
Section TotalN.
Context (G : Rng RNum) (solve : nat -> mat RNum -> result (vec RNum -> vec RNum)).
Variables (p : modeln RNum G) (n : nat) (step : R) (m0 : vec RNum) (s0 : mat RNum) (fwd bwd : solver RNum) (l : LikeN RNum) (pr : meann RNum * mat RNum) (obs_t : list nat).
Let d := q_dim (snd p).
Hypothesis Hsolve : fst p = L96 -> forall d S e, solve d S = Err e -> e = LinAlgError.
Hypothesis Hn : (0 < n)%nat.
Hypothesis Hlike : forall (m : list (vec RNum)) (s : list (mat RNum)), length m = n -> length s = n ->
  (exists v, like_calln RNum ln PI l m s = Ok v) /\
  (exists gm gs sh, like_gradn RNum l m = Ok (gm, gs, sh) /\
     length gm = n /\ length gs = n).
Hypothesis Hkl : exists v, kl0_calln RNum ln d pr m0 s0 = Ok v.
Let E := sim_envn RNum G solve ln PI p n step m0 s0 fwd bwd l pr obs_t.
(** what may be raised *)
Definition raises (e : exn) : Prop := fst p = L96 /\ e = LinAlgError.

Definition fulln (w : state E) : Prop :=
  exists o, w = Some o /\ length (o_mt o : list (vec RNum)) = n /\ length (o_st o : list (mat RNum)) = n /\ length (o_Efx o : list (vec RNum)) = n /\
    length (o_Edf o : list (mat RNum)) = n /\ length (o_lam o : list (vec RNum)) = n /\ length (o_psi o : list (mat RNum)) = n.

Lemma energyn_out (a : list (mat RNum)) (b m : list (vec RNum)) (s : list (mat RNum)) o :
  length a = n -> length b = n -> length m = n -> length s = n ->
  (exists e, energyn RNum G solve p step a b m s o = Ok e /\
     length (n_f e) = n /\ length (n_df e) = n /\ length (n_dm e) = n /\ length (n_ds e) = n) \/
  (exists e, energyn RNum G solve p step a b m s o = Err e /\ raises e).
Proof.
  intros A B C D. unfold energyn, raises. destruct (fst p) eqn:Ek.
  - left. eexists. split; [reflexivity|]. cbn [l63_energy n_f n_df n_dm n_ds].
    rewrite !map_length, !map2_length, !(map4_length (E:=_)) by congruence. repeat split; rewrite ?A, ?C, ?D, ?Nat.min_id; reflexivity.
  - unfold l96_energy.
    destruct (map4r_out (l96_point (K:=RNum) solve (q_dim (snd p)) (q_theta (snd p)) (diagv (q_isig (snd p)))) (fun e => e = LinAlgError)
      (fun a b c d e => l96_point_err solve _ _ _ a b c d e (Hsolve eq_refl)) a b m s) as [(pts & -> & Hl)|(e & -> & He)]; [congruence..| |]; cbn [bind].
    + left. eexists. split; [reflexivity|]. cbn [n_f n_df n_dm n_ds]. rewrite !map_length, Hl. auto.
    + right. exists e. auto.
Qed.
Lemma fe_out x : length x = (n * d * (d + 1))%nat ->
  (exists v o, fe_core E x = Ok (v, o) /\ fulln (Some o)) \/ (exists e, fe_core E x = Err e /\ raises e).
Proof.
  intros Hx. unfold fe_core.
  destruct (packn_unpack d x n Hx) as (a & b & Eu & La & Lb & _).
  change (v_unpack E x) with (unpackn n d x). rewrite Eu. cbn [bind].
  destruct (solve_fwd_total (sysn RNum d) (sol_method fwd) (sol_dt fwd) a b m0 s0 (q_sigma (snd p))) as (mt & st & E1); [cbn; lia..|].
  destruct (solve_fwd_shape _ _ _ _ _ _ _ _ _ _ E1) as (M1 & M2 & _).
  assert (M1' : length (mt : list (vec RNum)) = n) by (transitivity (length b); [exact M1|exact Lb]).
  assert (M2' : length (st : list (mat RNum)) = n) by (transitivity (length b); [exact M2|exact Lb]).
  change (v_fwd E a b (v_m0 E) (v_s0 E) (v_sigma E)) with (solve_fwd (sysn RNum d) (sol_method fwd) (sol_dt fwd) a b m0 s0 (q_sigma (snd p))).
  rewrite E1. cbn [bind].
  destruct (Hlike mt st M1' M2') as [(v & E2) (gm & gs & sh & E3 & G1 & G2)].
  change (v_like E mt st) with (like_calln RNum ln PI l mt st). rewrite E2. cbn [bind].
  change (v_energy E a b mt st) with (let* e := energyn RNum G solve p step a b mt st (Some obs_t) in Ok (n_sde e, (n_f e, n_df e), (n_dm e, n_ds e))).
  destruct (energyn_out a b mt st (Some obs_t) La Lb M1' M2') as [(e & E4 & L1 & L2 & L3 & L4)|(e & E4 & He)]; rewrite E4; cbn [bind]; [left|right; eauto].
  change (v_like_grad E mt st) with (let* (g, _) := like_gradn RNum l mt in Ok g).
  rewrite E3. cbn [bind].
  destruct (solve_bwd_total (sysn RNum d) (sol_method bwd) (sol_dt bwd) a (n_dm e) (n_ds e) gm gs) as (lam & psi & E5);
    [cbn in *; lia..|].
  destruct (solve_bwd_ok _ _ _ _ _ _ _ _ _ _ E5) as (P1 & P2 & _).
  assert (P1' : length (lam : list (vec RNum)) = n) by (transitivity (length (n_dm e)); [exact P1|exact L3]).
  assert (P2' : length (psi : list (mat RNum)) = n) by (transitivity (length (n_dm e)); [exact P2|exact L3]).
  change (v_bwd E a (n_dm e) (n_ds e) gm gs) with (solve_bwd (sysn RNum d) (sol_method bwd) (sol_dt bwd) a (n_dm e) (n_ds e) gm gs).
  rewrite E5. cbn [bind]. destruct Hkl as (v0 & E6).
  change (v_kl0 E (v_m0 E) (v_s0 E)) with (kl0_calln RNum ln d pr m0 s0). rewrite E6. cbn [bind].
  eexists _, _. split; [reflexivity|]. eexists. split; [reflexivity|]. cbn. auto 10.
Qed.
Lemma fe_out' x w : length x = (n * d * (d + 1))%nat ->
  (exists v w', free_energy E x w = (Ok v, w') /\ fulln w') \/ (exists e w', free_energy E x w = (Err e, w') /\ raises e).
Proof.
  intros Hx. destruct (fe_out x Hx) as [(v & o & H & F)|(e & H & F)]; unfold free_energy; rewrite H; eauto 10.
Qed.
Lemma gradn_core_total x w : length x = (n * d * (d + 1))%nat -> fulln w -> exists g, grad_core E x w = Ok g /\ length g = (n * d * (d + 1))%nat.
Proof.
  intros Hx (o & -> & H1 & H2 & H3 & H4 & H5 & H6). unfold grad_core.
  destruct (packn_unpack d x n Hx) as (a & b & Eu & La & Lb & _).
  change (v_unpack E x) with (unpackn n d x). rewrite Eu. cbn [bind].
  match goal with |- context [if ?b then _ else _] => assert (Hb : b = true) end.
  { unfold grad_reads_ok. cbn [forallb]. change (v_n E) with n.
    rewrite !andb_true_iff, !Nat.leb_le.
    refine (conj _ (conj _ (conj _ (conj _ (conj _ (conj _ (conj _ (conj _ eq_refl)))))))); apply Nat.eq_le_incl; symmetry; assumption. }
  rewrite Hb. eexists. split; [reflexivity|]. cbn -[packn]. unfold packn. rewrite app_length, ravel3_len, ravel2_len, !map_length, seq_length. nia.
Qed.
Lemma grad_out x b w : length x = (n * d * (d + 1))%nat -> (b = true \/ fulln w) ->
  (exists g w', gradient E x b w = (Ok g, w') /\ length g = (n * d * (d + 1))%nat /\ fulln w') \/
  (exists e w', gradient E x b w = (Err e, w') /\ raises e).
Proof.
  intros Hx H. unfold gradient. destruct b.
  - destruct (fe_out' x w Hx) as [(v & w' & -> & F)|(e & w' & -> & F)]; [|eauto].
    destruct (gradn_core_total x w' Hx F) as (g & -> & Hg). eauto 10.
  - destruct H as [H|F]; [discriminate|]. destruct (gradn_core_total x w Hx F) as (g & -> & Hg). eauto 10.
Qed.
Lemma sim_runn_out x0 : length x0 = (n * d * (d + 1))%nat ->
  (exists a b fx o, sim_runn E n d x0 = Ok (mkRunOut a b fx (Some o)) /\ length a = n /\ length b = n /\ fulln (Some o)) \/
  (exists e, sim_runn E n d x0 = Err e /\ raises e).
Proof.
  intros Hx. destruct (scg_run_outcome (free_energy E) (gradient E) (n * d * (d + 1)) fulln raises fe_out' grad_out
    sim_options x0 None Hx) as [(x & fx & st & w & H & Lx & (o & -> & F))|(e & st & w & H & He)].
  - left. destruct (packn_unpack d x n Lx) as (a & b & Eu & La & Lb & _).
    exists a, b, fx, o. unfold sim_runn, sim_optimise. rewrite H.
    change (sim_unpackn n d x) with (unpackn n d x). rewrite Eu. cbn [bind]. repeat split; auto. exists o. auto.
  - right. exists e. unfold sim_runn, sim_optimise. rewrite H. auto.
Qed.
End TotalN.

(** a likelihood that always fails ends the run *)
Section LikeFails.
Context (G : Rng RNum) (solve : nat -> mat RNum -> result (vec RNum -> vec RNum)).
Variables (p : modeln RNum G) (n : nat) (step : R) (m0 : vec RNum) (s0 : mat RNum) (fwd bwd : solver RNum) (l : LikeN RNum) (pr : meann RNum * mat RNum) (obs_t : list nat).
Let d := q_dim (snd p).
Hypothesis Hn : (0 < n)%nat.
Let E := sim_envn RNum G solve ln PI p n step m0 s0 fwd bwd l pr obs_t.
Lemma sim_runn_like_fails e :
  (forall (m : list (vec RNum)) (s : list (mat RNum)), length m = n -> length s = n -> like_calln RNum ln PI l m s = Err e) ->
  forall x0, length x0 = (n * d * (d + 1))%nat -> sim_runn E n d x0 = Err e.
Proof.
  intros Hlike x Hx. unfold sim_runn, sim_optimise, scg_run, scg_call, scg_start, call_f.
  assert (H : free_energy E x None = (Err e, None)).
  { unfold free_energy. assert (H : fe_core E x = Err e).
    { unfold fe_core.
      destruct (packn_unpack d x n Hx) as (a & b & Eu & La & Lb & _).
      change (v_unpack E x) with (unpackn n d x). rewrite Eu. cbn [bind].
      destruct (solve_fwd_total (sysn RNum d) (sol_method fwd) (sol_dt fwd) a b m0 s0 (q_sigma (snd p))) as (mt & st & E1); [cbn; lia..|].
      destruct (solve_fwd_shape _ _ _ _ _ _ _ _ _ _ E1) as (M1 & M2 & _).
      assert (M1' : length (mt : list (vec RNum)) = n) by (transitivity (length b); [exact M1|exact Lb]).
      assert (M2' : length (st : list (mat RNum)) = n) by (transitivity (length b); [exact M2|exact Lb]).
      change (v_fwd E a b (v_m0 E) (v_s0 E) (v_sigma E)) with (solve_fwd (sysn RNum d) (sol_method fwd) (sol_dt fwd) a b m0 s0 (q_sigma (snd p))).
      rewrite E1. cbn [bind]. change (v_like E mt st) with (like_calln RNum ln PI l mt st). rewrite (Hlike mt st M1' M2'). reflexivity. }
    rewrite H. reflexivity. }
  unfold mbind. rewrite H. reflexivity.
Qed.
End LikeFails.
