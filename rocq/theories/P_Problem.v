(** * The problem that setup prepares and run solves, one dimension *)
From Coq Require Import ZArith List Bool Arith Reals Lra Lia Sorted String.
From Verif Require Import Num Arr ArrFacts M_LinAlg M_Ode M_Sde1 M_Prior M_Like M_VarGP M_Scg M_Run M_Proc M_Sim M_Sim1
  Spec_Utils Spec_Gauss Spec_Ode Spec_Sde1 Spec_Prior Spec_Like Spec_Proc Spec_Sim Spec_Sim1 Spec_Problem
  P_Sde1 P_Ode P_OdeRK P_OdeSel P_Like P_Init P_Proc P_Traj P_VarGP P_Trapz P_ScgTotal P_ScgR P_Sim P_Sim1 P_Sim2
  Props_Ode Props_Sde1 Props_Prior Props_Like Props_Scg.
Import ListNotations.
Local Open Scope R_scope.

(** ** the optimiser's state always comes from one evaluation of the free energy *)
Section Run1.
Context (G : Rng RNum) (k : kind1) (p : P1 G) (n : nat) (step m0 s0 : R) (fwd bwd : solver RNum) (l : Like1 RNum) (pr : R * R)
  (obs_t : list nat).
Hypothesis Hn : (0 < n)%nat.
Hypothesis Ht : forall i, In i (k_t l) -> (i < n)%nat.
Hypothesis Hy : List.length (k_y l) = List.length (k_t l).
Variable hop : RNum.
Hypothesis HH : k_H l = Ok hop.
Notation E := (sim_env1 RNum G ln PI k p n step m0 s0 fwd bwd l pr obs_t).
Notation full' := (full (K:=RNum) G ln PI k p n step m0 s0 fwd bwd l pr obs_t).

Definition from_call (w : state E) : Prop :=
  full' w /\ exists x v o, List.length x = (2 * n)%nat /\ fe_core E x = Ok (v, o) /\ w = Some o.
Lemma fe_total2 x w : List.length x = (2 * n)%nat -> exists v w', free_energy E x w = (Ok v, w') /\ from_call w'.
Proof.
  intros Hx. destruct (fe_total (K:=RNum) G ln PI k p n step m0 s0 fwd bwd l pr obs_t Hn Ht Hy hop HH x Hx) as (v & o & H & F).
  unfold free_energy. rewrite H. exists v, (Some o). split; [reflexivity|]. split; [exact F|]. eauto 6.
Qed.
Lemma grad_total2 x b w : List.length x = (2 * n)%nat -> (b = true \/ from_call w) ->
  exists g w', gradient E x b w = (Ok g, w') /\ List.length g = (2 * n)%nat /\ from_call w'.
Proof.
  intros Hx H. unfold gradient. destruct b.
  - destruct (fe_total2 x w Hx) as (v & w' & -> & F).
    destruct (grad_core_total (K:=RNum) G ln PI k p n step m0 s0 fwd bwd l pr obs_t Hn Hy x w' Hx (proj1 F)) as (g & -> & Hg). eauto.
  - destruct H as [H|F]; [discriminate|].
    destruct (grad_core_total (K:=RNum) G ln PI k p n step m0 s0 fwd bwd l pr obs_t Hn Hy x w Hx (proj1 F)) as (g & -> & Hg). eauto.
Qed.
Lemma sim_run1_spec x0 : List.length x0 = (2 * n)%nat ->
  exists x fx o x' v' o1 f0 o0,
    sim_run1 E n x0 = Ok (mkRunOut (firstn n x) (skipn n x) fx (Some o)) /\ List.length x = (2 * n)%nat /\ full' (Some o) /\
    fe_core E x = Ok (fx, o1) /\ fe_core E x0 = Ok (f0, o0) /\ fx <= f0 /\
    List.length x' = (2 * n)%nat /\ fe_core E x' = Ok (v', o).
Proof.
  intros Hx. destruct (scg_run_total (free_energy E) (gradient E) (2 * n) from_call fe_total2 grad_total2
    sim_options x0 None Hx) as (x & fx & st & w & H & Lx & (F & x' & v' & o & Lx' & Ho & ->)).
  set (F0 := fun y => match fe_core E y with Ok (v, _) => Ok v | Err e => Err e end : result R).
  assert (HF : forall y w, fst (free_energy E y w) = F0 y).
  { intros y w. unfold free_energy, F0. destruct (fe_core E y) as [[v o']|e]; reflexivity. }
  destruct (C35_descent _ _ (gradient E) F0 HF _ _ _ _ _ _ _ H) as (V & D & _).
  destruct (fe_total (K:=RNum) G ln PI k p n step m0 s0 fwd bwd l pr obs_t Hn Ht Hy hop HH x0 Hx) as (f0 & o0 & E0 & _).
  unfold F0 in V. destruct (fe_core E x) as [[v1 o1]|e] eqn:E1; [|discriminate]. injection V as ->.
  exists x, fx, o, x', v', o1, f0, o0. split.
  { unfold sim_run1, sim_optimise. rewrite H. reflexivity. }
  split; [exact Lx|]. split; [exact F|]. split; [exact E1|]. split; [exact E0|]. split.
  { apply (D f0). unfold F0. rewrite E0. reflexivity. }
  split; [exact Lx'|exact Ho].
Qed.

Lemma fe_core_parts x v o : fe_core E x = Ok (v, o) -> List.length x = (2 * n)%nat ->
  exists eo, solve_fwd (sys1 RNum) (sol_method fwd) (sol_dt fwd) (firstn n x) (skipn n x) m0 s0 (p_sigma p) = Ok (o_mt o, o_st o) /\
    like_1d (K:=RNum) ln PI (k_y l) (k_t l) (k_noise l) (o_mt o) (o_st o) = Ok eo /\
    v = kl0_1d (K:=RNum) ln (fst pr) (snd pr) m0 s0 +
        e_sde (energy1 RNum k (p_sigma p) (p_theta p) step (firstn n x) (skipn n x) (o_mt o) (o_st o) (Some obs_t)) + eo.
Proof.
  intros H Hx. unfold fe_core in H. cbn -[fwd_ode_call1 bwd_ode_call1 like_1d like_grad_1d energy1 kl0_1d Nat.mul] in H.
  rewrite !Nat.mul_1_r in H.
  destruct (fwd_ode_call1 fwd _ _ _ _ _) as [[mt st]|] eqn:E1; [|discriminate]. cbn [bind] in H.
  destruct (like_1d _ _ _ _ _ _ _) as [eo|] eqn:E2; [|discriminate]. cbn [bind] in H.
  rewrite HH in H. cbn [bind] in H.
  destruct (like_grad_1d _ _ _ _ _ _) as [[[g1 g2] g3]|] eqn:E3; [|discriminate]. cbn [bind] in H.
  destruct (bwd_ode_call1 bwd _ _ _ _ _) as [[lam psi]|] eqn:E4; [|discriminate]. cbn [bind] in H.
  injection H as <- <-. exists eo. cbn [o_mt o_st]. split; [exact E1|]. split; [exact E2|]. reflexivity.
Qed.
End Run1.

(** ** the value *)
Definition name_of (k : kind1) : string := match k with OU => "OU" | DW => "DW" end.
Lemma sixth_moment (m s : list R) : List.length s = List.length m -> (forall k, (k < List.length m)%nat -> 0 < nth k s 0) ->
  exists x6 : nat -> R, forall k, (k < List.length m)%nat -> E_normal (nth k m 0) (nth k s 0) (fun x => x ^ 6) (x6 k).
Proof.
  intros Hl Hs.
  destruct (C21_energy_partial 1 1 1 m m m s None) as (e & x6 & H & _).
  - repeat split; auto. discriminate.
  - lra.
  - exact Hs.
  - exists x6. intros k Hk. apply H, Hk.
Qed.
Lemma value1 k name sigma theta dt n mu0 tau0 r ts (ys a b mt st : list R) eo :
  same_up_to_case name (name_of k) -> 0 < sigma -> 0 < tau0 -> 0 < r -> (0 < n)%nat -> Sorted le ts ->
  List.Forall (fun i => (i < n)%nat) ts -> List.length ys = List.length ts ->
  List.length a = n -> List.length b = n -> List.length mt = n -> List.length st = n ->
  (forall i, (i < n)%nat -> 0 < nth i st 0) ->
  like_1d (K:=RNum) ln PI ys ts r mt st = Ok eo ->
  free_energy_of name sigma theta dt n mu0 tau0 r ts ys a b mt st
    (kl0_1d (K:=RNum) ln mu0 tau0 (nth 0 mt 0) (nth 0 st 0) +
     e_sde (energy1 RNum k sigma theta dt a b mt st (Some ts)) + eo).
Proof.
  intros Hname Hs Htau Hr Hn Hso Hts Hy La Lb Lm Lst Hpos Hl.
  destruct (C26_1d_partial mu0 tau0 (nth 0 mt 0) (nth 0 st 0) (Hpos 0%nat Hn) Htau) as (kl & K1 & K2).
  destruct (C27_energy ys ts r mt st Hr Hy) as (eo' & O1 & O2).
  { congruence. } { rewrite Lm. exact Hts. }
  { intros j Hj. apply Hpos. rewrite Forall_forall in Hts. apply Hts, nth_In, Hj. }
  rewrite Hl in O2. injection O2 as <-.
  assert (Hwf : wf a b mt st (Some ts)).
  { split; [congruence|]. split; [congruence|]. split; [congruence|]. intros o [= <-]. exact Hso. }
  assert (Hpa : forall i, (i < List.length a)%nat -> 0 < nth i st 0) by (rewrite La; exact Hpos).
  destruct k.
  - destruct (C20_energy sigma theta dt a b mt st (Some ts) Hwf Hs Hpa) as (e & He & Ev).
    destruct (sixth_moment mt st) as (x6 & H6). { congruence. } { rewrite Lm. exact Hpos. }
    rewrite La in He, Ev. rewrite Lm in H6.
    exists (f_ou theta), 0, kl, eo, e, x6. split; [left; auto|]. split; [exact K1|]. split; [exact O1|]. split.
    { intros i Hi. split; [apply He, Hi|apply H6, Hi]. }
    change (energy1 RNum OU) with (@ou_energy RNum). rewrite K2, Ev. do 2 f_equal.
    apply trap_ext. intros; ring.
  - destruct (C21_energy_partial sigma theta dt a b mt st (Some ts) Hwf Hs Hpa) as (e & x6 & He & Ev).
    rewrite La in He, Ev.
    exists (f_dw theta), (4 / sigma), kl, eo, e, x6. split; [right; auto|]. split; [exact K1|]. split; [exact O1|]. split; [exact He|].
    change (energy1 RNum DW) with (@dw_energy RNum). rewrite K2, Ev. do 2 f_equal.
    apply trap_ext. intros; field; lra.
Qed.
Lemma moments1 mm n dt sigma m0 s0 (a b mt st : list R) : List.length a = n -> List.length b = n -> (0 < n)%nat ->
  solve_fwd (sys1 RNum) mm dt a b m0 s0 sigma = Ok (mt, st) -> moments_solve (tab_of mm) n dt sigma m0 s0 a b mt st.
Proof.
  intros La Lb Hn H. destruct (C11_fwd_shape_boundary _ _ _ _ _ _ _ _ _ _ _ H) as (L1 & L2 & N1 & N2).
  assert (L1' : List.length mt = n) by (rewrite <- Lb; exact L1).
  assert (L2' : List.length st = n) by (rewrite <- Lb; exact L2).
  split; [exact La|]. split; [exact Lb|]. split; [exact L1'|]. split; [exact L2'|].
  split; [exact (nth_error_nth _ _ 0 N1)|]. split; [exact (nth_error_nth _ _ 0 N2)|].
  intros i Hi. split.
  - apply (C12_mean_1d mm dt a b m0 s0 sigma mt st i H); [congruence|rewrite Lb; exact Hi].
  - intros Ht. apply (C12_cov_1d_partial mm dt a b m0 s0 sigma mt st i); [|exact H|congruence|rewrite Lb; exact Hi].
    intros ->. apply Ht. reflexivity.
Qed.
Lemma last_indep {A} (x : A) l d d' : last (x :: l) d = last (x :: l) d'.
Proof. revert x. induction l as [|z l IH]; intros x; [reflexivity|]. apply (IH z). Qed.
Lemma nth_map_in (f : R -> R) (l : list R) k : (k < List.length l)%nat -> nth k (map f l) 0 = f (nth k l 0).
Proof. intros H. rewrite (nth_indep _ 0 (f 0)) by (rewrite map_length; exact H). apply map_nth. Qed.
Lemma start1 (spline : list R -> list R -> R -> R) sigma t0 dt n (tk : list R) ts (ys x0 : list R) :
  uniform_grid t0 dt n tk -> (0 < n)%nat -> List.Forall (fun i => (i < n)%nat) ts -> ys <> [] ->
  init1 (K:=RNum) spline sigma tk ts ys = Ok x0 ->
  starting_point spline sigma t0 dt n ts ys (firstn n x0) (skipn n x0).
Proof.
  intros [Htl Htv] Hn Hts Hy H. destruct (init1_inv _ _ _ _ _ _ H) as (tx & z & E1 & E2 & _ & ->).
  assert (Htk : tk <> []) by (intros ->; cbn in Htl; lia).
  pose proof (time_knots_val tk ts Htk) as E3. rewrite Htl in E3. specialize (E3 Hts).
  change (car RNum) with R in *. rewrite E3 in E1. injection E1 as <-.
  assert (Ez : z = (nth 0 ys 0 :: ys ++ [last ys 0])%list).
  { destruct ys as [|y ys]; [congruence|]. unfold ends in E2. injection E2 as <-. 
    change (y :: (y :: ys) ++ [last (y :: ys) y] = y :: (y :: ys) ++ [last (y :: ys) 0])%list.
    rewrite (last_indep y ys y 0). reflexivity. }
  subst z. unfold pack1.
  match goal with |- context [map (fun _ : R => ?c) tk] => set (A := map (fun _ : R => c) tk) end.
  match goal with |- context [(A ++ ?B)%list] => set (B0 := B) end.
  assert (LA : List.length A = n) by (unfold A; rewrite map_length; exact Htl).
  assert (LB : List.length B0 = n) by (unfold B0; rewrite map_length; exact Htl).
  rewrite <- LA at 2 3. rewrite firstn_app, firstn_all, Nat.sub_diag, skipn_app, skipn_all, Nat.sub_diag. cbn [firstn skipn].
  rewrite app_nil_r, app_nil_l. split; [exact LA|]. split; [exact LB|]. intros k Hk. split.
  - unfold A. rewrite nth_map_in by lia. field.
  - unfold B0. rewrite nth_map_in by lia. rewrite (Htv k Hk).
    match goal with |- spline ?u _ _ = spline ?w _ _ => assert (Eu : u = w); [|rewrite Eu; reflexivity] end.
    change (map (fun i => nth i tk 0) (0%nat :: ts ++ [(n - 1)%nat])%list = map (fun i => t0 + INR i * dt) (0%nat :: ts ++ [(n - 1)%nat])%list).
    apply map_ext_in. intros i Hi. apply Htv.
    destruct Hi as [<-|Hi]; [lia|]. apply in_app_or in Hi. destruct Hi as [Hi|[<-|[]]]; [|lia].
    rewrite Forall_forall in Hts. apply Hts, Hi.
Qed.

(** ** setup, keeping what is built *)
Local Open Scope string_scope.
Section Parts.
Context (G : Rng RNum) (spline : list R -> list R -> R -> R) (show : pv (leaf RNum) -> string).
Notation W := (world1 RNum G ln PI spline show).

Lemma build1_full name sigma theta seed xs xt h : 0 < sigma ->
  (same_up_to_case name "OU" /\ 0 < theta \/ same_up_to_case name "DW") ->
  match seed with None => True | Some z => (0 <= z)%Z end -> number xs sigma -> number xt theta ->
  exists k p, build1 RNum G (upper name) xs xt (match seed with None => PLeaf LNull | Some z => PLeaf (LInt z) end) h = Some (Ok (k, p)) /\
    same_up_to_case name (name_of k) /\ p_sigma p = sigma /\ p_theta p = theta /\ starts G seed h (b_rng (p_base p)).
Proof.
  intros Hs Hk Hseed H1 H2. unfold build1.
  assert (Hg : exists s b, as_seed RNum (match seed with None => PLeaf LNull | Some z => PLeaf (LInt z) end) = Ok s /\
    base_init (X:=RNum) G s h = Ok b /\ starts G seed h (b_rng b)).
  { exists (match seed with None => SeedNone | Some z => SeedInt z end).
    assert (Hv : seed_valid (match seed with None => SeedNone | Some z => SeedInt z end) = true)
      by (destruct seed; cbn; [apply Z.leb_le; exact Hseed|reflexivity]).
    unfold base_init, make_rng. rewrite Hv. destruct seed as [z|]; cbn [seed_truthy bind].
    - destruct (Z.eqb_spec z 0) as [->|Hz]; cbn [negb bind]; eexists; (split; [reflexivity|]); (split; [reflexivity|]); cbn; auto.
    - eexists; (split; [reflexivity|]); (split; [reflexivity|]); cbn; auto. }
  destruct Hg as (s & b & E1 & E2 & E3). rewrite E1. cbn [bind]. rewrite E2, (number_num _ _ H1), (number_num _ _ H2). cbn [bind].
  assert (Hl : nle (n:=RNum) sigma (nZ 0) = false) by (rnum; destruct (Rleb_spec sigma 0); [lra|reflexivity]).
  destruct Hk as [[Hn Ht]|Hn].
  - pose proof Hn as Hn'. apply upper_spec in Hn; [|cbn; lia]. rewrite Hn. cbn [String.eqb Ascii.eqb Bool.eqb].
    assert (Hl2 : nle (n:=RNum) theta (nZ 0) = false) by (rnum; destruct (Rleb_spec theta 0); [lra|reflexivity]).
    exists OU. eexists. split.
    + unfold init1d, ou_init. rewrite E2. cbn [bind]. rewrite Hl, Hl2. reflexivity.
    + cbn. auto.
  - pose proof Hn as Hn'. apply upper_spec in Hn; [|cbn; lia]. rewrite Hn. cbn [String.eqb Ascii.eqb Bool.eqb].
    exists DW. eexists. split.
    + unfold init1d, dw_init. rewrite E2. cbn [bind]. rewrite Hl. reflexivity.
    + cbn. auto.
Qed.
Lemma em_ext f g dt x0 w n x : (forall v, f v = g v) -> euler_maruyama f dt x0 w n x -> euler_maruyama g dt x0 w n x.
Proof. intros H (A & B & C). split; [exact A|]. split; [exact B|]. intros t Ht. rewrite <- H. apply C, Ht. Qed.
Lemma traj1_full k name p t0 tf dt x0 xf xd : same_up_to_case name (name_of k) ->
  0 < dt -> t0 < tf -> number x0 t0 -> number xf tf -> number xd dt ->
  exists n tk x p', traj1 RNum G x0 xf xd (k, p) = (Ok tt, (k, p')) /\ p_sigma p' = p_sigma p /\ p_theta p' = p_theta p /\
    b_tk (p_base p') = Some tk /\ b_xt (p_base p') = Some x /\
    uniform_grid t0 dt n tk /\ reaches t0 dt tf n /\ @List.length R x = n /\
    path_named G name (p_sigma p) (p_theta p) dt n (b_rng (p_base p)) (b_rng (p_base p')) x.
Proof.
  intros Hk Hd Ht H0 H1 H2. unfold traj1. rewrite (number_num _ _ H0), (number_num _ _ H1), (number_num _ _ H2). cbn [bind fst snd].
  destruct k.
  - destruct (ou_traj_R G t0 tf dt 0 p Hd ltac:(lra)) as (n & tk & x & z & g & Ez & E & Hg & Hr & He).
    change (nZ (K:=RNum) 0) with 0. rewrite E. exists n, tk, x, (with_base G (mkBase (Some x) (Some tk) g) p).
    split; [reflexivity|]. split; [reflexivity|]. split; [reflexivity|]. split; [reflexivity|]. split; [reflexivity|].
    split; [exact Hg|]. split; [exact Hr|]. split; [apply He|]. left. split; [exact Hk|]. exists z. split; [exact Ez|].
    eapply em_ext; [|exact He]. intros v. unfold f_ou. ring.
  - destruct (dw_traj_R G t0 tf dt p Hd ltac:(lra)) as (n & tk & x & u & g1 & z0 & g2 & z & g & x0' & D1 & D2 & D3 & E & Hg & Hr & Hx0 & He).
    rewrite E. exists n, tk, x, (with_base G (mkBase (Some x) (Some tk) g) p).
    split; [reflexivity|]. split; [reflexivity|]. split; [reflexivity|]. split; [reflexivity|]. split; [reflexivity|].
    split; [exact Hg|]. split; [exact Hr|]. split; [apply He|]. right. split; [exact Hk|].
    exists u, g1, z0, g2, z. split; [exact D1|]. split; [exact D2|]. split; [exact D3|]. rewrite <- Hx0. exact He.
Qed.
Lemma collect1_full k p (tk x : list R) t0 dt n xr r density : b_tk (p_base p) = Some tk -> b_xt (p_base p) = Some x ->
  uniform_grid t0 dt n tk -> (2 <= n)%nat -> 0 < dt -> List.length x = n -> (0 <= rate_val density)%R -> fits_step (rate_val density) dt -> number xr r ->
  exists m ts ys p', collect_1 RNum G (rate_leaf1 density) xr (PLeaf LNull) (k, p) = (Ok (VIdx ts, VVals (ys : list RNum), VNoise (A0 (K:=RNum) r)), (k, p')) /\
    int_part (INR (n - 1) * dt * rate_val density) (Z.of_nat m) /\ (m + 1 <= n)%nat /\
    observed G n m r x (b_rng (p_base p)) (b_rng (p_base p')) ts ys /\
    p_sigma p' = p_sigma p /\ p_theta p' = p_theta p /\ b_tk (p_base p') = Some tk /\ b_xt (p_base p') = Some x.
Proof.
  intros Htk Hx Hg Hn Hd Hl Hz Hc Hr. unfold collect_1. rewrite (number_num _ _ Hr). cbn [op_mask1 truthy bind fst snd]. rewrite as_rate.
  destruct (collect1_R G (p_base p) tk x t0 dt n (rate_dens density) r Htk Hx Hg Hn Hd Hl (rated density Hz) Hc) as (m & ts & ys & z & g & Hm & Ez & E & Hs & Hy & Hv).
  rewrite E. cbn [bind]. exists m, ts, ys, (with_base G (mkBase (Some x) (Some tk) g) p).
  destruct (obs_indexes_R t0 dt n tk (rate_dens density) Hg Hn Hd (rated density Hz) Hc) as (m' & Hm' & Hle & _).
  assert (m' = m).
  { destruct Hm as [A1 A2], Hm' as [B1 B2]. apply Nat2Z.inj.
    assert (C1 : IZR (Z.of_nat m') < IZR (Z.of_nat m + 1)) by (rewrite plus_IZR; lra).
    assert (C2 : IZR (Z.of_nat m) < IZR (Z.of_nat m' + 1)) by (rewrite plus_IZR; lra).
    apply lt_IZR in C1, C2. lia. }
  subst m'. split; [reflexivity|]. split; [exact Hm|]. split; [exact Hle|]. split; [|auto].
  exists z. auto.
Qed.
Lemma m0_full k p (x : list R) : b_xt (p_base p) = Some x -> (0 < @List.length R x)%nat ->
  exists z g p', r_normal G (b_rng (p_base p)) = (z, g) /\
    m0_1 RNum G (k, p) = (Ok (VNum (nth 0 x 0 + 1 / 10 * z : RNum)), (k, p')) /\ b_rng (p_base p') = g /\
    p_sigma p' = p_sigma p /\ p_theta p' = p_theta p /\ b_tk (p_base p') = b_tk (p_base p) /\ b_xt (p_base p') = b_xt (p_base p).
Proof.
  intros Hx Hl. unfold m0_1, get_path. cbn [fst snd]. rewrite Hx. destruct x as [|a x]; [cbn in Hl; lia|].
  destruct (r_normal G (b_rng (p_base p))) as [z g]. exists z, g. eexists. split; [reflexivity|]. split; [reflexivity|]. cbn. auto.
Qed.
End Parts.
