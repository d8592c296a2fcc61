(** * Setup and run of the one-dimensional models over the reals *)
From Coq Require Import ZArith List Bool Arith Reals Lra Lia Sorted String.
From Verif Require Import Num Arr ArrFacts M_LinAlg M_Ode M_Sde1 M_Prior M_Like M_VarGP M_Scg M_Run M_Proc M_Sim M_Sim1
  Spec_Utils Spec_Ode Spec_Proc Spec_Sim Spec_Sim1 P_OdeSel P_Init P_Proc P_Traj P_Sim P_Sim1.
Import ListNotations.
Local Open Scope string_scope.

(** ** setup, step by step *)
Section Forward.
Context (W : World).
Lemma sbind_go {A B} (m : S_ W A) (f : A -> S_ W B) d a d1 : m d = (Ok a, d1) -> sbind W m f d = f a d1.
Proof. unfold sbind. intros ->. reflexivity. Qed.
Lemma lift_go {A} (r : result A) (a : A) d : r = Ok a -> lift W r d = (Ok a, d).
Proof. unfold lift. intros ->. reflexivity. Qed.
Lemma get2_go k j d p x : dget k d = Some (SPar p) -> item p j = Ok x -> get2 W k j d = (Ok x, d).
Proof. unfold get2, ditem. intros -> H. cbn [bind]. rewrite H. reflexivity. Qed.
Lemma get_par_go k d x : dget k d = Some (SPar x) -> get_par W k d = (Ok x, d).
Proof. unfold get_par, ditem. intros ->. reflexivity. Qed.
Lemma get_flag_go k d x : dget k d = Some (SFlag x) -> get_flag W k d = (Ok x, d).
Proof. unfold get_flag, ditem. intros ->. reflexivity. Qed.
Lemma get_model_go k d x : dget k d = Some (SModel x) -> get_model W k d = (Ok x, d).
Proof. unfold get_model, ditem. intros ->. reflexivity. Qed.
Lemma on_model_go {A} (f : w_model W -> result A * w_model W) d m m' a : dget "model" d = Some (SModel m) -> f m = (Ok a, m') ->
  on_model W f d = (Ok a, dset "model" (SModel m') d).
Proof. unfold on_model, get_model, ditem, sbind. intros -> H. cbn [bind]. rewrite H. reflexivity. Qed.

Ltac go :=
  match goal with
  | |- context [sbind W (put W ?k ?v) ?f ?d] => rewrite (sbind_go (put W k v) f d tt (dset k v d) eq_refl)
  | |- context [sbind W (lift W ?r) ?f ?d] => erewrite (sbind_go (lift W r) f d) by (apply lift_go; first [eassumption | apply item_field; eassumption])
  | |- context [sbind W (get2 W ?k ?j) ?f ?d] => erewrite (sbind_go (get2 W k j) f d) by (eapply get2_go; [look; reflexivity|apply item_field; eassumption])
  | |- context [sbind W (get_par W ?k) ?f ?d] => erewrite (sbind_go (get_par W k) f d) by (apply get_par_go; look; reflexivity)
  | |- context [sbind W (get_flag W ?k) ?f ?d] => erewrite (sbind_go (get_flag W k) f d) by (apply get_flag_go; look; reflexivity)
  | |- context [sbind W (get_model W ?k) ?f ?d] => erewrite (sbind_go (get_model W k) f d) by (apply get_model_go; look; reflexivity)
  | |- context [sbind W (on_model W ?g) ?f ?d] => erewrite (sbind_go (on_model W g) f d) by (eapply on_model_go; [look; reflexivity|eassumption])
  end; cbv beta iota.
Lemma sbind_assoc {A B C} (m : S_ W A) (f : A -> S_ W B) (g : B -> S_ W C) d :
  sbind W (sbind W m f) g d = sbind W m (fun a => sbind W (f a) g) d.
Proof. unfold sbind. destruct (m d) as [[a|e] d1]; reflexivity. Qed.

Lemma setup_forward params h d0 dr nz tw os pr mtd seed sys obs theta t0 tf dt density op mu tau name m m1 m2 m3 t y n v :
  field params "Drift" dr -> field params "Noise" nz -> field params "Time-window" tw -> field params "Ode-method" mtd ->
  field params "Random-Seed" seed -> field params "Observations" os -> field params "Prior" pr ->
  field params "Model" (PLeaf name) ->
  field pr "mu0" mu -> field pr "tau0" tau -> field nz "sys" sys -> field nz "obs" obs -> field dr "theta" theta ->
  field tw "t0" t0 -> field tw "tf" tf -> field tw "dt" dt -> field os "density" density -> field os "operator" op ->
  w_build W (upper (w_str W (PLeaf name))) sys theta seed h = Some (Ok m) -> w_single W m = true ->
  w_traj W t0 tf dt m = (Ok tt, m1) -> w_collect W density obs op m1 = (Ok (t, y, n), m2) ->
  w_m0 W m2 = (Ok v, m3) ->
  exists d, setup W params DNone h d0 = (Ok tt, d) /\
    finds d (mkInputs dt mtd true y t n op (inl mu) (inl tau) m3 v (w_s0 W m3)).
Proof.
  intros. assert (Hb : stochastic_model W (PLeaf name) sys theta seed h = Ok m).
  { unfold stochastic_model. rewrite H17. reflexivity. }
  unfold setup, setup_params. rewrite !sbind_assoc.
  repeat (first [go | rewrite sbind_assoc]; cbv beta).
  unfold setup_model. rewrite !sbind_assoc.
  repeat (first [go | rewrite sbind_assoc]; cbv beta). rewrite H18.
  unfold setup_obs. repeat (first [go | rewrite sbind_assoc]; cbv beta).
  unfold setup_moments. repeat (first [go | rewrite sbind_assoc]; cbv beta).
  eexists. split; [reflexivity|].
  unfold finds. cbn [i_dt i_method i_single i_y i_t i_noise i_op i_mu0 i_tau0 i_model i_m0 i_s0 prior_slot].
  rewrite <- !dget_has. look. repeat split; eauto.
  - exists tw. rewrite <- dget_has. look. auto.
  - exists os. rewrite <- dget_has. look. auto.
Qed.
End Forward.

(** ** names *)
Fixpoint no_lower (s : string) : Prop :=
  match s with EmptyString => True | String c t => ~ (97 <= Ascii.nat_of_ascii c <= 122)%nat /\ no_lower t end.
Lemma upper_ascii_spec c c' : ~ (97 <= Ascii.nat_of_ascii c' <= 122)%nat -> (upper_ascii c = c' <-> letter_variant c c').
Proof.
  intros Hn. unfold upper_ascii.
  pose proof (Ascii.nat_ascii_bounded c) as Hb. pose proof (Ascii.nat_ascii_bounded c') as Hb'.
  destruct (Nat.leb_spec 97 (Ascii.nat_of_ascii c)), (Nat.leb_spec (Ascii.nat_of_ascii c) 122); cbn [andb].
  - split.
    + intros <-. right. exists (Ascii.nat_of_ascii c - 97)%nat.
      rewrite Ascii.nat_ascii_embedding in * by lia. lia.
    + intros [->|(k & Hk & [[E1 E2]|[E1 E2]])]; try lia.
      apply nat_of_ascii_inj. rewrite Ascii.nat_ascii_embedding by lia. lia.
  - split; [intros ->; now left|]. intros [->|(k & Hk & [[E1 E2]|[E1 E2]])]; auto; lia.
  - split; [intros ->; now left|]. intros [->|(k & Hk & [[E1 E2]|[E1 E2]])]; auto; lia.
  - split; [intros ->; now left|]. intros [->|(k & Hk & [[E1 E2]|[E1 E2]])]; auto; lia.
Qed.
Lemma upper_spec s s' : no_lower s' -> (upper s = s' <-> same_up_to_case s s').
Proof.
  revert s'; induction s as [|c s IH]; intros [|c' s'] Hn; cbn in *; try (split; [discriminate|tauto]).
  - tauto.
  - destruct Hn as [Hc Hs]. rewrite <- (IH s' Hs), <- (upper_ascii_spec c c' Hc).
    split; [intros H; injection H; auto|intros [-> ->]; reflexivity].
Qed.

(** ** observation indexes and the initialization *)
Local Open Scope R_scope.
Lemma spread_inside n m ts : spread n m ts -> (m + 1 <= n)%nat -> (inside n ts <-> (m = 0 \/ m + 1 < n)%nat).
Proof.
  intros (Hl & Hi & Hr & Hv) Hmn. split.
  - intros [_ Hf]. destruct m as [|m]; [auto|]. right.
    assert (Hlast : (nth m ts 0%nat + 1 < n)%nat).
    { rewrite Forall_forall in Hf. apply Hf. apply nth_In. lia. }
    destruct (Nat.eq_dec (S m + 1) n) as [E|]; [|lia]. exfalso.
    destruct (Hv m ltac:(lia)) as [_ H2]. rewrite E in H2.
    assert (Hn0 : INR n <> 0) by (apply not_0_INR; lia).
    replace (INR (m + 1) * INR n / INR n) with (INR (m + 1)) in H2 by (field; exact Hn0).
    rewrite !INR_IZR_INZ in H2. rewrite <- plus_IZR in H2. apply lt_IZR in H2. lia.
  - intros Hm. split.
    + apply Sorted_StronglySorted; [exact Nat.lt_trans|]. apply Sorted_LocallySorted_iff.
      clear Hr Hv. revert m Hl Hi Hm Hmn. intros m Hl Hi _ _. subst m.
      induction ts as [|a ts IH]; [constructor|]. destruct ts as [|b ts]; [constructor|].
      constructor; [|apply (Hi 0%nat 1%nat); cbn; lia].
      apply IH. intros i j Hij. apply (Hi (S i) (S j)). cbn in *. lia.
    + rewrite Forall_forall. intros i Hin. destruct (In_nth _ _ 0%nat Hin) as (k & Hk & <-).
      specialize (Hr k ltac:(lia)). split; [lia|]. destruct Hm as [->|Hm]; [lia|].
      destruct (Hv k ltac:(lia)) as [H1 _]. rewrite <- INR_IZR_INZ in H1.
      assert (0 < INR (m + 1)) by (apply lt_0_INR; lia).
      apply Rmult_le_compat_r with (r := INR (m + 1)) in H1; [|lra].
      replace (INR (k + 1) * INR n / INR (m + 1) * INR (m + 1)) with (INR (k + 1) * INR n) in H1 by (field; lra).
      rewrite <- !mult_INR in H1. apply INR_le in H1. nia.
Qed.
Lemma grid_sorted t0 dt n tk : 0 < dt -> uniform_grid t0 dt n tk -> LocallySorted Rlt tk.
Proof.
  intros Hd [Hl Hv]. apply nth_lt_sorted. intros i Hi. rewrite !Hv by lia. rewrite S_INR. lra.
Qed.

(** ** the parts of setup and run *)
Section Parts.
Context (G : Rng RNum) (spline : list R -> list R -> R -> R) (show : pv (leaf RNum) -> string).
Notation W := (world1 RNum G ln PI spline show).
Lemma number_num x v : number x v -> as_num RNum x = Ok v.
Proof. intros [->|[(z & -> & ->)|(b & -> & ->)]]; [reflexivity..|destruct b; reflexivity]. Qed.

Lemma as_rate q : as_dens RNum (rate_leaf1 q) = rate_dens q.
Proof. destruct q as [| |[]]; reflexivity. Qed.

Lemma build1_ok name sigma theta seed xs xt h : 0 < sigma ->
  (same_up_to_case name "OU" /\ 0 < theta \/ same_up_to_case name "DW") ->
  match seed with None => True | Some z => (0 <= z)%Z end -> number xs sigma -> number xt theta ->
  exists k p, build1 RNum G (upper name) xs xt (match seed with None => PLeaf LNull | Some z => PLeaf (LInt z) end) h = Some (Ok (k, p)) /\
    p_sigma p = sigma.
Proof.
  intros Hs Hk Hseed H1 H2. unfold build1.
  assert (Hg : exists s b, as_seed RNum (match seed with None => PLeaf LNull | Some z => PLeaf (LInt z) end) = Ok s /\
    base_init (X:=RNum) G s h = Ok b).
  { exists (match seed with None => SeedNone | Some z => SeedInt z end).
    assert (Hv : seed_valid (match seed with None => SeedNone | Some z => SeedInt z end) = true)
      by (destruct seed; cbn; [apply Z.leb_le; exact Hseed|reflexivity]).
    unfold base_init, make_rng. rewrite Hv. destruct (seed_truthy _); eexists; (split; [destruct seed; reflexivity|reflexivity]). }
  destruct Hg as (s & b & E1 & E2). rewrite E1. cbn [bind]. rewrite E2, (number_num _ _ H1), (number_num _ _ H2). cbn [bind].
  assert (Hl : nle (n:=RNum) sigma (nZ 0) = false) by (rnum; destruct (Rleb_spec sigma 0); [lra|reflexivity]).
  destruct Hk as [[Hn Ht]|Hn].
  - apply upper_spec in Hn; [|cbn; lia]. rewrite Hn. cbn [String.eqb Ascii.eqb Bool.eqb].
    assert (Hl2 : nle (n:=RNum) theta (nZ 0) = false) by (rnum; destruct (Rleb_spec theta 0); [lra|reflexivity]).
    exists OU. eexists. split; [|reflexivity || idtac].
    + unfold init1d, ou_init. rewrite E2. cbn [bind]. rewrite Hl, Hl2. reflexivity.
    + reflexivity.
  - apply upper_spec in Hn; [|cbn; lia]. rewrite Hn. cbn [String.eqb Ascii.eqb Bool.eqb].
    exists DW. eexists. split.
    + unfold init1d, dw_init. rewrite E2. cbn [bind]. rewrite Hl. reflexivity.
    + reflexivity.
Qed.
Lemma traj1_ok k p t0 tf dt x0 xf xd : 0 < dt -> t0 < tf -> number x0 t0 -> number xf tf -> number xd dt ->
  exists n tk x p', traj1 RNum G x0 xf xd (k, p) = (Ok tt, (k, p')) /\ p_sigma p' = p_sigma p /\
    b_tk (p_base p') = Some tk /\ b_xt (p_base p') = Some x /\
    uniform_grid t0 dt n tk /\ reaches t0 dt tf n /\ @List.length R x = n.
Proof.
  intros Hd Ht H0 H1 H2. unfold traj1. rewrite (number_num _ _ H0), (number_num _ _ H1), (number_num _ _ H2). cbn [bind fst snd].
  destruct k.
  - destruct (ou_traj_R G t0 tf dt 0 p Hd ltac:(lra)) as (n & tk & x & z & g & _ & E & Hg & Hr & (Hl & _)).
    change (nZ (K:=RNum) 0) with 0. rewrite E. exists n, tk, x, (with_base G (mkBase (Some x) (Some tk) g) p). repeat split; auto; apply Hg || apply Hr.
  - destruct (dw_traj_R G t0 tf dt p Hd ltac:(lra)) as (n & tk & x & u & g1 & z0 & g2 & z & g & x0' & _ & _ & _ & E & Hg & Hr & _ & (Hl & _)).
    rewrite E. exists n, tk, x, (with_base G (mkBase (Some x) (Some tk) g) p). repeat split; auto; apply Hg || apply Hr.
Qed.
Lemma reaches_two t0 dt tf n : t0 < tf -> reaches t0 dt tf n -> (2 <= n)%nat.
Proof. intros Ht (H1 & H2 & _). destruct n as [|[|n]]; [lia| |lia]. cbn in H2. lra. Qed.
Lemma collect1_ok k p (tk x : list R) t0 dt n xr r density : b_tk (p_base p) = Some tk -> b_xt (p_base p) = Some x ->
  uniform_grid t0 dt n tk -> (2 <= n)%nat -> 0 < dt -> List.length x = n -> (0 <= rate_val density)%R -> fits_step (rate_val density) dt -> number xr r ->
  exists m ts ys p', collect_1 RNum G (rate_leaf1 density) xr (PLeaf LNull) (k, p) = (Ok (VIdx ts, VVals (ys : list RNum), VNoise (A0 (K:=RNum) r)), (k, p')) /\
    int_part (INR (n - 1) * dt * rate_val density) (Z.of_nat m) /\ (m + 1 <= n)%nat /\ spread n m ts /\ @List.length R ys = m /\
    p_sigma p' = p_sigma p /\ b_tk (p_base p') = Some tk /\ b_xt (p_base p') = Some x.
Proof.
  intros Htk Hx Hg Hn Hd Hl Hz Hc Hr. unfold collect_1. rewrite (number_num _ _ Hr). cbn [op_mask1 truthy bind fst snd]. rewrite as_rate.
  destruct (collect1_R G (p_base p) tk x t0 dt n (rate_dens density) r Htk Hx Hg Hn Hd Hl (rated density Hz) Hc) as (m & ts & ys & z & g & Hm & _ & E & Hs & Hy & _).
  rewrite E. cbn [bind]. exists m, ts, ys, (with_base G (mkBase (Some x) (Some tk) g) p).
  destruct (obs_indexes_R t0 dt n tk (rate_dens density) Hg Hn Hd (rated density Hz) Hc) as (m' & Hm' & Hle & _).
  assert (m' = m).
  { destruct Hm as [A1 A2], Hm' as [B1 B2]. apply Nat2Z.inj.
    assert (C1 : IZR (Z.of_nat m') < IZR (Z.of_nat m + 1)) by (rewrite plus_IZR; lra).
    assert (C2 : IZR (Z.of_nat m) < IZR (Z.of_nat m' + 1)) by (rewrite plus_IZR; lra).
    apply lt_IZR in C1, C2. lia. }
  subst m'. split; [reflexivity|]. split; [exact Hm|]. split; [exact Hle|]. split; [exact Hs|]. auto.
Qed.
Lemma m0_ok k p (x : list R) : b_xt (p_base p) = Some x -> (0 < @List.length R x)%nat ->
  exists v p', m0_1 RNum G (k, p) = (Ok (VNum v), (k, p')) /\
    p_sigma p' = p_sigma p /\ b_tk (p_base p') = b_tk (p_base p) /\ b_xt (p_base p') = b_xt (p_base p).
Proof.
  intros Hx Hl. unfold m0_1, get_path. cbn [fst snd]. rewrite Hx. destruct x as [|a x]; [cbn in Hl; lia|].
  destruct (r_normal G (b_rng (p_base p))) as [z g]. eexists _, _. split; [reflexivity|]. cbn. auto.
Qed.
Lemma optimise1_ok k p (tk x : list R) t0 dt n m ts (ys : list R) r (m0 s0 : R) fwd bwd pr (hop : R) : b_tk (p_base p) = Some tk -> b_xt (p_base p) = Some x ->
  uniform_grid t0 dt n tk -> (2 <= n)%nat -> 0 < dt -> List.length x = n -> (m + 1 <= n)%nat -> spread n m ts -> List.length ys = m -> (1 <= m)%nat ->
  let run := optimise1 RNum G ln PI spline (k, p) (VNum (K:=RNum) m0) (VNum (K:=RNum) s0) fwd bwd (mkLike1 (K:=RNum) ys ts r (Ok (hop : RNum))) pr
    (VVals (K:=RNum) ys) (VIdx ts) in
  ((m + 1 < n)%nat -> exists (a b mt st Efx Edf lamt psit : list R) (fx : R),
     run = Ok (OArr [n] (a : list RNum), OArr [n] (b : list RNum), OScal (fx : RNum), arg_out1 RNum m0 s0 mt st Efx Edf lamt psit) /\
     Forall (fun l : list R => List.length l = n) [a; b; mt; st; Efx; Edf; lamt; psit]) /\
  ((m + 1 = n)%nat -> run = Err ValueError).
Proof.
  intros Htk Hx Hg Hn Hd Hl Hmn Hs Hy Hm run.
  destruct (grid_shape _ _ _ _ Hg Hn) as (tl & Etk & _).
  assert (E1 : time_step G (p_base p) = Ok (Rabs (t0 + dt - t0))) by (unfold time_step; rewrite Htk, Etk; reflexivity).
  assert (E2 : get_path G (p_base p) = Ok x) by (unfold get_path; rewrite Hx; reflexivity).
  assert (E3 : get_window G (p_base p) = Ok tk) by (unfold get_window; rewrite Htk; reflexivity).
  assert (Htl : List.length tk = n) by apply Hg.
  assert (Hts : List.length ts = m) by apply Hs.
  assert (Hlt : forall i, In i ts -> (i < n)%nat) by (intros i Hi; pose proof (spread_in _ _ _ Hs i Hi); lia).
  assert (Hyn : ys <> []) by (intros ->; cbn in Hy; lia).
  pose proof (grid_sorted _ _ _ _ Hd Hg) as Hsort.
  destruct (init1_total spline (p_sigma p) tk ts ys Hsort ltac:(lia) Hyn ltac:(lia)) as [Hin _].
  destruct Hin as [Hok Hbad]. { rewrite Forall_forall. intros i Hi. rewrite Htl. apply Hlt, Hi. }
  rewrite Htl in Hok, Hbad.
  unfold run, optimise1. cbn [fst snd]. rewrite E1, E2, E3. cbn [bind]. change (@List.length (car RNum) x) with (@List.length R x). rewrite Hl. split.
  - intros Hlt'. destruct Hok as (x0 & E4). { apply (spread_inside _ _ _ Hs Hmn). auto. }
    rewrite E4. cbn [bind].
    assert (L0 : @List.length (car RNum) x0 = (2 * n)%nat).
    { pose proof (init1_len _ _ _ _ _ _ E4) as L. change (@List.length (car RNum) tk) with (@List.length R tk) in L. rewrite Htl in L. rewrite L. lia. }
    destruct (sim_run1_total (K:=RNum) G ln PI k p n (Rabs (t0 + dt - t0)) m0 s0 fwd bwd (mkLike1 (K:=RNum) ys ts r (Ok (hop : RNum))) pr ts) with (x0 := x0) (Hl := hop : RNum)
      as (a & b & fx & o & E5 & La & Lb & (o' & Eo & F)).
    { lia. } { exact Hlt. } { cbn. congruence. } { reflexivity. } { exact L0. }
    rewrite E5. cbn [bind r_arg r_at r_bt r_fx]. injection Eo as <-. destruct F as (F1 & F2 & F3 & F4 & F5 & F6).
    exists a, b, (o_mt o), (o_st o), (o_Efx o), (o_Edf o), (o_lam o), (o_psi o), fx. split.
    + unfold arr1. rewrite La, Lb. reflexivity.
    + repeat constructor; assumption.
  - intros E. rewrite Hbad; [reflexivity|]. intros Hin. apply (spread_inside _ _ _ Hs Hmn) in Hin. lia.
Qed.

Lemma store_completed n (out : dict (oval RNum)) (a b mt st Efx Edf lamt psit : list R) (fx m0 s0 : R) :
  Forall (fun l : list R => List.length l = n) [a; b; mt; st; Efx; Edf; lamt; psit] ->
  completed n (store W (OArr [n] (a : list RNum), OArr [n] (b : list RNum), OScal (fx : RNum), arg_out1 RNum m0 s0 mt st Efx Edf lamt psit) out).
Proof.
  intros F. rewrite Forall_forall in F.
  assert (L : forall l : list R, In l [a; b; mt; st; Efx; Edf; lamt; psit] -> arr1 RNum l = OArr [n] (l : list RNum) /\ List.length l = n).
  { intros l Hl. split; [|exact (F l Hl)]. unfold arr1. do 2 f_equal. exact (F l Hl). }
  unfold store, dupdate, arg_out1. cbn [fold_left fst snd]. split.
  - intros k Hk. cbn [In] in Hk. repeat (destruct Hk as [<-|Hk]); [..|contradiction];
      [exists a|exists b|exists mt|exists st|exists Efx|exists Edf|exists lamt|exists psit];
      (split; [|apply F; cbn [In]; tauto]); rewrite <- dget_has; look; try reflexivity; f_equal; apply L; cbn [In]; tauto.
  - intros k Hk. cbn [In] in Hk. repeat (destruct Hk as [<-|Hk]); [..|contradiction]; [exists fx|exists m0|exists s0];
      rewrite <- dget_has; look; reflexivity.
Qed.
Lemma sim1_completes params name method sigma theta r t0 tf dt mu0 tau0 density seed (h : r_state G) (s : Sim W) :
  entries params name method sigma theta r t0 tf dt mu0 tau0 density seed ->
  acceptable name method sigma theta t0 tf dt density seed ->
  exists n m s1, reaches t0 dt tf n /\ int_part (INR (n - 1) * dt * rate_val density) (Z.of_nat m) /\ (m + 1 <= n)%nat /\
    sim_setup W params DNone h s = (Ok tt, s1) /\
    ((1 <= m)%nat -> (m + 1 < n)%nat -> exists s2, sim_run W s1 = (Ok tt, s2) /\ completed n (s_out s2)) /\
    ((1 <= m)%nat -> (m + 1 = n)%nat -> sim_run W s1 = (Err ValueError, s1)) /\
    (m = 0%nat -> sim_run W s1 = (Err IndexError, s1)).
Proof.
  intros (dr & nz & tw & os & pr & x1 & x2 & x3 & x4 & x5 & x6 & x7 & x8 & F1 & F2 & F3 & F4 & N1 & F5 & F6 & N2 & F7 & N3 &
    F8 & F9 & N4 & F10 & N5 & F11 & N6 & F12 & F13 & N7 & F14 & N8 & F15 & F16 & F17 & F18)
    ((A1 & A2 & A3 & A4) & A5 & A6 & (mn & A7 & A8) & A9).
  destruct (build1_ok name sigma theta seed x2 x1 h A1 A6 A9 N2 N1) as (k & p & B & Bs).
  destruct (traj1_ok k p t0 tf dt x4 x5 x6 A2 A3 N4 N5 N6) as (n & tk & x & p1 & T & Ts & Ttk & Tx & Tg & Tr & Tl).
  pose proof (reaches_two _ _ _ _ A3 Tr) as Hn2.
  destruct (collect1_ok k p1 tk x t0 dt n x3 r density Ttk Tx Tg Hn2 A2 Tl A5 A4 N3) as (m & ts & ys & p2 & C & Cm & Cmn & Cs & Cy & Csig & Ctk & Cx).
  destruct (m0_ok k p2 x Cx ltac:(lia)) as (v & p3 & M & Ms & Mtk & Mx).
  rewrite Ctk in Mtk. rewrite Cx in Mx.
  assert (Hm : exists mm, method_name mm = mn).
  { cbn [In] in A7. destruct A7 as [<-|[<-|[<-|[<-|[]]]]]; [exists Euler|exists Heun|exists RK2|exists RK4]; reflexivity. }
  destruct Hm as (mm & <-).
  destruct (sel_R dt method true) as (_ & _ & _ & Hsel). destruct (Hsel mm A2 A8) as [S1 S2].
  destruct (setup_forward W params h (s_data s) dr nz tw os pr (PLeaf (LStr method)) _ x2 x3 x1 x4 x5 x6 (rate_leaf1 density) (PLeaf LNull)
    x7 x8 (LStr name) (k, p) (k, p1) (k, p2) (k, p3) (VIdx ts) (VVals (ys : list RNum)) (VNoise (A0 (K:=RNum) r)) (VNum v)
    F3 F5 F8 F2 F18 F15 F12 F1 F13 F14 F6 F7 F4 F9 F10 F11 F16 F17 B eq_refl T C M) as (d & Hset & Hfinds).
  exists n, m, (mkSim (s_name s) d (s_out s)). split; [exact Tr|]. split; [exact Cm|]. split; [exact Cmn|].
  split. { unfold sim_setup. rewrite Hset. reflexivity. }
  pose proof (run_finds W d _ Hfinds) as Hrun. unfold run_on in Hrun.
  cbn [i_dt i_method i_single i_y i_t i_noise i_op i_mu0 i_tau0 i_model i_m0 i_s0] in Hrun.
  assert (R1 : w_fwd W x6 (PLeaf (LStr method)) true = Ok (mkSolver (K:=RNum) mm dt true)).
  { cbn [w_fwd world1]. rewrite (number_num _ _ N6). cbn [bind as_text]. exact S1. }
  assert (R2 : w_bwd W x6 (PLeaf (LStr method)) true = Ok (mkSolver (K:=RNum) mm dt true)).
  { cbn [w_bwd world1]. rewrite (number_num _ _ N6). cbn [bind as_text]. exact S2. }
  rewrite R1, R2 in Hrun. cbn [bind] in Hrun.
  assert (R3 : w_mkkl0 W (@inl (pv (w_leaf W)) (w_val W) x7) (@inl (pv (w_leaf W)) (w_val W) x8) true = Ok (mu0, tau0)).
  { cbn [w_mkkl0 world1]. unfold kl0_1. rewrite (number_num _ _ N7), (number_num _ _ N8). reflexivity. }
  destruct (Nat.eq_dec m 0) as [E0|E0].
  - split; [lia|]. split; [lia|]. intros _. subst m. destruct ys; [|discriminate].
    unfold sim_run. cbn [s_data]. rewrite Hrun. cbn [w_mklike world1 like1 op_value1 like_op_1d bind]. reflexivity.
  - assert (R4 : w_mklike W (VVals (ys : list RNum)) (VIdx ts) (VNoise (A0 (K:=RNum) r)) (PLeaf LNull) true = Ok (mkLike1 (K:=RNum) ys ts r (Ok (1 : RNum)))).
    { cbn [w_mklike world1 like1]. destruct ys; [cbn in Cy; lia|reflexivity]. }
    rewrite R4 in Hrun. cbn [bind] in Hrun. rewrite R3 in Hrun. cbn [bind] in Hrun.
    destruct (optimise1_ok k p3 tk x t0 dt n m ts ys r v (nlit (n:=RNum) 1 5) (mkSolver (K:=RNum) mm dt true) (mkSolver (K:=RNum) mm dt true) (mu0, tau0) 1
      Mtk Mx Tg Hn2 A2 Tl Cmn Cs Cy ltac:(lia)) as [O1 O2].
    change (w_optimise W) with (optimise1 RNum G ln PI spline) in Hrun. change (w_s0 W (k, p3)) with (VNum (nlit (n:=RNum) 1 5)) in Hrun.
    split; [|split; [|lia]].
    + intros _ Hlt. destruct (O1 Hlt) as (a & b & mt & st & Efx & Edf & lamt & psit & fx & E & F).
      eexists. unfold sim_run. cbn [s_data]. rewrite Hrun, E. split; [reflexivity|]. cbn [s_out]. apply store_completed. exact F.
    + intros _ Heq. unfold sim_run. cbn [s_data]. rewrite Hrun, (O2 Heq). reflexivity.
Qed.
End Parts.
