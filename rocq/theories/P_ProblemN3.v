(** * Setup and run together, Lorenz models *)
From Coq Require Import ZArith List Bool Arith Reals Lra Lia Sorted String FunctionalExtensionality.
From Verif Require Import Num Arr ArrFacts M_LinAlg M_Ode M_Sde1 M_L63 M_L96 M_L96E M_Prior M_Like M_VarGP M_Scg M_Run M_Proc M_Sim M_SimN
  Spec_Utils Spec_Gauss Spec_GaussN Spec_Ode Spec_L63 Spec_L96 Spec_L96E Spec_Prior Spec_Like Spec_Proc Spec_Sim Spec_SimN Spec_Problem Spec_ProblemN Spec_Priors
  P_Det P_RMat P_Ode P_OdeR P_OdeRK P_OdeSel P_Like P_Init P_Proc P_Traj P_Noise P_VarGP P_Sim P_Sim2 P_Main P_SimN P_SimN2 P_Problem P_Problem2 P_ProblemN P_ProblemN2
  Props_Proc.
Import ListNotations.
Local Open Scope string_scope.
Local Open Scope R_scope.

Section Parts.
Context (G : Rng RNum) (eigvals : nat -> mat RNum -> list (RNum * RNum)) (solve : nat -> mat RNum -> result (vec RNum -> vec RNum))
  (spline : list R -> list R -> R -> R) (show : parn -> string).
Notation W := (worldn RNum G eigvals solve ln PI spline show).
Notation seed_of seed := (match seed with None => PLeaf NNull | Some z => PLeaf (NInt z) end).

Lemma seed_starts seed h : seed_ok seed -> exists s g, nas_seed RNum (seed_of seed) = Ok s /\ make_rng G s h = Ok g /\ starts G seed h g.
Proof.
  intros Hs. exists (match seed with None => SeedNone | Some z => SeedInt z end).
  assert (Hv : seed_valid (match seed with None => SeedNone | Some z => SeedInt z end) = true)
    by (destruct seed; cbn; [apply Z.leb_le; exact Hs|reflexivity]).
  unfold make_rng. rewrite Hv. destruct seed as [z|]; cbn [seed_truthy].
  - destruct (Z.eqb_spec z 0) as [->|Hz]; cbn [negb]; eexists; (split; [reflexivity|]); (split; [reflexivity|]); cbn; auto.
  - eexists; (split; [reflexivity|]); (split; [reflexivity|]); cbn; auto.
Qed.
Lemma drift_is_nas k x th : drift_is k x th -> nas_theta RNum k x = Ok th.
Proof.
  destruct k; cbn [drift_is nas_theta].
  - intros (t & ->). reflexivity.
  - intros (v & H & ->). rewrite (num_nas _ _ H). reflexivity.
Qed.
Lemma buildn_full k name C th xs xt seed h : same_up_to_case name (name_n k) -> drift_is k xt th -> sys_n (dim_n k) xs C ->
  symm (dim_n k) C -> posdef (dim_n k) C -> spectrum (dim_n k) C (eigvals (dim_n k) C) -> seed_ok seed ->
  exists p, buildn RNum G eigvals (upper name) xs xt (seed_of seed) h = Some (Ok (k, p)) /\ q_dim p = dim_n k /\
    q_sigma p = C /\ q_theta p = th /\ inverse (dim_n k) C (q_isig p) /\ starts G seed h (b_rng (q_base p)).
Proof.
  intros Hn Hd Hs Hsy Hpd Hsp Hseed. rewrite (buildn_eq G eigvals k name xs xt _ h Hn).
  rewrite (drift_is_nas k xt th Hd). destruct (seed_starts seed h Hseed) as (s & g & -> & Hg & Hst). cbn [bind].
  assert (Hk : k = L96 -> (10 <= 40)%nat) by lia.
  assert (Em : noise_matrix (K:=RNum) (dim_n k) (snd (nas_arr RNum xs)) = Ok C /\ fst (nas_arr RNum xs) = Float64).
  { destruct Hs as [(v & -> & ->)| ->]; cbn [nas_arr fst snd]; (split; [|reflexivity]).
    - pose proof (noise_matrix_shape (dim_n k) (A1 (dim_n k) v)) as H. cbv beta iota in H. rewrite Nat.eqb_refl in H. exact H.
    - pose proof (noise_matrix_shape (dim_n k) (A2 (dim_n k) (dim_n k) C)) as H. cbv beta iota in H. rewrite Nat.eqb_refl in H. exact H. }
  destruct Em as [Em ->].
  destruct (init_sym G eigvals k (snd (nas_arr RNum xs)) th s 40 h g C Hk Hg) as [A _].
  { destruct k; exact Em. } { destruct k; exact Hsy. } { destruct k; exact Hsp. }
  destruct A as (y & -> & Hy); [destruct k; exact Hpd|]. cbn [bind]. eexists. split; [reflexivity|]. destruct k; cbn; auto.
Qed.
Lemma first_state_96 th : (fun i => if Nat.eqb i (40 / 2) then th i * 1 + 1 / 1000 else th i * 1) = first_state L96 th.
Proof.
  apply functional_extensionality. intros i. cbn [first_state]. change (40 / 2)%nat with 20%nat. rewrite Rmult_1_r. reflexivity.
Qed.
Lemma trajn_full k (p : PN G) C t0 tf dt x0 xf xd : q_dim p = dim_n k -> q_sigma p = C -> symm (dim_n k) C -> posdef (dim_n k) C ->
  0 < dt -> t0 < tf -> num_n x0 t0 -> num_n xf tf -> num_n xd dt ->
  exists n tk (x : list (nat -> R)) p', trajn RNum G x0 xf xd (k, p) = (Ok tt, (k, p')) /\ q_dim p' = dim_n k /\
    q_sigma p' = C /\ q_theta p' = q_theta p /\ q_isig p' = q_isig p /\
    b_tk (q_base p') = Some tk /\ b_xt (q_base p') = Some x /\
    uniform_grid t0 dt n tk /\ reaches t0 dt tf n /\ List.length x = n /\
    path_n G k C (q_theta p) dt n (b_rng (q_base p)) (b_rng (q_base p')) x.
Proof.
  intros Hp HC Hsy Hpd Hd Ht H0 H1 H2. unfold trajn. rewrite (num_nas _ _ H0), (num_nas _ _ H1), (num_nas _ _ H2). cbn [bind fst snd].
  destruct (noise_factor_R (dim_n k) C dt Hsy Hpd Hd) as (L & L1 & L2 & L3).
  destruct k; cbn [dim_n] in *.
  - destruct (C40_l63 G t0 tf dt p Hp Hd ltac:(lra)) as (n & tk & x & z & g & x0' & E1 & E2 & E3 & E4 & E5 & E6).
    rewrite E2. rewrite HC, L3 in E6. exists n, tk, x, (with_baseN G (mkBase (Some x) (Some tk) g) p).
    repeat (split; [first [reflexivity|assumption]|]). split; [apply E6|]. exists z, x0', L.
    repeat (split; [assumption|]). exact E6.
  - destruct (C40_l96 G 40 t0 tf dt p Hp Hd ltac:(lra)) as (n & tk & x & z & g & x0' & E1 & E2 & E3 & E4 & E5 & E6).
    rewrite E2. rewrite HC, L3 in E6. exists n, tk, x, (with_baseN G (mkBase (Some x) (Some tk) g) p).
    repeat (split; [first [reflexivity|assumption]|]). split; [apply E6|]. exists z, x0', L.
    pose proof (first_state_96 (q_theta p)) as Q. change (car RNum) with R in *. rewrite Q in E5.
    repeat (split; [assumption|]). exact E6.
Qed.
Lemma collectn_full k (p : PN G) d (tk : list R) (x : list (nat -> R)) t0 dt n xr v density : q_dim p = d -> d <> 1%nat ->
  b_tk (q_base p) = Some tk -> b_xt (q_base p) = Some x ->
  uniform_grid t0 dt n tk -> (2 <= n)%nat -> 0 < dt -> List.length x = n -> (0 <= rate_val density)%R -> fits_step (rate_val density) dt -> obs_n d xr v ->
  exists m ts (ys : list (nat -> R)) (C : nat -> nat -> R) p',
    collect_n RNum G (rate_leafn density) xr (PLeaf NNull) (k, p) =
      (Ok (WIdx ts, WRows (ys : list (vec RNum)), WNoise (A2 (K:=RNum) d d C)), (k, p')) /\
    diagonal d C /\ (forall i, (i < d)%nat -> C i i = v i) /\
    int_part (INR (n - 1) * dt * rate_val density) (Z.of_nat m) /\ (m + 1 <= n)%nat /\
    observed_n G d n m v x (b_rng (q_base p)) (b_rng (q_base p')) ts ys /\
    q_dim p' = d /\ q_sigma p' = q_sigma p /\ q_theta p' = q_theta p /\ q_isig p' = q_isig p /\
    b_tk (q_base p') = Some tk /\ b_xt (q_base p') = Some x.
Proof.
  intros Hp H1 Htk Hx Hg Hn Hd Hl Hz Hc Hr. unfold collect_n. cbn [op_sel bind fst snd]. cbv zeta. rewrite nas_rate, Hp.
  assert (Hlen : List.length (seq 0 d) = d) by apply seq_length.
  destruct (collectN_R G d (q_base p) tk x t0 dt n (rate_dens density) (snd (nas_arr RNum xr)) None (seq 0 d) v Htk Hx Hg Hn Hd Hl (rated density Hz) Hc)
    as (m & ts & ys & C & z & g & Hm & Ez & E & HC & HCv & Hs & Hy & Hv).
  { apply repeat_length. } { apply selected_all. } { rewrite Hlen; exact H1. } { rewrite Hlen. apply obs_diag, Hr. }
  rewrite Hlen in *. rewrite E. cbn [bind].
  exists m, ts, ys, C, (with_baseN G (mkBase (Some x) (Some tk) g) p).
  destruct (obs_indexes_R t0 dt n tk (rate_dens density) Hg Hn Hd (rated density Hz) Hc) as (m' & Hm' & Hle & _).
  assert (m' = m).
  { destruct Hm as [A1 A2], Hm' as [B1 B2]. apply Nat2Z.inj.
    assert (C1 : IZR (Z.of_nat m') < IZR (Z.of_nat m + 1)) by (rewrite plus_IZR; lra).
    assert (C2 : IZR (Z.of_nat m) < IZR (Z.of_nat m' + 1)) by (rewrite plus_IZR; lra).
    apply lt_IZR in C1, C2. lia. }
  subst m'. split; [reflexivity|]. split; [exact HC|]. split; [exact HCv|]. split; [exact Hm|]. split; [exact Hle|]. split.
  { exists z. split; [exact Ez|]. split; [exact Hs|]. split; [exact Hy|]. intros i j Hi Hj.
    pose proof (Hv i j Hi Hj) as V. rewrite seq_nth in V by exact Hj. exact V. }
  repeat (split; [first [reflexivity|assumption]|]). reflexivity.
Qed.
Lemma m0n_full k (p : PN G) (x : list (nat -> R)) : b_xt (q_base p) = Some x -> (0 < List.length x)%nat ->
  exists z g p', normals G (q_dim p) (b_rng (q_base p)) = (z, g) /\
    m0_n RNum G (k, p) = (Ok (WVec (fun i => nth 0 x zvec i + 1 / 10 * nth i z 0 : RNum)), (k, p')) /\ b_rng (q_base p') = g /\
    q_dim p' = q_dim p /\ q_sigma p' = q_sigma p /\ q_theta p' = q_theta p /\ q_isig p' = q_isig p /\
    b_tk (q_base p') = b_tk (q_base p) /\ b_xt (q_base p') = b_xt (q_base p).
Proof.
  intros Hx Hl. unfold m0_n, get_path. cbn [fst snd]. rewrite Hx. destruct x as [|a x]; [cbn in Hl; lia|].
  destruct (normals G (q_dim p) (b_rng (q_base p))) as [z g]. exists z, g. eexists. split; [reflexivity|]. split; [reflexivity|]. cbn. auto 10.
Qed.

Lemma evaluates_coren k (p : PN G) C th dt n mu tau flat v ts (ys : list (nat -> R)) (Rn : nat -> nat -> R) (m0 : nat -> R) mm x val o a b :
  (k = L96 -> solver_ok solve) -> symm (dim_n k) C -> inverse (dim_n k) C (q_isig p) ->
  q_dim p = dim_n k -> q_sigma p = C -> q_theta p = th -> (forall i, (i < dim_n k)%nat -> 0 < tau i) -> (0 < n)%nat -> Sorted le ts -> NoDup ts ->
  List.Forall (fun i => (i < n)%nat) ts -> List.length ys = List.length ts ->
  diagonal (dim_n k) Rn -> (forall i, (i < dim_n k)%nat -> Rn i i = v i) -> (forall i, (i < dim_n k)%nat -> 0 < v i) ->
  fe_core (sim_envn RNum G solve ln PI (k, p) n dt m0 (mscale (K:=RNum) (nlit (n:=RNum) 1 5) meye)
    (mkSolver (K:=RNum) mm dt false) (mkSolver (K:=RNum) mm dt false)
    (mkLikeN (K:=RNum) (dim_n k) ys ts Rn (OpMat meye)) (stored mu flat, diag_of tau) ts) x = Ok (val, o) ->
  unpackn n (dim_n k) x = Ok (a, b) -> List.length a = n -> List.length b = n ->
  evaluates_p k (tab_of mm) C th dt n flat mu tau v ts ys m0 a b (o_mt o) (o_st o) val.
Proof.
  intros Hsol Hsy Hinv Hd HC Hth Htau Hn Hso Hnd Hts Hy HRd HRv Hv H Hu La Lb.
  destruct (fe_core_partsn G solve (k, p) n dt m0 _ _ _ _ _ ts x val o H) as (a' & b' & eo & en & kl & U & E1 & E2 & E3 & E4 & ->).
  cbn [sol_method sol_dt fst snd] in *. rewrite Hd in U, E1, E4. rewrite HC in E1. rewrite Hu in U. injection U as <- <-.
  change (VM (sysn RNum (q_dim p))) with (nat -> R) in *. change (VS (sysn RNum (q_dim p))) with (nat -> nat -> R) in *.
  clear H. revert E1 E2 E3. generalize (o_mt o : list (nat -> R)), (o_st o : list (nat -> nat -> R)). clear o. intros mt st E1 E2 E3.
  assert (Es0 : mscale (K:=RNum) (nlit (n:=RNum) 1 5) meye = times_id (1 / 5)) by (rewrite <- times_id_eye; reflexivity).
  pose proof (momentsn (dim_n k) mm n dt C m0 _ a b mt st La Lb Hn E1) as M.
  rewrite Es0 in M. split; [exact M|].
  destruct M as (_ & _ & L1 & L2 & _).
  assert (Hs1 : forall t, (t < n)%nat -> symm (dim_n k) (nth t st zmat)).
  { intros t Ht. apply (momentsn_symm (dim_n k) mm dt C m0 (mscale (K:=RNum) (nlit (n:=RNum) 1 5) meye) a b mt st E1).
    - rewrite Es0. apply times_id_symm. - exact Hsy. - rewrite L2. exact Ht. }
  destruct (energy_value G solve k p th (q_isig p) dt n ts a b mt st en Hsol Hd Hth eq_refl Hso Hn La Lb L1 L2 Hs1 E3) as (e & He & Ee).
  destruct (prior_value (dim_n k) m0 mu tau flat (1 / 5) kl Htau ltac:(lra) E4) as (kl' & K1 & K2).
  unfold like_calln in E2. cbn [kn_H kn_d kn_y kn_t kn_noise] in E2.
  destruct (like_value (dim_n k) ys ts Rn v mt st eo HRd HRv Hv Hy) as (eo' & O1 & O2); [exact (eq_trans L2 (eq_sym L1))|rewrite L1; exact Hts|exact Hnd|exact E2|].
  exists (q_isig p), Rn, kl', eo', e. split; [exact Hinv|]. split; [exact K1|]. split.
  { intros i j Hi Hj. destruct (Nat.eqb_spec i j) as [<-|Hne]; [apply HRv, Hi|apply HRd; assumption]. }
  split; [exact O1|]. split; [exact He|]. rewrite Ee, K2, O2. rring.
Qed.

Lemma optimisen_full k (p : PN G) C th (tk : list R) (x : list (nat -> R)) t0 dt n m ts (ys : list (nat -> R)) (Rn : nat -> nat -> R) v
  (m0 mu tau : nat -> R) (flat : spelling) mm :
  (k = L96 -> solver_ok solve) -> symm (dim_n k) C -> inverse (dim_n k) C (q_isig p) -> q_dim p = dim_n k -> q_sigma p = C -> q_theta p = th ->
  b_tk (q_base p) = Some tk -> b_xt (q_base p) = Some x ->
  uniform_grid t0 dt n tk -> (2 <= n)%nat -> 0 < dt -> List.length x = n -> (m + 1 < n)%nat -> spread n m ts -> List.length ys = m -> (1 <= m)%nat ->
  diagonal (dim_n k) Rn -> (forall i, (i < dim_n k)%nat -> Rn i i = v i) -> (forall i, (i < dim_n k)%nat -> 0 < v i) -> (forall i, (i < dim_n k)%nat -> 0 < tau i) ->
  let d := dim_n k in
  let run := optimisen RNum G solve ln PI spline (k, p) (WVec (m0 : vec RNum)) (WMat (mscale (K:=RNum) (nlit (n:=RNum) 1 5) meye))
    (mkSolver (K:=RNum) mm dt false) (mkSolver (K:=RNum) mm dt false)
    (mkLikeN (K:=RNum) d ys ts Rn (OpMat meye)) (stored mu flat, diag_of tau) (WRows (ys : list (vec RNum))) (WIdx ts) in
  (exists (a st Edf psit : list (nat -> nat -> R)) (b mt Efx lamt : list (nat -> R)) (fx : R) mt1 st1 a0 b0 mt0 st0 f0 a1 b1 f1,
    run = Ok (arr_m RNum d a, arr_v RNum d b, OScal (fx : RNum), arg_outn RNum d m0 (mscale (K:=RNum) (nlit (n:=RNum) 1 5) meye) mt st Efx Edf lamt psit) /\
    List.Forall (fun l => List.length l = n) [a; st; Edf; psit] /\ List.Forall (fun l => List.length l = n) [b; mt; Efx; lamt] /\
    evaluates_p k (tab_of mm) C th dt n flat mu tau v ts ys m0 a b mt1 st1 fx /\
    starting_point_n spline d C t0 dt n ts ys a0 b0 /\
    evaluates_p k (tab_of mm) C th dt n flat mu tau v ts ys m0 a0 b0 mt0 st0 f0 /\
    fx <= f0 /\
    evaluates_p k (tab_of mm) C th dt n flat mu tau v ts ys m0 a1 b1 mt st f1) \/
  (k = L96 /\ run = Err LinAlgError).
Proof.
  intros Hsol Hsy Hinv Hp HC Hth Htk Hx Hg Hn Hd Hl Hmn Hs Hy Hm HRd HRv Hv Htau d run.
  destruct (grid_shape _ _ _ _ Hg Hn) as (tl & Etk & _).
  assert (E1 : time_step G (q_base p) = Ok dt).
  { unfold time_step. rewrite Htk, Etk. f_equal. rnum. replace (t0 + dt - t0) with dt by ring. apply Rabs_pos_eq. lra. }
  assert (E2 : get_path G (q_base p) = Ok x) by (unfold get_path; rewrite Hx; reflexivity).
  assert (E3 : get_window G (q_base p) = Ok tk) by (unfold get_window; rewrite Htk; reflexivity).
  assert (Htl : List.length tk = n) by apply Hg.
  assert (Hts : List.length ts = m) by apply Hs.
  assert (Hlt : forall i, In i ts -> (i < n)%nat) by (intros i Hi; pose proof (spread_in _ _ _ Hs i Hi); lia).
  assert (Hlt' : List.Forall (fun i => (i < n)%nat) ts) by (rewrite Forall_forall; exact Hlt).
  assert (Hyn : ys <> []) by (intros ->; cbn in Hy; lia).
  pose proof (grid_sorted _ _ _ _ Hd Hg) as Hsort.
  destruct (initn_total spline d dt C tk ts ys Hsort ltac:(lia) Hyn ltac:(lia)) as [Hin _].
  destruct Hin as [Hok _]. { rewrite Htl. exact Hlt'. }
  rewrite Htl in Hok. destruct Hok as (x0 & E4). { apply (spread_inside _ _ _ Hs ltac:(lia)). auto. }
  assert (L0 : @List.length (car RNum) x0 = (n * d * (d + 1))%nat).
  { pose proof (initn_len _ _ _ _ _ _ _ _ E4) as L. change (@List.length (car RNum) tk) with (@List.length R tk) in L. rewrite Htl in L. exact L. }
  assert (Hso := spread_sorted _ _ _ Hs). assert (Hnd := spread_nodup _ _ _ Hs).
  assert (Hlike : forall (mm : list (vec RNum)) (ss : list (mat RNum)), List.length mm = n -> List.length ss = n ->
      (exists v, like_calln RNum ln PI (mkLikeN (K:=RNum) d ys ts Rn (OpMat meye)) mm ss = Ok v) /\
      (exists gm gs sh, like_gradn RNum (mkLikeN (K:=RNum) d ys ts Rn (OpMat meye)) mm = Ok (gm, gs, sh) /\ List.length gm = n /\ List.length gs = n)).
  { intros mm' ss Hmm Hss. unfold like_calln, like_gradn. cbn [kn_d kn_y kn_t kn_noise kn_H].
    destruct (like_ok d ys ts Rn mm' ss HRd) as [A (gm & gs & sh & B & B1 & B2)];
      [intros i Hi; rewrite HRv by exact Hi; apply Hv, Hi|lia|transitivity n; [exact Hss|symmetry; exact Hmm]|intros i Hi; change (i < @List.length (vec RNum) mm')%nat; rewrite Hmm; auto|exact Hnd|].
    split; [exact A|]. exists gm, gs, sh. split; [exact B|]. split; (etransitivity; [eassumption|exact Hmm]). }
  destruct (sim_runn_spec G solve (k, p) n dt m0 (mscale (K:=RNum) (nlit (n:=RNum) 1 5) meye) (mkSolver (K:=RNum) mm dt false) (mkSolver (K:=RNum) mm dt false)
    (mkLikeN (K:=RNum) d ys ts Rn (OpMat meye)) (stored mu flat, diag_of tau) ts) with (x0 := x0)
    as [(xx & a & b & fx & o & x' & v' & o1 & f0 & o0 & R1 & Lx & Ux & (oo & Eo & F1 & F2 & F3 & F4 & F5 & F6) & V1 & V0 & Hdec & Lx' & V')|(e & R1 & (Ek & ->))].
  { cbn [fst]. intros Ek. apply (Hsol Ek). } { lia. } { exact Hlike. }
  { cbn [snd fst]. rewrite Hp. apply prior_ok; [exact Htau|]. rnum. lra. }
  { cbn [snd]. rewrite Hp. exact L0. }
  - left. injection Eo as <-. cbn [snd] in *. rewrite Hp in *.
    destruct (packn_unpack d xx n Lx) as (a2 & b2 & Eu & La & Lb & _). pose proof (eq_trans (eq_sym Ux) Eu) as Q. injection Q as <- <-.
    destruct (packn_unpack d x0 n L0) as (a0 & b0 & Eu0 & La0 & Lb0 & _).
    destruct (packn_unpack d x' n Lx') as (a1 & b1 & Eu1 & La1 & Lb1 & _).
    exists a, (o_st o), (o_Edf o), (o_psi o), b, (o_mt o), (o_Efx o), (o_lam o), fx,
      (o_mt o1), (o_st o1), a0, b0, (o_mt o0), (o_st o0), f0, a1, b1, v'.
    split.
    { unfold run, optimisen. cbn [fst snd]. rewrite E1, E2, E3. cbn [bind]. rewrite Hp.
      change (@List.length (vec RNum) x) with (@List.length (nat -> R) x). rewrite Hl. rewrite HC. fold d. rewrite E4. cbn [bind kn_d]. rewrite Nat.eqb_refl. cbn [bind].
      match type of R1 with _ = ?r => match goal with |- context [sim_runn ?a ?b ?c ?e] => replace (sim_runn a b c e) with r by (symmetry; exact R1) end end.
      reflexivity. }
    assert (EV : forall x val o a b, _) by (exact (fun x val o a b => evaluates_coren k p C th dt n mu tau flat v ts ys Rn m0 mm x val o a b
      Hsol Hsy Hinv Hp HC Hth Htau ltac:(lia) Hso Hnd Hlt' ltac:(congruence) HRd HRv Hv)).
    split; [repeat constructor; assumption|]. split; [repeat constructor; assumption|].
    split; [apply (EV xx); assumption|]. split; [apply (startn spline d C t0 dt n tk ts ys x0); auto; lia|].
    split; [apply (EV x0); assumption|]. split; [exact Hdec|]. apply (EV x'); assumption.
  - right. split; [exact Ek|]. cbn [snd] in *. rewrite Hp in *. unfold run, optimisen. cbn [fst snd]. rewrite E1, E2, E3. cbn [bind]. rewrite Hp.
    change (@List.length (vec RNum) x) with (@List.length (nat -> R) x). rewrite Hl. rewrite HC. fold d. rewrite E4. cbn [bind kn_d]. rewrite Nat.eqb_refl. cbn [bind].
    match type of R1 with _ = ?r => match goal with |- context [sim_runn ?a ?b ?c ?e] => replace (sim_runn a b c e) with r by (symmetry; exact R1) end end.
    reflexivity.
Qed.

Lemma storen_has d n (out : dict (oval RNum)) (a st Edf psit : list (nat -> nat -> R)) (b mt Efx lamt : list (nat -> R)) (fx : R) (m0 : nat -> R) (s0 : nat -> nat -> R) :
  List.Forall (fun l => List.length l = n) [a; st; Edf; psit] -> List.Forall (fun l => List.length l = n) [b; mt; Efx; lamt] ->
  let out' := store W (arr_m RNum d a, arr_v RNum d b, OScal (fx : RNum), arg_outn RNum d m0 s0 mt st Efx Edf lamt psit) out in
  holds_mats out' "at" d n a /\ holds_vecs out' "bt" d n b /\ has out' "fx" (OScal (fx : RNum)) /\
  holds_vecs out' "mt" d n mt /\ holds_mats out' "st" d n st /\ has out' "m0" (OArr [d] (map m0 (seq 0 d) : list RNum)).
Proof.
  intros F1 F2. rewrite Forall_forall in F1, F2. cbv zeta.
  assert (M : forall (key : string) (l : list (nat -> nat -> R)) out', In l [a; st; Edf; psit] -> has out' key (arr_m RNum d l) -> holds_mats out' key d n l).
  { intros key l out' Hl H. exists (ravel3 (K:=RNum) d l). specialize (F1 l Hl). split.
    - unfold arr_m in H. change (@List.length (mat RNum) l) with (@List.length (nat -> nat -> R) l) in H. rewrite F1 in H. exact H.
    - split; [etransitivity; [apply (ravel3_len (K:=RNum))|]; change (@List.length (mat RNum) l) with (@List.length (nat -> nat -> R) l); rewrite F1; lia|].
      intros k i j Hk Hi Hj. apply (ravel3_nth (K:=RNum)); [|exact Hi|exact Hj]. change (k < @List.length (nat -> nat -> R) l)%nat. rewrite F1. exact Hk. }
  assert (V : forall (key : string) (l : list (nat -> R)) out', In l [b; mt; Efx; lamt] -> has out' key (arr_v RNum d l) -> holds_vecs out' key d n l).
  { intros key l out' Hl H. exists (ravel2 (K:=RNum) d l). specialize (F2 l Hl). split.
    - unfold arr_v in H. change (@List.length (vec RNum) l) with (@List.length (nat -> R) l) in H. rewrite F2 in H. exact H.
    - split; [etransitivity; [apply (ravel2_len (K:=RNum))|]; change (@List.length (vec RNum) l) with (@List.length (nat -> R) l); rewrite F2; lia|].
      intros k i Hk Hi. apply (ravel2_nth (K:=RNum)); [|exact Hi]. change (k < @List.length (nat -> R) l)%nat. rewrite F2. exact Hk. }
  unfold store, dupdate, arg_outn. cbn [fold_left fst snd].
  split; [apply M; [cbn; tauto|]|split; [apply V; [cbn; tauto|]|split; [|split; [apply V; [cbn; tauto|]|split; [apply M; [cbn; tauto|]|]]]]];
    rewrite <- dget_has; look; reflexivity.
Qed.

Definition stored_val (mu : nat -> R) (flat : spelling) : valn RNum :=
  match flat with Flat => WVec (mu : vec RNum) | Rows more => WRows ((mu :: more) : list (vec RNum)) end.
Lemma fits_self d : fits d d = true.
Proof. unfold fits. rewrite Nat.eqb_refl. reflexivity. Qed.
Lemma pick_self d i : d <> 1%nat -> pick d i = i.
Proof. intros H. unfold pick. destruct (Nat.eqb_spec d 1); [contradiction|reflexivity]. Qed.
Lemma times_eye (x : R) i j : x * meye (K:=RNum) i j = if Nat.eqb i j then x else 0.
Proof. unfold meye. destruct (Nat.eqb i j); rnum; ring. Qed.
Lemma num_as x r : num_n x r -> num_n (as_numbers x) r.
Proof. intros [->|[(z & -> & ->)|([] & -> & ->)]]; [left; reflexivity|right; left; exists z; split; reflexivity|right; right; eexists; split; reflexivity..]. Qed.
Lemma mu0_as x (m : modeln RNum G) : mu0_n RNum G x m = mu0_n RNum G (as_numbers x) m.
Proof. destruct x as [l|]; [destruct l|]; reflexivity. Qed.
Lemma tau0_as x (m : modeln RNum G) : tau0_n RNum G x m = tau0_n RNum G (as_numbers x) m.
Proof. destruct x as [l|]; [destruct l|]; reflexivity. Qed.
Lemma mu0_list x mu flat (m : modeln RNum G) : q_dim (snd m) <> 1%nat -> mean_n (q_dim (snd m)) (as_numbers x) mu flat -> mu0_n RNum G x m = Ok (stored_val mu flat).
Proof.
  rewrite mu0_as. generalize (as_numbers x). clear x. intros x Hd [[-> [(r & H & ->)|[(t & ->)|(t & u & -> & ->)]]]|(t & r & c & a & -> & Hc & -> & ->)].
  - rewrite (mu0_num _ _ _ _ H). unfold stored_val. do 2 f_equal. apply functional_extensionality. intros _. rnum. ring.
  - unfold mu0_n. cbn [nas_list]. rewrite fits_self. cbn [stored_val]. do 2 f_equal. apply functional_extensionality. intros i.
    rewrite (pick_self _ i Hd). rnum. ring.
  - unfold mu0_n. cbn [nas_list]. unfold fits. rewrite orb_true_r. cbn [stored_val]. do 2 f_equal. apply functional_extensionality. intros i. unfold pick. cbn. rnum. ring.
  - unfold mu0_n. cbn [nas_list]. assert (Hf : fits c (q_dim (snd m)) = true).
    { destruct Hc as [-> | ->]; [unfold fits; rewrite orb_true_r; reflexivity|apply fits_self]. }
    rewrite Hf. cbn [stored_val seq map]. do 2 f_equal.
    assert (E : forall i, (fun j => nmul (n:=RNum) (a i (pick c j)) (nZ (K:=RNum) 1)) = (fun j => a i (if Nat.eqb c 1 then 0%nat else j))).
    { intros i. apply functional_extensionality. intros j. unfold pick. rnum. ring. }
    f_equal; [apply E|]. rewrite <- seq_shift, map_map. apply map_ext. intros i. apply E.
Qed.
Lemma tau0_list x tau (m : modeln RNum G) : q_dim (snd m) <> 1%nat -> cov_n (q_dim (snd m)) (as_numbers x) tau -> tau0_n RNum G x m = Ok (WMat (diag_of tau : mat RNum)).
Proof.
  rewrite tau0_as. generalize (as_numbers x). clear x. intros x Hd [(r & H & ->)|[(t & ->)|[(t & u & -> & ->)|(t & r & c & a & -> & Hr & Hc & ->)]]].
  - rewrite (tau0_num _ _ _ _ H). do 2 f_equal. apply times_id_eye.
  - unfold tau0_n. cbn [nas_list]. rewrite fits_self. do 2 f_equal. apply functional_extensionality. intros i. apply functional_extensionality. intros j.
    rewrite (pick_self _ j Hd). etransitivity; [exact (times_eye (tau j) i j)|]. unfold diag_of. destruct (Nat.eqb_spec i j) as [->|]; reflexivity.
  - unfold tau0_n. cbn [nas_list]. unfold fits. rewrite orb_true_r. do 2 f_equal. apply functional_extensionality. intros i. apply functional_extensionality. intros j.
    exact (times_eye (u 0%nat) i j).
  - assert (F : forall q, q = 1%nat \/ q = q_dim (snd m) -> fits q (q_dim (snd m)) = true).
    { intros q [->| ->]; [unfold fits; apply orb_true_r|apply fits_self]. }
    unfold tau0_n. cbn [nas_list]. rewrite (F r Hr), (F c Hc). cbn [andb]. do 2 f_equal. apply functional_extensionality. intros i. apply functional_extensionality. intros j.
    etransitivity; [exact (times_eye (a (pick r i) (pick c j)) i j)|]. unfold diag_of, pick. destruct (Nat.eqb_spec i j) as [->|]; reflexivity.
Qed.
Lemma problemp k params name method sys theta obs xmu xtau C th v mu tau flat t0 tf dt density seed (h : r_state G) (s : Sim W) :
  let d := dim_n k in (k = L96 -> solver_ok solve) ->
  entries_p params name method sys theta obs xmu xtau t0 tf dt density seed ->
  acceptable_p k name method C v t0 tf dt density seed -> mean_n d (as_numbers xmu) mu flat -> cov_n d (as_numbers xtau) tau -> (forall i, (i < d)%nat -> 0 < tau i) ->
  drift_is k theta th -> sys_n d sys C -> obs_n d obs v -> spectrum d C (eigvals d C) ->
  exists n m T, reaches t0 dt tf n /\ int_part (INR (n - 1) * dt * rate_val density) (Z.of_nat m) /\ tableau_named method T /\
  ((1 <= m)%nat -> (m + 1 < n)%nat ->
   exists g0 g1 g2 g3 x ts ys z s1,
     let m0 := fun i => nth 0 x zvec i + 1 / 10 * nth i z 0 in
     sim_setup W params DNone h s = (Ok tt, s1) /\
     starts G seed h g0 /\ path_n G k C th dt n g0 g1 x /\ observed_n G d n m v x g1 g2 ts ys /\ normals G d g2 = (z, g3) /\
     ((exists s2 a b fx mt st mt1 st1 a0 b0 mt0 st0 f0 a1 b1 f1,
         sim_run W s1 = (Ok tt, s2) /\
         holds_mats (s_out s2) "at" d n a /\ holds_vecs (s_out s2) "bt" d n b /\ has (s_out s2) "fx" (OScal (fx : RNum)) /\
         holds_vecs (s_out s2) "mt" d n mt /\ holds_mats (s_out s2) "st" d n st /\
         has (s_out s2) "m0" (OArr [d] (map m0 (seq 0 d) : list RNum)) /\
         evaluates_p k T C th dt n flat mu tau v ts ys m0 a b mt1 st1 fx /\
         starting_point_n spline d C t0 dt n ts ys a0 b0 /\
         evaluates_p k T C th dt n flat mu tau v ts ys m0 a0 b0 mt0 st0 f0 /\
         fx <= f0 /\
         evaluates_p k T C th dt n flat mu tau v ts ys m0 a1 b1 mt st f1) \/
      (k = L96 /\ sim_run W s1 = (Err LinAlgError, s1)))).
Proof.
  intros d Hsolve (dr & nz & tw & os & pr & x4 & x5 & x6 & F1 & F2 & F3 & F4 & F5 & F6 & F7 &
    F8 & F9 & N4 & F10 & N5 & F11 & N6 & F12 & F13 & F14 & F15 & F16 & F17 & F18)
    (Q1 & Q2 & Q3 & (Q5 & Q6 & Q7) & Q8 & Q9 & (mn & Q10 & Q11) & Q12) Hmu Htau Q4 Hdr Hsys Hobs Hspec.
  assert (Hd1 : d <> 1%nat) by (unfold d; destruct k; cbn; lia).
  destruct (buildn_full k name C th sys theta seed h Q9 Hdr Hsys Q1 Q2 Hspec Q12) as (p & B & Bd & BC & Bth & Binv & Bst).
  destruct (trajn_full k p C t0 tf dt x4 x5 x6 Bd BC Q1 Q2 Q5 Q6 N4 N5 N6) as (n & tk & x & p1 & T & Td & TC & Tth & Ti & Ttk & Tx & Tg & Tr & Tl & Tp).
  pose proof (reaches_two _ _ _ _ Q6 Tr) as Hn2.
  destruct (collectn_full k p1 d tk x t0 dt n obs v density Td Hd1 Ttk Tx Tg Hn2 Q5 Tl Q8 Q7 Hobs)
    as (m & ts & ys & Cn & p2 & Cc & CnD & CnV & Cm & Cmn & Co & Cd & CC & Cth & Ci & Ctk & Cx).
  destruct (m0n_full k p2 x Cx ltac:(lia)) as (z & g3 & p3 & Mz & M & Mg & Md & MC & Mth & Mi & Mtk & Mx).
  rewrite Ctk in Mtk. rewrite Cx in Mx. rewrite Cd in Md, Mz.
  assert (Hm : exists mm, method_name mm = mn /\ tableau_named method (tab_of mm)).
  { unfold tableau_named. cbn [In] in Q10. destruct Q10 as [<-|[<-|[<-|[<-|[]]]]]; [exists Euler|exists Heun|exists RK2|exists RK4]; (split; [reflexivity|]); cbn [tab_of]; tauto. }
  destruct Hm as (mm & <- & HT).
  destruct (sel_R dt method false) as (_ & _ & _ & Hsel). destruct (Hsel mm Q5 Q11) as [S1 S2].
  assert (R5 : w_mu0 W xmu (k, p3) = Ok (stored_val mu flat)) by (apply mu0_list; cbn [snd]; rewrite Md; assumption).
  assert (R6 : w_tau0 W xtau (k, p3) = Ok (WMat (diag_of tau : mat RNum))) by (apply tau0_list; cbn [snd]; rewrite Md; assumption).
  set (m0 := fun i => nth 0 x zvec i + 1 / 10 * nth i z 0) in *.
  destruct (setup_forward_n W params h (s_data s) dr nz tw os pr (PLeaf (NStr method)) _ sys obs theta x4 x5 x6 (rate_leafn density) (PLeaf NNull)
    xmu xtau (NStr name) (k, p) (k, p1) (k, p2) (k, p3) (WIdx ts) (WRows (ys : list (vec RNum))) (WNoise (A2 (K:=RNum) d d Cn)) (WVec (m0 : vec RNum)) _ _
    F3 F5 F8 F2 F18 F15 F12 F1 F13 F14 F6 F7 F4 F9 F10 F11 F16 F17 B eq_refl T Cc M R5 R6) as (dd & Hset & Hfinds).
  exists n, m, (tab_of mm). split; [exact Tr|]. split; [exact Cm|]. split; [exact HT|]. intros Hm1 Hmn.
  pose proof (run_finds W dd _ Hfinds) as Hrun. unfold run_on in Hrun.
  cbn [i_dt i_method i_single i_y i_t i_noise i_op i_mu0 i_tau0 i_model i_m0 i_s0] in Hrun.
  assert (R1 : w_fwd W x6 (PLeaf (NStr method)) false = Ok (mkSolver (K:=RNum) mm dt false)).
  { cbn [w_fwd worldn]. rewrite (num_nas _ _ N6). cbn [bind nas_text]. exact S1. }
  assert (R2 : w_bwd W x6 (PLeaf (NStr method)) false = Ok (mkSolver (K:=RNum) mm dt false)).
  { cbn [w_bwd worldn]. rewrite (num_nas _ _ N6). cbn [bind nas_text]. exact S2. }
  rewrite R1, R2 in Hrun. cbn [bind] in Hrun.
  assert (Cy : List.length ys = m) by (destruct Co as (? & _ & _ & ? & _); assumption).
  assert (Cs : spread n m ts) by (destruct Co as (? & _ & ? & _); assumption).
  assert (R4 : w_mklike W (WRows (ys : list (vec RNum))) (WIdx ts) (WNoise (A2 (K:=RNum) d d Cn)) (PLeaf NNull) false = Ok (mkLikeN (K:=RNum) d ys ts Cn (OpMat meye))).
  { cbn [w_mklike worldn like_n]. destruct ys; [cbn in Cy; lia|reflexivity]. }
  rewrite R4 in Hrun. cbn [bind] in Hrun.
  assert (R7 : w_mkkl0 W (inr (stored_val mu flat)) (inr (WMat (diag_of tau : mat RNum))) false = Ok (stored mu flat, diag_of tau : mat RNum)) by (destruct flat; reflexivity).
  match type of R7 with ?l = ?r => match type of Hrun with context [w_mkkl0 ?w ?a ?b ?c] => change (w_mkkl0 w a b c) with l in Hrun end end. rewrite R7 in Hrun. cbn [bind] in Hrun.
  change (w_optimise W) with (optimisen RNum G solve ln PI spline) in Hrun.
  change (w_s0 W (k, p3)) with (WMat (mscale (K:=RNum) (nlit (n:=RNum) 1 5) meye)) in Hrun.
  exists (b_rng (q_base p)), (b_rng (q_base p1)), (b_rng (q_base p2)), g3, x, ts, ys, z, (mkSim (s_name s) dd (s_out s)). cbv zeta. fold m0.
  split. { unfold sim_setup. rewrite Hset. reflexivity. }
  split; [exact Bst|]. split. { rewrite Bth in Tp. exact Tp. }
  split; [exact Co|]. split; [exact Mz|].
  assert (H1 : inverse (dim_n k) C (q_isig p3)) by (rewrite Mi, Ci, Ti; exact Binv).
  destruct (optimisen_full k p3 C th tk x t0 dt n m ts ys Cn v m0 mu tau flat mm Hsolve Q1 H1 Md (eq_trans MC (eq_trans CC TC))
    (eq_trans Mth (eq_trans Cth (eq_trans Tth Bth)))
    Mtk Mx Tg Hn2 Q5 Tl Hmn Cs Cy Hm1 CnD CnV Q3 Q4)
    as [(a & st & Edf & psit & b & mt & Efx & lamt & fx & mt1 & st1 & a0 & b0 & mt0 & st0 & f0 & a1 & b1 & f1 & E & L1 & L2 & V1 & P0 & V0 & Hdec & V2)|(Ek & E)].
  - left. pose proof (eq_trans Hrun E) as Hrun2. eexists.
    exists a, b, fx, mt, st, mt1, st1, a0, b0, mt0, st0, f0, a1, b1, f1.
    split. { unfold sim_run. cbn [s_data]. rewrite Hrun2. reflexivity. }
    cbn [s_out]. destruct (storen_has d n (s_out s) a st Edf psit b mt Efx lamt fx m0 (mscale (K:=RNum) (nlit (n:=RNum) 1 5) meye) L1 L2) as (O1 & O2 & O3 & O4 & O5 & O6).
    repeat (split; [assumption|]). assumption.
  - right. split; [exact Ek|]. pose proof (eq_trans Hrun E) as Hrun2. unfold sim_run. cbn [s_data]. rewrite Hrun2. reflexivity.
Qed.
Lemma evaluates_pn k T C th dt n mu0 tau0 v ts ys m0 a b mt st val : 0 < tau0 ->
  evaluates_p k T C th dt n Flat (fun _ => mu0) (fun _ => tau0) v ts ys m0 a b mt st val ->
  evaluates_n k T C th dt n mu0 tau0 v ts ys m0 a b mt st val.
Proof.
  intros Ht [M (P & Rn & kl & eo & e & H1 & H2 & H3 & H4 & H5 & H6)]. split; [exact M|]. exists P, Rn, kl, eo, e.
  repeat (split; [assumption|]). rewrite H6. do 3 f_equal. unfold excess. rewrite Rsum_const.
  rewrite (Rsum_ext (dim_n k) (fun i => (m0 i - mu0) ^ 2 / tau0) (fun i => / tau0 * (m0 i - mu0) ^ 2)) by (intros; field; lra).
  rewrite Rsum_scal. f_equal. field. lra.
Qed.
Lemma problemn k params name method sys theta obs C th v t0 tf dt mu0 tau0 density seed (h : r_state G) (s : Sim W) :
  let d := dim_n k in (k = L96 -> solver_ok solve) ->
  entries_n params name method sys theta obs t0 tf dt mu0 tau0 density seed ->
  acceptable_n k name method C v t0 tf dt tau0 density seed ->
  drift_is k theta th -> sys_n d sys C -> obs_n d obs v -> spectrum d C (eigvals d C) ->
  exists n m T, reaches t0 dt tf n /\ int_part (INR (n - 1) * dt * rate_val density) (Z.of_nat m) /\ tableau_named method T /\
  ((1 <= m)%nat -> (m + 1 < n)%nat ->
   exists g0 g1 g2 g3 x ts ys z s1,
     let m0 := fun i => nth 0 x zvec i + 1 / 10 * nth i z 0 in
     sim_setup W params DNone h s = (Ok tt, s1) /\
     starts G seed h g0 /\ path_n G k C th dt n g0 g1 x /\ observed_n G d n m v x g1 g2 ts ys /\ normals G d g2 = (z, g3) /\
     ((exists s2 a b fx mt st mt1 st1 a0 b0 mt0 st0 f0 a1 b1 f1,
         sim_run W s1 = (Ok tt, s2) /\
         holds_mats (s_out s2) "at" d n a /\ holds_vecs (s_out s2) "bt" d n b /\ has (s_out s2) "fx" (OScal (fx : RNum)) /\
         holds_vecs (s_out s2) "mt" d n mt /\ holds_mats (s_out s2) "st" d n st /\
         has (s_out s2) "m0" (OArr [d] (map m0 (seq 0 d) : list RNum)) /\
         evaluates_n k T C th dt n mu0 tau0 v ts ys m0 a b mt1 st1 fx /\
         starting_point_n spline d C t0 dt n ts ys a0 b0 /\
         evaluates_n k T C th dt n mu0 tau0 v ts ys m0 a0 b0 mt0 st0 f0 /\
         fx <= f0 /\
         evaluates_n k T C th dt n mu0 tau0 v ts ys m0 a1 b1 mt st f1) \/
      (k = L96 /\ sim_run W s1 = (Err LinAlgError, s1)))).
Proof.
  intros d Hsolve (dr & nz & tw & os & pr & x4 & x5 & x6 & x7 & x8 & F1 & F2 & F3 & F4 & F5 & F6 & F7 &
    F8 & F9 & N4 & F10 & N5 & F11 & N6 & F12 & F13 & N7 & F14 & N8 & F15 & F16 & F17 & F18)
    (Q1 & Q2 & Q3 & (Q4 & Q5 & Q6 & Q7) & Q8 & Q9 & Q10 & Q11) Hdr Hsys Hobs Hspec.
  destruct (problemp k params name method sys theta obs x7 x8 C th v (fun _ => mu0) (fun _ => tau0) Flat t0 tf dt density seed h s Hsolve)
    as (n & m & T & A1 & A2 & A3 & A4).
  - exists dr, nz, tw, os, pr, x4, x5, x6. repeat (split; [assumption|]). assumption.
  - repeat (split; [assumption|]). split; [repeat split; assumption|]. repeat (split; [assumption|]). assumption.
  - left. split; [reflexivity|]. left. exists mu0. split; [apply num_as; exact N7|reflexivity].
  - left. exists tau0. split; [apply num_as; exact N8|reflexivity].
  - intros; exact Q4.
  - exact Hdr.
  - exact Hsys.
  - exact Hobs.
  - exact Hspec.
  - exists n, m, T. repeat (split; [assumption|]). intros Hm Hn.
    destruct (A4 Hm Hn) as (g0 & g1 & g2 & g3 & x & ts & ys & z & s1 & B). exists g0, g1, g2, g3, x, ts, ys, z, s1. cbv zeta in *.
    destruct B as (B1 & B2 & B3 & B4 & B5 & B6). repeat (split; [assumption|]).
    destruct B6 as [(s2 & a & b & fx & mt & st & mt1 & st1 & a0 & b0 & mt0 & st0 & f0 & a1 & b1 & f1 & D)|B6]; [left|right; exact B6].
    exists s2, a, b, fx, mt, st, mt1, st1, a0, b0, mt0, st0, f0, a1, b1, f1.
    destruct D as (D1 & D2 & D3 & D4 & D5 & D6 & D7 & D8 & D9 & D10 & D11 & D12).
    repeat (split; [first [assumption|apply evaluates_pn; assumption]|]). apply evaluates_pn; assumption.
Qed.
End Parts.
