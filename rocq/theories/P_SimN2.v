(** * Setup and run of the Lorenz models over the reals *)
From Coq Require Import ZArith List Bool Arith Reals Lra Lia Sorted String.
From Verif Require Import Num Arr ArrFacts M_LinAlg M_Ode M_Sde1 M_L63 M_L96 M_L96E M_Prior M_Like M_VarGP M_Scg M_Run M_Proc M_Sim M_SimN
  Spec_Utils Spec_Ode Spec_Proc Spec_Sim Spec_SimN P_VarGP P_OdeSel P_Init P_Proc P_Traj P_Noise P_Sim P_Sim2 P_Main P_SimN.
Import ListNotations.
Local Open Scope string_scope.

(** ** setup, step by step *)
Section Forward.
Context (W : World).
Ltac go :=
  match goal with
  | |- context [sbind W (put W ?k ?v) ?f ?d] => rewrite (sbind_go W (put W k v) f d tt (dset k v d) eq_refl)
  | |- context [sbind W (lift W ?r) ?f ?d] => erewrite (sbind_go W (lift W r) f d) by (apply lift_go; first [eassumption | apply item_field; eassumption])
  | |- context [sbind W (get2 W ?k ?j) ?f ?d] => erewrite (sbind_go W (get2 W k j) f d) by (eapply get2_go; [look; reflexivity|apply item_field; eassumption])
  | |- context [sbind W (get_par W ?k) ?f ?d] => erewrite (sbind_go W (get_par W k) f d) by (apply get_par_go; look; reflexivity)
  | |- context [sbind W (get_flag W ?k) ?f ?d] => erewrite (sbind_go W (get_flag W k) f d) by (apply get_flag_go; look; reflexivity)
  | |- context [sbind W (get_model W ?k) ?f ?d] => erewrite (sbind_go W (get_model W k) f d) by (apply get_model_go; look; reflexivity)
  | |- context [sbind W (on_model W ?g) ?f ?d] => erewrite (sbind_go W (on_model W g) f d) by (eapply on_model_go; [look; reflexivity|eassumption])
  end; cbv beta iota.
Lemma setup_forward_n params h d0 dr nz tw os pr mtd seed sys obs theta t0 tf dt density op mu tau name m m1 m2 m3 t y n v mu' tau' :
  field params "Drift" dr -> field params "Noise" nz -> field params "Time-window" tw -> field params "Ode-method" mtd ->
  field params "Random-Seed" seed -> field params "Observations" os -> field params "Prior" pr ->
  field params "Model" (PLeaf name) ->
  field pr "mu0" mu -> field pr "tau0" tau -> field nz "sys" sys -> field nz "obs" obs -> field dr "theta" theta ->
  field tw "t0" t0 -> field tw "tf" tf -> field tw "dt" dt -> field os "density" density -> field os "operator" op ->
  w_build W (upper (w_str W (PLeaf name))) sys theta seed h = Some (Ok m) -> w_single W m = false ->
  w_traj W t0 tf dt m = (Ok tt, m1) -> w_collect W density obs op m1 = (Ok (t, y, n), m2) ->
  w_m0 W m2 = (Ok v, m3) -> w_mu0 W mu m3 = Ok mu' -> w_tau0 W tau m3 = Ok tau' ->
  exists d, setup W params DNone h d0 = (Ok tt, d) /\
    finds d (mkInputs dt mtd false y t n op (inr mu') (inr tau') m3 v (w_s0 W m3)).
Proof.
  intros. assert (Hb : stochastic_model W (PLeaf name) sys theta seed h = Ok m).
  { unfold stochastic_model. rewrite H17. reflexivity. }
  unfold setup, setup_params. rewrite !sbind_assoc.
  repeat (first [go | rewrite sbind_assoc]; cbv beta).
  unfold setup_model. rewrite !sbind_assoc.
  repeat (first [go | rewrite sbind_assoc]; cbv beta). rewrite H18.
  unfold setup_obs. repeat (first [go | rewrite sbind_assoc]; cbv beta).
  unfold setup_moments. repeat (first [go | rewrite sbind_assoc]; cbv beta).
  eexists. split; [reflexivity|].
  unfold finds. cbn [i_dt i_method i_single i_y i_t i_noise i_op i_mu0 i_tau0 i_model i_m0 i_s0 prior_slot].
  rewrite <- !dget_has. look. repeat split; eauto.
  - exists tw. rewrite <- dget_has. look. auto.
  - exists os. rewrite <- dget_has. look. auto.
Qed.
Lemma sbind_stop {A B} (m : S_ W A) (f : A -> S_ W B) d e d1 : m d = (Err e, d1) -> sbind W m f d = (Err e, d1).
Proof. unfold sbind. intros ->. reflexivity. Qed.
(** a constructor that fails *)
Lemma setup_build_fails params data h d0 dr nz tw os pr mtd seed sys theta mu tau name e :
  field params "Drift" dr -> field params "Noise" nz -> field params "Time-window" tw -> field params "Ode-method" mtd ->
  field params "Random-Seed" seed -> field params "Observations" os -> field params "Prior" pr ->
  field params "Model" (PLeaf name) ->
  field pr "mu0" mu -> field pr "tau0" tau -> field nz "sys" sys -> field dr "theta" theta ->
  w_build W (upper (w_str W (PLeaf name))) sys theta seed h = Some (Err e) -> e <> KeyError ->
  exists d, setup W params data h d0 = (Err e, d).
Proof.
  intros. assert (Hb : stochastic_model W (PLeaf name) sys theta seed h = Err e).
  { unfold stochastic_model. rewrite H11. destruct e; congruence. }
  unfold setup, setup_params. rewrite !sbind_assoc.
  repeat (first [go | rewrite sbind_assoc]; cbv beta).
  unfold setup_model. rewrite !sbind_assoc.
  repeat (first [go | rewrite sbind_assoc]; cbv beta).
  erewrite (sbind_stop (lift W _)) by (unfold lift; rewrite Hb; reflexivity). eauto.
Qed.
End Forward.

(** ** the parts of setup and run *)
Local Open Scope R_scope.
Section Parts.
Context (G : Rng RNum) (eigvals : nat -> mat RNum -> list (RNum * RNum)) (solve : nat -> mat RNum -> result (vec RNum -> vec RNum))
  (spline : list R -> list R -> R -> R) (show : parn -> string).
Notation W := (worldn RNum G eigvals solve ln PI spline show).
Lemma nas_rate q : nas_dens RNum (rate_leafn q) = rate_dens q.
Proof. destruct q as [| |[]]; reflexivity. Qed.
Lemma num_nas x v : num_n x v -> nas_num RNum x = Ok v.
Proof. intros [->|[(z & -> & ->)|([] & -> & ->)]]; reflexivity. Qed.
Lemma mu0_num x v (m : modeln RNum G) : num_n x v -> mu0_n RNum G x m = Ok (WVec (fun _ => nmul (n:=RNum) v (nZ 1))).
Proof. intros [->|[(z & -> & ->)|([] & -> & ->)]]; reflexivity. Qed.
Lemma tau0_num x v (m : modeln RNum G) : num_n x v -> tau0_n RNum G x m = Ok (WMat (mscale (K:=RNum) v meye)).
Proof. intros [->|[(z & -> & ->)|([] & -> & ->)]]; reflexivity. Qed.
Notation seed_of seed := (match seed with None => PLeaf NNull | Some z => PLeaf (NInt z) end).

Lemma seed_rng seed h : seed_ok seed -> exists s g, nas_seed RNum (seed_of seed) = Ok s /\ make_rng G s h = Ok g.
Proof.
  intros Hs. exists (match seed with None => SeedNone | Some z => SeedInt z end).
  assert (Hv : seed_valid (match seed with None => SeedNone | Some z => SeedInt z end) = true)
    by (destruct seed; cbn; [apply Z.leb_le; exact Hs|reflexivity]).
  unfold make_rng. rewrite Hv. destruct (seed_truthy _); eexists; (split; [destruct seed; reflexivity|reflexivity]).
Qed.
Lemma drift_nas k x : drift_n k x -> exists th, nas_theta RNum k x = Ok th.
Proof.
  destruct k; cbn [drift_n nas_theta].
  - intros (t & v & ->). eauto.
  - intros (v & H). rewrite (num_nas _ _ H). cbn [bind]. eauto.
Qed.
Lemma buildn_eq k name xs xt xseed h : same_up_to_case name (name_n k) ->
  buildn RNum G eigvals (upper name) xs xt xseed h =
  Some (let* s := nas_seed RNum xseed in
        match nas_theta RNum k xt with
        | Ok theta => let* p := initnd G eigvals k (fst (nas_arr RNum xs)) (snd (nas_arr RNum xs)) theta s 40 h in Ok (k, p)
        | Err e => let* _ := initnd G eigvals k (fst (nas_arr RNum xs)) (snd (nas_arr RNum xs)) (fun _ => nZ (K:=RNum) 0) s 40 h in Err e
        end).
Proof.
  intros Hn. unfold buildn. destruct (nas_arr RNum xs) as [t sigma].
  apply upper_spec in Hn; [|destruct k; cbn; lia]. rewrite Hn. destruct k; reflexivity.
Qed.
Lemma buildn_ok k name C xs xt seed h : same_up_to_case name (name_n k) -> drift_n k xt -> sys_n (dim_n k) xs C ->
  symm (dim_n k) C -> posdef (dim_n k) C -> spectrum (dim_n k) C (eigvals (dim_n k) C) -> seed_ok seed ->
  exists p, buildn RNum G eigvals (upper name) xs xt (seed_of seed) h = Some (Ok (k, p)) /\ q_dim p = dim_n k.
Proof.
  intros Hn Hd Hs Hsy Hpd Hsp Hseed. rewrite (buildn_eq k name xs xt _ h Hn).
  destruct (drift_nas k xt Hd) as (th & ->). destruct (seed_rng seed h Hseed) as (s & g & -> & Hg). cbn [bind].
  assert (Hk : k = L96 -> (10 <= 40)%nat) by lia.
  assert (Em : noise_matrix (K:=RNum) (dim_n k) (snd (nas_arr RNum xs)) = Ok C /\ fst (nas_arr RNum xs) = Float64).
  { destruct Hs as [(v & -> & ->)| ->]; cbn [nas_arr fst snd]; (split; [|reflexivity]).
    - pose proof (noise_matrix_shape (dim_n k) (A1 (dim_n k) v)) as H. cbv beta iota in H. rewrite Nat.eqb_refl in H. exact H.
    - pose proof (noise_matrix_shape (dim_n k) (A2 (dim_n k) (dim_n k) C)) as H. cbv beta iota in H. rewrite Nat.eqb_refl in H. exact H. }
  destruct Em as [Em ->].
  destruct (init_sym G eigvals k (snd (nas_arr RNum xs)) th s 40 h g C Hk Hg) as [A _].
  { destruct k; exact Em. } { destruct k; exact Hsy. } { destruct k; exact Hsp. }
  destruct A as (y & -> & _); [destruct k; exact Hpd|]. cbn [bind]. eexists. split; [reflexivity|]. destruct k; reflexivity.
Qed.
(** a number instead of a list *)
Lemma buildn_scalar k name x xs xt seed h : same_up_to_case name (name_n k) -> drift_n k xt -> num_n xs x -> seed_ok seed ->
  buildn RNum G eigvals (upper name) xs xt (seed_of seed) h = Some (Err ValueError).
Proof.
  intros Hn Hd Hs Hseed. rewrite (buildn_eq k name xs xt _ h Hn).
  destruct (drift_nas k xt Hd) as (th & ->). destruct (seed_rng seed h Hseed) as (s & g & -> & Hg). cbn [bind].
  rewrite (init_bad_shape G eigvals k _ _ th s 40 h g Hg); [reflexivity|].
  destruct Hs as [->|[(z & -> & _)|(b & -> & _)]]; cbn [nas_arr snd]; apply (noise_matrix_shape _ (A0 _)).
Qed.
Lemma trajn_ok k (p : PN G) d t0 tf dt x0 xf xd : q_dim p = d -> 0 < dt -> t0 < tf -> num_n x0 t0 -> num_n xf tf -> num_n xd dt ->
  exists n tk (x : list (nat -> R)) p', trajn RNum G x0 xf xd (k, p) = (Ok tt, (k, p')) /\ q_dim p' = d /\
    b_tk (q_base p') = Some tk /\ b_xt (q_base p') = Some x /\
    uniform_grid t0 dt n tk /\ reaches t0 dt tf n /\ List.length x = n.
Proof.
  intros Hp Hd Ht H0 H1 H2. unfold trajn. rewrite (num_nas _ _ H0), (num_nas _ _ H1), (num_nas _ _ H2). cbn [bind fst snd].
  assert (HH : forall f x0, exists n tk (x : list (nat -> R)) g,
    trajectoryN (K:=RNum) G f x0 t0 tf dt p = (Ok tt, with_baseN G (mkBase (Some x) (Some tk) g) p) /\
    uniform_grid t0 dt n tk /\ reaches t0 dt tf n /\ List.length x = n).
  { intros f x0'. destruct (traj_n_R G d f f x0' t0 tf dt p Hp Hd ltac:(lra) (fun _ _ _ => eq_refl)) as (n & tk & x & z & g & _ & E & Hg & Hr & (Hl & _)).
    exists n, tk, x, g. auto. }
  destruct k.
  - unfold l63_trajectory. edestruct HH as (n & tk & x & g & E & Hg & Hr & Hl). rewrite E.
    exists n, tk, x, (with_baseN G (mkBase (Some x) (Some tk) g) p). repeat split; auto; apply Hg || apply Hr.
  - unfold l96_trajectory. edestruct HH as (n & tk & x & g & E & Hg & Hr & Hl). rewrite E.
    exists n, tk, x, (with_baseN G (mkBase (Some x) (Some tk) g) p). repeat split; auto; apply Hg || apply Hr.
Qed.
Lemma selected_all d : selected (repeat true d) (seq 0 d).
Proof.
  split.
  - intros i j Hij. rewrite seq_length in Hij. rewrite !seq_nth by lia. lia.
  - intros c. rewrite in_seq. split.
    + intros Hc. apply repeat_spec with (n := d). apply nth_In. rewrite repeat_length. lia.
    + intros Hc. split; [lia|]. cbn. destruct (le_lt_dec d c); [|lia].
      rewrite nth_overflow in Hc by (rewrite repeat_length; lia). discriminate.
Qed.
Lemma obs_diag d x v : obs_n d x v -> noise_diag_of d (snd (nas_arr RNum x)) v.
Proof.
  intros [(r & [->|[(z & -> & ->)|([] & -> & ->)]] & H)|[(t & u & -> & H)|(t & m & -> & H)]]; cbn; auto.
Qed.
Lemma collectn_ok k (p : PN G) d (tk : list R) (x : list (nat -> R)) t0 dt n xr v density : q_dim p = d -> d <> 1%nat ->
  b_tk (q_base p) = Some tk -> b_xt (q_base p) = Some x ->
  uniform_grid t0 dt n tk -> (2 <= n)%nat -> 0 < dt -> List.length x = n -> (0 <= rate_val density)%R -> fits_step (rate_val density) dt -> obs_n d xr v ->
  exists m ts (ys : list (nat -> R)) (C : nat -> nat -> R) p',
    collect_n RNum G (rate_leafn density) xr (PLeaf NNull) (k, p) =
      (Ok (WIdx ts, WRows (ys : list (vec RNum)), WNoise (A2 (K:=RNum) d d C)), (k, p')) /\
    diagonal d C /\ (forall i, (i < d)%nat -> C i i = v i) /\
    int_part (INR (n - 1) * dt * rate_val density) (Z.of_nat m) /\ (m + 1 <= n)%nat /\ spread n m ts /\ List.length ys = m /\
    q_dim p' = d /\ b_tk (q_base p') = Some tk /\ b_xt (q_base p') = Some x.
Proof.
  intros Hp H1 Htk Hx Hg Hn Hd Hl Hz Hc Hr. unfold collect_n. cbn [op_sel bind fst snd]. cbv zeta. rewrite nas_rate, Hp.
  assert (Hlen : List.length (seq 0 d) = d) by apply seq_length.
  destruct (collectN_R G d (q_base p) tk x t0 dt n (rate_dens density) (snd (nas_arr RNum xr)) None (seq 0 d) v Htk Hx Hg Hn Hd Hl (rated density Hz) Hc)
    as (m & ts & ys & C & z & g & Hm & _ & E & HC & HCv & Hs & Hy & _).
  { apply repeat_length. } { apply selected_all. } { rewrite Hlen; exact H1. } { rewrite Hlen. apply obs_diag, Hr. }
  rewrite Hlen in *. rewrite E. cbn [bind].
  exists m, ts, ys, C, (with_baseN G (mkBase (Some x) (Some tk) g) p).
  destruct (obs_indexes_R t0 dt n tk (rate_dens density) Hg Hn Hd (rated density Hz) Hc) as (m' & Hm' & Hle & _).
  assert (m' = m).
  { destruct Hm as [A1 A2], Hm' as [B1 B2]. apply Nat2Z.inj.
    assert (C1 : IZR (Z.of_nat m') < IZR (Z.of_nat m + 1)) by (rewrite plus_IZR; lra).
    assert (C2 : IZR (Z.of_nat m) < IZR (Z.of_nat m' + 1)) by (rewrite plus_IZR; lra).
    apply lt_IZR in C1, C2. lia. }
  subst m'. repeat (split; [first [reflexivity|assumption]|]). reflexivity.
Qed.
Lemma m0n_ok k (p : PN G) (x : list (nat -> R)) : b_xt (q_base p) = Some x -> (0 < List.length x)%nat ->
  exists v p', m0_n RNum G (k, p) = (Ok (WVec v), (k, p')) /\
    q_dim p' = q_dim p /\ b_tk (q_base p') = b_tk (q_base p) /\ b_xt (q_base p') = b_xt (q_base p).
Proof.
  intros Hx Hl. unfold m0_n, get_path. cbn [fst snd]. rewrite Hx. destruct x as [|a x]; [cbn in Hl; lia|].
  destruct (normals G (q_dim p) (b_rng (q_base p))) as [z g]. eexists _, _. split; [reflexivity|]. cbn. auto.
Qed.

(** the results, with their sizes *)
Definition result_n (d n : nat) (r : oval RNum * oval RNum * oval RNum * dict (oval RNum)) : Prop :=
  exists (a st Edf psit : list (mat RNum)) (b mt Efx lamt : list (vec RNum)) (fx : R) (m0 : vec RNum) (s0 : mat RNum),
    r = (arr_m RNum d a, arr_v RNum d b, OScal (fx : RNum), arg_outn RNum d m0 s0 mt st Efx Edf lamt psit) /\
    List.Forall (fun l => List.length l = n) [a; st; Edf; psit] /\ List.Forall (fun l => List.length l = n) [b; mt; Efx; lamt].
Lemma spread_nodup n m ts : spread n m ts -> NoDup ts.
Proof.
  intros Hs. assert (Hts : List.length ts = m) by apply Hs.
  apply (NoDup_nth ts 0%nat). intros i j Hi Hj E. destruct Hs as (S1 & S2 & _). rewrite Hts in Hi, Hj.
  destruct (Nat.lt_trichotomy i j) as [H|[H|H]]; [|exact H|]; [specialize (S2 i j ltac:(lia))|specialize (S2 j i ltac:(lia))]; lia.
Qed.
Lemma optimisen_gen k (Hsolve : k = L96 -> forall d S e, solve d S = Err e -> e = LinAlgError) (p : PN G) d (tk : list R) (x : list (nat -> R)) t0 dt n m ts (ys : list (nat -> R))
  (l : LikeN RNum) (m0 mu0 : nat -> R) (tau0 : R) fwd bwd : q_dim p = d ->
  b_tk (q_base p) = Some tk -> b_xt (q_base p) = Some x ->
  uniform_grid t0 dt n tk -> (2 <= n)%nat -> 0 < dt -> List.length x = n -> (m + 1 <= n)%nat -> spread n m ts -> List.length ys = m -> (1 <= m)%nat ->
  0 < tau0 ->
  let run := optimisen RNum G solve ln PI spline (k, p) (WVec (m0 : vec RNum)) (WMat (mscale (K:=RNum) (nlit (n:=RNum) 1 5) meye)) fwd bwd
    l (MVec (mu0 : vec RNum), mscale (K:=RNum) tau0 meye) (WRows (ys : list (vec RNum))) (WIdx ts) in
  ((m + 1 < n)%nat -> kn_d l = d ->
   ((forall (mm : list (vec RNum)) (ss : list (mat RNum)), List.length mm = n -> List.length ss = n ->
      (exists v, like_calln RNum ln PI l mm ss = Ok v) /\
      (exists gm gs sh, like_gradn RNum l mm = Ok (gm, gs, sh) /\ List.length gm = n /\ List.length gs = n)) ->
     (exists r, run = Ok r /\ result_n d n r) \/ (k = L96 /\ run = Err LinAlgError)) /\
   (forall e, (forall (mm : list (vec RNum)) (ss : list (mat RNum)), List.length mm = n -> List.length ss = n -> like_calln RNum ln PI l mm ss = Err e) -> run = Err e)) /\
  ((m + 1 = n)%nat \/ kn_d l <> d -> run = Err ValueError).
Proof.
  intros Hp Htk Hx Hg Hn Hd Hl Hmn Hs Hy Hm Htau run.
  destruct (grid_shape _ _ _ _ Hg Hn) as (tl & Etk & _).
  assert (E1 : time_step G (q_base p) = Ok (Rabs (t0 + dt - t0))) by (unfold time_step; rewrite Htk, Etk; reflexivity).
  assert (E2 : get_path G (q_base p) = Ok x) by (unfold get_path; rewrite Hx; reflexivity).
  assert (E3 : get_window G (q_base p) = Ok tk) by (unfold get_window; rewrite Htk; reflexivity).
  assert (Htl : List.length tk = n) by apply Hg.
  assert (Hts : List.length ts = m) by apply Hs.
  assert (Hlt : forall i, In i ts -> (i < n)%nat) by (intros i Hi; pose proof (spread_in _ _ _ Hs i Hi); lia).
  assert (Hyn : ys <> []) by (intros ->; cbn in Hy; lia).
  pose proof (grid_sorted _ _ _ _ Hd Hg) as Hsort.
  destruct (initn_total spline d (Rabs (t0 + dt - t0)) (q_sigma p) tk ts ys Hsort ltac:(lia) Hyn ltac:(lia)) as [Hin _].
  destruct Hin as [Hok Hbad]. { rewrite Forall_forall. intros i Hi. rewrite Htl. apply Hlt, Hi. }
  rewrite Htl in Hok, Hbad.
  unfold run, optimisen. cbn [fst snd]. rewrite E1, E2, E3. cbn [bind]. rewrite Hp. change (@List.length (vec RNum) x) with (@List.length (nat -> R) x). rewrite Hl. split.
  - intros Hlt' Hkd. destruct Hok as (x0 & E4). { apply (spread_inside _ _ _ Hs Hmn). auto. }
    rewrite E4. cbn [bind]. rewrite Hkd, Nat.eqb_refl. cbn [bind].
    assert (L0 : @List.length (car RNum) x0 = (n * q_dim (snd (k, p)) * (q_dim (snd (k, p)) + 1))%nat).
    { pose proof (initn_len _ _ _ _ _ _ _ _ E4) as L. change (@List.length (car RNum) tk) with (@List.length R tk) in L. rewrite Htl in L. cbn [snd]. rewrite Hp. exact L. }
    split.
    + intros Hlike.
      destruct (sim_runn_out G solve (k, p) n (Rabs (t0 + dt - t0)) m0 (mscale (K:=RNum) (nlit (n:=RNum) 1 5) meye) fwd bwd
        l (MVec mu0, mscale (K:=RNum) tau0 meye) ts Hsolve) with (x0 := x0)
        as [(a & b & fx & o & E5 & La & Lb & (o' & Eo & F))|(e & E5 & (Ek & ->))].
      { lia. } { exact Hlike. }
      { cbn [snd fst]. rewrite Hp. apply kl0_ok; [exact Htau|]. rnum. lra. }
      { exact L0. }
      * left. cbn [snd] in E5. rewrite Hp in E5. match type of E5 with _ = ?r => match goal with |- context [sim_runn ?a ?b ?c ?e] => replace (sim_runn a b c e) with r by (symmetry; exact E5) end end. cbn [bind r_arg r_at r_bt r_fx]. injection Eo as <-. destruct F as (F1 & F2 & F3 & F4 & F5 & F6).
        eexists. split; [reflexivity|].
        exists a, (o_st o), (o_Edf o), (o_psi o), b, (o_mt o), (o_Efx o), (o_lam o), fx, m0, (mscale (K:=RNum) (nlit (n:=RNum) 1 5) meye).
        split; [reflexivity|]. split; repeat constructor; assumption.
      * right. cbn [snd] in E5. rewrite Hp in E5. match type of E5 with _ = ?r => match goal with |- context [sim_runn ?a ?b ?c ?e] => replace (sim_runn a b c e) with r by (symmetry; exact E5) end end. split; [exact Ek|reflexivity].
    + intros e He. cbn [snd] in L0.
      pose proof (sim_runn_like_fails G solve (k, p) n (Rabs (t0 + dt - t0)) m0 (mscale (K:=RNum) (nlit (n:=RNum) 1 5) meye) fwd bwd
        l (MVec mu0, mscale (K:=RNum) tau0 meye) ts ltac:(lia) e He x0 L0) as E5. cbn [snd] in E5. rewrite Hp in E5.
      match type of E5 with _ = ?r => match goal with |- context [sim_runn ?a ?b ?c ?e] => replace (sim_runn a b c e) with r by (symmetry; exact E5) end end. reflexivity.
  - intros H. destruct (Nat.eq_dec (m + 1) n) as [E|E].
    + rewrite Hbad; [reflexivity|]. intros Hin. apply (spread_inside _ _ _ Hs Hmn) in Hin. lia.
    + destruct H as [H|H]; [contradiction|]. destruct Hok as (x0 & E4). { apply (spread_inside _ _ _ Hs Hmn). lia. }
      rewrite E4. cbn [bind]. destruct (Nat.eqb_spec (kn_d l) d); [contradiction|reflexivity].
Qed.
Lemma optimisen_ok k (Hsolve : k = L96 -> forall d S e, solve d S = Err e -> e = LinAlgError) (p : PN G) d (tk : list R) (x : list (nat -> R)) t0 dt n m ts (ys : list (nat -> R)) (C : nat -> nat -> R)
  (m0 mu0 : nat -> R) (tau0 : R) fwd bwd : q_dim p = d ->
  b_tk (q_base p) = Some tk -> b_xt (q_base p) = Some x ->
  uniform_grid t0 dt n tk -> (2 <= n)%nat -> 0 < dt -> List.length x = n -> (m + 1 <= n)%nat -> spread n m ts -> List.length ys = m -> (1 <= m)%nat ->
  diagonal d C -> (forall i, (i < d)%nat -> 0 < C i i) -> 0 < tau0 ->
  let run := optimisen RNum G solve ln PI spline (k, p) (WVec (m0 : vec RNum)) (WMat (mscale (K:=RNum) (nlit (n:=RNum) 1 5) meye)) fwd bwd
    (mkLikeN (K:=RNum) d ys ts C (OpMat meye)) (MVec (mu0 : vec RNum), mscale (K:=RNum) tau0 meye) (WRows (ys : list (vec RNum))) (WIdx ts) in
  ((m + 1 < n)%nat -> (exists r, run = Ok r /\ result_n d n r) \/ (k = L96 /\ run = Err LinAlgError)) /\
  ((m + 1 = n)%nat -> run = Err ValueError).
Proof.
  intros Hp Htk Hx Hg Hn Hd Hl Hmn Hs Hy Hm HC HCp Htau run.
  destruct (optimisen_gen k Hsolve p d tk x t0 dt n m ts ys (mkLikeN (K:=RNum) d ys ts C (OpMat meye)) m0 mu0 tau0 fwd bwd
    Hp Htk Hx Hg Hn Hd Hl Hmn Hs Hy Hm Htau) as [H1 H2].
  split; [|intros E; apply H2; auto]. intros Hlt. apply (H1 Hlt eq_refl). intros mm ss Hmm Hss.
  assert (Hts : List.length ts = m) by apply Hs.
  assert (Hlt' : forall i, In i ts -> (i < n)%nat) by (intros i Hi; pose proof (spread_in _ _ _ Hs i Hi); lia).
  unfold like_calln, like_gradn. cbn [kn_d kn_y kn_t kn_noise kn_H].
  destruct (like_ok d ys ts C mm ss HC HCp) as [A (gm & gs & sh & B & B1 & B2)];
    [lia|transitivity n; [exact Hss|symmetry; exact Hmm]|intros i Hi; change (i < @List.length (vec RNum) mm)%nat; rewrite Hmm; auto|apply (spread_nodup _ _ _ Hs)|].
  split; [exact A|]. exists gm, gs, sh. split; [exact B|]. split; (etransitivity; [eassumption|exact Hmm]).
Qed.
Lemma storen_completed d n (out : dict (oval RNum)) r : result_n d n r -> completed_n d n (store W r out).
Proof.
  intros (a & st & Edf & psit & b & mt & Efx & lamt & fx & m0 & s0 & -> & F1 & F2). rewrite Forall_forall in F1, F2.
  assert (L1 : forall l : list (mat RNum), In l [a; st; Edf; psit] -> arr_m RNum d l = OArr [n; d; d] (ravel3 d l) /\ List.length (ravel3 d l) = (n * d * d)%nat).
  { intros l Hl. split; [unfold arr_m; rewrite (F1 l Hl); reflexivity|]. rewrite ravel3_len, (F1 l Hl). lia. }
  assert (L2 : forall l : list (vec RNum), In l [b; mt; Efx; lamt] -> arr_v RNum d l = OArr [n; d] (ravel2 d l) /\ List.length (ravel2 d l) = (n * d)%nat).
  { intros l Hl. split; [unfold arr_v; rewrite (F2 l Hl); reflexivity|]. rewrite ravel2_len, (F2 l Hl). lia. }
  unfold store, dupdate, arg_outn. cbn [fold_left fst snd]. split; [|split; [|split; [|split]]].
  - intros k Hk. cbn [In] in Hk. repeat (destruct Hk as [<-|Hk]); [..|contradiction];
      [exists (ravel3 d a)|exists (ravel3 d st)|exists (ravel3 d Edf)|exists (ravel3 d psit)];
      (split; [|apply L1; cbn [In]; tauto]); rewrite <- dget_has; look; f_equal; apply L1; cbn [In]; tauto.
  - intros k Hk. cbn [In] in Hk. repeat (destruct Hk as [<-|Hk]); [..|contradiction];
      [exists (ravel2 d b)|exists (ravel2 d mt)|exists (ravel2 d Efx)|exists (ravel2 d lamt)];
      (split; [|apply L2; cbn [In]; tauto]); rewrite <- dget_has; look; f_equal; apply L2; cbn [In]; tauto.
  - eexists. rewrite <- dget_has. look. split; [reflexivity|]. rewrite map_length, seq_length. reflexivity.
  - eexists. rewrite <- dget_has. look. split; [reflexivity|]. rewrite ravel2_len, map_length, seq_length. reflexivity.
  - exists fx. rewrite <- dget_has. look. reflexivity.
Qed.
Lemma simn_completes k params name method sys theta obs C v t0 tf dt mu0 tau0 density seed (h : r_state G) (s : Sim W) :
  let d := dim_n k in (k = L96 -> forall d S e, solve d S = Err e -> e = LinAlgError) ->
  entries_n params name method sys theta obs t0 tf dt mu0 tau0 density seed ->
  acceptable_n k name method C v t0 tf dt tau0 density seed ->
  drift_n k theta -> sys_n d sys C -> obs_n d obs v -> spectrum d C (eigvals d C) ->
  exists n m s1, reaches t0 dt tf n /\ int_part (INR (n - 1) * dt * rate_val density) (Z.of_nat m) /\ (m + 1 <= n)%nat /\
    sim_setup W params DNone h s = (Ok tt, s1) /\
    ((1 <= m)%nat -> (m + 1 < n)%nat ->
       (exists s2, sim_run W s1 = (Ok tt, s2) /\ completed_n d n (s_out s2)) \/ (k = L96 /\ sim_run W s1 = (Err LinAlgError, s1))) /\
    ((1 <= m)%nat -> (m + 1 = n)%nat -> sim_run W s1 = (Err ValueError, s1)) /\
    (m = 0%nat -> sim_run W s1 = (Err IndexError, s1)).
Proof.
  intros d Hsolve (dr & nz & tw & os & pr & x4 & x5 & x6 & x7 & x8 & F1 & F2 & F3 & F4 & F5 & F6 & F7 &
    F8 & F9 & N4 & F10 & N5 & F11 & N6 & F12 & F13 & N7 & F14 & N8 & F15 & F16 & F17 & F18)
    (Q1 & Q2 & Q3 & (Q4 & Q5 & Q6 & Q7) & Q8 & Q9 & (mn & Q10 & Q11) & Q12) Hdr Hsys Hobs Hspec.
  assert (Hd1 : d <> 1%nat) by (unfold d; destruct k; cbn; lia).
  destruct (buildn_ok k name C sys theta seed h Q9 Hdr Hsys Q1 Q2 Hspec Q12) as (p & B & Bd). fold d in Bd.
  destruct (trajn_ok k p d t0 tf dt x4 x5 x6 Bd Q5 Q6 N4 N5 N6) as (n & tk & x & p1 & T & Td & Ttk & Tx & Tg & Tr & Tl).
  pose proof (reaches_two _ _ _ _ Q6 Tr) as Hn2.
  destruct (collectn_ok k p1 d tk x t0 dt n obs v density Td Hd1 Ttk Tx Tg Hn2 Q5 Tl Q8 Q7 Hobs)
    as (m & ts & ys & Cn & p2 & Cc & CnD & CnV & Cm & Cmn & Cs & Cy & Cd & Ctk & Cx).
  destruct (m0n_ok k p2 x Cx ltac:(lia)) as (m0 & p3 & M & Md & Mtk & Mx).
  rewrite Ctk in Mtk. rewrite Cx in Mx. rewrite Cd in Md.
  assert (Hm : exists mm, method_name mm = mn).
  { cbn [In] in Q10. destruct Q10 as [<-|[<-|[<-|[<-|[]]]]]; [exists Euler|exists Heun|exists RK2|exists RK4]; reflexivity. }
  destruct Hm as (mm & <-).
  destruct (sel_R dt method false) as (_ & _ & _ & Hsel). destruct (Hsel mm Q5 Q11) as [S1 S2].
  assert (R5 : w_mu0 W x7 (k, p3) = Ok (WVec (fun _ => nmul (n:=RNum) mu0 (nZ 1)))).
  { cbn [w_mu0 worldn]. apply mu0_num, N7. }
  assert (R6 : w_tau0 W x8 (k, p3) = Ok (WMat (mscale (K:=RNum) tau0 meye))).
  { cbn [w_tau0 worldn]. apply tau0_num, N8. }
  destruct (setup_forward_n W params h (s_data s) dr nz tw os pr (PLeaf (NStr method)) _ sys obs theta x4 x5 x6 (rate_leafn density) (PLeaf NNull)
    x7 x8 (NStr name) (k, p) (k, p1) (k, p2) (k, p3) (WIdx ts) (WRows (ys : list (vec RNum))) (WNoise (A2 (K:=RNum) d d Cn)) (WVec m0) _ _
    F3 F5 F8 F2 F18 F15 F12 F1 F13 F14 F6 F7 F4 F9 F10 F11 F16 F17 B eq_refl T Cc M R5 R6) as (dd & Hset & Hfinds).
  exists n, m, (mkSim (s_name s) dd (s_out s)). split; [exact Tr|]. split; [exact Cm|]. split; [exact Cmn|].
  split. { unfold sim_setup. rewrite Hset. reflexivity. }
  pose proof (run_finds W dd _ Hfinds) as Hrun. unfold run_on in Hrun.
  cbn [i_dt i_method i_single i_y i_t i_noise i_op i_mu0 i_tau0 i_model i_m0 i_s0] in Hrun.
  assert (R1 : w_fwd W x6 (PLeaf (NStr method)) false = Ok (mkSolver (K:=RNum) mm dt false)).
  { cbn [w_fwd worldn]. rewrite (num_nas _ _ N6). cbn [bind nas_text]. exact S1. }
  assert (R2 : w_bwd W x6 (PLeaf (NStr method)) false = Ok (mkSolver (K:=RNum) mm dt false)).
  { cbn [w_bwd worldn]. rewrite (num_nas _ _ N6). cbn [bind nas_text]. exact S2. }
  rewrite R1, R2 in Hrun. cbn [bind] in Hrun.
  destruct (Nat.eq_dec m 0) as [E0|E0].
  - split; [lia|]. split; [lia|]. intros _. subst m. destruct ys; [|discriminate].
    unfold sim_run. cbn [s_data]. rewrite Hrun. cbn [w_mklike worldn like_n like_op_nd bind]. reflexivity.
  - assert (R4 : w_mklike W (WRows (ys : list (vec RNum))) (WIdx ts) (WNoise (A2 (K:=RNum) d d Cn)) (PLeaf NNull) false = Ok (mkLikeN (K:=RNum) d ys ts Cn (OpMat meye))).
    { cbn [w_mklike worldn like_n]. destruct ys; [cbn in Cy; lia|reflexivity]. }
    rewrite R4 in Hrun. cbn [bind w_mkkl0 worldn kl0_n] in Hrun.
    destruct (optimisen_ok k Hsolve p3 d tk x t0 dt n m ts ys Cn m0 (fun _ => nmul (n:=RNum) mu0 (nZ 1)) tau0
      (mkSolver (K:=RNum) mm dt false) (mkSolver (K:=RNum) mm dt false) Md
      Mtk Mx Tg Hn2 Q5 Tl Cmn Cs Cy ltac:(lia) CnD) as [O1 O2].
    { intros i Hi. rewrite CnV by exact Hi. apply Q3, Hi. } { exact Q4. }
    change (w_optimise W) with (optimisen RNum G solve ln PI spline) in Hrun.
    change (w_s0 W (k, p3)) with (WMat (mscale (K:=RNum) (nlit (n:=RNum) 1 5) meye)) in Hrun.
    split; [|split; [|lia]].
    + intros _ Hlt. destruct (O1 Hlt) as [(r & E & F)|(Ek & E)]; [left|right].
      * eexists. unfold sim_run. cbn [s_data]. rewrite Hrun, E. split; [reflexivity|]. cbn [s_out]. apply storen_completed. exact F.
      * split; [exact Ek|]. unfold sim_run. cbn [s_data]. rewrite Hrun, E. reflexivity.
    + intros _ Heq. unfold sim_run. cbn [s_data]. rewrite Hrun, (O2 Heq). reflexivity.
Qed.
End Parts.

(** ** what is stored *)
Section Saveable.
Context (K : Num) (G : Rng K) (eigvals : nat -> mat K -> list (K * K)) (solve : nat -> mat K -> result (vec K -> vec K))
  (nln : K -> K) (npi : K) (spline : list K -> list K -> K -> K) (show : pv (leafn K) -> string).
Notation W := (worldn K G eigvals solve nln npi spline show).
Lemma optimisen_shape m m0 s0 fwd bwd l pr y t r : optimisen K G solve nln npi spline m m0 s0 fwd bwd l pr y t = Ok r ->
  exists d a b fx v0 w0 mt st Efx Edf lamt psit, r = (arr_m K d a, arr_v K d b, OScal fx, arg_outn K d v0 w0 mt st Efx Edf lamt psit).
Proof.
  unfold optimisen. destruct m0; try discriminate. destruct s0; try discriminate. destruct y; try discriminate; destruct t; try discriminate.
  intros H. repeat match type of H with
  | bind ?e _ = Ok _ => destruct e; cbn [bind] in H; [|discriminate]
  | match ?e with _ => _ end = Ok _ => destruct e; [|discriminate]
  end.
  inversion H. do 12 eexists. reflexivity.
Qed.
Lemma sim_runn_saveable (s s' : Sim W) : saveable (s_out s) -> sim_run W s = (Ok tt, s') -> saveable (s_out s') /\ s_out s' <> [] /\ s_name s' = s_name s.
Proof.
  intros Hs H. unfold sim_run in H. destruct (run_core W (s_data s)) as [[r|e] d] eqn:E; cbn [fst] in H; [|discriminate].
  injection H as <-. cbn [s_out s_name]. split; [|split; [|reflexivity]].
  2:{ destruct r as [[[a b] fx] arg]. unfold store, dupdate.
      assert (Hne : forall k v (d : dict (oval (w_num W))), dset k v d <> []) by (intros k v [|[k' v'] dd]; cbn; [|destruct (String.eqb k k')]; discriminate).
      revert arg E. intros arg _. assert (Hf : forall l d, d <> [] -> fold_left (fun d kv => dset (fst kv) (snd kv) d) l d <> ([] : dict (oval (w_num W)))).
      { induction l as [|kv l IH]; cbn; auto. }
      apply Hf, Hne. }
  unfold run_core in E.
  repeat (apply sbind_ok in E; let H1 := fresh in destruct E as (? & ? & H1 & E)). apply lift_ok in E. destruct E as [E _].
  apply optimisen_shape in E. destruct E as (dd & a & b & fx & v0 & w0 & mt & st & Efx & Edf & lamt & psit & ->).
  unfold store, dupdate, arg_outn. cbn [fold_left fst snd].
  repeat (apply saveable_dset; [|reflexivity|discriminate|discriminate|first [exact I | discriminate]]). exact Hs.
Qed.
Lemma after_saveable_n cs (s : Sim W) : saveable (s_out s) -> saveable (s_out (after cs s)).
Proof.
  revert s. induction cs as [|[params data h|] cs IH]; intros s Hs; cbn [after]; [exact Hs| |]; apply IH.
  - unfold sim_setup. destruct (setup W params data h (s_data s)). exact Hs.
  - destruct (sim_run W s) as [[[]|e] s'] eqn:E; cbn [snd].
    + apply (sim_runn_saveable s s' Hs E).
    + unfold sim_run in E. destruct (fst (run_core W (s_data s))); inversion E; subst; exact Hs.
Qed.
End Saveable.
