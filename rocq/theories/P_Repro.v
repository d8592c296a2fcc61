(** * Reproducibility of Simulation *)
From Coq Require Import ZArith List Bool Arith Reals Lra Lia String.
From Verif Require Import Num Arr M_LinAlg M_Run M_Proc M_Sim M_Sim1 M_SimN Spec_Sim Spec_Sim1 P_Sim P_Sim2.
Import ListNotations.
Local Open Scope string_scope.

(** ** two executions of a computation on dictionaries that agree on some keys *)
Section Rel.
Context (W : World).
Definition agree (ks : list string) (d d' : mdata W) : Prop := forall k, In k ks -> dget k d = dget k d'.
Definition rel {A} (ks : list string) (m m' : S_ W A) (ks' : list string) : Prop :=
  forall d d', agree ks d d' ->
  match m d, m' d' with
  | (Ok a, e), (Ok a', e') => a = a' /\ agree ks' e e'
  | (Err x, _), (Err x', _) => x = x'
  | _, _ => False
  end.
Lemma rel_bind {A B} ks ks1 ks2 (m m' : S_ W A) (f f' : A -> S_ W B) : rel ks m m' ks1 -> (forall a, rel ks1 (f a) (f' a) ks2) ->
  rel ks (sbind W m f) (sbind W m' f') ks2.
Proof.
  intros Hm Hf d d' Hd. unfold sbind. specialize (Hm d d' Hd).
  destruct (m d) as [[a|x] e], (m' d') as [[a'|x'] e']; try contradiction; [|exact Hm].
  destruct Hm as [<- He]. exact (Hf a e e' He).
Qed.
Lemma rel_lift {A} ks (r : result A) : rel ks (lift W r) (lift W r) ks.
Proof. intros d d' Hd. unfold lift. destruct r; auto. Qed.
Lemma rel_ret {A} ks (a : A) : rel ks (sret W a) (sret W a) ks.
Proof. intros d d' Hd. cbn. auto. Qed.
Lemma rel_put ks k v : rel ks (put W k v) (put W k v) (k :: ks).
Proof.
  intros d d' Hd. cbn. split; [reflexivity|]. intros j Hj. rewrite !dget_dset.
  destruct (String.eqb_spec j k) as [->|]; [reflexivity|]. apply Hd. destruct Hj; congruence || assumption.
Qed.
Lemma rel_read {A} ks k (f : option (slot W) -> result A) : In k ks ->
  rel ks (fun d => (f (dget k d), d)) (fun d => (f (dget k d), d)) ks.
Proof. intros Hk d d' Hd. rewrite <- (Hd k Hk). destruct (f (dget k d)); auto. Qed.
Lemma rel_get2 ks k j : In k ks -> rel ks (get2 W k j) (get2 W k j) ks.
Proof.
  intros Hk. apply (rel_read ks k (fun o => let* s := match o with Some v => Ok v | None => Err KeyError end in
    match s with SPar x => item x j | _ => Err TypeError end) Hk).
Qed.
Lemma rel_get_par ks k : In k ks -> rel ks (get_par W k) (get_par W k) ks.
Proof.
  intros Hk. apply (rel_read ks k (fun o => let* s := match o with Some v => Ok v | None => Err KeyError end in
    match s with SPar x => Ok x | _ => Err AttributeError end) Hk).
Qed.
Lemma rel_get_model ks k : In k ks -> rel ks (get_model W k) (get_model W k) ks.
Proof.
  intros Hk. apply (rel_read ks k (fun o => let* s := match o with Some v => Ok v | None => Err KeyError end in
    match s with SModel x => Ok x | _ => Err AttributeError end) Hk).
Qed.
Lemma rel_get_flag ks k : In k ks -> rel ks (get_flag W k) (get_flag W k) ks.
Proof.
  intros Hk. apply (rel_read ks k (fun o => let* s := match o with Some v => Ok v | None => Err KeyError end in
    match s with SFlag x => Ok x | _ => Err AttributeError end) Hk).
Qed.
Lemma rel_get_val ks k : In k ks -> rel ks (get_val W k) (get_val W k) ks.
Proof.
  intros Hk. apply (rel_read ks k (fun o => let* s := match o with Some v => Ok v | None => Err KeyError end in
    match s with SVal x => Ok x | _ => Err AttributeError end) Hk).
Qed.
Lemma rel_get_prior ks k : In k ks -> rel ks (get_prior W k) (get_prior W k) ks.
Proof.
  intros Hk. apply (rel_read ks k (fun o => let* s := match o with Some v => Ok v | None => Err KeyError end in
    match s with SPar x => Ok (inl x) | SVal v => Ok (inr v) | _ => Err AttributeError end) Hk).
Qed.
Lemma rel_on_model {A} ks (f : w_model W -> result A * w_model W) : In "model" ks -> rel ks (on_model W f) (on_model W f) ("model" :: ks).
Proof.
  intros Hk. unfold on_model. apply rel_bind with ks; [apply rel_get_model; exact Hk|]. intros m. destruct (f m) as [r m'].
  apply rel_bind with ("model" :: ks); [apply rel_put|]. intros _. apply rel_lift.
Qed.
Lemma rel_weaken {A} ks ks1 ks2 (m m' : S_ W A) : rel ks m m' ks1 -> incl ks2 ks1 -> rel ks m m' ks2.
Proof.
  intros H Hi d d' Hd. specialize (H d d' Hd). destruct (m d) as [[a|x] e], (m' d') as [[a'|x'] e']; try contradiction; [|exact H].
  destruct H as [-> H]. split; [reflexivity|]. intros k Hk. apply H, Hi, Hk.
Qed.
Ltac mem := cbn; tauto.
Ltac one :=
  match goal with
  | |- rel _ (lift _ _) _ _ => apply rel_lift
  | |- rel _ (sret _ _) _ _ => apply rel_ret
  | |- rel _ (put _ _ _) _ _ => apply rel_put
  | |- rel _ (get2 _ _ _) _ _ => apply rel_get2; mem
  | |- rel _ (get_par _ _) _ _ => apply rel_get_par; mem
  | |- rel _ (get_model _ _) _ _ => apply rel_get_model; mem
  | |- rel _ (get_flag _ _) _ _ => apply rel_get_flag; mem
  | |- rel _ (get_val _ _) _ _ => apply rel_get_val; mem
  | |- rel _ (get_prior _ _) _ _ => apply rel_get_prior; mem
  | |- rel _ (on_model _ _) _ _ => apply rel_on_model; mem
  end.
Ltac walk := repeat first [one | (eapply rel_bind; [one|intros ?; cbv beta])].

Definition ks_params : list string := ["tau0"; "mu0"; "obs_setup"; "random_seed"; "ode_solver"; "time_window"; "noise"; "drift"].
Lemma rel_setup_params params : rel [] (setup_params W params) (setup_params W params) ks_params.
Proof. unfold setup_params. walk. Qed.
(** the seed makes the constructor independent of the entropy *)
Definition det_seed (seed : pv (w_leaf W)) : Prop :=
  forall name noise drift h h', w_build W name noise drift seed h = w_build W name noise drift seed h'.
Lemma stochastic_det name noise drift seed h h' : det_seed seed ->
  stochastic_model W name noise drift seed h = stochastic_model W name noise drift seed h'.
Proof. intros H. unfold stochastic_model. destruct name; [|reflexivity]. rewrite (H _ _ _ h h'). reflexivity. Qed.
Lemma sbind_ext {A B} (m : S_ W A) (f f' : A -> S_ W B) d : (forall a d', m d = (Ok a, d') -> f a d' = f' a d') ->
  sbind W m f d = sbind W m f' d.
Proof. intros H. unfold sbind. destruct (m d) as [[a|e] d'] eqn:E; [apply H; reflexivity|reflexivity]. Qed.
Lemma setup_model_det params h h' (d : mdata W) seed : dget "random_seed" d = Some (SPar seed) -> det_seed seed ->
  setup_model W params h d = setup_model W params h' d.
Proof.
  intros Hs Hd. unfold setup_model.
  apply sbind_ext. intros noise d1 H1. apply get2_ok in H1. destruct H1 as [-> _].
  apply sbind_ext. intros drift d1 H1. apply get2_ok in H1. destruct H1 as [-> _].
  apply sbind_ext. intros sd d1 H1. apply get_par_ok in H1. destruct H1 as [-> H1]. rewrite Hs in H1. injection H1 as <-.
  apply sbind_ext. intros name d1 H1. apply lift_ok in H1. destruct H1 as [_ ->].
  rewrite (stochastic_det name noise drift seed h h' Hd). reflexivity.
Qed.
Lemma setup_det params data h h' seed (d : mdata W) : field params "Random-Seed" seed -> det_seed seed ->
  setup W params data h d = setup W params data h' d.
Proof.
  intros Hf Hd. unfold setup. apply sbind_ext. intros u d1 H1. apply setup_params_ok in H1.
  destruct H1 as (drift & noise & tw & ode & seed' & os & pr & mu & tau & _ & _ & _ & _ & F5 & _ & _ & _ & _ & ->).
  apply item_field in Hf, F5. rewrite Hf in F5. injection F5 as <-.
  match goal with |- sbind W (setup_model W params h) ?f ?d = _ => unfold sbind; rewrite (setup_model_det params h h' d seed) end;
    [reflexivity|look; reflexivity|exact Hd].
Qed.
(** *** the dictionary found by setup does not matter *)
Definition ks_model : list string := ["model"; "single_dim"; "model"] ++ ks_params.
Lemma rel_setup_model params h : rel ks_params (setup_model W params h) (setup_model W params h) ks_model.
Proof. unfold setup_model. walk. Qed.
Definition ks_obs : list string := ["obs_noise"; "obs_y"; "obs_t"; "model"] ++ ks_model.
Lemma rel_setup_obs : rel ks_model (setup_obs W DNone) (setup_obs W DNone) ks_obs.
Proof.
  unfold setup_obs. repeat (eapply rel_bind; [one|intros ?; cbv beta]).
  destruct a2 as [[t y] n]. walk.
Qed.
Lemma rel_setup_obs_data data : data <> DNone -> rel ks_model (setup_obs W data) (setup_obs W data) (["obs_y"; "obs_t"] ++ ks_model).
Proof. intros Hd. unfold setup_obs. destruct data; [congruence| |]; walk. Qed.
Lemma rel_setup_moments ks : incl ks_model ks -> rel ks (setup_moments W) (setup_moments W) ("s0" :: "m0" :: ks).
Proof.
  intros Hi. assert (In "single_dim" ks /\ In "model" ks /\ In "mu0" ks /\ In "tau0" ks) as (H1 & H2 & H3 & H4).
  { repeat split; apply Hi; cbn; tauto. }
  unfold setup_moments. apply rel_bind with ks; [apply rel_get_flag; exact H1|]. intros single.
  apply rel_bind with ("model" :: ks); [apply rel_on_model; exact H2|]. intros m0.
  apply rel_bind with ("m0" :: "model" :: ks); [apply rel_put|]. intros _.
  apply rel_bind with ("m0" :: "model" :: ks); [apply rel_get_model; mem|]. intros m.
  apply rel_bind with ("s0" :: "m0" :: "model" :: ks); [apply rel_put|]. intros _.
  assert (Hw : forall ks', incl ks ks' -> incl ["s0"; "m0"] ks' -> incl ("s0" :: "m0" :: ks) ks').
  { intros ks' I1 I2 k [<-|[<-|Hk]]; [apply I2; cbn; tauto|apply I2; cbn; tauto|apply I1, Hk]. }
  destruct single.
  - eapply rel_weaken; [apply rel_ret|]. apply Hw; intros k Hk; cbn in *; tauto.
  - eapply rel_weaken; [walk|]. apply Hw; intros k Hk; cbn in *; tauto.
Qed.
Lemma rel_setup params h : rel [] (setup W params DNone h) (setup W params DNone h) ("s0" :: "m0" :: ks_obs).
Proof.
  unfold setup. eapply rel_bind; [apply rel_setup_params|intros _]. eapply rel_bind; [apply rel_setup_model|intros _].
  eapply rel_bind; [apply rel_setup_obs|intros _]. apply rel_setup_moments. intros k Hk. cbn in *. tauto.
Qed.
Lemma rel_setup_data params data h : rel [] (setup W params data h) (setup W params data h) [].
Proof.
  unfold setup. eapply rel_bind; [apply rel_setup_params|intros _]. eapply rel_bind; [apply rel_setup_model|intros _].
  destruct data as [| |l].
  - eapply rel_bind; [apply rel_setup_obs|intros _]. eapply rel_weaken; [apply rel_setup_moments|]; intros k Hk; cbn in *; tauto.
  - eapply rel_bind; [apply rel_setup_obs_data; discriminate|intros _]. eapply rel_weaken; [apply rel_setup_moments|]; intros k Hk; cbn in *; tauto.
  - eapply rel_bind; [apply rel_setup_obs_data; discriminate|intros _]. eapply rel_weaken; [apply rel_setup_moments|]; intros k Hk; cbn in *; tauto.
Qed.
Lemma rel_run : rel ("s0" :: "m0" :: ks_obs) (run_core W) (run_core W) ("s0" :: "m0" :: ks_obs).
Proof. unfold run_core. walk. Qed.

(** ** storing results *)
Lemma dget_dupdate {V} (e d : dict V) k : dget k (dupdate d e) = match dget k (rev e) with Some v => Some v | None => dget k d end.
Proof.
  unfold dupdate. revert d. induction e as [|[j v] e IH]; intros d; cbn [fold_left rev]; [reflexivity|].
  rewrite IH. cbn [fst snd]. 
  assert (A : forall l : dict V, dget k (l ++ [(j, v)])%list = match dget k l with Some x => Some x | None => if String.eqb k j then Some v else None end).
  { induction l as [|[a b] l IHl]; cbn [app dget]; [reflexivity|]. destruct (String.eqb k a); [reflexivity|exact IHl]. }
  rewrite A, dget_dset. destruct (dget k (rev e)); [reflexivity|]. destruct (String.eqb k j); reflexivity.
Qed.
Definition all_of (r : run_result W) : dict (oval (w_num W)) := let '(a, b, fx, arg) := r in ([("at", a); ("bt", b); ("fx", fx)] ++ arg)%list.
Lemma store_all r out : store W r out = dupdate out (all_of r).
Proof. destruct r as [[[a b] fx] arg]. reflexivity. Qed.
Lemma store_grow r out k v : dget k (store W r []) = Some v -> dget k (store W r out) = Some v.
Proof. rewrite !store_all, !dget_dupdate. destruct (dget k (rev (all_of r))); [auto|discriminate]. Qed.
Lemma dict_ext {V} (d d' : dict V) : NoDup (keys d) -> keys d = keys d' -> (forall k, dget k d = dget k d') -> d = d'.
Proof.
  unfold keys. revert d'. induction d as [|[k v] d IH]; intros [|[k' v'] d'] Hn Hk Hg; try discriminate; [reflexivity|].
  cbn in Hk. injection Hk as <- Hk. inversion Hn as [|? ? Hni Hn']; subst. cbn in Hni.
  pose proof (Hg k) as Hv. cbn in Hv. rewrite String.eqb_refl in Hv. injection Hv as <-. f_equal. apply IH; [exact Hn'|exact Hk|].
  intros j. pose proof (Hg j) as Hj. cbn in Hj. destruct (String.eqb_spec j k) as [E|E]; [subst j|exact Hj].
  rewrite (proj2 (dget_none d k) Hni). symmetry. apply dget_none. unfold keys. rewrite <- Hk. exact Hni.
Qed.
Lemma dupdate_nodup {V} (e d : dict V) : NoDup (keys d) -> NoDup (keys (dupdate d e)).
Proof. unfold dupdate. revert d. induction e as [|[k v] e IH]; intros d H; cbn; [exact H|]. apply IH, dset_nodup, H. Qed.
Lemma dupdate_keys {V} (e d : dict V) : incl (keys e) (keys d) -> keys (dupdate d e) = keys d.
Proof.
  unfold dupdate. revert d. induction e as [|[k v] e IH]; intros d H; cbn [fold_left fst snd]; [reflexivity|].
  assert (Hk : keys (dset k v d) = keys d) by (apply dset_keys, H; cbn; auto).
  rewrite IH; [exact Hk|]. rewrite Hk. intros j Hj. apply H. cbn. auto.
Qed.
Lemma dupdate_in {V} (e d : dict V) : incl (keys e) (keys (dupdate d e)).
Proof.
  intros k Hk. destruct (in_dec string_dec k (keys (dupdate d e))) as [H|H]; [exact H|]. exfalso.
  apply dget_none in H. rewrite dget_dupdate in H. destruct (dget k (rev e)) eqn:E; [discriminate|].
  apply dget_none in E. apply E. unfold keys in *. rewrite map_rev. apply in_rev. rewrite rev_involutive. exact Hk.
Qed.
Lemma store_twice r out : NoDup (keys out) -> store W r (store W r out) = store W r out.
Proof.
  intros Hn. rewrite !store_all. symmetry. apply dict_ext.
  - apply dupdate_nodup, Hn.
  - symmetry. apply dupdate_keys, dupdate_in.
  - intros k. rewrite !dget_dupdate. destruct (dget k (rev (all_of r))); reflexivity.
Qed.
Lemma after_nodup cs (s : Sim W) : NoDup (keys (s_out s)) -> NoDup (keys (s_out (after cs s))).
Proof.
  revert s. induction cs as [|[params data h|] cs IH]; intros s H; cbn [after]; [exact H| |]; apply IH.
  - unfold sim_setup. destruct (setup W params data h (s_data s)) as [r d]. exact H.
  - unfold sim_run. destruct (fst (run_core W (s_data s))); [|exact H]. cbn [snd s_out]. rewrite store_all. apply dupdate_nodup, H.
Qed.
Lemma setup_out params data h (s : Sim W) : s_out (snd (sim_setup W params data h s)) = s_out s.
Proof. unfold sim_setup. destruct (setup W params data h (s_data s)) as [r d]. reflexivity. Qed.
End Rel.

(** ** seeds of the two worlds *)
Lemma base_det {K} (G : Rng K) X z h h' : z <> 0%Z -> base_init (X:=X) G (SeedInt z) h = base_init (X:=X) G (SeedInt z) h'.
Proof. intros Hz. unfold base_init, make_rng. cbn. destruct (Z.eqb_spec z 0); [congruence|]. reflexivity. Qed.
Lemma det_seed1 K (G : Rng K) nln npi spline show z : z <> 0%Z -> det_seed (world1 K G nln npi spline show) (PLeaf (LInt z)).
Proof.
  intros Hz name noise drift h h'. cbn [w_build world1]. unfold build1, init1d, ou_init, dw_init. cbn [as_seed].
  cbn [bind]. rewrite (base_det G K z h h' Hz). reflexivity.
Qed.
Lemma det_seedn K (G : Rng K) eigvals solve nln npi spline show z : z <> 0%Z ->
  det_seed (worldn K G eigvals solve nln npi spline show) (PLeaf (NInt z)).
Proof.
  intros Hz name noise drift h h'. cbn [w_build worldn]. unfold buildn. cbn [nas_seed]. destruct (nas_arr K noise) as [t sg].
  assert (E : forall d theta, l63_init G eigvals t sg theta (SeedInt z) h = l63_init G eigvals t sg theta (SeedInt z) h' /\
    l96_init G eigvals t sg theta (SeedInt z) d h = l96_init G eigvals t sg theta (SeedInt z) d h').
  { intros d theta. unfold l63_init, l96_init. rewrite (base_det G (vec K) z h h' Hz). auto. }
  assert (E1 : forall theta, l63_init G eigvals t sg theta (SeedInt z) h = l63_init G eigvals t sg theta (SeedInt z) h') by (intros; apply (E 0%nat)).
  assert (E2 : forall theta, l96_init G eigvals t sg theta (SeedInt z) default_dim h = l96_init G eigvals t sg theta (SeedInt z) default_dim h') by (intros; apply E).
  destruct (nas_theta K L63 drift) as [t1|], (nas_theta K L96 drift) as [t2|]; cbn [bind]; rewrite ?E1, ?E2; reflexivity.
Qed.
(** ** without a seed: a generator that shows its state *)
Section Plain.
Local Open Scope R_scope.
Definition plain_rng : Rng RNum := mkRng RNum R (fun g => (g, g)) (fun g => (0, g)) (fun _ => 0).
Notation G := plain_rng.
Context (spline : list R -> list R -> R -> R) (show : pv (leaf RNum) -> string).
Notation W := (world1 RNum G ln PI spline show).
Lemma plain_normals n (g : R) : snd (normals G n g) = g.
Proof. induction n as [|n IH]; cbn; [reflexivity|]. destruct (normals G n g) as [l g2] eqn:E. cbn in *. exact IH. Qed.
Lemma build1_state name noise drift seed (h : R) k p : In seed [PLeaf LNull; PLeaf (LInt 0%Z)] ->
  build1 RNum G name noise drift seed h = Some (Ok (k, p)) ->
  b_rng (p_base p) = h /\ exists th, as_num RNum drift = Ok th /\ p_theta p = th /\ exists sg, as_num RNum noise = Ok sg /\ p_sigma p = sg /\
  (k = DW -> name = "DW") /\ (k = OU -> name = "OU").
Proof.
  intros Hs. unfold build1.
  assert (Hb : exists s, as_seed RNum seed = Ok s /\ base_init (X:=RNum) G s h = Ok (mkBase (G:=G) None None h)).
  { destruct Hs as [<-|[<-|[]]]; eexists; (split; [reflexivity|]); reflexivity. }
  destruct Hb as (s & -> & Hb). cbn [bind]. unfold init1d, ou_init, dw_init. rewrite Hb. cbn [bind].
  destruct (as_num RNum noise) as [sg|] eqn:E1; cbn [bind];
    [|destruct (String.eqb name "DW"), (String.eqb name "OU"); discriminate].
  destruct (as_num RNum drift) as [th|] eqn:E2; cbn [bind];
    [|destruct (nle _ _), (String.eqb name "DW"), (String.eqb name "OU"); discriminate].
  destruct (String.eqb_spec name "DW") as [->|]; [|destruct (String.eqb_spec name "OU") as [->|]; [|discriminate]].
  - destruct (nle _ _); [discriminate|]. intros H. injection H as <- <-. cbn. split; [reflexivity|]. exists th. repeat split. exists sg. repeat split; discriminate.
  - destruct (nle _ _); [discriminate|]. destruct (nle _ _); [discriminate|]. intros H. injection H as <- <-. cbn.
    split; [reflexivity|]. exists th. repeat split. exists sg. repeat split; discriminate.
Qed.
Lemma em_head {Y E} (f : Y -> E -> Y) x l : em_path f x l = x :: tl (em_path f x l).
Proof. destruct l; reflexivity. Qed.
(** the start of the path *)
Definition start (k : kind1) (theta sigma dt g : R) : R :=
  match k with OU => 0 | DW => - theta + sqrt (1 / 2 * sigma * dt) * g end.
Lemma traj1_state x0 xf xd k p m : traj1 RNum G x0 xf xd (k, p) = (Ok tt, m) ->
  exists p' dt l, m = (k, p') /\ as_num RNum xd = Ok dt /\ b_rng (p_base p') = b_rng (p_base p) /\
    b_xt (p_base p') = Some ((start k (p_theta p) (p_sigma p) dt (b_rng (p_base p)) : RNum) :: l).
Proof.
  unfold traj1. destruct (as_num RNum x0) as [a|]; [|discriminate]. destruct (as_num RNum xf) as [b|]; [|discriminate].
  destruct (as_num RNum xd) as [dt|]; [|discriminate]. cbn [bind fst snd]. destruct k.
  - unfold ou_trajectory. destruct (arange _ _ _) as [tk|]; [|discriminate]. destruct (Nat.eqb _ _); [discriminate|].
    destruct (normals G _ _) as [z g] eqn:E. intros H. injection H as <-. do 3 eexists. split; [reflexivity|]. split; [reflexivity|].
    split; [pose proof (plain_normals (List.length tk) (b_rng (p_base p))) as Q; rewrite E in Q; exact Q|]. cbn [with_base p_base b_xt].
    exact (f_equal Some (em_head _ _ _)).
  - unfold dw_trajectory. destruct (arange _ _ _) as [tk|]; [|discriminate]. cbn [r_uniform plain_rng]. destruct (Nat.eqb _ _); [discriminate|].
    cbn [r_normal plain_rng]. destruct (normals G _ _) as [z g] eqn:E. intros H. injection H as <-. do 3 eexists. split; [reflexivity|]. split; [reflexivity|].
    split; [pose proof (plain_normals (List.length tk) (b_rng (p_base p))) as Q; rewrite E in Q; exact Q|]. cbn [with_base p_base b_xt].
    rnum. destruct (Rltb_spec (1 / 2) 0); [lra|]. exact (f_equal Some (em_head _ _ _)).
Qed.
Lemma collect1_state n r o m t y nz m' : collect_1 RNum G n r o m = (Ok (t, y, nz), m') ->
  b_rng (p_base (snd m')) = b_rng (p_base (snd m)) /\ b_xt (p_base (snd m')) = b_xt (p_base (snd m)).
Proof.
  unfold collect_1. destruct (as_num RNum r) as [v|]; [|discriminate]. cbn [bind].
  assert (X : exists h : bool, match o with
    | PLeaf (LBool true) => collect_true RNum G (as_dens RNum n) v (p_base (snd m))
    | _ => let '(res, b) := collect1 G (as_dens RNum n) (A0 v) (op_mask1 RNum o) (p_base (snd m)) in
           (let* (t, y, nz) := res in Ok (VIdx t, VVals y, VNoise nz), b)
    end = if h then collect_true RNum G (as_dens RNum n) v (p_base (snd m)) else
          let '(res, b) := collect1 G (as_dens RNum n) (A0 v) (op_mask1 RNum o) (p_base (snd m)) in
           (let* (t, y, nz) := res in Ok (VIdx t, VVals y, VNoise nz), b)).
  { destruct o as [[| | | |[]| | |]|]; [exists false|exists false|exists false|exists false|exists true|exists false..]; reflexivity. }
  destruct X as (h & ->). destruct h.
  { destruct (collect_true RNum G (as_dens RNum n) v (p_base (snd m))) as [res b] eqn:E. intros H.
    assert (Hm : m' = (fst m, with_base G b (snd m))) by (injection H; auto). subst m'. cbn [snd with_base p_base]. clear H.
    unfold collect_true in E. destruct (b_tk (p_base (snd m))), (b_xt (p_base (snd m))) eqn:Ex; try (injection E as _ <-; rewrite ?Ex; auto; fail).
    match type of E with match ?x with Ok _ => _ | Err _ => _ end = _ => destruct x as [[[dm ot] oy]|] end.
    - destruct (normals G dm (b_rng (p_base (snd m)))) as [zs g] eqn:En. injection E as _ <-. cbn [set_rng b_rng b_xt].
      split; [|assumption || reflexivity]. pose proof (plain_normals dm (b_rng (p_base (snd m)))) as Q. rewrite En in Q. exact Q.
    - injection E as _ <-. auto. }
  destruct (collect1 G (as_dens RNum n) (A0 v) (op_mask1 RNum o) (p_base (snd m))) as [res b] eqn:E. intros H.
  assert (Hm : m' = (fst m, with_base G b (snd m))) by (injection H; auto). subst m'. cbn [snd with_base p_base]. clear H.
  unfold collect1 in E. destruct (b_tk (p_base (snd m))), (b_xt (p_base (snd m))) eqn:Ex; try (injection E as _ <-; rewrite ?Ex; auto; fail).
  match type of E with match ?x with Ok _ => _ | Err _ => _ end = _ => destruct x as [[[dm ot] oy]|] end.
  - destruct (normals G dm (b_rng (p_base (snd m)))) as [zs g] eqn:En. injection E as _ <-. cbn [set_rng b_rng b_xt].
    split; [|assumption || reflexivity]. pose proof (plain_normals dm (b_rng (p_base (snd m)))) as Q. rewrite En in Q. exact Q.
  - injection E as _ <-. auto.
Qed.
(** the initial mean after a setup without a seed *)
Definition described (params : pv (leaf RNum)) (k : kind1) (theta sigma dt : R) : Prop :=
  exists name dr xth nz xs tw xd, field params "Model" (PLeaf name) /\ field params "Drift" dr /\ field dr "theta" xth /\
    field params "Noise" nz /\ field nz "sys" xs /\ field params "Time-window" tw /\ field tw "dt" xd /\
    as_num RNum xth = Ok theta /\ as_num RNum xs = Ok sigma /\ as_num RNum xd = Ok dt /\
    upper (as_text RNum show (PLeaf name)) = match k with OU => "OU" | DW => "DW" end.
Lemma field_fun {L} (x : pv L) k v v' : field x k v -> field x k v' -> v = v'.
Proof. rewrite <- !item_field. congruence. Qed.
Lemma described_fun params k theta sigma dt k' theta' sigma' dt' : described params k theta sigma dt -> described params k' theta' sigma' dt' ->
  k = k' /\ theta = theta' /\ sigma = sigma' /\ dt = dt'.
Proof.
  intros (name & dr & xth & nz & xs & tw & xd & A1 & A2 & A3 & A4 & A5 & A6 & A7 & A8 & A9 & A10 & A11)
    (name' & dr' & xth' & nz' & xs' & tw' & xd' & B1 & B2 & B3 & B4 & B5 & B6 & B7 & B8 & B9 & B10 & B11).
  assert (PLeaf name = PLeaf name') by (eapply field_fun; eassumption). injection H as <-.
  assert (dr = dr') by (eapply field_fun; eassumption). assert (nz = nz') by (eapply field_fun; eassumption).
  assert (tw = tw') by (eapply field_fun; eassumption). subst dr' nz' tw'.
  assert (xth = xth') by (eapply field_fun; eassumption). assert (xs = xs') by (eapply field_fun; eassumption).
  assert (xd = xd') by (eapply field_fun; eassumption). subst xth' xs' xd'.
  repeat split; try congruence. destruct k, k'; try reflexivity; congruence.
Qed.
Lemma optimise1_m0 m (m0 s0 : val1 RNum) fwd bwd l pr y t out o : optimise1 RNum G ln PI spline m m0 s0 fwd bwd l pr y t = Ok out ->
  exists v, m0 = VNum v /\ dget "m0" (store W out o) = Some (OScal v).
Proof.
  unfold optimise1. destruct m0 as [|?|?|v|?]; try discriminate. destruct s0 as [|?|?|v2|?]; try discriminate.
  destruct y; try discriminate; destruct t; try discriminate.
  2:{ repeat match goal with |- bind ?r _ = _ -> _ => destruct r; cbn [bind]; [|discriminate] end. discriminate. }
  repeat match goal with |- bind ?r _ = _ -> _ => destruct r; cbn [bind]; [|discriminate] end.
  destruct (r_arg a3); [|discriminate]. intros H. injection H as <-. exists v. split; [reflexivity|].
  unfold store, arg_out1, dupdate. cbn [fold_left fst snd]. look. reflexivity.
Qed.
Lemma unseeded_m0 params (h : R) (s : Sim W) s1 s2 seed :
  field params "Random-Seed" seed -> In seed [PLeaf LNull; PLeaf (LInt 0%Z)] ->
  sim_setup W params DNone h s = (Ok tt, s1) -> sim_run W s1 = (Ok tt, s2) ->
  exists k theta sigma dt, described params k theta sigma dt /\
    has (s_out s2) "m0" (OScal (start k theta sigma dt h + 1 / 10 * h : RNum)).
Proof.
  intros Hf Hs H Hr. unfold sim_setup in H. destruct (setup W params DNone h (s_data s)) as [r d] eqn:E. injection H as -> <-.
  destruct (setup_generated W params h _ d E) as (i & m1 & m2 & F1 & F2 & F3).
  unfold sim_run in Hr. cbn [s_data s_name s_out] in Hr. rewrite (run_finds W d i F1) in Hr.
  destruct (run_on i) as [out|] eqn:Eo; [|discriminate]. injection Hr as <-. cbn [s_out].
  destruct F2 as (_ & _ & (name & nz & sys & dr & theta & sd & tw & t0 & tf & m & C1 & C2 & C3 & C4 & C5 & C6 & C7 & C8 & C9 & C10 & C11 & C12 & C13) & C14 & C15 & _).
  destruct F3 as (os & nz' & density & noise & D1 & D2 & D3 & D4 & D5 & D6).
  assert (sd = seed) by (eapply field_fun; eassumption). subst sd.
  destruct m as [k p]. cbn [w_build world1 w_str] in C11.
  destruct (build1_state _ _ _ _ _ _ _ Hs C11) as (B1 & th & B2 & B3 & sg & B4 & B5 & B6 & B7).
  destruct (traj1_state _ _ _ _ _ _ C13) as (p1 & dt & l & -> & T1 & T2 & T3).
  destruct (collect1_state _ _ _ _ _ _ _ _ D6) as [E1 E2]. cbn [snd] in E1, E2.
  exists k, th, sg, dt. split.
  - exists name, dr, theta, nz, sys, tw, (i_dt i). repeat (split; [assumption|]). destruct k; auto.
  - unfold run_on in Eo. repeat match type of Eo with bind ?r _ = _ => destruct r; cbn [bind] in Eo; [|discriminate] end.
    destruct (optimise1_m0 _ _ _ _ _ _ _ _ _ _ (s_out s) Eo) as (v & V1 & V2). apply dget_has. rewrite V2. do 2 f_equal.
    cbn [w_m0 world1] in C14. unfold m0_1, get_path in C14. rewrite E2, T3 in C14. cbn [r_normal plain_rng] in C14.
    rewrite V1 in C14. injection C14 as C14 _. rewrite <- C14. rnum.
    assert (Q : b_rng (p_base (snd m2)) = h) by (etransitivity; [exact E1|]; etransitivity; [exact T2|exact B1]).
    f_equal; [|f_equal; exact Q]. f_equal; assumption.
Qed.
End Plain.
