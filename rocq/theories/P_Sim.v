(** * Proofs about Simulation: dictionaries, setup and run *)
From Coq Require Import List String ZArith Bool Lia.
From Verif Require Import Num M_Sim Spec_Sim.
Import ListNotations.
Local Open Scope string_scope.

(** ** dictionaries *)
Section Dict.
Context {V : Type}.
Implicit Types (d : dict V) (k : string) (v : V).
Lemma dget_has d k v : dget k d = Some v <-> has d k v.
Proof.
  induction d as [|[k' v'] d IH]; cbn [dget].
  - split; [discriminate|]. intros (l1 & l2 & H & _). destruct l1; discriminate.
  - destruct (String.eqb_spec k k') as [<-|Hk].
    + split.
      * intros H; inversion H; subst. exists [], d. cbn. auto.
      * intros (l1 & l2 & H & Hn). destruct l1 as [|[k1 v1] l1]; cbn in H; inversion H; subst; [reflexivity|].
        exfalso. apply Hn. cbn. auto.
    + rewrite IH. split.
      * intros (l1 & l2 & -> & Hn). exists ((k', v') :: l1), l2. split; [reflexivity|]. cbn. intros [E|E]; congruence || auto.
      * intros (l1 & l2 & H & Hn). destruct l1 as [|[k1 v1] l1]; cbn in H; inversion H; subst; [congruence|].
        exists l1, l2. split; [reflexivity|]. intros Hi. apply Hn. cbn. auto.
Qed.
Lemma dget_none d k : dget k d = None <-> ~ In k (keys d).
Proof.
  unfold keys. induction d as [|[k' v'] d IH]; cbn [dget map fst In]; [tauto|].
  destruct (String.eqb_spec k k') as [<-|Hk]; [split; [discriminate|tauto]|].
  rewrite IH. split; [intros H [E|E]; congruence || auto|tauto].
Qed.
Lemma dget_dset d k k' v : dget k (dset k' v d) = if String.eqb k k' then Some v else dget k d.
Proof.
  induction d as [|[k1 v1] d IH]; cbn [dset dget]; [reflexivity|].
  destruct (String.eqb_spec k' k1) as [->|H1]; cbn [dget].
  - destruct (String.eqb k k1); reflexivity.
  - destruct (String.eqb_spec k k1) as [->|H2]; [|exact IH].
    destruct (String.eqb_spec k1 k'); congruence.
Qed.
Lemma has_fun d k v v' : has d k v -> has d k v' -> v = v'.
Proof. rewrite <- !dget_has. congruence. Qed.
Lemma has_in d k v : has d k v -> In k (keys d).
Proof. intros (l1 & l2 & -> & _). unfold keys. rewrite map_app, in_app_iff. cbn. auto. Qed.
Lemma dset_keys d k v : In k (keys d) -> keys (dset k v d) = keys d.
Proof.
  unfold keys. induction d as [|[k1 v1] d IH]; cbn; [tauto|]. destruct (String.eqb_spec k k1) as [->|H]; [reflexivity|].
  intros [E|E]; [congruence|]. cbn. f_equal. auto.
Qed.
Lemma dset_new d k v : ~ In k (keys d) -> dset k v d = (d ++ [(k, v)])%list.
Proof.
  unfold keys. induction d as [|[k1 v1] d IH]; cbn; [reflexivity|]. destruct (String.eqb_spec k k1) as [->|H]; [tauto|].
  intros E. f_equal. apply IH. tauto.
Qed.
Lemma dset_nodup d k v : NoDup (keys d) -> NoDup (keys (dset k v d)).
Proof.
  intros H. destruct (in_dec string_dec k (keys d)) as [Hi|Hi].
  - rewrite dset_keys; assumption.
  - rewrite dset_new by exact Hi. unfold keys in *. rewrite map_app. cbn.
    apply (NoDup_Add (a:=k) (l:=map fst d)); [|split; assumption].
    rewrite <- (app_nil_r (map fst d)) at 1. apply Add_app.
Qed.
Lemma ditem_ok d k v : ditem d k = Ok v <-> has d k v.
Proof. unfold ditem. rewrite <- dget_has. destruct (dget k d); split; congruence. Qed.
Lemma ditem_err d k e : ditem d k = Err e -> e = KeyError /\ ~ In k (keys d).
Proof. unfold ditem. rewrite <- dget_none. destruct (dget k d); [discriminate|]. intros H; inversion H. auto. Qed.
End Dict.
Lemma item_field {L} (x : pv L) k v : item x k = Ok v <-> field x k v.
Proof.
  unfold item, field. destruct x as [l|d]; [split; [discriminate|intros (d & H & _); discriminate]|].
  rewrite ditem_ok. split; [eauto|]. intros (d' & H & Hh). inversion H; subst. exact Hh.
Qed.

(** ** setup *)
Section Setup.
Context (W : World).
Lemma sbind_ok {A B} (m : S_ W A) (k : A -> S_ W B) d b d2 : sbind W m k d = (Ok b, d2) ->
  exists a d1, m d = (Ok a, d1) /\ k a d1 = (Ok b, d2).
Proof. unfold sbind. destruct (m d) as [[a|e] d1]; [eauto|discriminate]. Qed.
Lemma lift_ok {A} (r : result A) d a d' : lift W r d = (Ok a, d') -> r = Ok a /\ d' = d.
Proof. unfold lift. intros H; inversion H; auto. Qed.
Lemma put_ok k v d a d' : put W k v d = (Ok a, d') -> d' = dset k v d.
Proof. unfold put. intros H; inversion H; auto. Qed.
Lemma get2_ok k j d x d' : get2 W k j d = (Ok x, d') -> d' = d /\ exists p, dget k d = Some (SPar p) /\ item p j = Ok x.
Proof.
  unfold get2. intros H. injection H as H1 <-. split; [reflexivity|]. unfold ditem in H1.
  destruct (dget k d) as [[p| | |]|]; cbn [bind] in H1; try discriminate. eauto.
Qed.
Lemma get_par_ok k d x d' : get_par W k d = (Ok x, d') -> d' = d /\ dget k d = Some (SPar x).
Proof.
  unfold get_par. intros H. injection H as H1 <-. split; [reflexivity|]. unfold ditem in H1.
  destruct (dget k d) as [[p| | |]|]; cbn [bind] in H1; inversion H1. reflexivity.
Qed.
Lemma get_model_ok k d x d' : get_model W k d = (Ok x, d') -> d' = d /\ dget k d = Some (SModel x).
Proof.
  unfold get_model. intros H. injection H as H1 <-. split; [reflexivity|]. unfold ditem in H1.
  destruct (dget k d) as [[| |p|]|]; cbn [bind] in H1; inversion H1. reflexivity.
Qed.
Lemma get_flag_ok k d x d' : get_flag W k d = (Ok x, d') -> d' = d /\ dget k d = Some (SFlag x).
Proof.
  unfold get_flag. intros H. injection H as H1 <-. split; [reflexivity|]. unfold ditem in H1.
  destruct (dget k d) as [[| | |p]|]; cbn [bind] in H1; inversion H1. reflexivity.
Qed.
Lemma get_val_ok k d x d' : get_val W k d = (Ok x, d') -> d' = d /\ dget k d = Some (SVal x).
Proof.
  unfold get_val. intros H. injection H as H1 <-. split; [reflexivity|]. unfold ditem in H1.
  destruct (dget k d) as [[|p| |]|]; cbn [bind] in H1; inversion H1. reflexivity.
Qed.
Lemma on_model_ok {A} (f : w_model W -> result A * w_model W) d a d' : on_model W f d = (Ok a, d') ->
  exists m m', dget "model" d = Some (SModel m) /\ f m = (Ok a, m') /\ d' = dset "model" (SModel m') d.
Proof.
  unfold on_model. intros H. apply sbind_ok in H. destruct H as (m & d1 & H1 & H). apply get_model_ok in H1.
  destruct H1 as [-> H1]. destruct (f m) as [r m'] eqn:Ef. apply sbind_ok in H. destruct H as (u & d2 & H2 & H).
  apply put_ok in H2. apply lift_ok in H. destruct H as [-> ->]. subst. eauto.
Qed.
End Setup.
Ltac step H :=
  match type of H with
  | sbind _ _ _ _ = (Ok _, _) =>
      let a := fresh "a" in let d := fresh "d" in let H1 := fresh "H" in
      apply sbind_ok in H; destruct H as (a & d & H1 & H); step H1; cbv beta iota in H
  | lift _ _ _ = (Ok _, _) => apply lift_ok in H; destruct H as [H ?]; subst
  | put _ _ _ _ = (Ok _, _) => apply put_ok in H; subst
  | get2 _ _ _ _ = (Ok _, _) => apply get2_ok in H; destruct H as [? (? & ? & H)]; subst
  | get_par _ _ _ = (Ok _, _) => apply get_par_ok in H; destruct H as [? H]; subst
  | get_model _ _ _ = (Ok _, _) => apply get_model_ok in H; destruct H as [? H]; subst
  | get_flag _ _ _ = (Ok _, _) => apply get_flag_ok in H; destruct H as [? H]; subst
  | on_model _ _ _ = (Ok _, _) => apply on_model_ok in H; destruct H as (? & ? & ? & H & ?); subst
  | _ => idtac
  end.
Ltac steps H := repeat (progress step H).
Ltac look := repeat (rewrite dget_dset; cbn [String.eqb Ascii.eqb Bool.eqb]).
Ltac look_in H := repeat (rewrite dget_dset in H; cbn [String.eqb Ascii.eqb Bool.eqb] in H).
Ltac norm :=
  repeat match goal with
  | A : dget _ (dset _ _ _) = _ |- _ => look_in A
  | A : Some ?x = Some ?x |- _ => clear A
  | A : Some (SPar _) = Some (SPar _) |- _ => injection A as <-
  | A : Some (SModel _) = Some (SModel _) |- _ => injection A as <-
  | A : Some (SFlag _) = Some (SFlag _) |- _ => injection A as <-
  | A : dget ?k ?d = Some (SPar ?x), B : dget ?k ?d = Some (SPar ?y) |- _ => rewrite A in B; injection B as <-
  end.

Section Phases.
Context (W : World).
Lemma setup_params_ok params (d : mdata W) u d' : setup_params W params d = (Ok u, d') ->
  exists drift noise tw ode seed os pr mu tau,
    field params "Drift" drift /\ field params "Noise" noise /\ field params "Time-window" tw /\
    field params "Ode-method" ode /\ field params "Random-Seed" seed /\ field params "Observations" os /\
    field params "Prior" pr /\ field pr "mu0" mu /\ field pr "tau0" tau /\
    d' = dset "tau0" (SPar tau) (dset "mu0" (SPar mu) (dset "obs_setup" (SPar os) (dset "random_seed" (SPar seed)
         (dset "ode_solver" (SPar ode) (dset "time_window" (SPar tw) (dset "noise" (SPar noise) (dset "drift" (SPar drift) d))))))).
Proof.
  unfold setup_params. intros H. steps H.
  rewrite !item_field in *.
  repeat match goal with
  | A : field ?p ?k ?x, B : field ?p ?k ?y |- _ =>
      assert_fails (constr_eq x y); rewrite <- item_field in A, B; rewrite A in B; injection B as <-; rewrite item_field in A
  end.
  eauto 20.
Qed.
Lemma setup_model_ok params h (d : mdata W) u d' : setup_model W params h d = (Ok u, d') ->
  exists nz sys dr theta seed name tw t0 tf dt m m2,
    dget "noise" d = Some (SPar nz) /\ field nz "sys" sys /\ dget "drift" d = Some (SPar dr) /\ field dr "theta" theta /\
    dget "random_seed" d = Some (SPar seed) /\ field params "Model" name /\
    stochastic_model W name sys theta seed h = Ok m /\
    dget "time_window" d = Some (SPar tw) /\ field tw "t0" t0 /\ field tw "tf" tf /\ field tw "dt" dt /\
    w_traj W t0 tf dt m = (Ok u, m2) /\
    d' = dset "model" (SModel m2) (dset "single_dim" (SFlag (w_single W m)) (dset "model" (SModel m) d)).
Proof.
  unfold setup_model. intros H. steps H. rewrite !item_field in *.
  repeat match goal with
  | A : dget _ (dset _ _ _) = _ |- _ => look_in A
  | A : Some _ = Some _ |- _ => injection A as <-
  | A : dget ?k ?d = Some (SPar ?x), B : dget ?k ?d = Some (SPar ?y) |- _ => rewrite A in B; injection B as <-
  end.
  do 12 eexists. eauto 20.
Qed.
Lemma setup_obs_none (d : mdata W) u d' : setup_obs W DNone d = (Ok u, d') ->
  exists os density nz noise op m m' t y n,
    dget "obs_setup" d = Some (SPar os) /\ field os "density" density /\ field os "operator" op /\
    dget "noise" d = Some (SPar nz) /\ field nz "obs" noise /\
    dget "model" d = Some (SModel m) /\ w_collect W density noise op m = (Ok (t, y, n), m') /\
    d' = dset "obs_noise" (SVal n) (dset "obs_y" (SVal y) (dset "obs_t" (SVal t) (dset "model" (SModel m') d))).
Proof.
  unfold setup_obs. intros H. steps H. destruct a2 as [[t y] n]. steps H. rewrite !item_field in *.
  repeat match goal with
  | A : dget ?k ?d = Some (SPar ?x), B : dget ?k ?d = Some (SPar ?y) |- _ => rewrite A in B; injection B as <-
  end.
  do 10 eexists. eauto 20.
Qed.
Lemma setup_obs_data data (d : mdata W) u d' : data <> DNone -> setup_obs W data d = (Ok u, d') ->
  exists t y l, data = DSeq (t :: y :: l) /\ d' = dset "obs_y" (SVal y) (dset "obs_t" (SVal t) d).
Proof.
  intros Hd H. unfold setup_obs in H. destruct data as [| |l]; [congruence| |].
  - steps H. discriminate.
  - steps H. unfold data_item in *. destruct l as [|t [|y l]]; cbn [nth_error] in *; try discriminate.
    inversion H0; inversion H1; subst. eauto.
Qed.
Lemma setup_moments_ok (d : mdata W) u d' : setup_moments W d = (Ok u, d') ->
  exists single m m' m0,
    dget "single_dim" d = Some (SFlag single) /\ dget "model" d = Some (SModel m) /\ w_m0 W m = (Ok m0, m') /\
    let d1 := dset "s0" (SVal (w_s0 W m')) (dset "m0" (SVal m0) (dset "model" (SModel m') d)) in
    if single then d' = d1
    else exists mu tau a b, dget "mu0" d = Some (SPar mu) /\ dget "tau0" d = Some (SPar tau) /\
         w_mu0 W mu m' = Ok a /\ w_tau0 W tau m' = Ok b /\ d' = dset "tau0" (SVal b) (dset "mu0" (SVal a) d1).
Proof.
  unfold setup_moments. intros H. apply sbind_ok in H. destruct H as (single & d1 & H1 & H). steps H1. steps H.
  norm. exists single. do 3 eexists. split; [exact H1|]. split; [eassumption|]. split; [eassumption|].
  destruct single; cbn zeta.
  - injection H as _ <-. reflexivity.
  - steps H. norm. eauto 10.
Qed.
End Phases.

(** ** setup as a whole, and run *)
Section Whole.
Context (W : World).
Ltac giv :=
  repeat match goal with a : unit |- _ => destruct a end;
  unfold given; cbn [i_dt i_method i_single i_y i_t i_noise i_op i_mu0 i_tau0 i_model i_m0 i_s0];
  split; [assumption|]; split; [eexists; split; eassumption|];
  split; [do 10 eexists; repeat (split; [first [eassumption | reflexivity | symmetry; eassumption]|]); eassumption|];
  split; [eassumption|]; split; [reflexivity|]; do 3 eexists; repeat (split; [eassumption|]).
Ltac has_look := apply dget_has; look; try reflexivity.
Lemma setup_generated params h (d0 : mdata W) d : setup W params DNone h d0 = (Ok tt, d) ->
  exists i m1 m2, finds d i /\ given params h i m1 m2 /\ collected params i m1 m2.
Proof.
  unfold setup. intros H. step H. step H. step H.
  apply setup_params_ok in H0. destruct H0 as (drift & noise & tw & ode & seed & os & pr & mu & tau & Fd & Fn & Ft & Fo & Fs & Fos & Fp & Fm & Fta & E0).
  apply setup_model_ok in H1. destruct H1 as (nz & sys & dr & theta & seed' & name & tw' & t0 & tf & dt & m & m2 & G1 & G2 & G3 & G4 & G5 & G6 & G7 & G8 & G9 & G10 & G11 & G12 & E1).
  apply setup_obs_none in H2. destruct H2 as (os' & density & nz' & noise' & op & m3 & m4 & t & y & n & O1 & O2 & O3 & O4 & O5 & O6 & O7 & E2).
  apply setup_moments_ok in H. destruct H as (single & m5 & m6 & m0 & M1 & M2 & M3 & E3).
  subst d1. subst d2. subst d3. norm. cbv zeta in E3.
  assert (Hn : exists l, name = PLeaf l /\ w_build W (upper (w_str W (PLeaf l))) sys theta seed h = Some (Ok m)).
  { unfold stochastic_model in G7. destruct name as [l|dd]; [|discriminate]. exists l. split; [reflexivity|].
    destruct (w_build W (upper (w_str W (PLeaf l))) sys theta seed h) as [[mm|[]]|]; congruence. }
  destruct Hn as (l & -> & Hb).
  exists (mkInputs dt ode (w_single W m) y t n op
            (if w_single W m then inl mu else match w_mu0 W mu m6 with Ok a => inr a | Err _ => inl mu end)
            (if w_single W m then inl tau else match w_tau0 W tau m6 with Ok a => inr a | Err _ => inl tau end)
            m6 m0 (w_s0 W m6)). do 2 eexists.
  destruct (w_single W m) eqn:Es.
  - subst d. split; [|split].
    + unfold finds; cbn. repeat split; try (has_look; fail); eexists; (split; [has_look|assumption]).
    + giv. eauto 10.
    + unfold collected; cbn. do 4 eexists. eauto 10.
  - destruct E3 as (mu' & tau' & a4 & b4 & K1 & K2 & K3 & K4 & ->). norm. rewrite K3, K4. split; [|split].
    + unfold finds; cbn. repeat split; try (has_look; fail); eexists; (split; [has_look|assumption]).
    + giv. eauto 10.
    + unfold collected; cbn. do 4 eexists. eauto 10.
Qed.
Lemma setup_user params data h (d0 : mdata W) d : data <> DNone -> setup W params data h d0 = (Ok tt, d) ->
  exists t y l, data = DSeq (t :: y :: l) /\ has d "obs_t" (SVal t) /\ has d "obs_y" (SVal y) /\
    (exists tw dt mtd single, field params "Time-window" tw /\ has d "time_window" (SPar tw) /\ field tw "dt" dt /\
       field params "Ode-method" mtd /\ has d "ode_solver" (SPar mtd) /\ has d "single_dim" (SFlag single)) /\
    dget "obs_noise" d = dget "obs_noise" d0 /\
    forall n op, has d0 "obs_noise" (SVal n) -> (exists os, field params "Observations" os /\ field os "operator" op) ->
      exists i m1, finds d i /\ given params h i m1 m1 /\ i_t i = t /\ i_y i = y /\ i_noise i = n /\ i_op i = op.
Proof.
  intros Hd. unfold setup. intros H. step H. step H. step H.
  apply setup_params_ok in H0. destruct H0 as (drift & noise & tw & ode & seed & os & pr & mu & tau & Fd & Fn & Ft & Fo & Fs & Fos & Fp & Fm & Fta & E0).
  apply setup_model_ok in H1. destruct H1 as (nz & sys & dr & theta & seed' & name & tw' & t0 & tf & dt & m & m2 & G1 & G2 & G3 & G4 & G5 & G6 & G7 & G8 & G9 & G10 & G11 & G12 & E1).
  apply (setup_obs_data W data _ _ _ Hd) in H2. destruct H2 as (t & y & l & El & E2).
  apply setup_moments_ok in H. destruct H as (single & m5 & m6 & m0 & M1 & M2 & M3 & E3).
  subst d1. subst d2. subst d3. norm. cbv zeta in E3.
  assert (Hn : exists l, name = PLeaf l /\ w_build W (upper (w_str W (PLeaf l))) sys theta seed h = Some (Ok m)).
  { unfold stochastic_model in G7. destruct name as [ln|dd]; [|discriminate]. exists ln. split; [reflexivity|].
    destruct (w_build W (upper (w_str W (PLeaf ln))) sys theta seed h) as [[mm|[]]|]; congruence. }
  destruct Hn as (ln & -> & Hb).
  exists t, y, l. split; [exact El|].
  assert (Ed : exists tl, d = fold_right (fun kv => dset (fst kv) (snd kv)) (dset "obs_y" (SVal y) (dset "obs_t" (SVal t)
             (dset "model" (SModel m2) (dset "single_dim" (SFlag (w_single W m)) (dset "model" (SModel m)
             (dset "tau0" (SPar tau) (dset "mu0" (SPar mu) (dset "obs_setup" (SPar os) (dset "random_seed" (SPar seed)
         (dset "ode_solver" (SPar ode) (dset "time_window" (SPar tw) (dset "noise" (SPar noise) (dset "drift" (SPar drift) d0))))))))))))) tl /\
         (tl = [("s0", SVal (w_s0 W m6)); ("m0", SVal m0); ("model", SModel m6)] /\ w_single W m = true \/
          exists a b, w_single W m = false /\ w_mu0 W mu m6 = Ok a /\ w_tau0 W tau m6 = Ok b /\
             tl = [("tau0", SVal b); ("mu0", SVal a); ("s0", SVal (w_s0 W m6)); ("m0", SVal m0); ("model", SModel m6)])).
  { destruct (w_single W m) eqn:Es.
    - eexists. split; [rewrite E3; symmetry|left; split; [reflexivity|reflexivity]]. reflexivity.
    - destruct E3 as (mu' & tau' & a4 & b4 & K1 & K2 & K3 & K4 & E3). norm.
      eexists. split; [rewrite E3; symmetry|right; exists a4, b4; repeat split; try assumption; reflexivity]. reflexivity. }
  destruct Ed as (tl & -> & Htl).
  assert (Hk : forall (dd : mdata W) k, ~ In k ["tau0"; "mu0"; "s0"; "m0"; "model"] -> dget k (fold_right (fun kv => dset (fst kv) (snd kv)) dd tl) = dget k dd).
  { intros dd k Hk. destruct Htl as [[-> _]|(a4 & b4 & _ & _ & _ & ->)]; cbn [fold_right fst snd];
      rewrite !dget_dset;
      repeat match goal with |- context [String.eqb k ?s] => destruct (String.eqb_spec k s) as [->|]; [exfalso; apply Hk; cbn; tauto|] end; reflexivity. }
  split; [apply dget_has; rewrite Hk by (cbn; intuition discriminate); look; reflexivity|].
  split; [apply dget_has; rewrite Hk by (cbn; intuition discriminate); look; reflexivity|].
  split; [exists tw, dt, ode, (w_single W m); repeat split; try assumption; apply dget_has; rewrite Hk by (cbn; intuition discriminate); look; reflexivity|].
  split; [rewrite Hk by (cbn; intuition discriminate); look; reflexivity|].
  intros n op Hn (os2 & Fos2 & Fop).
  assert (os2 = os) by (apply item_field in Fos, Fos2; congruence). subst os2.
  exists (mkInputs dt ode (w_single W m) y t n op
            (if w_single W m then inl mu else match w_mu0 W mu m6 with Ok a => inr a | Err _ => inl mu end)
            (if w_single W m then inl tau else match w_tau0 W tau m6 with Ok a => inr a | Err _ => inl tau end)
            m6 m0 (w_s0 W m6)). eexists.
  apply dget_has in Hn.
  split; [|split; [giv; destruct Htl as [[-> Es]|(a4 & b4 & Es & K3 & K4 & ->)]; rewrite Es, ?K3, ?K4; eauto 10 | repeat split]].
  unfold finds. cbn [i_dt i_method i_single i_y i_t i_noise i_op i_mu0 i_tau0 i_model i_m0 i_s0].
  repeat match goal with
  | |- _ /\ _ => split
  | |- exists tw, has _ "time_window" _ /\ _ => exists tw; split; [|assumption]
  | |- exists tw, has _ "obs_setup" _ /\ _ => exists os; split; [|assumption]
  end; apply dget_has;
  destruct Htl as [[-> Es]|(a4 & b4 & Es & K3 & K4 & ->)]; rewrite ?Es, ?K3, ?K4; cbn [fold_right fst snd prior_slot]; look; reflexivity || assumption.
Qed.

(** what a computation does not write stays, also when it raises *)
Definition keeps (k : string) {A} (m : S_ W A) : Prop := forall d, dget k (snd (m d)) = dget k d.
Lemma keeps_bind k {A B} (m : S_ W A) (f : A -> S_ W B) : keeps k m -> (forall a, keeps k (f a)) -> keeps k (sbind W m f).
Proof.
  intros Hm Hf d. unfold sbind. specialize (Hm d). destruct (m d) as [[a|e] d']; cbn [snd] in *; [rewrite Hf|]; exact Hm.
Qed.
Lemma keeps_put k k' v : String.eqb k k' = false -> keeps k (put W k' v).
Proof. intros H d. cbn. rewrite dget_dset, H. reflexivity. Qed.
Lemma keeps_on_model k {A} (f : w_model W -> result A * w_model W) : String.eqb k "model" = false -> keeps k (on_model W f).
Proof.
  intros H. unfold on_model. apply keeps_bind; [intros d; reflexivity|]. intros m. destruct (f m).
  apply keeps_bind; [apply keeps_put; exact H|]. intros _ d. reflexivity.
Qed.
Ltac keep := repeat first [apply keeps_put; reflexivity | apply keeps_on_model; reflexivity | apply keeps_bind; [|intros ?] | (intros ?; reflexivity)].
Lemma keeps_noise params data h : data <> DNone -> keeps "obs_noise" (setup W params data h).
Proof.
  intros Hd. unfold setup, setup_params, setup_model, setup_obs, setup_moments. destruct data as [| |l]; [congruence| |]; keep.
  all: match goal with |- keeps _ (if ?b then _ else _) => destruct b end; keep.
Qed.

(** ** run *)
Lemma run_finds (d : mdata W) i : finds d i -> fst (run_core W d) = run_on i.
Proof.
  intros ((tw & T1 & T2) & H1 & H2 & H3 & H4 & H5 & (os & T3 & T4) & H6 & H7 & H8 & H9 & H10).
  rewrite <- item_field in T2, T4. rewrite <- ditem_ok in *.
  unfold run_core, run_on, sbind, get2, get_par, get_flag, get_val, get_model, get_prior, lift.
  rewrite T1. cbn [bind]. rewrite T2, H1. cbn [bind]. rewrite H2. cbn [bind].
  destruct (w_fwd W (i_dt i) (i_method i) (i_single i)) as [fw|]; cbn [bind fst]; [|reflexivity].
  destruct (w_bwd W (i_dt i) (i_method i) (i_single i)) as [bw|]; cbn [bind fst]; [|reflexivity].
  rewrite H3, H4, H5. cbn [bind]. rewrite T3. cbn [bind]. rewrite T4. cbn [bind].
  destruct (w_mklike W (i_y i) (i_t i) (i_noise i) (i_op i) (i_single i)) as [li|]; cbn [bind fst]; [|reflexivity].
  rewrite H6, H7.
  replace (let* s := Ok (prior_slot (i_mu0 i)) in match s with SPar x => Ok (inl x) | SVal v => Ok (inr v) | _ => Err AttributeError end)
    with (Ok (i_mu0 i)) by (destruct (i_mu0 i); reflexivity).
  replace (let* s := Ok (prior_slot (i_tau0 i)) in match s with SPar x => Ok (inl x) | SVal v => Ok (inr v) | _ => Err AttributeError end)
    with (Ok (i_tau0 i)) by (destruct (i_tau0 i); reflexivity).
  destruct (w_mkkl0 W (i_mu0 i) (i_tau0 i) (i_single i)) as [kl|]; cbn [bind fst]; [|reflexivity].
  rewrite H8, H9, H10. reflexivity.
Qed.
(** without obs_noise the run cannot succeed; the lookup raises KeyError unless something failed before *)
Lemma run_no_noise (d : mdata W) : dget "obs_noise" d = None ->
  forall r, fst (run_core W d) <> Ok r.
Proof.
  intros Hn r H. destruct (run_core W d) as [r' d'] eqn:E. cbn [fst] in H. subst r'. unfold run_core in E.
  repeat (apply sbind_ok in E; let H1 := fresh in destruct E as (? & ? & H1 & E);
          lazymatch type of H1 with
          | get2 _ _ _ _ = _ => apply get2_ok in H1; destruct H1 as [-> _]
          | get_par _ _ _ = _ => apply get_par_ok in H1; destruct H1 as [-> _]
          | get_flag _ _ _ = _ => apply get_flag_ok in H1; destruct H1 as [-> _]
          | get_val _ _ _ = _ => apply get_val_ok in H1; destruct H1 as [-> H1]; rewrite ?Hn in H1; try discriminate H1
          | lift _ _ _ = _ => apply lift_ok in H1; destruct H1 as [_ ->]
          end).
Qed.
Lemma run_noise_missing (d : mdata W) dt mtd single fw bw tw :
  dget "obs_noise" d = None ->
  has d "time_window" (SPar tw) -> field tw "dt" dt -> has d "ode_solver" (SPar mtd) -> has d "single_dim" (SFlag single) ->
  w_fwd W dt mtd single = Ok fw -> w_bwd W dt mtd single = Ok bw ->
  (exists y, has d "obs_y" (SVal y)) -> (exists t, has d "obs_t" (SVal t)) ->
  fst (run_core W d) = Err KeyError.
Proof.
  intros Hn T1 T2 H1 H2 Hf Hb [y Hy] [t Ht].
  rewrite <- item_field in T2. rewrite <- ditem_ok in *.
  unfold run_core, sbind, get2, get_par, get_flag, get_val, lift.
  rewrite T1. cbn [bind]. rewrite T2, H1. cbn [bind]. rewrite H2. cbn [bind]. rewrite Hf, Hb, Hy, Ht. cbn [bind].
  unfold ditem. rewrite Hn. reflexivity.
Qed.
End Whole.
