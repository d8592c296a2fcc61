(** * The outcome of Simulation.setup *)
From Coq Require Import List String Bool Arith Lia.
From Verif Require Import Num M_Proc M_Sim M_Sim1 M_SimN Spec_Sim Spec_Setup P_Sim P_Sim2.
Import ListNotations.
Local Open Scope string_scope.

(** the value at a path, computed *)
Fixpoint look {L} (x : pv L) (p : list string) : result (pv L) :=
  match p with [] => Ok x | k :: p' => let* y := item x k in look y p' end.
Lemma look_at {L} p (x v : pv L) : look x p = Ok v <-> at_path x p v.
Proof.
  revert x. induction p as [|k p IH]; intros x; cbn [look at_path]; [split; congruence|]. split.
  - destruct (item x k) as [y|] eqn:E; cbn [bind]; [|discriminate]. intros H. exists y. rewrite <- item_field, <- IH. auto.
  - intros (y & H1 & H2). apply item_field in H1. rewrite H1. cbn [bind]. apply IH. exact H2.
Qed.
Lemma item_off {L} (x : pv L) k e : item x k = Err e <->
  (exists l, x = PLeaf l /\ e = TypeError) \/ (exists d, x = PObj d /\ ~ In k (keys d) /\ e = KeyError).
Proof.
  destruct x as [l|d]; cbn [item].
  - split; [intros H; inversion H; left; eauto|]. intros [(l' & _ & ->)|(d & H & _)]; [reflexivity|discriminate].
  - split.
    + intros H. destruct (ditem_err d k e H) as [-> Hn]. right. eauto.
    + intros [(l & H & _)|(d' & H & Hn & ->)]; [discriminate|]. inversion H; subst. apply dget_none in Hn. unfold ditem. rewrite Hn. reflexivity.
Qed.
Lemma look_off {L} p (x : pv L) e : look x p = Err e <-> off_path x p e.
Proof.
  revert x. induction p as [|k p IH]; intros x; cbn [look off_path]; [split; [discriminate|tauto]|]. split.
  - destruct (item x k) as [y|e'] eqn:E; cbn [bind]; intros H.
    + right. right. exists y. rewrite <- item_field, <- IH. auto.
    + injection H as ->. apply item_off in E. tauto.
  - intros [H|[H|(y & H1 & H2)]].
    + assert (E : item x k = Err e) by (apply item_off; auto). rewrite E. reflexivity.
    + assert (E : item x k = Err e) by (apply item_off; auto). rewrite E. reflexivity.
    + apply item_field in H1. rewrite H1. apply IH. exact H2.
Qed.
Fixpoint reads {L} (x : pv L) (ps : list (list string)) : result unit :=
  match ps with [] => Ok tt | p :: ps' => let* _ := look x p in reads x ps' end.
Lemma reads_all {L} ps (x : pv L) : reads x ps = Ok tt <-> all_there x ps.
Proof.
  unfold all_there. induction ps as [|p ps IH]; cbn [reads]; [split; [intros _ p []|auto]|]. split.
  - destruct (look x p) as [v|] eqn:E; cbn [bind]; [|discriminate]. intros H q [<-|Hq]; [exists v; apply look_at; exact E|].
    apply IH; assumption.
  - intros H. destruct (H p (or_introl eq_refl)) as (v & Hv). apply look_at in Hv. rewrite Hv. cbn [bind]. apply IH. intros q Hq. apply H. right. exact Hq.
Qed.
Lemma reads_off {L} ps (x : pv L) e : reads x ps = Err e <-> first_missing x ps e.
Proof.
  unfold first_missing. induction ps as [|p ps IH]; cbn [reads].
  - split; [discriminate|]. intros (l1 & p & l2 & H & _). destruct l1; discriminate.
  - split.
    + destruct (look x p) as [v|e'] eqn:E; cbn [bind]; intros H.
      * apply IH in H. destruct H as (l1 & q & l2 & -> & H1 & H2). exists (p :: l1), q, l2. split; [reflexivity|]. split; [|exact H2].
        intros r [<-|Hr]; [exists v; apply look_at; exact E|auto].
      * injection H as ->. exists [], p, ps. split; [reflexivity|]. split; [intros r []|]. apply look_off. exact E.
    + intros (l1 & q & l2 & H & H1 & H2). destruct l1 as [|p' l1]; cbn [app] in H; injection H as -> H.
      * apply look_off in H2. rewrite H2. reflexivity.
      * destruct (H1 p' (or_introl eq_refl)) as (v & Hv). apply look_at in Hv. rewrite Hv. cbn [bind]. apply IH. exists l1, q, l2.
        split; [exact H|]. split; [|exact H2]. intros r Hr. apply H1. right. exact Hr.
Qed.

Lemma keeps_params {W : World} (params : pv (w_leaf W)) k (d : mdata W) :
  ~ In k ["drift"; "noise"; "time_window"; "ode_solver"; "random_seed"; "obs_setup"; "mu0"; "tau0"] ->
  dget k (snd (setup_params W params d)) = dget k d.
Proof.
  intros Hk. cut (keeps W k (setup_params W params)); [intros H; apply H|].
  assert (Hp : forall k' (v : slot W), In k' ["drift"; "noise"; "time_window"; "ode_solver"; "random_seed"; "obs_setup"; "mu0"; "tau0"] -> keeps W k (put W k' v)).
  { intros k' v Hi. apply keeps_put. apply String.eqb_neq. intros ->. exact (Hk Hi). }
  unfold setup_params. repeat first [apply Hp; cbn; tauto | apply keeps_bind; [|intros ?] | (intros ?; reflexivity)].
Qed.
Section Outcome.
Context (W : World) (params : pv (w_leaf W)) (data : udata (w_val W)) (h : w_entropy W).
(** setup without self.m_data *)
Definition pure_obs (m1 : w_model W) : result (w_model W) :=
  match data with
  | DNone => let* density := look params ["Observations"; "density"] in let* noise := look params ["Noise"; "obs"] in
             let* op := look params ["Observations"; "operator"] in
             match w_collect W density noise op m1 with (Ok _, m2) => Ok m2 | (Err e, _) => Err e end
  | DFrame => Err KeyError
  | DSeq l => if Nat.leb 2 (List.length l) then Ok m1 else Err IndexError
  end.
Definition pure_start (single : bool) (mu tau : pv (w_leaf W)) (m2 : w_model W) : result unit :=
  match w_m0 W m2 with
  | (Err e, _) => Err e
  | (Ok _, m3) => if single then Ok tt else let* _ := w_mu0 W mu m3 in let* _ := w_tau0 W tau m3 in Ok tt
  end.
Definition pure : result unit :=
  let* _ := reads params first_entries in
  let* name := look params ["Model"] in let* sys := look params ["Noise"; "sys"] in
  let* theta := look params ["Drift"; "theta"] in let* seed := look params ["Random-Seed"] in
  let* m := stochastic_model W name sys theta seed h in
  let* t0 := look params ["Time-window"; "t0"] in let* tf := look params ["Time-window"; "tf"] in
  let* dt := look params ["Time-window"; "dt"] in
  match w_traj W t0 tf dt m with
  | (Err e, _) => Err e
  | (Ok _, m1) =>
      let* m2 := pure_obs m1 in
      let* mu := look params ["Prior"; "mu0"] in let* tau := look params ["Prior"; "tau0"] in
      pure_start (w_single W m) mu tau m2
  end.

Lemma fst_bind {A B} (m : S_ W A) (f : A -> S_ W B) d : fst (sbind W m f d) = let* a := fst (m d) in fst (f a (snd (m d))).
Proof. unfold sbind. destruct (m d) as [[a|e] d']; reflexivity. Qed.
Lemma b_get2 {B} k j (f : _ -> S_ W B) d p : dget k d = Some (SPar p) -> fst (sbind W (get2 W k j) f d) = let* x := item p j in fst (f x d).
Proof. intros H. rewrite fst_bind. unfold get2, ditem. cbn [fst snd]. rewrite H. reflexivity. Qed.
Lemma b_par {B} k (f : _ -> S_ W B) d p : dget k d = Some (SPar p) -> fst (sbind W (get_par W k) f d) = fst (f p d).
Proof. intros H. rewrite fst_bind. unfold get_par, ditem. cbn [fst snd]. rewrite H. reflexivity. Qed.
Lemma b_model {B} k (f : _ -> S_ W B) d p : dget k d = Some (SModel p) -> fst (sbind W (get_model W k) f d) = fst (f p d).
Proof. intros H. rewrite fst_bind. unfold get_model, ditem. cbn [fst snd]. rewrite H. reflexivity. Qed.
Lemma b_lift {A B} (r : result A) (f : A -> S_ W B) d : fst (sbind W (lift W r) f d) = let* x := r in fst (f x d).
Proof. rewrite fst_bind. reflexivity. Qed.
Lemma b_put {B} k v (f : _ -> S_ W B) d : fst (sbind W (put W k v) f d) = fst (f tt (dset k v d)).
Proof. rewrite fst_bind. reflexivity. Qed.
Ltac rd := first [erewrite b_get2 by (look; reflexivity) | erewrite b_par by (look; reflexivity) | erewrite b_model by (look; reflexivity) | rewrite b_lift | rewrite b_put].
Lemma setup_pure d0 : fst (setup W params data h d0) = pure.
Proof.
  unfold setup. rewrite fst_bind. unfold pure.
  (* the entries *)
  unfold first_entries. cbn [reads look].
  destruct (setup_params W params d0) as [r1 d1] eqn:E1. cbn [fst snd].
  assert (H8 : r1 = let* _ := item params "Drift" in let* _ := item params "Noise" in let* _ := item params "Time-window" in
     let* _ := item params "Ode-method" in let* _ := item params "Random-Seed" in let* _ := item params "Observations" in
     let* x := item params "Prior" in let* _ := item x "mu0" in let* x := item params "Prior" in let* _ := item x "tau0" in Ok tt).
  { revert E1. unfold setup_params, sbind, lift, put. intros E1.
    repeat match type of E1 with context [match item ?x ?k with _ => _ end] => destruct (item x k); cbn [bind] in E1 |- * end;
    injection E1 as <- _; reflexivity. }
  destruct r1 as [[]|e1].
  2:{ cbn [bind]. revert H8.
      destruct (item params "Drift"); cbn [bind]; [|congruence]. destruct (item params "Noise"); cbn [bind]; [|congruence].
      destruct (item params "Time-window"); cbn [bind]; [|congruence]. destruct (item params "Ode-method"); cbn [bind]; [|congruence].
      destruct (item params "Random-Seed"); cbn [bind]; [|congruence]. destruct (item params "Observations"); cbn [bind]; [|congruence].
      destruct (item params "Prior") as [pr|]; cbn [bind]; [|congruence]. destruct (item pr "mu0"); cbn [bind]; [|congruence].
      destruct (item pr "tau0"); cbn [bind]; congruence. }
  clear H8. destruct (setup_params_ok W params d0 tt d1 E1) as (drift & noise & tw & ode & seed & os & pr & mu & tau & Fd & Fn & Ft & Fo & Fs & Fos & Fp & Fm & Fta & E0).
  rewrite <- item_field in Fd, Fn, Ft, Fo, Fs, Fos, Fp, Fm, Fta.
  rewrite Fd, Fn, Ft, Fo, Fs, Fos, Fp. cbn [bind]. rewrite Fm, Fta. cbn [bind].
  (* the model *)
  rewrite fst_bind. destruct (setup_model W params h d1) as [r2 d2] eqn:E2. cbn [fst snd].
  assert (H2 : r2 = let* sys := item noise "sys" in let* theta := item drift "theta" in let* name := item params "Model" in
     let* m := stochastic_model W name sys theta seed h in
     let* t0 := item tw "t0" in let* tf := item tw "tf" in let* dt := item tw "dt" in fst (w_traj W t0 tf dt m)).
  { transitivity (fst (setup_model W params h d1)); [rewrite E2; reflexivity|]. clear E2. subst d1. unfold setup_model.
    rd. destruct (item noise "sys") as [sys|]; cbn [bind fst]; [|reflexivity].
    rd. destruct (item drift "theta") as [theta|]; cbn [bind fst]; [|reflexivity].
    rd. rd. destruct (item params "Model") as [name|]; cbn [bind fst]; [|reflexivity].
    rd. destruct (stochastic_model W name sys theta seed h) as [m|]; cbn [bind fst]; [|reflexivity].
    rd. rd. rd. rd. destruct (item tw "t0") as [t0|]; cbn [bind fst]; [|reflexivity].
    rd. destruct (item tw "tf") as [tf|]; cbn [bind fst]; [|reflexivity].
    rd. destruct (item tw "dt") as [dt|]; cbn [bind fst]; [|reflexivity].
    unfold on_model. rd. destruct (w_traj W t0 tf dt m) as [r m1]. reflexivity. }
  destruct r2 as [[]|e2].
  2:{ cbn [bind]. revert H2.
      destruct (item noise "sys"); cbn [bind]; [|congruence]. destruct (item drift "theta"); cbn [bind]; [|congruence].
      destruct (item params "Model"); cbn [bind]; [|congruence]. destruct (stochastic_model W _ _ _ _ h); cbn [bind]; [|congruence].
      destruct (item tw "t0"); cbn [bind]; [|congruence]. destruct (item tw "tf"); cbn [bind]; [|congruence].
      destruct (item tw "dt"); cbn [bind]; [|congruence]. destruct (w_traj W _ _ _ _) as [[]]; cbn [fst]; congruence. }
  clear H2. destruct (setup_model_ok W params h _ tt d2 E2) as (nz & sys & dr & theta & seed' & name & tw' & t0 & tf & dt & m & m2 & G1 & G2 & G3 & G4 & G5 & G6 & G7 & G8 & G9 & G10 & G11 & G12 & E3).
  subst d1 d2. norm. rewrite <- item_field in G2, G4, G6, G9, G10, G11.
  rewrite G2, G4, G6. cbn [bind]. rewrite G7. cbn [bind]. rewrite G9, G10, G11. cbn [bind]. rewrite G12.
  (* observations *)
  rewrite fst_bind. unfold pure_obs.
  assert (Hmom : forall (d : mdata W) m2, dget "single_dim" d = Some (SFlag (w_single W m)) -> dget "model" d = Some (SModel m2) ->
     dget "mu0" d = Some (SPar mu) -> dget "tau0" d = Some (SPar tau) -> fst (setup_moments W d) = pure_start (w_single W m) mu tau m2).
  { clear. intros d m2 D1 D2 D3 D4. unfold setup_moments, on_model, pure_start, sbind, get_flag, get_model, get_par, lift, put, ditem.
    rewrite D1. cbn [bind]. rewrite D2. cbn [bind]. destruct (w_m0 W m2) as [[v|] m3]; [|reflexivity]. look. cbn [bind].
    destruct (w_single W m); [reflexivity|]. look. rewrite D3. cbn [bind]. destruct (w_mu0 W mu m3); [|reflexivity]. cbn [bind]. look.
    rewrite D4. cbn [bind]. destruct (w_tau0 W tau m3); reflexivity. }
  match goal with |- context [setup_obs W data ?d] => set (d3 := d) end.
  assert (K1 : dget "single_dim" d3 = Some (SFlag (w_single W m))) by (unfold d3; look; reflexivity).
  assert (K2 : dget "model" d3 = Some (SModel m2)) by (unfold d3; look; reflexivity).
  assert (K3 : dget "mu0" d3 = Some (SPar mu)) by (unfold d3; look; reflexivity).
  assert (K4 : dget "tau0" d3 = Some (SPar tau)) by (unfold d3; look; reflexivity).
  assert (K5 : dget "obs_setup" d3 = Some (SPar os)) by (unfold d3; look; reflexivity).
  assert (K6 : dget "noise" d3 = Some (SPar noise)) by (unfold d3; look; reflexivity).
  clearbody d3. destruct data as [| |l]; unfold setup_obs.
  - cbn [look]. rewrite ?Fos, ?Fn. cbn [bind].
    unfold on_model, sbind, get2, get_model, lift, put, ditem. rewrite K5. cbn [bind].
    destruct (item os "density") as [density|]; [|reflexivity]. cbn [bind]. rewrite ?K6. cbn [bind].
    destruct (item noise "obs") as [xr|]; [|reflexivity]. cbn [bind]. rewrite ?K5. cbn [bind].
    destruct (item os "operator") as [op|]; [|reflexivity]. cbn [bind]. rewrite ?K2. cbn [bind].
    destruct (w_collect W density xr op m2) as [[[[ot oy] on]|] m4]; cbn [fst snd bind]; [|reflexivity].
    apply Hmom; look; assumption || reflexivity.
  - reflexivity.
  - unfold sbind, lift, put. destruct l as [|t [|y l]]; cbn [data_item nth_error List.length Nat.leb]; [reflexivity|reflexivity|].
    cbn [fst snd bind]. apply Hmom; look; assumption || reflexivity.
Qed.
Ltac la := repeat match goal with H : at_path _ _ _ |- _ => apply look_at in H end.
Lemma model_none name sys theta seed e : stochastic_model W name sys theta seed h = Err e <->
  ((exists d, name = PObj d) /\ e = ValueError \/
     exists l, name = PLeaf l /\
       let b := w_build W (upper (w_str W name)) sys theta seed h in
       (b = None /\ e = ValueError \/ b = Some (Err KeyError) /\ e = ValueError \/ b = Some (Err e) /\ e <> KeyError)).
Proof.
  unfold stochastic_model. destruct name as [l|d].
  - cbv zeta. split.
    + intros H. right. exists l. split; [reflexivity|].
      destruct (w_build W (upper (w_str W (PLeaf l))) sys theta seed h) as [[m|e']|]; [discriminate| |left; split; congruence].
      right. destruct e'; injection H as <-; auto; right; split; auto; discriminate.
    + intros [[(d & H) _]|(l' & _ & [[-> ->]|[[-> ->]|[-> He]]])]; [discriminate|reflexivity|reflexivity|]. destruct e; congruence.
  - split; [intros H; injection H as <-; left; eauto|]. intros [[_ ->]|(l & H & _)]; [reflexivity|discriminate].
Qed.
Lemma model_ok name sys theta seed m : stochastic_model W name sys theta seed h = Ok m <->
  exists l, name = PLeaf l /\ w_build W (upper (w_str W (PLeaf l))) sys theta seed h = Some (Ok m).
Proof.
  unfold stochastic_model. destruct name as [l|d]; [|split; [discriminate|intros (l & H & _); discriminate]]. split.
  - intros H. exists l. split; [reflexivity|]. destruct (w_build W (upper (w_str W (PLeaf l))) sys theta seed h) as [[m'|[]]|]; congruence.
  - intros (l' & H & E). injection H as <-. rewrite E. reflexivity.
Qed.
Lemma window_reads e : reads params window_entries = Err e <->
  (let* _ := look params ["Time-window"; "t0"] in let* _ := look params ["Time-window"; "tf"] in let* _ := look params ["Time-window"; "dt"] in Ok tt) = Err e.
Proof. reflexivity. Qed.
Lemma pure_obs_none m1 e : pure_obs m1 = Err e <-> observes_none params data m1 e.
Proof.
  unfold pure_obs, observes_none. destruct data as [| |l].
  - rewrite <- reads_off. cbn [reads obs_entries].
    destruct (look params ["Observations"; "density"]) as [x1|] eqn:E1; cbn [bind].
    2:{ split; [intros H; left; congruence|]. intros [H|(a & b & c & d & H & _)]; [congruence|]. la. congruence. }
    destruct (look params ["Noise"; "obs"]) as [x2|] eqn:E2; cbn [bind].
    2:{ split; [intros H; left; congruence|]. intros [H|(a & b & c & d & _ & H & _)]; [congruence|]. la. congruence. }
    destruct (look params ["Observations"; "operator"]) as [x3|] eqn:E3; cbn [bind].
    2:{ split; [intros H; left; congruence|]. intros [H|(a & b & c & d & _ & _ & H & _)]; [congruence|]. la. congruence. }
    split.
    + destruct (w_collect W x1 x2 x3 m1) as [[o|e'] m2] eqn:E; [discriminate|]. intros H. injection H as ->. right.
      apply look_at in E1, E2, E3. exists x1, x2, x3, m2. auto.
    + intros [H|(a & b & c & d & H1 & H2 & H3 & H)]; [discriminate|]. la. rewrite E1 in H1. rewrite E2 in H2. rewrite E3 in H3.
      injection H1 as <-. injection H2 as <-. injection H3 as <-. rewrite H. reflexivity.
  - split; congruence.
  - destruct (Nat.leb_spec 2 (List.length l)); split; try discriminate.
    + intros [H1 _]. lia.
    + intros H1. injection H1 as <-. auto.
    + intros [_ ->]. reflexivity.
Qed.
Lemma pure_obs_ok m1 m2 : pure_obs m1 = Ok m2 <-> observes params data m1 m2.
Proof.
  unfold pure_obs, observes. destruct data as [| |l].
  - split.
    + destruct (look params ["Observations"; "density"]) as [x1|] eqn:E1; cbn [bind]; [|discriminate].
      destruct (look params ["Noise"; "obs"]) as [x2|] eqn:E2; cbn [bind]; [|discriminate].
      destruct (look params ["Observations"; "operator"]) as [x3|] eqn:E3; cbn [bind]; [|discriminate].
      destruct (w_collect W x1 x2 x3 m1) as [[o|e'] m2'] eqn:E; [|discriminate]. intros H. injection H as ->.
      apply look_at in E1, E2, E3. exists x1, x2, x3, o. auto.
    + intros (a & b & c & o & H1 & H2 & H3 & H). la. rewrite H1, H2, H3. cbn [bind]. rewrite H. reflexivity.
  - split; [discriminate|tauto].
  - destruct (Nat.leb_spec 2 (List.length l)); split; try discriminate.
    + intros H1. injection H1 as <-. auto.
    + intros [_ ->]. reflexivity.
    + intros [H1 _]. lia.
Qed.
Lemma pure_refusal e : pure = Err e <-> refusal params data h e.
Proof.
  unfold pure, refusal. destruct (reads params first_entries) as [[]|e1] eqn:E0; cbn [bind].
  2:{ split.
      - intros H. left. apply reads_off. congruence.
      - intros [H|[[H _]|[H _]]]; [apply reads_off in H; congruence|apply reads_all in H; congruence..]. }
  assert (Hnf : forall e', ~ first_missing params first_entries e') by (intros e' H; apply reads_off in H; congruence).
  apply reads_all in E0. destruct (E0 ["Model"] ltac:(cbn; tauto)) as (name & N1). destruct (E0 ["Noise"; "sys"] ltac:(cbn; tauto)) as (sys & N2).
  destruct (E0 ["Drift"; "theta"] ltac:(cbn; tauto)) as (theta & N3). destruct (E0 ["Random-Seed"] ltac:(cbn; tauto)) as (seed & N4).
  destruct (E0 ["Prior"; "mu0"] ltac:(cbn; tauto)) as (mu & N5). destruct (E0 ["Prior"; "tau0"] ltac:(cbn; tauto)) as (tau & N6).
  la. rewrite N1, N2, N3, N4. cbn [bind].
  assert (Hn : forall e', makes_none params h e' <-> stochastic_model W name sys theta seed h = Err e').
  { intros e'. rewrite model_none. unfold makes_none. split.
    - intros (n' & s' & t' & se' & H1 & H2 & H3 & H4 & H). la.
      rewrite N1 in H1. rewrite N2 in H2. rewrite N3 in H3. rewrite N4 in H4. injection H1 as <-. injection H2 as <-. injection H3 as <-. injection H4 as <-. exact H.
    - intros H. exists name, sys, theta, seed. rewrite <- !look_at. auto. }
  assert (Hm : forall m', makes params h m' <-> stochastic_model W name sys theta seed h = Ok m').
  { intros m'. rewrite model_ok. unfold makes. split.
    - intros (n' & s' & t' & se' & H1 & H2 & H3 & H4 & H). la.
      rewrite N1 in H1. rewrite N2 in H2. rewrite N3 in H3. rewrite N4 in H4. injection H1 as H1. injection H2 as <-. injection H3 as <-. injection H4 as <-. eauto.
    - intros (l & El & H). exists l, sys, theta, seed. rewrite <- !look_at. subst name. auto. }
  destruct (stochastic_model W name sys theta seed h) as [m|e1] eqn:Em; cbn [bind].
  2:{ split.
      - intros H. right. left. split; [exact E0|]. apply Hn. congruence.
      - intros [H|[[_ H]|[_ (m & H & _)]]]; [exfalso; exact (Hnf _ H)|apply Hn in H; congruence|apply Hm in H; discriminate]. }
  transitivity (first_missing params window_entries e \/ (exists m1, moves params m (Err e) m1) \/
     (exists m1, moves params m (Ok tt) m1 /\
        (observes_none params data m1 e \/ exists m2, observes params data m1 m2 /\ starts_none params (w_single W m) m2 e))).
  2:{ split.
      - intros H. right. right. split; [exact E0|]. exists m. split; [apply Hm; reflexivity|exact H].
      - intros [H|[[_ H]|[_ (m' & H & H')]]]; [exfalso; exact (Hnf _ H)|apply Hn in H; discriminate|].
        apply Hm in H. injection H as <-. exact H'. }
  rewrite <- reads_off. cbn [reads window_entries].
  destruct (look params ["Time-window"; "t0"]) as [t0|] eqn:W0; cbn [bind].
  2:{ split; [auto|]. intros [H|[(m1 & a & b & c & H & _)|(m1 & (a & b & c & H & _) & _)]]; [exact H| |]; la; congruence. }
  destruct (look params ["Time-window"; "tf"]) as [tf|] eqn:W1; cbn [bind].
  2:{ split; [auto|]. intros [H|[(m1 & a & b & c & _ & H & _)|(m1 & (a & b & c & _ & H & _) & _)]]; [exact H| |]; la; congruence. }
  destruct (look params ["Time-window"; "dt"]) as [dt|] eqn:W2; cbn [bind].
  2:{ split; [auto|]. intros [H|[(m1 & a & b & c & _ & _ & H & _)|(m1 & (a & b & c & _ & _ & H & _) & _)]]; [exact H| |]; la; congruence. }
  assert (Hv : forall r m1, moves params m r m1 <-> w_traj W t0 tf dt m = (r, m1)).
  { intros r m1. unfold moves. split.
    - intros (a & b & c & H1 & H2 & H3 & H). la. rewrite W0 in H1. rewrite W1 in H2. rewrite W2 in H3.
      injection H1 as <-. injection H2 as <-. injection H3 as <-. exact H.
    - intros H. exists t0, tf, dt. rewrite <- !look_at. auto. }
  destruct (w_traj W t0 tf dt m) as [[[]|e1] m1] eqn:Et.
  2:{ split.
      - intros H. injection H as ->. right. left. exists m1. apply Hv. reflexivity.
      - intros [H|[(m2 & H)|(m2 & H & _)]]; [discriminate|apply Hv in H; congruence|apply Hv in H; discriminate]. }
  transitivity (observes_none params data m1 e \/ exists m2, observes params data m1 m2 /\ starts_none params (w_single W m) m2 e).
  2:{ split.
      - intros H. right. right. exists m1. split; [apply Hv; reflexivity|exact H].
      - intros [H|[(m2 & H)|(m2 & H & H')]]; [discriminate|apply Hv in H; congruence|apply Hv in H]. injection H as <-. exact H'. }
  destruct (pure_obs m1) as [m2|e1] eqn:Eo; cbn [bind].
  2:{ split.
      - intros H. left. apply pure_obs_none. congruence.
      - intros [H|(m2 & H & _)]; [apply pure_obs_none in H; congruence|apply pure_obs_ok in H; congruence]. }
  rewrite N5, N6. cbn [bind].
  transitivity (starts_none params (w_single W m) m2 e).
  2:{ split.
      - intros H. right. exists m2. split; [apply pure_obs_ok; exact Eo|exact H].
      - intros [H|(m3 & H & H')]; [apply pure_obs_none in H; congruence|apply pure_obs_ok in H]. rewrite Eo in H. injection H as <-. exact H'. }
  unfold pure_start, starts_none. destruct (w_m0 W m2) as [[v|e1] m3].
  2:{ split.
      - intros H. injection H as ->. left. eauto.
      - intros [(m4 & H)|(v & m4 & a & b & H & _)]; congruence. }
  destruct (w_single W m).
  { split; [discriminate|]. intros [(m4 & H)|(v' & m4 & a & b & _ & H & _)]; discriminate. }
  split.
  - intros H. right. exists v, m3, mu, tau. rewrite <- !look_at. repeat (split; [auto|]).
    destruct (w_mu0 W mu m3) as [a|]; cbn [bind] in H; [|left; congruence]. right. exists a. split; [reflexivity|].
    destruct (w_tau0 W tau m3); cbn [bind] in H; [discriminate|congruence].
  - intros [(m4 & H)|(v' & m4 & a & b & H & _ & H1 & H2 & H3)]; [discriminate|]. injection H as <- <-. la.
    rewrite N5 in H1. rewrite N6 in H2. injection H1 as <-. injection H2 as <-.
    destruct H3 as [->|(x & -> & ->)]; reflexivity.
Qed.
(** before the model is made, setup writes the parameters only *)
Lemma setup_early k d0 e : ~ In k ["drift"; "noise"; "time_window"; "ode_solver"; "random_seed"; "obs_setup"; "mu0"; "tau0"] ->
  first_missing params first_entries e \/ (all_there params first_entries /\ makes_none params h e) ->
  dget k (snd (setup W params data h d0)) = dget k d0.
Proof.
  intros Hk He.
  assert (Hp : forall d, dget k (snd (setup_params W params d)) = dget k d).
  { intros d. apply keeps_params. exact Hk. }
  assert (Hfail : pure = Err e) by (apply pure_refusal; unfold refusal; tauto).
  pose proof (setup_pure d0) as E. rewrite Hfail in E. unfold setup in *.
  unfold sbind at 1 in E. unfold sbind at 1. specialize (Hp d0). destruct (setup_params W params d0) as [[[]|e1] d1] eqn:E1; cbn [snd] in *; [|exact Hp].
  rewrite <- Hp. clear Hp. unfold sbind at 1 in E. unfold sbind at 1.
  assert (Hm : setup_model W params h d1 = (Err e, d1)).
  { clear E. destruct (setup_params_ok W params d0 tt d1 E1) as (drift & noise & tw & ode & seed & os & pr & mu & tau & Fd & Fn & Ft & Fo & Fs & Fos & Fp & Fm & Fta & E0).
    assert (A : reads params first_entries = (let* _ := item noise "sys" in let* _ := item drift "theta" in let* _ := item params "Model" in Ok tt)).
    { rewrite <- item_field in Fd, Fn, Ft, Fo, Fs, Fos, Fp, Fm, Fta. cbn [reads first_entries look].
      rewrite Fd, Fn, Ft, Fo, Fs, Fos, Fp. cbn [bind]. rewrite Fm, Fta. cbn [bind]. destruct (item noise "sys"); cbn [bind]; [|reflexivity].
      destruct (item drift "theta"); cbn [bind]; [|reflexivity]. destruct (item params "Model"); reflexivity. }
    unfold setup_model, sbind, get2, get_par, lift, ditem. subst d1. look. cbn [bind].
    destruct He as [He|[He1 He2]].
    - apply reads_off in He. rewrite A in He.
      destruct (item noise "sys"); cbn [bind] in *; [|congruence]. look. cbn [bind].
      destruct (item drift "theta"); cbn [bind] in *; [|congruence]. look. cbn [bind].
      destruct (item params "Model"); cbn [bind] in *; congruence.
    - destruct He2 as (name & sys & theta & seed' & H1 & H2 & H3 & H4 & H). rewrite <- model_none in H. la.
      rewrite <- item_field in Fd, Fn, Fs. cbn [look] in H1, H2, H3, H4. rewrite Fd in H3. rewrite Fn in H2. rewrite Fs in H4. cbn [bind] in *.
      destruct (item noise "sys"); cbn [bind] in *; [|congruence]. look. cbn [bind].
      destruct (item drift "theta"); cbn [bind] in *; [|congruence]. look. cbn [bind].
      destruct (item params "Model"); cbn [bind] in *; [|congruence]. injection H1 as ->. injection H2 as ->. injection H3 as ->. injection H4 as ->.
      rewrite H. reflexivity. }
  rewrite Hm. reflexivity.
Qed.
End Outcome.

(** a setup that succeeds without data *)
Lemma setup_parts (W : World) params h (d d' : mdata W) : setup W params DNone h d = (Ok tt, d') ->
  exists name sys theta seed m t0 tf dt m1 density noise op x m2,
    at_path params ["Model"] name /\ at_path params ["Noise"; "sys"] sys /\ at_path params ["Drift"; "theta"] theta /\
    at_path params ["Random-Seed"] seed /\ stochastic_model W name sys theta seed h = Ok m /\
    at_path params ["Time-window"; "t0"] t0 /\ at_path params ["Time-window"; "tf"] tf /\ at_path params ["Time-window"; "dt"] dt /\
    w_traj W t0 tf dt m = (Ok tt, m1) /\
    at_path params ["Observations"; "density"] density /\ at_path params ["Noise"; "obs"] noise /\ at_path params ["Observations"; "operator"] op /\
    w_collect W density noise op m1 = (Ok x, m2).
Proof.
  intros H. pose proof (setup_pure W params DNone h d) as E. rewrite H in E. cbn [fst] in E. unfold pure in E.
  destruct (reads params first_entries) as [[]|]; cbn [bind] in E; [|discriminate].
  destruct (look params ["Model"]) as [name|] eqn:E1; cbn [bind] in E; [|discriminate].
  destruct (look params ["Noise"; "sys"]) as [sys|] eqn:E2; cbn [bind] in E; [|discriminate].
  destruct (look params ["Drift"; "theta"]) as [theta|] eqn:E3; cbn [bind] in E; [|discriminate].
  destruct (look params ["Random-Seed"]) as [seed|] eqn:E4; cbn [bind] in E; [|discriminate].
  destruct (stochastic_model W name sys theta seed h) as [m|] eqn:E5; cbn [bind] in E; [|discriminate].
  destruct (look params ["Time-window"; "t0"]) as [t0|] eqn:E6; cbn [bind] in E; [|discriminate].
  destruct (look params ["Time-window"; "tf"]) as [tf|] eqn:E7; cbn [bind] in E; [|discriminate].
  destruct (look params ["Time-window"; "dt"]) as [dt|] eqn:E8; cbn [bind] in E; [|discriminate].
  destruct (w_traj W t0 tf dt m) as [[[]|] m1] eqn:E9; [|discriminate]. cbn [pure_obs] in E.
  destruct (look params ["Observations"; "density"]) as [density|] eqn:E10; cbn [bind] in E; [|discriminate].
  destruct (look params ["Noise"; "obs"]) as [noise|] eqn:E11; cbn [bind] in E; [|discriminate].
  destruct (look params ["Observations"; "operator"]) as [op|] eqn:E12; cbn [bind] in E; [|discriminate].
  destruct (w_collect W density noise op m1) as [[x|] m2] eqn:E13; [|discriminate].
  exists name, sys, theta, seed, m, t0, tf, dt, m1, density, noise, op, x, m2. rewrite <- !look_at. repeat split; assumption.
Qed.
Lemma obs_bad {K : Num} tk c : obs_indexes (K:=K) DBad tk <> Ok c.
Proof. unfold obs_indexes. destruct tk as [|t0 [|t1 tk]]; try discriminate. destruct (py_int _); discriminate. Qed.
Lemma obs_bad_err {K : Num} tk : exists e, obs_indexes (K:=K) DBad tk = Err e.
Proof. destruct (obs_indexes DBad tk) as [c|e] eqn:E; [exfalso; exact (obs_bad tk c E)|eauto]. Qed.
