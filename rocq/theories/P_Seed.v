(** * Values of the entry Random-Seed *)
From Coq Require Import ZArith List Bool Arith String.
From Verif Require Import Num Arr M_LinAlg M_Proc M_Sim M_Sim1 M_SimN Spec_Sim Spec_Setup Spec_Seed P_Sim P_Repro P_Setup.
Import ListNotations.
Local Open Scope string_scope.

Lemma base_fixed {K} (G : Rng K) X s h h' : seed_truthy s = true -> base_init (X:=X) G s h = base_init (X:=X) G s h'.
Proof. intros Hs. unfold base_init, make_rng. rewrite Hs. reflexivity. Qed.
Lemma base_none {K} (G : Rng K) X s h : seed_truthy s = false -> base_init (X:=X) G s h = base_init (X:=X) G SeedNone h.
Proof. intros Hs. unfold base_init, make_rng. rewrite Hs. reflexivity. Qed.

Section One.
Context (K : Num) (G : Rng K) (nln : K -> K) (npi : K) (spline : list K -> list K -> K -> K) (show : pv (leaf K) -> string).
Notation W := (world1 K G nln npi spline show).
Lemma fixes1_seed x : fixes1 x -> exists s, as_seed K x = Ok s /\ seed_truthy s = true.
Proof.
  intros [(z & -> & Hz)|[->|[(l & -> & Hl)|(l & -> & Hl)]]]; eexists; (split; [reflexivity|]); cbn.
  - destruct (Z.eqb_spec z 0); [contradiction|reflexivity].
  - reflexivity.
  - destruct l; [contradiction|reflexivity].
  - destruct l; [contradiction|reflexivity].
Qed.
Lemma no_seed1_seed x : no_seed1 x -> exists s, as_seed K x = Ok s /\ seed_truthy s = false.
Proof.
  intros [->|[->|[->|[(v & -> & Hv)|[->|[->|[->|[->| ->]]]]]]]]; try (eexists; split; reflexivity).
  exists SeedNone. cbn [as_seed truthy]. rewrite Hv. split; reflexivity.
Qed.
Lemma wrong1_seed x : wrong1 x -> as_seed K x = Err TypeError.
Proof.
  intros [(v & -> & Hv)|[(s & -> & Hs)|[(d & -> & Hd)|(l & -> & Hl)]]]; cbn [as_seed truthy].
  - rewrite Hv. reflexivity.
  - destruct (String.eqb_spec s ""); [contradiction|reflexivity].
  - destruct d; [contradiction|reflexivity].
  - destruct l; [contradiction|reflexivity].
Qed.
Lemma seeds1 (x : pv (leaf K)) : fixes1 x \/ no_seed1 x \/ wrong1 x.
Proof.
  destruct x as [[v|z|st0| |b|l|l|l]|d].
  - destruct (neqb v (nZ 0)) eqn:E; [right; left; do 3 right; left; eauto|right; right; left; eauto].
  - destruct (Z.eq_dec z 0) as [->|]; [right; left; right; left; reflexivity|left; left; eauto].
  - destruct (string_dec st0 "") as [->|]; [right; left; do 4 right; left; reflexivity|right; right; right; left; eauto].
  - right; left; left; reflexivity.
  - destruct b; [left; right; left; reflexivity|right; left; do 2 right; left; reflexivity].
  - destruct l as [|a l]; [right; left; do 6 right; left; reflexivity|left; do 2 right; left; eexists; split; [reflexivity|discriminate]].
  - destruct l as [|a l]; [right; left; do 7 right; left; reflexivity|left; do 3 right; eexists; split; [reflexivity|discriminate]].
  - destruct l as [|a l]; [right; left; do 8 right; reflexivity|right; right; do 3 right; eexists; split; [reflexivity|discriminate]].
  - destruct d as [|a d]; [right; left; do 5 right; left; reflexivity|right; right; do 2 right; left; eexists; split; [reflexivity|discriminate]].
Qed.
Lemma fixes1_det x : fixes1 x -> det_seed W x.
Proof.
  intros H name noise drift h h'. destruct (fixes1_seed x H) as (s & E & Hs). cbn [w_build world1]. unfold build1, init1d, ou_init, dw_init.
  rewrite E. cbn [bind].
  rewrite (base_fixed G K s h h' Hs). reflexivity.
Qed.
Lemma no_seed1_none x name noise drift h : no_seed1 x -> w_build W name noise drift x h = w_build W name noise drift (PLeaf LNull) h.
Proof.
  intros H. destruct (no_seed1_seed x H) as (s & E & Hs). cbn [w_build world1]. unfold build1, init1d, ou_init, dw_init.
  rewrite E. cbn [as_seed truthy bind].
  rewrite (base_none G K s h Hs). reflexivity.
Qed.
Lemma wrong1_build x name noise drift h : wrong1 x -> (name = "DW" \/ name = "OU") -> w_build W name noise drift x h = Some (Err TypeError).
Proof.
  intros H Hn. cbn [w_build world1]. unfold build1. rewrite (wrong1_seed x H).
  cbn [bind]; destruct Hn as [-> | ->]; reflexivity.
Qed.
Lemma wrong1_never x name noise drift h m : wrong1 x -> w_build W name noise drift x h <> Some (Ok m).
Proof.
  intros H E. cbn [w_build world1] in E. unfold build1 in E. rewrite (wrong1_seed x H) in E.
  cbn [bind] in E; destruct (String.eqb name "DW"), (String.eqb name "OU"); discriminate.
Qed.
End One.

Section Many.
Context (K : Num) (G : Rng K) (eigvals : nat -> mat K -> list (K * K)) (solve : nat -> mat K -> result (vec K -> vec K))
  (nln : K -> K) (npi : K) (spline : list K -> list K -> K -> K) (show : pv (leafn K) -> string).
Notation W := (worldn K G eigvals solve nln npi spline show).
Lemma fixesn_seed x : fixesn x -> exists s, nas_seed K x = Ok s /\ seed_truthy s = true.
Proof.
  intros [(z & -> & Hz)|[->|[(l & -> & Hl)|[(n & v & -> & Hn)|(r & c & m & -> & Hr & Hc)]]]].
  - eexists. split; [reflexivity|]. cbn. destruct (Z.eqb_spec z 0); [contradiction|reflexivity].
  - eexists. split; reflexivity.
  - eexists. split; [reflexivity|]. destruct l; [contradiction|reflexivity].
  - eexists. split; [reflexivity|]. destruct n; [contradiction|reflexivity].
  - destruct r; [contradiction|]. destruct c; [contradiction|]. eexists. split; reflexivity.
Qed.
Lemma no_seedn_seed x : no_seedn x -> exists s, nas_seed K x = Ok s /\ seed_truthy s = false.
Proof.
  intros [->|[->|[->|[(v & -> & Hv)|[->|[->|[->|(t & v & ->)]]]]]]]; try (eexists; split; reflexivity).
  - exists SeedNone. cbn [nas_seed ntruthy]. rewrite Hv. split; reflexivity.
  - destruct t; eexists; split; reflexivity.
Qed.
Lemma wrongn_seed x : wrongn x -> nas_seed K x = Err TypeError.
Proof.
  intros [(v & -> & Hv)|[(s & -> & Hs)|[(d & -> & Hd)|[(n & v & -> & Hn)|(r & c & m & -> & Hr & Hc)]]]]; cbn [nas_seed ntruthy].
  - rewrite Hv. reflexivity.
  - destruct (String.eqb_spec s ""); [contradiction|reflexivity].
  - destruct d; [contradiction|reflexivity].
  - destruct n; [contradiction|reflexivity].
  - destruct r; [contradiction|]. reflexivity.
Qed.
Lemma fixesn_det x : fixesn x -> det_seed W x.
Proof.
  intros H name noise drift h h'. destruct (fixesn_seed x H) as (s & E & Hs). cbn [w_build worldn]. unfold buildn, l63_init, l96_init.
  rewrite E. destruct (nas_arr K noise) as [t sg]. cbn [bind]. rewrite (base_fixed G (vec K) s h h' Hs). reflexivity.
Qed.
Lemma no_seedn_none x name noise drift h : no_seedn x -> w_build W name noise drift x h = w_build W name noise drift (PLeaf NNull) h.
Proof.
  intros H. destruct (no_seedn_seed x H) as (s & E & Hs). cbn [w_build worldn]. unfold buildn, l63_init, l96_init.
  rewrite E. cbn [nas_seed ntruthy]. destruct (nas_arr K noise) as [t sg]. cbn [bind]. rewrite (base_none G (vec K) s h Hs). reflexivity.
Qed.
Lemma wrongn_never x name noise drift h m : wrongn x -> w_build W name noise drift x h <> Some (Ok m).
Proof.
  intros H E. cbn [w_build worldn] in E. unfold buildn in E. rewrite (wrongn_seed x H) in E. destruct (nas_arr K noise) as [t sg].
  cbn [bind] in E; destruct (String.eqb name "L63"), (String.eqb name "L96"); discriminate.
Qed.
End Many.

(** ** setup *)
Section Setup.
Context (W : World).
Lemma setup_refused_seed params data h (d : mdata W) x : field params "Random-Seed" x ->
  (forall name noise drift m, w_build W name noise drift x h <> Some (Ok m)) ->
  fst (setup W params data h d) <> Ok tt.
Proof.
  intros Hf Hb E. rewrite (setup_pure W params data h d) in E. unfold pure in E.
  destruct (reads params first_entries) as [[]|]; cbn [bind] in E; [|discriminate].
  destruct (look params ["Model"]) as [name|]; cbn [bind] in E; [|discriminate].
  destruct (look params ["Noise"; "sys"]) as [sys|]; cbn [bind] in E; [|discriminate].
  destruct (look params ["Drift"; "theta"]) as [theta|]; cbn [bind] in E; [|discriminate].
  apply item_field in Hf. cbn [look] in E. rewrite Hf in E. cbn [bind] in E.
  destruct (stochastic_model W name sys theta x h) as [m|e] eqn:Em; [|discriminate].
  unfold stochastic_model in Em. destruct name as [l|]; [|discriminate].
  destruct (w_build W (upper (w_str W (PLeaf l))) sys theta x h) as [[m'|[]]|] eqn:Eb; try discriminate. exact (Hb _ _ _ _ Eb).
Qed.
End Setup.
