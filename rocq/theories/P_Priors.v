(** * Prior distributions given by lists *)
From Coq Require Import ZArith List Bool Arith Reals Lra Lia Sorted String FunctionalExtensionality.
From Verif Require Import Num Arr ArrFacts M_LinAlg M_Ode M_Sde1 M_L63 M_L96 M_L96E M_Prior M_Like M_VarGP M_Scg M_Run M_Proc M_Sim M_SimN
  Spec_Utils Spec_Gauss Spec_GaussN Spec_Ode Spec_L63 Spec_L96 Spec_L96E Spec_Prior Spec_Like Spec_Proc Spec_Sim Spec_SimN Spec_Problem Spec_ProblemN Spec_Priors
  P_Det P_RMat P_Ode P_OdeR P_OdeRK P_OdeSel P_Like P_Init P_Proc P_Traj P_Noise P_VarGP P_Sim P_Sim2 P_Main P_SimN P_SimN2 P_Problem P_Problem2 P_ProblemN P_ProblemN2 P_ProblemN3
  Props_Proc Props_Prior.
Import ListNotations.
Local Open Scope string_scope.
Local Open Scope R_scope.

Section Fails.
Context (W : World).
Ltac go :=
  match goal with
  | |- context [sbind W (put W ?k ?v) ?f ?d] => rewrite (sbind_go W (put W k v) f d tt (dset k v d) eq_refl)
  | |- context [sbind W (lift W ?r) ?f ?d] => erewrite (sbind_go W (lift W r) f d) by (apply lift_go; first [eassumption | apply item_field; eassumption])
  | |- context [sbind W (get2 W ?k ?j) ?f ?d] => erewrite (sbind_go W (get2 W k j) f d) by (eapply get2_go; [look; reflexivity|apply item_field; eassumption])
  | |- context [sbind W (get_par W ?k) ?f ?d] => erewrite (sbind_go W (get_par W k) f d) by (apply get_par_go; look; reflexivity)
  | |- context [sbind W (get_flag W ?k) ?f ?d] => erewrite (sbind_go W (get_flag W k) f d) by (apply get_flag_go; look; reflexivity)
  | |- context [sbind W (get_model W ?k) ?f ?d] => erewrite (sbind_go W (get_model W k) f d) by (apply get_model_go; look; reflexivity)
  | |- context [sbind W (on_model W ?g) ?f ?d] => erewrite (sbind_go W (on_model W g) f d) by (eapply on_model_go; [look; reflexivity|eassumption])
  end; cbv beta iota.
(** a prior that does not fit *)
Lemma setup_prior_fails params h d0 dr nz tw os pr mtd seed sys obs theta t0 tf dt density op mu tau name m m1 m2 m3 t y n v e :
  field params "Drift" dr -> field params "Noise" nz -> field params "Time-window" tw -> field params "Ode-method" mtd ->
  field params "Random-Seed" seed -> field params "Observations" os -> field params "Prior" pr ->
  field params "Model" (PLeaf name) ->
  field pr "mu0" mu -> field pr "tau0" tau -> field nz "sys" sys -> field nz "obs" obs -> field dr "theta" theta ->
  field tw "t0" t0 -> field tw "tf" tf -> field tw "dt" dt -> field os "density" density -> field os "operator" op ->
  w_build W (upper (w_str W (PLeaf name))) sys theta seed h = Some (Ok m) -> w_single W m = false ->
  w_traj W t0 tf dt m = (Ok tt, m1) -> w_collect W density obs op m1 = (Ok (t, y, n), m2) ->
  w_m0 W m2 = (Ok v, m3) -> (w_mu0 W mu m3 = Err e \/ (exists mu', w_mu0 W mu m3 = Ok mu') /\ w_tau0 W tau m3 = Err e) ->
  exists d, setup W params DNone h d0 = (Err e, d).
Proof.
  intros until 23. intros Hx. assert (Hb : stochastic_model W (PLeaf name) sys theta seed h = Ok m).
  { unfold stochastic_model. rewrite H17. reflexivity. }
  unfold setup, setup_params. rewrite !sbind_assoc.
  repeat (first [go | rewrite sbind_assoc]; cbv beta).
  unfold setup_model. rewrite !sbind_assoc.
  repeat (first [go | rewrite sbind_assoc]; cbv beta). rewrite H18.
  unfold setup_obs. repeat (first [go | rewrite sbind_assoc]; cbv beta).
  unfold setup_moments. repeat (first [go | rewrite sbind_assoc]; cbv beta).
  destruct Hx as [Hx|[(mu' & Hy) Hx]].
  - erewrite (sbind_stop W (lift W _)) by (unfold lift; rewrite Hx; reflexivity). eauto.
  - repeat (first [go | rewrite sbind_assoc]; cbv beta).
    erewrite (sbind_stop W (lift W _)) by (unfold lift; rewrite Hx; reflexivity). eauto.
Qed.
(** parameters whose priors lead to the same values *)
Lemma same_prior (p p' mu tau mu' tau' : pv (w_leaf W)) h (s s1 : Sim W) :
  (forall m, w_single W m = false) ->
  (forall key x, key <> "Prior" -> field p key x <-> field p' key x) ->
  (exists pr pr', field p "Prior" pr /\ field p' "Prior" pr' /\ field pr "mu0" mu /\ field pr "tau0" tau /\
    field pr' "mu0" mu' /\ field pr' "tau0" tau') ->
  (forall m, w_mu0 W mu m = w_mu0 W mu' m) -> (forall m, w_tau0 W tau m = w_tau0 W tau' m) ->
  sim_setup W p DNone h s = (Ok tt, s1) ->
  exists s1', sim_setup W p' DNone h s = (Ok tt, s1') /\
    fst (sim_run W s1') = fst (sim_run W s1) /\ s_out (snd (sim_run W s1')) = s_out (snd (sim_run W s1)).
Proof.
  intros Hs Ha (pr & pr' & P1 & P2 & P3 & P4 & P5 & P6) Hmu Htau H. unfold sim_setup in H.
  destruct (setup W p DNone h (s_data s)) as [[[]|e] d] eqn:E; [|discriminate]. injection H as <-.
  destruct (setup_generated W p h (s_data s) d E) as (i & m1 & m2 & F & Gv & Cl).
  destruct Gv as (G1 & (os & G2 & G3) & (name & nz & sys & dr & theta & seed & tw & t0 & tf & m & M1 & M2 & M3 & M4 & M5 & M6 & M7 & M8 & M9 & M10 & M11 & M12 & M13)
    & G4 & G5 & (prx & mux & taux & X1 & X2 & X3 & X4)).
  destruct Cl as (os' & nz' & density & noise & C1 & C2 & C3 & C4 & C5 & C6).
  assert (FU : forall (x : pv (w_leaf W)) k u u', field x k u -> field x k u' -> u = u').
  { intros x k u u' A B. apply item_field in A, B. congruence. }
  assert (Hi : i_single i = false) by (rewrite M12; apply Hs). rewrite Hi in X4.
  destruct X4 as (a & b & Y1 & Y2 & Y3 & Y4).
  pose proof (FU _ _ _ _ X1 P1) as ->. pose proof (FU _ _ _ _ X2 P3) as ->. pose proof (FU _ _ _ _ X3 P4) as ->.
  rewrite Hmu in Y2. rewrite Htau in Y4.
  pose proof (FU _ _ _ _ C1 G2) as ->. pose proof (FU _ _ _ _ C4 M2) as ->.
  assert (R : forall key x, key <> "Prior" -> field p key x -> field p' key x) by (intros key x Hk A; apply Ha; assumption).
  destruct (setup_forward_n W p' h (s_data s) dr nz tw os pr' (i_method i) seed sys noise theta t0 tf (i_dt i) density (i_op i) mu' tau' name m m1 m2
    (i_model i) (i_t i) (i_y i) (i_noise i) (i_m0 i) a b) as (d' & E' & F'); try assumption; try (apply R; [discriminate|assumption]).
  { apply Hs. }
  exists (mkSim (s_name s) d' (s_out s)). unfold sim_setup. rewrite E'. split; [reflexivity|].
  pose proof (run_finds W d i F) as R1. pose proof (run_finds W d' _ F') as R2.
  assert (Ei : run_on i = run_on (mkInputs (i_dt i) (i_method i) false (i_y i) (i_t i) (i_noise i) (i_op i) (inr a) (inr b) (i_model i) (i_m0 i) (w_s0 W (i_model i)))).
  { unfold run_on. cbn [i_dt i_method i_single i_y i_t i_noise i_op i_mu0 i_tau0 i_model i_m0 i_s0]. rewrite Hi, Y1, Y3, G5. reflexivity. }
  unfold sim_run. cbn [s_data s_out]. rewrite R1, R2, <- Ei. destruct (run_on i); split; reflexivity.
Qed.
End Fails.

Section Lists.
Context (G : Rng RNum) (eigvals : nat -> mat RNum -> list (RNum * RNum)) (solve : nat -> mat RNum -> result (vec RNum -> vec RNum))
  (spline : list R -> list R -> R -> R) (show : parn -> string).
Notation W := (worldn RNum G eigvals solve ln PI spline show).

Lemma fits_not d k : k <> 1%nat -> k <> d -> fits k d = false.
Proof. intros H1 H2. unfold fits. destruct (Nat.eqb_spec k d); [contradiction|]. destruct (Nat.eqb_spec k 1); [contradiction|reflexivity]. Qed.
Lemma mean_misfit_fails x (m : modeln RNum G) : mean_misfit (q_dim (snd m)) (as_numbers x) -> mu0_n RNum G x m = Err ValueError.
Proof.
  rewrite mu0_as. generalize (as_numbers x). clear x. intros x [(t & k & u & -> & H1 & H2)|(t & r & c & a & -> & H1 & H2)]; unfold mu0_n; cbn [nas_list]; rewrite fits_not by assumption; reflexivity.
Qed.
Lemma cov_misfit_fails x (m : modeln RNum G) : cov_misfit (q_dim (snd m)) (as_numbers x) -> tau0_n RNum G x m = Err ValueError.
Proof.
  rewrite tau0_as. generalize (as_numbers x). clear x. intros x [(t & k & u & -> & H1 & H2)|(t & r & c & a & -> & [[H1 H2]|[H1 H2]])]; unfold tau0_n; cbn [nas_list].
  - rewrite fits_not by assumption. reflexivity.
  - rewrite (fits_not _ r) by assumption. reflexivity.
  - rewrite (fits_not _ c), andb_false_r by assumption. reflexivity.
Qed.
Lemma misfit k params name method sys theta obs xmu xtau C th v t0 tf dt density seed (h : r_state G) (s : Sim W) :
  let d := dim_n k in
  entries_p params name method sys theta obs xmu xtau t0 tf dt density seed -> acceptable_p k name method C v t0 tf dt density seed ->
  drift_is k theta th -> sys_n d sys C -> obs_n d obs v -> spectrum d C (eigvals d C) ->
  mean_misfit d (as_numbers xmu) \/ (exists mu flat, mean_n d (as_numbers xmu) mu flat) /\ cov_misfit d (as_numbers xtau) ->
  fst (sim_setup W params DNone h s) = Err ValueError.
Proof.
  intros d (dr & nz & tw & os & pr & x4 & x5 & x6 & F1 & F2 & F3 & F4 & F5 & F6 & F7 &
    F8 & F9 & N4 & F10 & N5 & F11 & N6 & F12 & F13 & F14 & F15 & F16 & F17 & F18)
    (Q1 & Q2 & Q3 & (Q5 & Q6 & Q7) & Q8 & Q9 & (mn & Q10 & Q11) & Q12) Hdr Hsys Hobs Hspec Hbad.
  assert (Hd1 : d <> 1%nat) by (unfold d; destruct k; cbn; lia).
  destruct (buildn_full G eigvals k name C th sys theta seed h Q9 Hdr Hsys Q1 Q2 Hspec Q12) as (p & B & Bd & BC & Bth & Binv & Bst).
  destruct (trajn_full G k p C t0 tf dt x4 x5 x6 Bd BC Q1 Q2 Q5 Q6 N4 N5 N6) as (n & tk & x & p1 & T & Td & TC & Tth & Ti & Ttk & Tx & Tg & Tr & Tl & Tp).
  pose proof (reaches_two _ _ _ _ Q6 Tr) as Hn2.
  destruct (collectn_full G k p1 d tk x t0 dt n obs v density Td Hd1 Ttk Tx Tg Hn2 Q5 Tl Q8 Q7 Hobs)
    as (m & ts & ys & Cn & p2 & Cc & CnD & CnV & Cm & Cmn & Co & Cd & CC & Cth & Ci & Ctk & Cx).
  destruct (m0n_full G k p2 x Cx ltac:(lia)) as (z & g3 & p3 & Mz & M & Mg & Md & MC & Mth & Mi & Mtk & Mx).
  rewrite Cd in Md.
  assert (Hb : w_mu0 W xmu (k, p3) = Err ValueError \/ (exists mu', w_mu0 W xmu (k, p3) = Ok mu') /\ w_tau0 W xtau (k, p3) = Err ValueError).
  { destruct Hbad as [H|[(mu & flat & H1) H2]].
    - left. apply mean_misfit_fails. cbn [snd]. rewrite Md. exact H.
    - right. split; [|apply cov_misfit_fails; cbn [snd]; rewrite Md; exact H2].
      exists (stored_val mu flat). apply mu0_list; cbn [snd]; rewrite Md; assumption. }
  destruct (setup_prior_fails W params h (s_data s) dr nz tw os pr (PLeaf (NStr method)) _ sys obs theta x4 x5 x6 (rate_leafn density) (PLeaf NNull)
    xmu xtau (NStr name) (k, p) (k, p1) (k, p2) (k, p3) (WIdx ts) (WRows (ys : list (vec RNum))) (WNoise (A2 (K:=RNum) d d Cn)) _ _
    F3 F5 F8 F2 F18 F15 F12 F1 F13 F14 F6 F7 F4 F9 F10 F11 F16 F17 B eq_refl T Cc M Hb) as (dd & Hset).
  unfold sim_setup. rewrite Hset. reflexivity.
Qed.
(** only the diagonal counts *)
Lemma diagonal_counts d t t' (M M' : nat -> nat -> R) : (forall i, M i i = M' i i) ->
  forall m, w_tau0 W (PLeaf (NArr t (A2 (K:=RNum) d d M))) m = w_tau0 W (PLeaf (NArr t' (A2 (K:=RNum) d d M'))) m.
Proof.
  intros H m. cbn [w_tau0 worldn]. unfold tau0_n. cbn [nas_list]. destruct (fits d _ && fits d _); [|reflexivity]. do 2 f_equal.
  apply functional_extensionality. intros i. apply functional_extensionality. intros j.
  etransitivity; [exact (times_eye (M (pick d i) (pick d j)) i j)|]. symmetry. etransitivity; [exact (times_eye (M' (pick d i) (pick d j)) i j)|].
  destruct (Nat.eqb_spec i j) as [->|]; [symmetry; apply H|reflexivity].
Qed.
End Lists.

(** two covariances with the same diagonal *)
Definition corr (c : R) : nat -> nat -> R := fun i j => if Nat.eqb i j then 1 / 5 else if andb (Nat.ltb i 2) (Nat.ltb j 2) then c else 0.
Lemma corr_symm c : symm 3 (corr c).
Proof. intros i j _ _. unfold corr. rewrite (Nat.eqb_sym j i), (andb_comm (Nat.ltb j 2)). reflexivity. Qed.
Lemma corr_pd : posdef 3 (corr (1 / 10)).
Proof.
  intros v (i & Hi & Hv). cbn [Rsum]. unfold corr. cbn [Nat.eqb Nat.ltb Nat.leb andb].
  match goal with |- 0 < ?g => replace g with (/ 20 * (v 0%nat - v 1%nat) ^ 2 + 3 / 20 * (v 0%nat + v 1%nat) ^ 2 + 1 / 5 * v 2%nat ^ 2) by field end.
  pose proof (pow2_ge_0 (v 0%nat - v 1%nat)). pose proof (pow2_ge_0 (v 0%nat + v 1%nat)). pose proof (pow2_ge_0 (v 2%nat)).
  assert (P : forall x : R, x <> 0 -> 0 < x ^ 2) by (intros x Hx; rewrite <- Rsqr_pow2; apply Rsqr_pos_lt, Hx).
  destruct i as [|[|[|i]]]; [| | |lia].
  - pose proof (P _ Hv). assert (v 0%nat ^ 2 <= (v 0%nat - v 1%nat) ^ 2 + (v 0%nat + v 1%nat) ^ 2) by nra. lra.
  - pose proof (P _ Hv). assert (v 1%nat ^ 2 <= (v 0%nat - v 1%nat) ^ 2 + (v 0%nat + v 1%nat) ^ 2) by nra. lra.
  - pose proof (P _ Hv). lra.
Qed.
Lemma corr_zero : corr 0 = times_id (1 / 5).
Proof.
  apply functional_extensionality. intros i. apply functional_extensionality. intros j. unfold corr, times_id.
  destruct (Nat.eqb i j); [reflexivity|]. destruct (andb _ _); reflexivity.
Qed.
Lemma divergences_differ m : exists k k', KLn 3 m (times_id (1 / 5)) m (corr 0) k /\ KLn 3 m (times_id (1 / 5)) m (corr (1 / 10)) k' /\ k < k'.
Proof.
  assert (P5 : 0 < 1 / 5) by lra.
  pose proof (times_id_symm 3 (1 / 5)) as S1. pose proof (times_id_posdef 3 (1 / 5) P5) as S2.
  destruct (C26_nd_partial 3 m (corr 0) m (times_id (1 / 5)) S1 S2) as (k & _ & K & _).
  { apply corr_symm. } { rewrite corr_zero. exact S2. } { apply id_commute. }
  destruct (C26_nd_partial 3 m (corr (1 / 10)) m (times_id (1 / 5)) S1 S2 (corr_symm _) corr_pd (id_commute 3 _ _)) as (k' & _ & K' & _).
  exists k, k'. split; [exact K|]. split; [exact K'|].
  rewrite corr_zero in K. destruct (C26_kl_nd _ _ _ _ _ _ S1 S2 S1 S2 K) as [_ [_ Z]].
  destruct (C26_kl_nd _ _ _ _ _ _ S1 S2 (corr_symm _) corr_pd K') as [N [Z' _]].
  rewrite Z by (split; reflexivity). destruct (Rle_lt_or_eq_dec _ _ N) as [L|E]; [exact L|].
  exfalso. destruct (Z' (eq_sym E)) as [_ Q]. specialize (Q 0%nat 1%nat ltac:(lia) ltac:(lia)). unfold corr, times_id in Q. cbn in Q. lra.
Qed.
