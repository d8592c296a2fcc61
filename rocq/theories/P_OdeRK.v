(** * The solver steps are Runge-Kutta steps (exact arithmetic). *)
From Coq Require Import ZArith Bool Lia Reals Lra FunctionalExtensionality.
From Coq Require Import List.
From Verif Require Import Num Arr ArrFacts M_Ode Spec_Ode P_Ode.
Import ListNotations.
Local Open Scope R_scope.

Definition tab_of (m : method) : tableau :=
  match m with Euler => tab_euler | Heun => tab_heun | RK2 => tab_midpoint | RK4 => tab_rk4 end.

Section RKform.
Context {V : Val RNum} (E : ValEv V).
Local Open Scope val_scope.
Notation hf := (@half RNum).

Lemma interp_0 (u v : V) : interp 0 u v = u.
Proof. unfold interp. vring E. Qed.
Lemma interp_1 (u v : V) : interp 1 u v = v.
Proof. unfold interp. vring E. Qed.
Lemma interp_half (u v : V) : interp (1/2) u v = half *v (u +v v).
Proof. unfold interp, half. vring E. Qed.
Lemma interp_half_sym (u v : V) : interp (1/2) u v = half *v (v +v u).
Proof. unfold interp, half. vring E. Qed.

Ltac stages :=
  unfold rk_step; cbn [tab_rows tab_b rk_stages app lincomb tab_euler tab_heun tab_midpoint tab_rk4].
Ltac eqv := unfold half; vring E.

Lemma euler_rk (F : R -> V -> V) (h : R) y :
  y +v (h : RNum) *v F 0 y = rk_step tab_euler F h y.
Proof.
  stages. replace (y +v (h : RNum) *v vzero V) with y by eqv. eqv.
Qed.
Lemma heun_rk (F : R -> V -> V) (h : R) y :
  y +v (hf * h)%num *v (F 0 y +v F 1 (y +v (h : RNum) *v F 0 y)) = rk_step tab_heun F h y.
Proof.
  stages. replace (y +v (h : RNum) *v vzero V) with y by eqv.
  set (K1 := F 0 y).
  replace (y +v (h : RNum) *v ((1 : RNum) *v K1 +v vzero V))
    with (y +v (h : RNum) *v K1) by eqv.
  set (K2 := F 1 _). eqv.
Qed.
Lemma midpoint_rk (F : R -> V -> V) (h : R) y :
  y +v (h : RNum) *v F (1/2) (y +v (hf * h)%num *v F 0 y) = rk_step tab_midpoint F h y.
Proof.
  stages. replace (y +v (h : RNum) *v vzero V) with y by eqv.
  set (K1 := F 0 y).
  replace (y +v (h : RNum) *v (((1/2) : RNum) *v K1 +v vzero V))
    with (y +v (hf * h)%num *v K1) by eqv.
  set (K2 := F (1/2) _). eqv.
Qed.
Lemma rk4_rk (F : R -> V -> V) (h : R) y K1 K2 K3 K4 :
  K1 = F 0 y ->
  K2 = F (1/2) (y +v (hf * h)%num *v K1) ->
  K3 = F (1/2) (y +v (hf * h)%num *v K2) ->
  K4 = F 1 (y +v (h : RNum) *v K3) ->
  y +v ((h : RNum) *v (K1 +v nZ 2 *v (K2 +v K3) +v K4)) /v nZ 6 = rk_step tab_rk4 F h y.
Proof.
  intros H1 H2 H3 H4.
  stages. replace (y +v (h : RNum) *v vzero V) with y by eqv.
  rewrite <- H1.
  replace (y +v (h : RNum) *v (((1/2) : RNum) *v K1 +v vzero V))
    with (y +v (hf * h)%num *v K1) by eqv.
  rewrite <- H2.
  replace (y +v (h : RNum) *v ((0 : RNum) *v K1 +v (((1/2) : RNum) *v K2 +v vzero V)))
    with (y +v (hf * h)%num *v K2) by eqv.
  rewrite <- H3.
  replace (y +v (h : RNum) *v ((0 : RNum) *v K1 +v ((0 : RNum) *v K2 +v ((1 : RNum) *v K3 +v vzero V))))
    with (y +v (h : RNum) *v K3) by eqv.
  rewrite <- H4. clear -E. eqv.
Qed.

(** the same with step -h, written with subtractions *)
Lemma sub_add_opp (h : R) (y u : V) : y -v (h : RNum) *v u = y +v ((- h) : RNum) *v u.
Proof. eqv. Qed.
Lemma sub_add_opp_half (h : R) (y u : V) :
  y -v (hf * (h:RNum))%num *v u = y +v (hf * ((- h) : RNum))%num *v u.
Proof. eqv. Qed.
Lemma sub_add_opp_six (h : R) (y u : V) :
  y -v ((h : RNum) *v u) /v nZ 6 = y +v (((- h) : RNum) *v u) /v nZ 6.
Proof. eqv. Qed.
End RKform.

Section Step.
Context (P : Sys RNum) (EM : ValEv (VM P)) (ES : ValEv (VS P)).
Local Open Scope val_scope.

(** right-hand sides seen by the textbook scheme on the step k -> k+1 *)
Definition Fm (A : list (VS P)) (b : list (VM P)) (k : nat) (th : R) (m : VM P) : VM P :=
  f_mt P m (interp th (ga P A k) (ga P A (k+1))) (interp th (gm P b k) (gm P b (k+1))).
Definition Fs (A : list (VS P)) (sigma : VS P) (k : nat) (th : R) (s : VS P) : VS P :=
  f_st P s (interp th (ga P A k) (ga P A (k+1))) sigma.
(** and on the step t -> t-1 *)
Definition Fl (A : list (VS P)) (dm : list (VM P)) (t : nat) (th : R) (l : VM P) : VM P :=
  f_lam P (interp th (gm P dm t) (gm P dm (t-1))) (interp th (ga P A t) (ga P A (t-1))) l.
Definition Fp (A : list (VS P)) (ds : list (VS P)) (t : nat) (th : R) (p : VS P) : VS P :=
  f_psi P (interp th (ga P ds t) (ga P ds (t-1))) (interp th (ga P A t) (ga P A (t-1))) p.

Lemma ga_mids A k : (k + 1 < length A)%nat ->
  ga P (mids A) k = half *v (ga P A k +v ga P A (k+1)).
Proof. intros. unfold ga. now apply nth_mids. Qed.
Lemma gm_mids b k : (k + 1 < length b)%nat ->
  gm P (mids b) k = half *v (gm P b k +v gm P b (k+1)).
Proof. intros. unfold gm. now apply nth_mids. Qed.
Lemma ga_mids_app A k z : (k + 1 < length A)%nat ->
  ga P (mids A ++ [z]) k = half *v (ga P A k +v ga P A (k+1)).
Proof. intros. unfold ga. now apply nth_mids_app. Qed.
Lemma gm_mids_app b k z : (k + 1 < length b)%nat ->
  gm P (mids b ++ [z]) k = half *v (gm P b k +v gm P b (k+1)).
Proof. intros. unfold gm. now apply nth_mids_app. Qed.

Ltac interps :=
  rewrite ?(interp_0 EM), ?(interp_0 ES), ?(interp_1 EM), ?(interp_1 ES),
      ?(interp_half EM), ?(interp_half ES).

Lemma fwd_mean_step mtd dt A b sigma k m s :
  (k + 1 < length A)%nat -> (k + 1 < length b)%nat ->
  fst (fwd_body P mtd dt A b sigma k m s) = rk_step (tab_of mtd) (Fm A b k) dt m.
Proof.
  intros HA Hb. destruct mtd; cbn [fwd_body tab_of].
  - rewrite <- (euler_rk EM). unfold Fm; interps. reflexivity.
  - rewrite <- (heun_rk EM). unfold Fm; interps. reflexivity.
  - rewrite <- (midpoint_rk EM). unfold Fm; interps.
    rewrite <- (ga_mids A), <- (gm_mids b) by assumption. reflexivity.
  - unfold rk4_fwd_body; cbn [fst].
    apply (rk4_rk EM); unfold Fm; interps; try reflexivity;
    rewrite <- (ga_mids A), <- (gm_mids b) by assumption; reflexivity.
Qed.

Lemma fwd_cov_step mtd dt A b sigma k m s :
  mtd <> RK2 ->
  (k + 1 < length A)%nat ->
  snd (fwd_body P mtd dt A b sigma k m s) = rk_step (tab_of mtd) (Fs A sigma k) dt s.
Proof.
  intros Hm HA. destruct mtd; cbn [fwd_body tab_of]; try congruence.
  - rewrite <- (euler_rk ES). unfold Fs; interps. reflexivity.
  - rewrite <- (heun_rk ES). unfold Fs; interps. reflexivity.
  - unfold rk4_fwd_body; cbn [snd].
    apply (rk4_rk ES); unfold Fs; interps; try reflexivity;
    rewrite <- (ga_mids A) by assumption; reflexivity.
Qed.

Ltac interps' :=
  rewrite ?(interp_0 EM), ?(interp_0 ES), ?(interp_1 EM), ?(interp_1 ES),
      ?(interp_half_sym EM), ?(interp_half_sym ES).

Lemma bwd_lam_step mtd dt A dm ds om os t l p :
  (0 < t)%nat -> (t < length A)%nat -> (t < length dm)%nat ->
  fst (bwd_body P mtd dt A dm ds om os t l p) =
  rk_step (tab_of mtd) (Fl A dm t) (- dt) l +v gm P om (t - 1).
Proof.
  intros Ht HA Hd.
  assert (Et : forall V : Type, forall f : nat -> V, f t = f (t - 1 + 1)%nat)
    by (intros; f_equal; lia).
  destruct mtd; cbn [bwd_body tab_of].
  - rewrite <- (euler_rk EM), <- (sub_add_opp EM). unfold Fl; interps'. reflexivity.
  - rewrite <- (heun_rk EM), <- (sub_add_opp_half EM), <- (sub_add_opp EM). unfold Fl; interps'. reflexivity.
  - rewrite <- (midpoint_rk EM), <- (sub_add_opp EM), <- (sub_add_opp_half EM). unfold Fl; interps'.
    unfold rk2_bwd_body; cbn [fst]. rewrite ga_mids_app, gm_mids_app by lia.
    replace (t - 1 + 1)%nat with t by lia. reflexivity.
  - unfold rk4_bwd_body; cbn [fst].
    rewrite (sub_add_opp_six EM). f_equal.
    rewrite ga_mids_app, gm_mids_app by lia.
    replace (t - 1 + 1)%nat with t by lia.
    apply (rk4_rk EM); unfold Fl; interps';
    rewrite <- ?(sub_add_opp_half EM), <- ?(sub_add_opp EM); reflexivity.
Qed.

Lemma bwd_psi_step mtd dt A dm ds om os t l p :
  (0 < t)%nat -> (t < length A)%nat -> (t < length ds)%nat ->
  snd (bwd_body P mtd dt A dm ds om os t l p) =
  rk_step (tab_of mtd) (Fp A ds t) (- dt) p +v ga P os (t - 1).
Proof.
  intros Ht HA Hd.
  destruct mtd; cbn [bwd_body tab_of].
  - rewrite <- (euler_rk ES), <- (sub_add_opp ES). unfold Fp; interps'. reflexivity.
  - rewrite <- (heun_rk ES), <- (sub_add_opp_half ES), <- (sub_add_opp ES). unfold Fp; interps'. reflexivity.
  - rewrite <- (midpoint_rk ES), <- (sub_add_opp ES), <- (sub_add_opp_half ES). unfold Fp; interps'.
    unfold rk2_bwd_body; cbn [snd]. rewrite !ga_mids_app by lia.
    replace (t - 1 + 1)%nat with t by lia. reflexivity.
  - unfold rk4_bwd_body; cbn [snd].
    rewrite (sub_add_opp_six ES). f_equal.
    rewrite !ga_mids_app by lia.
    replace (t - 1 + 1)%nat with t by lia.
    apply (rk4_rk ES); unfold Fp; interps';
    rewrite <- ?(sub_add_opp_half ES), <- ?(sub_add_opp ES); reflexivity.
Qed.

End Step.
