(** * The backward sweep is the adjoint of the forward sweep: running costs of Heun and RK4 *)
From Coq Require Import ZArith Bool Lia Reals Lra Psatz FunctionalExtensionality.
From Coq Require Import List.
From Verif Require Import Num Arr ArrFacts M_Ode Spec_Ode Spec_Dual P_Ode P_OdeRK P_OdeR P_Dual.
Import ListNotations.
Local Open Scope R_scope.

(** the integral of the running cost over one step, written out *)
Section Quad.
Context {V B : Val RNum} {A : Type} (ip : V -> V -> R) (f : V -> A -> B -> V).
Local Open Scope val_scope.
Definition quad (mtd : method) (dt : R) (a0 am a1 : A) (b0 bm b1 : B) (g0 gm g1 : V) (x : V) : R :=
  match mtd with
  | Heun => dt / 2 * (ip g0 x + ip g1 (x +v (dt : RNum) *v f x a0 b0))
  | RK4 => let h := (half * dt : RNum)%num in
           let K1 := f x a0 b0 in let K2 := f (x +v h *v K1) am bm in let K3 := f (x +v h *v K2) am bm in
           dt / 6 * (ip g0 x + 2 * ip gm (x +v h *v K1) + 2 * ip gm (x +v h *v K2) + ip g1 (x +v (dt : RNum) *v K3))
  | _ => 0
  end.
End Quad.
Section QuadRK.
Context {V : Val RNum} (E : ValEv V).
Local Open Scope val_scope.
Ltac eqv := unfold half; vring E.
Lemma heun_quad (F : R -> V -> V) (C : R -> V -> R) (h : R) y :
  rk_integral tab_heun F C h y = h / 2 * (C 0 y + C 1 (y +v (h : RNum) *v F 0 y)).
Proof.
  unfold rk_integral. cbn [tab_rows tab_b tab_heun rk_visited app lincomb combine fold_right].
  replace (y +v (h : RNum) *v vzero V) with y by eqv. set (K1 := F 0 y).
  replace (y +v (h : RNum) *v ((1 : RNum) *v K1 +v vzero V)) with (y +v (h : RNum) *v K1) by eqv. field.
Qed.
Lemma rk4_quad (F : R -> V -> V) (C : R -> V -> R) (h : R) y K1 K2 K3 :
  K1 = F 0 y -> K2 = F (1/2) (y +v (half * (h : RNum))%num *v K1) -> K3 = F (1/2) (y +v (half * (h : RNum))%num *v K2) ->
  rk_integral tab_rk4 F C h y =
    h / 6 * (C 0 y + 2 * C (1/2) (y +v (half * (h : RNum))%num *v K1) + 2 * C (1/2) (y +v (half * (h : RNum))%num *v K2) + C 1 (y +v (h : RNum) *v K3)).
Proof.
  intros H1 H2 H3. unfold rk_integral. cbn [tab_rows tab_b tab_rk4 rk_visited app lincomb combine fold_right].
  replace (y +v (h : RNum) *v vzero V) with y by eqv. rewrite <- H1.
  replace (y +v (h : RNum) *v (((1/2) : RNum) *v K1 +v vzero V)) with (y +v (half * (h : RNum))%num *v K1) by eqv. rewrite <- H2.
  replace (y +v (h : RNum) *v ((0 : RNum) *v K1 +v (((1/2) : RNum) *v K2 +v vzero V))) with (y +v (half * (h : RNum))%num *v K2) by eqv. rewrite <- H3.
  replace (y +v (h : RNum) *v ((0 : RNum) *v K1 +v ((0 : RNum) *v K2 +v ((1 : RNum) *v K3 +v vzero V)))) with (y +v (h : RNum) *v K3) by eqv.
  field.
Qed.
End QuadRK.

Section Dual.
Context {V : Val RNum} {A : Type} (ip : V -> V -> R) (G : A -> Prop) (L Lt : A -> V -> V) (fw bw : V -> A -> V -> V).
Context (HP : pairing V ip) (HA : adjoint ip G L Lt fw bw).
Ltac ipr := repeat first
  [ rewrite (a_fw _ _ _ _ _ _ HA) | rewrite (a_bw _ _ _ _ _ _ HA)
  | rewrite (a_add _ _ _ _ _ _ HA) | rewrite (a_opp _ _ _ _ _ _ HA) | rewrite (a_scale _ _ _ _ _ _ HA)
  | rewrite (p_addl _ _ HP) | rewrite (p_addr _ _ HP) | rewrite (p_subl _ _ HP) | rewrite (p_subr _ _ HP)
  | rewrite (p_oppl _ _ HP) | rewrite (p_oppr _ _ HP) | rewrite (p_scl _ _ HP) | rewrite (p_scr _ _ HP)
  | rewrite (p_dvl _ _ HP) | rewrite (p_dvr _ _ HP) | rewrite (p_0l _ _ HP)
  | rewrite (a_t _ _ _ _ _ _ HA) by assumption ].
Lemma dual_cost mtd (dt : R) a0 am a1 b0 bm b1 g0 gm g1 o l x x' : mtd = Heun \/ mtd = RK4 -> G a0 -> G am -> G a1 ->
  ip (g_bwd bw mtd dt a1 am a0 g1 gm g0 o l) (vsub x' x) =
  ip l (vsub (g_fwd fw mtd dt a0 am a1 b0 bm b1 x') (g_fwd fw mtd dt a0 am a1 b0 bm b1 x)) +
  (ip o (vsub x' x) + (quad ip fw mtd dt a0 am a1 b0 bm b1 g0 gm g1 x' - quad ip fw mtd dt a0 am a1 b0 bm b1 g0 gm g1 x)).
Proof.
  intros Hm H0 H1 H2. destruct Hm as [-> | ->]; cbn [g_bwd g_fwd quad]; unfold half.
  - ipr. change (nlit (n := RNum) 1 2) with (1 / 2). change (@nmul RNum) with Rmult. field.
  - ipr. change (nlit (n := RNum) 1 2) with (1 / 2). change (@nmul RNum) with Rmult.
    change (nZ (K := RNum) 2) with 2. change (nZ (K := RNum) 6) with 6. field.
Qed.
Context (n : nat) (dt : R) (a am : nat -> A) (b bm : nat -> V) (x x' l g gm o : nat -> V).
Context (Gn : forall k, (k < n)%nat -> G (a k)) (Gm : forall k, (k + 1 < n)%nat -> G (am k)).
Context (l0 : l (n - 1)%nat = vzero V).
Lemma sweep_cost mtd j : mtd = Heun \/ mtd = RK4 ->
  (forall k, (k + 1 < n)%nat -> x (k + 1)%nat = g_fwd fw mtd dt (a k) (am k) (a (k + 1)%nat) (b k) (bm k) (b (k + 1)%nat) (x k)) ->
  (forall k, (k + 1 < n)%nat -> x' (k + 1)%nat = g_fwd fw mtd dt (a k) (am k) (a (k + 1)%nat) (b k) (bm k) (b (k + 1)%nat) (x' k)) ->
  (forall k, (k + 1 < n)%nat -> l k = g_bwd bw mtd dt (a (k + 1)%nat) (am k) (a k) (g (k + 1)%nat) (gm k) (g k) (o k) (l (k + 1)%nat)) ->
  (j < n)%nat ->
  ip (l j) (vsub (x' j) (x j)) = rsum (n - 1 - j) (fun i =>
    let q := quad ip fw mtd dt (a (j + i)%nat) (am (j + i)%nat) (a (j + i + 1)%nat) (b (j + i)%nat) (bm (j + i)%nat) (b (j + i + 1)%nat)
               (g (j + i)%nat) (gm (j + i)%nat) (g (j + i + 1)%nat) in
    ip (o (j + i)%nat) (vsub (x' (j + i)%nat) (x (j + i)%nat)) + (q (x' (j + i)%nat) - q (x (j + i)%nat))).
Proof.
  intros Hm Hx Hx' Hl Hj. cbv zeta.
  apply (tele (fun k => ip (l k) (vsub (x' k) (x k))) (fun k => ip (o k) (vsub (x' k) (x k)) +
    (quad ip fw mtd dt (a k) (am k) (a (k + 1)%nat) (b k) (bm k) (b (k + 1)%nat) (g k) (gm k) (g (k + 1)%nat) (x' k) -
     quad ip fw mtd dt (a k) (am k) (a (k + 1)%nat) (b k) (bm k) (b (k + 1)%nat) (g k) (gm k) (g (k + 1)%nat) (x k)))).
  - intros k Hk. rewrite (Hl k) by lia.
    rewrite (dual_cost mtd dt (a k) (am k) (a (k + 1)%nat) (b k) (bm k) (b (k + 1)%nat))
      by (first [assumption | apply Gn; lia | apply Gm; lia]).
    rewrite <- Hx, <- Hx' by lia. reflexivity.
  - replace (j + (n - 1 - j))%nat with (n - 1)%nat by lia. rewrite l0. apply (p_0l _ _ HP).
Qed.
End Dual.

(** the written out integral is the one of the scheme *)
Section QuadIs.
Context (P : Sys RNum) (EM : ValEv (VM P)) (ES : ValEv (VS P)).
Lemma quad_m (ip : VM P -> VM P -> R) mtd dt A b g k x : mtd = Heun \/ mtd = RK4 ->
  quad ip (f_mt P) mtd dt (ga P A k) (mida P A k) (ga P A (k + 1)) (gm P b k) (midm P b k) (gm P b (k + 1)) (gm P g k) (midm P g k) (gm P g (k + 1)) x =
  rk_integral (tab_of mtd) (Fm P A b k) (fun th m => ip (interp th (gm P g k) (gm P g (k + 1))) m) dt x.
Proof.
  intros [-> | ->]; cbn [quad tab_of].
  - rewrite (heun_quad EM). unfold Fm. rewrite !(interp_0 EM), !(interp_0 ES), !(interp_1 EM). reflexivity.
  - rewrite (rk4_quad EM (Fm P A b k) _ dt x (f_mt P x (ga P A k) (gm P b k))
      (f_mt P (vadd x (vscale (half * (dt : RNum))%num (f_mt P x (ga P A k) (gm P b k)))) (mida P A k) (midm P b k))
      (f_mt P (vadd x (vscale (half * (dt : RNum))%num (f_mt P (vadd x (vscale (half * (dt : RNum))%num (f_mt P x (ga P A k) (gm P b k)))) (mida P A k) (midm P b k)))) (mida P A k) (midm P b k))).
    + rewrite !(interp_0 EM), !(interp_1 EM), !(interp_half EM). reflexivity.
    + unfold Fm. rewrite (interp_0 EM), (interp_0 ES). reflexivity.
    + unfold Fm. rewrite (interp_half EM), (interp_half ES). reflexivity.
    + unfold Fm. rewrite (interp_half EM), (interp_half ES). reflexivity.
Qed.
Lemma quad_s (ip : VS P -> VS P -> R) mtd dt A sigma g k x : mtd = Heun \/ mtd = RK4 ->
  quad ip (f_st P) mtd dt (ga P A k) (mida P A k) (ga P A (k + 1)) sigma sigma sigma (ga P g k) (mida P g k) (ga P g (k + 1)) x =
  rk_integral (tab_of mtd) (Fs P A sigma k) (fun th m => ip (interp th (ga P g k) (ga P g (k + 1))) m) dt x.
Proof.
  intros [-> | ->]; cbn [quad tab_of].
  - rewrite (heun_quad ES). unfold Fs. rewrite !(interp_0 ES), !(interp_1 ES). reflexivity.
  - rewrite (rk4_quad ES (Fs P A sigma k) _ dt x (f_st P x (ga P A k) sigma)
      (f_st P (vadd x (vscale (half * (dt : RNum))%num (f_st P x (ga P A k) sigma))) (mida P A k) sigma)
      (f_st P (vadd x (vscale (half * (dt : RNum))%num (f_st P (vadd x (vscale (half * (dt : RNum))%num (f_st P x (ga P A k) sigma))) (mida P A k) sigma))) (mida P A k) sigma)).
    + rewrite !(interp_0 ES), !(interp_1 ES), !(interp_half ES). reflexivity.
    + unfold Fs. rewrite (interp_0 ES). reflexivity.
    + unfold Fs. rewrite (interp_half ES). reflexivity.
    + unfold Fs. rewrite (interp_half ES). reflexivity.
Qed.
Context (mtd : method) (dt : R) (A : list (VS P)) (b : list (VM P)).
Context (m0 m0' : VM P) (s0 s0' sigma : VS P) (mt mt' : list (VM P)) (st st' : list (VS P)).
Context (dm om lam : list (VM P)) (ds os psi : list (VS P)).
Context (F : solve_fwd P mtd dt A b m0 s0 sigma = Ok (mt, st)).
Context (F' : solve_fwd P mtd dt A b m0' s0' sigma = Ok (mt', st')).
Context (Bw : solve_bwd P mtd dt A dm ds om os = Ok (lam, psi)).
Context (LA : length A = length b) (Ld : length dm = length b) (Ls : length ds = length b).
Let n := length b.
Lemma both_m_cost (ip : VM P -> VM P -> R) (G : VS P -> Prop) L Lt j :
  pairing (VM P) ip -> adjoint ip G L Lt (f_mt P) (f_lam P) -> mtd = Heun \/ mtd = RK4 ->
  (forall k, (k < n)%nat -> G (ga P A k)) -> (forall k, (k + 1 < n)%nat -> G (mida P A k)) -> (j < n)%nat ->
  ip (gm P lam j) (vsub (gm P mt' j) (gm P mt j)) =
  rsum (n - 1 - j) (fun i =>
    let q := rk_integral (tab_of mtd) (Fm P A b (j + i)) (fun th m => ip (interp th (gm P dm (j + i)) (gm P dm (j + i + 1))) m) dt in
    ip (gm P om (j + i)) (vsub (gm P mt' (j + i)) (gm P mt (j + i))) + (q (gm P mt' (j + i)) - q (gm P mt (j + i)))).
Proof. clear Ls.
  intros HP HA Em HG Hm Hj. unfold n in *.
  etransitivity; [apply (sweep_cost ip G L Lt _ _ HP HA (length b) dt (ga P A) (fun k => mida P A k) (gm P b) (fun k => midm P b k)
    (gm P mt) (gm P mt') (gm P lam) (gm P dm) (fun k => midm P dm k) (gm P om) HG Hm) with (mtd := mtd); try assumption|].
  - rewrite <- Ld. apply (proj1 (bwd_last Bw ltac:(intros ->; cbn in Ld; lia))).
  - intros k Hk. eapply fwd_m_step; eassumption.
  - intros k Hk. eapply fwd_m_step; eassumption.
  - intros k Hk. eapply bwd_l_step; [eassumption|congruence|lia].
  - apply sumn_ext. intros i Hi. cbv zeta. rewrite !(quad_m ip mtd) by exact Em. reflexivity.
Qed.
Lemma both_s_cost (ip : VS P -> VS P -> R) (G : VS P -> Prop) L Lt j :
  pairing (VS P) ip -> adjoint ip G L Lt (f_st P) (f_psi P) -> mtd = Heun \/ mtd = RK4 ->
  (forall k, (k < n)%nat -> G (ga P A k)) -> (forall k, (k + 1 < n)%nat -> G (mida P A k)) -> (j < n)%nat ->
  ip (ga P psi j) (vsub (ga P st' j) (ga P st j)) =
  rsum (n - 1 - j) (fun i =>
    let q := rk_integral (tab_of mtd) (Fs P A sigma (j + i)) (fun th m => ip (interp th (ga P ds (j + i)) (ga P ds (j + i + 1))) m) dt in
    ip (ga P os (j + i)) (vsub (ga P st' (j + i)) (ga P st (j + i))) + (q (ga P st' (j + i)) - q (ga P st (j + i)))).
Proof.
  intros HP HA Em HG Hm Hj. unfold n in *.
  assert (H2 : mtd <> RK2) by (destruct Em; congruence).
  etransitivity; [apply (sweep_cost ip G L Lt _ _ HP HA (length b) dt (ga P A) (fun k => mida P A k) (fun _ => sigma) (fun _ => sigma)
    (ga P st) (ga P st') (ga P psi) (ga P ds) (fun k => mida P ds k) (ga P os) HG Hm) with (mtd := mtd); try assumption|].
  - rewrite <- Ld. apply (proj2 (bwd_last Bw ltac:(intros ->; cbn in Ld; lia))).
  - intros k Hk. eapply fwd_s_step; eassumption.
  - intros k Hk. eapply fwd_s_step; eassumption.
  - intros k Hk. eapply bwd_p_step; [eassumption|congruence|congruence|lia].
  - apply sumn_ext. intros i Hi. cbv zeta. rewrite !(quad_s ip mtd) by exact Em. reflexivity.
Qed.
End QuadIs.
Lemma rk_visited_ext {V : Val RNum} (F G : R -> V -> V) h y rows ks : (forall th u, F th u = G th u) ->
  rk_visited F h y rows ks = rk_visited G h y rows ks.
Proof.
  intros H. assert (E : F = G) by (apply functional_extensionality; intros; apply functional_extensionality; auto). now rewrite E.
Qed.
Lemma rk_integral_ext {V : Val RNum} T (F G : R -> V -> V) C D h y : (forall th u, F th u = G th u) -> (forall th u, C th u = D th u) ->
  rk_integral T F C h y = rk_integral T G D h y.
Proof.
  intros H H'. assert (E : F = G) by (apply functional_extensionality; intros; apply functional_extensionality; auto).
  assert (E' : C = D) by (apply functional_extensionality; intros; apply functional_extensionality; auto). now rewrite E, E'.
Qed.
