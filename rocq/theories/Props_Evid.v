(** * Property C57: the free energy and the evidence. *)
From Coq Require Import ZArith List Bool Arith Reals Lra Lia Sorted.
From Coquelicot Require Import Coquelicot.
From Verif Require Import Num Arr M_Utils M_Ode M_Moments M_Sde1 M_Prior M_Like M_VarGP
  Spec_Utils Spec_Gauss Spec_Prior Spec_Sde1 Spec_VarGP Spec_Evid P_Trapz P_Moments P_Sde1 P_RMat P_Det P_Oper P_Expect P_Prior P_Like P_VarGP P_Adjoint P_Grad1 P_Bound
  P_Evid P_Evid2 Props_Bound.
Import ListNotations.
Local Open Scope R_scope.

(** ** Ornstein-Uhlenbeck *)
(** The density Z of the observations under the discretised diffusion exists and is unique, and as long as dt a <= 1/2
    the objective v bounds -ln Z from above up to: ln(s0)/2 (C26), the difference of the trapezoidal and the left rectangle rule,
    and the difference of the slopes a and (1 - sqrt(1 - 2 dt a)) / dt. *)
Theorem C57_ou_partial :
  forall sigma theta n dt m0 s0 mu tau r y t, 0 < sigma -> 0 < dt -> (0 < n)%nat -> 0 < s0 -> 0 < tau -> obs_ok n r y t ->
  let E := ou_obj Euler sigma theta n dt m0 s0 mu tau r y t in
  forall x : list R, length x = (n + n)%nat -> (forall k, (k + 1 < n)%nat -> dt * nth k x 0 <= 1 / 2) ->
  exists Z : R, 0 < Z /\ (forall z, evidence (f_ou theta) sigma n dt mu tau y t r z <-> z = Z) /\
  exists (v : R) (o : Out E) (e : nat -> R),
  (forall s, free_energy E x s = (Ok v, Some o)) /\
  let m := fun k => nth k (o_mt o : list R) 0 in let s := fun k => nth k (o_st o : list R) 0 in let a := fun k => nth k x 0 in
  (forall k, (k < n)%nat -> E_normal (m k) (s k) (mismatch (f_ou theta) sigma (a k) (nth (n + k) x 0)) (e k)) /\
  - ln Z <= v + 1 / 2 * ln s0 + dt / 2 * (e O - e (n - 1)%nat)
    + dt / (2 * sigma) * Rsum (n - 1) (fun k => s k * ((aslope dt (a k) - a k) * (aslope dt (a k) + a k - 2 * theta))).
Proof.
  intros sigma theta n dt m0 s0 mu tau r y t Hsg Hdt Hn Hs0 Htau (Hr & Hy & Ht & Hst) E x Hx Ha. subst E.
  assert (Hc : forall z, continuous (f_ou theta) z).
  { intros z. apply (ex_derive_continuous (f_ou theta)). unfold f_ou. auto_derive. exact I. }
  destruct (evidence_exists (f_ou theta) sigma n dt mu tau y t r Hsg Hdt Htau Hr Hn Hc) as [Z HZ]. exists Z.
  destruct (x_value _ _ (e_ou sigma theta) _ _ _ _ (ou_energy_ok sigma theta dt) n dt sigma m0 s0 mu tau r y t Hn Hr Hy Ht
    (fun A B M S => ou_sde sigma theta dt t A B M S Hsg Hst) x (len2 n x Hx)) as (o & Ho & P).
  destruct (code_bound (f_ou theta) (e_ou sigma theta) (lq_ou sigma theta) (fun _ _ => - theta) sigma Hsg) with
    (n := n) (dt := dt) (mu := mu) (tau := tau) (m0 := m0) (s0 := s0) (r := r) (y := y) (t := t) (a := xa x) (b := xb n x) (Z := Z) as [PZ B]; try assumption.
  { intros; cbn; lia. } { intros; apply lq_ou_eval, Hsg. } { intros; apply lq_ou_mom, Hsg. }
  { intros a a' b m s. rewrite e_ou_shift by exact Hsg. f_equal. f_equal. ring. }
  split; [exact PZ|]. split.
  { intros z. split; [intros H; exact (evidence_unique _ _ _ _ _ _ _ _ _ _ _ H HZ)|intros ->; exact HZ]. }
  eexists. exists o. exists (fun k => e_ou sigma theta (xa x k) (xb n x k) (path_m dt (xa x) (xb n x) m0 k) (path_s dt (xa x) sigma s0 k)).
  split; [exact Ho|]. cbv zeta. split.
  { intros k Hk. destruct (P k Hk) as [-> ->]. apply e_ou_E; [exact Hsg|]. apply path_s_pos; try assumption. intros j Hj. apply Ha. lia. }
  rewrite (kl0_1d_val mu tau m0 s0) by lra.
  rewrite (Rsum_ext (n - 1) _ (fun k => path_s dt (xa x) sigma s0 k * ((aslope dt (xa x k) - xa x k) * (aslope dt (xa x k) + xa x k + 2 * - theta)))).
  2:{ intros k Hk. destruct (P k ltac:(lia)) as [_ ->]. unfold xa. ring. }
  lra.
Qed.
Print Assumptions C57_ou_partial.

(** A case in which the objective is a bound: variance at most 1 at the start, slopes of at most theta (1 - theta dt / 2),
    and no smaller energy density at the last point of the grid than at the first. *)
Theorem C57_ou_bound_partial :
  forall sigma theta n dt m0 s0 mu tau r y t, 0 < sigma -> 0 < dt -> (0 < n)%nat -> 0 < s0 <= 1 -> 0 < tau -> obs_ok n r y t ->
  theta * dt <= 1 ->
  let E := ou_obj Euler sigma theta n dt m0 s0 mu tau r y t in
  forall x : list R, length x = (n + n)%nat -> (forall k, (k + 1 < n)%nat -> nth k x 0 <= theta * (1 - theta * dt / 2)) ->
  forall Z v (o : Out E) e0 e1 s, evidence (f_ou theta) sigma n dt mu tau y t r Z -> free_energy E x s = (Ok v, Some o) ->
  E_normal m0 s0 (mismatch (f_ou theta) sigma (nth 0 x 0) (nth n x 0)) e0 ->
  E_normal (nth (n - 1) (o_mt o : list R) 0) (nth (n - 1) (o_st o : list R) 0)
    (mismatch (f_ou theta) sigma (nth (n - 1) x 0) (nth (n + (n - 1)) x 0)) e1 ->
  e0 <= e1 -> - ln Z <= v.
Proof.
  intros sigma theta n dt m0 s0 mu tau r y t Hsg Hdt Hn Hs0 Htau Hobs Htd E x Hx Ha Z v o e0 e1 st HZ Hv H0 H1 Hle. subst E.
  pose proof Hobs as (Hr & Hy & Ht & Hst).
  assert (Hu : forall k, (k + 1 < n)%nat -> dt * nth k x 0 <= theta * dt - (theta * dt) ^ 2 / 2).
  { intros k Hk. specialize (Ha k Hk). replace (theta * dt - (theta * dt) ^ 2 / 2) with (dt * (theta * (1 - theta * dt / 2))) by field.
    apply Rmult_le_compat_l; lra. }
  assert (Ha' : forall k, (k + 1 < n)%nat -> dt * nth k x 0 <= 1 / 2).
  { intros k Hk. specialize (Hu k Hk). pose proof (pow2_ge_0 (theta * dt - 1)). nra. }
  destruct (C57_ou_partial sigma theta n dt m0 s0 mu tau r y t Hsg Hdt Hn (proj1 Hs0) Htau Hobs x Hx Ha') as (Z' & PZ & UZ & v' & o' & e & Ef & Q).
  apply UZ in HZ. subst Z'.
  assert (EQ : (Ok v' : result R, Some o') = (Ok v, Some o)) by (rewrite <- (Ef st); exact Hv). injection EQ as -> ->.
  cbv zeta in Q. destruct Q as [Q1 Q2].
  assert (E1 : e (n - 1)%nat = e1) by exact (E_normal_unique _ _ _ _ _ (Q1 (n - 1)%nat ltac:(lia)) H1).
  destruct (x_value _ _ (e_ou sigma theta) _ _ _ _ (ou_energy_ok sigma theta dt) n dt sigma m0 s0 mu tau r y t Hn Hr Hy Ht
    (fun A B M S => ou_sde sigma theta dt t A B M S Hsg Hst) x (len2 n x Hx)) as (o2 & Ho2 & P).
  assert (Eo : o2 = o). { specialize (Ho2 st). rewrite Hv in Ho2. injection Ho2 as _ ->. reflexivity. }
  subst o2.
  assert (E0 : e O = e0).
  { pose proof (Q1 O Hn) as Q. destruct (P O Hn) as [P1 P2]. cbn [path_m path_s] in P1, P2. rewrite P1, P2, Nat.add_0_r in Q.
    exact (E_normal_unique _ _ _ _ _ Q H0). }
  rewrite E0, E1 in Q2.
  assert (L0 : ln s0 <= 0).
  { destruct Hs0 as [A [B|B]]; [left; rewrite <- ln_1; apply ln_increasing; assumption|right; rewrite B; apply ln_1]. }
  assert (S0 : Rsum (n - 1) (fun k => nth k (o_st o : list R) 0 * ((aslope dt (nth k x 0) - nth k x 0) * (aslope dt (nth k x 0) + nth k x 0 - 2 * theta))) <= 0).
  { apply Rle_trans with (Rsum (n - 1) (fun _ => 0)); [|right; apply Rsum_zero; reflexivity]. apply Rsum_le. intros k Hk. specialize (Hu k ltac:(lia)). specialize (Ha' k ltac:(lia)).
    assert (Sp : 0 < nth k (o_st o : list R) 0).
    { destruct (P k ltac:(lia)) as [_ ->]. apply path_s_pos; try assumption; [apply Hs0|]. intros j Hj.
      specialize (Hobs). pose proof (Ha j ltac:(lia)). unfold xa. pose proof (pow2_ge_0 (theta * dt - 1)).
      assert (dt * nth j x 0 <= dt * (theta * (1 - theta * dt / 2))) by (apply Rmult_le_compat_l; lra). nra. }
    set (a := nth k x 0) in *. set (q := sqrt (1 - 2 * (dt * a))).
    assert (Q0 : 0 <= q) by apply sqrt_pos. assert (QQ : q * q = 1 - 2 * (dt * a)) by (apply sqrt_sqrt; lra).
    assert (Q3 : 1 - theta * dt <= q).
    { apply Rsqr_incr_0_var; [|exact Q0]. unfold Rsqr. rewrite QQ. nra. }
    assert (G1 : 0 <= aslope dt a - a).
    { apply Rmult_le_reg_l with dt; [exact Hdt|]. rewrite Rmult_0_r. unfold aslope. fold q.
      replace (dt * ((1 - q) / dt - a)) with (1 - q - dt * a) by (field; lra). pose proof (pow2_ge_0 (1 - q)). nra. }
    assert (G2 : aslope dt a - theta <= 0).
    { apply Rmult_le_reg_l with dt; [exact Hdt|]. rewrite Rmult_0_r. unfold aslope. fold q.
      replace (dt * ((1 - q) / dt - theta)) with (1 - q - theta * dt) by (field; lra). lra. }
    assert (G3 : 0 <= nth k (o_st o : list R) 0 * (aslope dt a - a)) by (apply Rmult_le_pos; lra).
    assert (G4 : 0 <= 2 * theta - aslope dt a - a) by lra.
    pose proof (Rmult_le_pos _ _ G3 G4) as G5. revert G5. generalize (aslope dt a : R), (nth k (o_st o : list R) 0 : R). intros u w G5.
    change (w * ((u - a) * (u + a - 2 * theta)) <= 0).
    replace (w * ((u - a) * (u + a - 2 * theta))) with (- (w * (u - a) * (2 * theta - u - a))) by ring. lra. }
  assert (0 <= dt / (2 * sigma)) by (left; apply Rdiv_lt_0_compat; lra).
  assert (0 <= dt / 2 * (e1 - e0)) by (apply Rmult_le_pos; lra).
  match type of S0 with ?u <= 0 => assert (dt / (2 * sigma) * u <= 0) by nra end. lra.
Qed.
Print Assumptions C57_ou_bound_partial.

(** Finding: the objective is not a bound of the evidence. Whatever the data, some arguments have an objective below -ln Z
    (these leave negative variances) ... *)
Theorem C57_ou_refuted :
  forall mtd sigma theta n dt m0 s0 mu tau r y t, 0 < sigma -> 0 < dt -> (2 <= n)%nat -> 0 < s0 -> 0 < tau -> obs_ok n r y t ->
  (mtd = RK2 -> rk2_pull sigma n dt s0 <> 0) ->
  let E := ou_obj mtd sigma theta n dt m0 s0 mu tau r y t in
  exists Z, evidence (f_ou theta) sigma n dt mu tau y t r Z /\ 0 < Z /\
  exists (x : list R) (v : R), length x = (n + n)%nat /\ (forall s, fst (free_energy E x s) = Ok v) /\ v < - ln Z.
Proof.
  intros mtd sigma theta n dt m0 s0 mu tau r y t Hsg Hdt Hn Hs0 Htau Hobs H2 E.
  destruct (C57_ou_partial sigma theta n dt m0 s0 mu tau r y t Hsg Hdt ltac:(lia) Hs0 Htau Hobs (repeat 0 (n + n)) (repeat_length _ _)) as (Z & PZ & UZ & _).
  { intros k Hk. rewrite nth_repeat. lra. }
  exists Z. split; [apply UZ; reflexivity|]. split; [exact PZ|]. apply C54_ou_refuted; assumption.
Qed.
Print Assumptions C57_ou_refuted.
(** ... and even when the approximation is the prior itself, at the exact slopes, with prior variance above 1 and
    observations that are noisy enough. *)
Theorem C57_ou_prior_refuted :
  forall sigma theta n dt mu tau r y t, 0 < sigma -> 0 < dt -> (0 < n)%nat -> 0 < tau -> obs_ok n r y t ->
  let E := ou_obj Euler sigma theta n dt mu tau mu tau r y t in
  let x := (repeat theta n ++ repeat 0 n)%list in
  exists Z v (o : Out E), evidence (f_ou theta) sigma n dt mu tau y t r Z /\ 0 < Z /\ (forall s, free_energy E x s = (Ok v, Some o)) /\
  (Rsum (length t) (fun j => (nth j y 0 - nth (nth j t O) (o_mt o : list R) 0) ^ 2 + nth (nth j t O) (o_st o : list R) 0) < r * ln tau ->
   v < - ln Z).
Proof.
  intros sigma theta n dt mu tau r y t Hsg Hdt Hn Htau (Hr & Hy & Ht & Hst) E x. subst E.
  assert (Hx : length x = (n + n)%nat) by (unfold x; rewrite app_length, !repeat_length; reflexivity).
  assert (Hc : forall z, continuous (f_ou theta) z).
  { intros z. apply (ex_derive_continuous (f_ou theta)). unfold f_ou. auto_derive. exact I. }
  destruct (evidence_exists (f_ou theta) sigma n dt mu tau y t r Hsg Hdt Htau Hr Hn Hc) as [Z HZ]. exists Z.
  assert (PZ : 0 < Z).
  { destruct (C57_ou_partial sigma theta n dt mu tau mu tau r y t Hsg Hdt Hn Htau Htau (conj Hr (conj Hy (conj Ht Hst))) (repeat 0 (n + n)) (repeat_length _ _)) as (Z' & PZ & UZ & _).
    { intros k Hk. rewrite nth_repeat. lra. } apply UZ in HZ. subst Z'. exact PZ. }
  destruct (x_value _ _ (e_ou sigma theta) _ _ _ _ (ou_energy_ok sigma theta dt) n dt sigma mu tau mu tau r y t Hn Hr Hy Ht
    (fun A B M S => ou_sde sigma theta dt t A B M S Hsg Hst) x (len2 n x Hx)) as (o & Ho & P).
  eexists. exists o. split; [exact HZ|]. split; [exact PZ|]. split; [exact Ho|]. intros Hsm.
  rewrite (kl0_1d_val mu tau mu tau) by lra.
  assert (K0 : kl1 mu tau mu tau = 0) by (apply (kl1_nonneg mu tau mu tau Htau Htau); split; reflexivity). rewrite K0.
  assert (T0 : trap n (fun k => e_ou sigma theta (xa x k) (xb n x k) (path_m dt (xa x) (xb n x) mu k) (path_s dt (xa x) sigma tau k)) dt = 0).
  { rewrite (trap_ext n _ (fun _ => 0)).
    - unfold trap. rewrite (Rsum_ext _ _ (fun _ => 0)) by (intros; field). apply Rsum_zero. reflexivity.
    - intros k Hk. assert (Ea : xa x k = theta) by (unfold xa, x; rewrite app_nth1 by (rewrite repeat_length; exact Hk); apply nth_repeat_lt, Hk).
      assert (Eb : xb n x k = 0) by (unfold xb, x; rewrite app_nth2 by (rewrite repeat_length; lia); rewrite repeat_length; apply nth_repeat).
      rewrite Ea, Eb. unfold e_ou, ou_q, mom_elt. rnum. change (car RNum) with R in *. field. lra. }
  rewrite T0.
  pose proof (evidence_le _ _ _ _ _ _ _ _ _ _ Hsg Hdt Htau Hr Hn Ht HZ) as UB.
  assert (HS : 0 < sqrt (2 * PI * r)) by (apply sqrt_lt_R0; pose proof PI_RGT_0; apply Rmult_lt_0_compat; lra).
  assert (LZ : ln Z <= - (INR (length t) * (1 / 2 * (ln (2 * PI) + ln r)))).
  { replace (- (INR (length t) * (1 / 2 * (ln (2 * PI) + ln r)))) with (ln ((/ sqrt (2 * PI * r)) ^ length t)).
    - destruct UB as [UB|UB]; [left; apply ln_increasing; assumption|right; rewrite UB; reflexivity].
    - rewrite ln_pow by (apply Rinv_0_lt_compat; exact HS). rewrite ln_Rinv by exact HS.
      pose proof PI_RGT_0. rewrite ln_sqrt by (apply Rmult_lt_0_compat; lra). rewrite ln_mult by lra. ring. }
  assert (LS : Rsum (length t) (fun j => lterm r (nth j y 0) (path_m dt (xa x) (xb n x) mu (nth j t O)) (path_s dt (xa x) sigma tau (nth j t O)))
    = / (2 * r) * Rsum (length t) (fun j => (nth j y 0 - nth (nth j t O) (o_mt o : list R) 0) ^ 2 + nth (nth j t O) (o_st o : list R) 0)
      + INR (length t) * (1 / 2 * (ln (2 * PI) + ln r))).
  { rewrite <- Rsum_const, <- Rsum_scal, <- Rsum_plus. apply Rsum_ext. intros j Hj.
    destruct (P (nth j t O)) as [-> ->]; [rewrite Forall_forall in Ht; apply Ht, nth_In, Hj|]. unfold lterm. field. lra. }
  rewrite LS.
  match type of Hsm with ?u < _ => assert (HH : / (2 * r) * u < / (2 * r) * (r * ln tau)) by (apply Rmult_lt_compat_l; [apply Rinv_0_lt_compat; lra|exact Hsm]) end.
  replace (/ (2 * r) * (r * ln tau)) with (1 / 2 * ln tau) in HH by (field; lra). lra.
Qed.
Print Assumptions C57_ou_prior_refuted.

(** ** Double well *)
(** The same with the missing half of the sixth-moment term (C21) *)
Theorem C57_dw_partial :
  forall sigma theta n dt m0 s0 mu tau r y t, 0 < sigma -> 0 < dt -> (0 < n)%nat -> 0 < s0 -> 0 < tau -> obs_ok n r y t ->
  let E := dw_obj Euler sigma theta n dt m0 s0 mu tau r y t in
  forall x : list R, length x = (n + n)%nat -> (forall k, (k + 1 < n)%nat -> dt * nth k x 0 <= 1 / 2) ->
  exists Z : R, 0 < Z /\ (forall z, evidence (f_dw theta) sigma n dt mu tau y t r z <-> z = Z) /\
  exists (v : R) (o : Out E) (e x6 df : nat -> R),
  (forall s, free_energy E x s = (Ok v, Some o)) /\
  let m := fun k => nth k (o_mt o : list R) 0 in let s := fun k => nth k (o_st o : list R) 0 in let a := fun k => nth k x 0 in
  (forall k, (k < n)%nat -> E_normal (m k) (s k) (mismatch (f_dw theta) sigma (a k) (nth (n + k) x 0)) (e k)) /\
  (forall k, (k < n)%nat -> E_normal (m k) (s k) (fun z => z ^ 6) (x6 k)) /\
  (forall k, (k < n)%nat -> E_normal (m k) (s k) (df_dw theta) (df k)) /\
  - ln Z <= v + 1 / 2 * ln s0 + trap n (fun k => 4 * x6 k / sigma) dt + dt / 2 * (e O - e (n - 1)%nat)
    + dt / (2 * sigma) * Rsum (n - 1) (fun k => s k * ((aslope dt (a k) - a k) * (aslope dt (a k) + a k + 2 * df k))).
Proof.
  intros sigma theta n dt m0 s0 mu tau r y t Hsg Hdt Hn Hs0 Htau (Hr & Hy & Ht & Hst) E x Hx Ha. subst E.
  assert (Hc : forall z, continuous (f_dw theta) z).
  { intros z. apply (ex_derive_continuous (f_dw theta)). unfold f_dw. auto_derive. exact I. }
  destruct (evidence_exists (f_dw theta) sigma n dt mu tau y t r Hsg Hdt Htau Hr Hn Hc) as [Z HZ]. exists Z.
  destruct (x_value _ _ (e_dwc sigma theta) _ _ _ _ (dw_energy_ok sigma theta dt) n dt sigma m0 s0 mu tau r y t Hn Hr Hy Ht
    (fun A B M S => dw_sde sigma theta dt t A B M S Hsg Hst) x (len2 n x Hx)) as (o & Ho & P).
  destruct (code_bound (f_dw theta) (e_dw sigma theta) (lq_dw sigma theta) (fun m s => 4 * theta - 12 * (m ^ 2 + s)) sigma Hsg) with
    (n := n) (dt := dt) (mu := mu) (tau := tau) (m0 := m0) (s0 := s0) (r := r) (y := y) (t := t) (a := xa x) (b := xb n x) (Z := Z) as [PZ B]; try assumption.
  { intros; cbn; lia. } { intros; apply lq_dw_eval, Hsg. } { intros; apply lq_dw_mom, Hsg. }
  { intros a a' b m s. apply e_dw_shift, Hsg. }
  split; [exact PZ|]. split.
  { intros z. split; [intros H; exact (evidence_unique _ _ _ _ _ _ _ _ _ _ _ H HZ)|intros ->; exact HZ]. }
  assert (SP : forall k, (k < n)%nat -> 0 < path_s dt (xa x) sigma s0 k).
  { intros k Hk. apply path_s_pos; try assumption. intros j Hj. apply Ha. lia. }
  set (pm := path_m dt (xa x) (xb n x) m0) in *. set (ps := path_s dt (xa x) sigma s0) in *.
  eexists. exists o. exists (fun k => e_dw sigma theta (xa x k) (xb n x k) (pm k) (ps k)),
    (fun k => mom_elt (K:=RNum) 6 (pm k) (ps k)), (fun k => 4 * theta - 12 * (pm k ^ 2 + ps k)).
  split; [exact Ho|]. cbv zeta. split; [|split; [|split]].
  { intros k Hk. destruct (P k Hk) as [-> ->]. apply e_dw_E; [exact Hsg|apply SP, Hk]. }
  { intros k Hk. destruct (P k Hk) as [-> ->]. apply mom_elt_E; [apply SP, Hk|lia]. }
  { intros k Hk. destruct (P k Hk) as [-> ->]. apply (E_poly_eq _ _ [4 * theta; 0; -12]); [apply SP, Hk|cbn; lia| |].
    - intros z. unfold df_dw. cbn. ring.
    - cbn [pmom]. unfold mom_elt. rnum. change (car RNum) with R in *. ring. }
  rewrite (kl0_1d_val mu tau m0 s0) by lra.
  rewrite (Rsum_ext (n - 1) _ (fun k => ps k * ((aslope dt (xa x k) - xa x k) * (aslope dt (xa x k) + xa x k + 2 * (4 * theta - 12 * (pm k ^ 2 + ps k)))))).
  2:{ intros k Hk. destruct (P k ltac:(lia)) as [_ ->]. unfold xa. ring. }
  assert (TD : trap n (fun k => e_dw sigma theta (xa x k) (xb n x k) (pm k) (ps k)) dt =
    trap n (fun k => e_dwc sigma theta (xa x k) (xb n x k) (pm k) (ps k)) dt + trap n (fun k => 4 * (mom_elt (K:=RNum) 6 (pm k) (ps k) : R) / sigma) dt).
  { unfold trap. rewrite <- Rsum_plus. apply Rsum_ext. intros k Hk. unfold e_dw, e_dwc. rewrite !dw_q_exact.
    generalize (mom_elt (K:=RNum) 6 (pm k) (ps k) : R), (mom_elt (K:=RNum) 6 (pm (k + 1)%nat) (ps (k + 1)%nat) : R). intros w1 w2. field. lra. }
  rewrite TD in B. lra.
Qed.
Print Assumptions C57_dw_partial.
(** Finding: even among the arguments with positive variances the objective goes below -ln Z, whatever the data. *)
Theorem C57_dw_refuted :
  forall sigma theta n dt m0 s0 mu tau r y t, 0 < sigma -> 0 < dt -> (2 <= n)%nat -> 0 < s0 -> 0 < tau -> obs_ok n r y t ->
  let E := dw_obj Euler sigma theta n dt m0 s0 mu tau r y t in
  exists Z, evidence (f_dw theta) sigma n dt mu tau y t r Z /\ 0 < Z /\
  exists (x : list R) (v : R) (o : Out E), length x = (n + n)%nat /\ (forall s, free_energy E x s = (Ok v, Some o)) /\
  (forall k, (k < n)%nat -> 0 < nth k (o_st o : list R) 0) /\ v < - ln Z.
Proof.
  intros sigma theta n dt m0 s0 mu tau r y t Hsg Hdt Hn Hs0 Htau Hobs E.
  destruct (C57_dw_partial sigma theta n dt m0 s0 mu tau r y t Hsg Hdt ltac:(lia) Hs0 Htau Hobs (repeat 0 (n + n)) (repeat_length _ _)) as (Z & PZ & UZ & _).
  { intros k Hk. rewrite nth_repeat. lra. }
  exists Z. split; [apply UZ; reflexivity|]. split; [exact PZ|]. apply C54_dw_refuted; assumption.
Qed.
Print Assumptions C57_dw_refuted.
(** With the other methods it does so with negative variances. *)
Theorem C57_dw_methods_refuted :
  forall mtd sigma theta n dt m0 s0 mu tau r y t, 0 < sigma -> 0 < dt -> (2 <= n)%nat -> 0 < s0 -> 0 < tau -> obs_ok n r y t ->
  (mtd = RK2 -> 0 < rk2_pull sigma n dt s0) ->
  let E := dw_obj mtd sigma theta n dt m0 s0 mu tau r y t in
  exists Z, evidence (f_dw theta) sigma n dt mu tau y t r Z /\ 0 < Z /\
  exists (x : list R) (v : R), length x = (n + n)%nat /\ (forall s, fst (free_energy E x s) = Ok v) /\ v < - ln Z.
Proof.
  intros mtd sigma theta n dt m0 s0 mu tau r y t Hsg Hdt Hn Hs0 Htau Hobs H2 E.
  destruct (C57_dw_partial sigma theta n dt m0 s0 mu tau r y t Hsg Hdt ltac:(lia) Hs0 Htau Hobs (repeat 0 (n + n)) (repeat_length _ _)) as (Z & PZ & UZ & _).
  { intros k Hk. rewrite nth_repeat. lra. }
  exists Z. split; [apply UZ; reflexivity|]. split; [exact PZ|]. apply C54_dw_methods_refuted; assumption.
Qed.
Print Assumptions C57_dw_methods_refuted.

(** ** instances *)
(** one observation at the second of two points *)
Lemma obs_one : forall r y, 0 < r -> obs_ok 2 r [y] [1%nat].
Proof. intros r y Hr. split; [exact Hr|]. split; [reflexivity|]. split; [repeat constructor|repeat constructor]. Qed.
Example C57_bound_instance :
  let E := ou_obj Euler 1 (1 / 2) 2 1 0 1 0 1 1 [3] [1%nat] in
  exists Z v (o : Out E), evidence (f_ou (1 / 2)) 1 2 1 0 1 [3] [1%nat] 1 Z /\ 0 < Z /\
  free_energy E [0; 0; 0; 0] None = (Ok v, Some o) /\ - ln Z <= v.
Proof.
  intros E. subst E. pose proof (obs_one 1 3 ltac:(lra)) as Hobs. pose proof Hobs as (Hr & Hy & Ht & Hst).
  destruct (C57_ou_partial 1 (1 / 2) 2 1 0 1 0 1 1 [3] [1%nat] ltac:(lra) ltac:(lra) ltac:(lia) ltac:(lra) ltac:(lra) Hobs [0; 0; 0; 0] eq_refl) as (Z & PZ & UZ & _).
  { intros k Hk. destruct k as [|k]; [cbn; lra|lia]. }
  destruct (x_value _ _ (e_ou 1 (1 / 2)) _ _ _ _ (ou_energy_ok 1 (1 / 2) 1) 2 1 1 0 1 0 1 1 [3] [1%nat] ltac:(lia) Hr Hy Ht
    (fun A B M S => ou_sde 1 (1 / 2) 1 [1%nat] A B M S ltac:(lra) Hst) [0; 0; 0; 0] eq_refl) as (o & Ho & P).
  exists Z. eexists. exists o. split; [apply UZ; reflexivity|]. split; [exact PZ|]. split; [exact (Ho None)|].
  destruct (P 1%nat ltac:(lia)) as [P1 P2]. cbn in P1, P2.
  eapply (C57_ou_bound_partial 1 (1 / 2) 2 1 0 1 0 1 1 [3] [1%nat]) with (x := [0; 0; 0; 0]) (s := None) (o := o)
    (e0 := e_ou 1 (1 / 2) 0 0 0 1) (e1 := e_ou 1 (1 / 2) 0 0 0 2); try lra; try lia; try exact Hobs; try reflexivity.
  - intros k Hk. destruct k as [|k]; [cbn; lra|lia].
  - apply UZ. reflexivity.
  - exact (Ho None).
  - apply e_ou_E; lra.
  - cbn [Nat.sub Nat.add]. rewrite P1, P2. cbn [nth].
    replace (0 + 1 * (- 0 * 0 + 0)) with 0 by ring. replace (1 + 1 * (-2 * 0 * 1 + 1)) with 2 by ring. apply e_ou_E; lra.
  - unfold e_ou, ou_q, mom_elt. rnum. change (car RNum) with R in *. lra.
Qed.
Example C57_prior_instance :
  let E := ou_obj Euler 1 1 2 (1 / 2) 0 2 0 2 100 [0] [1%nat] in
  exists Z v, evidence (f_ou 1) 1 2 (1 / 2) 0 2 [0] [1%nat] 100 Z /\ 0 < Z /\
  (forall s, fst (free_energy E [1; 1; 0; 0] s) = Ok v) /\ v < - ln Z.
Proof.
  intros E. subst E. pose proof (obs_one 100 0 ltac:(lra)) as Hobs. pose proof Hobs as (Hr & Hy & Ht & Hst).
  destruct (C57_ou_prior_refuted 1 1 2 (1 / 2) 0 2 100 [0] [1%nat] ltac:(lra) ltac:(lra) ltac:(lia) ltac:(lra) Hobs) as (Z & v & o & HZ & PZ & Ef & Q).
  exists Z, v. split; [exact HZ|]. split; [exact PZ|]. split; [intros s; exact (f_equal fst (Ef s))|]. apply Q.
  destruct (x_value _ _ (e_ou 1 1) _ _ _ _ (ou_energy_ok 1 1 (1 / 2)) 2 (1 / 2) 1 0 2 0 2 100 [0] [1%nat] ltac:(lia) Hr Hy Ht
    (fun A B M S => ou_sde 1 1 (1 / 2) [1%nat] A B M S ltac:(lra) Hst) [1; 1; 0; 0] eq_refl) as (o2 & Ho & P).
  specialize (Ef None). specialize (Ho None). change (repeat 1 2 ++ repeat 0 2)%list with [1; 1; 0; 0] in Ef.
  rewrite Ho in Ef. injection Ef as _ E2. subst o2.
  destruct (P 1%nat ltac:(lia)) as [P1 P2]. cbn [length Rsum nth]. rewrite P1, P2. cbn [path_m path_s]. unfold xa, xb. cbn [nth Nat.add].
  pose proof ln_lt_2. lra.
Qed.
