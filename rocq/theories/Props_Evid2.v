(** * Property C57, continued: every method of integration, and the size of the gap for small steps. *)
From Coq Require Import ZArith List Bool Arith Reals Lra Lia Psatz Sorted.
From Coquelicot Require Import Coquelicot.
From Verif Require Import Num Arr M_Utils M_Ode M_Moments M_Sde1 M_Prior M_Like M_VarGP
  Spec_Utils Spec_Gauss Spec_Prior Spec_Sde1 Spec_VarGP Spec_Evid P_Trapz P_Moments P_Sde1 P_RMat P_Det P_Oper P_Expect P_Prior P_Like P_VarGP P_Adjoint P_Grad1 P_Bound
  P_Bound2 P_Evid P_Evid2 P_Evid3 P_Evid4 Props_Bound Props_Evid.
Import ListNotations.
Local Open Scope R_scope.

(** ** every method *)
(** For any linear chain x' = x + dt (- al x + be) + N(0, sigma dt) that has the means m and variances s of the forward sweep
    (there is one if no variance after the first is below sigma dt), the objective v bounds -ln Z from above up to ln(s0)/2
    and the difference between the trapezoidal rule for the mismatch e of the given slopes and offsets and the left
    rectangle rule for the mismatch d of the chain. *)
Theorem C57_ou_any_method_partial :
  forall mtd sigma theta n dt m0 s0 mu tau r y t, 0 < sigma -> 0 < dt -> (0 < n)%nat -> 0 < s0 -> 0 < tau -> obs_ok n r y t ->
  let E := ou_obj mtd sigma theta n dt m0 s0 mu tau r y t in
  forall x : list R, length x = (n + n)%nat ->
  exists (v : R) (o : Out E), (forall s, free_energy E x s = (Ok v, Some o)) /\
  let m := fun k => nth k (o_mt o : list R) 0 in let s := fun k => nth k (o_st o : list R) 0 in
  let chain := fun al be : nat -> R => forall k, (k + 1 < n)%nat ->
    m (k + 1)%nat = m k + dt * (- al k * m k + be k) /\ s (k + 1)%nat = (1 - dt * al k) ^ 2 * s k + sigma * dt in
  ((forall k, (k + 1 < n)%nat -> sigma * dt <= s (k + 1)%nat) -> exists al be, chain al be) /\
  forall al be, chain al be -> exists e d : nat -> R,
  (forall k, (k < n)%nat -> E_normal (m k) (s k) (mismatch (f_ou theta) sigma (nth k x 0) (nth (n + k) x 0)) (e k)) /\
  (forall k, (k < n)%nat -> E_normal (m k) (s k) (mismatch (f_ou theta) sigma (al k) (be k)) (d k)) /\
  forall Z, evidence (f_ou theta) sigma n dt mu tau y t r Z ->
    0 < Z /\ - ln Z <= v + 1 / 2 * ln s0 + (dt * Rsum (n - 1) d - trap n e dt).
Proof.
  intros mtd sigma theta n dt m0 s0 mu tau r y t Hsg Hdt Hn Hs0 Htau (Hr & Hy & Ht & Hst) E x Hx. subst E.
  destruct (x_value_any _ _ (e_ou sigma theta) _ _ _ _ (ou_energy_ok sigma theta dt) mtd n dt sigma m0 s0 mu tau r y t Hn Hr Hy Ht
    (fun A B M S => ou_sde sigma theta dt t A B M S Hsg Hst) x Hx) as (o & Ho & O1 & O2).
  cbv beta in O1, O2. cbv zeta in Ho. eexists. exists o. split; [exact Ho|]. cbv zeta.
  set (m := fun k => nth k (o_mt o : list R) 0) in *. set (s := fun k => nth k (o_st o : list R) 0) in *.
  assert (O1' : m O = m0) by exact O1. assert (O2' : s O = s0) by exact O2.
  assert (S0 : 0 < s O) by (rewrite O2'; exact Hs0).
  split; [intros Hc; exact (chain_exists sigma n dt m s Hsg Hdt S0 Hc)|]. intros al be Hch.
  pose proof (chain_pos sigma Hsg n dt m s al be Hdt S0 Hn Hch) as SP.
  exists (fun k => e_ou sigma theta (nth k x 0) (nth (n + k) x 0) (m k) (s k)), (fun k => e_ou sigma theta (al k) (be k) (m k) (s k)).
  split; [intros k Hk; apply e_ou_E; [exact Hsg|exact (SP k Hk)]|]. split; [intros k Hk; apply e_ou_E; [exact Hsg|exact (SP k Hk)]|].
  intros Z HZ.
  destruct (any_bound (f_ou theta) (e_ou sigma theta) (lq_ou sigma theta) sigma Hsg ltac:(intros; cbn; lia) (fun a b z => lq_ou_eval sigma theta a b z Hsg)
    (fun a b m s => lq_ou_mom sigma theta a b m s Hsg) n dt mu tau r y t m s al be Hdt Htau S0 Hr Hn Ht Hch Z HZ) as [PZ B].
  split; [exact PZ|]. rewrite O1', O2' in B. rewrite (kl0_1d_val mu tau m0 s0) by lra. exact (gap_ou _ _ _ _ _ _ B).
Qed.
Print Assumptions C57_ou_any_method_partial.
(** the same for the double well, where the missing half of the sixth moment is added *)
Theorem C57_dw_any_method_partial :
  forall mtd sigma theta n dt m0 s0 mu tau r y t, 0 < sigma -> 0 < dt -> (0 < n)%nat -> 0 < s0 -> 0 < tau -> obs_ok n r y t ->
  let E := dw_obj mtd sigma theta n dt m0 s0 mu tau r y t in
  forall x : list R, length x = (n + n)%nat ->
  exists (v : R) (o : Out E), (forall s, free_energy E x s = (Ok v, Some o)) /\
  let m := fun k => nth k (o_mt o : list R) 0 in let s := fun k => nth k (o_st o : list R) 0 in
  let chain := fun al be : nat -> R => forall k, (k + 1 < n)%nat ->
    m (k + 1)%nat = m k + dt * (- al k * m k + be k) /\ s (k + 1)%nat = (1 - dt * al k) ^ 2 * s k + sigma * dt in
  ((forall k, (k + 1 < n)%nat -> sigma * dt <= s (k + 1)%nat) -> exists al be, chain al be) /\
  forall al be, chain al be -> exists e d x6 : nat -> R,
  (forall k, (k < n)%nat -> E_normal (m k) (s k) (mismatch (f_dw theta) sigma (nth k x 0) (nth (n + k) x 0)) (e k)) /\
  (forall k, (k < n)%nat -> E_normal (m k) (s k) (mismatch (f_dw theta) sigma (al k) (be k)) (d k)) /\
  (forall k, (k < n)%nat -> E_normal (m k) (s k) (fun z => z ^ 6) (x6 k)) /\
  forall Z, evidence (f_dw theta) sigma n dt mu tau y t r Z ->
    0 < Z /\ - ln Z <= v + 1 / 2 * ln s0 + trap n (fun k => 4 * x6 k / sigma) dt + (dt * Rsum (n - 1) d - trap n e dt).
Proof.
  intros mtd sigma theta n dt m0 s0 mu tau r y t Hsg Hdt Hn Hs0 Htau (Hr & Hy & Ht & Hst) E x Hx. subst E.
  destruct (x_value_any _ _ (e_dwc sigma theta) _ _ _ _ (dw_energy_ok sigma theta dt) mtd n dt sigma m0 s0 mu tau r y t Hn Hr Hy Ht
    (fun A B M S => dw_sde sigma theta dt t A B M S Hsg Hst) x Hx) as (o & Ho & O1 & O2).
  cbv beta in O1, O2. cbv zeta in Ho. eexists. exists o. split; [exact Ho|]. cbv zeta.
  set (m := fun k => nth k (o_mt o : list R) 0) in *. set (s := fun k => nth k (o_st o : list R) 0) in *.
  assert (O1' : m O = m0) by exact O1. assert (O2' : s O = s0) by exact O2.
  assert (S0 : 0 < s O) by (rewrite O2'; exact Hs0).
  split; [intros Hc; exact (chain_exists sigma n dt m s Hsg Hdt S0 Hc)|]. intros al be Hch.
  pose proof (chain_pos sigma Hsg n dt m s al be Hdt S0 Hn Hch) as SP.
  exists (fun k => e_dw sigma theta (nth k x 0) (nth (n + k) x 0) (m k) (s k)), (fun k => e_dw sigma theta (al k) (be k) (m k) (s k)),
    (fun k => mom_elt (K:=RNum) 6 (m k) (s k)).
  split; [intros k Hk; apply e_dw_E; [exact Hsg|exact (SP k Hk)]|]. split; [intros k Hk; apply e_dw_E; [exact Hsg|exact (SP k Hk)]|].
  split; [intros k Hk; apply mom_elt_E; [exact (SP k Hk)|lia]|].
  intros Z HZ.
  destruct (any_bound (f_dw theta) (e_dw sigma theta) (lq_dw sigma theta) sigma Hsg ltac:(intros; cbn; lia) (fun a b z => lq_dw_eval sigma theta a b z Hsg)
    (fun a b m s => lq_dw_mom sigma theta a b m s Hsg) n dt mu tau r y t m s al be Hdt Htau S0 Hr Hn Ht Hch Z HZ) as [PZ B].
  split; [exact PZ|]. rewrite O1', O2' in B. rewrite (kl0_1d_val mu tau m0 s0) by lra.
  rewrite (dw_trap sigma theta n dt (fun k => nth k x 0) (fun k => nth (n + k) x 0) m s Hsg). exact (gap_dw _ _ _ _ _ _ _ B).
Qed.
Print Assumptions C57_dw_any_method_partial.

(** ** Euler: the gap is of the order of the step, with one constant for all data and all bounded parameters *)
Theorem C57_ou_rate_partial :
  forall sigma theta T L m0 s0, 0 < sigma -> 0 <= T -> 0 <= L -> 0 < s0 -> exists C : R,
  forall n dt mu tau r y t, 0 < dt -> dt * L <= 1 / 2 -> INR (n - 1) * dt <= T -> (0 < n)%nat -> 0 < tau -> obs_ok n r y t ->
  forall x : list R, length x = (n + n)%nat -> (forall k, (k < n + n)%nat -> Rabs (nth k x 0) <= L) ->
  forall Z, evidence (f_ou theta) sigma n dt mu tau y t r Z ->
  exists v : R, (forall s, fst (free_energy (ou_obj Euler sigma theta n dt m0 s0 mu tau r y t) x s) = Ok v) /\
  - ln Z <= v + 1 / 2 * ln s0 + C * dt.
Proof.
  intros sigma theta T L m0 s0 Hsg HT HL Hs0.
  set (B0 := ((Rabs theta + L) ^ 2 * (m0 ^ 2 + s0) + 2 * (Rabs theta + L) * L * Rabs m0 + L ^ 2) / (2 * sigma)).
  exists (rate_c sigma T L s0 (Rabs theta) B0).
  intros n dt mu tau r y t Hdt HdL HnT Hn Htau (Hr & Hy & Ht & Hst) x Hx Hb Z HZ.
  destruct (x_value _ _ (e_ou sigma theta) _ _ _ _ (ou_energy_ok sigma theta dt) n dt sigma m0 s0 mu tau r y t Hn Hr Hy Ht
    (fun A B M S => ou_sde sigma theta dt t A B M S Hsg Hst) x (len2 n x Hx)) as (o & Ho & P).
  eexists. split; [intros s; exact (f_equal fst (Ho s))|].
  destruct (code_rate (f_ou theta) (e_ou sigma theta) (lq_ou sigma theta) (fun _ _ => - theta) sigma Hsg) with
    (T := T) (L := L) (D := Rabs theta) (B0 := B0) (n := n) (dt := dt) (mu := mu) (tau := tau) (m0 := m0) (s0 := s0) (r := r) (y := y) (t := t)
    (a := xa x) (b := xb n x) (Z := Z) as [PZ B]; try assumption.
  { intros; cbn; lia. } { intros; apply lq_ou_eval, Hsg. } { intros; apply lq_ou_mom, Hsg. }
  { intros a a' b m s. rewrite e_ou_shift by exact Hsg. f_equal. f_equal. ring. }
  { intros a b m s Hs. apply e_ou_pos; lra. }
  { apply Rabs_pos. } { intros. rewrite Rabs_Ropp. apply Rle_refl. }
  { intros a b Ha Hb'. apply e_ou_start; assumption. }
  { intros k Hk. split; apply Hb; lia. }
  rewrite (kl0_1d_val mu tau m0 s0) by lra. lra.
Qed.
Print Assumptions C57_ou_rate_partial.
Theorem C57_dw_rate_partial :
  forall sigma theta T L m0 s0, 0 < sigma -> 0 <= T -> 0 <= L -> 0 < s0 -> exists C : R,
  forall n dt mu tau r y t, 0 < dt -> dt * L <= 1 / 2 -> INR (n - 1) * dt <= T -> (0 < n)%nat -> 0 < tau -> obs_ok n r y t ->
  let E := dw_obj Euler sigma theta n dt m0 s0 mu tau r y t in
  forall x : list R, length x = (n + n)%nat -> (forall k, (k < n + n)%nat -> Rabs (nth k x 0) <= L) ->
  forall Z, evidence (f_dw theta) sigma n dt mu tau y t r Z ->
  exists (v : R) (o : Out E) (x6 : nat -> R), (forall s, free_energy E x s = (Ok v, Some o)) /\
  (forall k, (k < n)%nat -> E_normal (nth k (o_mt o : list R) 0) (nth k (o_st o : list R) 0) (fun z => z ^ 6) (x6 k)) /\
  - ln Z <= v + 1 / 2 * ln s0 + trap n (fun k => 4 * x6 k / sigma) dt + C * dt.
Proof.
  intros sigma theta T L m0 s0 Hsg HT HL Hs0.
  set (Mx := (Rabs m0 + 1) * exp (T * L)). set (Sx := (s0 + sigma) * exp (T * (2 * L + 1))).
  set (D := 4 * Rabs theta + 12 * (Mx ^ 2 + Sx)). set (c := 4 * Rabs theta + L).
  set (B0 := (16 * Rabs (mom_elt (K:=RNum) 6 m0 s0) + 8 * c * Rabs (mom_elt (K:=RNum) 4 m0 s0) + 8 * L * Rabs (mom_elt (K:=RNum) 3 m0 s0)
    + c ^ 2 * Rabs (mom_elt (K:=RNum) 2 m0 s0) + 2 * L * c * Rabs m0 + L ^ 2) / (2 * sigma)).
  exists (rate_c sigma T L s0 D B0).
  intros n dt mu tau r y t Hdt HdL HnT Hn Htau (Hr & Hy & Ht & Hst) E x Hx Hb Z HZ. subst E.
  destruct (x_value _ _ (e_dwc sigma theta) _ _ _ _ (dw_energy_ok sigma theta dt) n dt sigma m0 s0 mu tau r y t Hn Hr Hy Ht
    (fun A B M S => dw_sde sigma theta dt t A B M S Hsg Hst) x (len2 n x Hx)) as (o & Ho & P).
  set (pm := path_m dt (xa x) (xb n x) m0) in *. set (ps := path_s dt (xa x) sigma s0) in *.
  assert (SP : forall k, (k < n)%nat -> 0 < ps k).
  { intros k Hk. apply (path_s_bound dt L (xa x) sigma s0 k Hdt Hsg Hs0 HL HdL). intros j Hj. apply Hb. lia. }
  eexists. exists o, (fun k => mom_elt (K:=RNum) 6 (pm k) (ps k)). split; [exact Ho|].
  split; [intros k Hk; destruct (P k Hk) as [-> ->]; apply mom_elt_E; [apply SP, Hk|lia]|].
  assert (MP : 0 <= Mx) by (apply Rmult_le_pos; [pose proof (Rabs_pos m0); lra|left; apply exp_pos]).
  assert (SX : 0 <= Sx) by (apply Rmult_le_pos; [lra|left; apply exp_pos]).
  destruct (code_rate (f_dw theta) (e_dw sigma theta) (lq_dw sigma theta) (fun m s => 4 * theta - 12 * (m ^ 2 + s)) sigma Hsg) with
    (T := T) (L := L) (D := D) (B0 := B0) (n := n) (dt := dt) (mu := mu) (tau := tau) (m0 := m0) (s0 := s0) (r := r) (y := y) (t := t)
    (a := xa x) (b := xb n x) (Z := Z) as [PZ B]; try assumption.
  { intros; cbn; lia. } { intros; apply lq_dw_eval, Hsg. } { intros; apply lq_dw_mom, Hsg. }
  { intros a a' b m s. apply e_dw_shift, Hsg. }
  { intros a b m s Hs. unfold e_dw. pose proof (dw_exact_nonneg theta a b m s ltac:(lra)). apply Rmult_le_pos; [lra|]. left. apply Rinv_0_lt_compat, Hsg. }
  { unfold D. pose proof (Rabs_pos theta). pose proof (pow2_ge_0 Mx). lra. }
  { intros m s Hm [Q1 Q2]. fold Mx in Hm. fold Sx in Q2. unfold D. apply Rabs_le.
    assert (m ^ 2 <= Mx ^ 2) by (rewrite <- (pow2_abs m); apply pow_incr; split; [apply Rabs_pos|exact Hm]).
    pose proof (pow2_ge_0 m). pose proof (Rle_abs theta). pose proof (Rle_abs (- theta)). rewrite Rabs_Ropp in *. split; lra. }
  { intros a b Ha Hb'. apply e_dw_start; assumption. }
  { intros k Hk. split; apply Hb; lia. }
  rewrite (kl0_1d_val mu tau m0 s0) by lra. fold pm ps in B.
  rewrite (dw_trap sigma theta n dt (xa x) (xb n x) pm ps Hsg) in B. lra.
Qed.
Print Assumptions C57_dw_rate_partial.

(** ** instances *)
(** two points, slopes and offsets 0, any method: the chain with slope and offset 0 has the means and variances of the sweep *)
Example C57_any_method_instance : forall mtd,
  let E := ou_obj mtd 1 (1 / 2) 2 1 0 1 0 1 1 [3] [1%nat] in
  exists v (o : Out E) (e d : nat -> R), free_energy E [0; 0; 0; 0] None = (Ok v, Some o) /\
  nth 1 (o_st o : list R) 0 = 2 /\ E_normal 0 2 (mismatch (f_ou (1 / 2)) 1 0 0) (e 1%nat) /\
  exists Z, evidence (f_ou (1 / 2)) 1 2 1 0 1 [3] [1%nat] 1 Z /\ 0 < Z /\ - ln Z <= v + (1 * Rsum 1 d - trap 2 e 1).
Proof.
  intros mtd E. subst E. pose proof (obs_one 1 3 ltac:(lra)) as Hobs. pose proof Hobs as (Hr & Hy & Ht & Hst).
  destruct (C57_ou_any_method_partial mtd 1 (1 / 2) 2 1 0 1 0 1 1 [3] [1%nat] ltac:(lra) ltac:(lra) ltac:(lia) ltac:(lra) ltac:(lra) Hobs [0; 0; 0; 0] eq_refl)
    as (v & o & Ho & _ & H).
  destruct (fe_val_out _ _ (e_ou 1 (1 / 2)) _ _ _ _ (ou_energy_ok 1 (1 / 2) 1) mtd 2 1 1 0 1 0 1 1 [3] [1%nat] ltac:(lia) Hr Hy Ht
    (fun A B M S => ou_sde 1 (1 / 2) 1 [1%nat] A B M S ltac:(lra) Hst) [0; 0] [0; 0] eq_refl eq_refl) as (mt & st & o2 & Hf & (O1 & O2) & Ef).
  assert (Eo : o2 = o). { specialize (Ef None). change ([0; 0] ++ [0; 0])%list with [0; 0; 0; 0] in Ef. rewrite Ho in Ef. injection Ef as _ E2. symmetry. exact E2. }
  subst o2.
  assert (HL : forall A : R, A = 0 -> solve_fwd (sys1 RNum) mtd 1 (map (la 0 A) (seq 0 (0 + 2))) (map (lb 0 0 A) (seq 0 (0 + 2))) 0 1 1 = Ok (mt, st)).
  { intros A ->. unfold la, lb. cbn [seq map Nat.add Nat.eqb]. rewrite Rmult_0_l. exact Hf. }
  destruct (last_path 0 1 1 0 1 mtd 0 mt st (HL 0 eq_refl)) as (P1 & P2 & P3).
  assert (V : nth 1 st 0 = 2). { etransitivity; [exact P3|]. unfold last_var, varN. cbn [INR]. destruct mtd; field. }
  assert (V0 : nth 0 st 0 = 1) by (etransitivity; [exact (P2 O ltac:(lia))|cbn [INR]; ring]).
  assert (M0 : nth 0 mt 0 = 0) by exact (P1 O ltac:(lia)). assert (M1 : nth 1 mt 0 = 0) by exact (P1 1%nat ltac:(lia)).
  change (list R) in mt. change (list R) in st.
  assert (W1 : forall k, nth k (o_mt o : list R) 0 = nth k mt 0) by (intros; rewrite O1; reflexivity).
  assert (W2 : forall k, nth k (o_st o : list R) 0 = nth k st 0) by (intros; rewrite O2; reflexivity).
  destruct (H (fun _ => 0) (fun _ => 0)) as (e & d & H1 & H2 & H3).
  { intros k Hk. replace k with O by lia. cbn [Nat.add].
    split; [transitivity (nth 1 mt 0); [apply W1|]; transitivity (nth 0 mt 0 + 1 * (- 0 * nth 0 mt 0 + 0)); [rewrite M0, M1; ring|rewrite <- W1; reflexivity]
           |transitivity (nth 1 st 0); [apply W2|]; transitivity ((1 - 1 * 0) ^ 2 * nth 0 st 0 + 1 * 1); [rewrite V, V0; ring|rewrite <- W2; reflexivity]]. }
  exists v, o, e, d. split; [exact (Ho None)|]. split; [etransitivity; [apply W2|exact V]|]. split.
  { pose proof (H1 1%nat ltac:(lia)) as Q. 
    assert (E1 : nth 1 (o_mt o : list R) 0 = 0) by (etransitivity; [apply W1|exact M1]). assert (E2 : nth 1 (o_st o : list R) 0 = 2) by (etransitivity; [apply W2|exact V]).
    assert (QQ : forall u w : R, u = 0 -> w = 2 -> E_normal u w (mismatch (f_ou (1 / 2)) 1 0 0) (e 1%nat) -> E_normal 0 2 (mismatch (f_ou (1 / 2)) 1 0 0) (e 1%nat))
      by (intros u w -> ->; exact (fun H => H)).
    exact (QQ _ _ E1 E2 Q). }
  destruct (C57_ou_partial 1 (1 / 2) 2 1 0 1 0 1 1 [3] [1%nat] ltac:(lra) ltac:(lra) ltac:(lia) ltac:(lra) ltac:(lra) Hobs [0; 0; 0; 0] eq_refl) as (Z & PZ & UZ & _).
  { intros k Hk. destruct k as [|k]; [cbn; lra|lia]. }
  assert (HZ : evidence (f_ou (1 / 2)) 1 2 1 0 1 [3] [1%nat] 1 Z) by (apply UZ; reflexivity).
  exists Z. split; [exact HZ|]. destruct (H3 Z HZ) as [_ B]. split; [exact PZ|]. rewrite ln_1 in B. change (2 - 1)%nat with 1%nat in B. lra.
Qed.
(** the unit interval in N steps, all slopes 1, offsets 0, starting at N(0, 1), one observation at the end: the objective
    is a bound up to a constant over N *)
Example C57_rate_instance : exists C : R, forall N y, (2 <= N)%nat ->
  exists v Z, evidence (f_ou 1) 1 (N + 1) (/ INR N) 0 1 [y] [N] 1 Z /\
  fst (free_energy (ou_obj Euler 1 1 (N + 1) (/ INR N) 0 1 0 1 1 [y] [N]) (repeat 1 (N + 1) ++ repeat 0 (N + 1)) None) = Ok v /\
  - ln Z <= v + C / INR N.
Proof.
  destruct (C57_ou_rate_partial 1 1 1 1 0 1 ltac:(lra) ltac:(lra) ltac:(lra) ltac:(lra)) as (C & H). exists C. intros N y HN.
  assert (H2 : 2 <= INR N) by (apply le_INR in HN; exact HN).
  assert (Hd : 0 < / INR N) by (apply Rinv_0_lt_compat; lra).
  assert (Hh : / INR N * 1 <= 1 / 2). { rewrite Rmult_1_r. replace (1 / 2) with (/ 2) by field. apply Rinv_le_contravar; lra. }
  assert (Hobs : obs_ok (N + 1) 1 [y] [N]). { split; [lra|]. split; [reflexivity|]. split; [constructor; [lia|constructor]|repeat constructor]. }
  set (x := (repeat 1 (N + 1) ++ repeat 0 (N + 1))%list).
  assert (Hx : length x = (N + 1 + (N + 1))%nat) by (unfold x; rewrite app_length, !repeat_length; reflexivity).
  assert (Hb : forall k, Rabs (nth k x 0) <= 1).
  { intros k. unfold x. destruct (Nat.lt_ge_cases k (N + 1)) as [L|L].
    - rewrite app_nth1 by (rewrite repeat_length; exact L). rewrite (nth_indep _ 0 1) by (rewrite repeat_length; exact L). rewrite nth_repeat, Rabs_R1. lra.
    - rewrite app_nth2 by (rewrite repeat_length; exact L). rewrite nth_repeat, Rabs_R0. lra. }
  destruct (C57_ou_partial 1 1 (N + 1) (/ INR N) 0 1 0 1 1 [y] [N] ltac:(lra) Hd ltac:(lia) ltac:(lra) ltac:(lra) Hobs x Hx) as (Z & PZ & UZ & _).
  { intros k Hk. specialize (Hb k). apply Rabs_le_between in Hb. assert (/ INR N * nth k x 0 <= / INR N * 1) by (apply Rmult_le_compat_l; lra). lra. }
  assert (HZ : evidence (f_ou 1) 1 (N + 1) (/ INR N) 0 1 [y] [N] 1 Z) by (apply UZ; reflexivity).
  destruct (H (N + 1)%nat (/ INR N) 0 1 1 [y] [N] Hd Hh) with (x := x) (Z := Z) as (v & Hv & B); try assumption; try lia; try lra.
  { replace (N + 1 - 1)%nat with N by lia. right. field. lra. }
  { intros k _. apply Hb. }
  exists v, Z. split; [exact HZ|]. split; [exact (Hv None)|]. rewrite ln_1 in B. unfold Rdiv. lra.
Qed.
