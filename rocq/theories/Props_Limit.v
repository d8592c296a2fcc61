(** * Property C60: free_energy and gradient as the grid is refined. *)
From Coq Require Import ZArith List Bool Arith Reals Lra Lia Sorted.
From Coquelicot Require Import Coquelicot.
From Verif Require Import Num Arr M_Utils M_Ode M_Moments M_Sde1 M_Prior M_Like M_VarGP
  Spec_Utils Spec_Gauss Spec_Prior Spec_Sde1 Spec_Ode Spec_TimeVar Spec_Limit Spec_VarGP P_Trapz P_Moments P_Sde1 P_RMat P_Det P_Expect P_Prior P_Like P_VarGP P_Adjoint P_Grad1
  P_TimeVar P_TimeVar5 P_Limit1 P_Limit2 P_Limit3 P_Limit4 P_Limit5 P_Limit6.
Import ListNotations.
Local Open Scope R_scope.

Notation ou_obj mtd sigma theta n dt m0 s0 mu tau r y t :=
  (vgp1 (K:=RNum) ln PI (ou_energy (K:=RNum) sigma theta dt) mtd n dt sigma (/ sigma) m0 s0 mu tau y t r 1).
Notation dw_obj mtd sigma theta n dt m0 s0 mu tau r y t :=
  (vgp1 (K:=RNum) ln PI (dw_energy (K:=RNum) sigma theta dt) mtd n dt sigma (/ sigma) m0 s0 mu tau y t r 1).
(** first order for Euler and RungeKutta2, second order for Heun and RungeKutta4 *)
Definition ord (mtd : method) : nat := match mtd with Euler | RK2 => 1%nat | Heun | RK4 => 2%nat end.
(** the argument of free_energy and gradient: the values of a and b on the grid 0, dt, .., n dt *)
Definition sampled (dt : R) (n : nat) (a b : R -> R) : list R := grid dt (n + 1) a ++ grid dt (n + 1) b.

(** ** Ornstein-Uhlenbeck *)
(** The continuous free energy exists and is unique (so C60 is not vacuous). *)
Theorem C60_ou_defined :
  forall theta sigma T m0 s0 mu tau r obs a b, 0 < sigma -> 0 <= T -> 0 < s0 -> 0 < tau -> 0 < r -> times_ok 0 T obs ->
  smooth 1 T a -> smooth 1 T b -> exists v, forall w, cont_free_energy (f_ou theta) T sigma m0 s0 mu tau r obs a b w <-> w = v.
Proof.
  intros theta sigma T m0 s0 mu tau r obs a b Hsg HT Hs0 Htau Hr Hobs Ha Hb.
  apply (cfe_exists (f_ou theta) (e_ou sigma theta) sigma Hsg (fun a b m s => e_ou_E sigma theta a b m s Hsg) T m0 s0 mu tau r HT Hs0 Htau Hr obs Hobs a b Ha Hb).
Qed.
Print Assumptions C60_ou_defined.

(** The limit of free_energy is the continuous free energy less ln(s0)/2 (C26). *)
Theorem C60_ou_value_partial :
  forall theta sigma T m0 s0 mu tau r obs a b, 0 < sigma -> 0 <= T -> 0 < s0 -> 0 < tau -> 0 < r -> times_ok 0 T obs ->
  smooth 2 T a -> smooth 2 T b -> forall v, cont_free_energy (f_ou theta) T sigma m0 s0 mu tau r obs a b v ->
  exists K dt0, 0 < dt0 /\ forall mtd dt n t, 0 < dt < dt0 -> INR n * dt = T -> at_index dt obs t ->
  exists w : R, (forall st, fst (free_energy (ou_obj mtd sigma theta (n + 1) dt m0 s0 mu tau r (map snd obs) t) (sampled dt n a b) st) = Ok w) /\
  Rabs (w - (v - 1 / 2 * ln s0)) <= K * dt ^ ord mtd.
Proof.
  intros theta sigma T m0 s0 mu tau r obs a b Hsg HT Hs0 Htau Hr Hobs Ha Hb v Hv.
  destruct (isp_ou sigma theta) as (I1 & I2 & I3 & I4 & I5).
  destruct (limit_value (f_ou theta) (e_ou sigma theta) (e_ou sigma theta) _ _ _ _ sigma Hsg (fun a b m s => e_ou_E sigma theta a b m s Hsg) I1 I1
    (ou_energy (K:=RNum) sigma theta) (/ sigma) (ou_energy_ok sigma theta) (fun dt t A B M S => ou_sde sigma theta dt t A B M S Hsg)
    T m0 s0 mu tau r HT Hs0 Htau Hr obs Hobs a b Ha Hb) as (m & s & _ & _ & H).
  destruct (H v Hv) as (K & dt0 & Hd & HK). exists K, dt0. split; [exact Hd|]. intros mtd dt n t Hdt Hn Hi.
  destruct (HK mtd dt n t Hdt Hn Hi) as (w & o & Hw & Hb_). exists w. split; [intros st; unfold sampled; rewrite Hw; reflexivity|].
  assert (Z : RInt (fun t => e_ou sigma theta (a t) (b t) (m t) (s t) - e_ou sigma theta (a t) (b t) (m t) (s t)) 0 T = 0).
  { rewrite (RInt_ext _ (fun _ => 0)) by (intros; apply Rminus_diag_eq; reflexivity). rewrite RInt_const. apply Rmult_0_r. }
  rewrite Z, Rminus_0_r in Hb_. destruct mtd; exact Hb_.
Qed.
Print Assumptions C60_ou_value_partial.

Theorem C60_ou_gradient :
  forall theta sigma T m0 s0 mu tau r obs a b, 0 < sigma -> 0 <= T -> 0 < s0 -> 0 < tau -> 0 < r -> times_ok 0 T obs ->
  smooth 2 T a -> smooth 2 T b -> exists ga gb, cont_gradient (f_ou theta) T sigma m0 s0 mu tau r obs a b ga gb /\
  exists K dt0, 0 < dt0 /\ forall mtd dt n t, 0 < dt < dt0 -> INR n * dt = T -> at_index dt obs t ->
  exists g : list R, (forall st, fst (gradient (ou_obj mtd sigma theta (n + 1) dt m0 s0 mu tau r (map snd obs) t) (sampled dt n a b) true st) = Ok g) /\
  length g = (n + 1 + (n + 1))%nat /\
  forall k, (k <= n)%nat -> Rabs (nth k g 0 / dt - ga (INR k * dt)) <= K * dt ^ ord mtd /\
                            Rabs (nth (n + 1 + k) g 0 / dt - gb (INR k * dt)) <= K * dt ^ ord mtd.
Proof.
  intros theta sigma T m0 s0 mu tau r obs a b Hsg HT Hs0 Htau Hr Hobs Ha Hb.
  destruct (isp_ou sigma theta) as (I1 & I2 & I3 & I4 & I5).
  destruct (limit_gradient (f_ou theta) (e_ou sigma theta) (e_ou sigma theta) _ _ _ _ sigma Hsg (fun a b m s => e_ou_E sigma theta a b m s Hsg) I1 I2 I3 I4 I5 (ou_grad4 sigma theta Hsg)
    (ou_energy (K:=RNum) sigma theta) (/ sigma) (ou_energy_ok sigma theta) (fun dt t A B M S => ou_sde sigma theta dt t A B M S Hsg)
    T m0 s0 mu tau r HT Hs0 Htau Hr obs Hobs a b Ha Hb) as (ga & gb & HG & K & dt0 & Hd & HK).
  exists ga, gb. split; [exact HG|]. exists K, dt0. split; [exact Hd|]. intros mtd dt n t Hdt Hn Hi.
  destruct (HK mtd dt n t Hdt Hn Hi) as (g & o & Hw & Lg & Hb_). exists g. split; [intros st; unfold sampled; rewrite Hw; reflexivity|].
  split; [exact Lg|]. intros k Hk. destruct (Hb_ k Hk) as [B1 B2].
  split; apply per_step; try (destruct mtd; assumption); lra.
Qed.
Print Assumptions C60_ou_gradient.

(** Finding: unless s0 = 1 the values do not approach the continuous free energy. *)
Theorem C60_ou_refuted :
  forall theta sigma T m0 s0 mu tau r obs a b, 0 < sigma -> 0 <= T -> 0 < s0 -> s0 <> 1 -> 0 < tau -> 0 < r -> times_ok 0 T obs ->
  smooth 2 T a -> smooth 2 T b -> forall v, cont_free_energy (f_ou theta) T sigma m0 s0 mu tau r obs a b v ->
  exists d dt0, 0 < d /\ 0 < dt0 /\ forall mtd dt n t, 0 < dt < dt0 -> INR n * dt = T -> at_index dt obs t ->
  exists w : R, (forall st, fst (free_energy (ou_obj mtd sigma theta (n + 1) dt m0 s0 mu tau r (map snd obs) t) (sampled dt n a b) st) = Ok w) /\
  d <= Rabs (w - v).
Proof.
  intros theta sigma T m0 s0 mu tau r obs a b Hsg HT Hs0 Hs1 Htau Hr Hobs Ha Hb v Hv.
  destruct (C60_ou_value_partial theta sigma T m0 s0 mu tau r obs a b Hsg HT Hs0 Htau Hr Hobs Ha Hb v Hv) as (K & dt0 & Hd & H).
  destruct (apart K dt0 v (1 / 2 * ln s0) Hd) as (d & dt1 & D1 & D2 & HA).
  { intros E. apply Hs1. apply ln_inv; [exact Hs0|lra|]. rewrite ln_1. lra. }
  exists d, dt1. split; [exact D1|]. split; [apply D2|]. intros mtd dt n t Hdt Hn Hi.
  destruct (H mtd dt n t ltac:(lra) Hn Hi) as (w & Hw & B). exists w. split; [exact Hw|].
  apply (HA (ord mtd) dt w); [destruct mtd; cbn; lia|exact Hdt|exact B].
Qed.
Print Assumptions C60_ou_refuted.

(** ** Double well *)
Theorem C60_dw_defined :
  forall theta sigma T m0 s0 mu tau r obs a b, 0 < sigma -> 0 <= T -> 0 < s0 -> 0 < tau -> 0 < r -> times_ok 0 T obs ->
  smooth 1 T a -> smooth 1 T b -> exists v, forall w, cont_free_energy (f_dw theta) T sigma m0 s0 mu tau r obs a b w <-> w = v.
Proof.
  intros theta sigma T m0 s0 mu tau r obs a b Hsg HT Hs0 Htau Hr Hobs Ha Hb.
  apply (cfe_exists (f_dw theta) (e_dw sigma theta) sigma Hsg (fun a b m s => e_dw_E sigma theta a b m s Hsg) T m0 s0 mu tau r HT Hs0 Htau Hr obs Hobs a b Ha Hb).
Qed.
Print Assumptions C60_dw_defined.

(** Also missing: the integral of 4 E[x^6] / sigma (C21). *)
Theorem C60_dw_value_partial :
  forall theta sigma T m0 s0 mu tau r obs a b, 0 < sigma -> 0 <= T -> 0 < s0 -> 0 < tau -> 0 < r -> times_ok 0 T obs ->
  smooth 2 T a -> smooth 2 T b -> exists m s x6, moments T sigma m0 s0 a b m s /\ (forall t, 0 <= t <= T -> E_normal (m t) (s t) (fun x => x ^ 6) (x6 t)) /\
  forall v, cont_free_energy (f_dw theta) T sigma m0 s0 mu tau r obs a b v ->
  exists K dt0, 0 < dt0 /\ forall mtd dt n t, 0 < dt < dt0 -> INR n * dt = T -> at_index dt obs t ->
  exists w : R, (forall st, fst (free_energy (dw_obj mtd sigma theta (n + 1) dt m0 s0 mu tau r (map snd obs) t) (sampled dt n a b) st) = Ok w) /\
  Rabs (w - (v - 1 / 2 * ln s0 - RInt (fun t => 4 / sigma * x6 t) 0 T)) <= K * dt ^ ord mtd.
Proof.
  intros theta sigma T m0 s0 mu tau r obs a b Hsg HT Hs0 Htau Hr Hobs Ha Hb.
  destruct (isp_dw sigma theta) as (I1 & I1' & I2 & I3 & I4 & I5).
  destruct (limit_value (f_dw theta) (e_dw sigma theta) (e_dwc sigma theta) _ _ _ _ sigma Hsg (fun a b m s => e_dw_E sigma theta a b m s Hsg) I1 I1'
    (dw_energy (K:=RNum) sigma theta) (/ sigma) (dw_energy_ok sigma theta) (fun dt t A B M S => dw_sde sigma theta dt t A B M S Hsg)
    T m0 s0 mu tau r HT Hs0 Htau Hr obs Hobs a b Ha Hb) as (m & s & Hms & Hpos & H).
  exists m, s, (fun t => mom_elt (K:=RNum) 6 (m t) (s t)). split; [exact Hms|]. split; [intros t Ht; apply E_x6, Hpos, Ht|]. intros v Hv.
  destruct (H v Hv) as (K & dt0 & Hd & HK). exists K, dt0. split; [exact Hd|]. intros mtd dt n t Hdt Hn Hi.
  destruct (HK mtd dt n t Hdt Hn Hi) as (w & o & Hw & Hb_). exists w. split; [intros st; unfold sampled; rewrite Hw; reflexivity|].
  rewrite (RInt_ext _ (fun t => 4 / sigma * mom_elt (K:=RNum) 6 (m t) (s t))) in Hb_ by (intros; apply dw_gap6, Hsg). destruct mtd; exact Hb_.
Qed.
Print Assumptions C60_dw_value_partial.

(** gradient() has the right coefficient: it converges to the derivative of the continuous free energy. *)
Theorem C60_dw_gradient :
  forall theta sigma T m0 s0 mu tau r obs a b, 0 < sigma -> 0 <= T -> 0 < s0 -> 0 < tau -> 0 < r -> times_ok 0 T obs ->
  smooth 2 T a -> smooth 2 T b -> exists ga gb, cont_gradient (f_dw theta) T sigma m0 s0 mu tau r obs a b ga gb /\
  exists K dt0, 0 < dt0 /\ forall mtd dt n t, 0 < dt < dt0 -> INR n * dt = T -> at_index dt obs t ->
  exists g : list R, (forall st, fst (gradient (dw_obj mtd sigma theta (n + 1) dt m0 s0 mu tau r (map snd obs) t) (sampled dt n a b) true st) = Ok g) /\
  length g = (n + 1 + (n + 1))%nat /\
  forall k, (k <= n)%nat -> Rabs (nth k g 0 / dt - ga (INR k * dt)) <= K * dt ^ ord mtd /\
                            Rabs (nth (n + 1 + k) g 0 / dt - gb (INR k * dt)) <= K * dt ^ ord mtd.
Proof.
  intros theta sigma T m0 s0 mu tau r obs a b Hsg HT Hs0 Htau Hr Hobs Ha Hb.
  destruct (isp_dw sigma theta) as (I1 & I1' & I2 & I3 & I4 & I5).
  destruct (limit_gradient (f_dw theta) (e_dw sigma theta) (e_dwc sigma theta) _ _ _ _ sigma Hsg (fun a b m s => e_dw_E sigma theta a b m s Hsg) I1 I2 I3 I4 I5 (dw_grad4 sigma theta Hsg)
    (dw_energy (K:=RNum) sigma theta) (/ sigma) (dw_energy_ok sigma theta) (fun dt t A B M S => dw_sde sigma theta dt t A B M S Hsg)
    T m0 s0 mu tau r HT Hs0 Htau Hr obs Hobs a b Ha Hb) as (ga & gb & HG & K & dt0 & Hd & HK).
  exists ga, gb. split; [exact HG|]. exists K, dt0. split; [exact Hd|]. intros mtd dt n t Hdt Hn Hi.
  destruct (HK mtd dt n t Hdt Hn Hi) as (g & o & Hw & Lg & Hb_). exists g. split; [intros st; unfold sampled; rewrite Hw; reflexivity|].
  split; [exact Lg|]. intros k Hk. destruct (Hb_ k Hk) as [B1 B2].
  split; apply per_step; try (destruct mtd; assumption); lra.
Qed.
Print Assumptions C60_dw_gradient.

(** Finding: for s0 = 1, where the starting point is right, the values still stay below the continuous free energy. *)
Theorem C60_dw_refuted :
  forall theta sigma T m0 mu tau r obs a b, 0 < sigma -> 0 < T -> 0 < tau -> 0 < r -> times_ok 0 T obs ->
  smooth 2 T a -> smooth 2 T b -> forall v, cont_free_energy (f_dw theta) T sigma m0 1 mu tau r obs a b v ->
  exists d dt0, 0 < d /\ 0 < dt0 /\ forall mtd dt n t, 0 < dt < dt0 -> INR n * dt = T -> at_index dt obs t ->
  exists w : R, (forall st, fst (free_energy (dw_obj mtd sigma theta (n + 1) dt m0 1 mu tau r (map snd obs) t) (sampled dt n a b) st) = Ok w) /\
  d <= Rabs (w - v).
Proof.
  intros theta sigma T m0 mu tau r obs a b Hsg HT Htau Hr Hobs Ha Hb v Hv.
  destruct (C60_dw_value_partial theta sigma T m0 1 mu tau r obs a b Hsg ltac:(lra) ltac:(lra) Htau Hr Hobs Ha Hb) as (m & s & x6 & Hms & H6 & HV).
  destruct (HV v Hv) as (K & dt0 & Hd & H).
  assert (P : 0 < RInt (fun t => 4 / sigma * x6 t) 0 T).
  { apply (x6_pos T sigma m0 1 a b m s); auto; try lra; apply smooth_pred; assumption. }
  destruct (apart K dt0 v (RInt (fun t => 4 / sigma * x6 t) 0 T) Hd) as (d & dt1 & D1 & D2 & HA); [lra|].
  exists d, dt1. split; [exact D1|]. split; [apply D2|]. intros mtd dt n t Hdt Hn Hi.
  destruct (H mtd dt n t ltac:(lra) Hn Hi) as (w & Hw & B). exists w. split; [exact Hw|].
  rewrite ln_1, Rmult_0_r, Rminus_0_r in B. apply (HA (ord mtd) dt w); [destruct mtd; cbn; lia|exact Hdt|exact B].
Qed.
Print Assumptions C60_dw_refuted.

(** ** an instance: T = 1, one observation at 1/2, grids of step 1/(2j) *)
Example C60_instance : times_ok 0 1 [(1 / 2, 3)] /\ smooth 2 1 (fun _ => 1) /\
  (forall j, (0 < j)%nat -> let dt := / INR (2 * j) in 0 < dt /\ INR (2 * j) * dt = 1 /\ at_index dt [(1 / 2, 3)] [j]) /\
  exists v, cont_free_energy (f_ou 2) 1 1 0 1 0 1 1 [(1 / 2, 3)] (fun _ => 1) (fun _ => 0) v /\
  is_lim_seq (fun j => match fst (free_energy (ou_obj Heun 1 2 (2 * S j + 1) (/ INR (2 * S j)) 0 1 0 1 1 [3] [S j]) (sampled (/ INR (2 * S j)) (2 * S j) (fun _ => 1) (fun _ => 0)) None) with Ok w => w | Err _ => 0 end) v.
Proof.
  assert (T1 : times_ok 0 1 [(1 / 2, 3)]) by (cbn; lra).
  assert (G : forall j, (0 < j)%nat -> let dt := / INR (2 * j) in 0 < dt /\ INR (2 * j) * dt = 1 /\ at_index dt [(1 / 2, 3)] [j]).
  { intros j Hj. cbv zeta. assert (P : 0 < INR j) by (apply lt_0_INR, Hj). assert (Q : INR (2 * j) = 2 * INR j) by (rewrite mult_INR; cbn; ring). rewrite Q.
    split; [apply Rinv_0_lt_compat; lra|]. split; [field; lra|]. constructor; [cbn [fst]; field; lra|constructor]. }
  split; [exact T1|]. split; [apply smooth_const|]. split; [exact G|].
  destruct (C60_ou_defined 2 1 1 0 1 0 1 1 [(1 / 2, 3)] (fun _ => 1) (fun _ => 0)) as (v & Hv); try lra; [exact T1|apply smooth_const|apply smooth_const|].
  exists v. assert (Hv1 : cont_free_energy (f_ou 2) 1 1 0 1 0 1 1 [(1 / 2, 3)] (fun _ => 1) (fun _ => 0) v) by (apply Hv; reflexivity).
  split; [exact Hv1|].
  destruct (C60_ou_value_partial 2 1 1 0 1 0 1 1 [(1 / 2, 3)] (fun _ => 1) (fun _ => 0)) with (v := v) as (K & dt0 & Hd & H); try lra; try apply smooth_const; [exact T1|exact Hv1|].
  rewrite ln_1 in H. apply is_lim_seq_spec. intros eps.
  destruct (small_step dt0 K eps Hd (cond_pos eps)) as (N & HN). exists N. intros j Hj.
  destruct (G (S j) ltac:(lia)) as (G1 & G2 & G3). destruct (HN j Hj) as (N1 & N2).
  destruct (H Heun _ (2 * S j)%nat [S j] (conj G1 N1) G2 G3) as (w & Hw & B). cbn [map snd] in Hw. rewrite (Hw None).
  replace (v - 1 / 2 * 0) with v in B by ring. eapply Rle_lt_trans; [exact B|]. exact N2.
Qed.
