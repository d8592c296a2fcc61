(** * Properties C54: the objective of the optimisation is bounded below. *)
From Coq Require Import ZArith List Bool Arith Reals Lra Lia Sorted.
From Coquelicot Require Import Coquelicot.
From Verif Require Import Num Arr M_Utils M_Ode M_Moments M_Sde1 M_Prior M_Like M_VarGP
  Spec_Utils Spec_Gauss Spec_Sde1 Spec_VarGP P_Trapz P_Moments P_Sde1 P_RMat P_Det P_Like P_VarGP P_Adjoint P_Grad1 P_Bound P_Bound2.
Import ListNotations.
Local Open Scope R_scope.

Notation ou_obj mtd sigma theta n dt m0 s0 mu tau r y t :=
  (vgp1 (K:=RNum) ln PI (ou_energy (K:=RNum) sigma theta dt) mtd n dt sigma (/ sigma) m0 s0 mu tau y t r 1).
Notation dw_obj mtd sigma theta n dt m0 s0 mu tau r y t :=
  (vgp1 (K:=RNum) ln PI (dw_energy (K:=RNum) sigma theta dt) mtd n dt sigma (/ sigma) m0 s0 mu tau y t r 1).
(** observations at increasing points of the grid of n points, with variance r *)
Definition obs_ok (n : nat) (r : R) (y : list R) (t : list nat) : Prop :=
  0 < r /\ length y = length t /\ List.Forall (fun i => (i < n)%nat) t /\ Sorted le t.
(** the least value of the observation terms when all residuals and variances are 0 *)
Definition floor_obs (r : R) (t : list nat) : R := INR (length t) * (1 / 2 * (ln (2 * PI) + ln r)).

(** ** Ornstein-Uhlenbeck *)
(** Whatever the method of integration: as long as the variances of the approximation stay nonnegative,
    the objective is bounded by a number that does not depend on x. *)
Theorem C54_ou_partial :
  forall mtd sigma theta n dt m0 s0 mu tau r y t, 0 < sigma -> 0 <= dt -> (0 < n)%nat -> obs_ok n r y t ->
  let E := ou_obj mtd sigma theta n dt m0 s0 mu tau r y t in
  forall (x : list R) s (v : R) (o : Out E), length x = (n + n)%nat -> free_energy E x s = (Ok v, Some o) ->
  (forall k, (k < n)%nat -> 0 <= nth k (o_st o : list R) 0) ->
  kl0_1d (K:=RNum) ln mu tau m0 s0 + floor_obs r t <= v.
Proof.
  intros mtd sigma theta n dt m0 s0 mu tau r y t Hsg Hdt Hn (Hr & Hy & Ht & Hst) E x s v o Hx H Hs.
  destruct (below (ou_energy (K:=RNum) sigma theta dt) mtd n dt sigma (/ sigma) m0 s0 mu tau r y t (fun s => 0 <= s) (fun _ _ => 0)
    Hn Hr Hy Ht (fun s H => H)) with (x := x) (s := s) (v := v) (o := o) as (_ & _ & Q); [|lia|exact H|].
  - intros A B M S H1 H2 H3 L HS. rewrite Rplus_0_r.
    apply (ou_nonneg sigma theta dt A B M S (Some t)); [intros u [= <-]; exact Hst|exact Hsg|exact Hdt|exact H1|exact H2|exact H3|].
    intros k Hk. apply HS. rewrite <- L. exact Hk.
  - specialize (Q Hs). unfold floor_obs. lra.
Qed.
Print Assumptions C54_ou_partial.
(** With Euler's method this is the case if dt * a <= 1/2 at all points but the last. *)
Theorem C54_ou_stable_partial :
  forall sigma theta n dt m0 s0 mu tau r y t, 0 < sigma -> 0 <= dt -> (0 < n)%nat -> 0 <= s0 -> obs_ok n r y t ->
  let E := ou_obj Euler sigma theta n dt m0 s0 mu tau r y t in
  forall (x : list R) s, length x = (n + n)%nat -> (forall k, (k + 1 < n)%nat -> dt * nth k x 0 <= 1 / 2) ->
  exists v : R, fst (free_energy E x s) = Ok v /\ kl0_1d (K:=RNum) ln mu tau m0 s0 + floor_obs r t <= v.
Proof.
  intros sigma theta n dt m0 s0 mu tau r y t Hsg Hdt Hn Hs0 Hobs E x s Hx Ha. pose proof Hobs as (Hr & Hy & Ht & Hst).
  destruct (fe_arrays _ _ _ _ _ _ (ou_energy_ok sigma theta dt) n dt sigma m0 s0 mu tau r y t Hn Hr Hy Ht x ltac:(lia))
    as (A & B & v & mt & st & lam & psi & gm & gs & gr & _ & _ & _ & _ & _ & Hrest).
  cbn zeta in Hrest. destruct Hrest as (_ & _ & _ & _ & _ & _ & Efe & P & _).
  change (EV (ou_energy (K:=RNum) sigma theta dt) (/ sigma) n dt sigma m0 s0 mu tau r y t) with E in Efe.
  match type of Efe with _ = Ok (?w, ?o) => pose proof (C54_ou_partial Euler sigma theta n dt m0 s0 mu tau r y t Hsg Hdt Hn Hobs x s w o Hx) as Q; exists w end.
  assert (Ef : free_energy E x s = match fe_core E x with Ok (v, o) => (Ok v, Some o) | Err e => (Err e, s) end) by reflexivity.
  rewrite Efe in Ef. split; [rewrite Ef; reflexivity|]. apply Q; [exact Ef|]. cbn [o_st].
  assert (HS : forall k, (k < n)%nat -> 0 <= path_s dt (xa x) sigma s0 k).
  { induction k as [|k IH]; intros Hk; [exact Hs0|]. cbn [path_s]. specialize (IH ltac:(lia)). specialize (Ha k ltac:(lia)). unfold xa at 2.
    set (a := nth k x 0) in *. set (s1 := path_s dt (xa x) sigma s0 k) in *.
    replace (s1 + dt * (-2 * a * s1 + sigma)) with (s1 * (1 - 2 * (dt * a)) + dt * sigma) by ring.
    apply Rplus_le_le_0_compat; apply Rmult_le_pos; lra. }
  intros k Hk. destruct (P k Hk) as [_ Pk]. apply (Rle_trans _ _ _ (HS k Hk)). right. symmetry. exact Pk.
Qed.
Print Assumptions C54_ou_stable_partial.
(** Finding: nothing keeps the variances of the forward sweep nonnegative, and then the objective has no lower
    bound: whatever the data, there are arguments with an objective below any given number. *)
(** what the covariance step of RungeKutta2 multiplies the slope with, when the slopes before are 0 (C12); s is the variance before the last step *)
Definition rk2_pull (sigma : R) (n : nat) (dt s0 : R) : R :=
  let s := s0 + INR (n - 2) * (dt * sigma) in s + dt / 2 * (sigma - 2 * s ^ 2).
Theorem C54_ou_refuted :
  forall mtd sigma theta n dt m0 s0 mu tau r y t, 0 < sigma -> 0 < dt -> (2 <= n)%nat -> 0 < s0 -> obs_ok n r y t ->
  (mtd = RK2 -> rk2_pull sigma n dt s0 <> 0) ->
  let E := ou_obj mtd sigma theta n dt m0 s0 mu tau r y t in
  forall bound : R, exists (x : list R) (v : R), length x = (n + n)%nat /\
  (forall s, fst (free_energy E x s) = Ok v) /\ v < bound.
Proof.
  intros mtd sigma theta n dt m0 s0 mu tau r y t Hsg Hdt Hn Hs0 (Hr & Hy & Ht & Hst) H2 E bound.
  assert (exists N, n = (N + 2)%nat) as (N & ->) by (exists (n - 2)%nat; lia).
  assert (mtd = Euler \/ mtd <> Euler) as [Em|He] by (destruct mtd; (left; reflexivity) || (right; discriminate)).
  2:{ apply ou_nobound; try assumption. unfold rk2_pull in H2. replace (N + 2 - 2)%nat with N in H2 by lia. exact H2. }
  subst E. rewrite Em. clear Em H2 mtd.
  destruct (ou_sink N sigma theta dt m0 s0 Hsg Hdt Hs0 (e_ou sigma theta) t (fun j => lterm r (nth j y 0)) (kl0_1d (K:=RNum) ln mu tau m0 s0) bound Ht) as (A & HA).
  { intros A. unfold e_ou, ou_q, mom_elt. generalize (omN N sigma dt m0 s0). intros m. rnum. change (car RNum) with R in *. field. lra. }
  destruct (arg_value _ _ (e_ou sigma theta) _ _ _ _ (ou_energy_ok sigma theta dt) (N + 2) dt sigma m0 s0 mu tau r y t ltac:(lia) Hr Hy Ht
    (fun A B M S => ou_sde sigma theta dt t A B M S Hsg Hst) (oa N sigma dt s0 A) (ob N sigma theta dt m0 s0 A)) as (o & Ho & _).
  exists (arg (N + 2) (oa N sigma dt s0 A) (ob N sigma theta dt m0 s0 A)). eexists.
  split; [rewrite arg_len; lia|]. split; [|exact HA]. intros s. exact (f_equal fst (Ho s)).
Qed.
Print Assumptions C54_ou_refuted.

(** ** Double well *)
(** the objective plus the missing half of the sixth-moment term (C21) is bounded below *)
Theorem C54_dw_partial :
  forall mtd sigma theta n dt m0 s0 mu tau r y t, 0 < sigma -> 0 <= dt -> (0 < n)%nat -> obs_ok n r y t ->
  let E := dw_obj mtd sigma theta n dt m0 s0 mu tau r y t in
  forall (x : list R) s (v : R) (o : Out E), length x = (n + n)%nat -> free_energy E x s = (Ok v, Some o) ->
  (forall k, (k < n)%nat -> 0 < nth k (o_st o : list R) 0) ->
  exists x6 : nat -> R,
  (forall k, (k < n)%nat -> E_normal (nth k (o_mt o : list R) 0) (nth k (o_st o : list R) 0) (fun z => z ^ 6) (x6 k)) /\
  kl0_1d (K:=RNum) ln mu tau m0 s0 + floor_obs r t <= v + trap n (fun k => 4 * x6 k / sigma) dt.
Proof.
  intros mtd sigma theta n dt m0 s0 mu tau r y t Hsg Hdt Hn (Hr & Hy & Ht & Hst) E x s v o Hx H Hs.
  exists (fun k => mom_elt (K:=RNum) 6 (nth k (o_mt o : list R) 0) (nth k (o_st o : list R) 0)). split.
  { intros k Hk. apply mom_elt_E; [apply Hs, Hk|lia]. }
  destruct (below (dw_energy (K:=RNum) sigma theta dt) mtd n dt sigma (/ sigma) m0 s0 mu tau r y t (fun s => 0 < s)
    (fun M S => trap n (fun k => 4 * mom_elt (K:=RNum) 6 (nth k M 0) (nth k S 0) / sigma) dt)
    Hn Hr Hy Ht (fun s => Rlt_le 0 s)) with (x := x) (s := s) (v := v) (o := o) as (_ & _ & Q); [|lia|exact H|exact (Q Hs)].
  intros A B M S H1 H2 H3 L HS.
  assert (Z : 0 <= trap n (fun k => 1 / 2 * dw_exact theta (nth k A 0) (nth k B 0) (nth k M 0) (nth k S 0) / sigma) dt).
  { apply trap_nonneg; [exact Hdt|]. intros k Hk.
    pose proof (dw_exact_nonneg theta (nth k A 0) (nth k B 0) (nth k M 0) (nth k S 0) (Rlt_le _ _ (HS k Hk))) as P.
    apply Rmult_le_pos; [lra|left; apply Rinv_0_lt_compat; exact Hsg]. }
  apply (Rle_trans _ _ _ Z). right.
  assert (Q : e_sde (dw_energy (K:=RNum) sigma theta dt A B M S (Some t)) =
    trap n (fun k => e_dwc sigma theta (nth k A 0) (nth k B 0) (nth k M 0) (nth k S 0)) dt)
    by (rewrite <- L; exact (dw_sde sigma theta dt t A B M S Hsg Hst H1 H2 H3)).
  etransitivity; [|apply (f_equal2 Rplus); [symmetry; exact Q|reflexivity]].
  unfold trap. rewrite <- Rsum_plus. apply Rsum_ext. intros k Hk. unfold e_dwc. rewrite !dw_q_exact.
  generalize (mom_elt (K:=RNum) 6 (nth k M 0) (nth k S 0) : R),
    (mom_elt (K:=RNum) 6 (nth (k + 1) M 0) (nth (k + 1) S 0) : R). intros w1 w2. field. lra.
Qed.
Print Assumptions C54_dw_partial.
(** Finding: without it there is no lower bound, even among the arguments with positive variances. *)
Theorem C54_dw_refuted :
  forall sigma theta n dt m0 s0 mu tau r y t, 0 < sigma -> 0 < dt -> (2 <= n)%nat -> 0 < s0 -> obs_ok n r y t ->
  let E := dw_obj Euler sigma theta n dt m0 s0 mu tau r y t in
  forall bound : R, exists (x : list R) (v : R) (o : Out E), length x = (n + n)%nat /\
  (forall s, free_energy E x s = (Ok v, Some o)) /\ (forall k, (k < n)%nat -> 0 < nth k (o_st o : list R) 0) /\ v < bound.
Proof.
  intros sigma theta n dt m0 s0 mu tau r y t Hsg Hdt Hn Hs0 (Hr & Hy & Ht & Hst) E bound.
  assert (exists N, n = (N + 2)%nat) as (N & ->) by (exists (n - 2)%nat; lia).
  destruct (dw_sink N sigma theta dt m0 s0 r y t Hsg Hdt Hr Ht (kl0_1d (K:=RNum) ln mu tau m0 s0) bound) as (m & Hm).
  destruct (arg_value _ _ (e_dwc sigma theta) _ _ _ _ (dw_energy_ok sigma theta dt) (N + 2) dt sigma m0 s0 mu tau r y t ltac:(lia) Hr Hy Ht
    (fun A B M S => dw_sde sigma theta dt t A B M S Hsg Hst) (da N theta) (db N sigma dt m0 s0 m)) as (o & Ho & Hv).
  exists (arg (N + 2) (da N theta) (db N sigma dt m0 s0 m)). eexists. exists o.
  split; [rewrite arg_len; lia|]. split; [exact Ho|]. split; [|exact Hm].
  intros k Hk. change (0 < nth k (o_st (o : Out (EV (dw_energy (K:=RNum) sigma theta dt) (/ sigma) (N + 2) dt sigma m0 s0 mu tau r y t)) : list R) 0).
  rewrite (Hv k Hk), dw_s by lia. pose proof (pos_INR k). assert (0 <= INR k * (dt * sigma)) by (apply Rmult_le_pos; nra). lra.
Qed.
Print Assumptions C54_dw_refuted.
(** With the other methods a mean that runs away costs more than it gains, but negative variances do the same. *)
Theorem C54_dw_methods_refuted :
  forall mtd sigma theta n dt m0 s0 mu tau r y t, 0 < sigma -> 0 < dt -> (2 <= n)%nat -> 0 < s0 -> obs_ok n r y t ->
  (mtd = RK2 -> 0 < rk2_pull sigma n dt s0) ->
  let E := dw_obj mtd sigma theta n dt m0 s0 mu tau r y t in
  forall bound : R, exists (x : list R) (v : R), length x = (n + n)%nat /\
  (forall s, fst (free_energy E x s) = Ok v) /\ v < bound.
Proof.
  intros mtd sigma theta n dt m0 s0 mu tau r y t Hsg Hdt Hn Hs0 Hobs H2 E bound.
  assert (mtd = Euler \/ mtd <> Euler) as [Em|He] by (destruct mtd; (left; reflexivity) || (right; discriminate)).
  - subst E. rewrite Em. destruct (C54_dw_refuted sigma theta n dt m0 s0 mu tau r y t Hsg Hdt Hn Hs0 Hobs bound) as (x & v & o & L & Hv & _ & Hb).
    exists x, v. split; [exact L|]. split; [intros s; exact (f_equal fst (Hv s))|exact Hb].
  - destruct Hobs as (Hr & Hy & Ht & Hst). assert (exists N, n = (N + 2)%nat) as (N & ->) by (exists (n - 2)%nat; lia).
    apply dw_nobound; try assumption. unfold rk2_pull in H2. replace (N + 2 - 2)%nat with N in H2 by lia. exact H2.
Qed.
Print Assumptions C54_dw_methods_refuted.

(** the hypotheses of the theorems hold in a concrete case, and both arguments below the bound and above it exist *)
Example C54_instance :
  obs_ok 3 1 [2] [1%nat] /\
  (exists v, fst (free_energy (ou_obj Euler 1 1 3 (1/2) 0 1 0 1 1 [2] [1%nat]) [1; 1; 9; 0; 0; 0] None) = Ok v /\
     kl0_1d (K:=RNum) ln 0 1 0 1 + floor_obs 1 [1%nat] <= v) /\
  (exists x v, length x = 6%nat /\ (forall s, fst (free_energy (ou_obj Euler 1 1 3 (1/2) 0 1 0 1 1 [2] [1%nat]) x s) = Ok v) /\
     v < kl0_1d (K:=RNum) ln 0 1 0 1 + floor_obs 1 [1%nat]) /\
  rk2_pull 1 3 (1/2) 1 <> 0 /\ 0 < rk2_pull 1 3 (1/10) 1.
Proof.
  assert (H : obs_ok 3 1 [2] [1%nat]) by (split; [lra|]; split; [reflexivity|]; split; repeat constructor).
  split; [exact H|]. split; [|split; [|split; unfold rk2_pull; cbn; lra]].
  - apply (C54_ou_stable_partial 1 1 3 (1/2) 0 1 0 1 1 [2] [1%nat]); try lra; [lia|exact H|reflexivity|].
    intros [|[|k]] Hk; cbn [nth]; [lra|lra|lia].
  - destruct (C54_ou_refuted Euler 1 1 3 (1/2) 0 1 0 1 1 [2] [1%nat] ltac:(lra) ltac:(lra) ltac:(lia) ltac:(lra) H ltac:(discriminate)
      (kl0_1d (K:=RNum) ln 0 1 0 1 + floor_obs 1 [1%nat])) as (x & v & L & Hv & Hb). exists x, v. auto.
Qed.
