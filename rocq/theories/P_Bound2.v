(** * The objective has no lower bound, whatever the method of integration (one dimension). *)
From Coq Require Import ZArith List Arith Reals Lra Lia Psatz Sorted.
From Coquelicot Require Import Coquelicot.
From Verif Require Import Num Arr ArrFacts M_LinAlg M_Utils M_Ode M_Moments M_Sde1 M_Prior M_Like M_VarGP
  Spec_Utils Spec_Ode Spec_Sde1 Spec_VarGP P_Ode P_OdeR P_OdeRK P_Trapz P_Like P_VarGP P_RMat P_Det P_Sde1 P_Adjoint P_Grad1
  P_TimeVar9 P_Limit4 P_Bound.
Import ListNotations.
Local Open Scope R_scope.

(** ** the value of the objective, any method *)
Section Value.
Context (energy : list R -> list R -> list R -> list R -> option (list nat) -> Energy1 RNum)
  (isig : R) (ec ea eb em es : R -> R -> R -> R -> R) (EO : energy_ok energy isig ea eb em es).
Context (mtd : method) (n : nat) (dt sigma m0 s0 mu tau r : R) (y : list R) (t : list nat).
Context (Hn : (0 < n)%nat) (Hr : 0 < r) (Hy : length y = length t) (Ht : List.Forall (fun i => (i < n)%nat) t).
Context (Hsde : forall A B M S, length B = length A -> length M = length A -> length S = length A ->
  e_sde (energy A B M S (Some t)) = trap (length A) (fun k => ec (nth k A 0) (nth k B 0) (nth k M 0) (nth k S 0)) dt).
Notation EE := (vgp1 (K:=RNum) ln PI energy mtd n dt sigma isig m0 s0 mu tau y t r 1).
Context (A B : list R) (LA : length A = n) (LB : length B = n).
Lemma fe_val_out : exists (mt st : list R) (o : Out EE),
  solve_fwd S1 mtd dt A B m0 s0 sigma = Ok (mt, st) /\ (o_mt o = mt /\ o_st o = st) /\
  forall s, free_energy EE (A ++ B) s = (Ok (kl0_1d (K:=RNum) ln mu tau m0 s0
    + trap n (fun k => ec (nth k A 0) (nth k B 0) (nth k mt 0) (nth k st 0)) dt
    + Rsum (length t) (fun j => lterm r (nth j y 0) (nth (nth j t O) mt 0) (nth (nth j t O) st 0))), Some o).
Proof.
  destruct (solve_fwd_total (sys1 RNum) mtd dt A B m0 s0 sigma) as (mt & st & Hf).
  { exact (Nat.eq_le_incl _ _ (eq_trans LB (eq_sym LA))). } { exact (eq_ind_r (fun z => (0 < z)%nat) Hn LB). }
  change (list R) in mt. change (list R) in st.
  destruct (solve_fwd_shape _ _ _ _ _ _ _ _ _ _ Hf) as (M1 & M2 & _).
  assert (M1' : length mt = n) by (transitivity (length B); [exact M1|exact LB]).
  assert (M2' : length st = n) by (transitivity (length B); [exact M2|exact LB]). clear M1 M2.
  assert (Ht' : List.Forall (fun i => (i < length mt)%nat) t) by (rewrite M1'; exact Ht).
  assert (Hms : length st = length mt) by congruence.
  pose proof (like_1d_val y t r mt st Hr Hy Hms Ht') as Ev.
  destruct (like_grad_1d_val y t r mt st Hr Hy Hms Ht' 1) as (gm & gs & gr & Eg & G1 & G2 & _).
  change (list R) in gm. change (list R) in gs. change (list R) in gr.
  assert (G1' : length gm = n) by (transitivity (length mt); [exact G1|exact M1']).
  assert (G2' : length gs = n) by (transitivity (length mt); [exact G2|exact M1']).
  destruct (eo_len _ _ _ _ _ _ EO A B mt st (Some t)) as (F1 & F2 & F3 & F4); [congruence|congruence|congruence|].
  set (en := energy A B mt st (Some t)) in *.
  set (EDM := e_dm en : list R). set (EDS := e_ds en : list R).
  assert (F3' : length EDM = n) by (transitivity (length A); [exact F3|exact LA]).
  assert (F4' : length EDS = n) by (transitivity (length A); [exact F4|exact LA]).
  assert (X1 : (length EDM <= length A)%nat) by lia. assert (X2 : (length EDM <= length EDS)%nat) by lia.
  assert (X3 : (length EDM - 1 <= length gm)%nat) by lia. assert (X4 : (length EDM - 1 <= length gs)%nat) by lia.
  destruct (solve_bwd_total (sys1 RNum) mtd dt A EDM EDS gm gs X1 X2 X3 X4) as (lam & psi & Hb).
  change (list R) in lam. change (list R) in psi.
  set (o := mkOut (E:=EE) mt st (e_f en) (e_df en) lam psi).
  exists mt, st, o. split; [exact Hf|]. split; [split; reflexivity|].
  assert (EF : fe_core EE (A ++ B) = Ok (kl0_1d (K:=RNum) ln mu tau m0 s0 + e_sde en +
     Rsum (length t) (fun j => lterm r (nth j y 0) (nth (nth j t O) mt 0) (nth (nth j t O) st 0)), o)).
  { apply (fe_core_ok EE (A ++ B) A B mt st (e_f en) EDM lam (e_df en) EDS psi gm gs).
    - apply (f_equal (fun z => Ok z)); exact (unpack_app n y t Hn Hy A B LA LB).
    - exact Hf.
    - exact Ev.
    - reflexivity.
    - unfold vgp1. cbn [v_like_grad]. change (car RNum) with R. rewrite Eg. reflexivity.
    - exact Hb.
    - reflexivity. }
  intros s. unfold free_energy. rewrite EF. unfold en. rewrite Hsde by congruence. rewrite LA. reflexivity.
Qed.
Lemma fe_val : exists (mt st : list R) (o : Out EE),
  solve_fwd S1 mtd dt A B m0 s0 sigma = Ok (mt, st) /\
  forall s, free_energy EE (A ++ B) s = (Ok (kl0_1d (K:=RNum) ln mu tau m0 s0
    + trap n (fun k => ec (nth k A 0) (nth k B 0) (nth k mt 0) (nth k st 0)) dt
    + Rsum (length t) (fun j => lterm r (nth j y 0) (nth (nth j t O) mt 0) (nth (nth j t O) st 0))), Some o).
Proof. destruct fe_val_out as (mt & st & o & H1 & _ & H2). exists mt, st, o. auto. Qed.
End Value.

Lemma rk2_dec (m : method) : {m = RK2} + {m <> RK2}.
Proof. destruct m; (left; reflexivity) || (right; discriminate). Qed.

Ltac rfld := match goal with |- @eq _ ?a ?b => change (@eq R a b) end; field; try lra.

(** ** arguments that act on the last step only *)
Section Last.
Context (N : nat) (sigma dt m0 s0 : R) (Hsg : 0 < sigma) (Hdt : 0 < dt) (Hs0 : 0 < s0).
Definition la (A : R) (k : nat) : R := if Nat.eqb k (N + 1) then A else 0.
Definition lb (A : R) (k : nat) : R := if Nat.eqb k (N + 1) then A * m0 else 0.
(** the variance one point before the last *)
Definition varN : R := s0 + INR N * (dt * sigma).
Lemma varN_pos : 0 < varN.
Proof. unfold varN. pose proof (pos_INR N). assert (0 <= INR N * (dt * sigma)) by (apply Rmult_le_pos; nra). lra. Qed.
(** the variance at the last point *)
Definition last_var (mtd : method) (A : R) : R :=
  let w := varN + dt / 2 * sigma in
  match mtd with
  | Euler => varN + dt * sigma
  | Heun => varN + dt * sigma - dt * A * (varN + dt * sigma)
  | RK2 => varN + dt * sigma - dt * A * (varN + dt / 2 * (sigma - 2 * varN ^ 2))
  | RK4 => varN + dt * sigma + dt / 6 * (- 4 * A * w - 2 * A * (varN + dt * sigma) + 3 * dt * A ^ 2 * w - dt ^ 2 * A ^ 3 * w)
  end.
Lemma nthm (f : nat -> R) k : (k < N + 2)%nat -> nth k (map f (seq 0 (N + 2))) 0 = f k.
Proof. intros Hk. apply map_seq_nth', Hk. Qed.

Lemma last_path mtd A mt st :
  solve_fwd S1 mtd dt (map (la A) (seq 0 (N + 2))) (map (lb A) (seq 0 (N + 2))) m0 s0 sigma = Ok (mt, st) ->
  (forall k, (k <= N + 1)%nat -> nth k mt 0 = m0) /\
  (forall k, (k <= N)%nat -> nth k st 0 = s0 + INR k * (dt * sigma)) /\
  nth (N + 1) st 0 = last_var mtd A.
Proof.
  intros H. set (LA := map (la A) (seq 0 (N + 2))) in *. set (LB := map (lb A) (seq 0 (N + 2))) in *.
  assert (L1 : length LA = (N + 2)%nat) by (unfold LA; rewrite map_length, seq_length; reflexivity).
  assert (L2 : length LB = (N + 2)%nat) by (unfold LB; rewrite map_length, seq_length; reflexivity).
  destruct (solve_fwd_shape _ _ _ _ _ _ _ _ _ _ H) as (M1 & M2 & M3 & M4).
  assert (Z1 : nth 0 mt 0 = m0) by (apply nth_error_nth with (d := 0) in M3; exact M3).
  assert (Z2 : nth 0 st 0 = s0) by (apply nth_error_nth with (d := 0) in M4; exact M4).
  assert (Ln : length LA = length LB) by congruence.
  assert (VA : forall k, (k <= N + 1)%nat -> nth k LA 0 = la A k) by (intros k Hk; apply nthm; lia).
  assert (VB : forall k, (k <= N + 1)%nat -> nth k LB 0 = lb A k) by (intros k Hk; apply nthm; lia).
  assert (HK : forall k, (k <= N)%nat -> (k + 1 < length LB)%nat) by (intros k Hk; rewrite L2; lia).
  assert (HJ : forall k, (k <= N)%nat -> (k + 1 < length LA)%nat) by (intros k Hk; rewrite L1; lia).
  assert (PM : forall k, (k <= N + 1)%nat -> nth k mt 0 = m0).
  { induction k as [|k IH]; intros Hk; [exact Z1|]. replace (Datatypes.S k) with (k + 1)%nat by lia.
    rewrite (fwd_mean_1 mtd dt LA LB m0 s0 sigma mt st k H Ln) by (apply HK; lia). rewrite IH by lia.
    rewrite !VA, !VB by lia. unfold la, lb. destruct (Nat.eqb_spec k (N + 1)); [lia|].
    destruct (Nat.eqb (k + 1) (N + 1)); destruct mtd; unfold interp, mean_rhs1; cbn; rnum; change (car RNum) with R; rfld. }
  split; [exact PM|].
  assert (PS : forall k, (k <= N)%nat -> nth k st 0 = s0 + INR k * (dt * sigma)).
  { induction k as [|k IH]; intros Hk; [rewrite Z2; cbn [INR]; rewrite Rmult_0_l, Rplus_0_r; reflexivity|]. specialize (IH ltac:(lia)). rewrite S_INR. replace (Datatypes.S k) with (k + 1)%nat by lia.
    assert (E0 : nth k LA 0 = 0) by (rewrite VA by lia; unfold la; destruct (Nat.eqb_spec k (N + 1)); [lia|reflexivity]).
    assert (E1 : nth (k + 1) LA 0 = 0) by (rewrite VA by lia; unfold la; destruct (Nat.eqb_spec (k + 1) (N + 1)); [lia|reflexivity]).
    destruct (rk2_dec mtd) as [->|Hne].
    - pose proof (solve_fwd_step _ _ _ _ _ _ _ _ _ _ k H (HK k ltac:(lia))) as Hs. apply (f_equal snd) in Hs. cbn [snd] in Hs.
      rewrite rk2_body_var in Hs by (apply HJ; lia). etransitivity; [exact Hs|]. rewrite E0, E1.
      change (ga S1 st k) with (nth k st 0). rewrite IH. rfld.
    - pose proof (fwd_cov_1 mtd dt LA LB m0 s0 sigma mt st k Hne H Ln (HK k ltac:(lia))) as Hc. cbv beta in Hc. change (@vcar RNum (@VS RNum (sys1 RNum))) with R in *. etransitivity; [exact Hc|]. clear Hc. rewrite E0, E1, IH.
      destruct mtd; unfold interp, cov_rhs1; cbn; rnum; change (car RNum) with R; rfld. }
  split; [exact PS|]. pose proof (PS N (le_n N)) as SN. fold varN in SN.
  assert (E0 : nth N LA 0 = 0) by (rewrite VA by lia; unfold la; destruct (Nat.eqb_spec N (N + 1)); [lia|reflexivity]).
  assert (E1 : nth (N + 1) LA 0 = A) by (rewrite VA by lia; unfold la; rewrite Nat.eqb_refl; reflexivity).
  destruct (rk2_dec mtd) as [->|Hne].
  - pose proof (solve_fwd_step _ _ _ _ _ _ _ _ _ _ N H (HK N ltac:(lia))) as Hs. apply (f_equal snd) in Hs. cbn [snd] in Hs.
    rewrite rk2_body_var in Hs by (apply HJ; lia). etransitivity; [exact Hs|]. rewrite E0, E1.
    change (ga S1 st N) with (nth N st 0). rewrite SN. unfold last_var. rfld.
  - pose proof (fwd_cov_1 mtd dt LA LB m0 s0 sigma mt st N Hne H Ln (HK N ltac:(lia))) as Hc. cbv beta in Hc. change (@vcar RNum (@VS RNum (sys1 RNum))) with R in *. etransitivity; [exact Hc|]. clear Hc. rewrite E0, E1, SN.
    destruct mtd; try congruence; unfold interp, cov_rhs1, last_var; cbn; rnum; change (car RNum) with R; rfld.
Qed.

(** the last variance goes to minus infinity with the slope at the last point *)
Lemma last_var_down mtd : mtd <> Euler -> (mtd = RK2 -> 0 < varN + dt / 2 * (sigma - 2 * varN ^ 2)) ->
  forall K, exists A, K <= A /\ last_var mtd A <= - 1.
Proof.
  intros He H2 K. pose proof varN_pos as HS. set (S := varN) in *.
  assert (HT : 0 < S + dt * sigma) by (assert (0 < dt * sigma) by (apply Rmult_lt_0_compat; assumption); lra).
  assert (lin : forall q, 0 < q -> exists A, K <= A /\ 0 <= A /\ 1 + (S + dt * sigma) <= dt * A * q).
  { intros q Hq. exists (Rmax (Rmax K 0) ((1 + (S + dt * sigma)) / (dt * q))).
    pose proof (Rmax_l (Rmax K 0) ((1 + (S + dt * sigma)) / (dt * q))) as M1. pose proof (Rmax_r (Rmax K 0) ((1 + (S + dt * sigma)) / (dt * q))) as M2.
    pose proof (Rmax_l K 0). pose proof (Rmax_r K 0). split; [lra|]. split; [lra|].
    set (A := Rmax (Rmax K 0) ((1 + (S + dt * sigma)) / (dt * q))) in *.
    apply Rle_trans with (dt * q * ((1 + (S + dt * sigma)) / (dt * q))); [right; field; lra|].
    replace (dt * A * q) with (dt * q * A) by ring. apply Rmult_le_compat_l; [|exact M2]. apply Rmult_le_pos; lra. }
  destruct mtd; [congruence| | |]; unfold last_var; fold S.
  - destruct (lin (S + dt * sigma) HT) as (A & H1 & _ & H3). exists A. split; [exact H1|]. lra.
  - destruct (lin _ (H2 eq_refl)) as (A & H1 & _ & H3). exists A. split; [exact H1|]. fold S in H3. lra.
  - destruct (lin ((S + dt * sigma) / 3) ltac:(lra)) as (A0 & H1 & H0 & H3). set (A := Rmax A0 (3 / dt)). exists A.
    pose proof (Rmax_l A0 (3 / dt)) as M1. pose proof (Rmax_r A0 (3 / dt)) as M2. fold A in M1, M2.
    split; [lra|]. set (w := S + dt / 2 * sigma).
    assert (Hw : 0 < w) by (unfold w; assert (0 < dt / 2 * sigma) by (apply Rmult_lt_0_compat; lra); lra).
    assert (D3 : 3 <= dt * A).
    { apply Rle_trans with (dt * (3 / dt)); [right; field; lra|]. apply Rmult_le_compat_l; lra. }
    assert (P : 3 * dt * A ^ 2 * w - dt ^ 2 * A ^ 3 * w <= 0).
    { replace (3 * dt * A ^ 2 * w - dt ^ 2 * A ^ 3 * w) with (- (dt * A ^ 2 * w * (dt * A - 3))) by ring.
      assert (0 <= dt * A ^ 2 * w * (dt * A - 3)); [|lra].
      apply Rmult_le_pos; [|lra]. apply Rmult_le_pos; [|lra]. apply Rmult_le_pos; [lra|apply pow2_ge_0]. }
    assert (Q : dt * A0 * ((S + dt * sigma) / 3) <= dt * A * ((S + dt * sigma) / 3)).
    { apply Rmult_le_compat_r; [lra|]. apply Rmult_le_compat_l; lra. }
    assert (W : 0 <= A * w) by (apply Rmult_le_pos; lra).
    assert (dt / 6 * (- 4 * A * w + (3 * dt * A ^ 2 * w - dt ^ 2 * A ^ 3 * w)) <= 0).
    { assert (0 <= dt / 6 * - (- 4 * A * w + (3 * dt * A ^ 2 * w - dt ^ 2 * A ^ 3 * w))); [|lra]. apply Rmult_le_pos; lra. }
    replace (dt / 6 * (-4 * A * w - 2 * A * (S + dt * sigma) + 3 * dt * A ^ 2 * w - dt ^ 2 * A ^ 3 * w)) with
      (dt / 6 * (- 4 * A * w + (3 * dt * A ^ 2 * w - dt ^ 2 * A ^ 3 * w)) - dt * A * ((S + dt * sigma) / 3)) by field. lra.
Qed.
(** ... or with minus the slope, when the correction of RungeKutta2 has the other sign *)
Lemma last_var_up : varN + dt / 2 * (sigma - 2 * varN ^ 2) < 0 -> forall K, exists A, K <= - A /\ last_var RK2 A <= - 1.
Proof.
  intros H K. pose proof varN_pos as HS. unfold last_var. set (q := - (varN + dt / 2 * (sigma - 2 * varN ^ 2))). assert (Hq : 0 < q) by (unfold q; lra).
  set (S := varN) in *. assert (HT : 0 < S + dt * sigma) by (assert (0 < dt * sigma) by (apply Rmult_lt_0_compat; assumption); lra).
  exists (- Rmax K ((1 + (S + dt * sigma)) / (dt * q))).
  pose proof (Rmax_l K ((1 + (S + dt * sigma)) / (dt * q))) as M1. pose proof (Rmax_r K ((1 + (S + dt * sigma)) / (dt * q))) as M2.
  set (A := Rmax K ((1 + (S + dt * sigma)) / (dt * q))) in *. split; [lra|].
  assert (1 + (S + dt * sigma) <= dt * q * A).
  { apply Rle_trans with (dt * q * ((1 + (S + dt * sigma)) / (dt * q))); [right; field; lra|]. apply Rmult_le_compat_l; [|exact M2]. apply Rmult_le_pos; lra. }
  replace (dt * - A * (S + dt / 2 * (sigma - 2 * S ^ 2))) with (dt * q * A) by (unfold q; ring). lra.
Qed.

(** ** the objective on these arguments *)
Section Sink.
Context (ec : R -> R -> R -> R -> R) (r : R) (y : list R) (t : list nat) (c : R).
Context (Hr : 0 < r) (Ht : List.Forall (fun i => (i < N + 2)%nat) t).
Definition sval (k : nat) : R := s0 + INR k * (dt * sigma).
Definition base : R :=
  c + (Rsum N (fun k => dt * (ec 0 0 m0 (sval k) + ec 0 0 m0 (sval (k + 1))) / 2) + dt * ec 0 0 m0 (sval N) / 2)
  + Rsum (length t) (fun j => lterm r (nth j y 0) m0 (if Nat.eqb (nth j t O) (N + 1) then 0 else sval (nth j t O))).
Lemma sink_le (A s : R) (mt st : list R) : s <= 0 ->
  (forall k, (k <= N + 1)%nat -> nth k mt 0 = m0) -> (forall k, (k <= N)%nat -> nth k st 0 = sval k) -> nth (N + 1) st 0 = s ->
  c + trap (N + 2) (fun k => ec (la A k) (lb A k) (nth k mt 0) (nth k st 0)) dt
  + Rsum (length t) (fun j => lterm r (nth j y 0) (nth (nth j t O) mt 0) (nth (nth j t O) st 0))
  <= base + dt * ec A (A * m0) m0 s / 2.
Proof.
  intros Hs HM HS HL. unfold base, trap. replace (N + 2 - 1)%nat with (Datatypes.S N) by lia. cbn [Rsum].
  assert (F : forall k, (k <= N)%nat -> ec (la A k) (lb A k) (nth k mt 0) (nth k st 0) = ec 0 0 m0 (sval k)).
  { intros k Hk. rewrite HM, HS by lia. unfold la, lb. destruct (Nat.eqb_spec k (N + 1)); [lia|reflexivity]. }
  rewrite (Rsum_ext N _ (fun k => dt * (ec 0 0 m0 (sval k) + ec 0 0 m0 (sval (k + 1))) / 2)) by (intros k Hk; rewrite !F by lia; reflexivity).
  rewrite (F N (le_n N)). rewrite HM, HL by lia. unfold la, lb. rewrite Nat.eqb_refl.
  assert (O : Rsum (length t) (fun j => lterm r (nth j y 0) (nth (nth j t O) mt 0) (nth (nth j t O) st 0)) <=
     Rsum (length t) (fun j => lterm r (nth j y 0) m0 (if Nat.eqb (nth j t O) (N + 1) then 0 else sval (nth j t O)))).
  { apply Rsum_le. intros j Hj. assert (Hi : (nth j t O < N + 2)%nat) by (rewrite Forall_forall in Ht; apply Ht, nth_In, Hj).
    rewrite HM by lia. destruct (Nat.eqb_spec (nth j t O) (N + 1)) as [->|Hne]; [|rewrite HS by lia; apply Rle_refl].
    rewrite HL. unfold lterm. apply Rplus_le_compat_r. apply Rmult_le_compat_l; [lra|]. unfold Rdiv. apply Rmult_le_compat_r; [left; apply Rinv_0_lt_compat, Hr|]. lra. }
  lra.
Qed.
End Sink.
End Last.

(** ** the last value of the integrand *)
Lemma ou_last sigma theta m0 A s : 0 < sigma -> s <= - 1 ->
  e_ou sigma theta A (A * m0) m0 s <= ((theta * m0) ^ 2 - (A - theta) ^ 2) / (2 * sigma).
Proof.
  intros Hsg Hs. unfold e_ou, ou_q, mom_elt. rnum. change (car RNum) with R in *.
  match goal with |- ?l <= _ => replace l with (((theta * m0) ^ 2 + (A - theta) ^ 2 * s) / (2 * sigma)) by (cbn; field; lra) end.
  unfold Rdiv. apply Rmult_le_compat_r; [left; apply Rinv_0_lt_compat; lra|].
  assert ((A - theta) ^ 2 * s <= (A - theta) ^ 2 * - 1) by (apply Rmult_le_compat_l; [apply pow2_ge_0|exact Hs]). lra.
Qed.
Definition dw_drop (theta m0 A : R) : R := let c := 4 * theta + A in c ^ 2 - 24 * c * m0 ^ 2 - 96 * theta * m0 ^ 2 + 120 * m0 ^ 4.
Lemma dw_last sigma theta m0 A s : 0 < sigma -> s <= - 1 -> 15 * m0 ^ 2 <= 4 * theta + A -> 0 <= dw_drop theta m0 A ->
  e_dwc sigma theta A (A * m0) m0 s <= (8 * m0 ^ 6 - 32 * theta * m0 ^ 4 + 16 * theta ^ 2 * m0 ^ 2 - dw_drop theta m0 A) / (2 * sigma).
Proof.
  intros Hsg Hs H1 H2. unfold e_dwc, dw_q, dw_c, mom_elt. rnum. change (car RNum) with R in *.
  match goal with |- ?l <= _ => replace l with ((120 * s ^ 3 + s ^ 2 * (360 * m0 ^ 2 - 24 * (4 * theta + A)) + s * dw_drop theta m0 A
     + (8 * m0 ^ 6 - 32 * theta * m0 ^ 4 + 16 * theta ^ 2 * m0 ^ 2)) / (2 * sigma)) by (unfold dw_drop; cbn; field; lra) end.
  unfold Rdiv. apply Rmult_le_compat_r; [left; apply Rinv_0_lt_compat; lra|].
  assert (s ^ 3 <= 0) by (replace (s ^ 3) with (- (s ^ 2 * - s)) by ring; assert (0 <= s ^ 2 * - s) by (apply Rmult_le_pos; [apply pow2_ge_0|lra]); lra).
  assert (s ^ 2 * (360 * m0 ^ 2 - 24 * (4 * theta + A)) <= 0).
  { assert (0 <= s ^ 2 * - (360 * m0 ^ 2 - 24 * (4 * theta + A))) by (apply Rmult_le_pos; [apply pow2_ge_0|lra]). lra. }
  assert (s * dw_drop theta m0 A <= - dw_drop theta m0 A).
  { assert (0 <= (- 1 - s) * dw_drop theta m0 A) by (apply Rmult_le_pos; lra). lra. }
  lra.
Qed.

(** ** no lower bound *)
Lemma sq_over K : K + 1 < (Rabs K + 2) ^ 2.
Proof. pose proof (Rle_abs K). pose proof (Rabs_pos K). assert (0 <= Rabs K * Rabs K) by (apply Rmult_le_pos; lra). replace ((Rabs K + 2) ^ 2) with (Rabs K * Rabs K + 4 * Rabs K + 4) by ring. lra. Qed.
Section NoBound.
Context (N : nat) (mtd : method) (sigma theta dt m0 s0 mu tau r : R) (y : list R) (t : list nat).
Context (Hsg : 0 < sigma) (Hdt : 0 < dt) (Hs0 : 0 < s0) (Hr : 0 < r) (Hy : length y = length t)
  (Ht : List.Forall (fun i => (i < N + 2)%nat) t) (Hst : Sorted le t).
Notation fix2 := (varN N sigma dt s0 + dt / 2 * (sigma - 2 * varN N sigma dt s0 ^ 2)).
Lemma ou_nobound bound : mtd <> Euler -> (mtd = RK2 -> fix2 <> 0) ->
  let E := vgp1 (K:=RNum) ln PI (ou_energy (K:=RNum) sigma theta dt) mtd (N + 2) dt sigma (/ sigma) m0 s0 mu tau y t r 1 in
  exists (x : list R) (v : R), length x = (N + 2 + (N + 2))%nat /\ (forall s, fst (free_energy E x s) = Ok v) /\ v < bound.
Proof.
  intros He H2 E. set (bs := base N sigma dt m0 s0 (e_ou sigma theta) r y t (kl0_1d (K:=RNum) ln mu tau m0 s0)).
  set (K := (theta * m0) ^ 2 + (bs - bound) * (4 * sigma) / dt).
  assert (exists A, K + 1 < (A - theta) ^ 2 /\ last_var N sigma dt s0 mtd A <= - 1) as (A & HA & HV).
  { assert (big : forall A, Rabs K + 2 <= Rabs (A - theta) -> K + 1 < (A - theta) ^ 2).
    { intros A HA. rewrite <- (pow2_abs (A - theta)). pose proof (sq_over K). pose proof (Rabs_pos K).
      assert ((Rabs K + 2) ^ 2 <= Rabs (A - theta) ^ 2) by (apply pow_incr; lra). lra. }
    assert (up : (mtd = RK2 -> 0 < fix2) -> exists A, K + 1 < (A - theta) ^ 2 /\ last_var N sigma dt s0 mtd A <= - 1).
    { intros H. destruct (last_var_down N sigma dt s0 Hsg Hdt Hs0 mtd He H (theta + (Rabs K + 2))) as (A & H1 & H3). exists A. split; [|exact H3].
      apply big. apply Rle_trans with (A - theta); [lra|apply Rle_abs]. }
    destruct (rk2_dec mtd) as [E2|Hne]; [|apply up; intros; contradiction].
    destruct (Rlt_dec 0 fix2) as [P|P]; [apply up; intros; exact P|].
    assert (Hneg : fix2 < 0) by (specialize (H2 E2); lra). rewrite E2.
    destruct (last_var_up N sigma dt s0 Hsg Hdt Hs0 Hneg (- theta + (Rabs K + 2))) as (A & H1 & H3). exists A. split; [|exact H3].
    apply big. rewrite <- (Rabs_Ropp (A - theta)). apply Rle_trans with (- (A - theta)); [lra|apply Rle_abs]. }
  set (LA := map (la N A) (seq 0 (N + 2))). set (LB := map (lb N m0 A) (seq 0 (N + 2))).
  assert (L1 : length LA = (N + 2)%nat) by (unfold LA; rewrite map_length, seq_length; reflexivity).
  assert (L2 : length LB = (N + 2)%nat) by (unfold LB; rewrite map_length, seq_length; reflexivity).
  destruct (fe_val _ _ (e_ou sigma theta) _ _ _ _ (ou_energy_ok sigma theta dt) mtd (N + 2) dt sigma m0 s0 mu tau r y t ltac:(lia) Hr Hy Ht
    (fun A B M S => ou_sde sigma theta dt t A B M S Hsg Hst) LA LB L1 L2) as (mt & st & o & Hf & Hv).
  exists (LA ++ LB)%list. eexists. split; [rewrite app_length, L1, L2; reflexivity|]. split; [intros s; exact (f_equal fst (Hv s))|].
  destruct (last_path N sigma dt m0 s0 mtd A mt st Hf) as (PM & PS & PL).
  eapply Rle_lt_trans.
  - match goal with |- ?l <= _ => assert (EX : l <= bs + dt * e_ou sigma theta A (A * m0) m0 (last_var N sigma dt s0 mtd A) / 2) end; [|exact EX].
    eapply Rle_trans; [|apply (sink_le N sigma dt m0 s0 (e_ou sigma theta) r y t (kl0_1d (K:=RNum) ln mu tau m0 s0) Hr Ht A _ mt st); [lra|exact PM|exact PS|exact PL]].
    right. f_equal. f_equal. apply trap_ext. intros k Hk. unfold LA, LB. rewrite !nthm by exact Hk. reflexivity.
  - pose proof (ou_last sigma theta m0 A _ Hsg HV) as Q. set (q := e_ou sigma theta A (A * m0) m0 (last_var N sigma dt s0 mtd A)) in *.
    assert (dt * q / 2 <= dt * (((theta * m0) ^ 2 - (A - theta) ^ 2) / (2 * sigma)) / 2) by (apply Rmult_le_compat_r; [lra|]; apply Rmult_le_compat_l; lra).
    assert (dt * (((theta * m0) ^ 2 - (A - theta) ^ 2) / (2 * sigma)) / 2 < dt * (((theta * m0) ^ 2 - K) / (2 * sigma)) / 2).
    { apply Rmult_lt_compat_r; [lra|]. apply Rmult_lt_compat_l; [lra|]. apply Rmult_lt_compat_r; [apply Rinv_0_lt_compat; lra|lra]. }
    assert (dt * (((theta * m0) ^ 2 - K) / (2 * sigma)) / 2 = bound - bs) by (unfold K; field; lra). lra.
Qed.
Lemma dw_nobound bound : mtd <> Euler -> (mtd = RK2 -> 0 < fix2) ->
  let E := vgp1 (K:=RNum) ln PI (dw_energy (K:=RNum) sigma theta dt) mtd (N + 2) dt sigma (/ sigma) m0 s0 mu tau y t r 1 in
  exists (x : list R) (v : R), length x = (N + 2 + (N + 2))%nat /\ (forall s, fst (free_energy E x s) = Ok v) /\ v < bound.
Proof.
  intros He H2 E. set (bs := base N sigma dt m0 s0 (e_dwc sigma theta) r y t (kl0_1d (K:=RNum) ln mu tau m0 s0)).
  set (w := 8 * m0 ^ 6 - 32 * theta * m0 ^ 4 + 16 * theta ^ 2 * m0 ^ 2).
  set (K := w + (bs - bound) * (4 * sigma) / dt).
  assert (exists A, 15 * m0 ^ 2 <= 4 * theta + A /\ Rmax 0 K < dw_drop theta m0 A /\ last_var N sigma dt s0 mtd A <= - 1) as (A & HA & HD & HV).
  { set (g := Rmax 0 K + 1 + Rabs (96 * theta * m0 ^ 2)). pose proof (pow2_ge_0 m0) as Hm. pose proof (Rmax_l 0 K). pose proof (Rle_abs (96 * theta * m0 ^ 2)) as Ha. pose proof (Rabs_pos (96 * theta * m0 ^ 2)).
    destruct (last_var_down N sigma dt s0 Hsg Hdt Hs0 mtd He H2 (24 * m0 ^ 2 + 1 + g - 4 * theta)) as (A & H1 & H3). exists A.
    split; [unfold g in *; lra|]. split; [|exact H3]. unfold dw_drop. set (c := 4 * theta + A) in *.
    assert (Hc : 24 * m0 ^ 2 + 1 + g <= c) by (unfold c; lra).
    assert (c * g <= c * (c - 24 * m0 ^ 2)) by (apply Rmult_le_compat_l; unfold g in *; lra).
    assert (1 * g <= c * g) by (apply Rmult_le_compat_r; unfold g in *; lra).
    assert (0 <= m0 ^ 4) by (replace (m0 ^ 4) with ((m0 ^ 2) ^ 2) by ring; apply pow2_ge_0).
    replace (c ^ 2 - 24 * c * m0 ^ 2) with (c * (c - 24 * m0 ^ 2)) by ring. unfold g in *. lra. }
  set (LA := map (la N A) (seq 0 (N + 2))). set (LB := map (lb N m0 A) (seq 0 (N + 2))).
  assert (L1 : length LA = (N + 2)%nat) by (unfold LA; rewrite map_length, seq_length; reflexivity).
  assert (L2 : length LB = (N + 2)%nat) by (unfold LB; rewrite map_length, seq_length; reflexivity).
  destruct (fe_val _ _ (e_dwc sigma theta) _ _ _ _ (dw_energy_ok sigma theta dt) mtd (N + 2) dt sigma m0 s0 mu tau r y t ltac:(lia) Hr Hy Ht
    (fun A B M S => dw_sde sigma theta dt t A B M S Hsg Hst) LA LB L1 L2) as (mt & st & o & Hf & Hv).
  exists (LA ++ LB)%list. eexists. split; [rewrite app_length, L1, L2; reflexivity|]. split; [intros s; exact (f_equal fst (Hv s))|].
  destruct (last_path N sigma dt m0 s0 mtd A mt st Hf) as (PM & PS & PL).
  pose proof (Rmax_l 0 K). pose proof (Rmax_r 0 K).
  eapply Rle_lt_trans.
  - match goal with |- ?l <= _ => assert (EX : l <= bs + dt * e_dwc sigma theta A (A * m0) m0 (last_var N sigma dt s0 mtd A) / 2) end; [|exact EX].
    eapply Rle_trans; [|apply (sink_le N sigma dt m0 s0 (e_dwc sigma theta) r y t (kl0_1d (K:=RNum) ln mu tau m0 s0) Hr Ht A _ mt st); [lra|exact PM|exact PS|exact PL]].
    right. f_equal. f_equal. apply trap_ext. intros k Hk. unfold LA, LB. rewrite !nthm by exact Hk. reflexivity.
  - pose proof (dw_last sigma theta m0 A _ Hsg HV HA ltac:(lra)) as Q. fold w in Q. set (q := e_dwc sigma theta A (A * m0) m0 (last_var N sigma dt s0 mtd A)) in *.
    set (dr := dw_drop theta m0 A) in *.
    assert (dt * q / 2 <= dt * ((w - dr) / (2 * sigma)) / 2) by (apply Rmult_le_compat_r; [lra|]; apply Rmult_le_compat_l; lra).
    assert (dt * ((w - dr) / (2 * sigma)) / 2 < dt * ((w - K) / (2 * sigma)) / 2).
    { apply Rmult_lt_compat_r; [lra|]. apply Rmult_lt_compat_l; [lra|]. apply Rmult_lt_compat_r; [apply Rinv_0_lt_compat; lra|lra]. }
    assert (dt * ((w - K) / (2 * sigma)) / 2 = bound - bs) by (unfold K; field; lra). lra.
Qed.
End NoBound.
