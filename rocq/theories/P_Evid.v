(** * The evidence of the discretised diffusion: existence, uniqueness, and the variational bound. *)
From Coq Require Import ZArith Reals Lra Lia Arith Bool List FunctionalExtensionality.
From Coquelicot Require Import Coquelicot.
From Verif Require Import Num Arr ArrFacts M_Moments Spec_Utils Spec_Gauss Spec_Prior Spec_Sde1 Spec_Evid
  P_Trapz P_Gauss P_GaussN P_Moments P_Sde1 P_Det P_RMat P_Expect P_Prior P_Like P_Jensen.
Import ListNotations.
Local Open Scope R_scope.

(** ** products *)
Lemma Rprod_pos n f : (forall j, (j < n)%nat -> 0 < f j) -> 0 < Rprod n f.
Proof. induction n as [|n IH]; intros H; cbn; [lra|]. apply Rmult_lt_0_compat; auto. Qed.
Lemma Rprod_ln n f : (forall j, (j < n)%nat -> 0 < f j) -> ln (Rprod n f) = Rsum n (fun j => ln (f j)).
Proof.
  induction n as [|n IH]; intros H; cbn; [apply ln_1|]. rewrite ln_mult by (auto using Rprod_pos). rewrite IH by auto. reflexivity.
Qed.
Lemma Rprod_bound n f c : (forall j, (j < n)%nat -> 0 <= f j <= c) -> 0 <= Rprod n f <= c ^ n.
Proof.
  induction n as [|n IH]; intros H; cbn; [lra|]. specialize (IH (fun j Hj => H j (Nat.lt_lt_succ_r _ _ Hj))). specialize (H n ltac:(lia)).
  split; [apply Rmult_le_pos; lra|]. rewrite (Rmult_comm c). apply Rmult_le_compat; lra.
Qed.
Lemma Rprod_cont n (f : nat -> R -> R) x : (forall j, (j < n)%nat -> continuous (f j) x) -> continuous (fun x => Rprod n (fun j => f j x)) x.
Proof.
  induction n as [|n IH]; intros H; [apply continuous_const|].
  apply (continuous_mult (fun x => Rprod n (fun j => f j x)) (f n)); auto.
Qed.

Lemma dens_max m v x : 0 < v -> 0 <= normal_density m v x <= / sqrt (2 * PI * v).
Proof.
  intros Hv. split; [left; apply normal_density_pos, Hv|]. unfold normal_density. pose proof PI_RGT_0.
  assert (0 < sqrt (2 * PI * v)) by (apply sqrt_lt_R0; apply Rmult_lt_0_compat; lra).
  rewrite <- (Rmult_1_l (/ _)). apply Rmult_le_compat_r; [left; apply Rinv_0_lt_compat; assumption|].
  rewrite <- exp_0. assert (- (x - m) ^ 2 / (2 * v) <= 0).
  { assert (0 <= (x - m) ^ 2 / (2 * v)) by (apply Rmult_le_pos; [apply pow2_ge_0|left; apply Rinv_0_lt_compat; lra]).
    replace (- (x - m) ^ 2 / (2 * v)) with (- ((x - m) ^ 2 / (2 * v))) by (field; lra). lra. }
  destruct (Rle_lt_or_eq_dec _ _ H1) as [L|E]; [left; apply exp_increasing, L|right; rewrite E; reflexivity].
Qed.
Lemma dens_swap m v x : normal_density x v m = normal_density m v x.
Proof. unfold normal_density. replace ((m - x) ^ 2) with ((x - m) ^ 2) by ring. reflexivity. Qed.
Lemma obs_density_pos y t r k x : 0 < r -> 0 < obs_density y t r k x.
Proof. intros Hr. apply Rprod_pos. intros j _. destruct (Nat.eqb _ _); [apply normal_density_pos, Hr|lra]. Qed.
Lemma obs_density_bound y t r : 0 < r -> exists M, forall k x, obs_density y t r k x <= M.
Proof.
  intros Hr. exists ((1 + / sqrt (2 * PI * r)) ^ length t). intros k x. apply Rprod_bound. intros j _.
  pose proof (dens_max x r (nth j y 0) Hr). destruct (Nat.eqb _ _); lra.
Qed.
Lemma obs_density_cont y t r k x : 0 < r -> continuous (obs_density y t r k) x.
Proof.
  intros Hr. apply Rprod_cont. intros j _. destruct (Nat.eqb _ _); [|apply continuous_const].
  apply (continuous_ext (normal_density (nth j y 0) r)); [intros z; symmetry; apply dens_swap|]. apply p_cont, Hr.
Qed.

(** ** existence and uniqueness *)
Section Exists.
Context (f : R -> R) (sigma : R) (n : nat) (dt mu tau : R) (y : list R) (t : list nat) (r : R).
Context (Hsg : 0 < sigma) (Hdt : 0 < dt) (Htau : 0 < tau) (Hr : 0 < r) (Hn : (0 < n)%nat) (Hf : forall x, continuous f x).
Lemma Hv : 0 < sigma * dt. Proof. apply Rmult_lt_0_compat; assumption. Qed.
Lemma togo_exists i : (i < n)%nat -> exists w : nat -> R -> R,
  (forall x, w (n - 1)%nat x = obs_density y t r (n - 1) x) /\
  (forall k x, (k + 1 < n)%nat -> (n - 1 - i <= k)%nat ->
     exists e, E_normal (x + dt * f x) (sigma * dt) (w (k + 1)%nat) e /\ w k x = obs_density y t r k x * e) /\
  (exists M, forall x, 0 <= w (n - 1 - i)%nat x <= M) /\ (forall x, continuous (w (n - 1 - i)%nat) x).
Proof.
  induction i as [|i IH]; intros Hi.
  - exists (fun _ => obs_density y t r (n - 1)). split; [reflexivity|]. split; [intros; lia|]. split.
    + destruct (obs_density_bound y t r Hr) as [M HM]. exists M. intros x. split; [left; apply obs_density_pos, Hr|apply HM].
    + intros x. apply obs_density_cont, Hr.
  - destruct (IH ltac:(lia)) as (w & W1 & W2 & (M & W3) & W4). set (k := (n - 1 - i)%nat) in *.
    assert (HT : forall m, exists e, E_normal m (sigma * dt) (w k) e /\ 0 <= e <= M) by (intros m; apply E_normal_bounded; [apply Hv|exact W4|exact W3]).
    pose (T := (fun m => RInt_gen (V := R_CompleteNormedModule) (fun x => w k x * normal_density m (sigma * dt) x) (Rbar_locally m_infty) (Rbar_locally p_infty)) : R -> R).
    assert (TT : forall m, E_normal m (sigma * dt) (w k) (T m) /\ 0 <= T m <= M).
    { intros m. destruct (HT m) as (e & He & Hb). assert (Q : T m = e) by exact (is_RInt_gen_unique (V := R_CompleteNormedModule) _ _ He).
      rewrite Q. split; assumption. }
    exists (fun j x => if Nat.eqb j (n - 1 - S i) then obs_density y t r j x * T (x + dt * f x) else w j x).
    assert (Ek : (n - 1 - S i + 1)%nat = k) by (unfold k; lia). rewrite Nat.eqb_refl.
    split; [|split; [|split]].
    + intros x. replace (Nat.eqb (n - 1) (n - 1 - S i)) with false by (symmetry; apply Nat.eqb_neq; lia). apply W1.
    + intros j x Hj Hij. replace (Nat.eqb (j + 1) (n - 1 - S i)) with false by (symmetry; apply Nat.eqb_neq; lia).
      destruct (Nat.eqb_spec j (n - 1 - S i)) as [->|N].
      * rewrite Ek. exists (T (x + dt * f x)). split; [apply TT|reflexivity].
      * apply W2; [exact Hj|unfold k; lia].
    + destruct (obs_density_bound y t r Hr) as [M' HM']. exists (M' * M). intros x.
      pose proof (obs_density_pos y t r (n - 1 - S i) x Hr) as P1. specialize (HM' (n - 1 - S i)%nat x). pose proof (proj2 (TT (x + dt * f x))) as P2.
      split; [apply Rmult_le_pos; lra|apply Rmult_le_compat; lra].
    + intros x. apply (continuous_mult (obs_density y t r (n - 1 - S i)) (fun x => T (x + dt * f x))); [apply obs_density_cont, Hr|].
      apply (continuous_comp (fun x => x + dt * f x) T).
      * apply (continuous_plus (fun x => x) (fun x => dt * f x)); [apply continuous_id|]. apply (continuous_scal_r dt f), Hf.
      * apply (E_mean_cont (sigma * dt) (w k) M T Hv W3). intros m. apply TT.
Qed.
Lemma evidence_exists : exists Z, evidence f sigma n dt mu tau y t r Z.
Proof.
  destruct (togo_exists (n - 1) ltac:(lia)) as (w & W1 & W2 & (M & W3) & W4).
  replace (n - 1 - (n - 1))%nat with O in * by lia.
  destruct (E_normal_bounded mu tau (w O) M Htau W4 W3) as (Z & HZ & _).
  exists Z, w. split; [exact W1|]. split; [|exact HZ]. intros k x Hk. apply W2; lia.
Qed.
End Exists.
Lemma evidence_unique f sigma n dt mu tau y t r Z Z' :
  evidence f sigma n dt mu tau y t r Z -> evidence f sigma n dt mu tau y t r Z' -> Z = Z'.
Proof.
  intros (w & W1 & W2 & W3) (w' & W1' & W2' & W3').
  assert (Q : forall i, (i < n)%nat -> w (n - 1 - i)%nat = w' (n - 1 - i)%nat).
  { induction i as [|i IH]; intros Hi; apply functional_extensionality; intros x.
    - rewrite Nat.sub_0_r, W1, W1'. reflexivity.
    - assert (Ek : (n - 1 - S i + 1 = n - 1 - i)%nat) by lia.
      destruct (W2 (n - 1 - S i)%nat x ltac:(lia)) as (e & He & ->). destruct (W2' (n - 1 - S i)%nat x ltac:(lia)) as (e' & He' & ->).
      rewrite Ek in He, He'. rewrite (IH ltac:(lia)) in He. rewrite (E_normal_unique _ _ _ _ _ He He'). reflexivity. }
  destruct n as [|n']; [|].
  - assert (w O = w' O) by (apply functional_extensionality; intros x; exact (eq_trans (W1 x) (eq_sym (W1' x)))).
    rewrite H in W3. exact (E_normal_unique _ _ _ _ _ W3 W3').
  - specialize (Q n' ltac:(lia)). replace (S n' - 1 - n')%nat with O in Q by lia. rewrite Q in W3. exact (E_normal_unique _ _ _ _ _ W3 W3').
Qed.

(** ** polynomials of degree at most 6 under a linear map with noise *)
Fixpoint padd (l l' : list R) : list R :=
  match l, l' with [], _ => l' | _, [] => l | a :: u, b :: u' => (a + b) :: padd u u' end.
Definition pscal (a : R) (l : list R) : list R := map (fun x => a * x) l.
Lemma padd_len l l' : length (padd l l') = max (length l) (length l').
Proof. revert l'; induction l as [|a l IH]; intros [|b l']; cbn; auto. Qed.
Lemma padd_eval k l l' x : peval k (padd l l') x = peval k l x + peval k l' x.
Proof. revert k l'; induction l as [|a l IH]; intros k [|b l']; cbn; try ring. rewrite IH. ring. Qed.
Lemma padd_mom k l l' m s : pmom k (padd l l') m s = pmom k l m s + pmom k l' m s.
Proof.
  revert k l'; induction l as [|a l IH]; intros k [|b l']; cbn [pmom padd]; try rring. rewrite IH. rring.
Qed.
Lemma pscal_eval k a l x : peval k (pscal a l) x = a * peval k l x.
Proof. revert k; induction l as [|b l IH]; intros k; cbn; [ring|]. unfold pscal in IH. rewrite IH. ring. Qed.
Lemma pscal_mom k a l m s : pmom k (pscal a l) m s = a * pmom k l m s.
Proof. revert k; induction l as [|b l IH]; intros k; cbn [pmom pscal map]; [ring|]. unfold pscal in IH. rewrite IH. rring. Qed.

(** coefficients in x of the k-th moment of N(c x + d, v) *)
Fixpoint lpow (k : nat) (c d : R) : list R :=
  match k with O => [1] | S k' => padd (pscal d (lpow k' c d)) (0 :: pscal c (lpow k' c d)) end.
Definition mcoef (k : nat) (c d v : R) : list R :=
  let p i := lpow i c d in
  match k with
  | 0%nat => [1]
  | 1%nat => p 1%nat
  | 2%nat => padd (p 2%nat) [v]
  | 3%nat => padd (p 3%nat) (pscal (3 * v) (p 1%nat))
  | 4%nat => padd (p 4%nat) (padd (pscal (6 * v) (p 2%nat)) [3 * v ^ 2])
  | 5%nat => padd (p 5%nat) (padd (pscal (10 * v) (p 3%nat)) (pscal (15 * v ^ 2) (p 1%nat)))
  | _ => padd (p 6%nat) (padd (pscal (15 * v) (p 4%nat)) (padd (pscal (45 * v ^ 2) (p 2%nat)) [15 * v ^ 3]))
  end.
Lemma mcoef_len k c d v : (k <= 6)%nat -> (length (mcoef k c d v) <= 7)%nat.
Proof. intros H. do 7 (destruct k as [|k]; [cbn; lia|]). lia. Qed.
Lemma mcoef_eval k c d v x : (k <= 6)%nat -> peval 0 (mcoef k c d v) x = mom_elt (K:=RNum) k (c * x + d) v.
Proof.
  intros H. do 7 (destruct k as [|k]; [cbn -[pow]; unfold mom_elt; rnum; cbn [pow]; ring|]). lia.
Qed.
Lemma mcoef_mom k c d v m s : (k <= 6)%nat -> pmom 0 (mcoef k c d v) m s = mom_elt (K:=RNum) k (c * m + d) (c ^ 2 * s + v).
Proof.
  intros H. do 7 (destruct k as [|k]; [cbn -[pow mom_elt]; unfold mom_elt; rnum; cbn [pow]; ring|]). lia.
Qed.
Fixpoint comp (k : nat) (l : list R) (c d v : R) : list R :=
  match l with [] => [] | a :: l' => padd (pscal a (mcoef k c d v)) (comp (S k) l' c d v) end.
Lemma comp_len k l c d v : (k + length l <= 7)%nat -> (length (comp k l c d v) <= 7)%nat.
Proof.
  revert k; induction l as [|a l IH]; intros k H; cbn in *; [lia|]. rewrite padd_len. unfold pscal. rewrite map_length.
  pose proof (mcoef_len k c d v ltac:(lia)). specialize (IH (S k) ltac:(lia)). lia.
Qed.
Lemma comp_eval k l c d v x : (k + length l <= 7)%nat -> peval 0 (comp k l c d v) x = pmom k l (c * x + d) v.
Proof.
  revert k; induction l as [|a l IH]; intros k H; cbn [comp pmom length] in *; [reflexivity|].
  rewrite padd_eval, pscal_eval, mcoef_eval by lia. rewrite IH by lia. reflexivity.
Qed.
Lemma comp_mom k l c d v m s : (k + length l <= 7)%nat -> pmom 0 (comp k l c d v) m s = pmom k l (c * m + d) (c ^ 2 * s + v).
Proof.
  revert k; induction l as [|a l IH]; intros k H; cbn [comp pmom length] in *; [reflexivity|].
  rewrite padd_mom, pscal_mom, mcoef_mom by lia. rewrite IH by lia. reflexivity.
Qed.

(** ** the variational bound *)
Fixpoint psum (n : nat) (F : nat -> list R) : list R := match n with O => [] | S n' => padd (psum n' F) (F n') end.
Lemma psum_len n F : (forall j, (j < n)%nat -> (length (F j) <= 7)%nat) -> (length (psum n F) <= 7)%nat.
Proof. induction n as [|n IH]; intros H; cbn; [lia|]. rewrite padd_len. specialize (IH ltac:(auto)). specialize (H n ltac:(lia)). lia. Qed.
Lemma psum_eval n F x : peval 0 (psum n F) x = Rsum n (fun j => peval 0 (F j) x).
Proof. induction n as [|n IH]; cbn; [reflexivity|]. rewrite padd_eval, IH. reflexivity. Qed.
Lemma psum_mom n F m s : pmom 0 (psum n F) m s = Rsum n (fun j => pmom 0 (F j) m s).
Proof. induction n as [|n IH]; cbn; [reflexivity|]. rewrite padd_mom, IH. reflexivity. Qed.

Fixpoint chain_m (dt : R) (al be : nat -> R) (m0 : R) (k : nat) : R :=
  match k with O => m0 | S k' => (1 - dt * al k') * chain_m dt al be m0 k' + dt * be k' end.
Fixpoint chain_s (dt : R) (al : nat -> R) (sigma s0 : R) (k : nat) : R :=
  match k with O => s0 | S k' => (1 - dt * al k') ^ 2 * chain_s dt al sigma s0 k' + sigma * dt end.

Section Bound.
Context (f : R -> R) (sigma : R) (n : nat) (dt mu tau m0 s0 : R) (y : list R) (t : list nat) (r : R).
Context (Hsg : 0 < sigma) (Hdt : 0 < dt) (Htau : 0 < tau) (Hs0 : 0 < s0) (Hr : 0 < r) (Hn : (0 < n)%nat).
Context (Ht : List.Forall (fun i => (i < n)%nat) t).
Context (al be : nat -> R) (lq : nat -> list R).
Context (Hql : forall k, (length (lq k) <= 7)%nat) (Hqe : forall k x, mismatch f sigma (al k) (be k) x = peval 0 (lq k) x).
Notation M := (chain_m dt al be m0).
Notation S' := (chain_s dt al sigma s0).

Definition oterm (j : nat) : list R := let yj := nth j y 0 in [1 / 2 * (ln (2 * PI) + ln r) + yj ^ 2 / (2 * r); - (yj / r); / (2 * r)].
Definition lo (k : nat) : list R := psum (length t) (fun j => if Nat.eqb (nth j t O) k then oterm j else []).
Lemma oterm_eval j x : peval 0 (oterm j) x = - ln (normal_density x r (nth j y 0)).
Proof. unfold oterm. cbv zeta. rewrite ln_normal_density by assumption. cbn. field. lra. Qed.
Lemma oterm_mom j m s : pmom 0 (oterm j) m s = lterm r (nth j y 0) m s.
Proof. unfold oterm, lterm. cbn [pmom]. unfold M_Moments.mom_elt. rnum. field. lra. Qed.
Lemma lo_eval k x : peval 0 (lo k) x = - ln (obs_density y t r k x).
Proof.
  unfold lo, obs_density. rewrite psum_eval, Rprod_ln.
  - replace (- Rsum (length t) (fun j => ln (if Nat.eqb (nth j t O) k then normal_density x r (nth j y 0) else 1)))
      with (-1 * Rsum (length t) (fun j => ln (if Nat.eqb (nth j t O) k then normal_density x r (nth j y 0) else 1))) by ring.
    rewrite <- Rsum_scal. apply Rsum_ext. intros j Hj. destruct (Nat.eqb _ _); [rewrite oterm_eval; ring|cbn; rewrite ln_1; ring].
  - intros j _. destruct (Nat.eqb _ _); [apply normal_density_pos, Hr|lra].
Qed.
Lemma lo_mom k m s : pmom 0 (lo k) m s = Rsum (length t) (fun j => if Nat.eqb (nth j t O) k then lterm r (nth j y 0) m s else 0).
Proof. unfold lo. rewrite psum_mom. apply Rsum_ext. intros j Hj. destruct (Nat.eqb _ _); [apply oterm_mom|reflexivity]. Qed.
Lemma lo_len k : (length (lo k) <= 7)%nat.
Proof. apply psum_len. intros j _. destruct (Nat.eqb _ _); cbn; lia. Qed.

Definition Ck (k : nat) : list R := padd (lo k) (if Nat.ltb (k + 1) n then pscal dt (lq k) else []).
Fixpoint U (i k : nat) : list R :=
  match i with O => Ck k | S i' => padd (Ck k) (comp 0 (U i' (k + 1)) (1 - dt * al k) (dt * be k) (sigma * dt)) end.
Lemma Ck_len k : (length (Ck k) <= 7)%nat.
Proof. unfold Ck. rewrite padd_len. pose proof (lo_len k). destruct (Nat.ltb _ _); cbn; [unfold pscal; rewrite map_length; specialize (Hql k); lia|lia]. Qed.
Lemma U_len i : forall k, (length (U i k) <= 7)%nat.
Proof.
  induction i as [|i IH]; intros k; cbn [U]; [apply Ck_len|]. rewrite padd_len. pose proof (Ck_len k).
  pose proof (comp_len 0 (U i (k + 1)) (1 - dt * al k) (dt * be k) (sigma * dt) ltac:(specialize (IH (k + 1)%nat); lia)). lia.
Qed.
Lemma U_mom i : forall k, pmom 0 (U i k) (M k) (S' k) = Rsum (S i) (fun j => pmom 0 (Ck (k + j)) (M (k + j)%nat) (S' (k + j)%nat)).
Proof.
  induction i as [|i IH]; intros k; cbn [U].
  - cbn [Rsum]. rewrite Nat.add_0_r. ring.
  - rewrite padd_mom, comp_mom by (pose proof (U_len i (k + 1)); lia).
    rewrite Rsum_shift. rewrite Nat.add_0_r. f_equal.
    replace ((1 - dt * al k) * M k + dt * be k) with (M (k + 1)%nat) by (rewrite Nat.add_1_r; reflexivity).
    replace ((1 - dt * al k) ^ 2 * S' k + sigma * dt) with (S' (k + 1)%nat) by (rewrite Nat.add_1_r; reflexivity).
    rewrite IH. apply Rsum_ext. intros j Hj. replace (k + 1 + j)%nat with (k + S j)%nat by lia. reflexivity.
Qed.
Lemma kl1_step x k : kl1 ((1 - dt * al k) * x + dt * be k) (sigma * dt) (x + dt * f x) (sigma * dt) = dt * peval 0 (lq k) x.
Proof. rewrite <- Hqe. unfold kl1, mismatch, g_lin. field. lra. Qed.

Lemma togo_bound w : (forall x, w (n - 1)%nat x = obs_density y t r (n - 1) x) ->
  (forall k x, (k + 1 < n)%nat ->
     exists e, E_normal (x + dt * f x) (sigma * dt) (w (k + 1)%nat) e /\ w k x = obs_density y t r k x * e) ->
  forall i, (i < n)%nat -> forall x, exp (- peval 0 (U i (n - 1 - i)) x) <= w (n - 1 - i)%nat x.
Proof.
  intros W1 W2. assert (Hv : 0 < sigma * dt) by (apply Rmult_lt_0_compat; assumption).
  assert (EO : forall k x, exp (- peval 0 (lo k) x) = obs_density y t r k x).
  { intros k x. rewrite lo_eval, Ropp_involutive, exp_ln by (apply obs_density_pos, Hr). reflexivity. }
  induction i as [|i IH]; intros Hi x; cbn [U].
  - rewrite Nat.sub_0_r, W1, <- EO. unfold Ck. replace (Nat.ltb (n - 1 + 1) n) with false by (symmetry; apply Nat.ltb_ge; lia).
    rewrite padd_eval. cbn [peval]. rewrite Rplus_0_r. apply Rle_refl.
  - set (k := (n - 1 - S i)%nat). destruct (W2 k x ltac:(lia)) as (e & He & ->).
    assert (Ek : (k + 1 = n - 1 - i)%nat) by (unfold k; lia).
    rewrite padd_eval, comp_eval by (pose proof (U_len i (k + 1)); lia).
    unfold Ck. replace (Nat.ltb (k + 1) n) with true by (symmetry; apply Nat.ltb_lt; lia).
    rewrite padd_eval, pscal_eval, <- kl1_step. rewrite <- EO.
    rewrite <- (Ropp_involutive (peval 0 (lo k) x)) at 1.
    match goal with |- exp (- (- - ?a + ?b + ?c)) <= _ => replace (- (- - a + b + c)) with (- a + - (1 * c + 1 * b)) by ring end.
    rewrite exp_plus. apply Rmult_le_compat_l; [left; apply exp_pos|].
    apply (jensen (x + dt * f x) (sigma * dt) ((1 - dt * al k) * x + dt * be k) (sigma * dt) (w (k + 1)%nat)
      (peval 0 (U i (k + 1)))); try assumption.
    + intros x'. rewrite Ek. apply IH. lia.
    + apply (E_normal_ext _ _ (fun z => 1 * peval 0 (U i (k + 1)) z +
        1 * ln (normal_density ((1 - dt * al k) * x + dt * be k) (sigma * dt) z / normal_density (x + dt * f x) (sigma * dt) z))); [intros; ring|].
      refine (E_normal_lin _ _ (peval 0 (U i (k + 1))) _ 1 1 _ _ _ (KL1_val _ _ _ _ Hv Hv)).
      apply (E_poly_eq _ _ (U i (k + 1)) _ _ Hv); [|reflexivity|reflexivity]. pose proof (U_len i (k + 1)). lia.
Qed.

Lemma evid_bound Z : evidence f sigma n dt mu tau y t r Z ->
  0 < Z /\
  - ln Z <= kl1 m0 s0 mu tau + dt * Rsum (n - 1) (fun k => pmom 0 (lq k) (M k) (S' k))
    + Rsum (length t) (fun j => lterm r (nth j y 0) (M (nth j t O)) (S' (nth j t O))).
Proof.
  intros (w & W1 & W2 & W3). pose proof (togo_bound w W1 W2 (n - 1) ltac:(lia)) as B.
  replace (n - 1 - (n - 1))%nat with O in B by lia.
  assert (J : exp (- (1 * pmom 0 (U (n - 1) 0) m0 s0 + 1 * kl1 m0 s0 mu tau)) <= Z).
  { apply (jensen mu tau m0 s0 (w O) (peval 0 (U (n - 1) 0))); try assumption.
    apply (E_normal_ext _ _ (fun z => 1 * peval 0 (U (n - 1) 0) z + 1 * ln (normal_density m0 s0 z / normal_density mu tau z))); [intros; ring|].
    refine (E_normal_lin _ _ (peval 0 (U (n - 1) 0)) _ 1 1 _ _ _ (KL1_val _ _ _ _ Hs0 Htau)).
    apply (E_poly_eq _ _ (U (n - 1) 0) _ _ Hs0); [|reflexivity|reflexivity]. pose proof (U_len (n - 1) 0). lia. }
  assert (PZ : 0 < Z) by (eapply Rlt_le_trans; [apply exp_pos|exact J]). split; [exact PZ|].
  assert (J' : - (1 * pmom 0 (U (n - 1) 0) m0 s0 + 1 * kl1 m0 s0 mu tau) <= ln Z).
  { rewrite <- (ln_exp (- _)). destruct (Rle_lt_or_eq_dec _ _ J) as [L|E]; [left; apply ln_increasing; [apply exp_pos|exact L]|right; rewrite E; reflexivity]. }
  assert (E0 : pmom 0 (U (n - 1) 0) m0 s0 = Rsum n (fun k => pmom 0 (Ck k) (M k) (S' k))).
  { transitivity (Rsum (S (n - 1)) (fun k => pmom 0 (Ck k) (M k) (S' k))); [exact (U_mom (n - 1) 0)|]. f_equal. lia. }
  assert (E1 : Rsum n (fun k => pmom 0 (Ck k) (M k) (S' k)) =
    Rsum n (fun k => pmom 0 (lo k) (M k) (S' k)) + dt * Rsum (n - 1) (fun k => pmom 0 (lq k) (M k) (S' k))).
  { assert (En : forall F, Rsum n F = Rsum (n - 1) F + F (n - 1)%nat)
      by (intros F; change (Rsum (n - 1) F + F (n - 1)%nat) with (Rsum (S (n - 1)) F); f_equal; lia).
    rewrite !En, <- Rsum_scal. unfold Ck at 2. replace (Nat.ltb (n - 1 + 1) n) with false by (symmetry; apply Nat.ltb_ge; lia).
    rewrite padd_mom. cbn [pmom].
    rewrite (Rsum_ext (n - 1) _ (fun k => pmom 0 (lo k) (M k) (S' k) + dt * pmom 0 (lq k) (M k) (S' k))).
    - rewrite Rsum_plus. ring.
    - intros k Hk. unfold Ck. replace (Nat.ltb (k + 1) n) with true by (symmetry; apply Nat.ltb_lt; lia).
      rewrite padd_mom, pscal_mom. reflexivity. }
  assert (E2 : Rsum n (fun k => pmom 0 (lo k) (M k) (S' k)) = Rsum (length t) (fun j => lterm r (nth j y 0) (M (nth j t O)) (S' (nth j t O)))).
  { rewrite (Rsum_ext n _ (fun k => Rsum (length t) (fun j => if Nat.eqb (nth j t O) k then lterm r (nth j y 0) (M k) (S' k) else 0)))
      by (intros k Hk; apply lo_mom).
    rewrite Rsum_swap. apply Rsum_ext. intros j Hj.
    rewrite (Rsum_single n _ (nth j t O)).
    - rewrite Nat.eqb_refl. reflexivity.
    - rewrite Forall_forall in Ht. apply Ht, nth_In, Hj.
    - intros k Hk Hne. replace (Nat.eqb (nth j t O) k) with false by (symmetry; apply Nat.eqb_neq; congruence). reflexivity. }
  rewrite E0, E1, E2 in J'. lra.
Qed.
End Bound.
