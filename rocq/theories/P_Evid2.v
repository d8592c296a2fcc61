(** * The objective of the code against the evidence (one dimension, Euler). *)
From Coq Require Import ZArith List Bool Arith Reals Lra Lia Sorted.
From Coquelicot Require Import Coquelicot.
From Verif Require Import Num Arr ArrFacts M_LinAlg M_Utils M_Ode M_Moments M_Sde1 M_Prior M_Like M_VarGP
  Spec_Utils Spec_Gauss Spec_Prior Spec_Sde1 Spec_VarGP Spec_Evid P_Ode P_Trapz P_Moments P_Sde1 P_RMat P_Det P_Expect P_Prior P_Like P_VarGP
  P_GaussN P_Stein P_Adjoint P_Grad1 P_Bound P_Jensen P_Evid.
Import ListNotations.
Local Open Scope R_scope.

(** ** the value of the objective for any argument *)
Lemma nth_ext_len (x y : list R) : length x = length y -> (forall k, (k < length x)%nat -> nth k x 0 = nth k y 0) -> x = y.
Proof. intros H1 H2. apply (nth_ext x y 0 0 H1 H2). Qed.
Lemma arg_of n x : length x = (n * 1 * (1 + 1))%nat -> x = arg n (xa x) (xb n x).
Proof.
  intros Hx. apply nth_ext_len; [rewrite arg_len; exact Hx|]. intros k Hk. destruct (Nat.lt_ge_cases k n) as [H|H].
  - rewrite <- (arg_a n (xa x) (xb n x) k H) at 1. reflexivity.
  - assert (E : k = (n + (k - n))%nat) by lia. rewrite E.
    transitivity (xb n x (k - n)); [reflexivity|]. symmetry. exact (arg_b n (xa x) (xb n x) (k - n) ltac:(lia)).
Qed.
Section Value.
Context (energy : list R -> list R -> list R -> list R -> option (list nat) -> Energy1 RNum)
  (isig : R) (ec ea eb em es : R -> R -> R -> R -> R) (EO : energy_ok energy isig ea eb em es).
Context (n : nat) (dt sigma m0 s0 mu tau r : R) (y : list R) (t : list nat).
Context (Hn : (0 < n)%nat) (Hr : 0 < r) (Hy : length y = length t) (Ht : List.Forall (fun i => (i < n)%nat) t).
Context (Hsde : forall A B M S, length B = length A -> length M = length A -> length S = length A ->
  e_sde (energy A B M S (Some t)) = trap (length A) (fun k => ec (nth k A 0) (nth k B 0) (nth k M 0) (nth k S 0)) dt).
Notation EE := (vgp1 (K:=RNum) ln PI energy Euler n dt sigma isig m0 s0 mu tau y t r 1).
Lemma x_value x : length x = (n * 1 * (1 + 1))%nat -> exists o : Out EE,
  (forall s, free_energy EE x s = (Ok (kl0_1d (K:=RNum) ln mu tau m0 s0
    + trap n (fun k => ec (xa x k) (xb n x k) (path_m dt (xa x) (xb n x) m0 k) (path_s dt (xa x) sigma s0 k)) dt
    + Rsum (length t) (fun j => lterm r (nth j y 0) (path_m dt (xa x) (xb n x) m0 (nth j t O)) (path_s dt (xa x) sigma s0 (nth j t O)))), Some o)) /\
  forall k, (k < n)%nat -> nth k (o_mt o : list R) 0 = path_m dt (xa x) (xb n x) m0 k /\ nth k (o_st o : list R) 0 = path_s dt (xa x) sigma s0 k.
Proof.
  intros Hx.
  destruct (fe_arrays energy isig ea eb em es EO n dt sigma m0 s0 mu tau r y t Hn Hr Hy Ht x Hx)
    as (A & B & v & mt & st & lam & psi & gm & gs & gr & EU & L1 & L2 & HA & HB & Hrest).
  cbn zeta in Hrest. destruct Hrest as (M1 & M2 & M3 & M4 & Ev & Eg & Efe & P & Z1 & Z2 & Hadj).
  change (EV energy isig n dt sigma m0 s0 mu tau r y t) with EE in Efe.
  eexists. split; [intros s; unfold free_energy; rewrite Efe; apply f_equal2; [|reflexivity]; f_equal|exact P].
  rewrite Hsde by congruence. rewrite L1. f_equal.
  - f_equal. apply trap_ext. intros k Hk. destruct (P k Hk) as [-> ->]. rewrite (HA k Hk), (HB k). reflexivity.
  - assert (Ht' : List.Forall (fun i => (i < length mt)%nat) t) by (rewrite M1; exact Ht).
    rewrite (like_1d_val y t r mt st Hr Hy ltac:(congruence) Ht') in Ev. injection Ev as <-.
    apply Rsum_ext. intros j Hj. destruct (P (nth j t O)) as [-> ->]; [|reflexivity].
    rewrite Forall_forall in Ht. apply Ht, nth_In, Hj.
Qed.
End Value.

(** ** the chain with the same means and variances as the Euler paths *)
Section Match.
Context (dt sigma m0 s0 : R) (a b : nat -> R).
Context (Hdt : 0 < dt).
Let al k := aslope dt (a k).
Let be k := (al k - a k) * path_m dt a b m0 k + b k.
Lemma chain_match k : (forall j, (j < k)%nat -> dt * a j <= 1 / 2) ->
  chain_m dt al be m0 k = path_m dt a b m0 k /\ chain_s dt al sigma s0 k = path_s dt a sigma s0 k.
Proof.
  induction k as [|k IH]; intros H; [split; reflexivity|]. destruct (IH ltac:(auto)) as [E1 E2].
  cbn [chain_m chain_s path_m path_s]. rewrite E1, E2. split.
  - unfold be. ring.
  - assert (Q : (1 - dt * al k) ^ 2 = 1 - 2 * (dt * a k)).
    { unfold al, aslope. replace (1 - dt * ((1 - sqrt (1 - 2 * (dt * a k))) / dt)) with (sqrt (1 - 2 * (dt * a k))) by (field; lra).
      cbn [pow]. rewrite Rmult_1_r. apply sqrt_sqrt. specialize (H k ltac:(lia)). lra. }
    rewrite Q. ring.
Qed.
End Match.
Lemma path_s_pos dt a sigma s0 k : 0 < dt -> 0 < sigma -> 0 < s0 -> (forall j, (j < k)%nat -> dt * a j <= 1 / 2) -> 0 < path_s dt a sigma s0 k.
Proof.
  intros Hdt Hsg Hs0. induction k as [|k IH]; intros H; [exact Hs0|]. cbn [path_s]. specialize (IH ltac:(auto)). specialize (H k ltac:(lia)).
  replace (path_s dt a sigma s0 k + dt * (-2 * a k * path_s dt a sigma s0 k + sigma)) with (path_s dt a sigma s0 k * (1 - 2 * (dt * a k)) + dt * sigma) by ring.
  apply Rplus_le_lt_0_compat; [apply Rmult_le_pos; lra|apply Rmult_lt_0_compat; assumption].
Qed.
Lemma trap_rect n (e : nat -> R) dt : (0 < n)%nat -> dt * Rsum (n - 1) e = trap n e dt + dt / 2 * (e O - e (n - 1)%nat).
Proof.
  intros Hn. destruct n as [|n]; [lia|]. unfold trap. replace (Datatypes.S n - 1)%nat with n by lia. induction n as [|n IH].
  - cbn. field.
  - cbn [Rsum]. specialize (IH ltac:(lia)). rewrite Rmult_plus_distr_l, IH. rewrite Nat.add_1_r. field.
Qed.

(** ** the two models *)
Definition lq_ou (sigma theta a b : R) : list R := [b ^ 2 / (2 * sigma); 2 * (theta - a) * b / (2 * sigma); (theta - a) ^ 2 / (2 * sigma)].
Definition lq_dw (sigma theta a b : R) : list R := let c := 4 * theta + a in
  [b ^ 2 / (2 * sigma); - 2 * b * c / (2 * sigma); c ^ 2 / (2 * sigma); 8 * b / (2 * sigma); - 8 * c / (2 * sigma); 0; 16 / (2 * sigma)].
Lemma lq_ou_eval sigma theta a b x : 0 < sigma -> mismatch (f_ou theta) sigma a b x = peval 0 (lq_ou sigma theta a b) x.
Proof. intros Hsg. unfold mismatch, f_ou, g_lin, lq_ou. cbn. field. lra. Qed.
Lemma lq_dw_eval sigma theta a b x : 0 < sigma -> mismatch (f_dw theta) sigma a b x = peval 0 (lq_dw sigma theta a b) x.
Proof. intros Hsg. unfold mismatch, f_dw, g_lin, lq_dw. cbn. field. lra. Qed.
Lemma lq_ou_mom sigma theta a b m s : 0 < sigma -> pmom 0 (lq_ou sigma theta a b) m s = e_ou sigma theta a b m s.
Proof. intros Hsg. unfold lq_ou, e_ou. cbn [pmom]. unfold ou_q, mom_elt. rnum. field. lra. Qed.
Lemma lq_dw_mom sigma theta a b m s : 0 < sigma -> pmom 0 (lq_dw sigma theta a b) m s = e_dw sigma theta a b m s.
Proof.
  intros Hsg. unfold lq_dw, e_dw. cbn [pmom]. unfold dw_exact.
  replace (mom_elt (K:=RNum) 1 m s) with m by reflexivity.
  replace (@mom_elt RNum 0 m s) with 1 by reflexivity.
  generalize (@mom_elt RNum 6 m s : R), (@mom_elt RNum 5 m s : R), (@mom_elt RNum 4 m s : R), (@mom_elt RNum 3 m s : R), (@mom_elt RNum 2 m s : R).
  intros. rnum. field. lra.
Qed.
(** a change of slope that keeps the mean of the linear drift *)
Lemma e_ou_shift sigma theta a a' b m s : 0 < sigma ->
  e_ou sigma theta a' ((a' - a) * m + b) m s = e_ou sigma theta a b m s + s / (2 * sigma) * ((a' - a) * (a' + a - 2 * theta)).
Proof. intros Hsg. unfold e_ou, ou_q, mom_elt. rnum. change (car RNum) with R in *. field. lra. Qed.
Lemma e_dw_shift sigma theta a a' b m s : 0 < sigma ->
  e_dw sigma theta a' ((a' - a) * m + b) m s = e_dw sigma theta a b m s + s / (2 * sigma) * ((a' - a) * (a' + a + 2 * (4 * theta - 12 * (m ^ 2 + s)))).
Proof. intros Hsg. unfold e_dw, dw_exact, mom_elt. rnum. change (car RNum) with R in *. field. lra. Qed.

Section Code.
Context (f : R -> R) (ex : R -> R -> R -> R -> R) (lq : R -> R -> list R) (df : R -> R -> R) (sigma : R).
Context (Hsg : 0 < sigma) (Hql : forall a b, (length (lq a b) <= 7)%nat) (Hqe : forall a b x, mismatch f sigma a b x = peval 0 (lq a b) x).
Context (Hqm : forall a b m s, pmom 0 (lq a b) m s = ex a b m s).
Context (Hsh : forall a a' b m s, ex a' ((a' - a) * m + b) m s = ex a b m s + s / (2 * sigma) * ((a' - a) * (a' + a + 2 * df m s))).
Context (n : nat) (dt mu tau m0 s0 r : R) (y : list R) (t : list nat) (a b : nat -> R).
Context (Hdt : 0 < dt) (Htau : 0 < tau) (Hs0 : 0 < s0) (Hr : 0 < r) (Hn : (0 < n)%nat) (Ht : List.Forall (fun i => (i < n)%nat) t).
Context (Ha : forall k, (k + 1 < n)%nat -> dt * a k <= 1 / 2).
Notation m := (path_m dt a b m0).
Notation s := (path_s dt a sigma s0).
Lemma code_bound Z : evidence f sigma n dt mu tau y t r Z -> 0 < Z /\
  - ln Z <= kl1 m0 s0 mu tau + trap n (fun k => ex (a k) (b k) (m k) (s k)) dt
    + Rsum (length t) (fun j => lterm r (nth j y 0) (m (nth j t O)) (s (nth j t O)))
    + dt / 2 * (ex (a O) (b O) (m O) (s O) - ex (a (n - 1)%nat) (b (n - 1)%nat) (m (n - 1)%nat) (s (n - 1)%nat))
    + dt / (2 * sigma) * Rsum (n - 1) (fun k => s k * ((aslope dt (a k) - a k) * (aslope dt (a k) + a k + 2 * df (m k) (s k)))).
Proof.
  intros HZ. set (al := fun k => aslope dt (a k)). set (be := fun k => (al k - a k) * m k + b k).
  destruct (evid_bound f sigma n dt mu tau m0 s0 y t r Hsg Hdt Htau Hs0 Hr Hn Ht al be (fun k => lq (al k) (be k))
    (fun k => Hql _ _) (fun k x => Hqe _ _ x) Z HZ) as [PZ B]. split; [exact PZ|]. apply (Rle_trans _ _ _ B).
  assert (CM : forall k, (k < n)%nat -> chain_m dt al be m0 k = m k /\ chain_s dt al sigma s0 k = s k).
  { intros k Hk. apply chain_match; [exact Hdt|]. intros j Hj. apply Ha. lia. }
  right.
  rewrite (Rsum_ext (length t) _ (fun j => lterm r (nth j y 0) (m (nth j t O)) (s (nth j t O)))).
  2:{ intros j Hj. destruct (CM (nth j t O)) as [-> ->]; [|reflexivity]. rewrite Forall_forall in Ht. apply Ht, nth_In, Hj. }
  rewrite (Rsum_ext (n - 1) _ (fun k => ex (a k) (b k) (m k) (s k) + / (2 * sigma) *
    (s k * ((aslope dt (a k) - a k) * (aslope dt (a k) + a k + 2 * df (m k) (s k)))))).
  2:{ intros k Hk. destruct (CM k ltac:(lia)) as [-> ->]. rewrite Hqm. unfold be. rewrite Hsh. unfold al. field. lra. }
  rewrite Rsum_plus, Rsum_scal, Rmult_plus_distr_l.
  rewrite (trap_rect n (fun k => ex (a k) (b k) (m k) (s k)) dt Hn). field. lra.
Qed.
End Code.

(** ** an upper bound of the evidence *)
Lemma Rprod_le n f g : (forall j, (j < n)%nat -> 0 <= f j <= g j) -> 0 <= Rprod n f <= Rprod n g.
Proof.
  induction n as [|n IH]; intros H; cbn; [lra|]. specialize (IH (fun j Hj => H j (Nat.lt_lt_succ_r _ _ Hj))). specialize (H n ltac:(lia)).
  split; [apply Rmult_le_pos; lra|apply Rmult_le_compat; lra].
Qed.
Lemma Rprod_mult n f g : Rprod n (fun j => f j * g j) = Rprod n f * Rprod n g.
Proof. induction n as [|n IH]; cbn; [ring|]. rewrite IH. ring. Qed.
Lemma Rprod_ext n f g : (forall j, (j < n)%nat -> f j = g j) -> Rprod n f = Rprod n g.
Proof. induction n as [|n IH]; intros H; cbn; [reflexivity|]. rewrite IH, H by auto. reflexivity. Qed.
Lemma Rprod_const n c : Rprod n (fun _ => c) = c ^ n.
Proof. induction n as [|n IH]; cbn; [reflexivity|]. rewrite IH. ring. Qed.
Lemma evidence_le f sigma n dt mu tau y t r Z : 0 < sigma -> 0 < dt -> 0 < tau -> 0 < r -> (0 < n)%nat ->
  List.Forall (fun i => (i < n)%nat) t -> evidence f sigma n dt mu tau y t r Z -> Z <= (/ sqrt (2 * PI * r)) ^ length t.
Proof.
  intros Hsg Hdt Htau Hr Hn Ht (w & W1 & W2 & W3). assert (Hv : 0 < sigma * dt) by (apply Rmult_lt_0_compat; assumption).
  set (c := / sqrt (2 * PI * r)).
  assert (Ec : forall m v e, 0 < v -> forall (g : R -> R) C, (forall x, g x <= C) -> E_normal m v g e -> e <= C).
  { intros m v e Hv' g C HC He. replace C with (C * 1 + 0 * 1) by ring.
    apply (E_normal_le m v g (fun _ => C * 1 + 0 * 1) _ _ Hv'); [intros x; specialize (HC x); lra|exact He|].
    apply (E_normal_lin m v (fun _ => 1) (fun _ => 1)); apply E_normal_one, Hv'. }
  assert (HO : forall k x, 0 <= obs_density y t r k x <= Rprod (length t) (fun j => if Nat.eqb (nth j t O) k then c else 1)).
  { intros k x. apply Rprod_le. intros j _. destruct (Nat.eqb _ _); [apply dens_max, Hr|lra]. }
  assert (Hc : 0 < c). { apply Rinv_0_lt_compat, sqrt_lt_R0. pose proof PI_RGT_0. apply Rmult_lt_0_compat; lra. }
  assert (HP : forall P : nat -> bool, 0 <= Rprod (length t) (fun j => if P (nth j t O) then c else 1)).
  { intros P. apply (Rprod_le _ _ (fun j => if P (nth j t O) then c else 1)). intros j _. destruct (P _); lra. }
  assert (HW : forall i, (i < n)%nat -> forall x, w (n - 1 - i)%nat x <= Rprod (length t) (fun j => if Nat.leb (n - 1 - i) (nth j t O) then c else 1)).
  { induction i as [|i IH]; intros Hi x.
    - rewrite Nat.sub_0_r, W1. apply (Rle_trans _ _ _ (proj2 (HO (n - 1)%nat x))). right. apply Rprod_ext. intros j Hj.
      assert (nth j t O < n)%nat by (rewrite Forall_forall in Ht; apply Ht, nth_In, Hj).
      destruct (Nat.eqb_spec (nth j t O) (n - 1)), (Nat.leb_spec (n - 1) (nth j t O)); try reflexivity; lia.
    - set (k := (n - 1 - S i)%nat). destruct (W2 k x ltac:(lia)) as (e & He & ->).
      assert (Ek : (k + 1 = n - 1 - i)%nat) by (unfold k; lia). rewrite Ek in He.
      assert (He' : e <= Rprod (length t) (fun j => if Nat.leb (n - 1 - i) (nth j t O) then c else 1)) by (apply (Ec _ _ _ Hv _ _ (IH ltac:(lia)) He)).
      apply Rle_trans with (obs_density y t r k x * Rprod (length t) (fun j => if Nat.leb (n - 1 - i) (nth j t O) then c else 1)).
      + apply Rmult_le_compat_l; [apply HO|exact He'].
      + apply Rle_trans with (Rprod (length t) (fun j => if Nat.eqb (nth j t O) k then c else 1) * Rprod (length t) (fun j => if Nat.leb (n - 1 - i) (nth j t O) then c else 1)).
        * apply Rmult_le_compat_r; [apply (HP (Nat.leb (n - 1 - i)))|apply HO].
        * right. rewrite <- Rprod_mult. apply Rprod_ext. intros j Hj. rewrite <- Ek.
          destruct (Nat.eqb_spec (nth j t O) k), (Nat.leb_spec (k + 1) (nth j t O)), (Nat.leb_spec k (nth j t O)); try lia; ring. }
  rewrite <- Rprod_const. apply (Ec _ _ _ Htau (w O)) with (2 := W3). intros x.
  specialize (HW (n - 1)%nat ltac:(lia) x). replace (n - 1 - (n - 1))%nat with O in HW by lia. exact HW.
Qed.
Lemma len2 n (x : list R) : length x = (n + n)%nat -> length x = (n * 1 * (1 + 1))%nat.
Proof. lia. Qed.
