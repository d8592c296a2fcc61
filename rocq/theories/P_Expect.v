(** * Expectations: uniqueness, sums, quadratic forms; logarithms of normal densities. *)
From Coq Require Import Reals Lra Lia Arith Bool List FunctionalExtensionality.
From Coquelicot Require Import Coquelicot.
From Verif Require Import Num Arr ArrFacts Spec_Utils Spec_Det Spec_Gauss Spec_GaussN Spec_Prior
  P_Det P_Gauss P_Moments P_Sde1 P_GaussN P_L63 P_RMat.
Import ListNotations.
Local Open Scope R_scope.

Lemma E_normal_unique m v g l l' : E_normal m v g l -> E_normal m v g l' -> l = l'.
Proof.
  unfold E_normal. intros H H'.
  rewrite <- (is_RInt_gen_unique (V := R_CompleteNormedModule) _ _ H).
  exact (is_RInt_gen_unique (V := R_CompleteNormedModule) _ _ H').
Qed.
Lemma E_std_unique n : forall g e e', E_std n g e -> E_std n g e' -> e = e'.
Proof.
  induction n as [|n IH]; intros g e e'; cbn [E_std].
  - intros -> ->. reflexivity.
  - intros (h & H1 & H2) (h' & H1' & H2').
    assert (h = h') by (apply functional_extensionality; intros z; apply (E_normal_unique _ _ _ _ _ (H1 z) (H1' z))).
    subst h'. exact (IH h e e' H2 H2').
Qed.
Lemma E_mvn_unique n m S g e e' : symm n S -> posdef n S -> E_mvn n m S g e -> E_mvn n m S g e' -> e = e'.
Proof.
  intros Hs Hp H H'. destruct (posdef_root n S Hs Hp) as [L HL].
  exact (E_std_unique n _ _ _ (H L HL) (H' L HL)).
Qed.
Lemma E_mvn_const n m S c : E_mvn n m S (fun _ => c) c.
Proof.
  apply (E_mvn_q n m S [(c, None, None)]).
  - repeat constructor.
  - intros x. cbn. ring.
  - unfold qexp, qexp1, mon4, wick, ival, icov, fam4. cbn. ring.
Qed.
Lemma E_mvn_sum n m S k (f : nat -> (nat -> R) -> R) (e : nat -> R) :
  (forall i, (i < k)%nat -> E_mvn n m S (f i) (e i)) ->
  E_mvn n m S (fun x => Rsum k (fun i => f i x)) (Rsum k e).
Proof.
  induction k as [|k IH]; intros H; cbn [Rsum].
  - apply E_mvn_zero.
  - apply E_mvn_plus; [apply IH; intros; apply H; lia|apply H; lia].
Qed.
Lemma E_mvn_xy n m S c e i j : (i < n)%nat -> (j < n)%nat ->
  E_mvn n m S (fun x => (x i - c) * (x j - e)) (S i j + (m i - c) * (m j - e)).
Proof.
  intros Hi Hj. apply (E_mvn_q n m S [(1, Some i, Some j); (- e, Some i, None); (- c, Some j, None); (c * e, None, None)]).
  - repeat constructor; assumption.
  - intros x. cbn. ring.
  - unfold qexp, qexp1, mon4, wick, ival, icov, fam4. cbn. ring.
Qed.
(** E[(x-c)' P (x-c)] = tr(P S) + (m-c)' P (m-c) *)
Lemma E_mvn_quad n m S (P : nat -> nat -> R) (c : nat -> R) :
  E_mvn n m S (fun x => Rsum n (fun i => Rsum n (fun j => (x i - c i) * P i j * (x j - c j))))
    (Rsum n (fun i => Rsum n (fun j => P i j * S i j)) +
     Rsum n (fun i => Rsum n (fun j => (m i - c i) * P i j * (m j - c j)))).
Proof.
  rewrite <- Rsum_plus. apply E_mvn_sum. intros i Hi. rewrite <- Rsum_plus. apply E_mvn_sum. intros j Hj.
  apply (E_mvn_ext n m S (fun x => P i j * ((x i - c i) * (x j - c j)))); [intros; ring|].
  replace (P i j * S i j + (m i - c i) * P i j * (m j - c j)) with (P i j * (S i j + (m i - c i) * (m j - c j))) by ring.
  apply E_mvn_scal, E_mvn_xy; assumption.
Qed.

Lemma ln_sqrt x : 0 < x -> ln (sqrt x) = 1 / 2 * ln x.
Proof.
  intros H. pose proof (sqrt_lt_R0 x H) as Hs.
  assert (E : ln x = ln (sqrt x) + ln (sqrt x)) by (rewrite <- ln_mult by assumption; rewrite sqrt_sqrt by lra; reflexivity).
  lra.
Qed.
Lemma ln_div x y : 0 < x -> 0 < y -> ln (x / y) = ln x - ln y.
Proof. intros. unfold Rdiv. rewrite ln_mult, ln_Rinv; [ring|assumption|assumption|apply Rinv_0_lt_compat; assumption]. Qed.
Lemma ln_pow x n : 0 < x -> ln (x ^ n) = INR n * ln x.
Proof.
  intros H. induction n as [|n IH]; [cbn; rewrite ln_1; ring|].
  rewrite <- tech_pow_Rmult, ln_mult by (try apply pow_lt; assumption). rewrite IH, S_INR. ring.
Qed.
Lemma pi2_pos : 0 < 2 * PI. Proof. pose proof PI_RGT_0. lra. Qed.
Lemma normal_density_pos m v x : 0 < v -> 0 < normal_density m v x.
Proof.
  intros H. unfold normal_density. apply Rdiv_lt_0_compat; [apply exp_pos|].
  apply sqrt_lt_R0, Rmult_lt_0_compat; [apply pi2_pos|exact H].
Qed.
Lemma ln_normal_density m v x : 0 < v ->
  ln (normal_density m v x) = - (x - m) ^ 2 / (2 * v) - 1 / 2 * (ln (2 * PI) + ln v).
Proof.
  intros H. unfold normal_density. pose proof pi2_pos as Hp.
  assert (0 < 2 * PI * v) by (apply Rmult_lt_0_compat; assumption).
  rewrite ln_div by (try apply exp_pos; apply sqrt_lt_R0; assumption).
  rewrite ln_exp, ln_sqrt, ln_mult by assumption. ring.
Qed.
Lemma mvn_density_pos d m S P x : 0 < detR d S -> 0 < mvn_density d m S P x.
Proof.
  intros H. unfold mvn_density. apply Rdiv_lt_0_compat; [apply exp_pos|].
  apply sqrt_lt_R0, Rmult_lt_0_compat; [apply pow_lt, pi2_pos|exact H].
Qed.
Lemma ln_mvn_density d m S P x : 0 < detR d S ->
  ln (mvn_density d m S P x) =
  - (1 / 2) * Rsum d (fun i => Rsum d (fun j => (x i - m i) * P i j * (x j - m j)))
  - 1 / 2 * (INR d * ln (2 * PI) + ln (detR d S)).
Proof.
  intros H. unfold mvn_density. pose proof pi2_pos as Hp. pose proof (pow_lt (2 * PI) d Hp) as Hpd.
  assert (0 < (2 * PI) ^ d * detR d S) by (apply Rmult_lt_0_compat; assumption).
  rewrite ln_div by (try apply exp_pos; apply sqrt_lt_R0; assumption).
  rewrite ln_exp, ln_sqrt, ln_mult, ln_pow by assumption. ring.
Qed.

Lemma ln_ineq x : 0 < x -> 0 <= x - 1 - ln x.
Proof.
  intros H. destruct (Req_dec (ln x) 0) as [E|E].
  - assert (x = 1) by (rewrite <- (exp_ln x H), E; apply exp_0). rewrite E. lra.
  - pose proof (exp_ineq1 (ln x) E) as Hi. rewrite exp_ln in Hi by exact H. lra.
Qed.
Lemma ln_ineq_eq x : 0 < x -> x - 1 - ln x = 0 -> x = 1.
Proof.
  intros H He. destruct (Req_dec (ln x) 0) as [E|E].
  - rewrite <- (exp_ln x H), E; apply exp_0.
  - pose proof (exp_ineq1 (ln x) E) as Hi. rewrite exp_ln in Hi by exact H. lra.
Qed.
