(** * Linear systems y' = P(t) y + q(t) on [0,T]: existence and uniqueness. *)
From Coq Require Import List Reals Lra Lia Psatz.
From Coquelicot Require Import Coquelicot.
From Verif Require Import Num Arr ArrFacts Spec_Utils Spec_TimeVar P_Trapz P_Det P_RMat P_TimeVar P_Limit1.
Local Open Scope R_scope.

Lemma Rsum_abs n (f : nat -> R) M : (forall k, (k < n)%nat -> Rabs (f k) <= M) -> Rabs (Rsum n f) <= INR n * M.
Proof.
  induction n as [|n IH]; intros H.
  - cbn. rewrite Rabs_R0. lra.
  - rewrite S_INR. cbn [Rsum]. eapply Rle_trans; [apply Rabs_triang|]. specialize (IH (fun k Hk => H k (Nat.lt_lt_succ_r _ _ Hk))). specialize (H n (Nat.lt_succ_diag_r n)). lra.
Qed.
Lemma Rsum_cont n (f : nat -> R -> R) t : (forall k, (k < n)%nat -> continuous (f k) t) -> continuous (fun u => Rsum n (fun k => f k u)) t.
Proof.
  induction n as [|n IH]; intros H; [apply continuous_const|]. cbn [Rsum].
  apply (continuous_plus (fun u => Rsum n (fun k => f k u)) (f n)); auto.
Qed.
Lemma cont_RInt (f : R -> R) a t : (forall u, continuous f u) -> continuous (RInt f a) t.
Proof. intros H. apply @ex_derive_continuous. exists (f t). apply der_RInt, H. Qed.
Lemma ex_RInt_all (f : R -> R) a b : (forall u, continuous f u) -> ex_RInt f a b.
Proof. intros H. apply (@ex_RInt_continuous R_CompleteNormedModule). intros; apply H. Qed.
Lemma RInt_cmul c (f : R -> R) a b : ex_RInt f a b -> RInt (fun u => c * f u) a b = c * RInt f a b.
Proof. intros H. apply is_RInt_unique. apply (is_RInt_scal f a b c). apply (@RInt_correct R_CompleteNormedModule), H. Qed.
Lemma RInt_add (f g : R -> R) a b : ex_RInt f a b -> ex_RInt g a b -> RInt (fun u => f u + g u) a b = RInt f a b + RInt g a b.
Proof. intros H H'. apply is_RInt_unique. apply (is_RInt_plus f g a b); apply (@RInt_correct R_CompleteNormedModule); assumption. Qed.
Lemma RInt_sub (f g : R -> R) a b : ex_RInt f a b -> ex_RInt g a b -> RInt (fun u => f u - g u) a b = RInt f a b - RInt g a b.
Proof. intros H H'. apply is_RInt_unique. apply (is_RInt_minus f g a b); apply (@RInt_correct R_CompleteNormedModule); assumption. Qed.
Lemma ex_RInt_sub (f g : R -> R) a b : ex_RInt f a b -> ex_RInt g a b -> ex_RInt (fun u => f u - g u) a b.
Proof. intros [v H] [w H']. exists (v - w). apply (is_RInt_minus f g a b); assumption. Qed.

Section Picard.
Variables (N : nat) (T B Q0 : R) (P : R -> nat -> nat -> R) (q : R -> nat -> R) (y0 : nat -> R).
Hypothesis HT : 0 <= T.
Hypothesis HB : 0 < B.
Hypothesis HQ : 0 <= Q0.
Hypothesis CP : forall i j t, (i < N)%nat -> (j < N)%nat -> 0 <= t <= T -> continuous (fun u => P u i j) t.
Hypothesis Cq : forall i t, (i < N)%nat -> 0 <= t <= T -> continuous (fun u => q u i) t.
Hypothesis BP : forall i j t, (i < N)%nat -> (j < N)%nat -> 0 <= t <= T -> Rabs (P t i j) <= B.
Hypothesis Bq : forall i t, (i < N)%nat -> 0 <= t <= T -> Rabs (q t i) <= Q0.
Hypothesis By : forall i, (i < N)%nat -> Rabs (y0 i) <= Q0.

Definition cl := clamp T.
Definition apply_P (w : R -> nat -> R) (i : nat) (u : R) : R := Rsum N (fun j => P (cl u) i j * w (cl u) j).
Fixpoint term (k : nat) : R -> nat -> R :=
  match k with
  | O => fun t i => y0 i + RInt (fun u => q (cl u) i) 0 t
  | S k' => fun t i => RInt (apply_P (term k') i) 0 t
  end.
Lemma cq_all i u : (i < N)%nat -> continuous (fun u => q (cl u) i) u.
Proof. intros Hi. apply (clamp_comp T (fun u => q u i)); auto. Qed.
Lemma apply_cont w i u : (i < N)%nat -> (forall j v, (j < N)%nat -> 0 <= v <= T -> continuous (fun s => w s j) v) -> continuous (apply_P w i) u.
Proof.
  intros Hi Hw. unfold apply_P. apply (Rsum_cont N (fun j u => P (cl u) i j * w (cl u) j)). intros j Hj.
  apply (continuous_mult (fun u => P (cl u) i j) (fun u => w (cl u) j)).
  - apply (clamp_comp T (fun u => P u i j)); auto.
  - apply (clamp_comp T (fun u => w u j)); auto.
Qed.
Lemma term_cont k : forall i u, (i < N)%nat -> continuous (fun s => term k s i) u.
Proof.
  induction k as [|k IH]; intros i u Hi; cbn [term].
  - apply (continuous_plus (fun _ => y0 i) (RInt (fun u => q (cl u) i) 0)); [apply continuous_const|].
    apply cont_RInt. intros v. apply cq_all, Hi.
  - apply cont_RInt. intros v. apply apply_cont; auto.
Qed.
Definition L : R := 2 * (INR N + 1) * B.
Definition W : R := Q0 + Q0 * T.
Lemma L_pos : 0 < L. Proof. unfold L. pose proof (pos_INR N). apply Rmult_lt_0_compat; lra. Qed.
Lemma W_pos : 0 <= W. Proof. unfold W. assert (0 <= Q0 * T) by (apply Rmult_le_pos; lra). lra. Qed.
Lemma RInt_exp t : RInt (fun u => exp (L * u)) 0 t = (exp (L * t) - 1) / L.
Proof.
  apply is_RInt_unique. replace ((exp (L * t) - 1) / L) with (exp (L * t) / L - exp (L * 0) / L).
  - apply (is_RInt_derive (fun u => exp (L * u) / L) (fun u => exp (L * u))).
    + intros u _. auto_derive; auto. field. apply Rgt_not_eq, L_pos.
    + intros u _. apply @ex_derive_continuous. auto_derive; auto.
  - rewrite Rmult_0_r, exp_0. field. apply Rgt_not_eq, L_pos.
Qed.
Lemma exp_cont_ u : continuous (fun u => exp (L * u)) u.
Proof. apply @ex_derive_continuous. auto_derive; auto. Qed.
Lemma apply_bd w i u M : (i < N)%nat -> 0 <= u <= T -> (forall j, (j < N)%nat -> Rabs (w u j) <= M) -> 0 <= M -> Rabs (apply_P w i u) <= (INR N + 1) * B * M.
Proof.
  intros Hi Hu Hw HM. unfold apply_P. eapply Rle_trans.
  - apply (Rsum_abs N _ (B * M)). intros j Hj. rewrite Rabs_mult. unfold cl. rewrite clamp_id by exact Hu.
    apply Rmult_le_compat; auto using Rabs_pos.
  - assert (0 <= B * M) by (apply Rmult_le_pos; lra). pose proof (pos_INR N). nra.
Qed.
Lemma exp_ge1 t : 0 <= t -> 1 <= exp (L * t).
Proof. intros H. rewrite <- exp_0. assert (0 <= L * t) by (apply Rmult_le_pos; [left; apply L_pos|exact H]). destruct (Rle_lt_or_eq_dec _ _ H0) as [H1|H1]; [left; apply exp_increasing, H1|rewrite <- H1; right; reflexivity]. Qed.
Lemma term_bd k : forall t i, (i < N)%nat -> 0 <= t <= T -> Rabs (term k t i) <= W * (1 / 2) ^ k * exp (L * t).
Proof.
  induction k as [|k IH]; intros t i Hi Ht; cbn [term].
  - rewrite pow_O, Rmult_1_r. eapply Rle_trans; [apply Rabs_triang|].
    assert (H : Rabs (RInt (fun u => q (cl u) i) 0 t) <= Q0 * t).
    { eapply Rle_trans; [apply (RInt_bound _ 0 t Q0); [lra| |]|rewrite Rminus_0_r; lra].
      - apply ex_RInt_all. intros u. apply cq_all, Hi.
      - intros u Hu. apply Bq; [exact Hi|apply clamp_in, HT]. }
    assert (Q0 * t <= Q0 * T) by (apply Rmult_le_compat_l; lra). specialize (By i Hi).
    pose proof (exp_ge1 t (proj1 Ht)) as G. pose proof W_pos.
    assert (W * 1 <= W * exp (L * t)) by (apply Rmult_le_compat_l; assumption). unfold W in *. lra.
  - set (C := W * (1 / 2) ^ k) in *. assert (HC : 0 <= C) by (apply Rmult_le_pos; [apply W_pos|apply pow_le; lra]).
    eapply Rle_trans.
    + apply (abs_RInt_le _ 0 t (proj1 Ht)). apply ex_RInt_all. intros u. apply apply_cont; [exact Hi|]. intros j v Hj _. apply term_cont, Hj.
    + eapply Rle_trans.
      * apply (RInt_le _ (fun u => (INR N + 1) * B * C * exp (L * u)) 0 t (proj1 Ht)).
        -- apply ex_RInt_all. intros u. apply (continuous_comp (apply_P (term k) i) Rabs); [|apply continuous_Rabs].
           apply apply_cont; [exact Hi|]. intros j v Hj _. apply term_cont, Hj.
        -- apply ex_RInt_all. intros u. apply (continuous_scal_r ((INR N + 1) * B * C) (fun u => exp (L * u))). apply exp_cont_.
        -- intros u Hu. rewrite (Rmult_assoc _ C). apply apply_bd; [exact Hi|lra| |].
           ++ intros j Hj. apply IH; [exact Hj|lra].
           ++ apply Rmult_le_pos; [exact HC|left; apply exp_pos].
      * rewrite RInt_cmul by (apply ex_RInt_all; intros; apply exp_cont_). rewrite RInt_exp.
        replace ((INR N + 1) * B * C * ((exp (L * t) - 1) / L)) with (C / 2 * (exp (L * t) - 1)).
        -- rewrite <- tech_pow_Rmult. replace (W * (1 / 2 * (1 / 2) ^ k)) with (C / 2) by (unfold C; field). apply Rmult_le_compat_l; lra.
        -- unfold L. field. pose proof (pos_INR N). split; lra.
Qed.

Definition E : R := exp (L * T).
Lemma exp_leE t : 0 <= t <= T -> exp (L * t) <= E.
Proof.
  intros Ht. unfold E. assert (L * t <= L * T) by (apply Rmult_le_compat_l; [left; apply L_pos|lra]).
  destruct (Rle_lt_or_eq_dec _ _ H) as [H1|H1]; [left; apply exp_increasing, H1|rewrite H1; right; reflexivity].
Qed.
Lemma E_pos : 0 < E. Proof. apply exp_pos. Qed.
Definition C0 : R := W * E.
Lemma C0_pos : 0 <= C0. Proof. apply Rmult_le_pos; [apply W_pos|left; apply E_pos]. Qed.
Lemma term_bd' k t i : (i < N)%nat -> 0 <= t <= T -> Rabs (term k t i) <= C0 * (1 / 2) ^ k.
Proof.
  intros Hi Ht. eapply Rle_trans; [apply term_bd; assumption|]. unfold C0.
  replace (W * E * (1 / 2) ^ k) with (W * (1 / 2) ^ k * E) by ring. apply Rmult_le_compat_l; [|apply exp_leE, Ht].
  apply Rmult_le_pos; [apply W_pos|apply pow_le; lra].
Qed.
Lemma geo : is_series (fun k => C0 * (1 / 2) ^ k) (C0 * 2).
Proof.
  assert (H : is_series (fun k => (1 / 2) ^ k) (/ (1 - 1 / 2))) by (apply is_series_geom; rewrite Rabs_pos_eq; lra).
  apply (is_series_scal_l C0 (fun k => (1 / 2) ^ k)) in H. replace (C0 * 2) with (C0 * / (1 - 1 / 2)) by field. exact H.
Qed.
Lemma ex_term t i : (i < N)%nat -> 0 <= t <= T -> ex_series (fun k => term k t i).
Proof. intros Hi Ht. apply (ex_series_le (fun k => term k t i) (fun k => C0 * (1 / 2) ^ k)); [intros k; apply term_bd'; assumption|]. exists (C0 * 2). apply geo. Qed.
Definition y (t : R) (i : nat) : R := Series (fun k => term k t i).
(** partial sums *)
Lemma tail_bd t i n : (i < N)%nat -> 0 <= t <= T -> Rabs (y t i - sum_n (fun k => term k t i) n) <= C0 * (1 / 2) ^ n.
Proof.
  intros Hi Ht. unfold y. rewrite (Series_incr_n _ (S n)); [|lia|apply ex_term; assumption].
  rewrite <- sum_n_Reals. cbn [Nat.pred]. rewrite Rplus_comm. unfold Rminus. rewrite Rplus_assoc, Rplus_opp_r, Rplus_0_r.
  eapply Rle_trans; [apply Series_Rabs|].
  - apply (ex_series_le (fun k => Rabs (term (S n + k) t i)) (fun k => C0 * (1 / 2) ^ k * (1 / 2) ^ (S n))).
    + intros k. change (norm (Rabs (term (S n + k) t i))) with (Rabs (Rabs (term (S n + k) t i))). rewrite Rabs_Rabsolu.
      eapply Rle_trans; [apply term_bd'; assumption|]. rewrite pow_add. right. ring.
    + apply (ex_series_scal_r ((1 / 2) ^ S n) (fun k => C0 * (1 / 2) ^ k)). exists (C0 * 2). apply geo.
  - eapply Rle_trans.
    + apply (Series_le _ (fun k => C0 * (1 / 2) ^ k * (1 / 2) ^ (S n))).
      * intros k. split; [apply Rabs_pos|]. eapply Rle_trans; [apply term_bd'; assumption|]. rewrite pow_add. right. ring.
      * apply (ex_series_scal_r ((1 / 2) ^ S n) (fun k => C0 * (1 / 2) ^ k)). exists (C0 * 2). apply geo.
    + rewrite Series_scal_r, (is_series_unique _ _ geo). cbn [pow]. right. field.
Qed.
Lemma sum_cont n i u : (i < N)%nat -> continuous (fun t => sum_n (fun k => term k t i) n) u.
Proof.
  intros Hi. induction n as [|n IH].
  - apply continuous_ext with (fun t => term 0 t i); [intros; rewrite sum_O; reflexivity|]. apply term_cont, Hi.
  - apply continuous_ext with (fun t => sum_n (fun k => term k t i) n + term (S n) t i); [intros; rewrite sum_Sn; reflexivity|].
    apply (continuous_plus (fun t => sum_n (fun k => term k t i) n) (fun t => term (S n) t i)); [exact IH|apply term_cont, Hi].
Qed.
Lemma pow_half_small eps : 0 < eps -> exists n, C0 * (1 / 2) ^ n < eps.
Proof.
  intros He. assert (H : is_lim_seq (fun n => C0 * (1 / 2) ^ n) 0).
  { replace (Finite 0) with (Rbar_mult C0 0) by (cbn; f_equal; ring). apply is_lim_seq_scal_l. apply is_lim_seq_geom. rewrite Rabs_pos_eq; lra. }
  apply is_lim_seq_spec in H. destruct (H (mkposreal eps He)) as [n Hn]. exists n. specialize (Hn n (le_n _)). cbn in Hn.
  rewrite Rminus_0_r in Hn. eapply Rle_lt_trans; [apply Rle_abs|exact Hn].
Qed.
(** the limit is continuous as a function on [0,T] *)
Lemma y_cont i u : (i < N)%nat -> continuous (fun s => y (cl s) i) u.
Proof.
  intros Hi. apply filterlim_locally. intros eps. assert (He : 0 < eps / 3) by (destruct eps; cbn; lra).
  destruct (pow_half_small _ He) as [n Hn].
  assert (Hc : continuous (fun s => sum_n (fun k => term k (cl s) i) n) u).
  { apply (clamp_comp T (fun s => sum_n (fun k => term k s i) n)); [exact HT|]. intros v _. apply sum_cont, Hi. }
  apply (proj1 (filterlim_locally _ _)) with (eps := mkposreal _ He) in Hc. revert Hc. apply filter_imp. intros s Hs.
  change (Rabs (sum_n (fun k => term k (cl s) i) n - sum_n (fun k => term k (cl u) i) n) < eps / 3) in Hs.
  change (Rabs (y (cl s) i - y (cl u) i) < eps).
  pose proof (tail_bd (cl s) i n Hi (clamp_in T s HT)) as H1. pose proof (tail_bd (cl u) i n Hi (clamp_in T u HT)) as H2.
  assert (H3 := conj H1 (conj H2 (conj Hs Hn))). clear - H3. destruct H3 as (H1 & H2 & Hs & Hn).
  apply Rabs_le_between in H1, H2. apply Rabs_def2 in Hs. apply Rabs_def1; lra.
Qed.
Lemma apply_y_cont i u : (i < N)%nat -> continuous (apply_P y i) u.
Proof.
  intros Hi. unfold apply_P. apply (Rsum_cont N (fun j u => P (cl u) i j * y (cl u) j)). intros j Hj.
  apply (continuous_mult (fun u => P (cl u) i j) (fun u => y (cl u) j)); [apply (clamp_comp T (fun u => P u i j)); auto|apply y_cont, Hj].
Qed.
Lemma sum_apply n i t : (i < N)%nat -> sum_n (fun k => term (S k) t i) n = RInt (fun u => apply_P (fun s j => sum_n (fun k => term k s j) n) i u) 0 t.
Proof.
  intros Hi. induction n as [|n IH].
  - rewrite sum_O. cbn [term]. apply RInt_ext. intros u _. unfold apply_P. apply Rsum_ext. intros j Hj. rewrite sum_O. reflexivity.
  - rewrite sum_Sn, IH. cbn [term]. change (plus ?a ?b) with (a + b).
    change (RInt (apply_P (fun s j => sum_n (fun k => term k s j) n) i) 0 t + RInt (apply_P (term (S n)) i) 0 t = RInt (fun u => apply_P (fun s j => sum_n (fun k => term k s j) (S n)) i u) 0 t).
    rewrite <- RInt_add.
    + apply RInt_ext. intros u _. unfold apply_P. rewrite <- Rsum_plus. apply Rsum_ext. intros j Hj.
      rewrite sum_Sn. change (plus ?a ?b) with (a + b). ring.
    + apply ex_RInt_all. intros u. apply apply_cont; [exact Hi|]. intros j v Hj _. apply sum_cont, Hj.
    + apply ex_RInt_all. intros u. apply apply_cont; [exact Hi|]. intros j v Hj _. apply term_cont, Hj.
Qed.
Lemma y_eq t i : (i < N)%nat -> 0 <= t <= T -> y t i = y0 i + RInt (fun u => q (cl u) i) 0 t + RInt (apply_P y i) 0 t.
Proof.
  intros Hi Ht. unfold y at 1. rewrite Series_incr_1 by (apply ex_term; assumption).
  change (term 0 t i) with (y0 i + RInt (fun u => q (cl u) i) 0 t). f_equal.
  apply is_series_unique. change (is_lim_seq (sum_n (fun k => term (S k) t i)) (RInt (apply_P y i) 0 t)).
  apply is_lim_seq_spec. intros eps.
  set (M := (INR N + 1) * B * (T + 1)). assert (HM : 0 < M) by (unfold M; pose proof (pos_INR N); repeat apply Rmult_lt_0_compat; lra).
  destruct (pow_half_small (eps / M)) as [n0 Hn0]; [apply Rdiv_lt_0_compat; [apply cond_pos|exact HM]|].
  exists n0. intros n Hn. change (Rabs (sum_n (fun k => term (S k) t i) n - RInt (apply_P y i) 0 t) < eps). rewrite sum_apply by exact Hi.
  change (Rabs (RInt (apply_P (fun s j => sum_n (fun k => term k s j) n) i) 0 t - RInt (apply_P y i) 0 t) < eps).
  assert (X1 : ex_RInt (apply_P (fun s j => sum_n (fun k => term k s j) n) i) 0 t).
  { apply ex_RInt_all. intros u. apply apply_cont; [exact Hi|]. intros j v Hj _. apply sum_cont, Hj. }
  assert (X2 : ex_RInt (apply_P y i) 0 t) by (apply ex_RInt_all; intros u; apply apply_y_cont, Hi).
  rewrite <- RInt_sub by assumption.
  assert (HC : C0 * (1 / 2) ^ n <= C0 * (1 / 2) ^ n0).
  { apply Rmult_le_compat_l; [apply C0_pos|]. clear - Hn. induction Hn as [|n Hn IH]; [lra|]. cbn [pow]. assert (0 <= (1 / 2) ^ n) by (apply pow_le; lra). lra. }
  assert (G : 0 <= C0 * (1 / 2) ^ n) by (apply Rmult_le_pos; [apply C0_pos|apply pow_le; lra]).
  eapply Rle_lt_trans; [apply (RInt_bound _ 0 t ((INR N + 1) * B * (C0 * (1 / 2) ^ n)))|].
  - apply Ht.
  - apply ex_RInt_sub; assumption.
  - intros u Hu.
    replace (apply_P (fun s j => sum_n (fun k => term k s j) n) i u - apply_P y i u) with (- apply_P (fun s j => y s j - sum_n (fun k => term k s j) n) i u).
    + rewrite Rabs_Ropp. apply apply_bd; [exact Hi|lra| |exact G]. intros j Hj. apply tail_bd; [exact Hj|lra].
    + unfold apply_P. rewrite <- Rsum_minus, <- Rsum_opp. apply Rsum_ext. intros j Hj. ring.
  - rewrite Rminus_0_r. apply Rle_lt_trans with (M * (C0 * (1 / 2) ^ n0)).
    + unfold M. assert (t <= T + 1) by lra. pose proof (pos_INR N). assert (0 <= (INR N + 1) * B) by (apply Rmult_le_pos; lra).
      apply Rle_trans with ((INR N + 1) * B * (C0 * (1 / 2) ^ n0) * t); [apply Rmult_le_compat_r; [lra|apply Rmult_le_compat_l; assumption]|].
      apply Rle_trans with ((INR N + 1) * B * (C0 * (1 / 2) ^ n0) * (T + 1)); [apply Rmult_le_compat_l; [apply Rmult_le_pos; lra|lra]|right; ring].
    + apply (Rmult_lt_compat_l M) in Hn0; [|exact HM]. replace (M * (eps / M)) with (pos eps) in Hn0 by (field; lra). exact Hn0.
Qed.
Lemma picard : exists z : R -> nat -> R, (forall i, z 0 i = y0 i) /\
  forall t i, 0 <= t <= T -> (i < N)%nat -> is_derive (fun s => z s i) t (Rsum N (fun j => P t i j * z t j) + q t i).
Proof.
  exists (fun t i => y0 i + RInt (fun u => q (cl u) i) 0 t + RInt (apply_P y i) 0 t). split.
  - intros i. rewrite !RInt_point. change (zero : R) with 0. ring.
  - intros t i Ht Hi.
    assert (D1 : is_derive (RInt (fun u => q (cl u) i) 0) t (q t i)).
    { replace (q t i) with (q (cl t) i) by (unfold cl; rewrite clamp_id by exact Ht; reflexivity).
      apply (der_RInt (fun u => q (cl u) i)). intros u. apply cq_all, Hi. }
    assert (D2 : is_derive (RInt (apply_P y i) 0) t (apply_P y i t)) by (apply der_RInt; intros u; apply apply_y_cont, Hi).
    replace (Rsum N (fun j => P t i j * (y0 j + RInt (fun u => q (cl u) j) 0 t + RInt (apply_P y j) 0 t)) + q t i) with (0 + q t i + apply_P y i t).
    + apply (is_derive_plus (fun s => y0 i + RInt (fun u => q (cl u) i) 0 s) (RInt (apply_P y i) 0)); [|exact D2].
      apply (is_derive_plus (fun _ => y0 i) (RInt (fun u => q (cl u) i) 0)); [apply (is_derive_const (y0 i))|exact D1].
    + unfold apply_P at 1. unfold cl. rewrite clamp_id by exact Ht. rewrite (Rsum_ext N _ (fun j => P t i j * (y0 j + RInt (fun u => q (clamp T u) j) 0 t + RInt (apply_P y j) 0 t))); [ring|].
      intros j Hj. f_equal. apply y_eq; assumption.
Qed.
End Picard.
