(** * The Gaussian integral and integration by parts against the normal density. *)
From Coq Require Import Reals Lra Lia Ring.
From Coquelicot Require Import Coquelicot.
From Verif Require Import Spec_Gauss.
Local Open Scope R_scope.

Lemma ex_RInt_R (f : R -> R) a b : (forall x, continuous f x) -> ex_RInt f a b.
Proof. intros H. apply (ex_RInt_continuous (V:=R_CompleteNormedModule)). intros; apply H. Qed.

Definition gsq (x : R) : R := exp (- x ^ 2).
Lemma gsq_cont x : continuous gsq x.
Proof. apply (ex_derive_continuous gsq). unfold gsq. auto_derive. exact I. Qed.
Lemma gsq_ex a b : ex_RInt gsq a b.
Proof. apply ex_RInt_R. intros; apply gsq_cont. Qed.

Definition Gi (t : R) : R := RInt gsq 0 t.
Lemma Gi_derive (t : R) : is_derive Gi t (gsq t).
Proof.
  unfold Gi. apply (is_derive_RInt gsq (RInt gsq 0) 0 t).
  - apply filter_forall. intros b. apply (RInt_correct (V:=R_CompleteNormedModule) gsq), gsq_ex.
  - apply gsq_cont.
Qed.

Definition Hk (t x : R) : R := exp (- t ^ 2 * (1 + x ^ 2)) / (1 + x ^ 2).
Lemma den_pos x : 0 < 1 + x ^ 2.
Proof. nra. Qed.
Lemma Hk_derive x (t : R) : is_derive (fun u => Hk u x) t (- 2 * t * exp (- t ^ 2 * (1 + x ^ 2))).
Proof.
  unfold Hk. pose proof (den_pos x). auto_derive; [lra|].
  replace (- (t * (t * 1)) * (1 + x * (x * 1))) with (- t ^ 2 * (1 + x ^ 2)) by (cbn; ring).
  field. nra.
Qed.
Lemma Hk_cont t x : continuous (Hk t) x.
Proof.
  apply (ex_derive_continuous (Hk t)). unfold Hk. pose proof (den_pos x). auto_derive. nra.
Qed.
Definition GG (t : R) : R := RInt (Hk t) 0 1.

Lemma GG_derive (t : R) : is_derive GG t (- 2 * gsq t * Gi t).
Proof.
  assert (HD : forall x u, Derive (fun z => Hk z x) u = - 2 * u * exp (- u ^ 2 * (1 + x ^ 2)))
    by (intros; apply is_derive_unique, Hk_derive).
  replace (- 2 * gsq t * Gi t) with (RInt (fun x => Derive (fun u => Hk u x) t) 0 1).
  - apply is_derive_RInt_param.
    + apply filter_forall. intros u x _. eexists. apply Hk_derive.
    + intros x _.
      apply continuity_2d_pt_ext with (f := fun u v => (- 2 * u) * exp (- u ^ 2 * (1 + v ^ 2))).
      { intros u v. symmetry. apply HD. }
      apply continuity_2d_pt_mult.
      * apply continuity_2d_pt_mult; [apply continuity_2d_pt_const|apply continuity_2d_pt_id1].
      * apply (continuity_1d_2d_pt_comp exp (fun u v => - u ^ 2 * (1 + v ^ 2))).
        { apply derivable_continuous_pt, derivable_pt_exp. }
        apply continuity_2d_pt_mult.
        -- apply continuity_2d_pt_opp.
           apply continuity_2d_pt_ext with (f := fun u v => u * u); [intros; ring|].
           apply continuity_2d_pt_mult; apply continuity_2d_pt_id1.
        -- apply continuity_2d_pt_plus; [apply continuity_2d_pt_const|].
           apply continuity_2d_pt_ext with (f := fun u v => v * v); [intros; ring|].
           apply continuity_2d_pt_mult; apply continuity_2d_pt_id2.
    + apply filter_forall. intros u. apply ex_RInt_R. intros; apply Hk_cont.
  - apply is_RInt_unique.
    apply (is_RInt_ext (fun x => scal (- 2 * gsq t) (scal t (gsq (t * x + 0))))).
    { intros x _. rewrite HD.
      replace (- t ^ 2 * (1 + x ^ 2)) with (- t ^ 2 + - (t * x + 0) ^ 2) by ring.
      rewrite exp_plus. unfold gsq, scal; simpl; unfold mult; simpl. ring. }
    apply (is_RInt_scal (fun x => scal t (gsq (t * x + 0)))).
    apply (is_RInt_comp_lin gsq t 0 0 1).
    replace (t * 0 + 0) with 0 by ring. replace (t * 1 + 0) with t by ring.
    apply (RInt_correct (V:=R_CompleteNormedModule) gsq), gsq_ex.
Qed.

Lemma GG_0 : GG 0 = PI / 4.
Proof.
  unfold GG. apply is_RInt_unique. rewrite <- atan_1.
  replace (atan 1) with (minus (atan 1) (atan 0)) by (rewrite atan_0; unfold minus, plus, opp; simpl; ring).
  apply (is_RInt_derive atan (Hk 0)).
  - intros x _. unfold Hk. replace (- 0 ^ 2 * (1 + x ^ 2)) with 0 by ring. rewrite exp_0.
    apply is_derive_Reals. replace (1 / (1 + x ^ 2)) with (/ (1 + x ^ 2)) by (field; nra).
    apply derivable_pt_lim_atan.
  - intros x _. apply Hk_cont.
Qed.

Lemma FG_const t : Gi t ^ 2 + GG t = PI / 4.
Proof.
  rewrite <- GG_0. assert (H0 : Gi 0 = 0) by (unfold Gi; apply (RInt_point (V:=R_CompleteNormedModule))).
  transitivity (Gi 0 ^ 2 + GG 0); [|rewrite H0; ring].
  destruct (MVT_gen (fun u => Gi u ^ 2 + GG u) 0 t (fun _ => 0)) as (c & _ & Hc).
  - intros x _. evar (l : R). replace 0 with l.
    + apply (is_derive_plus (fun u => Gi u ^ 2) GG); [|apply GG_derive].
      apply (is_derive_pow Gi 2). apply Gi_derive.
    + subst l. unfold plus; simpl. unfold gsq. ring.
  - intros x _. apply derivable_continuous_pt, ex_derive_Reals_0. eexists.
    apply (is_derive_plus (fun u => Gi u ^ 2) GG); [|apply GG_derive].
    apply (is_derive_pow Gi 2). apply Gi_derive.
  - lra.
Qed.

Lemma GG_bounds t : 0 <= GG t <= exp (- t ^ 2).
Proof.
  unfold GG. split.
  - apply RInt_ge_0; [lra|apply ex_RInt_R; intros; apply Hk_cont|].
    intros x Hx. unfold Hk. apply Rlt_le, Rdiv_lt_0_compat; [apply exp_pos|apply den_pos].
  - replace (exp (- t ^ 2)) with (RInt (fun _ => exp (- t ^ 2)) 0 1).
    + apply RInt_le; [lra|apply ex_RInt_R; intros; apply Hk_cont|apply ex_RInt_R; intros; apply continuous_const|].
      intros x Hx. unfold Hk. pose proof (den_pos x).
      apply Rle_trans with (exp (- t ^ 2 * (1 + x ^ 2))).
      * apply (Rmult_le_reg_r (1 + x ^ 2)); [lra|]. unfold Rdiv. rewrite Rmult_assoc, Rinv_l by lra.
        pose proof (exp_pos (- t ^ 2 * (1 + x ^ 2))). nra.
      * destruct (Req_dec (t ^ 2 * x ^ 2) 0) as [E|E].
        -- right. f_equal. replace (- t ^ 2 * (1 + x ^ 2)) with (- t ^ 2 - t ^ 2 * x ^ 2) by ring. rewrite E. ring.
        -- left. apply exp_increasing. assert (0 <= t ^ 2 * x ^ 2) by (apply Rmult_le_pos; apply pow2_ge_0). lra.
    + rewrite RInt_const. unfold scal; simpl; unfold mult; simpl. ring.
Qed.

Lemma Gi_pos t : 0 <= t -> 0 <= Gi t.
Proof.
  intros Ht. unfold Gi. apply RInt_ge_0; [exact Ht|apply gsq_ex|].
  intros; unfold gsq; apply Rlt_le, exp_pos.
Qed.

Lemma lim_exp_sq : is_lim (fun t => exp (- t ^ 2)) p_infty 0.
Proof.
  apply (is_lim_le_le_loc (fun _ => 0) (fun t => exp (- t))).
  - exists 1. intros t Ht. split; [apply Rlt_le, exp_pos|].
    left. apply exp_increasing. nra.
  - apply is_lim_const.
  - apply (is_lim_comp exp (fun t => - t) p_infty 0 m_infty).
    + apply is_lim_exp_m.
    + apply (is_lim_opp (fun t => t) p_infty p_infty), is_lim_id.
    + exists 0. intros; discriminate.
Qed.

Lemma Gi_lim : is_lim Gi p_infty (sqrt PI / 2).
Proof.
  assert (HG : is_lim GG p_infty 0).
  { apply (is_lim_le_le_loc (fun _ => 0) (fun t => exp (- t ^ 2))).
    - exists 0. intros t _. apply GG_bounds.
    - apply is_lim_const.
    - apply lim_exp_sq. }
  apply (is_lim_ext_loc (fun t => sqrt (PI / 4 - GG t))).
  { exists 0. intros t Ht. rewrite <- (FG_const t).
    replace (Gi t ^ 2 + GG t - GG t) with (Gi t ^ 2) by ring.
    apply sqrt_pow2, Gi_pos. lra. }
  assert (E : sqrt PI / 2 = sqrt (PI / 4)).
  { pose proof PI_RGT_0. rewrite sqrt_div by lra. f_equal.
    replace 4 with (2 ^ 2) by ring. rewrite sqrt_pow2; lra. }
  rewrite E.
  apply (is_lim_comp_continuous (fun t => PI / 4 - GG t) sqrt).
  - evar_last; [apply (is_lim_minus' (fun _ => PI / 4) GG p_infty (PI / 4) 0);
      [apply is_lim_const|exact HG]|]. f_equal. ring.
  - apply continuity_pt_filterlim. apply continuity_pt_sqrt. pose proof PI_RGT_0. lra.
Qed.

Lemma Gi_odd t : Gi (- t) = - Gi t.
Proof.
  unfold Gi. apply is_RInt_unique.
  apply (is_RInt_ext (fun x => opp (opp (gsq (- x))))).
  { intros x _. rewrite opp_opp. unfold gsq. f_equal. ring. }
  replace (- RInt gsq 0 t) with (opp (RInt gsq 0 t)) by reflexivity.
  apply (is_RInt_opp (fun x => opp (gsq (- x)))).
  apply (is_RInt_comp_opp gsq). rewrite Ropp_0, Ropp_involutive.
  apply (RInt_correct (V:=R_CompleteNormedModule) gsq), gsq_ex.
Qed.

Lemma Gi_lim_m : is_lim Gi m_infty (- (sqrt PI / 2)).
Proof.
  apply (is_lim_ext (fun t => - Gi (- t))).
  { intros t. rewrite Gi_odd. ring. }
  apply (is_lim_opp (fun t => Gi (- t)) m_infty (sqrt PI / 2)).
  apply (is_lim_comp Gi (fun t => - t) m_infty (sqrt PI / 2) p_infty).
  - apply Gi_lim.
  - apply (is_lim_opp (fun t => t) m_infty m_infty), is_lim_id.
  - exists 0. intros; discriminate.
Qed.

(** ** Improper integrals through antiderivatives *)
Definition gint (f : R -> R) (l : R) : Prop :=
  exists (Q : R -> R) (A B : R),
    (forall x, is_derive Q x (f x)) /\ (forall x, continuous f x) /\
    is_lim Q m_infty A /\ is_lim Q p_infty B /\ l = B - A.

Lemma gint_RInt_gen f l : gint f l ->
  is_RInt_gen f (Rbar_locally m_infty) (Rbar_locally p_infty) l.
Proof.
  intros (Q & A & B & HQ & Hf & HA & HB & ->).
  assert (HI : forall a b, is_RInt f a b (Q b - Q a)).
  { intros a b. apply (is_RInt_derive Q f); intros; auto. }
  intros P HP. unfold filtermapi.
  assert (HL : filterlim (fun ab : R * R => Q (snd ab) - Q (fst ab))
                 (filter_prod (Rbar_locally m_infty) (Rbar_locally p_infty)) (locally (B - A))).
  { apply (filterlim_comp_2 (G := locally B) (H := locally A)
             (fun ab : R * R => Q (snd ab)) (fun ab : R * R => Q (fst ab)) Rminus).
    - apply (filterlim_comp _ _ _ snd Q _ (Rbar_locally p_infty)); [apply filterlim_snd|exact HB].
    - apply (filterlim_comp _ _ _ fst Q _ (Rbar_locally m_infty)); [apply filterlim_fst|exact HA].
    - intros U HU.
      pose proof (filterlim_plus (V:=R_NormedModule) B (- A)) as Hp.
      specialize (Hp U HU). destruct Hp as [U1 U2 H1 H2 H3].
      apply (Filter_prod _ _ _ U1 (fun a => U2 (- a)) H1).
      + apply (filterlim_opp (V:=R_NormedModule) A). exact H2.
      + intros x y Hx Hy. apply (H3 x (- y)); assumption. }
  specialize (HL P HP). unfold filtermap in HL.
  apply (filter_imp (fun ab : R * R => P (Q (snd ab) - Q (fst ab)))); [|exact HL].
  intros [a b] Hab. exists (Q b - Q a). split; [apply HI|exact Hab].
Qed.

Lemma gint_ext f g l : (forall x, f x = g x) -> gint f l -> gint g l.
Proof.
  intros E (Q & A & B & HQ & Hf & HA & HB & H). exists Q, A, B. split; [|split; [|split; [|split]]]; auto.
  - intros x. rewrite <- E. apply HQ.
  - intros x. apply (continuous_ext f); auto.
Qed.
Lemma gint_lin f g a b l k : gint f l -> gint g k -> gint (fun x => a * f x + b * g x) (a * l + b * k).
Proof.
  intros (Q & A & B & HQ & Hf & HA & HB & H) (Q' & A' & B' & HQ' & Hf' & HA' & HB' & H').
  exists (fun x => a * Q x + b * Q' x), (a * A + b * A'), (a * B + b * B'). split; [|split; [|split; [|split]]].
  - intros x. apply (is_derive_plus (fun x => a * Q x) (fun x => b * Q' x)).
    + apply (is_derive_scal Q x a (f x)), HQ.
    + apply (is_derive_scal Q' x b (g x)), HQ'.
  - intros x. apply (continuous_plus (fun x => a * f x) (fun x => b * g x)).
    + apply (continuous_scal_r a f), Hf.
    + apply (continuous_scal_r b g), Hf'.
  - apply (is_lim_plus' (fun x => a * Q x) (fun x => b * Q' x));
      [apply (is_lim_scal_l Q a m_infty A HA)|apply (is_lim_scal_l Q' b m_infty A' HA')].
  - apply (is_lim_plus' (fun x => a * Q x) (fun x => b * Q' x));
      [apply (is_lim_scal_l Q a p_infty B HB)|apply (is_lim_scal_l Q' b p_infty B' HB')].
  - subst. ring.
Qed.
Lemma gint_zero : gint (fun _ => 0) 0.
Proof.
  exists (fun _ => 0), 0, 0. split; [|split; [|split; [|split]]]; try apply is_lim_const; try ring.
  - intros x. apply (is_derive_const 0 x).
  - intros x. apply continuous_const.
Qed.

(** total derivative vanishing at both ends *)
Lemma gint_exact (Q f : R -> R) :
  (forall x, is_derive Q x (f x)) -> (forall x, continuous f x) ->
  is_lim Q m_infty 0 -> is_lim Q p_infty 0 -> gint f 0.
Proof. intros. exists Q, 0, 0. split; [|split; [|split; [|split]]]; auto. ring. Qed.

(** ** the normal density *)
Section Density.
Context (m v : R) (Hv : 0 < v).
Let p := normal_density m v.

Lemma p_derive (x : R) : is_derive p x (- ((x - m) / v) * p x).
Proof.
  unfold p, normal_density. pose proof PI_RGT_0.
  assert (Hs : 0 < sqrt (2 * PI * v)) by (apply sqrt_lt_R0; apply Rmult_lt_0_compat; lra).
  revert Hs. generalize (sqrt (2 * PI * v)). intros s Hs.
  auto_derive; [lra|].
  replace (- ((x + - m) * ((x + - m) * 1)) * / (2 * v)) with (- (x - m) ^ 2 / (2 * v))
    by (simpl; unfold Rdiv, Rminus; reflexivity).
  generalize (exp (- (x - m) ^ 2 / (2 * v))). intros e. field. split; lra.
Qed.
Lemma p_cont (x : R) : continuous p x.
Proof. apply (ex_derive_continuous p). eexists. apply p_derive. Qed.
Lemma p_pos x : 0 < p x.
Proof.
  unfold p, normal_density. pose proof PI_RGT_0. apply Rdiv_lt_0_compat; [apply exp_pos|].
  apply sqrt_lt_R0. apply Rmult_lt_0_compat; lra.
Qed.

Lemma is_lim_lin_p (c e : R) : 0 < c -> is_lim (fun x => c * x + e) p_infty p_infty.
Proof.
  intros Hc. evar_last.
  - apply (is_lim_plus (fun x => c * x) (fun _ => e) p_infty p_infty e).
    + evar_last; [apply (is_lim_scal_l (fun x => x) c p_infty), is_lim_id|].
      cbn. destruct (Rle_dec 0 c); [|lra]. destruct (Rle_lt_or_eq_dec 0 c r); [reflexivity|lra].
    + apply is_lim_const.
    + reflexivity.
  - reflexivity.
Qed.
Lemma is_lim_lin_m (c e : R) : 0 < c -> is_lim (fun x => c * x + e) m_infty m_infty.
Proof.
  intros Hc. evar_last.
  - apply (is_lim_plus (fun x => c * x) (fun _ => e) m_infty m_infty e).
    + evar_last; [apply (is_lim_scal_l (fun x => x) c m_infty), is_lim_id|].
      cbn. destruct (Rle_dec 0 c); [|lra]. destruct (Rle_lt_or_eq_dec 0 c r); [reflexivity|lra].
    + apply is_lim_const.
    + reflexivity.
  - reflexivity.
Qed.

Lemma p_total : gint p 1.
Proof.
  set (s := sqrt (2 * v)).
  assert (Hs : 0 < s) by (apply sqrt_lt_R0; lra).
  assert (Hss : s * s = 2 * v) by (apply sqrt_sqrt; lra).
  pose proof PI_RGT_0 as HPI.
  assert (Hsp : 0 < sqrt PI) by (apply sqrt_lt_R0; lra).
  exists (fun x => Gi (/ s * x + - m / s) / sqrt PI), (- (sqrt PI / 2) / sqrt PI), (sqrt PI / 2 / sqrt PI).
  split; [|split; [|split; [|split]]].
  - intros x. evar (l : R). replace (p x) with l.
    + unfold Rdiv at 1. apply (is_derive_ext (fun x => / sqrt PI * Gi (/ s * x + - m / s))); [intros; simpl; ring|].
      apply (is_derive_scal (fun x => Gi (/ s * x + - m / s))).
      apply (is_derive_comp Gi (fun x => / s * x + - m / s) x); [apply Gi_derive|].
      auto_derive; [exact I|]. reflexivity.
    + subst l. unfold scal; simpl; unfold mult; simpl. unfold p, normal_density, gsq.
      replace (- (/ s * x + - m / s) ^ 2) with (- (x - m) ^ 2 / (2 * v)) by (rewrite <- Hss; field; lra).
      replace (sqrt (2 * PI * v)) with (sqrt PI * s).
      * field. lra.
      * unfold s. rewrite <- sqrt_mult by lra. f_equal. ring.
  - intros x. apply p_cont.
  - apply (is_lim_ext (fun x => / sqrt PI * Gi (/ s * x + - m / s))); [intros; unfold Rdiv; ring|].
    replace (- (sqrt PI / 2) / sqrt PI) with (/ sqrt PI * (- (sqrt PI / 2))) by (field; lra).
    apply (is_lim_scal_l (fun x => Gi (/ s * x + - m / s)) (/ sqrt PI) m_infty (- (sqrt PI / 2))).
    apply (is_lim_comp Gi (fun x => / s * x + - m / s) m_infty (- (sqrt PI / 2)) m_infty).
    + apply Gi_lim_m.
    + apply is_lim_lin_m. apply Rinv_0_lt_compat, Hs.
    + exists 0. intros; discriminate.
  - apply (is_lim_ext (fun x => / sqrt PI * Gi (/ s * x + - m / s))); [intros; unfold Rdiv; ring|].
    replace (sqrt PI / 2 / sqrt PI) with (/ sqrt PI * (sqrt PI / 2)) by (field; lra).
    apply (is_lim_scal_l (fun x => Gi (/ s * x + - m / s)) (/ sqrt PI) p_infty (sqrt PI / 2)).
    apply (is_lim_comp Gi (fun x => / s * x + - m / s) p_infty (sqrt PI / 2) p_infty).
    + apply Gi_lim.
    + apply is_lim_lin_p. apply Rinv_0_lt_compat, Hs.
    + exists 0. intros; discriminate.
  - field. lra.
Qed.

(** x^k p(x) vanishes at infinity *)
Lemma exp_fact y k : 0 <= y -> y ^ k / INR (Factorial.fact k) <= exp y.
Proof.
  intros Hy. revert y Hy. induction k as [|k IH]; intros y Hy.
  - simpl. rewrite Rdiv_1. rewrite <- exp_0. destruct Hy as [Hy|<-]; [left; apply exp_increasing, Hy|lra].
  - set (h := fun y => exp y - y ^ S k / INR (Factorial.fact (S k))).
    assert (Hf : INR (Factorial.fact (S k)) = INR (S k) * INR (Factorial.fact k)).
    { rewrite <- mult_INR. reflexivity. }
    pose proof (INR_fact_lt_0 k) as Hf0. pose proof (INR_fact_lt_0 (S k)) as Hf1.
    assert (Hd : forall z : R, is_derive h z (exp z - z ^ k / INR (Factorial.fact k))).
    { intros z. unfold h. rewrite Hf.
      assert (0 < INR (S k)) by (apply lt_0_INR; lia).
      apply (is_derive_ext (fun z => exp z - / (INR (S k) * INR (Factorial.fact k)) * z ^ S k)).
      { intros t. match goal with |- ?a = ?b => change (@eq R a b) end. unfold Rdiv. ring. }
      evar_last.
      - apply (is_derive_minus exp (fun z => / (INR (S k) * INR (Factorial.fact k)) * z ^ S k)).
        + apply is_derive_exp.
        + apply (is_derive_scal (fun z => z ^ S k)).
          apply (is_derive_pow (fun z => z) (S k) z 1). apply (is_derive_id z).
      - unfold minus, plus, opp. cbn -[INR pow Factorial.fact]. unfold pred. field. split; lra. }
    destruct (MVT_gen h 0 y (fun z => exp z - z ^ k / INR (Factorial.fact k))) as (c & Hc & E).
    + intros z _. apply Hd.
    + intros z _. apply derivable_continuous_pt, ex_derive_Reals_0. eexists. apply Hd.
    + rewrite Rmin_left, Rmax_right in Hc by lra.
      specialize (IH c ltac:(lra)).
      assert (h 0 = 1). { unfold h. rewrite exp_0, pow_ne_zero by lia. unfold Rdiv. ring. }
      unfold h in E at 1. nra.
Qed.

Lemma tail_bound k : exists C, forall x, Rabs x >= 1 -> Rabs (x ^ k * p x) <= C / Rabs x.
Proof.
  (* (x-m)^2/(2v) >= |x| - c0 with c0 = |m| + v/2 *)
  pose proof PI_RGT_0 as HPI.
  assert (Hs : 0 < sqrt (2 * PI * v)) by (apply sqrt_lt_R0; apply Rmult_lt_0_compat; lra).
  set (c0 := Rabs m + v / 2).
  set (F := INR (Factorial.fact (S k))).
  exists (F * exp c0 / sqrt (2 * PI * v)). intros x Hx.
  assert (Hx0 : 0 < Rabs x) by lra.
  assert (Hq : - (x - m) ^ 2 / (2 * v) <= c0 - Rabs x).
  { assert (Hy : 0 <= (Rabs (x - m) - v) ^ 2) by apply pow2_ge_0.
    assert (Hab : Rabs x <= Rabs (x - m) + Rabs m).
    { replace x with ((x - m) + m) at 1 by ring. apply Rabs_triang. }
    assert (Hsq : Rabs (x - m) ^ 2 = (x - m) ^ 2) by (rewrite RPow_abs; apply Rabs_pos_eq, pow2_ge_0).
    assert (Hm : (2 * Rabs (x - m) - v) * v <= (x - m) ^ 2) by nra.
    apply (Rmult_le_reg_r (2 * v)); [lra|].
    unfold Rdiv. rewrite Rmult_assoc, Rinv_l, Rmult_1_r by lra.
    unfold c0. nra. }
  assert (He : exp (- (x - m) ^ 2 / (2 * v)) <= exp c0 * exp (- Rabs x)).
  { rewrite <- exp_plus. destruct Hq as [Hq|Hq]; [left; apply exp_increasing; lra|right; f_equal; lra]. }
  pose proof (exp_fact (Rabs x) (S k) ltac:(lra)) as Hf. fold F in Hf.
  assert (HF : 0 < F) by apply INR_fact_lt_0.
  assert (Hk : Rabs x ^ S k * exp (- Rabs x) <= F).
  { rewrite exp_Ropp. pose proof (exp_pos (Rabs x)).
    apply (Rmult_le_reg_r (exp (Rabs x))); [lra|].
    rewrite Rmult_assoc, Rinv_l, Rmult_1_r by lra.
    apply (Rmult_le_reg_r (/ F)); [apply Rinv_0_lt_compat; lra|].
    unfold Rdiv in Hf. rewrite (Rmult_comm F), Rmult_assoc, Rinv_r by lra. lra. }
  rewrite Rabs_mult, <- RPow_abs, (Rabs_pos_eq (p x)) by (apply Rlt_le, p_pos).
  unfold p, normal_density.
  set (s := sqrt (2 * PI * v)) in *.
  assert (Hxk : 0 <= Rabs x ^ k) by (apply pow_le; lra).
  apply (Rmult_le_reg_r (Rabs x * s)); [apply Rmult_lt_0_compat; lra|].
  replace (Rabs x ^ k * (exp (- (x - m) ^ 2 / (2 * v)) / s) * (Rabs x * s))
    with (Rabs x ^ S k * exp (- (x - m) ^ 2 / (2 * v))) by (simpl; field; lra).
  replace (F * exp c0 / s / Rabs x * (Rabs x * s)) with (F * exp c0) by (field; lra).
  pose proof (exp_pos c0). assert (0 <= Rabs x ^ S k) by (apply pow_le; lra).
  apply Rle_trans with (Rabs x ^ S k * (exp c0 * exp (- Rabs x))); [apply Rmult_le_compat_l; assumption|].
  nra.
Qed.

Lemma lim_inv_p C : is_lim (fun x => C / Rabs x) p_infty 0.
Proof.
  apply (is_lim_ext_loc (fun x => C * / x)).
  { exists 0. intros y Hy. rewrite Rabs_pos_eq by lra. reflexivity. }
  evar_last.
  - apply (is_lim_scal_l (fun x => / x) C p_infty 0).
    evar_last; [apply (is_lim_inv (fun x => x) p_infty p_infty); [apply is_lim_id|discriminate]|reflexivity].
  - cbn. f_equal. ring.
Qed.
Lemma lim_inv_m C : is_lim (fun x => C / Rabs x) m_infty 0.
Proof.
  apply (is_lim_ext (fun x => C / Rabs (- x))); [intros; rewrite Rabs_Ropp; reflexivity|].
  apply (is_lim_comp (fun x => C / Rabs x) (fun x => - x) m_infty 0 p_infty).
  - apply lim_inv_p.
  - apply (is_lim_opp (fun t => t) m_infty m_infty), is_lim_id.
  - exists 0. intros; discriminate.
Qed.

Lemma tail_lim k : is_lim (fun x => x ^ k * p x) m_infty 0 /\ is_lim (fun x => x ^ k * p x) p_infty 0.
Proof.
  destruct (tail_bound k) as [C HC]. split.
  - apply (is_lim_le_le_loc (fun x => - (C / Rabs x)) (fun x => C / Rabs x)).
    + exists (-1). intros x Hx. specialize (HC x ltac:(rewrite Rabs_left; lra)).
      apply Rabs_le_between in HC. lra.
    + replace (Finite 0) with (Rbar_opp 0) by (cbn; f_equal; ring). apply is_lim_opp, lim_inv_m.
    + apply lim_inv_m.
  - apply (is_lim_le_le_loc (fun x => - (C / Rabs x)) (fun x => C / Rabs x)).
    + exists 1. intros x Hx. specialize (HC x ltac:(rewrite Rabs_pos_eq; lra)).
      apply Rabs_le_between in HC. lra.
    + replace (Finite 0) with (Rbar_opp 0) by (cbn; f_equal; ring). apply is_lim_opp, lim_inv_p.
    + apply lim_inv_p.
Qed.

Definition mom (k : nat) (l : R) : Prop := gint (fun x => x ^ k * p x) l.

Lemma mom_0 : mom 0 1.
Proof. apply (gint_ext p); [intros; simpl; ring|apply p_total]. Qed.

Lemma xkp_derive k (x : R) :
  is_derive (fun x => x ^ k * p x) x (INR k * x ^ pred k * p x - x ^ k * ((x - m) / v) * p x).
Proof.
  evar_last.
  - apply (is_derive_mult (fun x => x ^ k) p x); [|apply p_derive|intros; apply Rmult_comm].
    apply (is_derive_pow (fun x => x) k x 1). apply (is_derive_id x).
  - unfold plus, mult; simpl. ring.
Qed.
Lemma xkp_cont k x : continuous (fun x => x ^ k * p x) x.
Proof. apply (ex_derive_continuous (fun x => x ^ k * p x)). eexists. apply xkp_derive. Qed.

(** integration by parts *)
Lemma mom_rec k a b : (k = 0%nat \/ mom (pred k) a) -> mom k b -> mom (S k) (m * b + v * INR k * a).
Proof.
  intros Ha Hb.
  assert (H0 : gint (fun x => INR k * x ^ pred k * p x - x ^ k * ((x - m) / v) * p x) 0).
  { apply (gint_exact (fun x => x ^ k * p x)).
    - apply xkp_derive.
    - intros x. apply (ex_derive_continuous (fun x => INR k * x ^ pred k * p x - x ^ k * ((x - m) / v) * p x)).
      pose proof (p_derive x) as Hp.
      assert (ex_derive p x) by (eexists; apply Hp).
      auto_derive. repeat split; auto.
    - apply tail_lim.
    - apply tail_lim. }
  assert (Ha' : gint (fun x => INR k * (x ^ pred k * p x)) (INR k * a)).
  { destruct Ha as [->|Ha].
    - apply (gint_ext (fun _ => 0)); [intros; simpl; ring|].
      replace (INR 0 * a) with 0 by (simpl; ring). apply gint_zero.
    - apply (gint_ext (fun x => INR k * (x ^ pred k * p x) + 0 * 0)); [intros; ring|].
      replace (INR k * a) with (INR k * a + 0 * 0) by ring.
      apply (gint_lin (fun x => x ^ pred k * p x) (fun _ => 0)); [exact Ha|apply gint_zero]. }
  (* x^{k+1} p = m x^k p + v k x^{k-1} p - v (x^k p)' *)
  apply (gint_ext (fun x => 1 * (m * (x ^ k * p x) + v * (INR k * (x ^ pred k * p x))) +
                  (- v) * (INR k * x ^ pred k * p x - x ^ k * ((x - m) / v) * p x))).
  { intros x. simpl pow. field. lra. }
  replace (m * b + v * INR k * a) with (1 * (m * b + v * (INR k * a)) + (- v) * 0) by ring.
  apply gint_lin; [|exact H0]. apply gint_lin; [exact Hb|exact Ha'].
Qed.
End Density.
