(** * Normal expectations: monotonicity, existence for bounded functions, Jensen's inequality. *)
From Coq Require Import Reals Lra Lia Arith Bool List.
From Coquelicot Require Import Coquelicot.
From Verif Require Import Num Arr Spec_Utils Spec_Gauss Spec_Prior P_Gauss P_GaussN P_Expect P_Prior.
Import ListNotations.
Local Open Scope R_scope.

Lemma E_normal_one m v : 0 < v -> E_normal m v (fun _ => 1) 1.
Proof.
  intros Hv. apply gint_RInt_gen. apply (gint_ext (normal_density m v)); [intros; ring|]. apply p_total, Hv.
Qed.
Lemma E_normal_nonneg m v g l : 0 < v -> (forall x, 0 <= g x) -> E_normal m v g l -> 0 <= l.
Proof.
  intros Hv Hg H. unfold E_normal in H.
  assert (Q : norm l <= l).
  { apply (RInt_gen_norm (V := R_CompleteNormedModule) (Fa := Rbar_locally m_infty) (Fb := Rbar_locally p_infty)
      (fun x => g x * normal_density m v x) (fun x => g x * normal_density m v x) l l).
    - apply (Filter_prod _ _ _ (fun x => x < 0) (fun x => 0 < x)); [exists 0; auto|exists 0; auto|]. cbn. intros; lra.
    - apply (Filter_prod _ _ _ (fun x => x < 0) (fun x => 0 < x)); [exists 0; auto|exists 0; auto|]. intros a b _ _ x _. cbn [fst snd] in *.
      change (norm (g x * normal_density m v x)) with (Rabs (g x * normal_density m v x)).
      rewrite Rabs_pos_eq; [apply Rle_refl|]. apply Rmult_le_pos; [apply Hg|left; apply normal_density_pos, Hv].
    - exact H.
    - exact H. }
  change (norm l) with (Rabs l) in Q. pose proof (Rabs_pos l). lra.
Qed.
Lemma E_normal_le m v f g k l : 0 < v -> (forall x, f x <= g x) -> E_normal m v f k -> E_normal m v g l -> k <= l.
Proof.
  intros Hv Hg Hf H. pose proof (E_normal_lin m v g f 1 (-1) l k H Hf) as Q.
  apply E_normal_nonneg in Q; [lra|exact Hv|]. intros x. specialize (Hg x). lra.
Qed.
Lemma E_normal_dens m v m' v' g g' l : (forall x, g x * normal_density m v x = g' x * normal_density m' v' x) ->
  E_normal m v g l -> E_normal m' v' g' l.
Proof. intros E H. unfold E_normal in *. eapply is_RInt_gen_ext; [|exact H]. apply filter_forall. intros ab x _. apply E. Qed.

Lemma exp_ge y : 1 + y <= exp y.
Proof. destruct (Req_dec y 0) as [->|N]; [rewrite exp_0; lra|]. left. apply exp_ineq1. exact N. Qed.

(** Jensen's inequality, with a change from the law N(mp,vp) to N(mq,vq) *)
Lemma jensen mp vp mq vq w U e c : 0 < vp -> 0 < vq -> E_normal mp vp w e -> (forall x, exp (- U x) <= w x) ->
  E_normal mq vq (fun x => U x + ln (normal_density mq vq x / normal_density mp vp x)) c -> exp (- c) <= e.
Proof.
  intros Hp Hq Hw HU Hc.
  set (h := fun x => U x + ln (normal_density mq vq x / normal_density mp vp x)) in *.
  assert (H1 : E_normal mq vq (fun x => w x * (normal_density mp vp x / normal_density mq vq x)) e).
  { apply (E_normal_dens mp vp mq vq w); [|exact Hw]. intros x. pose proof (normal_density_pos mq vq x Hq). field. lra. }
  pose proof (E_normal_lin mq vq (fun _ => 1) h (exp (- c) * (1 + c)) (- exp (- c)) 1 c (E_normal_one mq vq Hq) Hc) as H2.
  replace (exp (- c)) with (exp (- c) * (1 + c) * 1 + - exp (- c) * c) by ring.
  apply (E_normal_le mq vq _ _ _ _ Hq) with (2 := H2) (3 := H1). intros x. cbv beta.
  pose proof (normal_density_pos mq vq x Hq) as P1. pose proof (normal_density_pos mp vp x Hp) as P2.
  apply Rle_trans with (exp (- U x) * (normal_density mp vp x / normal_density mq vq x)).
  - replace (normal_density mp vp x / normal_density mq vq x) with (exp (- ln (normal_density mq vq x / normal_density mp vp x))).
    + rewrite <- exp_plus. replace (- U x + - ln (normal_density mq vq x / normal_density mp vp x)) with (- c + (c - h x)) by (unfold h; ring).
      rewrite exp_plus. pose proof (exp_ge (c - h x)). pose proof (exp_pos (- c)). nra.
    + rewrite exp_Ropp, exp_ln by (apply Rdiv_lt_0_compat; assumption). field. lra.
  - apply Rmult_le_compat_r; [left; apply Rdiv_lt_0_compat; assumption|apply HU].
Qed.

(** ** existence for bounded nonnegative continuous functions *)
Lemma mono_lim_p (Q : R -> R) B : (forall x y, x <= y -> Q x <= Q y) -> (forall x, Q x <= B) -> exists l : R, is_lim Q p_infty l.
Proof.
  intros Hm Hb. destruct (completeness (fun y => exists x, y = Q x)) as (l & Hu & Hl).
  - exists B. intros y (x & ->). apply Hb.
  - exists (Q 0), 0. reflexivity.
  - exists l. apply is_lim_spec. intros eps. assert (exists x, l - eps < Q x) as (x & Hx).
    { destruct (Classical_Prop.classic (exists x, l - eps < Q x)) as [E|N]; [exact E|]. exfalso.
      assert (l <= l - eps). { apply Hl. intros y (x & ->). apply Rnot_lt_le. intros C. apply N. exists x. exact C. }
      destruct eps as [e He]. cbn in *. lra. }
    exists x. intros y Hy. assert (Q x <= Q y) by (apply Hm; lra). assert (Q y <= l) by (apply Hu; exists y; reflexivity).
    apply Rabs_def1; destruct eps as [e He]; cbn in *; lra.
Qed.
Lemma mono_lim_m (Q : R -> R) B : (forall x y, x <= y -> Q x <= Q y) -> (forall x, B <= Q x) -> exists l : R, is_lim Q m_infty l.
Proof.
  intros Hm Hb. destruct (mono_lim_p (fun x => - Q (- x)) (- B)) as (l & Hl).
  - intros x y Hxy. assert (Q (- y) <= Q (- x)) by (apply Hm; lra). lra.
  - intros x. specialize (Hb (- x)). lra.
  - exists (- l). apply (is_lim_ext (fun x => - (- Q (- - x)))).
    + intros x. rewrite !Ropp_involutive. reflexivity.
    + apply (is_lim_opp (fun x => - Q (- - x)) m_infty l).
      apply (is_lim_comp (fun x => - Q (- x)) (fun x => - x) m_infty l p_infty); [exact Hl| |].
      * apply (is_lim_opp (fun x => x) m_infty m_infty). apply is_lim_id.
      * exists 0. intros; discriminate.
Qed.

Lemma E_normal_bounded m v (w : R -> R) M : 0 < v -> (forall x, continuous w x) -> (forall x, 0 <= w x <= M) ->
  exists e, E_normal m v w e /\ 0 <= e <= M.
Proof.
  intros Hv Hc Hb.
  assert (Hf : forall x, continuous (fun x => w x * normal_density m v x) x).
  { intros x. apply (continuous_mult w (normal_density m v)); [apply Hc|apply p_cont, Hv]. }
  destruct (p_total m v Hv) as (Qp & A & B & HQ & Hpc & HA & HB & _).
  pose (Q := (fun x => RInt (fun x => w x * normal_density m v x) 0 x) : R -> R).
  assert (DQ : forall x : R, is_derive Q x (w x * normal_density m v x)).
  { intros x. apply (is_derive_RInt (fun x => w x * normal_density m v x) Q 0 x).
    - apply filter_forall. intros y. apply (RInt_correct (V := R_CompleteNormedModule)). apply ex_RInt_R. exact Hf.
    - apply Hf. }
  assert (DD : forall f (F : R -> R) , (forall x : R, is_derive F x (f x)) -> (forall x, 0 <= f x) -> forall x y, x <= y -> F x <= F y).
  { intros f F HF H0 x y Hxy. destruct (MVT_gen F x y f) as (c & _ & E).
    - intros; apply HF.
    - intros z _. apply continuity_pt_filterlim. apply (ex_derive_continuous F). eexists; apply HF.
    - specialize (H0 c). assert (0 <= f c * (y - x)) by (apply Rmult_le_pos; lra). lra. }
  assert (Mq : forall x y, x <= y -> Q x <= Q y).
  { apply (DD _ _ DQ). intros x. apply Rmult_le_pos; [apply Hb|left; apply normal_density_pos, Hv]. }
  assert (M0 : 0 <= M) by (specialize (Hb 0); lra).
  assert (Mp : forall x y, x <= y -> Qp x <= Qp y).
  { apply (DD _ _ HQ). intros x. left. apply normal_density_pos, Hv. }
  assert (MD : forall x y, x <= y -> M * Qp x - Q x <= M * Qp y - Q y).
  { apply (DD (fun x => M * normal_density m v x - w x * normal_density m v x) (fun x => M * Qp x - Q x)).
    - intros x. apply (is_derive_minus (fun x => M * Qp x) Q); [apply (is_derive_scal Qp), HQ|apply DQ].
    - intros x. specialize (Hb x). pose proof (normal_density_pos m v x Hv). nra. }
  assert (Q0 : Q 0 = 0) by exact (RInt_point (V := R_CompleteNormedModule) 0 (fun x => w x * normal_density m v x)).
  assert (BB : forall x, A <= Qp x <= B).
  { intros x. split.
    - apply (is_lim_le_loc Qp (fun _ => Qp x) m_infty A (Qp x)); [|exact HA|apply is_lim_const].
      exists x. intros y Hy. apply Mp; lra.
    - apply (is_lim_le_loc (fun _ => Qp x) Qp p_infty (Qp x) B); [|apply is_lim_const|exact HB].
      exists x. intros y Hy. apply Mp; lra. }
  destruct (mono_lim_p Q (M * (B - Qp 0))) as (b & Hlb).
  { exact Mq. }
  { intros x. destruct (Rle_or_lt 0 x) as [H|H].
    - pose proof (MD 0 x H). pose proof (BB x). nra.
    - assert (Q x <= Q 0) by (apply Mq; lra). pose proof (BB 0). nra. }
  destruct (mono_lim_m Q (M * (A - Qp 0))) as (a & Hla).
  { exact Mq. }
  { intros x. destruct (Rle_or_lt 0 x) as [H|H].
    - assert (Q 0 <= Q x) by (apply Mq; lra). pose proof (BB 0). nra.
    - pose proof (MD x 0 ltac:(lra)). pose proof (BB x). nra. }
  assert (E : E_normal m v w (b - a)).
  { apply gint_RInt_gen. exists Q, a, b. split; [exact DQ|]. split; [exact Hf|]. split; [exact Hla|]. split; [exact Hlb|reflexivity]. }
  exists (b - a). split; [exact E|]. split.
  - apply (E_normal_nonneg m v w); [exact Hv|apply Hb|exact E].
  - replace M with (M * 1 + 0 * 1) by ring.
    apply (E_normal_le m v w (fun x => M * 1 + 0 * 1) _ _ Hv); [intros x; specialize (Hb x); lra|exact E|].
    apply (E_normal_lin m v (fun _ => 1) (fun _ => 1)); apply E_normal_one, Hv.
Qed.

(** continuity in the mean *)
Lemma E_ratio m1 m2 v : 0 < v -> E_normal m2 v (fun x => normal_density m1 v x / normal_density m2 v x) 1.
Proof.
  intros Hv. apply (E_normal_dens m1 v m2 v (fun _ => 1)); [|apply E_normal_one, Hv].
  intros x. pose proof (normal_density_pos m2 v x Hv). field. lra.
Qed.
Lemma E_ratio2 m1 m2 v : 0 < v -> E_normal m2 v (fun x => (normal_density m1 v x / normal_density m2 v x) ^ 2) (exp ((m1 - m2) ^ 2 / v)).
Proof.
  intros Hv. apply (E_normal_dens (2 * m1 - m2) v m2 v (fun _ => exp ((m1 - m2) ^ 2 / v) * 1 + 0 * 1)).
  - intros x. pose proof (normal_density_pos m2 v x Hv) as P. unfold normal_density in *. pose proof PI_RGT_0.
    assert (Hs : 0 < sqrt (2 * PI * v)) by (apply sqrt_lt_R0; apply Rmult_lt_0_compat; lra).
    set (q := sqrt (2 * PI * v)) in *.
    replace (- (x - m2) ^ 2 / (2 * v)) with (- ((x - m2) ^ 2 / (2 * v))) by (field; lra).
    rewrite exp_Ropp. pose proof (exp_pos ((x - m2) ^ 2 / (2 * v))) as P2.
    replace (- (x - (2 * m1 - m2)) ^ 2 / (2 * v)) with (- (x - m1) ^ 2 / (2 * v) + - (x - m1) ^ 2 / (2 * v) + (x - m2) ^ 2 / (2 * v) + - ((m1 - m2) ^ 2 / v))
      by (field; lra).
    rewrite !exp_plus, exp_Ropp. pose proof (exp_pos ((m1 - m2) ^ 2 / v)). field. lra.
  - refine (eq_ind _ (fun z => E_normal _ _ _ z) (E_normal_lin (2 * m1 - m2) v (fun _ => 1) (fun _ => 1) (exp ((m1 - m2) ^ 2 / v)) 0 1 1 _ _) _ _);
      [apply E_normal_one, Hv|apply E_normal_one, Hv|ring].
Qed.
Lemma E_mean_diff m1 m2 v w M e1 e2 eta : 0 < v -> (forall x, 0 <= w x <= M) -> E_normal m1 v w e1 -> E_normal m2 v w e2 -> 0 < eta ->
  Rabs (e1 - e2) <= M * (eta / 2 + (exp ((m1 - m2) ^ 2 / v) - 1) / (2 * eta)).
Proof.
  intros Hv Hb H1 H2 He. set (rho := fun x => normal_density m1 v x / normal_density m2 v x).
  assert (D : E_normal m2 v (fun x => w x * rho x) e1).
  { apply (E_normal_dens m1 v m2 v w); [|exact H1]. intros x. unfold rho. pose proof (normal_density_pos m2 v x Hv). field. lra. }
  pose proof (E_normal_lin m2 v (fun x => w x * rho x) w 1 (-1) e1 e2 D H2) as D1.
  pose proof (E_normal_lin m2 v (fun x => w x * rho x) w (-1) 1 e1 e2 D H2) as D1'.
  pose proof (E_normal_lin m2 v rho (fun _ => 1) (- (M / eta)) (M * (eta / 2 + / (2 * eta))) 1 1 (E_ratio m1 m2 v Hv) (E_normal_one m2 v Hv)) as D2.
  pose proof (E_normal_lin m2 v _ (fun x => rho x ^ 2) 1 (M / (2 * eta)) _ _ D2 (E_ratio2 m1 m2 v Hv)) as D3. cbv beta in D3.
  assert (M0 : 0 <= M) by (specialize (Hb 0); lra).
  assert (K : forall x, Rabs (w x * rho x - w x) <= M * (eta / 2 + (rho x - 1) ^ 2 / (2 * eta))).
  { intros x. replace (w x * rho x - w x) with (w x * (rho x - 1)) by ring. rewrite Rabs_mult.
    specialize (Hb x). rewrite (Rabs_pos_eq (w x)) by lra. apply Rmult_le_compat; [lra|apply Rabs_pos|lra|].
    apply Rmult_le_reg_r with (2 * eta); [lra|].
    replace ((eta / 2 + (rho x - 1) ^ 2 / (2 * eta)) * (2 * eta)) with (eta ^ 2 + (rho x - 1) ^ 2) by (field; lra).
    rewrite <- (pow2_abs (rho x - 1)). pose proof (pow2_ge_0 (eta - Rabs (rho x - 1))). nra. }
  replace (M * (eta / 2 + (exp ((m1 - m2) ^ 2 / v) - 1) / (2 * eta))) with
    (1 * (- (M / eta) * 1 + M * (eta / 2 + / (2 * eta)) * 1) + M / (2 * eta) * exp ((m1 - m2) ^ 2 / v)) by (field; lra).
  set (top := 1 * (- (M / eta) * 1 + M * (eta / 2 + / (2 * eta)) * 1) + M / (2 * eta) * exp ((m1 - m2) ^ 2 / v)) in *.
  assert (G : forall x, M * (eta / 2 + (rho x - 1) ^ 2 / (2 * eta)) =
    1 * (- (M / eta) * rho x + M * (eta / 2 + / (2 * eta)) * 1) + M / (2 * eta) * rho x ^ 2) by (intros x; field; lra).
  apply Rabs_le. split.
  - assert (-1 * e1 + 1 * e2 <= top); [|lra]. apply (E_normal_le m2 v _ _ _ _ Hv) with (2 := D1') (3 := D3). intros x. rewrite <- G.
    specialize (K x). apply Rabs_le_between in K. lra.
  - assert (1 * e1 + -1 * e2 <= top); [|lra]. apply (E_normal_le m2 v _ _ _ _ Hv) with (2 := D1) (3 := D3). intros x. rewrite <- G.
    specialize (K x). apply Rabs_le_between in K. lra.
Qed.
Lemma E_mean_cont v w M (T : R -> R) : 0 < v -> (forall x, 0 <= w x <= M) -> (forall m, E_normal m v w (T m)) -> forall m, continuous T m.
Proof.
  intros Hv Hb HT m. apply filterlim_locally. intros eps. destruct eps as [eps He].
  assert (M0 : 0 <= M) by (specialize (Hb 0); lra).
  set (eta := eps / (M + 1)). assert (Heta : 0 < eta) by (apply Rdiv_lt_0_compat; lra).
  assert (C : continuous (fun m' => exp ((m' - m) ^ 2 / v)) m).
  { apply (ex_derive_continuous (fun m' => exp ((m' - m) ^ 2 / v))). auto_derive. lra. }
  assert (H2 : 0 < eta ^ 2) by (apply pow_lt; exact Heta).
  apply filterlim_locally with (eps := mkposreal _ H2) in C. cbn [pos] in C.
  apply (filter_imp (fun m' => ball (exp ((m - m) ^ 2 / v)) (mkposreal (eta ^ 2) H2) (exp ((m' - m) ^ 2 / v)))); [|exact C].
  intros m' Hm'. change (Rabs (exp ((m' - m) ^ 2 / v) - exp ((m - m) ^ 2 / v)) < eta ^ 2) in Hm'.
  replace ((m - m) ^ 2 / v) with 0 in Hm' by (field; lra). rewrite exp_0 in Hm'. apply Rabs_lt_between in Hm'.
  change (Rabs (T m' - T m) < eps).
  apply Rle_lt_trans with (1 := E_mean_diff m' m v w M _ _ eta Hv Hb (HT m') (HT m) Heta).
  apply Rle_lt_trans with (M * (eta / 2 + eta ^ 2 / (2 * eta))).
  - apply Rmult_le_compat_l; [exact M0|]. apply Rplus_le_compat_l. apply Rmult_le_compat_r; [left; apply Rinv_0_lt_compat; lra|lra].
  - replace (M * (eta / 2 + eta ^ 2 / (2 * eta))) with (M * eta) by (field; lra).
    assert (E : eps = (M + 1) * eta) by (unfold eta; field; lra). rewrite E. nra.
Qed.
