(** * First-order expansions: polynomials, linear equations, the adjoint identity with jumps. *)
From Coq Require Import List Reals Lra Lia Psatz.
From Coquelicot Require Import Coquelicot.
From Verif Require Import Num Arr ArrFacts Spec_Utils Spec_TimeVar P_TimeVar P_Limit1.
Import ListNotations.
Local Open Scope R_scope.

(** ** polynomials *)
Inductive pe := Pc (c : R) | Pv (i : nat) | Padd (p q : pe) | Pmul (p q : pe).
Fixpoint pev (p : pe) (x : nat -> R) : R :=
  match p with Pc c => c | Pv i => x i | Padd p q => pev p x + pev q x | Pmul p q => pev p x * pev q x end.
(** derivative at x in the direction d *)
Fixpoint pdir (p : pe) (x d : nat -> R) : R :=
  match p with Pc _ => 0 | Pv i => d i | Padd p q => pdir p x d + pdir q x d
             | Pmul p q => pdir p x d * pev q x + pev p x * pdir q x d end.

Lemma pe_bdd p B : 0 <= B -> exists C, 0 <= C /\ forall x, (forall i, Rabs (x i) <= B) -> Rabs (pev p x) <= C.
Proof.
  intros HB. induction p as [c|i|p (C & C0 & HC) q (D & D0 & HD)|p (C & C0 & HC) q (D & D0 & HD)].
  - exists (Rabs c). split; [apply Rabs_pos|]. intros; cbn; lra.
  - exists B. split; [exact HB|]. intros x Hx. apply Hx.
  - exists (C + D). split; [lra|]. intros x Hx. cbn. eapply Rle_trans; [apply Rabs_triang|]. specialize (HC x Hx). specialize (HD x Hx). lra.
  - exists (C * D). split; [apply Rmult_le_pos; auto|]. intros x Hx. cbn. rewrite Rabs_mult. apply Rmult_le_compat; auto using Rabs_pos.
Qed.
Lemma pe_dbdd p B D : 0 <= B -> 0 <= D -> exists C, 0 <= C /\ forall x d, (forall i, Rabs (x i) <= B) -> (forall i, Rabs (d i) <= D) -> Rabs (pdir p x d) <= C.
Proof.
  intros HB HD. induction p as [c|i|p (C & C0 & HC) q (E & E0 & HE)|p (C & C0 & HC) q (E & E0 & HE)].
  - exists 0. split; [lra|]. intros; cbn. rewrite Rabs_R0. lra.
  - exists D. split; [exact HD|]. intros x d Hx Hd. apply Hd.
  - exists (C + E). split; [lra|]. intros x d Hx Hd. cbn. eapply Rle_trans; [apply Rabs_triang|]. specialize (HC x d Hx Hd). specialize (HE x d Hx Hd). lra.
  - destruct (pe_bdd p B HB) as (P & P0 & HP). destruct (pe_bdd q B HB) as (Q & Q0 & HQ).
    exists (C * Q + P * E). split; [apply Rplus_le_le_0_compat; apply Rmult_le_pos; auto|]. intros x d Hx Hd. cbn.
    eapply Rle_trans; [apply Rabs_triang|]. rewrite !Rabs_mult. apply Rplus_le_compat; apply Rmult_le_compat; auto using Rabs_pos.
Qed.
Lemma pe_lip p B : 0 <= B -> exists C, 0 <= C /\ forall x y e, 0 <= e <= 1 -> (forall i, Rabs (x i) <= B) -> (forall i, Rabs (y i - x i) <= e) ->
  Rabs (pev p y - pev p x) <= C * e.
Proof.
  intros HB. induction p as [c|i|p (C & C0 & HC) q (D & D0 & HD)|p (C & C0 & HC) q (D & D0 & HD)].
  - exists 0. split; [lra|]. intros; cbn. replace (c - c) with 0 by ring. rewrite Rabs_R0. lra.
  - exists 1. split; [lra|]. intros x y e _ _ H. cbn. rewrite Rmult_1_l. apply H.
  - exists (C + D). split; [lra|]. intros x y e He Hx H. cbn.
    replace (pev p y + pev q y - (pev p x + pev q x)) with ((pev p y - pev p x) + (pev q y - pev q x)) by ring.
    eapply Rle_trans; [apply Rabs_triang|]. specialize (HC x y e He Hx H). specialize (HD x y e He Hx H). lra.
  - destruct (pe_bdd p (B + 1) ltac:(lra)) as (P & P0 & HP). destruct (pe_bdd q B HB) as (Q & Q0 & HQ).
    exists (P * D + C * Q). split; [apply Rplus_le_le_0_compat; apply Rmult_le_pos; auto|]. intros x y e He Hx H. cbn.
    replace (pev p y * pev q y - pev p x * pev q x) with (pev p y * (pev q y - pev q x) + (pev p y - pev p x) * pev q x) by ring.
    assert (Hy : forall i, Rabs (y i) <= B + 1).
    { intros i. replace (y i) with ((y i - x i) + x i) by ring. eapply Rle_trans; [apply Rabs_triang|]. specialize (H i). specialize (Hx i). lra. }
    eapply Rle_trans; [apply Rabs_triang|]. rewrite !Rabs_mult.
    assert (Rabs (pev p y) * Rabs (pev q y - pev q x) <= P * (D * e)) by (apply Rmult_le_compat; auto using Rabs_pos).
    assert (Rabs (pev p y - pev p x) * Rabs (pev q x) <= C * e * Q) by (apply Rmult_le_compat; auto using Rabs_pos). lra.
Qed.
(** second order: y = x + e d + O(e^2) *)
Lemma pe_quad p B D Q : 0 <= B -> 0 <= D -> 0 <= Q -> exists C, 0 <= C /\ forall x d y e, Rabs e <= 1 ->
  (forall i, Rabs (x i) <= B) -> (forall i, Rabs (d i) <= D) -> (forall i, Rabs (y i - x i - e * d i) <= Q * e ^ 2) ->
  Rabs (pev p y - pev p x - e * pdir p x d) <= C * e ^ 2.
Proof.
  intros HB HD HQ. induction p as [c|i|p (C & C0 & HC) q (E & E0 & HE)|p (C & C0 & HC) q (E & E0 & HE)].
  - exists 0. split; [lra|]. intros; cbn. replace (c - c - e * 0) with 0 by ring. rewrite Rabs_R0. lra.
  - exists Q. split; [exact HQ|]. intros x d y e _ _ _ H. apply H.
  - exists (C + E). split; [lra|]. intros x d y e He Hx Hd H. cbn [pev pdir].
    replace (pev p y + pev q y - (pev p x + pev q x) - e * (pdir p x d + pdir q x d)) with ((pev p y - pev p x - e * pdir p x d) + (pev q y - pev q x - e * pdir q x d)) by ring.
    eapply Rle_trans; [apply Rabs_triang|]. specialize (HC x d y e He Hx Hd H). specialize (HE x d y e He Hx Hd H). lra.
  - destruct (pe_bdd q B HB) as (Bq & Bq0 & HBq). destruct (pe_bdd p B HB) as (Bp & Bp0 & HBp).
    destruct (pe_dbdd p B D HB HD) as (Dp & Dp0 & HDp). destruct (pe_dbdd q B D HB HD) as (Dq & Dq0 & HDq).
    exists ((Bp + Dp + C) * E + C * (Bq + Dq) + Dp * Dq).
    split; [repeat apply Rplus_le_le_0_compat; apply Rmult_le_pos; lra|]. intros x d y e He Hx Hd H. cbn [pev pdir].
    specialize (HC x d y e He Hx Hd H). specialize (HE x d y e He Hx Hd H).
    specialize (HBp x Hx). specialize (HBq x Hx). specialize (HDp x d Hx Hd). specialize (HDq x d Hx Hd).
    set (rp := pev p y - pev p x - e * pdir p x d) in *. set (rq := pev q y - pev q x - e * pdir q x d) in *.
    replace (pev p y * pev q y - pev p x * pev q x - e * (pdir p x d * pev q x + pev p x * pdir q x d))
      with ((pev p x + e * pdir p x d + rp) * rq + rp * (pev q x + e * pdir q x d) + e ^ 2 * (pdir p x d * pdir q x d))
      by (unfold rp, rq; ring).
    assert (He2 : e ^ 2 <= 1). { rewrite <- pow2_abs. replace 1 with (1 ^ 2) by ring. apply pow_incr. split; [apply Rabs_pos|exact He]. }
    pose proof (pow2_ge_0 e) as He0.
    assert (Hep : forall z w, Rabs z <= w -> Rabs (e * z) <= w).
    { intros z w Hz. rewrite Rabs_mult. pose proof (Rabs_pos z). assert (Rabs e * Rabs z <= 1 * Rabs z) by (apply Rmult_le_compat_r; auto). lra. }
    assert (A1 : Rabs (pev p x + e * pdir p x d + rp) <= Bp + Dp + C).
    { eapply Rle_trans; [apply Rabs_triang|]. assert (C * e ^ 2 <= C * 1) by (apply Rmult_le_compat_l; auto).
      assert (Rabs (pev p x + e * pdir p x d) <= Bp + Dp) by (eapply Rle_trans; [apply Rabs_triang|]; pose proof (Hep _ _ HDp); lra). lra. }
    assert (A2 : Rabs (pev q x + e * pdir q x d) <= Bq + Dq) by (eapply Rle_trans; [apply Rabs_triang|]; pose proof (Hep _ _ HDq); lra).
    eapply Rle_trans; [apply Rabs_triang|]. eapply Rle_trans; [apply Rplus_le_compat_r, Rabs_triang|]. rewrite !Rabs_mult.
    rewrite (Rabs_pos_eq (e ^ 2)) by exact He0.
    assert (Rabs (pev p x + e * pdir p x d + rp) * Rabs rq <= (Bp + Dp + C) * (E * e ^ 2)) by (apply Rmult_le_compat; auto using Rabs_pos).
    assert (Rabs rp * Rabs (pev q x + e * pdir q x d) <= C * e ^ 2 * (Bq + Dq)) by (apply Rmult_le_compat; auto using Rabs_pos).
    assert (e ^ 2 * (Rabs (pdir p x d) * Rabs (pdir q x d)) <= e ^ 2 * (Dp * Dq)).
    { apply Rmult_le_compat_l; auto. apply Rmult_le_compat; auto using Rabs_pos. }
    lra.
Qed.
Lemma pe_smooth k T p (x : R -> nat -> R) : (forall i, smooth k T (fun t => x t i)) -> smooth k T (fun t => pev p (x t)).
Proof.
  intros H. induction p; cbn.
  - apply smooth_const.
  - apply H.
  - apply smooth_plus; auto.
  - apply smooth_mult; auto.
Qed.
Lemma pe_cont p (x : R -> nat -> R) t : (forall i, continuous (fun t => x t i) t) -> continuous (fun t => pev p (x t)) t.
Proof.
  intros H. induction p; cbn.
  - apply continuous_const.
  - apply H.
  - apply (continuous_plus (fun t => pev p1 (x t)) (fun t => pev p2 (x t))); auto.
  - apply (continuous_mult (fun t => pev p1 (x t)) (fun t => pev p2 (x t))); auto.
Qed.
Lemma pe_dir p x d : is_derive (fun h => pev p (fun i => x i + h * d i)) 0 (pdir p x d).
Proof.
  assert (E : forall q, pev q (fun i => x i + 0 * d i) = pev q x).
  { induction q; cbn; auto; try congruence. ring. }
  induction p; cbn.
  - apply @is_derive_const.
  - auto_derive; auto. ring.
  - apply (is_derive_plus (fun h => pev p1 (fun i => x i + h * d i)) (fun h => pev p2 (fun i => x i + h * d i))); auto.
  - rewrite <- (E p1), <- (E p2). apply (is_derive_mult (fun h => pev p1 (fun i => x i + h * d i)) (fun h => pev p2 (fun i => x i + h * d i))); auto.
    intros; apply Rmult_comm.
Qed.

(** ** derivative from a quadratic remainder *)
Lemma derive_quad (F : R -> R) D C : (forall e, Rabs e <= 1 -> Rabs (F e - F 0 - e * D) <= C * e ^ 2) -> is_derive F 0 D.
Proof.
  intros H. apply is_derive_Reals. intros eps Heps.
  assert (C0 : 0 <= C). { specialize (H 1 ltac:(rewrite Rabs_R1; lra)). pose proof (Rabs_pos (F 1 - F 0 - 1 * D)). lra. }
  assert (P : 0 < Rmin 1 (eps / (C + 1))) by (apply Rmin_pos; [lra|apply Rdiv_lt_0_compat; lra]).
  exists (mkposreal _ P). intros h Hh Hb. cbn in Hb. rewrite Rplus_0_l.
  assert (H1 : Rabs h < 1) by (eapply Rlt_le_trans; [exact Hb|apply Rmin_l]).
  assert (H2 : Rabs h < eps / (C + 1)) by (eapply Rlt_le_trans; [exact Hb|apply Rmin_r]).
  specialize (H h ltac:(lra)).
  replace ((F h - F 0) / h - D) with ((F h - F 0 - h * D) / h) by (field; exact Hh).
  unfold Rdiv. rewrite Rabs_mult, Rabs_inv. pose proof (Rabs_pos_lt h Hh) as Hp.
  apply Rmult_lt_reg_r with (Rabs h); [exact Hp|]. rewrite Rmult_assoc, Rinv_l, Rmult_1_r by lra.
  eapply Rle_lt_trans; [exact H|]. rewrite <- pow2_abs. simpl. rewrite Rmult_1_r, <- Rmult_assoc. apply Rmult_lt_compat_r; [exact Hp|].
  apply (Rmult_lt_compat_r (C + 1)) in H2; [|lra]. unfold Rdiv in H2. rewrite Rmult_assoc, Rinv_l, Rmult_1_r in H2 by lra. lra.
Qed.

(** ** linear equations with a perturbed right-hand side *)
Section Lin.
Context (T : R) (HT : 0 <= T) (p p1 q q1 y mu : R -> R) (Y : R -> R -> R).
Context (Dy : forall t, 0 <= t <= T -> is_derive y t (p t * y t + q t)).
Context (DY : forall e t, 0 <= t <= T -> is_derive (Y e) t ((p t + e * p1 t) * Y e t + (q t + e * q1 t))).
Context (Dm : forall t, 0 <= t <= T -> is_derive mu t (p t * mu t + (p1 t * y t + q1 t))).
Context (Y0 : forall e, Y e 0 = y 0) (M0 : mu 0 = 0).
Context (Bp : exists M, forall t, 0 <= t <= T -> Rabs (p t) <= M) (Bp1 : exists M, forall t, 0 <= t <= T -> Rabs (p1 t) <= M)
  (Bq1 : exists M, forall t, 0 <= t <= T -> Rabs (q1 t) <= M).
Lemma lin_exp : exists C, 0 <= C /\ forall e t, Rabs e <= 1 -> 0 <= t <= T -> Rabs (Y e t - y t - e * mu t) <= C * e ^ 2.
Proof.
  destruct Bp as (P & HP), Bp1 as (P1 & HP1), Bq1 as (Q1 & HQ1). destruct (derive_bdd T y _ HT Dy) as (Z & HZ).
  assert (P0 : 0 <= P) by (eapply Rle_trans; [apply Rabs_pos|apply (HP 0); lra]).
  assert (P10 : 0 <= P1) by (eapply Rle_trans; [apply Rabs_pos|apply (HP1 0); lra]).
  assert (Q10 : 0 <= Q1) by (eapply Rle_trans; [apply Rabs_pos|apply (HQ1 0); lra]).
  assert (Z0 : 0 <= Z) by (eapply Rle_trans; [apply Rabs_pos|apply (HZ 0); lra]).
  set (c1 := (P1 * Z + Q1) * gro (P + P1) T).
  assert (W0 : 0 <= P1 * Z + Q1) by (apply Rplus_le_le_0_compat; auto; apply Rmult_le_pos; auto).
  assert (c10 : 0 <= c1) by (apply Rmult_le_pos; auto; left; apply gro_pos; exact HT).
  exists (P1 * c1 * gro P T). split; [apply Rmult_le_pos; [apply Rmult_le_pos; auto|left; apply gro_pos; exact HT]|].
  intros e t He Ht.
  assert (F : forall u, 0 <= u <= T -> Rabs (Y e u - y u) <= Rabs e * c1).
  { intros u Hu. unfold c1. rewrite <- Rmult_assoc.
    apply (gronwall (fun u => Y e u - y u) (fun u => p u + e * p1 u) (fun u => e * (p1 u * y u + q1 u)) (P + P1) T (Rabs e * (P1 * Z + Q1))); auto.
    - lra.
    - apply Rmult_le_pos; auto using Rabs_pos.
    - intros v Hv. specialize (DY e v Hv). specialize (Dy v Hv). auto_derive; [split; [eexists; exact DY|split; [eexists; exact Dy|auto]]|].
      rewrite (drv (Y e) _ _ DY), (drv y _ _ Dy). ring.
    - rewrite Y0. ring.
    - intros v Hv. eapply Rle_trans; [apply Rabs_triang|]. rewrite Rabs_mult. specialize (HP v Hv). specialize (HP1 v Hv).
      assert (Rabs e * Rabs (p1 v) <= 1 * P1) by (apply Rmult_le_compat; auto using Rabs_pos). lra.
    - intros v Hv. rewrite Rabs_mult. apply Rmult_le_compat_l; [apply Rabs_pos|]. eapply Rle_trans; [apply Rabs_triang|]. rewrite Rabs_mult.
      apply Rplus_le_compat; [|apply HQ1; auto]. apply Rmult_le_compat; auto using Rabs_pos. }
  replace (P1 * c1 * gro P T * e ^ 2) with (Rabs e ^ 2 * (P1 * c1) * gro P T) by (rewrite pow2_abs; ring).
  apply (gronwall (fun u => Y e u - y u - e * mu u) p (fun u => e * p1 u * (Y e u - y u)) P T (Rabs e ^ 2 * (P1 * c1))); auto.
  - apply Rmult_le_pos; [apply pow2_ge_0|apply Rmult_le_pos; auto].
  - intros v Hv. specialize (DY e v Hv). specialize (Dy v Hv). specialize (Dm v Hv).
    auto_derive; [split; [eexists; exact DY|split; [eexists; exact Dy|split; [eexists; exact Dm|auto]]]|].
    rewrite (drv (Y e) _ _ DY), (drv y _ _ Dy), (drv mu _ _ Dm). ring.
  - rewrite Y0, M0. ring.
  - intros v Hv. rewrite !Rabs_mult. replace (Rabs e ^ 2 * (P1 * c1)) with (Rabs e * P1 * (Rabs e * c1)) by ring.
    apply Rmult_le_compat; auto using Rabs_pos.
    + apply Rmult_le_pos; apply Rabs_pos.
    + apply Rmult_le_compat_l; auto using Rabs_pos.
Qed.
End Lin.

Lemma is_RInt_val (f : R -> R) a b (v w : R) : v = w -> is_RInt f a b v -> is_RInt f a b w.
Proof. intros <-; auto. Qed.

(** ** the adjoint identity *)
Section Adj.
Context (T : R) (HT : 0 <= T) (p g w mu : R -> R).
Context (Dm : forall t, 0 <= t <= T -> is_derive mu t (p t * mu t + w t)) (M0 : mu 0 = 0).
Context (Cp : forall t, 0 <= t <= T -> continuous p t) (Cg : forall t, 0 <= t <= T -> continuous g t) (Cw : forall t, 0 <= t <= T -> continuous w t).
Definition asol (u v : R) (y : R -> R) := forall t, u <= t <= v -> is_derive y t (- g t - p t * y t).
Definition aglue (v u c : R) := v = u + c.
Fixpoint jsum (ps : list (piece R)) : R := match ps with [] => 0 | (tau, c, _) :: r => c * mu tau + jsum r end.

Lemma parts u v y : 0 <= u <= v -> v <= T -> asol u v y ->
  is_RInt (fun t => y t * w t) u v (y v * mu v - y u * mu u + RInt (fun t => g t * mu t) u v).
Proof.
  intros Hu Hv Hy.
  assert (Cm : forall t, u <= t <= v -> continuous mu t) by (intros t Ht; eapply der_cont, Dm; lra).
  assert (Cy : forall t, u <= t <= v -> continuous y t) by (intros t Ht; eapply der_cont, Hy; lra).
  assert (Cgm : forall t, u <= t <= v -> continuous (fun t => g t * mu t) t).
  { intros t Ht. apply (continuous_mult g mu); [apply Cg; lra|apply Cm; lra]. }
  assert (Cyw : forall t, u <= t <= v -> continuous (fun t => y t * w t) t).
  { intros t Ht. apply (continuous_mult y w); [apply Cy; lra|apply Cw; lra]. }
  assert (I1 : is_RInt (fun t => y t * w t - g t * mu t) u v (y v * mu v - y u * mu u)).
  { apply (is_RInt_derive (fun t => y t * mu t) (fun t => y t * w t - g t * mu t)).
    - intros t Ht. rewrite Rmin_left, Rmax_right in Ht by lra. pose proof (Hy t Ht) as A. pose proof (Dm t ltac:(lra)) as B.
      auto_derive; [split; [eexists; exact A|split; [eexists; exact B|auto]]|]. rewrite (drv y _ _ A), (drv mu _ _ B). ring.
    - intros t Ht. rewrite Rmin_left, Rmax_right in Ht by lra.
      apply (continuous_minus (fun t => y t * w t) (fun t => g t * mu t)); auto. }
  assert (I2 : is_RInt (fun t => g t * mu t) u v (RInt (fun t => g t * mu t) u v)).
  { apply (@RInt_correct R_CompleteNormedModule). apply ex_RInt_on; [lra|exact Cgm]. }
  pose proof (is_RInt_plus _ _ _ _ _ _ I1 I2) as I3.
  eapply is_RInt_ext; [|exact I3]. intros t _. unfold plus; cbn. ring.
Qed.

Lemma adjoint ps : forall T2 y0, 0 <= T2 <= T -> fits asol aglue T2 y0 ps ->
  is_RInt (fun t => with_jumps y0 ps t * w t) 0 T2 (RInt (fun t => g t * mu t) 0 T2 + jsum ps + y0 T2 * mu T2).
Proof.
  induction ps as [|[[tau c] y] r IH]; intros T2 y0 H2 Hf.
  - cbn [with_jumps jsum]. apply is_RInt_val with (y0 T2 * mu T2 - y0 0 * mu 0 + RInt (fun t => g t * mu t) 0 T2); [rewrite M0; ring|].
    apply parts; [lra|lra|exact Hf].
  - cbn [fits] in Hf. destruct Hf as (Ht & Hs & Hg & Hr).
    assert (Ex : forall u v, 0 <= u <= v -> v <= T -> ex_RInt (fun t => g t * mu t) u v).
    { intros u v Hu Hv. apply ex_RInt_on; [lra|]. intros t Htt. apply (continuous_mult g mu); [apply Cg; lra|eapply der_cont, Dm; lra]. }
    assert (Ch : RInt (fun t => g t * mu t) 0 T2 = RInt (fun t => g t * mu t) 0 tau + RInt (fun t => g t * mu t) tau T2).
    { symmetry. apply (@RInt_Chasles R_CompleteNormedModule); apply Ex; lra. }
    cbn [jsum]. unfold aglue in Hg.
    apply is_RInt_val with ((RInt (fun t => g t * mu t) 0 tau + jsum r + y tau * mu tau) + (y0 T2 * mu T2 - y0 tau * mu tau + RInt (fun t => g t * mu t) tau T2)).
    { rewrite Ch, Hg. ring. }
    apply (@is_RInt_Chasles R_NormedModule _ 0 tau T2).
    + eapply is_RInt_ext; [|apply IH; [lra|exact Hr]]. intros t Htt. rewrite Rmin_left, Rmax_right in Htt by lra.
      cbn [with_jumps]. destruct (Rle_dec t tau); [reflexivity|lra].
    + eapply is_RInt_ext; [|apply parts; [|lra|exact Hs]; lra]. intros t Htt. rewrite Rmin_left, Rmax_right in Htt by lra.
      cbn [with_jumps]. destruct (Rle_dec t tau); [lra|reflexivity].
Qed.
End Adj.
