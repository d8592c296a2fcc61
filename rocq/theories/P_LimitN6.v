(** * The derivative of the continuous free energy with respect to the offset, through the
    multipliers of the mean. *)
From Coq Require Import List Arith Reals Lra Lia Psatz Sorted.
From Coquelicot Require Import Coquelicot.
From Verif Require Import Num Arr ArrFacts
  Spec_Utils Spec_Det Spec_Ode Spec_Gauss Spec_GaussN Spec_Sde1 Spec_L63 Spec_Prior Spec_Like Spec_VarGP Spec_TimeVar Spec_Limit Spec_GradN Spec_LimitN
  P_Ode P_OdeR P_Sde1 P_Det P_RMat P_Prior P_Like P_L63 P_VarGP P_Adjoint P_GaussN P_Expect P_GradN P_GradN2 P_GradN3 P_GradL63 P_GradL63T
  P_TimeVar P_TimeVar2 P_TimeVar3 P_TimeVar4 P_TimeVar5 P_TimeVar6 P_TimeVar7 P_TimeVar10 P_Limit1 P_Limit2 P_Limit3 P_Limit5 P_LinOde P_LimitN0 P_LimitN1 P_LimitN2 P_LimitN3.
Import ListNotations.
Local Open Scope R_scope.

(** ** solutions with jumps of y' = - g + Q y, from the right end *)
Section Pieces.
Context (d : nat) (T : R) (HT : 0 <= T) (Q : R -> nat -> nat -> R) (g : R -> nat -> R).
Context (HQ : forall i j, (i < d)%nat -> (j < d)%nat -> smooth 1 T (fun t => Q t i j)) (Hg : forall i, (i < d)%nat -> smooth 1 T (fun t => g t i)).
Definition solq (u v : R) (y : R -> nat -> R) : Prop :=
  forall t i, u <= t <= v -> (i < d)%nat -> is_derive (fun s => y s i) t (- g t i + Rsum d (fun k => Q t i k * y t k)).
Definition glueq (v u c : nat -> R) : Prop := forall i, (i < d)%nat -> v i = u i + c i.
Lemma back_ex v (c : nat -> R) : 0 <= v <= T -> exists y : R -> nat -> R, (forall i, y v i = c i) /\ solq 0 v y.
Proof.
  intros Hv. destruct (picard_s d v (fun s i j => - Q (v - s) i j) (fun s i => g (v - s) i) c (proj1 Hv)) as (z & Z0 & ZD).
  { intros i j Hi Hj. apply (smooth_opp 1 v (fun s => Q (v - s) i j)). replace v with (v - 0) at 1 by ring.
    apply (smooth_rev 1 T 0 v (fun s => Q s i j)); [lra|lra|auto]. }
  { intros i Hi. replace v with (v - 0) at 1 by ring. apply (smooth_rev 1 T 0 v (fun s => g s i)); [lra|lra|auto]. }
  exists (fun t => z (v - t)). split.
  - intros i. rewrite Rminus_diag_eq by reflexivity. apply Z0.
  - intros t i Ht Hi. eapply d_eq; [apply (rev_derive (fun s => z s i)); apply ZD; [lra|exact Hi]|].
    replace (v - (v - t)) with t by ring. rewrite (Rsum_ext d _ (fun k => - (Q t i k * z (v - t) k))) by (intros; ring). rewrite Rsum_opp. ring.
Qed.
Context (c : R * (nat -> R) -> nat -> R).
Lemma pieces_ex (obs : list (R * (nat -> R))) : forall T2 y0, 0 <= T2 <= T -> dec T2 (clock obs) -> solq 0 T2 y0 ->
  exists ps, fits solq glueq T2 y0 ps /\ map fst ps = map (fun o => (fst o, c o)) obs.
Proof.
  induction obs as [|o r IH]; intros T2 y0 H2 Hd Hy.
  - exists []. split; [exact Hy|reflexivity].
  - cbn [clock map dec fst] in Hd. destruct Hd as [H1 Hd].
    destruct (back_ex (fst o) (fun i => y0 (fst o) i + c o i) ltac:(lra)) as (y & Y0 & YS).
    destruct (IH (fst o) y ltac:(lra) Hd YS) as (ps & Hf & Em).
    exists ((fst o, c o, y) :: ps). split; [|cbn [map fst]; rewrite Em; reflexivity].
    cbn [fits]. split; [exact H1|]. split; [intros t i Ht; apply Hy; lra|]. split; [intros i _; apply Y0|exact Hf].
Qed.
Lemma mult_ex obs : dec T (clock obs) -> exists y0 ps, (forall i, y0 T i = 0) /\ fits solq glueq T y0 ps /\ map fst ps = map (fun o => (fst o, c o)) obs.
Proof.
  intros Hd. destruct (back_ex T (fun _ => 0) ltac:(lra)) as (y0 & Y0 & YS).
  destruct (pieces_ex obs T y0 ltac:(lra) Hd YS) as (ps & H1 & H2). exists y0, ps. auto.
Qed.
End Pieces.

(** ** the adjoint identity *)
Section AdjN.
Context (d : nat) (T : R) (HT : 0 <= T) (A : R -> nat -> nat -> R) (g w mu : R -> nat -> R).
Context (Dm : forall t i, 0 <= t <= T -> (i < d)%nat -> is_derive (fun s => mu s i) t (w t i - Rsum d (fun k => A t i k * mu t k))) (M0 : forall i, (i < d)%nat -> mu 0 i = 0).
Context (Cg : forall t i, 0 <= t <= T -> (i < d)%nat -> continuous (fun t => g t i) t) (Cw : forall t i, 0 <= t <= T -> (i < d)%nat -> continuous (fun t => w t i) t).
Definition trA (t : R) (i j : nat) : R := A t j i.
Notation sl := (solq d trA g).
Definition jsumn (ps : list (piece (nat -> R))) : R := total (map (fun p => dot d (snd p) (mu (fst p))) (map fst ps)).
Lemma dot_cont (u v : R -> nat -> R) t : (forall i, (i < d)%nat -> continuous (fun t => u t i) t) -> (forall i, (i < d)%nat -> continuous (fun t => v t i) t) ->
  continuous (fun t => dot d (u t) (v t)) t.
Proof. intros Hu Hv. apply (Rsum_cont d (fun i t => u t i * v t i)). intros i Hi. apply (continuous_mult (fun t => u t i) (fun t => v t i)); auto. Qed.
Lemma dot_d (u v : R -> nat -> R) (u' v' : nat -> R) (t : R) : (forall i, (i < d)%nat -> is_derive (fun s => u s i) t (u' i)) -> (forall i, (i < d)%nat -> is_derive (fun s => v s i) t (v' i)) ->
  is_derive (fun s => dot d (u s) (v s)) t (dot d u' (v t) + dot d (u t) v').
Proof.
  intros Hu Hv. eapply d_eq.
  - apply (P_GradN.d_sum d (fun s i => u s i * v s i) (fun i => u' i * v t i + u t i * v' i) t). intros i Hi. apply (d_mult (fun s => u s i) (fun s => v s i)); auto.
  - rewrite Rsum_plus. reflexivity.
Qed.
Lemma mu_cont t i : 0 <= t <= T -> (i < d)%nat -> continuous (fun t => mu t i) t.
Proof. intros Ht Hi. eapply der_cont, Dm; auto. Qed.
Lemma parts_n u v y : 0 <= u <= v -> v <= T -> sl u v y ->
  is_RInt (fun t => dot d (y t) (w t)) u v (dot d (y v) (mu v) - dot d (y u) (mu u) + RInt (fun t => dot d (g t) (mu t)) u v).
Proof.
  intros Hu Hv Hy.
  assert (Cy : forall t i, u <= t <= v -> (i < d)%nat -> continuous (fun t => y t i) t) by (intros t i Ht Hi; eapply der_cont, Hy; auto).
  assert (Cgm : forall t, u <= t <= v -> continuous (fun t => dot d (g t) (mu t)) t) by (intros t Ht; apply dot_cont; intros i Hi; [apply Cg|apply mu_cont]; auto; lra).
  assert (Cyw : forall t, u <= t <= v -> continuous (fun t => dot d (y t) (w t)) t) by (intros t Ht; apply dot_cont; intros i Hi; [apply Cy|apply Cw]; auto; lra).
  assert (I1 : is_RInt (fun t => dot d (y t) (w t) - dot d (g t) (mu t)) u v (dot d (y v) (mu v) - dot d (y u) (mu u))).
  { apply (is_RInt_derive (fun t => dot d (y t) (mu t)) (fun t => dot d (y t) (w t) - dot d (g t) (mu t))).
    - intros t Ht. rewrite Rmin_left, Rmax_right in Ht by lra.
      eapply d_eq; [apply (dot_d y mu (fun i => - g t i + Rsum d (fun k => trA t i k * y t k)) (fun i => w t i - Rsum d (fun k => A t i k * mu t k)) t)|].
      + intros i Hi. apply Hy; auto.
      + intros i Hi. apply Dm; auto; lra.
      + unfold dot. 
        rewrite (Rsum_ext d (fun i => (- g t i + Rsum d (fun k => trA t i k * y t k)) * mu t i) (fun i => Rsum d (fun k => A t k i * y t k * mu t i) - g t i * mu t i)).
        2: { intros i Hi. rewrite Rmult_plus_distr_r. rewrite (Rmult_comm (Rsum d _)), <- Rsum_scal. rewrite Rplus_comm. replace (- g t i * mu t i) with (- (g t i * mu t i)) by ring. unfold Rminus. f_equal. apply Rsum_ext. intros; unfold trA; ring. }
        rewrite (Rsum_ext d (fun i => y t i * (w t i - Rsum d (fun k => A t i k * mu t k))) (fun i => y t i * w t i - Rsum d (fun k => A t i k * y t i * mu t k))).
        2: { intros i Hi. unfold Rminus. rewrite Rmult_plus_distr_l. f_equal. rewrite Ropp_mult_distr_r_reverse, <- Rsum_scal. f_equal. apply Rsum_ext. intros; ring. }
        rewrite !Rsum_minus. rewrite (Rsum_swap d d (fun i k => A t k i * y t k * mu t i)). ring.
    - intros t Ht. rewrite Rmin_left, Rmax_right in Ht by lra.
      apply (continuous_minus (fun t => dot d (y t) (w t)) (fun t => dot d (g t) (mu t))); auto. }
  assert (I2 : is_RInt (fun t => dot d (g t) (mu t)) u v (RInt (fun t => dot d (g t) (mu t)) u v)).
  { apply (@RInt_correct R_CompleteNormedModule). apply ex_RInt_on; [lra|exact Cgm]. }
  pose proof (is_RInt_plus _ _ _ _ _ _ I1 I2) as I3.
  eapply is_RInt_ext; [|exact I3]. intros t _. unfold plus; cbn. ring.
Qed.
Lemma dot_ext (u u' v v' : nat -> R) : eqv d u u' -> eqv d v v' -> dot d u v = dot d u' v'.
Proof. intros Hu Hv. apply Rsum_ext. intros i Hi. rewrite (Hu i Hi), (Hv i Hi). reflexivity. Qed.
Lemma adjoint_n ps : forall T2 y0, 0 <= T2 <= T -> fits sl (glueq d) T2 y0 ps ->
  is_RInt (fun t => dot d (with_jumps y0 ps t) (w t)) 0 T2 (RInt (fun t => dot d (g t) (mu t)) 0 T2 + jsumn ps + dot d (y0 T2) (mu T2)).
Proof.
  induction ps as [|[[tau c] y] r IH]; intros T2 y0 H2 Hf.
  - unfold jsumn, total. cbn [with_jumps map fold_right]. apply is_RInt_val with (dot d (y0 T2) (mu T2) - dot d (y0 0) (mu 0) + RInt (fun t => dot d (g t) (mu t)) 0 T2).
    + assert (Z : dot d (y0 0) (mu 0) = 0) by (unfold dot; apply Rsum_z; intros i Hi; rewrite (M0 i Hi); ring). rewrite Z. ring.
    + apply parts_n; [lra|lra|exact Hf].
  - cbn [fits] in Hf. destruct Hf as (Ht & Hs & Hg & Hr).
    assert (Ex : forall u v, 0 <= u <= v -> v <= T -> ex_RInt (fun t => dot d (g t) (mu t)) u v).
    { intros u v Hu Hv. apply ex_RInt_on; [lra|]. intros t Htt. apply dot_cont; intros i Hi; [apply Cg|apply mu_cont]; auto; lra. }
    assert (Ch : RInt (fun t => dot d (g t) (mu t)) 0 T2 = RInt (fun t => dot d (g t) (mu t)) 0 tau + RInt (fun t => dot d (g t) (mu t)) tau T2).
    { symmetry. apply (@RInt_Chasles R_CompleteNormedModule); apply Ex; lra. }
    assert (G : dot d (y tau) (mu tau) = dot d (y0 tau) (mu tau) + dot d c (mu tau)).
    { unfold dot. rewrite <- Rsum_plus. apply Rsum_ext. intros i Hi. rewrite (Hg i Hi). ring. }
    apply is_RInt_val with ((RInt (fun t => dot d (g t) (mu t)) 0 tau + jsumn r + dot d (y tau) (mu tau)) + (dot d (y0 T2) (mu T2) - dot d (y0 tau) (mu tau) + RInt (fun t => dot d (g t) (mu t)) tau T2)).
    { rewrite Ch, G. unfold jsumn, total. cbn [map fold_right fst snd]. ring. }
    apply (@is_RInt_Chasles R_NormedModule _ 0 tau T2).
    + eapply is_RInt_ext; [|apply IH; [lra|exact Hr]]. intros t Htt. rewrite Rmin_left, Rmax_right in Htt by lra.
      cbn [with_jumps]. destruct (Rle_dec t tau); [reflexivity|lra].
    + eapply is_RInt_ext; [|apply parts_n; [|lra|exact Hs]; lra]. intros t Htt. rewrite Rmin_left, Rmax_right in Htt by lra.
      cbn [with_jumps]. destruct (Rle_dec t tau); [lra|reflexivity].
Qed.
End AdjN.

(** ** second-order expansion of a polynomial in the direction (k, mu) of (b, m) *)
Lemma isq_quad d f : isq d f -> forall B, 0 <= B -> exists (D : (nat -> nat -> R) -> (nat -> R) -> (nat -> R) -> (nat -> nat -> R) -> (nat -> R) -> (nat -> R) -> R) C, 0 <= C /\
  forall A b m S k u, bd d B A b m S -> (forall i, (i < d)%nat -> Rabs (k i) <= B /\ Rabs (u i) <= B) ->
  Rabs (f A b m S) <= C /\ Rabs (D A b m S k u) <= C /\
  forall x, Rabs x <= 1 -> Rabs (f A (fun i => b i + x * k i) (fun i => m i + x * u i) S - f A b m S - x * D A b m S k u) <= C * x ^ 2.
Proof.
  assert (Z : forall C x, 0 <= C -> Rabs 0 <= C * x ^ 2) by (intros C x HC; rewrite Rabs_R0; apply Rmult_le_pos; [exact HC|apply pow2_ge_0]).
  intros H. induction H as [c|i j Hi Hj|i Hi|i Hi|i j Hi Hj|f g Hf IHf Hg IHg|f g Hf IHf Hg IHg|f g E Hf IHf]; intros B HB.
  - exists (fun _ _ _ _ _ _ => 0), (Rabs c). split; [apply Rabs_pos|]. intros A b m S k u _ _. split; [lra|]. split; [rewrite Rabs_R0; apply Rabs_pos|].
    intros x _. replace (c - c - x * 0) with 0 by ring. apply Z, Rabs_pos.
  - exists (fun _ _ _ _ _ _ => 0), B. split; [exact HB|]. intros A b m S k u [H1 _] _. split; [apply H1; assumption|]. split; [rewrite Rabs_R0; exact HB|].
    intros x _. replace (A i j - A i j - x * 0) with 0 by ring. apply Z, HB.
  - exists (fun _ _ _ _ k _ => k i), B. split; [exact HB|]. intros A b m S k u [_ H1] H2. split; [apply H1; assumption|]. split; [apply H2; assumption|].
    intros x _. replace (b i + x * k i - b i - x * k i) with 0 by ring. apply Z, HB.
  - exists (fun _ _ _ _ _ u => u i), B. split; [exact HB|]. intros A b m S k u [_ H1] H2. split; [apply H1; assumption|]. split; [apply H2; assumption|].
    intros x _. replace (m i + x * u i - m i - x * u i) with 0 by ring. apply Z, HB.
  - exists (fun _ _ _ _ _ _ => 0), B. split; [exact HB|]. intros A b m S k u [H1 _] _. split; [apply H1; assumption|]. split; [rewrite Rabs_R0; exact HB|].
    intros x _. replace (S i j - S i j - x * 0) with 0 by ring. apply Z, HB.
  - destruct (IHf B HB) as (D1 & C1 & P1 & Q1). destruct (IHg B HB) as (D2 & C2 & P2 & Q2).
    exists (fun A b m S k u => D1 A b m S k u + D2 A b m S k u), (C1 + C2). split; [lra|]. intros A b m S k u H1 H2.
    destruct (Q1 A b m S k u H1 H2) as (X1 & X2 & X3). destruct (Q2 A b m S k u H1 H2) as (Y1 & Y2 & Y3).
    split; [eapply Rle_trans; [apply Rabs_triang|]; lra|]. split; [eapply Rle_trans; [apply Rabs_triang|]; lra|].
    intros x Hx. specialize (X3 x Hx). specialize (Y3 x Hx).
    match type of X3 with Rabs ?p <= _ => match type of Y3 with Rabs ?q <= _ => match goal with |- Rabs ?z <= _ => replace z with (p + q) by ring end end end.
    eapply Rle_trans; [apply Rabs_triang|]. lra.
  - destruct (IHf B HB) as (D1 & C1 & P1 & Q1). destruct (IHg B HB) as (D2 & C2 & P2 & Q2).
    exists (fun A b m S k u => D1 A b m S k u * g A b m S + f A b m S * D2 A b m S k u), (6 * (C1 * C2)). assert (P12 : 0 <= C1 * C2) by (apply Rmult_le_pos; assumption). split; [lra|].
    intros A b m S k u H1 H2.
    destruct (Q1 A b m S k u H1 H2) as (X1 & X2 & X3). destruct (Q2 A b m S k u H1 H2) as (Y1 & Y2 & Y3).
    assert (mm : forall p q, Rabs p <= C1 -> Rabs q <= C2 -> Rabs (p * q) <= C1 * C2) by (intros p q Hp Hq; rewrite Rabs_mult; apply Rmult_le_compat; auto using Rabs_pos).
    split; [eapply Rle_trans; [apply mm; assumption|lra]|].
    split; [eapply Rle_trans; [apply Rabs_triang|]; pose proof (mm _ _ X2 Y1); pose proof (mm _ _ X1 Y2); lra|].
    intros x Hx. specialize (X3 x Hx). specialize (Y3 x Hx).
    set (p := f A b m S) in *. set (q := g A b m S) in *. set (dp := D1 A b m S k u) in *. set (dq := D2 A b m S k u) in *.
    set (p' := f A (fun i => b i + x * k i) (fun i => m i + x * u i) S) in *. set (q' := g A (fun i => b i + x * k i) (fun i => m i + x * u i) S) in *.
    assert (x2 : 0 <= x ^ 2 <= 1). { split; [apply pow2_ge_0|]. rewrite <- pow2_abs. pose proof (Rabs_pos x). nra. }
    assert (xd : Rabs (x * dp) <= C1 /\ Rabs (x * dq) <= C2).
    { rewrite !Rabs_mult. pose proof (Rabs_pos dp). pose proof (Rabs_pos dq). pose proof (Rabs_pos x). split; nra. }
    replace (p' * q' - p * q - x * (dp * q + p * dq)) with ((p' - p - x * dp) * q' + (p + x * dp) * (q' - q - x * dq) + x ^ 2 * (dp * dq)) by ring.
    assert (q3 : Rabs q' <= 3 * C2).
    { replace q' with ((q' - q - x * dq) + (q + x * dq)) by ring. eapply Rle_trans; [apply Rabs_triang|]. eapply Rle_trans; [apply Rplus_le_compat_l, Rabs_triang|].
      assert (C2 * x ^ 2 <= C2) by nra. lra. }
    assert (p2 : Rabs (p + x * dp) <= 2 * C1) by (eapply Rle_trans; [apply Rabs_triang|]; lra).
    eapply Rle_trans; [apply Rabs_triang|]. eapply Rle_trans; [apply Rplus_le_compat_r, Rabs_triang|]. rewrite !Rabs_mult.
    rewrite (Rabs_pos_eq (x ^ 2)) by apply x2.
    assert (W1 : Rabs (p' - p - x * dp) * Rabs q' <= (C1 * x ^ 2) * (3 * C2)) by (apply Rmult_le_compat; auto using Rabs_pos).
    assert (W2 : Rabs (p + x * dp) * Rabs (q' - q - x * dq) <= (2 * C1) * (C2 * x ^ 2)) by (apply Rmult_le_compat; auto using Rabs_pos).
    assert (W3 : x ^ 2 * (Rabs dp * Rabs dq) <= x ^ 2 * (C1 * C2)) by (apply Rmult_le_compat_l; [apply x2|apply Rmult_le_compat; auto using Rabs_pos]).
    lra.
  - destruct (IHf B HB) as (D1 & C1 & P1 & Q1). exists D1, C1. split; [exact P1|]. intros A b m S k u H1 H2. rewrite <- !E.
    destruct (Q1 A b m S k u H1 H2) as (X1 & X2 & X3). split; [exact X1|]. split; [exact X2|]. intros x Hx. rewrite <- E. apply X3, Hx.
Qed.

Lemma quad_d1 d f : isq d f -> forall (A S : nat -> nat -> R) (b m k u : nat -> R) (D : R),
  is_derive (fun x => f A (fun i => b i + x * k i) (fun i => m i + x * u i) S) 0 D ->
  forall D' C, (forall x, Rabs x <= 1 -> Rabs (f A (fun i => b i + x * k i) (fun i => m i + x * u i) S - f A b m S - x * D') <= C * x ^ 2) -> D' = D.
Proof.
  intros Hf A S b m k u D H D' C HC. set (F := fun x => f A (fun i => b i + x * k i) (fun i => m i + x * u i) S) in *.
  assert (E : F 0 = f A b m S) by (apply (isq_ext d f Hf); intros i; intros; try reflexivity; ring).
  assert (H' : is_derive F 0 D') by (apply (derive_quad F D' C); intros x Hx; rewrite E; apply HC, Hx).
  rewrite <- (is_derive_unique _ _ _ H'). apply (is_derive_unique _ _ _ H).
Qed.

(** the expected log-likelihood is quadratic in the mean *)
Lemma nterm_dir d Rn Ri (y m u : nat -> R) S x : symm d Ri ->
  nterm d Rn Ri y (fun i => m i + x * u i) S
  = nterm d Rn Ri y m S + x * dot d (fun i => - Rsum d (fun l => Ri i l * (y l - m l))) u + x ^ 2 * (1 / 2 * quad d Ri u).
Proof.
  intros HR. unfold nterm.
  assert (E : quad d Ri (fun i => y i - (m i + x * u i)) = quad d Ri (fun i => y i - m i) - 2 * x * Rsum d (fun i => Rsum d (fun l => Ri i l * (y l - m l) * u i)) + x ^ 2 * quad d Ri u).
  { unfold quad.
    transitivity (Rsum d (fun i => Rsum d (fun j => (y i - m i) * Ri i j * (y j - m j))) - x * Rsum d (fun i => Rsum d (fun j => (y i - m i) * Ri i j * u j))
      - x * Rsum d (fun i => Rsum d (fun l => Ri i l * (y l - m l) * u i)) + x ^ 2 * Rsum d (fun i => Rsum d (fun j => u i * Ri i j * u j))).
    - rewrite <- !Rsum_scal, <- !Rsum_minus, <- Rsum_plus. apply Rsum_ext. intros i Hi. rewrite <- !Rsum_scal, <- !Rsum_minus, <- Rsum_plus. apply Rsum_ext. intros j Hj. ring.
    - rewrite (Rsum_swap d d (fun i j => (y i - m i) * Ri i j * u j)).
      rewrite (Rsum_ext d (fun j => Rsum d (fun i => (y i - m i) * Ri i j * u j)) (fun i => Rsum d (fun l => Ri i l * (y l - m l) * u i))); [ring|].
      intros i Hi. apply Rsum_ext. intros j Hj. rewrite (HR j i Hj Hi). ring. }
  rewrite E. unfold dot. rewrite (Rsum_ext d (fun i => - Rsum d (fun l => Ri i l * (y l - m l)) * u i) (fun i => - Rsum d (fun l => Ri i l * (y l - m l) * u i))).
  - rewrite Rsum_opp. field.
  - intros i Hi. rewrite Rsum_scal_r. ring.
Qed.

Section Fb.
Context (d : nat) (P : nat -> nat -> R) (e : dens R) (Hq : isq d e) (f : (nat -> R) -> nat -> R) (eb em : dens (nat -> R)).
Context (Hmis : forall A b m S, symm d S -> E_mvn d m S (mismatch_n d P f (glin d A b)) (e A b m S)).
Context (Heb : forall i, (i < d)%nat -> isq d (fun A b m S => eb A b m S i)) (Hem : forall i, (i < d)%nat -> isq d (fun A b m S => em A b m S i)).
Context (Hch : forall (A S : nat -> nat -> R) (b m k u : nat -> R), symm d S -> is_derive (fun x => e A (fun i => b i + x * k i) (fun i => m i + x * u i) S) 0 (dot d (eb A b m S) k + dot d (em A b m S) u)).
Context (T : R) (Sigma s0 : nat -> nat -> R) (m0 mu : nat -> R) (tau Ti Rn Ri : nat -> nat -> R) (obs : list (R * (nat -> R))).
Context (HT : 0 <= T) (HSs : symm d Sigma) (HSp : posdef d Sigma) (HP : is_inv d Sigma P) (H0s : symm d s0) (H0p : posdef d s0)
  (Hts : symm d tau) (Htp : posdef d tau) (HTi : is_inv d tau Ti) (Hrs : symm d Rn) (Hrp : posdef d Rn) (HRi : is_inv d Rn Ri) (Hobs : times_ok 0 T (clock obs)).
Context (A : R -> nat -> nat -> R) (b : R -> nat -> R).
Context (HA2 : forall i j, (i < d)%nat -> (j < d)%nat -> smooth 2 T (fun t => A t i j)) (Hb2 : forall i, (i < d)%nat -> smooth 2 T (fun t => b t i)).
Let HA : forall i j, (i < d)%nat -> (j < d)%nat -> smooth 1 T (fun t => A t i j) := fun i j Hi Hj => smooth_pred 1 T _ (HA2 i j Hi Hj).
Let Hb : forall i, (i < d)%nat -> smooth 1 T (fun t => b t i) := fun i Hi => smooth_pred 1 T _ (Hb2 i Hi).
Context (m : R -> nat -> R) (S : R -> nat -> nat -> R) (HM : moments_n d T Sigma m0 s0 A b m S).

Definition cb (o : R * (nat -> R)) (i : nat) : R := - Rsum d (fun l => Ri i l * (snd o l - m (fst o) l)).
Definition gm (t : R) (i : nat) : R := em (A t) (b t) (m t) (S t) i.
Definition eB (t : R) (i : nat) : R := eb (A t) (b t) (m t) (S t) i.
Lemma sm1 : (forall i, (i < d)%nat -> smooth 1 T (fun t => m t i)) /\ (forall i j, (i < d)%nat -> (j < d)%nat -> smooth 1 T (fun t => S t i j)).
Proof. apply (moments_n_smooth d T Sigma s0 m0 A b m S 1 HT HA Hb HM 1). lia. Qed.
Lemma gm_smooth i : (i < d)%nat -> smooth 1 T (fun t => gm t i).
Proof. intros Hi. apply (isq_smooth d (fun A b m S => em A b m S i)); auto; apply sm1. Qed.
Lemma eB_smooth i : (i < d)%nat -> smooth 1 T (fun t => eB t i).
Proof. intros Hi. apply (isq_smooth d (fun A b m S => eb A b m S i)); auto; apply sm1. Qed.
Lemma clock_rev (l : list (R * (nat -> R))) : clock (rev l) = rev (clock l).
Proof. unfold clock. apply map_rev. Qed.

Lemma mults_ex (Q : R -> nat -> nat -> R) : (forall i j, (i < d)%nat -> (j < d)%nat -> smooth 1 T (fun t => Q t i j)) ->
  exists y0 ps, (forall i, y0 T i = 0) /\ fits (solq d Q gm) (glueq d) T y0 ps /\ map fst ps = map (fun o => (fst o, cb o)) (rev obs).
Proof.
  intros HQ. apply mult_ex; [exact HT|exact HQ|exact gm_smooth|]. rewrite clock_rev. apply times_dec, Hobs.
Qed.

Lemma gradient_b_is y0 ps : (forall i, y0 T i = 0) -> fits (solq d (trA A) gm) (glueq d) T y0 ps -> map fst ps = map (fun o => (fst o, cb o)) (rev obs) ->
  cont_gradient_b f d T Sigma m0 s0 mu tau Rn obs A b (fun t i => eB t i + with_jumps y0 ps t i).
Proof.
  intros Y0 Hf Em k Hk.
  destruct (picard_s d T (fun t i j => - A t i j) k (fun _ => 0) HT) as (u & U0 & UD); [intros i j Hi Hj; apply (smooth_opp 1 T (fun t => A t i j)); auto|exact Hk|].
  assert (UD' : forall t i, 0 <= t <= T -> (i < d)%nat -> is_derive (fun s => u s i) t (k t i - Rsum d (fun l => A t i l * u t l))).
  { intros t i Ht Hi. eapply d_eq; [apply UD; assumption|]. rewrite (Rsum_ext d _ (fun j => - (A t i j * u t j))) by (intros; ring). rewrite Rsum_opp. ring. }
  clear UD. destruct sm1 as [Sm SS].
  assert (Ck : forall t i, 0 <= t <= T -> (i < d)%nat -> continuous (fun t => k t i) t) by (intros t i Ht Hi; apply (smooth_cont T); auto).
  assert (Cg : forall t i, 0 <= t <= T -> (i < d)%nat -> continuous (fun t => gm t i) t) by (intros t i Ht Hi; apply (smooth_cont T); [apply gm_smooth|]; auto).
  assert (CB : forall t i, 0 <= t <= T -> (i < d)%nat -> continuous (fun t => eB t i) t) by (intros t i Ht Hi; apply (smooth_cont T); [apply eB_smooth|]; auto).
  assert (Cu : forall t i, 0 <= t <= T -> (i < d)%nat -> continuous (fun t => u t i) t) by (intros t i Ht Hi; eapply der_cont, UD'; auto).
  pose proof (adjoint_n d T A gm k u UD' (fun i _ => U0 i) Cg Ck ps T y0 ltac:(lra) Hf) as AJ.
  assert (JS : jsumn d u ps = total (map (fun o => dot d (cb o) (u (fst o))) obs)).
  { unfold jsumn. rewrite Em, map_map. cbn [fst snd]. apply (total_rev (fun o => dot d (cb o) (u (fst o)))). }
  assert (Z0 : dot d (y0 T) (u T) = 0) by (apply Rsum_z; intros i Hi; rewrite Y0; ring).
  rewrite JS, Z0 in AJ. set (J := total (map (fun o => dot d (cb o) (u (fst o))) obs)) in *.
  assert (XB : ex_RInt (fun t => dot d (eB t) (k t)) 0 T) by (apply ex_RInt_on; [exact HT|]; intros t Ht; apply (dot_cont d eB k); intros i Hi; auto).
  assert (XG : ex_RInt (fun t => dot d (gm t) (u t)) 0 T) by (apply ex_RInt_on; [exact HT|]; intros t Ht; apply (dot_cont d gm u); intros i Hi; auto).
  assert (IR : is_RInt (fun t => Rsum d (fun i => (eB t i + with_jumps y0 ps t i) * k t i)) 0 T (RInt (fun t => dot d (eB t) (k t)) 0 T + (RInt (fun t => dot d (gm t) (u t)) 0 T + J + 0))).
  { pose proof (is_RInt_plus _ _ _ _ _ _ (@RInt_correct R_CompleteNormedModule _ _ _ XB) AJ) as I3. eapply is_RInt_ext; [|exact I3].
    intros t _. unfold plus; cbn. unfold dot. rewrite <- Rsum_plus. apply Rsum_ext. intros; ring. }
  split; [eexists; exact IR|]. intros F HF. rewrite (is_RInt_unique _ _ _ _ IR). clear IR AJ JS Z0 Hf Em Y0.
  (* the moments along the line *)
  assert (HMx : forall x, moments_n d T Sigma m0 s0 A (fun t i => b t i + x * k t i) (fun t i => m t i + x * u t i) S).
  { intros x. destruct HM as (I1 & I2 & D1 & D2). split; [intros i Hi; rewrite (I1 i Hi), U0; ring|]. split; [exact I2|]. split; [|exact D2].
    intros t i Ht Hi. eapply d_eq.
    - apply (d_plus (fun s => m s i) (fun s => x * u s i)); [apply D1; assumption|]. apply (d_mult (fun _ => x) (fun s => u s i)); [apply d_const|apply UD'; assumption].
    - cbv beta. unfold glin. rewrite (Rsum_ext d (fun j => A t i j * (m t j + x * u t j)) (fun j => A t i j * m t j + x * (A t i j * u t j))) by (intros; ring).
      rewrite Rsum_plus, Rsum_scal. ring. }
  assert (FE : forall x, F x = FvalN d e T s0 m0 mu tau Ti Rn Ri obs A (fun t i => b t i + x * k t i) (fun t i => m t i + x * u t i) S).
  { intros x. apply (cfe_iff_n d P e Hq f Hmis T Sigma s0 m0 mu tau Ti Rn Ri obs HT HSs HSp HP H0s H0p Hts Htp HTi Hrs Hrp HRi Hobs A (fun t i => b t i + x * k t i) HA); [apply HMx|apply HF]. }
  destruct (all_bd d T Sigma s0 m0 HT A b m S HA2 Hb2 HM) as (B1 & B10 & HB1).
  destruct (finite_bound (fun i M => forall t, 0 <= t <= T -> Rabs (k t i) <= M /\ Rabs (u t i) <= M) d) as (B2 & B20 & HB2).
  { intros i x y H Hxy t Ht. destruct (H t Ht). lra. }
  { intros i Hi. destruct (smooth_bdd _ _ _ (Hk i Hi)) as (M1 & Z1). destruct (derive_bdd T (fun t => u t i) _ HT (fun t Ht => UD' t i Ht Hi)) as (M2 & Z2).
    exists (Rmax M1 M2). intros t Ht. split; eapply Rle_trans; [apply Z1, Ht|apply Rmax_l|apply Z2, Ht|apply Rmax_r]. }
  destruct (isq_quad d e Hq (Rmax B1 B2)) as (D & C & C0 & HC); [eapply Rle_trans; [exact B10|apply Rmax_l]|].
  assert (HC' : forall t, 0 <= t <= T -> forall x, Rabs x <= 1 ->
     Rabs (e (A t) (fun i => b t i + x * k t i) (fun i => m t i + x * u t i) (S t) - e (A t) (b t) (m t) (S t) - x * (dot d (eB t) (k t) + dot d (gm t) (u t))) <= C * x ^ 2).
  { intros t Ht. destruct (HC (A t) (b t) (m t) (S t) (k t) (u t)) as (_ & _ & Q).
    - destruct (HB1 t Ht) as [Q1 Q2]. split; [intros i j Hi Hj; destruct (Q1 i j Hi Hj)|intros i Hi; destruct (Q2 i Hi)]; split; eapply Rle_trans; try eassumption; apply Rmax_l.
    - intros i Hi. destruct (HB2 i Hi t Ht). split; eapply Rle_trans; try eassumption; apply Rmax_r.
    - pose proof (moments_n_sym d T Sigma s0 m0 A b HT HA m S HM HSs H0s t Ht) as Sy.
      rewrite (quad_d1 d e Hq (A t) (S t) (b t) (m t) (k t) (u t) _ (Hch (A t) (S t) (b t) (m t) (k t) (u t) Sy) _ C Q) in Q. exact Q. }
  clear HC.
  pose proof (inv_symm d Rn Ri Hrs (proj1 HRi) (proj2 HRi)) as HRs.
  set (CO := fun o : R * (nat -> R) => Rabs (1 / 2 * quad d Ri (u (fst o)))).
  apply (derive_quad F _ (C * T + total (map CO obs))). intros x Hx. rewrite !FE. unfold FvalN.
  set (f1 := fun t => e (A t) (fun i => b t i + x * k t i) (fun i => m t i + x * u t i) (S t)). set (f0 := fun t => e (A t) (b t) (m t) (S t)).
  set (f2 := fun t => dot d (eB t) (k t) + dot d (gm t) (u t)).
  assert (S1' : forall z, forall t, 0 <= t <= T -> continuous (fun t => e (A t) (fun i => b t i + z * k t i) (fun i => m t i + z * u t i) (S t)) t).
  { intros z. apply smooth_cont.
    assert (Hbz : forall i, (i < d)%nat -> smooth 1 T (fun t => b t i + z * k t i)).
    { intros i Hi. apply (smooth_plus 1 T (fun t => b t i) (fun t => z * k t i)); [apply Hb, Hi|]. apply (smooth_mult 1 T (fun _ => z) (fun t => k t i)); [apply smooth_const|apply Hk, Hi]. }
    destruct (moments_n_smooth d T Sigma s0 m0 A (fun t i => b t i + z * k t i) (fun t i => m t i + z * u t i) S 1 HT HA Hbz (HMx z) 1 ltac:(lia)) as [Q1 Q2].
    apply (isq_smooth d e 1 T A S (fun t i => b t i + z * k t i) (fun t i => m t i + z * u t i) Hq HA Q2 Hbz Q1). }
  assert (E1 : ex_RInt f1 0 T) by (apply ex_RInt_on; [exact HT|apply (S1' x)]).
  assert (E0 : ex_RInt f0 0 T).
  { apply ex_RInt_on; [exact HT|]. apply smooth_cont. apply (isq_smooth d e 1 T A S b m Hq); auto. }
  assert (E2 : ex_RInt f2 0 T) by (apply (ex_RInt_plus (V := R_NormedModule) (fun t => dot d (eB t) (k t)) (fun t => dot d (gm t) (u t))); assumption).
  assert (R0' : RInt (fun t => e (A t) (fun i => b t i + 0 * k t i) (fun i => m t i + 0 * u t i) (S t)) 0 T = RInt f0 0 T).
  { apply RInt_ext. intros t _. apply (isq_ext d e Hq); intros i; intros; try reflexivity; ring. }
  rewrite R0'. clear R0'.
  assert (R2 : RInt f2 0 T = RInt (fun t => dot d (eB t) (k t)) 0 T + RInt (fun t => dot d (gm t) (u t)) 0 T) by (apply RInt_add; assumption).
  assert (I1 : RInt f1 0 T - RInt f0 0 T - x * RInt f2 0 T = RInt (fun t => f1 t - f0 t - x * f2 t) 0 T).
  { rewrite <- (RInt_cmul x f2) by exact E2. rewrite <- (RInt_sub f1 f0) by assumption. symmetry. apply (RInt_sub (fun t => f1 t - f0 t) (fun t => x * f2 t)); [apply ex_RInt_sub; assumption|].
    apply (ex_RInt_scal (V := R_NormedModule) f2 0 T x E2). }
  assert (I2 : Rabs (RInt (fun t => f1 t - f0 t - x * f2 t) 0 T) <= C * x ^ 2 * (T - 0)).
  { apply RInt_bound; [exact HT| |].
    - apply (ex_RInt_sub (fun t => f1 t - f0 t) (fun t => x * f2 t)); [apply ex_RInt_sub; assumption|]. apply (ex_RInt_scal (V := R_NormedModule) f2 0 T x E2).
    - intros t Ht. apply HC'; assumption. }
  set (U1 := total (map (fun o => nterm d Rn Ri (snd o) (fun i => m (fst o) i + x * u (fst o) i) (S (fst o))) obs)).
  set (U0' := total (map (fun o => nterm d Rn Ri (snd o) (fun i => m (fst o) i + 0 * u (fst o) i) (S (fst o))) obs)).
  assert (TU : U1 - U0' - x * J = total (map (fun o => x ^ 2 * (1 / 2 * quad d Ri (u (fst o)))) obs)).
  { unfold U1, U0', J. rewrite <- (total_scal x), !total_sub. apply total_ext. intros o Ho. rewrite !nterm_dir by exact HRs. unfold cb. ring. }
  assert (TB : Rabs (U1 - U0' - x * J) <= total (map CO obs) * x ^ 2).
  { rewrite TU. unfold CO. clear. pose proof (pow2_ge_0 x) as X. induction obs as [|o l IH]; unfold total; cbn [map fold_right]; [rewrite Rabs_R0; lra|].
    eapply Rle_trans; [apply Rabs_triang|]. unfold total in IH. rewrite Rabs_mult, (Rabs_pos_eq (x ^ 2)) by exact X. rewrite Rmult_plus_distr_r. apply Rplus_le_compat; [lra|exact IH]. }
  change (RInt (fun t => e (A t) (fun i => b t i + x * k t i) (fun i => m t i + x * u t i) (S t)) 0 T) with (RInt f1 0 T).
  match goal with |- Rabs ?z <= _ => replace z with ((RInt f1 0 T - RInt f0 0 T - x * RInt f2 0 T) + (U1 - U0' - x * J)) end.
  2: { rewrite R2. ring. }
  eapply Rle_trans; [apply Rabs_triang|]. rewrite I1. lra.
Qed.
End Fb.
