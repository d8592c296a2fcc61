(** * Proofs about the Cholesky factor, chol_inv and triangular solves. *)
From Coq Require Import ZArith List Bool Arith Reals Lra Lia.
From Verif Require Import Num Arr ArrFacts M_LinAlg M_Utils Spec_Utils P_Trapz.
Import ListNotations.
Local Open Scope R_scope.

(** ** the factor only depends on the lower triangle (any arithmetic) *)
Lemma chol_upto_ext (K : Num) (x x' : mat K) d j :
  (forall i k, (k <= i < d)%nat -> x i k = x' i k) -> (j <= d)%nat ->
  match chol_upto x j, chol_upto x' j with
  | Ok L, Ok L' => forall i k, (i < d)%nat -> L i k = L' i k
  | Err e, Err e' => e = e'
  | _, _ => False
  end.
Proof.
  intros Hx. induction j as [|j IH]; intros Hj; cbn; [reflexivity|].
  specialize (IH ltac:(lia)).
  destruct (chol_upto x j) as [L|e], (chol_upto x' j) as [L'|e']; try contradiction; cbn;
    [|assumption].
  assert (Hs : forall i, (i < d)%nat ->
             sumn j (fun k => nmul (L i k) (L j k)) = sumn j (fun k => nmul (L' i k) (L' j k))).
  { intros i Hi. apply sumn_ext_gen; intros k Hk. rewrite !IH by lia. reflexivity. }
  assert (Hp : chol_pivot x L j = chol_pivot x' L' j).
  { unfold chol_pivot. rewrite Hx, Hs by lia. reflexivity. }
  rewrite Hp. destruct (nlt (nZ 0) (chol_pivot x' L' j)); [|reflexivity].
  intros i k Hi. unfold setcol. destruct (Nat.eqb_spec k j); [|apply IH; lia].
  unfold chol_col. rewrite Hp. destruct (Nat.ltb_spec i j); [reflexivity|].
  destruct (Nat.eqb_spec i j); [reflexivity|]. rewrite Hx, Hs by lia. reflexivity.
Qed.

(** ** invariant of the column loop *)
Definition ltri (d : nat) (L : Rmat) : Prop :=
  (forall i c, (i < c < d)%nat -> L i c = 0) /\ (forall c, (c < d)%nat -> 0 < L c c).

Record chol_inv_upto (x : Rmat) (j : nat) (L : Rmat) : Prop := {
  ci_low : forall i c, (i < c)%nat -> L i c = 0;
  ci_pos : forall c, (c < j)%nat -> 0 < L c c;
  ci_out : forall i c, (j <= c)%nat -> L i c = 0;
  ci_eq : forall i c, (c < j)%nat -> (c <= i)%nat -> rsum (S c) (fun k => L i k * L c k) = x i c;
}.

Lemma chol_upto_inv (x : Rmat) j (L : Rmat) : chol_upto x j = Ok L -> chol_inv_upto x j L.
Proof.
  revert L; induction j as [|j IH]; intros L; cbn [chol_upto].
  - intros [= <-]. split; intros; try lia; reflexivity.
  - destruct (chol_upto x j) as [L0|e]; cbn [bind]; [|discriminate].
    specialize (IH L0 eq_refl). destruct IH as [Hlow Hpos Hout Heq].
    change (nlt (nZ 0) (chol_pivot x L0 j)) with (Rltb 0 (chol_pivot x L0 j)).
    destruct (Rltb_spec 0 (chol_pivot x L0 j)) as [Hp|]; [|discriminate].
    intros [= <-].
    assert (Hq : forall i k, (k <> j)%nat -> setcol j (chol_col x L0 j) L0 i k = L0 i k).
    { intros i k Hk. unfold setcol. destruct (Nat.eqb_spec k j); [lia|reflexivity]. }
    assert (Hqj : forall i, setcol j (chol_col x L0 j) L0 i j = chol_col x L0 j i).
    { intros i. unfold setcol. rewrite Nat.eqb_refl. reflexivity. }
    assert (Hcj : chol_col x L0 j j = sqrt (chol_pivot x L0 j)).
    { unfold chol_col. rewrite Nat.ltb_irrefl, Nat.eqb_refl. reflexivity. }
    assert (Hsp : 0 < sqrt (chol_pivot x L0 j)) by (apply sqrt_lt_R0; exact Hp).
    split.
    + intros i c Hic. destruct (Nat.eq_dec c j) as [->|Hne].
      * rewrite Hqj. unfold chol_col. destruct (Nat.ltb_spec i j); [reflexivity|lia].
      * rewrite Hq by assumption. apply Hlow; assumption.
    + intros c Hc. destruct (Nat.eq_dec c j) as [->|Hne].
      * rewrite Hqj, Hcj. exact Hsp.
      * rewrite Hq by assumption. apply Hpos; lia.
    + intros i c Hc. rewrite Hq by lia. apply Hout; lia.
    + intros i c Hc Hi. destruct (Nat.eq_dec c j) as [->|Hne].
      * rewrite sumn_S, !Hqj.
        rewrite (sumn_ext j _ (fun k => L0 i k * L0 j k)) by (intros k Hk; rewrite !Hq by lia; reflexivity).
        rewrite Hcj. unfold chol_col at 1.
        destruct (Nat.ltb_spec i j); [lia|]. destruct (Nat.eqb_spec i j) as [->|Hij].
        -- change (nsqrt (chol_pivot x L0 j)) with (sqrt (chol_pivot x L0 j)).
           rewrite sqrt_sqrt by lra. unfold chol_pivot; rnum. lra.
        -- rnum. rfield. lra.
      * rewrite <- (Heq i c) by lia. apply sumn_ext; intros k Hk. rewrite !Hq by lia. reflexivity.
Qed.

Lemma chol_inv_ltri x j L : chol_inv_upto x j L -> ltri j L.
Proof. intros [H1 H2 H3 H4]. split; intros; [apply H1; lia|apply H2; lia]. Qed.

Lemma tri_sum d (L : Rmat) i c : ltri d L -> (c < d)%nat ->
  rsum d (fun k => L i k * L c k) = rsum (S c) (fun k => L i k * L c k).
Proof.
  intros [Hlow _] Hc. replace d with (S c + (d - S c))%nat at 1 by lia.
  rewrite sumn_split. rewrite (sumn_zero (d - S c)); [lra|].
  intros k Hk. rewrite (Hlow c) by lia. rring.
Qed.

(** lower triangle of x = L L' *)
Lemma chol_fact d (x L : Rmat) : cholesky d x = Ok L ->
  ltri d L /\ (forall i c, (c <= i < d)%nat -> rsum d (fun k => L i k * L c k) = x i c).
Proof.
  intros H. apply chol_upto_inv in H. pose proof (chol_inv_ltri _ _ _ H) as Ht.
  split; [exact Ht|]. intros i c Hi. rewrite tri_sum by (auto; lia). apply H; lia.
Qed.

Lemma chol_fact_sym d (x L : Rmat) : msym d x -> cholesky d x = Ok L ->
  ltri d L /\ meq d (mmul d L (mtr L)) x.
Proof.
  intros Hs H. apply chol_fact in H as [Ht H]. split; [exact Ht|].
  intros i j Hi Hj. unfold mmul, mtr; rnum. destruct (le_lt_dec j i) as [Hle|Hlt].
  - apply H; lia.
  - rewrite Hs by lia. rewrite <- (H j i) by lia. apply sumn_ext; intros; rring.
Qed.

(** ** triangular systems *)
Lemma lower_inj d (L : Rmat) (y : Rvec) : ltri d L ->
  (forall i, (i < d)%nat -> rsum d (fun k => L i k * y k) = 0) -> forall i, (i < d)%nat -> y i = 0.
Proof.
  intros [Hlow Hpos] H i. induction i as [i IH] using (well_founded_induction lt_wf). intros Hi.
  specialize (H i Hi). rewrite (sumn_single d _ i Hi) in H.
  - specialize (Hpos i Hi). nra.
  - intros j Hj Hne. destruct (lt_eq_lt_dec j i) as [[Hlt|Hq]|Hgt]; [|lia|].
    + rewrite (IH j) by lia. rring.
    + rewrite (Hlow i j) by lia. rring.
Qed.

Lemma upper_inj d (L : Rmat) (y : Rvec) : ltri d L ->
  (forall i, (i < d)%nat -> rsum d (fun k => L k i * y k) = 0) -> forall i, (i < d)%nat -> y i = 0.
Proof.
  intros [Hlow Hpos] H.
  assert (G : forall m i, (i < d)%nat -> (d - i <= m)%nat -> y i = 0).
  { induction m as [|m IH]; intros i Hi Hm; [lia|].
    specialize (H i Hi). rewrite (sumn_single d _ i Hi) in H.
    - specialize (Hpos i Hi). nra.
    - intros j Hj Hne. destruct (lt_eq_lt_dec j i) as [[Hlt|Hq]|Hgt]; [|lia|].
      + rewrite (Hlow j i) by lia. rring.
      + rewrite (IH j) by lia. rring. }
  intros i Hi. apply (G (d - i)%nat); lia.
Qed.

Lemma upper_solve j (L : Rmat) : ltri j L -> forall u : nat -> R,
  exists v : nat -> R, forall c, (c < j)%nat -> rsum j (fun i => L i c * v i) = u c.
Proof.
  induction j as [|j IH]; intros [Hlow Hpos] u.
  - exists (fun _ => 0). intros; lia.
  - set (z := u j / L j j).
    assert (Ht' : ltri j L) by (split; intros; [apply Hlow|apply Hpos]; lia).
    destruct (IH Ht' (fun c => u c - L j c * z)) as [v Hv].
    exists (fun i => if Nat.eqb i j then z else v i). intros c Hc. rewrite sumn_S, Nat.eqb_refl.
    rewrite (sumn_ext j _ (fun i => L i c * v i)).
    2:{ intros i Hi. destruct (Nat.eqb_spec i j); [lia|reflexivity]. }
    destruct (Nat.eq_dec c j) as [->|Hne].
    + rewrite sumn_zero by (intros i Hi; rewrite (Hlow i j) by lia; rring).
      unfold z. specialize (Hpos j ltac:(lia)). rnum_in_all. rfield. lra.
    + rewrite Hv by lia. rnum. rring.
Qed.

(** ** quadratic forms *)
Definition qf (d : nat) (x : Rmat) (v : Rvec) : R := rsum d (fun i => rsum d (fun j => v i * x i j * v j)).

Lemma posdef_qf d x : posdef d x <-> forall v : Rvec, (exists i, (i < d)%nat /\ v i <> 0) -> 0 < qf d x v.
Proof.
  assert (E : forall v : Rvec, Rsum d (fun i => Rsum d (fun j => v i * x i j * v j)) = qf d x v).
  { intros v. unfold qf. rewrite Rsum_rsum. apply sumn_ext; intros. apply Rsum_rsum. }
  unfold posdef. split; intros H v Hv; specialize (H v Hv).
  - rewrite <- E. exact H.
  - rewrite E. exact H.
Qed.

Lemma qf_gram d n (L : nat -> nat -> R) (v : Rvec) :
  rsum d (fun i => rsum d (fun j => v i * rsum n (fun k => L i k * L j k) * v j)) =
  rsum n (fun k => rsum d (fun i => v i * L i k) * rsum d (fun i => v i * L i k)).
Proof.
  transitivity (rsum d (fun i => rsum n (fun k => (v i * L i k) * rsum d (fun j => v j * L j k)))).
  - apply sumn_ext; intros i Hi.
    transitivity (rsum d (fun j => rsum n (fun k => (v i * L i k) * (v j * L j k)))).
    + apply sumn_ext; intros j Hj. rewrite <- sumn_scal, <- sumn_scal_r.
      apply sumn_ext; intros; rring.
    + rewrite sumn_swap. apply sumn_ext; intros k Hk. rewrite sumn_scal. reflexivity.
  - rewrite sumn_swap. apply sumn_ext; intros k Hk. rewrite sumn_scal_r. reflexivity.
Qed.

Lemma qf_ext d (x x' : Rmat) v : meq d x x' -> qf d x v = qf d x' v.
Proof. intros H. apply sumn_ext; intros i Hi. apply sumn_ext; intros j Hj. rewrite H by auto. reflexivity. Qed.

Lemma chol_posdef d (x L : Rmat) : ltri d L -> meq d (mmul d L (mtr L)) x -> posdef d x.
Proof.
  intros Ht Hx. apply posdef_qf. intros v (i0 & Hi0 & Hv).
  rewrite <- (qf_ext d _ _ v Hx). unfold qf, mmul, mtr; rnum. rewrite qf_gram.
  set (g := fun k => rsum d (fun i => v i * L i k)).
  change (0 < rsum d (fun k => g k * g k)).
  assert (Hn : 0 <= vdot d g g) by apply vdot_self_nonneg.
  destruct (Rle_lt_or_eq_dec _ _ Hn) as [H|H]; [exact H|exfalso].
  symmetry in H. pose proof (vdot_self_zero d g H) as Hz.
  apply Hv. apply (upper_inj d L v Ht); [|exact Hi0].
  intros i Hi. rewrite <- (Hz i Hi). apply sumn_ext; intros; rring.
Qed.

(** restricting a quadratic form to the first m coordinates *)
Lemma sumn_restrict d m (f : nat -> R) : (m <= d)%nat ->
  (forall i, (m <= i < d)%nat -> f i = 0) -> rsum d f = rsum m f.
Proof.
  intros Hm H. replace d with (m + (d - m))%nat by lia. rewrite sumn_split.
  rewrite (sumn_zero (d - m)); [lra|]. intros; apply H; lia.
Qed.

Lemma pivot_pos d (x L : Rmat) j : msym d x -> posdef d x -> (j < d)%nat ->
  chol_inv_upto x j L -> 0 < chol_pivot x L j.
Proof.
  intros Hs Hpd Hj HL. pose proof (chol_inv_ltri _ _ _ HL) as Ht.
  destruct (upper_solve j L Ht (fun c => - L j c)) as [w Hw].
  set (v := fun i => if Nat.ltb i j then w i else if Nat.eqb i j then 1 else 0).
  assert (Hvj : v j = 1) by (unfold v; rewrite Nat.ltb_irrefl, Nat.eqb_refl; reflexivity).
  assert (Hvz : forall i, (S j <= i)%nat -> v i = 0).
  { intros i Hi. unfold v. destruct (Nat.ltb_spec i j); [lia|]. destruct (Nat.eqb_spec i j); [lia|reflexivity]. }
  assert (Hvw : forall i, (i < j)%nat -> v i = w i).
  { intros i Hi. unfold v. destruct (Nat.ltb_spec i j); [reflexivity|lia]. }
  apply posdef_qf in Hpd.
  specialize (Hpd v). assert (Hex : exists i, (i < d)%nat /\ v i <> 0) by (exists j; split; [exact Hj|rewrite Hvj; lra]).
  specialize (Hpd Hex).
  enough (Hq : qf d x v = chol_pivot x L j) by (rewrite <- Hq; exact Hpd).
  unfold qf. rewrite (sumn_restrict d (S j)) by (try lia; intros; apply sumn_zero; intros; rewrite Hvz by lia; rring).
  rewrite (sumn_ext (S j) _ (fun i => rsum (S j) (fun i' => v i * x i i' * v i'))).
  2:{ intros i Hi. apply sumn_restrict; [lia|]. intros; rewrite (Hvz i0) by lia; rring. }
  (* x i i' as Gram entries plus the pivot at (j,j) *)
  assert (Hx : forall i i', (i <= j)%nat -> (i' <= j)%nat ->
            x i i' = rsum j (fun k => L i k * L i' k) +
                     (if Nat.eqb i j then if Nat.eqb i' j then chol_pivot x L j else 0 else 0)).
  { assert (G : forall i c, (c < j)%nat -> (c <= i)%nat -> rsum j (fun k => L i k * L c k) = x i c).
    { intros i c Hc Hi. rewrite tri_sum by assumption. apply HL; assumption. }
    intros i i' Hi Hi'. destruct (Nat.eqb_spec i j) as [->|Hij].
    - destruct (Nat.eqb_spec i' j) as [->|Hij'].
      + unfold chol_pivot; rnum. lra.
      + rewrite G by lia. lra.
    - destruct (le_lt_dec i' i).
      + rewrite G by lia. lra.
      + rewrite Hs by lia. rewrite <- (G i' i) by lia.
        rewrite Rplus_0_r. apply sumn_ext; intros; rring. }
  transitivity (rsum (S j) (fun i => rsum (S j) (fun i' => v i * rsum j (fun k => L i k * L i' k) * v i'))
                + chol_pivot x L j).
  - rewrite (sumn_ext (S j) _ (fun i => rsum (S j) (fun i' => v i * rsum j (fun k => L i k * L i' k) * v i') +
         (if Nat.eqb i j then chol_pivot x L j else 0))).
    + rewrite sumn_plus. f_equal. rewrite (sumn_single (S j) _ j) by
        (first [lia | intros k Hk Hne; destruct (Nat.eqb_spec k j); [lia|reflexivity]]).
      rewrite Nat.eqb_refl. reflexivity.
    + intros i Hi.
      rewrite (sumn_ext (S j) _ (fun i' => v i * rsum j (fun k => L i k * L i' k) * v i' +
          v i * (if Nat.eqb i j then if Nat.eqb i' j then chol_pivot x L j else 0 else 0) * v i')).
      2:{ intros i' Hi'. rewrite (Hx i i') by lia. rring. }
      rewrite sumn_plus. f_equal. destruct (Nat.eqb_spec i j) as [->|Hij].
      * rewrite (sumn_single (S j) _ j) by
          (first [lia | intros k Hk Hne; destruct (Nat.eqb_spec k j); [lia|rring]]).
        rewrite Nat.eqb_refl, Hvj. rring.
      * apply sumn_zero; intros; rring.
  - rewrite qf_gram. rewrite sumn_zero; [lra|]. intros k Hk.
    assert (Hz : rsum (S j) (fun i => v i * L i k) = 0).
    { rewrite sumn_S, Hvj.
      rewrite (sumn_ext j _ (fun i => L i k * w i)) by (intros i Hi; rewrite Hvw by lia; rring).
      rewrite Hw by exact Hk. rring. }
    rewrite Hz. rring.
Qed.

Lemma chol_succeeds d (x : Rmat) : msym d x -> posdef d x -> exists L, cholesky d x = Ok L.
Proof.
  intros Hs Hpd. unfold cholesky.
  assert (G : forall j, (j <= d)%nat -> exists L, chol_upto x j = Ok L).
  { induction j as [|j IH]; intros Hj; [eexists; reflexivity|].
    destruct (IH ltac:(lia)) as [L HL]. cbn [chol_upto]. rewrite HL. cbn [bind].
    change (nlt (nZ 0) (chol_pivot x L j)) with (Rltb 0 (chol_pivot x L j)).
    destruct (Rltb_spec 0 (chol_pivot x L j)) as [|Hn]; [eexists; reflexivity|].
    exfalso. apply Hn. apply (pivot_pos d); auto. apply chol_upto_inv, HL. }
  apply G; lia.
Qed.

Lemma chol_err (x : Rmat) j e : chol_upto x j = Err e -> e = LinAlgError.
Proof.
  induction j as [|j IH]; cbn [chol_upto]; [discriminate|].
  destruct (chol_upto x j) as [L|e']; cbn [bind].
  - destruct (nlt _ _); congruence.
  - intros [= <-]. auto.
Qed.

Lemma chol_iff d (x : Rmat) : msym d x ->
  (posdef d x <-> exists L, cholesky d x = Ok L) /\
  (~ posdef d x -> cholesky d x = Err LinAlgError).
Proof.
  intros Hs. split; [split|].
  - apply chol_succeeds; assumption.
  - intros [L HL]. apply chol_fact_sym in HL as [Ht Hx]; [|exact Hs]. eapply chol_posdef; eauto.
  - intros Hn. destruct (cholesky d x) as [L|e] eqn:H.
    + exfalso. apply Hn. apply chol_fact_sym in H as [Ht Hx]; [|exact Hs]. eapply chol_posdef; eauto.
    + apply chol_err in H. subst; reflexivity.
Qed.

(** ** forward substitution *)
Lemma fwd_subst_row (L B : Rmat) n r c : (r < n)%nat -> L r r <> 0 ->
  rsum (S r) (fun k => L r k * fwd_subst L B n k c) = B r c.
Proof.
  induction n as [|n IH]; intros Hr HL; [lia|]. cbn [fwd_subst]. unfold setrow.
  destruct (Nat.eq_dec r n) as [->|Hne].
  - rewrite sumn_S, Nat.eqb_refl.
    rewrite (sumn_ext n _ (fun k => L n k * fwd_subst L B n k c)).
    2:{ intros k Hk. destruct (Nat.eqb_spec k n); [lia|reflexivity]. }
    rnum. rfield. exact HL.
  - rewrite <- IH by (auto; lia). apply sumn_ext; intros k Hk.
    destruct (Nat.eqb_spec k n); [lia|reflexivity].
Qed.

Lemma solve_lower_spec d (L B : Rmat) : ltri d L ->
  forall r c, (r < d)%nat -> rsum d (fun k => L r k * solve_lower d L B k c) = B r c.
Proof.
  intros [Hlow Hpos] r c Hr. rewrite (sumn_restrict d (S r)) by
    (try lia; intros; rewrite Hlow by lia; rring).
  apply fwd_subst_row; [exact Hr|]. specialize (Hpos r Hr). lra.
Qed.

Lemma solve_lower_unique d (L B X : Rmat) : ltri d L ->
  (forall r c, (r < d)%nat -> (c < d)%nat -> rsum d (fun k => L r k * X k c) = B r c) ->
  meq d X (solve_lower d L B).
Proof.
  intros Ht HX i c Hi Hc.
  enough (X i c - solve_lower d L B i c = 0) by lra.
  apply (lower_inj d L (fun k => X k c - solve_lower d L B k c) Ht); [|exact Hi].
  intros r Hr.
  transitivity (rsum d (fun k => L r k * X k c) - rsum d (fun k => L r k * solve_lower d L B k c)).
  - rewrite <- sumn_minus. apply sumn_ext; intros; rring.
  - rewrite HX, solve_lower_spec by assumption. lra.
Qed.

Lemma left_inverse d (L C : Rmat) : ltri d L -> meq d (mmul d L C) meye -> meq d (mmul d C L) meye.
Proof.
  intros Ht H i j Hi Hj.
  enough (mmul d C L i j - meye i j = 0) by lra.
  apply (lower_inj d L (fun k => mmul d C L k j - meye k j) Ht); [|exact Hi].
  intros r Hr.
  transitivity (mmul d L (mmul d C L) r j - mmul d L meye r j).
  - change (rsum d (fun k => L r k * (mmul d C L k j - meye k j)) =
            rsum d (fun k => L r k * mmul d C L k j) - rsum d (fun k => L r k * meye k j)).
    rewrite <- sumn_minus. apply sumn_ext; intros; rring.
  - rewrite mmul_assoc. rewrite (mmul_ext d (mmul d L C) meye L L H (meq_refl _ _)) by assumption.
    rewrite mmul_eye_l, mmul_eye_r by assumption. lra.
Qed.

Lemma mtr_meq d A B : meq d A B -> meq d (mtr A) (mtr B).
Proof. intros H i j Hi Hj. unfold mtr. auto. Qed.
Lemma mtr_eye d : meq d (mtr (@meye RNum)) meye.
Proof. intros i j _ _. unfold mtr, meye. rewrite Nat.eqb_sym. reflexivity. Qed.

Lemma chol_inv_fast_spec d (x y c : Rmat) : msym d x -> chol_inv_fast d x = Ok (y, c) ->
  exists L, cholesky d x = Ok L /\ ltri d L /\ meq d (mmul d L (mtr L)) x /\
  meq d (mmul d L c) meye /\ meq d (mmul d c L) meye /\
  y = mmul d (mtr c) c /\
  meq d (mmul d x y) meye /\ meq d (mmul d y x) meye /\ msym d y.
Proof.
  intros Hs H. unfold chol_inv_fast in H. destruct (cholesky d x) as [L|e] eqn:HL; [|discriminate].
  cbn [bind] in H. injection H as Hy Hc. subst c.
  exists L. split; [reflexivity|].
  apply chol_fact_sym in HL as [Ht Hx]; [|exact Hs].
  set (c := solve_lower d L meye) in *.
  assert (HLc : meq d (mmul d L c) meye) by (intros r k Hr Hk; apply solve_lower_spec; assumption).
  pose proof (left_inverse d L c Ht HLc) as HcL.
  repeat split; try assumption; try (apply Ht); [symmetry; exact Hy| | |]; subst y.
  - (* x y = L (L' c') c = L (c L)' c = L c *)
    intros i j Hi Hj.
    rewrite (mmul_ext d x (mmul d L (mtr L)) _ _ (meq_sym _ _ _ Hx) (meq_refl _ _)) by assumption.
    rewrite <- mmul_assoc.
    rewrite (mmul_ext d L L _ c (meq_refl _ _)); [apply HLc; assumption| |assumption|assumption].
    intros a b Ha Hb. rewrite mmul_assoc.
    rewrite (mmul_ext d (mmul d (mtr L) (mtr c)) meye c c); auto using meq_refl.
    + apply mmul_eye_l; assumption.
    + intros a' b' Ha' Hb'. rewrite <- mtr_mmul. rewrite (mtr_meq _ _ _ HcL) by assumption.
      apply mtr_eye with (d := d); assumption.
  - intros i j Hi Hj.
    rewrite (mmul_ext d _ _ x (mmul d L (mtr L)) (meq_refl _ _) (meq_sym _ _ _ Hx)) by assumption.
    rewrite <- mmul_assoc.
    rewrite (mmul_ext d (mtr c) (mtr c) _ (mtr L) (meq_refl _ _)); [| |assumption|assumption].
    + rewrite <- mtr_mmul. rewrite (mtr_meq _ _ _ HLc) by assumption.
      apply mtr_eye with (d := d); assumption.
    + intros a b Ha Hb. rewrite mmul_assoc.
      rewrite (mmul_ext d (mmul d c L) meye (mtr L) (mtr L)); auto using meq_refl.
      apply mmul_eye_l; assumption.
  - intros i j Hi Hj. unfold mmul, mtr. apply sumn_ext; intros; rnum; rring.
Qed.

(** ** to the vocabulary of the specification *)
Lemma is_prod_mmul d (A B C : Rmat) : is_prod d A B C <-> meq d (mmul d A B) C.
Proof.
  unfold is_prod, meq, mmul. split; intros H i j Hi Hj; specialize (H i j Hi Hj).
  - rewrite <- H. symmetry. apply Rsum_rsum.
  - etransitivity; [apply Rsum_rsum|exact H].
Qed.
Lemma ident_eye : ident = meye (K:=RNum).
Proof. reflexivity. Qed.

Lemma chol_inv_matrix d (x : Rmat) : symm d x ->
  (posdef d x -> exists y c L : Rmat,
     chol_inv (A2 d d x) = Ok (A2 d d y, A2 d d c) /\
     is_prod d x y ident /\ is_prod d y x ident /\ symm d y /\ is_prod d (transp c) c y /\
     lower_tri d L /\ is_prod d L (transp L) x /\ is_prod d L c ident /\ is_prod d c L ident) /\
  (~ posdef d x -> chol_inv (A2 d d x) = Err LinAlgError).
Proof.
  intros Hs. destruct (chol_iff d x Hs) as [[Hok _] Herr]. split.
  - intros Hpd. destruct (Hok Hpd) as [L HL].
    destruct (chol_inv_fast d x) as [[y c]|e] eqn:Hf.
    2:{ unfold chol_inv_fast in Hf. rewrite HL in Hf. discriminate. }
    destruct (chol_inv_fast_spec d x y c Hs Hf) as (L' & HL' & Ht & Hx & HLc & HcL & Hy & Hxy & Hyx & Hsy).
    exists y, c, L'. cbn [chol_inv]. rewrite Nat.eqb_refl, Hf. cbn [bind].
    rewrite !ident_eye.
    repeat split; try (apply is_prod_mmul; assumption); try assumption; try (apply Ht).
    subst y. apply is_prod_mmul. apply meq_refl.
  - intros Hn. cbn [chol_inv]. rewrite Nat.eqb_refl. unfold chol_inv_fast. rewrite (Herr Hn). reflexivity.
Qed.

Lemma chol_inv_scalar (x : R) : 0 < x -> exists y c : R,
  chol_inv (K:=RNum) (A0 x) = Ok (A0 (y : RNum), A0 (c : RNum)) /\ x * y = 1 /\ y = c * c /\ c * sqrt x = 1.
Proof.
  intros Hx. exists (1 / x), (1 / sqrt x). cbn [chol_inv].
  pose proof (sqrt_lt_R0 x Hx). repeat split.
  - rfield; lra.
  - transitivity (1 / (sqrt x * sqrt x)); [rewrite sqrt_sqrt by lra; reflexivity|rfield; lra].
  - rfield; lra.
Qed.
