(** * Real matrices: determinants of products, derivative of the determinant, products of
    commuting positive definite matrices. *)
From Coq Require Import Reals Lra Lia Arith Bool List FunctionalExtensionality.
From Coquelicot Require Import Coquelicot.
From Verif Require Import Num Arr ArrFacts M_LinAlg Spec_Utils Spec_Det P_Trapz P_LinAlg P_Det.
Local Open Scope R_scope.

Lemma Rsum_plus n f g : Rsum n (fun i => f i + g i) = Rsum n f + Rsum n g.
Proof. exact (sumn_plus n f g). Qed.
Lemma Rsum_minus n f g : Rsum n (fun i => f i - g i) = Rsum n f - Rsum n g.
Proof. exact (sumn_minus n f g). Qed.
Lemma Rsum_opp n f : Rsum n (fun i => - f i) = - Rsum n f.
Proof. exact (sumn_opp n f). Qed.
Lemma Rsum_scal n a f : Rsum n (fun i => a * f i) = a * Rsum n f.
Proof. exact (sumn_scal n a f). Qed.
Lemma Rsum_scal_r n a f : Rsum n (fun i => f i * a) = Rsum n f * a.
Proof. exact (sumn_scal_r n a f). Qed.
Lemma Rsum_z n f : (forall i, (i < n)%nat -> f i = 0) -> Rsum n f = 0.
Proof. exact (sumn_zero n f). Qed.
Lemma Rsum_const n c : Rsum n (fun _ => c) = INR n * c.
Proof. exact (sumn_const n c). Qed.
Lemma Rsum_swap n m f : Rsum n (fun i => Rsum m (fun j => f i j)) = Rsum m (fun j => Rsum n (fun i => f i j)).
Proof. exact (sumn_swap n m f). Qed.
Lemma Rsum_single n f i : (i < n)%nat -> (forall j, (j < n)%nat -> j <> i -> f j = 0) -> Rsum n f = f i.
Proof. exact (sumn_single n f i). Qed.
Lemma Rsum_nonneg n f : (forall i, (i < n)%nat -> 0 <= f i) -> 0 <= Rsum n f.
Proof. exact (sumn_nonneg n f). Qed.
Lemma Rsum_le n f g : (forall i, (i < n)%nat -> f i <= g i) -> Rsum n f <= Rsum n g.
Proof. exact (sumn_le n f g). Qed.
Lemma Rsum_ge_term n f i : (forall k, (k < n)%nat -> 0 <= f k) -> (i < n)%nat -> f i <= Rsum n f.
Proof. exact (sumn_ge_term n f i). Qed.
Lemma Rsum_shift n f : Rsum (S n) f = f O + Rsum n (fun i => f (S i)).
Proof. exact (sumn_shift n f). Qed.

Definition rmm (d : nat) (A B : nat -> nat -> R) : nat -> nat -> R := fun i j => Rsum d (fun k => A i k * B k j).
Definition rmv (d : nat) (A : nat -> nat -> R) (v : nat -> R) : nat -> R := fun i => Rsum d (fun k => A i k * v k).
Definition rdot (d : nat) (u v : nat -> R) : R := Rsum d (fun k => u k * v k).
Definition rtr (d : nat) (A : nat -> nat -> R) : R := Rsum d (fun i => A i i).
Definition rmeq (d : nat) (A B : nat -> nat -> R) : Prop :=
  forall i j, (i < d)%nat -> (j < d)%nat -> A i j = B i j.

Lemma detR_rext d (x y : nat -> nat -> R) : rmeq d x y -> detR d x = detR d y.
Proof. intros H. apply detR_ext. exact H. Qed.
Lemma rmm_assoc d A B C i j : rmm d A (rmm d B C) i j = rmm d (rmm d A B) C i j.
Proof. exact (mmul_assoc d A B C i j). Qed.
Lemma rmm_ext d A A' B B' : rmeq d A A' -> rmeq d B B' -> rmeq d (rmm d A B) (rmm d A' B').
Proof. exact (mmul_ext d A A' B B'). Qed.
Lemma rmm_id_l d A i j : (i < d)%nat -> rmm d ident A i j = A i j.
Proof. exact (mmul_eye_l d A i j). Qed.
Lemma rmm_id_r d A i j : (j < d)%nat -> rmm d A ident i j = A i j.
Proof. exact (mmul_eye_r d A i j). Qed.
Lemma rtr_comm d A B : rtr d (rmm d A B) = rtr d (rmm d B A).
Proof.
  unfold rtr, rmm. rewrite Rsum_swap. apply Rsum_ext; intros. apply Rsum_ext; intros; ring.
Qed.

(** ** determinants of products *)
Lemma det_lin_sum n p m (c : nat -> R) (v : nat -> nat -> R) x : (p < n)%nat ->
  detR n (setr p (fun j => Rsum m (fun k => c k * v k j)) x) = Rsum m (fun k => c k * detR n (setr p (v k) x)).
Proof.
  intros Hp. induction m as [|m IH].
  - cbn [Rsum]. transitivity (detR n (setr p (fun j => 0 * v O j + 0 * v O j) x)).
    + apply detR_rext. intros i j _ _. unfold setr. destruct (Nat.eqb i p); [ring|reflexivity].
    + rewrite det_lin by exact Hp. ring.
  - rewrite Rsum_S, <- IH.
    transitivity (detR n (setr p (fun j => 1 * Rsum m (fun k => c k * v k j) + c m * v m j) x)).
    + apply detR_rext. intros i j _ _. unfold setr. destruct (Nat.eqb i p); [cbn [Rsum]; ring|reflexivity].
    + rewrite det_lin by exact Hp. ring.
Qed.

Lemma det_rows_eq n p q x : (p < n)%nat -> (q < n)%nat -> p <> q ->
  (forall j, (j < n)%nat -> x p j = x q j) -> detR n x = 0.
Proof.
  intros Hp Hq Hne He. destruct (Nat.lt_ge_cases p q) as [H|H].
  - apply (det_eq_rows n (q - p - 1) p); [lia|]. intros j Hj. rewrite He by lia. f_equal. lia.
  - apply (det_eq_rows n (p - q - 1) q); [lia|]. intros j Hj. rewrite <- He by lia. f_equal. lia.
Qed.

Lemma Rprod_S n f : Rprod (S n) f = Rprod n f * f n. Proof. reflexivity. Qed.

(** replacing row p by a combination of all rows multiplies by the coefficient of row p *)
Lemma det_row_comb n p (c : nat -> R) x : (p < n)%nat ->
  detR n (setr p (fun j => Rsum n (fun k => c k * x k j)) x) = c p * detR n x.
Proof.
  intros Hp. rewrite det_lin_sum by exact Hp.
  rewrite (Rsum_single n _ p Hp).
  - f_equal. apply detR_rext. intros i j _ _. unfold setr.
    destruct (Nat.eqb_spec i p); [subst; reflexivity|reflexivity].
  - intros k Hk Hne. rewrite (det_rows_eq n p k); [ring|exact Hp|exact Hk|auto|].
    intros j Hj. unfold setr. rewrite Nat.eqb_refl. destruct (Nat.eqb_spec k p); [congruence|reflexivity].
Qed.

(** lower triangular factor *)
Lemma det_lower d (L X : nat -> nat -> R) : (forall i j, (i < j < d)%nat -> L i j = 0) ->
  detR d (rmm d L X) = Rprod d (fun i => L i i) * detR d X.
Proof.
  intros HL.
  set (Z := fun p i j => if Nat.ltb i p then X i j else rmm d L X i j).
  assert (H : forall p, (p <= d)%nat ->
            detR d (Z (d - p)%nat) * Rprod (d - p) (fun i => L i i) = Rprod d (fun i => L i i) * detR d X).
  { induction p as [|p IH]; intros Hp.
    - rewrite Nat.sub_0_r. rewrite (detR_rext d (Z d) X); [ring|].
      intros i j Hi Hj. unfold Z. destruct (Nat.ltb_spec i d); [reflexivity|lia].
    - specialize (IH ltac:(lia)). set (q := (d - S p)%nat) in *.
      replace (d - p)%nat with (S q) in IH by (unfold q; lia).
      rewrite Rprod_S in IH.
      assert (E : detR d (Z q) = L q q * detR d (Z (S q))).
      { rewrite <- (det_row_comb d q (fun k => L q k) (Z (S q))) by (unfold q; lia).
        apply detR_rext. intros i j Hi Hj. unfold setr, Z.
        destruct (Nat.eqb_spec i q) as [->|Hne].
        - destruct (Nat.ltb_spec q q); [lia|]. unfold rmm at 1. apply Rsum_ext. intros k Hk.
          destruct (Nat.ltb_spec k (S q)); [reflexivity|]. rewrite HL by lia. ring.
        - destruct (Nat.ltb_spec i q), (Nat.ltb_spec i (S q)); try lia; reflexivity. }
      rewrite E. rewrite <- IH. ring. }
  specialize (H d (Nat.le_refl d)). rewrite Nat.sub_diag in H. cbn [Rprod] in H. rewrite Rmult_1_r in H.
  rewrite <- H. apply detR_rext. intros i j _ _. reflexivity.
Qed.
(** upper triangular factor *)
Lemma det_upper d (U X : nat -> nat -> R) : (forall i j, (j < i < d)%nat -> U i j = 0) ->
  detR d (rmm d U X) = Rprod d (fun i => U i i) * detR d X.
Proof.
  intros HU.
  set (Z := fun p i j => if Nat.ltb i p then rmm d U X i j else X i j).
  assert (H : forall p, (p <= d)%nat -> detR d (Z p) = Rprod p (fun i => U i i) * detR d X).
  { induction p as [|p IH]; intros Hp.
    - cbn [Rprod]. rewrite Rmult_1_l. apply detR_rext. intros i j _ _. reflexivity.
    - specialize (IH ltac:(lia)). rewrite Rprod_S.
      assert (E : detR d (Z (S p)) = U p p * detR d (Z p)).
      { rewrite <- (det_row_comb d p (fun k => U p k) (Z p)) by lia.
        apply detR_rext. intros i j Hi Hj. unfold setr, Z.
        destruct (Nat.eqb_spec i p) as [->|Hne].
        - destruct (Nat.ltb_spec p (S p)); [|lia]. unfold rmm at 1. apply Rsum_ext. intros k Hk.
          destruct (Nat.ltb_spec k p); [rewrite HU by lia; ring|reflexivity].
        - destruct (Nat.ltb_spec i p), (Nat.ltb_spec i (S p)); try lia; reflexivity. }
      rewrite E, IH. ring. }
  rewrite <- (H d (Nat.le_refl d)). apply detR_rext. intros i j Hi _. unfold Z.
  destruct (Nat.ltb_spec i d); [reflexivity|lia].
Qed.

Lemma chol_ex d (x : nat -> nat -> R) : symm d x -> posdef d x ->
  exists L : nat -> nat -> R, lower_tri d L /\ rmeq d (rmm d L (transp L)) x.
Proof.
  intros Hs Hp. destruct (chol_succeeds d x Hs Hp) as [L HL].
  apply chol_fact_sym in HL as [Ht HL]; [|exact Hs]. exists L. split; [|exact HL].
  split; intros; apply Ht; lia.
Qed.
Lemma det_gram d (L : nat -> nat -> R) : lower_tri d L ->
  detR d (rmm d L (transp L)) = Rprod d (fun i => L i i) * Rprod d (fun i => L i i).
Proof.
  intros [H1 H2]. apply (detR_gram d L). split; [|exact H2]. intros i c Hc. apply H1. lia.
Qed.
Lemma det_mul_pd d (A B : nat -> nat -> R) : symm d A -> posdef d A ->
  detR d (rmm d A B) = detR d A * detR d B.
Proof.
  intros Hs Hp. destruct (chol_ex d A Hs Hp) as (L & HL & E).
  rewrite (detR_rext d (rmm d A B) (rmm d L (rmm d (transp L) B))).
  - rewrite det_lower by apply HL. rewrite det_upper.
    + rewrite <- (detR_rext d _ _ E), det_gram by exact HL. unfold transp. ring.
    + intros i j Hij. unfold transp. apply HL. lia.
  - intros i j Hi Hj. rewrite rmm_assoc.
    apply rmm_ext; [|intros ? ? _ _; reflexivity|exact Hi|exact Hj].
    intros a b Ha Hb. symmetry. apply E; assumption.
Qed.
Lemma det_ident d : detR d ident = 1.
Proof.
  rewrite (detR_rext d ident (mdiag (K:=RNum) (fun _ => 1))).
  - rewrite detR_diag. induction d as [|d IH]; [reflexivity|]. rewrite Rprod_S, IH. rring.
  - intros i j _ _. unfold ident, mdiag. destruct (Nat.eqb i j); reflexivity.
Qed.
Lemma det_inv_pd d (A P : nat -> nat -> R) : symm d A -> posdef d A -> is_prod d A P ident ->
  detR d P = / detR d A.
Proof.
  intros Hs Hp HP. assert (H : detR d (rmm d A P) = 1) by (rewrite <- (det_ident d); apply detR_rext; exact HP).
  rewrite det_mul_pd in H by assumption. pose proof (posdef_det d A Hs Hp). field_simplify_eq; lra.
Qed.

(** ** derivative of the determinant *)
Lemma is_derive_Rsum' n (f : R -> nat -> R) (f' : nat -> R) t :
  (forall i, (i < n)%nat -> is_derive (fun s => f s i) t (f' i)) ->
  is_derive (fun s => Rsum n (f s)) t (Rsum n f').
Proof.
  induction n as [|n IH]; intros H; cbn [Rsum].
  - apply (is_derive_ext (fun _ : R => 0)); [reflexivity|]. apply @is_derive_const.
  - apply @is_derive_plus; [apply IH; intros; apply H; lia|apply H; lia].
Qed.

Lemma det_derive_ex d : forall (X : R -> nat -> nat -> R) X' t,
  (forall i j, (i < d)%nat -> (j < d)%nat -> is_derive (fun s => X s i j) t (X' i j)) ->
  exists l : R, is_derive (fun s => detR d (X s)) t l.
Proof.
  induction d as [|d IH]; intros X X' t H.
  - exists 0. apply (is_derive_ext (fun _ : R => 1)); [reflexivity|]. apply @is_derive_const.
  - assert (Hm : forall i, (i < S d)%nat -> exists l : R, is_derive (fun s => detR d (minor i (X s))) t l).
    { intros i Hi. apply (IH (fun s => minor i (X s)) (minor i X')). intros r c Hr Hc.
      apply H; [apply skip_lt; lia|lia]. }
    assert (Ha : forall n, (n <= S d)%nat -> exists l : R,
       is_derive (fun s => Rsum n (fun i => (-1) ^ i * X s i O * detR d (minor i (X s)))) t l).
    { induction n as [|n IHn]; intros Hn.
      - exists 0. apply (is_derive_ext (fun _ : R => 0)); [reflexivity|]. apply @is_derive_const.
      - destruct (IHn ltac:(lia)) as [l Hl]. destruct (Hm n ltac:(lia)) as [k Hk].
        exists (l + ((-1) ^ n * X' n O * detR d (minor n (X t)) + (-1) ^ n * X t n O * k)).
        cbn [Rsum]. apply @is_derive_plus; [exact Hl|].
        apply (is_derive_mult (fun s => (-1) ^ n * X s n O) (fun s => detR d (minor n (X s)))); [|exact Hk|intros; apply Rmult_comm].
        apply (is_derive_scal (fun s => X s n O)). apply H; lia. }
    destruct (Ha (S d) (Nat.le_refl _)) as [l Hl]. exists l. exact Hl.
Qed.

Lemma det_zero_row n p x : (p < n)%nat -> (forall j, (j < n)%nat -> x p j = 0) -> detR n x = 0.
Proof.
  intros Hp H. transitivity (detR n (setr p (fun j => 0 * x p j + 0 * x p j) x)).
  - apply detR_rext. intros i j _ Hj. unfold setr. destruct (Nat.eqb_spec i p); [subst; rewrite H by exact Hj; ring|reflexivity].
  - rewrite det_lin by exact Hp. ring.
Qed.

(** at the identity the derivative is the trace *)
Lemma det_derive_I d : forall (X : R -> nat -> nat -> R) X' t,
  (forall i j, (i < d)%nat -> (j < d)%nat -> is_derive (fun s => X s i j) t (X' i j)) ->
  rmeq d (X t) ident ->
  is_derive (fun s => detR d (X s)) t (rtr d X').
Proof.
  induction d as [|d IH]; intros X X' t H HI.
  - apply (is_derive_ext (fun _ : R => 1)); [reflexivity|]. apply @is_derive_const.
  - assert (Hi0 : forall i, (i < S d)%nat ->
       is_derive (fun s => (-1) ^ i * X s i O * detR d (minor i (X s))) t
         (match i with O => X' O O + rtr d (fun r c => X' (S r) (S c)) | S _ => 0 end)).
    { intros i Hi.
      destruct (det_derive_ex d (fun s => minor i (X s)) (minor i X') t) as [l Hl].
      { intros r c Hr Hc. apply H; [apply skip_lt; lia|lia]. }
      assert (Hd : is_derive (fun s => (-1) ^ i * X s i O * detR d (minor i (X s))) t
                ((-1) ^ i * X' i O * detR d (minor i (X t)) + (-1) ^ i * X t i O * l)).
      { apply (is_derive_mult (fun s => (-1) ^ i * X s i O) (fun s => detR d (minor i (X s)))); [|exact Hl|intros; apply Rmult_comm].
        apply (is_derive_scal (fun s => X s i O)). apply H; lia. }
      destruct i as [|i].
      - assert (Hl' : l = rtr d (fun r c => X' (S r) (S c))).
        { apply (is_derive_unique) in Hl. rewrite <- Hl. apply is_derive_unique.
          apply (IH (fun s => minor 0 (X s)) (fun r c => X' (S r) (S c))).
          - intros r c Hr Hc. apply H; lia.
          - intros r c Hr Hc. cbn. rewrite HI by lia. reflexivity. }
        rewrite HI in Hd by lia. rewrite (detR_rext d (minor 0 (X t)) ident) in Hd.
        + rewrite det_ident, Hl' in Hd. cbn [pow ident Nat.eqb] in Hd.
          replace (X' O O + rtr d (fun r c => X' (S r) (S c)))
            with (1 * X' O O * 1 + 1 * 1 * rtr d (fun r c => X' (S r) (S c))) by ring. exact Hd.
        + intros r c Hr Hc. cbn. rewrite HI by lia. reflexivity.
      - rewrite (HI (S i) O) in Hd by lia. rewrite (det_zero_row d 0 (minor (S i) (X t))) in Hd.
        + cbn [ident Nat.eqb] in Hd.
          replace 0 with ((-1) ^ S i * X' (S i) O * 0 + (-1) ^ S i * ident (S i) 0 * l) by (unfold ident; cbn [Nat.eqb]; ring).
          exact Hd.
        + lia.
        + intros j Hj. cbn. rewrite HI by lia. reflexivity. }
    replace (rtr (S d) X') with (Rsum (S d) (fun i => match i with O => X' O O + rtr d (fun r c => X' (S r) (S c)) | S _ => 0 end)).
    + apply (is_derive_Rsum' (S d) (fun s i => (-1) ^ i * X s i O * detR d (minor i (X s)))). exact Hi0.
    + rewrite Rsum_shift, (Rsum_z d) by reflexivity. unfold rtr. rewrite (Rsum_shift d (fun i => X' i i)). ring.
Qed.

(** Jacobi's formula at a positive definite point *)
Lemma det_derive d (X : R -> nat -> nat -> R) X' P t :
  (forall i j, (i < d)%nat -> (j < d)%nat -> is_derive (fun s => X s i j) t (X' i j)) ->
  symm d (X t) -> posdef d (X t) -> is_prod d (X t) P ident -> is_prod d P (X t) ident ->
  is_derive (fun s => detR d (X s)) t (detR d (X t) * rtr d (rmm d P X')).
Proof.
  intros H Hs Hp H1 H2.
  apply (is_derive_ext (fun s => detR d (X t) * detR d (rmm d P (X s)))).
  - intros s. rewrite <- det_mul_pd by assumption. apply detR_rext. intros i j Hi Hj.
    rewrite rmm_assoc. rewrite <- (rmm_id_l d (X s) i j Hi).
    apply rmm_ext; [exact H1|intros ? ? _ _; reflexivity|exact Hi|exact Hj].
  - apply (is_derive_scal (fun s => detR d (rmm d P (X s)))).
    apply (det_derive_I d (fun s => rmm d P (X s)) (rmm d P X')); [|exact H2].
    intros i j Hi Hj. unfold rmm. apply (is_derive_Rsum' d (fun s k => P i k * X s k j)). intros k Hk.
    apply (is_derive_scal (fun s => X s k j)). apply H; assumption.
Qed.
Lemma lndet_derive d (X : R -> nat -> nat -> R) X' P t :
  (forall i j, (i < d)%nat -> (j < d)%nat -> is_derive (fun s => X s i j) t (X' i j)) ->
  symm d (X t) -> posdef d (X t) -> is_prod d (X t) P ident -> is_prod d P (X t) ident ->
  is_derive (fun s => ln (detR d (X s))) t (rtr d (rmm d P X')).
Proof.
  intros H Hs Hp H1 H2. pose proof (det_derive d X X' P t H Hs Hp H1 H2) as Hd.
  pose proof (posdef_det d (X t) Hs Hp) as Hpos.
  replace (rtr d (rmm d P X')) with (detR d (X t) * rtr d (rmm d P X') * / detR d (X t)) by (field; lra).
  apply (is_derive_comp ln (fun s => detR d (X s))); [|exact Hd].
  apply is_derive_Reals, derivable_pt_lim_ln, Hpos.
Qed.

(** ** products of commuting positive definite matrices *)
Definition rvsub (u v : nat -> R) : nat -> R := fun i => u i - v i.
Lemma rdot_comm d u v : rdot d u v = rdot d v u.
Proof. apply Rsum_ext; intros; ring. Qed.
Lemma rdot_sub_r d u v w : rdot d u (rvsub v w) = rdot d u v - rdot d u w.
Proof. unfold rdot, rvsub. rewrite <- Rsum_minus. apply Rsum_ext; intros; ring. Qed.
Lemma rdot_sub_l d u v w : rdot d (rvsub v w) u = rdot d v u - rdot d w u.
Proof. unfold rdot, rvsub. rewrite <- Rsum_minus. apply Rsum_ext; intros; ring. Qed.
Lemma rdot_self_nonneg d u : 0 <= rdot d u u.
Proof. apply Rsum_nonneg. intros. nra. Qed.
Lemma rdot_self_zero d u : rdot d u u = 0 -> forall i, (i < d)%nat -> u i = 0.
Proof. exact (vdot_self_zero d u). Qed.
Lemma rdot_rmv d A u v : rdot d u (rmv d A v) = Rsum d (fun i => Rsum d (fun j => u i * A i j * v j)).
Proof. unfold rdot, rmv. apply Rsum_ext; intros. rewrite <- Rsum_scal. apply Rsum_ext; intros; ring. Qed.
Lemma rdot_rmv_sym d A u v : symm d A -> rdot d u (rmv d A v) = rdot d (rmv d A u) v.
Proof.
  intros Hs. rewrite (rdot_comm d (rmv d A u)), !rdot_rmv, Rsum_swap.
  apply Rsum_ext; intros; apply Rsum_ext; intros. rewrite Hs by assumption. ring.
Qed.
Lemma rmv_rmm d A B v i : rmv d (rmm d A B) v i = rmv d A (rmv d B v) i.
Proof. exact (mvec_mmul d A B v i). Qed.
Lemma rmv_sub d A u v : rmv d A (rvsub u v) = rvsub (rmv d A u) (rmv d A v).
Proof.
  apply functional_extensionality; intros i. unfold rmv, rvsub. rewrite <- Rsum_minus.
  apply Rsum_ext; intros; ring.
Qed.
Lemma rdot_ext d u u' v v' : (forall i, (i < d)%nat -> u i = u' i) -> (forall i, (i < d)%nat -> v i = v' i) ->
  rdot d u v = rdot d u' v'.
Proof. intros H1 H2. apply Rsum_ext. intros i Hi. rewrite H1, H2 by exact Hi. reflexivity. Qed.
Lemma rmv_ext d A u v i : (forall k, (k < d)%nat -> u k = v k) -> rmv d A u i = rmv d A v i.
Proof. intros H. apply Rsum_ext; intros. rewrite H by assumption. reflexivity. Qed.

Lemma cauchy_schwarz d u v : rdot d u v * rdot d u v <= rdot d u u * rdot d v v.
Proof.
  destruct (Rle_lt_or_eq_dec 0 (rdot d v v) (rdot_self_nonneg d v)) as [Hp|Hz].
  - set (t := rdot d u v / rdot d v v).
    pose proof (rdot_self_nonneg d (rvsub u (fun i => t * v i))) as H.
    rewrite rdot_sub_l, !rdot_sub_r in H.
    assert (E1 : rdot d u (fun i => t * v i) = t * rdot d u v).
    { unfold rdot. rewrite <- Rsum_scal. apply Rsum_ext; intros; ring. }
    assert (E2 : rdot d (fun i => t * v i) u = t * rdot d u v).
    { unfold rdot. rewrite <- Rsum_scal. apply Rsum_ext; intros; ring. }
    assert (E3 : rdot d (fun i => t * v i) (fun i => t * v i) = t * t * rdot d v v).
    { unfold rdot. rewrite <- Rsum_scal. apply Rsum_ext; intros; ring. }
    rewrite E1, E2, E3 in H.
    replace (rdot d u u - t * rdot d u v - (t * rdot d u v - t * t * rdot d v v))
      with (rdot d u u - rdot d u v * rdot d u v / rdot d v v) in H by (unfold t; field; lra).
    assert (rdot d u v * rdot d u v / rdot d v v * rdot d v v <= rdot d u u * rdot d v v) by (apply Rmult_le_compat_r; lra).
    replace (rdot d u v * rdot d u v / rdot d v v * rdot d v v) with (rdot d u v * rdot d u v) in H0 by (field; lra).
    exact H0.
  - rewrite <- Hz. replace (rdot d u v) with 0; [lra|]. symmetry. apply Rsum_z. intros i Hi.
    rewrite (rdot_self_zero d v (eq_sym Hz) i Hi). ring.
Qed.

Lemma qf_bound d A v :
  rdot d v (rmv d A v) <= Rsum d (fun i => Rsum d (fun j => Rabs (A i j))) * rdot d v v.
Proof.
  rewrite rdot_rmv, <- Rsum_scal_r. apply Rsum_le. intros i Hi. rewrite <- Rsum_scal_r. apply Rsum_le. intros j Hj.
  assert (Hvi : v i * v i <= rdot d v v).
  { apply (Rsum_ge_term d (fun k => v k * v k)); [intros; nra|exact Hi]. }
  assert (Hvj : v j * v j <= rdot d v v).
  { apply (Rsum_ge_term d (fun k => v k * v k)); [intros; nra|exact Hj]. }
  apply Rle_trans with (Rabs (v i * A i j * v j)); [apply Rle_abs|].
  replace (v i * A i j * v j) with (A i j * (v i * v j)) by ring. rewrite Rabs_mult.
  apply Rmult_le_compat_l; [apply Rabs_pos|]. apply Rabs_le. nra.
Qed.

Section Riesz.
Context (d : nat) (T P : nat -> nat -> R).
Context (Ts : symm d T) (Ps : symm d P) (TP : symm d (rmm d T P)).
Context (T0 : forall v, 0 <= rdot d v (rmv d T v)) (P0 : forall v, 0 <= rdot d v (rmv d P v)).
Let c := Rsum d (fun i => Rsum d (fun j => Rabs (P i j))) + 1.
Fixpoint rop (n : nat) (v : nat -> R) : nat -> R :=
  match n with
  | O => fun i => / c * rmv d P v i
  | S n' => rvsub (rop n' v) (rop n' (rop n' v))
  end.
Lemma c_pos : 1 <= c.
Proof.
  assert (0 <= Rsum d (fun i => Rsum d (fun j => Rabs (P i j)))).
  { apply Rsum_nonneg; intros; apply Rsum_nonneg; intros; apply Rabs_pos. }
  unfold c. lra.
Qed.
Lemma rdot_rscal_r a u v : rdot d u (fun i => a * v i) = a * rdot d u v.
Proof. unfold rdot. rewrite <- Rsum_scal. apply Rsum_ext; intros; ring. Qed.
Lemma rdot_rscal_l a u v : rdot d (fun i => a * u i) v = a * rdot d u v.
Proof. unfold rdot. rewrite <- Rsum_scal. apply Rsum_ext; intros; ring. Qed.
Lemma comm_TP u v : rdot d (rmv d P u) (rmv d T v) = rdot d (rmv d T u) (rmv d P v).
Proof.
  rewrite (rdot_rmv_sym d T (rmv d P u) v Ts).
  rewrite (rdot_ext d (rmv d T (rmv d P u)) (rmv d (rmm d T P) u) v v); [|intros; symmetry; apply rmv_rmm|reflexivity].
  rewrite <- (rdot_rmv_sym d (rmm d T P) u v TP).
  rewrite (rdot_ext d u u (rmv d (rmm d T P) v) (rmv d T (rmv d P v))); [|reflexivity|intros; apply rmv_rmm].
  apply rdot_rmv_sym, Ts.
Qed.
Lemma rop_facts n :
  (forall u v, rop n (rvsub u v) = rvsub (rop n u) (rop n v)) /\
  (forall u v, rdot d u (rop n v) = rdot d (rop n u) v) /\
  (forall u v, rdot d (rop n u) (rmv d T v) = rdot d (rmv d T u) (rop n v)) /\
  (forall v, 0 <= rdot d v (rop n v) <= rdot d v v).
Proof.
  pose proof c_pos as Hc. induction n as [|n (Hl & Ha & Hm & Hb)].
  - cbn [rop]. repeat split.
    + intros. apply functional_extensionality; intros i. rewrite rmv_sub. unfold rvsub. ring.
    + intros. rewrite rdot_rscal_r, rdot_rscal_l, rdot_rmv_sym by exact Ps. reflexivity.
    + intros. rewrite rdot_rscal_r, rdot_rscal_l, comm_TP. reflexivity.
    + rewrite rdot_rscal_r. apply Rmult_le_pos; [|apply P0]. apply Rlt_le, Rinv_0_lt_compat. lra.
    + rewrite rdot_rscal_r. apply Rmult_le_reg_l with c; [lra|]. rewrite <- Rmult_assoc, Rinv_r, Rmult_1_l by lra.
      pose proof (qf_bound d P v). pose proof (rdot_self_nonneg d v). unfold c. lra.
  - cbn [rop]. split; [|split; [|split]].
    + intros. rewrite !Hl. apply functional_extensionality; intros i. unfold rvsub. ring.
    + intros. rewrite rdot_sub_r, rdot_sub_l, !Ha. reflexivity.
    + intros. rewrite rdot_sub_r, rdot_sub_l, !Hm. f_equal.
      rewrite <- (rdot_rmv_sym d T) by exact Ts. rewrite Hm. reflexivity.
    + intros v. set (w := rop n v).
      assert (E : rdot d v (rvsub w (rop n w)) = rdot d v w - rdot d w w).
      { rewrite rdot_sub_r. f_equal. unfold w. rewrite Ha. reflexivity. }
      rewrite E. split.
      * (* <v,w> - <w,w> = <w,w - Pw> + <v-w, P(v-w)> *)
        pose proof (Hb w) as [H1 H2]. pose proof (Hb (rvsub v w)) as [H3 _].
        rewrite Hl, rdot_sub_l, !rdot_sub_r in H3. fold w in H3.
        assert (E2 : rdot d v (rop n w) = rdot d w w) by (rewrite Ha; reflexivity). lra.
      * pose proof (Hb v) as [H1 H2]. fold w in H1, H2. pose proof (rdot_self_nonneg d w). lra.
Qed.
Lemma riesz_mono n v : rdot d (rmv d T v) (rop (S n) v) <= rdot d (rmv d T v) (rop n v).
Proof.
  destruct (rop_facts n) as (Hl & Ha & Hm & Hb). cbn [rop]. rewrite rdot_sub_r.
  rewrite <- (Hm v (rop n v)). pose proof (T0 (rop n v)). lra.
Qed.
Lemma riesz_sum n v : Rsum n (fun k => rdot d (rop k v) (rop k v)) <= rdot d v v.
Proof.
  assert (H : Rsum n (fun k => rdot d (rop k v) (rop k v)) = rdot d v (rop 0 v) - rdot d v (rop n v)).
  { induction n as [|n IH]; [cbn [Rsum]; lra|]. rewrite Rsum_S, IH. cbn [rop]. rewrite rdot_sub_r.
    destruct (rop_facts n) as (_ & Ha & _ & _). rewrite (Ha v (rop n v)). lra. }
  rewrite H. destruct (rop_facts 0) as (_ & _ & _ & H0). destruct (rop_facts n) as (_ & _ & _ & Hn).
  specialize (H0 v). specialize (Hn v). lra.
Qed.
Lemma riesz_nonneg v : 0 <= rdot d v (rmv d (rmm d T P) v).
Proof.
  rewrite (rdot_ext d v v (rmv d (rmm d T P) v) (rmv d T (rmv d P v))); [|reflexivity|intros; apply rmv_rmm].
  rewrite rdot_rmv_sym by exact Ts.
  pose proof c_pos as Hc.
  set (a := rdot d (rmv d T v) (rop 0 v)).
  assert (Ea : rdot d (rmv d T v) (rmv d P v) = c * a).
  { unfold a. cbn [rop]. rewrite rdot_rscal_r. field. lra. }
  rewrite Ea. apply Rmult_le_pos; [lra|].
  destruct (Rle_lt_dec 0 a) as [|Hneg]; [assumption|exfalso].
  set (w := rmv d T v) in *.
  assert (Hk : forall k, rdot d w (rop k v) <= a).
  { induction k as [|k IH]; [apply Rle_refl|]. eapply Rle_trans; [apply riesz_mono|exact IH]. }
  assert (Hcs : forall k, a * a <= rdot d w w * rdot d (rop k v) (rop k v)).
  { intros k. eapply Rle_trans; [|apply cauchy_schwarz]. specialize (Hk k). nra. }
  assert (Hn : forall n, INR n * (a * a) <= rdot d w w * rdot d v v).
  { intros n. rewrite <- Rsum_const. eapply Rle_trans.
    - apply Rsum_le. intros k _. apply (Hcs k).
    - rewrite Rsum_scal. apply Rmult_le_compat_l; [apply rdot_self_nonneg|apply riesz_sum]. }
  assert (Haa : 0 < a * a) by nra.
  destruct (archimed (rdot d w w * rdot d v v / (a * a))) as [Har _].
  set (z := up (rdot d w w * rdot d v v / (a * a))) in *.
  assert (Hz : 0 <= rdot d w w * rdot d v v / (a * a)).
  { apply Rmult_le_pos; [apply Rmult_le_pos; apply rdot_self_nonneg|apply Rlt_le, Rinv_0_lt_compat, Haa]. }
  assert (Hz0 : (0 <= z)%Z) by (apply le_IZR; lra).
  specialize (Hn (Z.to_nat z)). rewrite INR_IZR_INZ, Z2Nat.id in Hn by exact Hz0.
  assert (rdot d w w * rdot d v v / (a * a) * (a * a) < IZR z * (a * a)) by (apply Rmult_lt_compat_r; lra).
  replace (rdot d w w * rdot d v v / (a * a) * (a * a)) with (rdot d w w * rdot d v v) in H by (field; lra).
  lra.
Qed.
End Riesz.

Lemma posdef_rdot d A : posdef d A <-> forall v, (exists i, (i < d)%nat /\ v i <> 0) -> 0 < rdot d v (rmv d A v).
Proof. split; intros H v Hv; specialize (H v Hv); rewrite rdot_rmv in *; exact H. Qed.
Lemma vec_zero_dec d (v : nat -> R) : (exists i, (i < d)%nat /\ v i <> 0) \/ (forall i, (i < d)%nat -> v i = 0).
Proof.
  induction d as [|d [(i & Hi & Hv)|IH]].
  - right. intros. lia.
  - left. exists i. split; [lia|exact Hv].
  - destruct (Req_dec (v d) 0) as [E|E].
    + right. intros i Hi. destruct (Nat.eq_dec i d); [subst; exact E|apply IH; lia].
    + left. exists d. split; [lia|exact E].
Qed.
Lemma posdef_nonneg d A v : posdef d A -> 0 <= rdot d v (rmv d A v).
Proof.
  intros H. destruct (vec_zero_dec d v) as [Hv|Hv].
  - apply Rlt_le. apply posdef_rdot; assumption.
  - unfold rdot. rewrite (Rsum_z d (fun k => v k * rmv d A v k)); [lra|]. intros i Hi. rewrite Hv by exact Hi. ring.
Qed.
Lemma posdef_inj d A v : posdef d A -> (forall i, (i < d)%nat -> rmv d A v i = 0) -> forall i, (i < d)%nat -> v i = 0.
Proof.
  intros H Hz. destruct (vec_zero_dec d v) as [Hv|Hv]; [|exact Hv].
  apply (proj1 (posdef_rdot d A) H) in Hv. unfold rdot in Hv. rewrite Rsum_z in Hv; [lra|].
  intros i Hi. rewrite Hz by exact Hi. ring.
Qed.
Lemma inv_posdef d A P : symm d A -> posdef d A -> is_prod d A P ident -> is_prod d P A ident -> posdef d P.
Proof.
  intros Hs Hp H1 H2. apply posdef_rdot. intros v Hv.
  set (u := rmv d P v).
  assert (Hu : forall i, (i < d)%nat -> rmv d A u i = v i).
  { intros i Hi. unfold u. rewrite <- rmv_rmm. unfold rmv.
    rewrite (Rsum_ext d _ (fun k => ident i k * v k)).
    - rewrite (Rsum_single d _ i Hi); [unfold ident; rewrite Nat.eqb_refl; ring|].
      intros j Hj Hne. unfold ident. destruct (Nat.eqb_spec i j); [congruence|ring].
    - intros k Hk. unfold rmm. rewrite H1 by assumption. reflexivity. }
  rewrite (rdot_ext d v (rmv d A u) u u); [|intros; symmetry; apply Hu; assumption|reflexivity].
  rewrite rdot_comm. apply (proj1 (posdef_rdot d A) Hp).
  destruct (vec_zero_dec d u) as [Hd|Hd]; [exact Hd|exfalso].
  destruct Hv as (i & Hi & Hv). apply Hv. rewrite <- Hu by exact Hi.
  apply Rsum_z. intros k Hk. rewrite Hd by exact Hk. ring.
Qed.
Lemma inv_symm d A P : symm d A -> is_prod d A P ident -> is_prod d P A ident -> symm d P.
Proof.
  intros Hs H1 H2 i j Hi Hj.
  (* P = P (A P) = P (A P') ... : P' A = I as well *)
  assert (E : rmm d (rmm d (transp P) A) P i j = transp P i j).
  { rewrite <- rmm_assoc. rewrite <- (rmm_id_r d (transp P) i j Hj).
    apply rmm_ext; [intros ? ? _ _; reflexivity|exact H1|exact Hi|exact Hj]. }
  assert (E2 : rmm d (rmm d (transp P) A) P i j = P i j).
  { rewrite <- (rmm_id_l d P i j Hi). apply rmm_ext; [|intros ? ? _ _; reflexivity|exact Hi|exact Hj].
    intros a b Ha Hb. unfold rmm, transp. transitivity (Rsum d (fun k => A b k * P k a)).
    - apply Rsum_ext. intros k Hk. rewrite (Hs k b) by assumption. ring.
    - rewrite H1 by assumption. unfold ident. rewrite Nat.eqb_sym. reflexivity. }
  rewrite <- E2, E. reflexivity.
Qed.
Lemma inv_unique d A P Q : is_prod d P A ident -> is_prod d A Q ident -> rmeq d P Q.
Proof.
  intros H1 H2 i j Hi Hj.
  transitivity (rmm d P (rmm d A Q) i j).
  - rewrite <- (rmm_id_r d P i j Hj) at 1. apply rmm_ext; [intros ? ? _ _; reflexivity| |exact Hi|exact Hj].
    intros a b Ha Hb. symmetry. apply H2; assumption.
  - rewrite rmm_assoc. rewrite <- (rmm_id_l d Q i j Hi).
    apply rmm_ext; [exact H1|intros ? ? _ _; reflexivity|exact Hi|exact Hj].
Qed.

Lemma comm_posdef d T P : symm d T -> symm d P -> posdef d T -> posdef d P -> symm d (rmm d T P) ->
  posdef d (rmm d T P).
Proof.
  intros Ts Ps Tp Pp TPs. apply posdef_rdot. intros v Hv.
  set (M := rmm d T P) in *.
  assert (HM : forall w, 0 <= rdot d w (rmv d M w)).
  { intros w. apply riesz_nonneg; try assumption; intros; apply posdef_nonneg; assumption. }
  destruct (Rle_lt_or_eq_dec 0 _ (HM v)) as [|Hz]; [assumption|exfalso].
  set (w := rmv d M v) in *.
  assert (Hw : rdot d w w = 0).
  { assert (Hq : forall t, 0 <= - 2 * t * rdot d w w + t * t * rdot d w (rmv d M w)).
    { intros t. pose proof (HM (rvsub v (fun i => t * w i))) as H.
      rewrite rmv_sub, rdot_sub_l, !rdot_sub_r in H.
      assert (E : rmv d M (fun i => t * w i) = fun i => t * rmv d M w i).
      { apply functional_extensionality; intros i. unfold rmv. rewrite <- Rsum_scal. apply Rsum_ext; intros; ring. }
      rewrite E, !rdot_rscal_r, !rdot_rscal_l in H. fold w in H.
      rewrite (rdot_rmv_sym d M v w TPs) in H. fold w in H. rewrite <- Hz in H. lra. }
    pose proof (rdot_self_nonneg d w) as Hn. pose proof (HM w) as Hm.
    set (A := rdot d w w) in *. set (B := rdot d w (rmv d M w)) in *.
    destruct (Rle_lt_or_eq_dec 0 A Hn) as [Hpos|]; [|auto].
    specialize (Hq (A / (B + 1))).
    assert (Hx : 0 < A / (B + 1)) by (apply Rdiv_lt_0_compat; lra).
    set (x := A / (B + 1)) in *. assert (Hxe : x * (B + 1) = A) by (unfold x; field; lra).
    nra. }
  assert (Hw0 : forall i, (i < d)%nat -> w i = 0) by (apply rdot_self_zero; exact Hw).
  assert (Hpv : forall i, (i < d)%nat -> rmv d P v i = 0).
  { apply (posdef_inj d T); [exact Tp|]. intros i Hi. rewrite <- rmv_rmm. apply Hw0, Hi. }
  pose proof (posdef_inj d P v Pp Hpv) as Hv0. destruct Hv as (i & Hi & Hne). apply Hne, Hv0, Hi.
Qed.
