(** * log_det is the logarithm of the determinant. *)
From Coq Require Import Reals Lra Lia Arith Bool.
From Verif Require Import Num Arr ArrFacts M_LinAlg Spec_Utils Spec_Det P_Trapz P_LinAlg.
Local Open Scope R_scope.

Notation minor i x := (fun r c => x (skip i r) (S c)).

Lemma Rsum_ext n f g : (forall i, (i < n)%nat -> f i = g i) -> Rsum n f = Rsum n g.
Proof. intros H. exact (sumn_ext n f g H). Qed.
Lemma Rsum_S n f : Rsum (S n) f = Rsum n f + f n. Proof. reflexivity. Qed.
Lemma skip_lt i n k : (i <= n)%nat -> (k < n)%nat -> (skip i k < S n)%nat.
Proof. unfold skip. destruct (Nat.ltb_spec k i); lia. Qed.
Lemma skip_ne i k : skip i k <> i.
Proof. unfold skip. destruct (Nat.ltb_spec k i); lia. Qed.
(** position of p among the indices different from i *)
Definition unskip (i p : nat) : nat := if Nat.ltb p i then p else (p - 1)%nat.
Lemma skip_unskip i p : i <> p -> skip i (unskip i p) = p.
Proof.
  unfold skip, unskip. intros H.
  destruct (Nat.ltb_spec p i).
  - destruct (Nat.ltb_spec p i); lia.
  - destruct (Nat.ltb_spec (p - 1) i); lia.
Qed.
Lemma skip_eq i p r : i <> p -> (skip i r =? p)%nat = (r =? unskip i p)%nat.
Proof.
  intros H. unfold skip, unskip.
  destruct (Nat.ltb_spec p i), (Nat.ltb_spec r i);
    match goal with |- (?a =? ?b)%nat = (?c =? ?d)%nat => destruct (Nat.eqb_spec a b), (Nat.eqb_spec c d) end; lia.
Qed.
Lemma unskip_lt i p n : (p < S n)%nat -> (i < S n)%nat -> i <> p -> (unskip i p < n)%nat.
Proof. unfold unskip. destruct (Nat.ltb_spec p i); lia. Qed.

Lemma det_S n x : detR (S n) x = Rsum (S n) (fun i => (-1) ^ i * x i O * detR n (minor i x)).
Proof. reflexivity. Qed.

Lemma detR_ext d (x y : Rmat) : meq d x y -> detR d x = detR d y.
Proof.
  revert x y. induction d as [|d IH]; intros x y H; [reflexivity|].
  rewrite !det_S. apply Rsum_ext. intros i Hi. rewrite (H i O) by lia. f_equal.
  apply IH. intros r c Hr Hc. apply H; [apply skip_lt; lia|lia].
Qed.

Definition setr (p : nat) (u : nat -> R) (x : nat -> nat -> R) : nat -> nat -> R :=
  fun i j => if Nat.eqb i p then u j else x i j.
Lemma minor_same i u x r c : minor i (setr i u x) r c = minor i x r c.
Proof. unfold setr. destruct (Nat.eqb_spec (skip i r) i) as [E|E]; [apply skip_ne in E; contradiction|reflexivity]. Qed.
Lemma minor_other i p u x r c : i <> p ->
  minor i (setr p u x) r c = setr (unskip i p) (fun c => u (S c)) (minor i x) r c.
Proof. intros H. unfold setr. rewrite skip_eq by exact H. reflexivity. Qed.

Lemma det_lin n : forall p (u v : nat -> R) a b x, (p < n)%nat ->
  detR n (setr p (fun j => a * u j + b * v j) x) = a * detR n (setr p u x) + b * detR n (setr p v x).
Proof.
  induction n as [|n IH]; intros p u v a b x Hp; [lia|].
  rewrite !det_S.
  rewrite <- (sumn_scal (S n) a), <- (sumn_scal (S n) b), <- sumn_plus.
  apply Rsum_ext. intros i Hi. cbv beta.
  destruct (Nat.eq_dec i p) as [->|Hne].
  - assert (E : forall w, detR n (minor p (setr p w x)) = detR n (minor p x)).
    { intros w. apply detR_ext. intros r c _ _. apply minor_same. }
    rewrite (E (fun j => a * u j + b * v j)), (E u), (E v). unfold setr. rewrite Nat.eqb_refl. rring.
  - assert (E : forall w, detR n (minor i (setr p w x)) =
        detR n (setr (unskip i p) (fun c => w (S c)) (minor i x))).
    { intros w. apply detR_ext. intros r c _ _. apply minor_other, Hne. }
    rewrite (E (fun j => a * u j + b * v j)), (E u), (E v).
    rewrite (IH (unskip i p) (fun c => u (S c)) (fun c => v (S c)) a b) by (apply unskip_lt; lia).
    assert (E2 : forall w, setr p w x i O = x i O).
    { intros w. unfold setr. destruct (Nat.eqb_spec i p); [contradiction|reflexivity]. }
    rewrite (E2 (fun j => a * u j + b * v j)), (E2 u), (E2 v). rring.
Qed.

(** two adjacent equal rows *)
Lemma det_adj n : forall p x, (p + 1 < n)%nat ->
  (forall j, (j < n)%nat -> x p j = x (p + 1)%nat j) -> detR n x = 0.
Proof.
  induction n as [|n IH]; intros p x Hp He; [lia|].
  rewrite det_S.
  assert (Hz : forall i, (i < S n)%nat -> i <> p -> i <> (p + 1)%nat -> detR n (minor i x) = 0).
  { intros i Hi H1 H2. destruct (Nat.ltb_spec p i) as [Hlt|Hge].
    - apply (IH p); [lia|]. intros j Hj. unfold skip.
      destruct (Nat.ltb_spec p i), (Nat.ltb_spec (p + 1) i); try lia. apply He. lia.
    - apply (IH (p - 1)%nat); [lia|]. intros j Hj. unfold skip.
      destruct (Nat.ltb_spec (p - 1) i), (Nat.ltb_spec (p - 1 + 1) i); try lia.
      replace (S (p - 1)) with p by lia. replace (S (p - 1 + 1)) with (p + 1)%nat by lia. apply He. lia. }
  assert (Em : detR n (minor p x) = detR n (minor (p + 1) x)).
  { apply detR_ext. intros r c Hr Hc. cbv beta. unfold skip.
    destruct (Nat.ltb_spec r p), (Nat.ltb_spec r (p + 1)); try reflexivity; try lia.
    assert (r = p) by lia. subst r. replace (S p) with (p + 1)%nat by lia. symmetry. apply He. lia. }
  set (T := fun i => (-1) ^ i * x i O * detR n (minor i x)).
  change (rsum (S n) T = 0).
  rewrite (sumn_ext (S n) T (fun i => (if Nat.eqb i p then T p else 0) + (if Nat.eqb i (p + 1) then T (p + 1)%nat else 0))).
  - rewrite sumn_plus.
    rewrite (sumn_single (S n) (fun i => if Nat.eqb i p then T p else 0) p); [|lia|].
    2:{ intros j _ Hj. destruct (Nat.eqb_spec j p); [lia|reflexivity]. }
    rewrite (sumn_single (S n) (fun i => if Nat.eqb i (p + 1) then T (p + 1)%nat else 0) (p + 1)); [|lia|].
    2:{ intros j _ Hj. destruct (Nat.eqb_spec j (p + 1)); [lia|reflexivity]. }
    rewrite !Nat.eqb_refl. unfold T. rewrite Em, (He O) by lia.
    rewrite pow_add. simpl pow. rring.
  - intros i Hi. destruct (Nat.eqb_spec i p), (Nat.eqb_spec i (p + 1)); subst; try lia; try rring.
    unfold T. rewrite Hz by assumption. rring.
Qed.

Lemma det_swap_adj n p x : (p + 1 < n)%nat ->
  detR n (setr p (x (p + 1)%nat) (setr (p + 1) (x p) x)) = - detR n x.
Proof.
  intros Hp.
  set (u := x p). set (v := x (p + 1)%nat).
  set (D := fun a b => detR n (setr p a (setr (p + 1) b x))).
  assert (Dl : forall a b w, D (fun j => 1 * a j + 1 * b j) w = D a w + D b w).
  { intros a b w. unfold D. rewrite det_lin by lia. rring. }
  assert (comm : forall a b, D a b = detR n (setr (p + 1) b (setr p a x))).
  { intros a b. apply detR_ext. intros i j _ _. unfold setr.
    destruct (Nat.eqb_spec i p), (Nat.eqb_spec i (p + 1)); try lia; reflexivity. }
  assert (Dr : forall a b w, D w (fun j => 1 * a j + 1 * b j) = D w a + D w b).
  { intros a b w. rewrite !comm. rewrite det_lin by lia. rring. }
  assert (D0 : forall a, D a a = 0).
  { intros a. apply (det_adj n p); [lia|]. intros j Hj. unfold setr.
    rewrite !Nat.eqb_refl. destruct (Nat.eqb_spec (p + 1) p); [lia|reflexivity]. }
  pose proof (D0 (fun j => 1 * u j + 1 * v j)) as H.
  rewrite Dl, !Dr, !D0 in H.
  assert (E : D u v = detR n x).
  { apply detR_ext. intros i j _ _. unfold setr, u, v.
    destruct (Nat.eqb_spec i p); [subst; reflexivity|]. destruct (Nat.eqb_spec i (p + 1)); subst; reflexivity. }
  change (D v u = - detR n x). rewrite <- E. lra.
Qed.

Lemma det_eq_rows n : forall k p x, (p + 1 + k < n)%nat ->
  (forall j, (j < n)%nat -> x p j = x (p + 1 + k)%nat j) -> detR n x = 0.
Proof.
  induction k as [|k IH]; intros p x Hp He.
  - apply (det_adj n p); [lia|]. intros j Hj. rewrite He by lia. f_equal. lia.
  - pose proof (det_swap_adj n (p + 1 + k) x ltac:(lia)) as H.
    rewrite (IH p) in H; [lra|lia|].
    intros j Hj. unfold setr.
    rewrite Nat.eqb_refl. destruct (Nat.eqb_spec p (p + 1 + k)); [lia|].
    destruct (Nat.eqb_spec p (p + 1 + k + 1)); [lia|].
    rewrite He by lia. f_equal; lia.
Qed.

(** subtracting a multiple of row 0 from another row *)
Lemma det_rowop n q a x : (0 < q < n)%nat ->
  detR n (setr q (fun j => x q j - a * x O j) x) = detR n x.
Proof.
  intros Hq.
  transitivity (detR n (setr q (fun j => 1 * x q j + (- a) * x O j) x)).
  { apply detR_ext. intros i j _ _. unfold setr. destruct (Nat.eqb i q); [rring|reflexivity]. }
  rewrite det_lin by lia.
  rewrite (det_eq_rows n (q - 1) 0 (setr q (x O) x)).
  - rewrite (detR_ext n (setr q (x q) x) x); [rring|].
    intros i j _ _. unfold setr. destruct (Nat.eqb_spec i q); [subst; reflexivity|reflexivity].
  - lia.
  - intros j Hj. unfold setr. replace (0 + 1 + (q - 1))%nat with q by lia.
    rewrite Nat.eqb_refl. destruct (Nat.eqb_spec 0 q); [lia|reflexivity].
Qed.

Lemma det_elim n (f : nat -> R) x : forall k, (k < n)%nat ->
  detR n (fun i j => if ((1 <=? i) && (i <=? k))%nat then x i j - f i * x O j else x i j) = detR n x.
Proof.
  induction k as [|k IH]; intros Hk.
  - apply detR_ext. intros i j _ _. destruct i; reflexivity.
  - rewrite <- IH by lia.
    set (y := fun i j => if ((1 <=? i) && (i <=? k))%nat then x i j - f i * x O j else x i j).
    rewrite <- (det_rowop n (S k) (f (S k)) y) by lia.
    apply detR_ext. intros i j Hi Hj. unfold setr, y.
    destruct (Nat.eqb_spec i (S k)) as [->|Hne].
    + destruct (Nat.leb_spec (S k) (S k)); [|lia]. destruct (Nat.leb_spec (S k) k); [lia|].
      rewrite Bool.andb_false_r. cbn. reflexivity.
    + destruct (Nat.leb_spec 1 i), (Nat.leb_spec i (S k)), (Nat.leb_spec i k); try lia; reflexivity.
Qed.

(** Schur complement *)
Lemma det_schur n x : x O O <> 0 ->
  detR (S n) x = x O O * detR n (fun r c => x (S r) (S c) - x (S r) O / x O O * x O (S c)).
Proof.
  intros H0. rewrite <- (det_elim (S n) (fun i => x i O / x O O) x n) by lia.
  rewrite det_S.
  set (T := fun i : nat => _). change (rsum (S n) T = x O O * detR n (fun r c => x (S r) (S c) - x (S r) O / x O O * x O (S c))).
  rewrite (sumn_single (S n) T 0); [|lia|].
  - unfold T. cbn [Nat.leb andb pow]. rewrite !Rmult_1_l. f_equal. apply detR_ext.
    intros r c Hr Hc. replace (skip 0 r) with (S r) by reflexivity.
    rewrite (leb_correct (S r) n) by lia. reflexivity.
  - intros i Hi Hne. unfold T. destruct (Nat.leb_spec 1 i), (Nat.leb_spec i n); try lia.
    cbn [andb]. replace (x i O - x i O / x O O * x O O) with 0 by (field; exact H0). rring.
Qed.

Fixpoint Rprod (n : nat) (f : nat -> R) : R := match n with O => 1 | S m => Rprod m f * f m end.
Lemma Rprod_ext n f g : (forall i, (i < n)%nat -> f i = g i) -> Rprod n f = Rprod n g.
Proof. induction n; intros H; [reflexivity|]. cbn. rewrite IHn, H; auto. Qed.
Lemma Rprod_shift n f : Rprod (S n) f = f O * Rprod n (fun i => f (S i)).
Proof. induction n as [|n IH]; [cbn; rring|]. change (Rprod (S n) f * f (S n) = f O * (Rprod n (fun i => f (S i)) * f (S n))). rewrite IH. rring. Qed.

Lemma detR_gram d : forall L : Rmat, ltri d L ->
  detR d (mmul d L (mtr L)) = Rprod d (fun i => L i i) * Rprod d (fun i => L i i).
Proof.
  induction d as [|d IH]; intros L [Hlow Hpos]; [cbn; rring|].
  assert (H0 : L O O <> 0) by (apply Rgt_not_eq, Hpos; lia).
  assert (Hc0 : forall i, (i < S d)%nat -> mmul (S d) L (mtr L) i O = L i O * L O O).
  { intros i Hi. change (rsum (S d) (fun k => L i k * L O k) = L i O * L O O).
    rewrite (sumn_single (S d) (fun k => L i k * L O k) 0); [reflexivity|lia|].
    intros k Hk Hne. rewrite (Hlow O k) by lia. rring. }
  assert (H00 : mmul (S d) L (mtr L) O O <> 0).
  { rewrite Hc0 by lia. apply Rmult_integral_contrapositive_currified; exact H0. }
  rewrite det_schur by exact H00.
  set (L' := fun i j => L (S i) (S j) : R).
  rewrite (detR_ext d _ (mmul d L' (mtr L'))).
  - rewrite IH.
    + rewrite (Rprod_shift d (fun i => L i i)), Hc0 by lia. fold (L' ). unfold L'. rring.
    + split; [intros i c Hc; apply Hlow; lia|intros c Hc; apply Hpos; lia].
  - intros r c Hr Hc.
    assert (Es : mmul (S d) L (mtr L) O (S c) = L O O * L (S c) O).
    { change (rsum (S d) (fun k => L O k * L (S c) k) = L O O * L (S c) O).
      rewrite (sumn_single (S d) (fun k => L O k * L (S c) k) 0); [reflexivity|lia|].
      intros k Hk Hne. rewrite (Hlow O k) by lia. rring. }
    rewrite Es, !Hc0 by lia.
    change (mmul (S d) L (mtr L) (S r) (S c)) with (rsum (S d) (fun k => L (S r) k * L (S c) k)).
    rewrite (sumn_shift d (fun k => L (S r) k * L (S c) k)).
    change (mmul d L' (mtr L') r c) with (rsum d (fun k => L (S r) (S k) * L (S c) (S k))).
    rnum. field. exact H0.
Qed.

Lemma detR_diag d : forall v : Rvec, detR d (mdiag v) = Rprod d (fun i => v i).
Proof.
  induction d as [|d IH]; intros v; [reflexivity|].
  rewrite det_S, Rprod_shift, <- IH.
  set (T := fun i : nat => _). change (rsum (S d) T = v O * detR d (mdiag (fun i => v (S i)))).
  rewrite (sumn_single (S d) T 0); [|lia|].
  - unfold T. cbn [pow]. replace (mdiag v O O) with (v O) by reflexivity. rewrite Rmult_1_l. f_equal.
  - intros i Hi Hne. unfold T, mdiag. destruct (Nat.eqb_spec i 0); [lia|]. rnum. rring.
Qed.

Lemma Rprod_pos n (f : nat -> R) : (forall i, (i < n)%nat -> 0 < f i) -> 0 < Rprod n f.
Proof. induction n; intros H; cbn; [lra|]. apply Rmult_lt_0_compat; auto. Qed.
Lemma ln_Rprod n (f : nat -> R) : (forall i, (i < n)%nat -> 0 < f i) ->
  ln (Rprod n f) = rsum n (fun i => ln (f i)).
Proof.
  induction n as [|n IH]; intros H; [apply ln_1|].
  cbn [Rprod]. rewrite ln_mult; [|apply Rprod_pos; auto|auto]. rewrite IH by auto. reflexivity.
Qed.

Lemma log_det_matrix d (x : Rmat) : symm d x ->
  (posdef d x -> log_det ln (A2 d d x) = Ok (ln (detR d x))) /\
  (~ posdef d x -> log_det ln (A2 d d x) = Err LinAlgError).
Proof.
  intros Hs. unfold log_det. rewrite Nat.eqb_refl. unfold log_det_mat.
  destruct (chol_iff d x Hs) as [[Hok _] Herr]. split.
  - intros Hp. destruct (Hok Hp) as [L HL]. rewrite HL. cbn [bind].
    destruct (chol_fact_sym d x L Hs HL) as [Ht Hx].
    rewrite <- (detR_ext d _ _ Hx), detR_gram by exact Ht.
    assert (Hpos : forall i, (i < d)%nat -> 0 < L i i) by apply Ht.
    rewrite ln_mult by (apply Rprod_pos; exact Hpos).
    rewrite ln_Rprod by exact Hpos. f_equal. rnum. rring.
  - intros Hn. rewrite (Herr Hn). reflexivity.
Qed.
(** a determinant of a positive definite matrix is positive *)
Lemma posdef_det d (x : Rmat) : symm d x -> posdef d x -> 0 < detR d x.
Proof.
  intros Hs Hp. destruct (chol_iff d x Hs) as [[Hok _] _]. destruct (Hok Hp) as [L HL].
  destruct (chol_fact_sym d x L Hs HL) as [Ht Hx].
  rewrite <- (detR_ext d _ _ Hx), detR_gram by exact Ht.
  apply Rmult_lt_0_compat; apply Rprod_pos; apply Ht.
Qed.

Lemma mdiag_sym d (v : Rvec) : symm d (mdiag v).
Proof.
  intros i j _ _. unfold mdiag. rewrite Nat.eqb_sym. destruct (Nat.eqb_spec j i); [subst; reflexivity|reflexivity].
Qed.

Lemma mdiag_posdef d (v : Rvec) : posdef d (mdiag v) <-> forall i, (i < d)%nat -> 0 < v i.
Proof.
  rewrite posdef_qf.
  assert (E : forall u : Rvec, qf d (mdiag v) u = rsum d (fun i => v i * (u i * u i))).
  { intros u. unfold qf. apply sumn_ext. intros i Hi.
    rewrite (sumn_single d (fun j => u i * mdiag v i j * u j) i); [|exact Hi|].
    - unfold mdiag. rewrite Nat.eqb_refl. rnum. rring.
    - intros j Hj Hne. unfold mdiag. destruct (Nat.eqb_spec i j); [lia|rnum; rring]. }
  split; intros H.
  - intros i Hi. specialize (H (fun k => if Nat.eqb k i then 1 else 0)). rewrite E in H.
    set (F := fun k => v k * ((if Nat.eqb k i then 1 else 0) * (if Nat.eqb k i then 1 else 0))).
    assert (H' : 0 < rsum d F).
    { apply H. exists i. split; [exact Hi|]. rewrite Nat.eqb_refl. lra. }
    rewrite (sumn_single d F i) in H'; unfold F in *.
    + rewrite Nat.eqb_refl in H'. lra.
    + exact Hi.
    + intros j Hj Hne. destruct (Nat.eqb_spec j i); [lia|rring].
  - intros u (i & Hi & Hu). rewrite E.
    assert (Hi0 : v i * (u i * u i) <= rsum d (fun i => v i * (u i * u i))).
    { apply (sumn_ge_term d (fun i => v i * (u i * u i)) i); [|exact Hi].
      intros k Hk. specialize (H k Hk). pose proof (Rle_0_sqr (u k)) as Hq. unfold Rsqr in Hq.
      apply Rmult_le_pos; [lra|exact Hq]. }
    apply Rlt_le_trans with (2 := Hi0). apply Rmult_lt_0_compat; [apply H, Hi|].
    apply Rsqr_pos_lt, Hu.
Qed.

Lemma log_det_vector d (v : Rvec) :
  (forall i, (i < d)%nat -> 0 < v i) -> log_det ln (A1 d v) = Ok (ln (detR d (mdiag v))).
Proof.
  intros H. destruct (log_det_matrix d (mdiag v) (mdiag_sym d v)) as [Hp _].
  specialize (Hp (proj2 (mdiag_posdef d v) H)). unfold log_det in *. rewrite Nat.eqb_refl in Hp. exact Hp.
Qed.
Lemma log_det_scalar (x : R) : log_det (K:=RNum) ln (A0 x) = Ok (ln x).
Proof. reflexivity. Qed.
Lemma log_det_bad r c (x : Rmat) : r <> c -> log_det ln (A2 r c x) = Err RuntimeError.
Proof. intros H. unfold log_det. destruct (Nat.eqb_spec r c); [contradiction|reflexivity]. Qed.
