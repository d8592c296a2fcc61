(** * Eigenvalues of symmetric matrices: all are real, and all are positive exactly when the matrix
    is positive definite. *)
From Coq Require Import Reals Lra Lia Arith Bool List FunctionalExtensionality Classical_Prop.
From Coquelicot Require Import Coquelicot.
From Verif Require Import Num Arr ArrFacts M_LinAlg Spec_Utils Spec_Det Spec_Proc P_Trapz P_LinAlg P_Det P_RMat.
Local Open Scope R_scope.

Section Form.
Context (d : nat).
Notation q A v := (rdot d v (rmv d A v)).
Definition addI (A : nat -> nat -> R) (t : R) : nat -> nat -> R := fun i j => A i j + t * ident i j.

Lemma rmv_addI A t v i : (i < d)%nat -> rmv d (addI A t) v i = rmv d A v i + t * v i.
Proof.
  intros Hi. unfold rmv, addI.
  rewrite (Rsum_ext d _ (fun k => A i k * v k + t * (ident i k * v k))) by (intros; ring).
  rewrite Rsum_plus, Rsum_scal. f_equal. f_equal.
  rewrite (Rsum_single d _ i Hi); [unfold ident; rewrite Nat.eqb_refl; ring|].
  intros j _ Hne. unfold ident. destruct (Nat.eqb_spec i j); [congruence|ring].
Qed.
Lemma q_addI A t v : q (addI A t) v = q A v + t * rdot d v v.
Proof.
  unfold rdot. rewrite (Rsum_ext d _ (fun k => v k * rmv d A v k + t * (v k * v k))).
  - rewrite Rsum_plus, Rsum_scal. reflexivity.
  - intros k Hk. rewrite rmv_addI by exact Hk. ring.
Qed.
Lemma addI_symm A t : symm d A -> symm d (addI A t).
Proof. intros H i j Hi Hj. unfold addI, ident. rewrite (H i j Hi Hj), (Nat.eqb_sym i j). reflexivity. Qed.

Definition axpy (t : R) (v w : nat -> R) : nat -> R := fun i => v i + t * w i.
Lemma rmv_axpy A t v w i : rmv d A (axpy t v w) i = rmv d A v i + t * rmv d A w i.
Proof.
  unfold rmv, axpy. rewrite <- Rsum_scal, <- Rsum_plus. apply Rsum_ext. intros; ring.
Qed.
Lemma q_axpy A t v w : symm d A ->
  q A (axpy t v w) = q A v + 2 * t * rdot d w (rmv d A v) + t * t * q A w.
Proof.
  intros Hs.
  assert (E : rdot d v (rmv d A w) = rdot d w (rmv d A v)) by (rewrite (rdot_rmv_sym d A v w Hs); apply rdot_comm).
  transitivity (q A v + t * rdot d v (rmv d A w) + t * rdot d w (rmv d A v) + t * t * q A w).
  - unfold rdot. rewrite <- !Rsum_scal, <- !Rsum_plus. apply Rsum_ext. intros k Hk. rewrite rmv_axpy. unfold axpy. ring.
  - rewrite E. ring.
Qed.
(** Cauchy-Schwarz for a non-negative form *)
Lemma form_cs A v w : symm d A -> (forall u, 0 <= q A u) ->
  rdot d w (rmv d A v) * rdot d w (rmv d A v) <= q A v * q A w.
Proof.
  intros Hs Hp. set (b := rdot d w (rmv d A v)). set (a := q A v). set (c := q A w).
  assert (H : forall t, 0 <= a + 2 * t * b + t * t * c).
  { intros t. pose proof (Hp (axpy t v w)) as H. pose proof (q_axpy A t v w Hs) as E. cbv beta in E. rewrite E in H. exact H. }
  assert (Hc : 0 <= c) by apply Hp.
  destruct (Req_dec c 0) as [Z|Z].
  - rewrite Z in *. assert (b = 0).
    { destruct (Req_dec b 0) as [|N]; [assumption|exfalso].
      specialize (H (- (a + 1) / (2 * b))). replace (2 * (- (a + 1) / (2 * b)) * b) with (- (a + 1)) in H by (field; exact N). lra. }
    rewrite H0. lra.
  - specialize (H (- b / c)). replace (a + 2 * (- b / c) * b + - b / c * (- b / c) * c) with (a - b * b / c) in H by (field; exact Z).
    assert (b * b / c * c <= a * c) by (apply Rmult_le_compat_r; lra).
    replace (b * b / c * c) with (b * b) in H0 by (field; exact Z). exact H0.
Qed.
Lemma form_kernel A v : symm d A -> (forall u, 0 <= q A u) -> q A v = 0 -> forall i, (i < d)%nat -> rmv d A v i = 0.
Proof.
  intros Hs Hp Hv. pose proof (form_cs A v (rmv d A v) Hs Hp) as H. cbv beta in *. rewrite Hv in H.
  apply rdot_self_zero. pose proof (rdot_self_nonneg d (rmv d A v)). nra.
Qed.

Lemma pd_coercive A : symm d A -> posdef d A -> exists c, 0 < c /\ forall v, c * rdot d v v <= q A v.
Proof.
  intros Hs Hp. destruct (proj1 (chol_inv_matrix d A Hs) Hp) as (P & _ & _ & _ & H1 & H2 & HPs & _).
  set (C := Rsum d (fun i => Rsum d (fun j => Rabs (P i j))) + 1).
  assert (HC : 1 <= C).
  { unfold C. assert (0 <= Rsum d (fun i => Rsum d (fun j => Rabs (P i j)))); [|lra].
    apply Rsum_nonneg; intros; apply Rsum_nonneg; intros; apply Rabs_pos. }
  exists (/ C). split; [apply Rinv_0_lt_compat; lra|]. intros v.
  set (u := rmv d P v).
  assert (Hu : forall i, (i < d)%nat -> rmv d A u i = v i).
  { intros i Hi. unfold u. rewrite <- rmv_rmm. unfold rmv.
    rewrite (Rsum_ext d _ (fun k => ident i k * v k)).
    - rewrite (Rsum_single d _ i Hi); [unfold ident; rewrite Nat.eqb_refl; ring|].
      intros j Hj Hne. unfold ident. destruct (Nat.eqb_spec i j); [congruence|ring].
    - intros k Hk. unfold rmm. rewrite H1 by assumption. reflexivity. }
  assert (Hvv : rdot d v (rmv d A u) = rdot d v v) by (apply rdot_ext; [reflexivity|exact Hu]).
  assert (Huu : rdot d u (rmv d A u) = rdot d v (rmv d P v)).
  { rewrite (rdot_ext d u u _ v); [|reflexivity|exact Hu]. apply rdot_comm. }
  pose proof (form_cs A u v Hs (fun w => posdef_nonneg d A w Hp)) as CS. cbv beta in CS.
  rewrite Hvv, Huu in CS.
  pose proof (qf_bound d P v) as B. pose proof (rdot_self_nonneg d v) as Nv.
  pose proof (posdef_nonneg d A v Hp) as Na. cbv beta.
  assert (B' : rdot d v (rmv d P v) <= C * rdot d v v) by (unfold C; lra).
  apply Rmult_le_reg_l with C; [lra|]. rewrite <- Rmult_assoc, Rinv_r, Rmult_1_l by lra.
  destruct (Req_dec (rdot d v v) 0) as [Z|Z]; [rewrite Z; apply Rmult_le_pos; lra|].
  apply Rmult_le_reg_r with (rdot d v v); [lra|].
  apply Rle_trans with (1 := CS).
  replace (C * q A v * rdot d v v) with (C * rdot d v v * q A v) by ring. apply Rmult_le_compat_r; [exact Na|exact B'].
Qed.

(** a symmetric matrix that is not positive definite has an eigenvalue <= 0 *)
Lemma not_pd_eigen A : symm d A -> ~ posdef d A ->
  exists l v, l <= 0 /\ (exists i, (i < d)%nat /\ v i <> 0) /\ forall i, (i < d)%nat -> rmv d A v i = l * v i.
Proof.
  intros Hs Hn.
  assert (W : exists v0, (exists i, (i < d)%nat /\ v0 i <> 0) /\ q A v0 <= 0).
  { apply NNPP. intros N. apply Hn. apply posdef_rdot. intros v Hv. apply Rnot_le_lt. intros H. apply N. exists v. auto. }
  destruct W as (v0 & Hv0 & Hq0).
  assert (N0 : 0 < rdot d v0 v0).
  { destruct Hv0 as (i & Hi & Hne).
    pose proof (Rsum_ge_term d (fun k => v0 k * v0 k) i ltac:(intros; nra) Hi) as G. cbv beta in G. unfold rdot. nra. }
  set (E := fun x => forall v, 0 <= q A v - x * rdot d v v).
  assert (bE : bound E).
  { exists 0. intros x Hx. specialize (Hx v0). cbv beta in Hx, Hq0.
    destruct (Rle_lt_dec x 0) as [|P]; [assumption|exfalso]. assert (0 < x * rdot d v0 v0) by (apply Rmult_lt_0_compat; assumption). lra. }
  assert (neE : exists x, E x).
  { exists (- Rsum d (fun i => Rsum d (fun j => Rabs (- A i j)))). intros v.
    pose proof (qf_bound d (fun i j => - A i j) v) as B.
    assert (EE : rdot d v (rmv d (fun i j => - A i j) v) = - q A v).
    { unfold rdot, rmv. rewrite <- Rsum_opp. apply Rsum_ext. intros i Hi.
      rewrite (Rsum_ext d (fun k => - A i k * v k) (fun k => - (A i k * v k))) by (intros; ring).
      rewrite Rsum_opp. ring. }
    rewrite EE in B. cbv beta in *. lra. }
  destruct (completeness E bE neE) as [l [Hub Hlub]].
  assert (El : E l).
  { intros v. apply Rnot_lt_le. intros H. pose proof (rdot_self_nonneg d v) as Nv. cbv beta in H.
    set (e := - (q A v - l * rdot d v v)). assert (He : 0 < e) by (unfold e; cbv beta; lra).
    assert (Hl : l <= l - e / (rdot d v v + 1)).
    { apply Hlub. intros x Hx. apply Rnot_lt_le. intros Hlt. specialize (Hx v). cbv beta in Hx.
      assert (G : (l - e / (rdot d v v + 1)) * rdot d v v <= x * rdot d v v) by (apply Rmult_le_compat_r; lra).
      assert (Q : e / (rdot d v v + 1) * rdot d v v < e).
      { replace (e / (rdot d v v + 1) * rdot d v v) with (e - e / (rdot d v v + 1)) by (field; lra).
        assert (0 < e / (rdot d v v + 1)); [|lra]. apply Rmult_lt_0_compat; [lra|]. apply Rinv_0_lt_compat. lra. }
      unfold e in *. cbv beta in *. lra. }
    assert (0 < e / (rdot d v v + 1)) by (apply Rmult_lt_0_compat; [lra|]; apply Rinv_0_lt_compat; lra). lra. }
  set (B := addI A (- l)).
  assert (Bs : symm d B) by (apply addI_symm; exact Hs).
  assert (Bp : forall u, 0 <= q B u).
  { intros u. unfold B. pose proof (q_addI A (- l) u) as Q. cbv beta in *. rewrite Q. specialize (El u). cbv beta in El. lra. }
  assert (Bn : ~ posdef d B).
  { intros P. destruct (pd_coercive B Bs P) as (c & Hc & Hco).
    assert (E (l + c)).
    { intros v. specialize (Hco v). unfold B in Hco. pose proof (q_addI A (- l) v) as Q. cbv beta in *. rewrite Q in Hco. lra. }
    apply Hub in H. lra. }
  assert (W : exists v, (exists i, (i < d)%nat /\ v i <> 0) /\ q B v <= 0).
  { apply NNPP. intros N. apply Bn. apply posdef_rdot. intros v Hv. apply Rnot_le_lt. intros H. apply N. exists v. auto. }
  destruct W as (v & Hv & Hq). exists l, v. split; [|split; [exact Hv|]].
  - specialize (El v0). cbv beta in El, Hq0. destruct (Rle_lt_dec l 0) as [|P]; [assumption|exfalso].
    assert (0 < l * rdot d v0 v0) by (apply Rmult_lt_0_compat; assumption). lra.
  - intros i Hi. assert (Z : rmv d B v i = 0).
    { apply form_kernel; [exact Bs|exact Bp| |exact Hi]. specialize (Bp v). cbv beta in *. lra. }
    unfold B in Z. rewrite rmv_addI in Z by exact Hi. lra.
Qed.

(** ** eigenvalues as complex numbers *)
Lemma eigen_real A l v : (exists i, (i < d)%nat /\ v i <> 0) -> (forall i, (i < d)%nat -> rmv d A v i = l * v i) ->
  eigen d A (l, 0).
Proof.
  intros (i & Hi & Hne) H. exists v, (fun _ => 0). split; [exists i; split; [exact Hi|left; exact Hne]|].
  intros j Hj. cbn [fst snd]. split.
  - transitivity (rmv d A v j); [reflexivity|]. rewrite H by exact Hj. ring.
  - rewrite (Rsum_z d (fun k => A j k * 0)); [ring|]. intros; ring.
Qed.
Lemma eigen_symm A z : symm d A -> eigen d A z ->
  snd z = 0 /\ exists v, (exists i, (i < d)%nat /\ v i <> 0) /\ forall i, (i < d)%nat -> rmv d A v i = fst z * v i.
Proof.
  intros Hs (u & v & Hne & H). destruct z as [a b]. cbn [fst snd] in *.
  assert (H1 : rdot d v (rmv d A u) = a * rdot d v u - b * rdot d v v).
  { unfold rdot. rewrite <- !Rsum_scal, <- Rsum_minus. apply Rsum_ext. intros k Hk. unfold rmv. rewrite (proj1 (H k Hk)). ring. }
  assert (H2 : rdot d u (rmv d A v) = b * rdot d u u + a * rdot d u v).
  { unfold rdot. rewrite <- !Rsum_scal, <- Rsum_plus. apply Rsum_ext. intros k Hk. unfold rmv. rewrite (proj2 (H k Hk)). ring. }
  assert (E : rdot d v (rmv d A u) = rdot d u (rmv d A v)) by (rewrite (rdot_rmv_sym d A v u Hs); apply rdot_comm).
  rewrite (rdot_comm d v u) in H1.
  pose proof (rdot_self_nonneg d u) as Nu. pose proof (rdot_self_nonneg d v) as Nv.
  assert (P : 0 < rdot d u u + rdot d v v).
  { destruct Hne as (i & Hi & [N|N]).
    - pose proof (Rsum_ge_term d (fun k => u k * u k) i ltac:(intros; nra) Hi) as G. cbv beta in G. unfold rdot in *. nra.
    - pose proof (Rsum_ge_term d (fun k => v k * v k) i ltac:(intros; nra) Hi) as G. cbv beta in G. unfold rdot in *. nra. }
  assert (Hb : b = 0).
  { assert (Q : b * (rdot d u u + rdot d v v) = 0) by (rewrite E in H1; lra).
    apply Rmult_integral in Q. destruct Q; [assumption|lra]. }
  split; [exact Hb|]. subst b. destruct Hne as (i & Hi & [N|N]).
  - exists u. split; [exists i; auto|]. intros j Hj. unfold rmv. rewrite (proj1 (H j Hj)). ring.
  - exists v. split; [exists i; auto|]. intros j Hj. unfold rmv. rewrite (proj2 (H j Hj)). ring.
Qed.
Lemma eigen_quot A l v : (exists i, (i < d)%nat /\ v i <> 0) -> (forall i, (i < d)%nat -> rmv d A v i = l * v i) ->
  rdot d v (rmv d A v) = l * rdot d v v /\ 0 < rdot d v v.
Proof.
  intros (i & Hi & Hne) H. split.
  - unfold rdot. rewrite <- Rsum_scal. apply Rsum_ext. intros k Hk. rewrite H by exact Hk. ring.
  - pose proof (Rsum_ge_term d (fun k => v k * v k) i ltac:(intros; nra) Hi) as G. cbv beta in G. unfold rdot. nra.
Qed.
(** all eigenvalues positive <-> positive definite *)
Lemma eigen_posdef A : symm d A -> (posdef d A <-> forall z, eigen d A z -> snd z = 0 /\ 0 < fst z).
Proof.
  intros Hs. split.
  - intros Hp z Hz. destruct (eigen_symm A z Hs Hz) as (Hb & v & Hv & He). split; [exact Hb|].
    destruct (eigen_quot A (fst z) v Hv He) as [Q P].
    pose proof (proj1 (posdef_rdot d A) Hp v Hv) as G. rewrite Q in G.
    apply Rmult_lt_reg_r with (rdot d v v); [exact P|]. lra.
  - intros H. apply NNPP. intros N. destruct (not_pd_eigen A Hs N) as (l & v & Hl & Hv & He).
    destruct (H (l, 0) (eigen_real A l v Hv He)) as [_ P]. cbn in P. lra.
Qed.
(** a symmetric matrix of dimension >= 1 has an eigenvalue *)
Lemma eigen_exists A : symm d A -> (0 < d)%nat -> exists z, eigen d A z.
Proof.
  intros Hs Hd.
  assert (N : ~ posdef d (addI A (- A 0%nat 0%nat))).
  { intros P. assert (Q := proj1 (posdef_rdot d _) P (fun i => if Nat.eqb i 0 then 1 else 0)).
    assert (Z : exists i, (i < d)%nat /\ (if Nat.eqb i 0 then 1 else 0) <> 0) by (exists 0%nat; split; [exact Hd|cbn; lra]).
    specialize (Q Z).
    rewrite rdot_rmv in Q. rewrite (Rsum_single d _ 0%nat Hd) in Q.
    - rewrite (Rsum_single d _ 0%nat Hd) in Q; [unfold addI, ident in Q; cbn in Q; lra|].
      intros j _ Hj. destruct j; [congruence|]. cbn. ring.
    - intros j _ Hj. apply Rsum_z. intros k _. destruct j; [congruence|]. cbn. ring. }
  destruct (not_pd_eigen _ (addI_symm A _ Hs) N) as (l & v & _ & Hv & He).
  exists (l + A 0%nat 0%nat, 0). apply eigen_real with v; [exact Hv|]. intros i Hi. specialize (He i Hi).
  rewrite rmv_addI in He by exact Hi. lra.
Qed.
End Form.

(** ** diagonal matrices *)
Lemma diag_posdef d (A : nat -> nat -> R) : diagonal d A -> (posdef d A <-> forall i, (i < d)%nat -> 0 < A i i).
Proof.
  intros Hd.
  assert (E : forall v, rdot d v (rmv d A v) = Rsum d (fun i => A i i * (v i * v i))).
  { intros v. apply Rsum_ext. intros i Hi. unfold rmv. rewrite (Rsum_single d _ i Hi); [ring|].
    intros j Hj Hne. rewrite Hd by auto. ring. }
  rewrite posdef_rdot. split.
  - intros H i Hi. specialize (H (fun k => if Nat.eqb k i then 1 else 0)).
    rewrite E, (Rsum_single d _ i Hi), Nat.eqb_refl in H.
    + enough (0 < A i i * (1 * 1)) by lra. apply H. exists i. rewrite Nat.eqb_refl. split; [exact Hi|lra].
    + intros j _ Hj. destruct (Nat.eqb_spec j i); [contradiction|ring].
  - intros H v (i & Hi & Hv). rewrite E.
    apply Rlt_le_trans with (A i i * (v i * v i)); [apply Rmult_lt_0_compat; [apply H; exact Hi|nra]|].
    apply (Rsum_ge_term d (fun k => A k k * (v k * v k)) i); [|exact Hi].
    intros k Hk. apply Rmult_le_pos; [apply Rlt_le, H, Hk|nra].
Qed.
Lemma diag_eigen d (A : nat -> nat -> R) : diagonal d A -> forall z, eigen d A z <-> exists i, (i < d)%nat /\ z = (A i i, 0).
Proof.
  intros Hd z. split.
  - intros Hz. assert (Hs : symm d A).
    { intros i j Hi Hj. destruct (Nat.eq_dec i j); [subst; reflexivity|]. rewrite !Hd; auto. }
    destruct (eigen_symm d A z Hs Hz) as (Hb & v & (i & Hi & Hv) & He). exists i. split; [exact Hi|].
    destruct z as [a b]. cbn [fst snd] in *. subst b. f_equal. specialize (He i Hi). unfold rmv in He.
    rewrite (Rsum_single d _ i Hi) in He; [|intros j Hj Hne; rewrite Hd by auto; ring].
    apply Rmult_eq_reg_r with (v i); [lra|exact Hv].
  - intros (i & Hi & ->). apply eigen_real with (fun k => if Nat.eqb k i then 1 else 0).
    + exists i. rewrite Nat.eqb_refl. split; [exact Hi|lra].
    + intros j Hj. unfold rmv. rewrite (Rsum_single d _ i Hi).
      * rewrite Nat.eqb_refl. destruct (Nat.eqb_spec j i) as [->|Hne]; [ring|]. rewrite Hd by auto. ring.
      * intros k _ Hk. destruct (Nat.eqb_spec k i); [contradiction|ring].
Qed.
