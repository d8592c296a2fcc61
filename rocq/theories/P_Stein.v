(** * Derivatives of the expected squared drift mismatch with respect to the parameters of
    the linear approximation (Stein's lemma for the drifts of the shipped models). *)
From Coq Require Import ZArith List Bool Arith Reals Lra Lia FunctionalExtensionality.
From Coquelicot Require Import Coquelicot.
From Verif Require Import Num Arr ArrFacts M_LinAlg M_Utils M_Moments M_Sde1 M_L63 M_L96 M_VarGP
  Spec_Utils Spec_Gauss Spec_GaussN Spec_Sde1 Spec_L63 Spec_L96 Spec_VarGP P_Trapz P_Gauss P_Moments P_Sde1 P_GaussN
  P_L63 P_L96 P_RMat P_Expect P_LinAlg P_Det P_Like.
Import ListNotations.
Local Open Scope R_scope.

(** ** Stein's identity for quadratic polynomials *)
Definition q1 : list qterm := [(1, None, None)].
Definition qx (j : nat) : list qterm := [(1, Some j, None)].
Definition is_ix (o : option nat) (p : nat) : R := match o with Some i => if Nat.eqb i p then 1 else 0 | None => 0 end.
(** partial derivative in coordinate p *)
Fixpoint qgrad (l : list qterm) (p : nat) : list qterm :=
  match l with
  | [] => []
  | (c, o, o') :: l' => (c * is_ix o p, o', None) :: (c * is_ix o' p, o, None) :: qgrad l' p
  end.
Lemma qgrad_ok n l p : qok n l -> qok n (qgrad l p).
Proof.
  induction l as [|[[c o] o'] l IH]; intros H; [constructor|]. inversion H as [|? ? [Ho Ho'] Hl]. cbn in Ho, Ho'.
  constructor; [cbn; auto|]. constructor; [cbn; auto|]. apply IH, Hl.
Qed.
Lemma is_ix_sum n o (g : nat -> R) : okix n o -> Rsum n (fun p => is_ix o p * g p) = match o with Some i => g i | None => 0 end.
Proof.
  intros H. destruct o as [i|]; cbn in *.
  - rewrite (Rsum_single n _ i); [rewrite Nat.eqb_refl; ring|exact H|].
    intros j Hj Hji. destruct (Nat.eqb_spec i j); [congruence|ring].
  - apply Rsum_z. intros; ring.
Qed.
Lemma stein_q n m S l j : qok n l -> (j < n)%nat ->
  qexp m S l (qx j) = qexp m S l q1 * m j + Rsum n (fun p => qexp m S (qgrad l p) q1 * S p j).
Proof.
  intros Hl Hj. induction Hl as [|[[c o] o'] l [Ho Ho'] Hl IH].
  - cbn. rewrite Rsum_z by (intros; ring). ring.
  - cbn in Ho, Ho'. set (G := fun p => qexp m S (qgrad l p) q1).
    rewrite (Rsum_ext n (fun p => qexp m S (qgrad (@cons qterm (c, o, o') l) p) q1 * S p j)
      (fun p => (is_ix o p * (c * ival m o' * S p j) + is_ix o' p * (c * ival m o * S p j)) + G p * S p j)).
    2:{ intros p Hp. unfold G. cbn [qgrad qexp]. unfold mon4, wick, q1. cbn [qexp1]. unfold mon4, wick. cbn [fam4 ival icov].
        destruct o, o'; cbn [ival icov]; ring. }
    rewrite (Rsum_plus n (fun p => is_ix o p * (c * ival m o' * S p j) + is_ix o' p * (c * ival m o * S p j)) (fun p => G p * S p j)).
    rewrite (Rsum_plus n (fun p => is_ix o p * (c * ival m o' * S p j)) (fun p => is_ix o' p * (c * ival m o * S p j))).
    rewrite (is_ix_sum n o (fun p => c * ival m o' * S p j)) by exact Ho.
    rewrite (is_ix_sum n o' (fun p => c * ival m o * S p j)) by exact Ho'.
    cbn [qexp]. rewrite IH. fold G. set (W := Rsum n _). unfold qx, q1. cbn [qexp1]. unfold mon4, wick. cbn [fam4 ival icov].
    destruct o, o'; cbn [ival icov]; ring.
Qed.
(** qgrad is the derivative *)
Lemma qgrad_derive l p (x : nat -> R) : is_derive (fun t => qval l (vset p t x)) (x p) (qval (qgrad l p) x).
Proof.
  induction l as [|[[c o] o'] l IH].
  - cbn. apply @is_derive_const.
  - cbn [qgrad qval].
    replace (c * is_ix o p * (ival x o' * ival x None) + (c * is_ix o' p * (ival x o * ival x None) + qval (qgrad l p) x))
      with (c * (is_ix o p * ival x o' + ival x o * is_ix o' p) + qval (qgrad l p) x) by (cbn; ring).
    apply (is_derive_plus (fun t => c * (ival (vset p t x) o * ival (vset p t x) o')) (fun t => qval l (vset p t x))); [|exact IH].
    apply is_derive_scal.
    assert (V : forall o, is_derive (fun t : R => ival (vset p t x) o) (x p) (is_ix o p)).
    { intros [i|]; cbn; [|apply @is_derive_const]. unfold vset. destruct (Nat.eqb i p); [apply @is_derive_id|apply @is_derive_const]. }
    assert (X : forall o, ival (vset p (x p) x) o = ival x o).
    { intros [i|]; cbn; [|reflexivity]. unfold vset. destruct (Nat.eqb_spec i p); congruence. }
    rewrite <- (X o'), <- (X o) at 1.
    apply (is_derive_mult (fun t => ival (vset p t x) o) (fun t => ival (vset p t x) o')); [apply V|apply V|].
    intros; apply Rmult_comm.
Qed.

Definition dl (i a : nat) : R := if Nat.eqb a i then 1 else 0.
Lemma Rsum_delta n i (g : nat -> R) : (i < n)%nat -> Rsum n (fun a => dl i a * g a) = g i.
Proof.
  intros Hi. unfold dl. rewrite (Rsum_single n _ i Hi); [rewrite Nat.eqb_refl; ring|].
  intros j Hj Hji. destruct (Nat.eqb_spec j i); [congruence|ring].
Qed.

(** ** expected quadratic form when one component moves *)
Section Move.
Context (n : nat) (m : nat -> R) (S P : nat -> nat -> R) (HP : symm n P).
Definition qform (r : nat -> R) : R := 1 / 2 * Rsum n (fun i => Rsum n (fun j => P i j * (r i * r j))).
Lemma qform_move r i h : (i < n)%nat ->
  qform (fun a => r a + dl i a * h) = qform r + h * Rsum n (fun k => P i k * r k) + h ^ 2 / 2 * P i i.
Proof.
  intros Hi. unfold qform.
  rewrite (Rsum_ext n _ (fun a => Rsum n (fun b => P a b * (r a * r b)) + (h * (r a * P a i) + dl i a * (h * Rsum n (fun k => P a k * r k) + h ^ 2 * P a i)))).
  2:{ intros a Ha.
    rewrite (Rsum_ext n _ (fun b => P a b * (r a * r b) + (dl i b * (h * r a * P a b) + (dl i a * h) * (P a b * r b) + dl i b * (dl i a * h ^ 2 * P a b)))) by (intros; ring).
    rewrite (Rsum_plus n (fun b => P a b * (r a * r b)) (fun b => dl i b * (h * r a * P a b) + (dl i a * h) * (P a b * r b) + dl i b * (dl i a * h ^ 2 * P a b))).
    rewrite (Rsum_plus n (fun b => dl i b * (h * r a * P a b) + (dl i a * h) * (P a b * r b)) (fun b => dl i b * (dl i a * h ^ 2 * P a b))).
    rewrite (Rsum_plus n (fun b => dl i b * (h * r a * P a b)) (fun b => (dl i a * h) * (P a b * r b))).
    rewrite (Rsum_delta n i (fun b => h * r a * P a b)), (Rsum_delta n i (fun b => dl i a * h ^ 2 * P a b)) by exact Hi. rewrite (Rsum_scal n (dl i a * h)). ring. }
  rewrite (Rsum_plus n (fun a => Rsum n (fun b => P a b * (r a * r b))) (fun a => h * (r a * P a i) + dl i a * (h * Rsum n (fun k => P a k * r k) + h ^ 2 * P a i))).
  rewrite (Rsum_plus n (fun a => h * (r a * P a i)) (fun a => dl i a * (h * Rsum n (fun k => P a k * r k) + h ^ 2 * P a i))).
  rewrite (Rsum_delta n i (fun a => h * Rsum n (fun k => P a k * r k) + h ^ 2 * P a i)) by exact Hi.
  rewrite (Rsum_scal n h).
  rewrite (Rsum_ext n (fun a => r a * P a i) (fun k => P i k * r k)) by (intros a Ha; rewrite (HP a i Ha Hi); ring).
  field.
Qed.

Context (q : nat -> list qterm) (Hq : forall i, (i < n)%nat -> qok n (q i)).
Lemma E_qform : E_mvn n m S (fun x => qform (fun i => qval (q i) x))
  (qform (fun _ => 0) + 1 / 2 * Rsum n (fun i => Rsum n (fun j => P i j * qexp m S (q i) (q j)))).
Proof.
  replace (qform (fun _ => 0)) with 0.
  2:{ unfold qform. rewrite Rsum_z; [ring|]. intros. apply Rsum_z. intros. ring. }
  rewrite Rplus_0_l. unfold qform. apply E_mvn_scal. apply E_mvn_sum. intros i Hi. apply E_mvn_sum. intros j Hj.
  apply E_mvn_scal. apply E_mvn_qq; auto.
Qed.

(** moving component i in the direction h *)
Lemma E_move i (h : list qterm) : (i < n)%nat -> qok n h ->
  exists e : R -> R,
    (forall t, E_mvn n m S (fun x => qform (fun a => qval (q a) x + dl i a * (t * qval h x))) (e t)) /\
    (forall t0, t0 = 0 -> is_derive e t0 (Rsum n (fun k => P i k * qexp m S (q k) h))).
Proof.
  intros Hi Hh. set (c0 := qform (fun _ => 0) + 1 / 2 * Rsum n (fun i => Rsum n (fun j => P i j * qexp m S (q i) (q j)))).
  set (c1 := Rsum n (fun k => P i k * qexp m S (q k) h)). set (c2 := P i i / 2 * qexp m S h h).
  exists (fun t => c0 + t * c1 + t ^ 2 * c2). split.
  - intros t. apply (E_mvn_ext n m S (fun x => (qform (fun a => qval (q a) x) + t * Rsum n (fun k => P i k * (qval (q k) x * qval h x)))
                        + t ^ 2 * (P i i / 2 * (qval h x * qval h x)))).
    { intros x. rewrite (qform_move (fun a => qval (q a) x)) by exact Hi.
      rewrite (Rsum_ext n (fun k => P i k * (qval (q k) x * qval h x)) (fun k => qval h x * (P i k * qval (q k) x))) by (intros; ring).
      rewrite (Rsum_scal n (qval h x)). field. }
    apply E_mvn_plus; [apply E_mvn_plus; [apply E_qform|]|].
    + apply E_mvn_scal. apply E_mvn_sum. intros k Hk. apply E_mvn_scal. apply E_mvn_qq; auto.
    + apply E_mvn_scal, E_mvn_scal. apply E_mvn_qq; auto.
  - intros t0 ->. auto_derive; [exact I|]. ring.
Qed.
End Move.

(** ** Quadratic drifts *)
Section Quad.
Context (n : nat) (f : (nat -> R) -> nat -> R) (q : nat -> list qterm).
Context (Hq : forall i, (i < n)%nat -> qok n (q i)) (Hf : forall i x, (i < n)%nat -> f x i = qval (q i) x).
Context (m : nat -> R) (S P A : nat -> nat -> R) (b : nat -> R) (HP : symm n P) (HS : symm n S).
Context (Ef : nat -> R) (Edf : nat -> nat -> R).
Context (HEf : forall i, (i < n)%nat -> Ef i = qexp m S (q i) q1)
        (HEdf : forall i j, (i < n)%nat -> (j < n)%nat -> Edf i j = qexp m S (qgrad (q i) j) q1).

Definition lin_terms (A : nat -> nat -> R) (i : nat) : list qterm := map (fun k => (A i k, Some k, None)) (seq 0 n).
Definition rq (A : nat -> nat -> R) (b : nat -> R) (i : nat) : list qterm :=
  q i ++ lin_terms A i ++ [(- b i, None, None)].
Lemma qval_app l l' x : qval (l ++ l') x = qval l x + qval l' x.
Proof. induction l as [|[[c o] p] l IH]; cbn [app qval]; [ring|]. rewrite IH. ring. Qed.
Lemma qexp_app m' S' l l' r : qexp m' S' (l ++ l') r = qexp m' S' l r + qexp m' S' l' r.
Proof. induction l as [|[[c o] p] l IH]; cbn [app qexp]; [ring|]. rewrite IH. ring. Qed.
Lemma lin_val A' i x : qval (lin_terms A' i) x = Rsum n (fun k => A' i k * x k).
Proof.
  unfold lin_terms. clear. induction n as [|k IH]; [reflexivity|].
  rewrite seq_S, map_app, qval_app, IH. cbn. ring.
Qed.
Lemma qexp1_scal m' S' a c o p r : qexp1 m' S' (a * c) o p r = a * qexp1 m' S' c o p r.
Proof. induction r as [|[[c' o'] p'] r IH]; cbn [qexp1]; [ring|]. rewrite IH. ring. Qed.
Lemma lin_exp A' i r : qexp m S (lin_terms A' i) r = Rsum n (fun k => A' i k * qexp m S [(1, Some k, None)] r).
Proof.
  unfold lin_terms. clear. induction n as [|k IH]; [reflexivity|].
  rewrite seq_S, map_app, qexp_app, IH. cbn [Rsum Nat.add map qexp].
  replace (A' i k) with (A' i k * 1) at 1 by ring. rewrite qexp1_scal. ring.
Qed.
Lemma rq_ok A' b' i : (i < n)%nat -> qok n (rq A' b' i).
Proof.
  intros Hi. unfold rq, qok. apply Forall_app. split; [apply Hq, Hi|]. apply Forall_app. split.
  - unfold lin_terms. apply Forall_forall. intros t Ht. apply in_map_iff in Ht as (k & <- & Hk).
    apply in_seq in Hk. cbn. split; [lia|exact I].
  - repeat constructor.
Qed.
Lemma rq_val A' b' i x : (i < n)%nat -> qval (rq A' b' i) x = f x i - glin n A' b' x i.
Proof. intros Hi. unfold rq, glin. rewrite !qval_app, lin_val, <- Hf by exact Hi. cbn. ring. Qed.

Lemma quad_mismatch_db i : (i < n)%nat ->
  exists e : R -> R,
    (forall t, E_mvn n m S (mismatch_n n P (fun x => f x) (fun x => glin n A (vset i t b) x)) (e t)) /\
    is_derive e (b i) (dEsde_dbn (K:=RNum) n P Ef m A b i).
Proof.
  intros Hi. destruct (E_move n m S P HP (rq A b) (rq_ok A b) i [(-1, None, None)] Hi ltac:(repeat constructor)) as (e & He & Hd).
  exists (fun t => e (t - b i)). split.
  - intros t. eapply E_mvn_ext; [|apply He]. intros x. unfold mismatch_n, qform. f_equal.
    apply Rsum_ext. intros a Ha. apply Rsum_ext. intros c Hc. cbv beta. rewrite !rq_val by assumption.
    cbn [qval ival]. unfold dl, glin, vset. destruct (Nat.eqb_spec a i), (Nat.eqb_spec c i); subst; ring.
  - set (L := Rsum n _) in Hd.
    replace (dEsde_dbn (K:=RNum) n P Ef m A b i) with (1 * L).
    + apply (is_derive_comp e (fun t => t - b i)); [apply Hd; ring|]. auto_derive; [exact I|ring].
    + unfold L, dEsde_dbn. rewrite mvec_R, Rmult_1_l. apply Rsum_ext. intros k Hk. rewrite mvec_R.
      unfold rq. rewrite !qexp_app, lin_exp.
      assert (E1 : forall l, qexp m S l [(-1, None, None)] = - qexp m S l q1).
      { induction l as [|[[c o] p] l IH]; cbn [qexp q1 qexp1]; [ring|]. rewrite IH. cbn [qexp1]. unfold q1. ring. }
      rewrite E1, <- HEf by exact Hk.
      rewrite (Rsum_ext n (fun k0 => A k k0 * qexp m S [(1, Some k0, None)] [(-1, None, None)]) (fun k0 => -1 * (A k k0 * m k0))).
      2:{ intros k0 _. cbn [qexp qexp1]. unfold mon4, wick. cbn [fam4 ival icov]. ring. }
      rewrite (Rsum_scal n (-1) (fun k0 => A k k0 * m k0)).
      cbn [qexp qexp1]. unfold mon4, wick. cbn [fam4 ival icov]. rnum. ring.
Qed.

Lemma lin_ok A' i : qok n (lin_terms A' i).
Proof.
  unfold lin_terms. apply Forall_forall. intros t Ht. apply in_map_iff in Ht as (k & <- & Hk).
  apply in_seq in Hk. cbn. split; [lia|exact I].
Qed.
Lemma quad_mismatch_da i j : (i < n)%nat -> (j < n)%nat ->
  exists e : R -> R,
    (forall t, E_mvn n m S (mismatch_n n P (fun x => f x) (fun x => glin n (mset i j t A) b x)) (e t)) /\
    is_derive e (A i j) (dEsde_dan (K:=RNum) n P A m S Edf (dEsde_dbn (K:=RNum) n P Ef m A b) i j).
Proof.
  intros Hi Hj. destruct (E_move n m S P HP (rq A b) (rq_ok A b) i (qx j) Hi ltac:(repeat constructor; exact Hj)) as (e & He & Hd).
  exists (fun t => e (t - A i j)). split.
  - intros t. eapply E_mvn_ext; [|apply He]. intros x. unfold mismatch_n, qform. f_equal.
    assert (G : forall a, glin n (mset i j t A) b x a = glin n A b x a - dl i a * ((t - A i j) * x j)).
    { intros a. unfold glin, mset, dl. destruct (Nat.eqb_spec a i) as [->|]; cbn [andb].
      - rewrite (Rsum_ext n _ (fun k => A i k * x k + dl j k * ((t - A i j) * x k))).
        2:{ intros k Hk. unfold dl. destruct (Nat.eqb_spec k j); subst; ring. }
        rewrite (Rsum_plus n (fun k => A i k * x k) (fun k => dl j k * ((t - A i j) * x k))).
        rewrite (Rsum_delta n j (fun k => (t - A i j) * x k)) by exact Hj. ring.
      - ring. }
    apply Rsum_ext. intros a Ha. apply Rsum_ext. intros c Hc. cbv beta. rewrite !rq_val, !G by assumption.
    cbn [qx qval ival]. ring.
  - set (L := Rsum n _) in Hd.
    replace (dEsde_dan (K:=RNum) n P A m S Edf (dEsde_dbn (K:=RNum) n P Ef m A b) i j) with (1 * L).
    + apply (is_derive_comp e (fun t => t - A i j)); [apply Hd; ring|]. auto_derive; [exact I|ring].
    + unfold L, dEsde_dan, msub, mouter, dEsde_dbn. rewrite mmul_R, mvec_R, Rmult_1_l.
      rewrite (Rsum_ext n (fun k => mmul n P (madd Edf A) i k * S k j)
                          (fun k => Rsum n (fun l => P i l * ((Edf l k + A l k) * S k j)))).
      2:{ intros k Hk. rewrite mmul_R, <- (Rsum_scal_r n). apply Rsum_ext. intros l Hl. unfold madd. rnum. ring. }
      rewrite Rsum_swap.
      rewrite (Rsum_ext n (fun k => P i k * qexp m S (rq A b k) (qx j))
        (fun l => Rsum n (fun k => P i l * ((Edf l k + A l k) * S k j)) + -1 * (P i l * (- Ef l - Rsum n (fun k => A l k * m k) + b l) * m j))).
      2:{ intros l Hl. unfold rq. rewrite !qexp_app, lin_exp.
          rewrite (stein_q n m S (q l) j) by auto. rewrite <- HEf by exact Hl.
          rewrite (Rsum_ext n (fun p => qexp m S (qgrad (q l) p) q1 * S p j) (fun p => Edf l p * S p j)) by (intros p Hp; rewrite HEdf by assumption; reflexivity).
          rewrite (Rsum_ext n (fun k => A l k * qexp m S [(1, Some k, None)] (qx j)) (fun k => A l k * S k j + m j * (A l k * m k))).
          2:{ intros k0 _. cbn [qexp qexp1 qx]. unfold mon4, wick. cbn [fam4 ival icov]. ring. }
          rewrite (Rsum_plus n (fun k => A l k * S k j) (fun k => m j * (A l k * m k))), (Rsum_scal n (m j)).
          rewrite (Rsum_scal n (P i l) (fun k => (Edf l k + A l k) * S k j)).
          rewrite (Rsum_ext n (fun k => (Edf l k + A l k) * S k j) (fun k => Edf l k * S k j + A l k * S k j)) by (intros; ring).
          rewrite (Rsum_plus n (fun k => Edf l k * S k j) (fun k => A l k * S k j)).
          cbn [qexp qexp1 qx]. unfold mon4, wick. cbn [fam4 ival icov]. ring. }
      rewrite (Rsum_plus n (fun l => Rsum n (fun k => P i l * ((Edf l k + A l k) * S k j)))
                 (fun l => -1 * (P i l * (- Ef l - Rsum n (fun k => A l k * m k) + b l) * m j))).
      rewrite (Rsum_scal n (-1)), (Rsum_scal_r n (m j)).
      rewrite (Rsum_ext n (fun k => P i k * (@nadd RNum (@nsub RNum (@nopp RNum (Ef k)) (mvec n A m k)) (b k)))
         (fun l => P i l * (- Ef l - Rsum n (fun k => A l k * m k) + b l))) by (intros l Hl; rewrite mvec_R; rnum; ring).
      rnum. ring.
Qed.
End Quad.

(** ** Lorenz 63 and Lorenz 96 *)
Definition F63 (th : nat -> R) (x : nat -> R) (i : nat) : R := f63 (th 0%nat) (th 1%nat) (th 2%nat) x i.
Lemma stein63_f (th m : nat -> R) S i : (i < 3)%nat -> symm 3 S ->
  l63_Ef (K:=RNum) th m S i = qexp m S (q63 th (fun _ _ => 0) (fun _ => 0) i) q1.
Proof.
  intros Hi Hs.
  assert (S10 : S 1%nat 0%nat = S 0%nat 1%nat) by (apply Hs; lia).
  assert (S20 : S 2%nat 0%nat = S 0%nat 2%nat) by (apply Hs; lia).
  assert (S21 : S 2%nat 1%nat = S 1%nat 2%nat) by (apply Hs; lia).
  destruct i as [|[|[|i]]]; [| | |lia]; l63unf; unfold q63, q1; cbn [qexp qexp1]; unfold mon4, wick;
      cbn [fam4 ival icov]; rewrite ?S10, ?S20, ?S21; rnum; ring.
Qed.
Lemma stein63_df (th m : nat -> R) S i j : (i < 3)%nat -> (j < 3)%nat ->
  l63_Edf (K:=RNum) th m i j = qexp m S (qgrad (q63 th (fun _ _ => 0) (fun _ => 0) i) j) q1.
Proof.
  intros Hi Hj.
  destruct i as [|[|[|i]]]; [| | |lia]; (destruct j as [|[|[|j]]]; [| | |lia]);
      l63unf; unfold q63; cbn [qgrad is_ix Nat.eqb]; unfold q1; cbn [qexp qexp1]; unfold mon4, wick; cbn [fam4 ival icov]; rnum; ring.
Qed.
Lemma l63_db (th m : nat -> R) (S P A : nat -> nat -> R) b i : symm 3 P -> symm 3 S -> (i < 3)%nat ->
  exists e : R -> R,
    (forall t, E_mvn 3 m S (mismatch_n 3 P (F63 th) (glin 3 A (vset i t b))) (e t)) /\
    is_derive e (b i) (dEsde_dbn (K:=RNum) 3 P (l63_Ef (K:=RNum) th m S) m A b i).
Proof.
  intros HP HS Hi.
  apply (quad_mismatch_db 3 (F63 th) (q63 th (fun _ _ => 0) (fun _ => 0))); auto.
  - intros; apply q63_ok.
  - intros k x Hk. unfold F63. rewrite q63_0 by exact Hk. reflexivity.
  - intros k Hk. apply stein63_f; assumption.
Qed.
Lemma l63_da (th m : nat -> R) (S P A : nat -> nat -> R) b i j : symm 3 P -> symm 3 S -> (i < 3)%nat -> (j < 3)%nat ->
  exists e : R -> R,
    (forall t, E_mvn 3 m S (mismatch_n 3 P (F63 th) (glin 3 (mset i j t A) b)) (e t)) /\
    is_derive e (A i j) (dEsde_dan (K:=RNum) 3 P A m S (l63_Edf (K:=RNum) th m)
       (dEsde_dbn (K:=RNum) 3 P (l63_Ef (K:=RNum) th m S) m A b) i j).
Proof.
  intros HP HS Hi Hj.
  apply (quad_mismatch_da 3 (F63 th) (q63 th (fun _ _ => 0) (fun _ => 0))); auto.
  - intros; apply q63_ok.
  - intros k x Hk. unfold F63. rewrite q63_0 by exact Hk. reflexivity.
  - intros k Hk. apply stein63_f; assumption.
  - intros k l Hk Hl. apply stein63_df; assumption.
Qed.

Lemma stein96_f n (u m : nat -> R) S i : (i < n)%nat ->
  E96_drift (K:=RNum) n u m S i = qexp m S (q96 n u i) q1.
Proof.
  intros Hi. rewrite E96_ix by exact Hi. unfold q96, q1, f96. cbn [qexp qexp1]. unfold mon4, wick. cbn [fam4 ival icov]. req; ring.
Qed.
Lemma stein96_df n (u m : nat -> R) S i j : (4 <= n)%nat -> (i < n)%nat -> (j < n)%nat ->
  E96_drift_dx (K:=RNum) n m i j = qexp m S (qgrad (q96 n u i) j) q1.
Proof.
  intros Hn Hi Hj. rewrite E96_dx_ix by exact Hi.
  destruct (cyc_distinct n i Hn Hi) as (D1 & D2 & D3 & D4 & D5 & D6).
  unfold q96. cbn [qgrad is_ix]. unfold q1. cbn [qexp qexp1]. unfold mon4, wick. cbn [fam4 ival icov].
  repeat match goal with |- context [Nat.eqb ?a ?b] => destruct (Nat.eqb_spec a b); try congruence end; req; ring.
Qed.
Lemma l96_db n (u m : nat -> R) (S P A : nat -> nat -> R) b i : symm n P -> symm n S -> (i < n)%nat ->
  exists e : R -> R,
    (forall t, E_mvn n m S (mismatch_n n P (f96 n u) (glin n A (vset i t b))) (e t)) /\
    is_derive e (b i) (dEsde_dbn (K:=RNum) n P (E96_drift (K:=RNum) n u m S) m A b i).
Proof.
  intros HP HS Hi. apply (quad_mismatch_db n (f96 n u) (q96 n u)); auto.
  - intros; apply q96_ok; assumption.
  - intros k x Hk. symmetry. apply q96_val.
  - intros k Hk. apply stein96_f; assumption.
Qed.
Lemma l96_da n (u m : nat -> R) (S P A : nat -> nat -> R) b i j : (4 <= n)%nat -> symm n P -> symm n S -> (i < n)%nat -> (j < n)%nat ->
  exists e : R -> R,
    (forall t, E_mvn n m S (mismatch_n n P (f96 n u) (glin n (mset i j t A) b)) (e t)) /\
    is_derive e (A i j) (dEsde_dan (K:=RNum) n P A m S (E96_drift_dx (K:=RNum) n m)
       (dEsde_dbn (K:=RNum) n P (E96_drift (K:=RNum) n u m S) m A b) i j).
Proof.
  intros Hn HP HS Hi Hj. apply (quad_mismatch_da n (f96 n u) (q96 n u)); auto.
  - intros; apply q96_ok; assumption.
  - intros k x Hk. symmetry. apply q96_val.
  - intros k Hk. apply stein96_f; assumption.
  - intros k l Hk Hl. apply stein96_df; assumption.
Qed.

(** ** One dimension *)
Lemma ou_db theta sigma a b m s : 0 < s -> 0 < sigma ->
  exists e : R -> R, (forall t, E_normal m s (mismatch (f_ou theta) sigma a t) (e t)) /\
    is_derive e b (dEsde_db1 (K:=RNum) (/ sigma) (- theta * m) m a b).
Proof.
  intros Hs Hsg. exists (fun t => 1 / 2 * ou_q (K:=RNum) theta a t m s / sigma). split.
  - intros t. apply ou_point_E; assumption.
  - unfold ou_q, mom_elt, dEsde_db1. rnum. auto_derive; [exact I|]. field. lra.
Qed.
Lemma ou_da theta sigma a b m s : 0 < s -> 0 < sigma ->
  exists e : R -> R, (forall t, E_normal m s (mismatch (f_ou theta) sigma t b) (e t)) /\
    is_derive e a (dEsde_da1 (K:=RNum) (/ sigma) a m s (- theta * 1) (dEsde_db1 (K:=RNum) (/ sigma) (- theta * m) m a b)).
Proof.
  intros Hs Hsg. exists (fun t => 1 / 2 * ou_q (K:=RNum) theta t b m s / sigma). split.
  - intros t. apply ou_point_E; assumption.
  - unfold ou_q, mom_elt, dEsde_db1, dEsde_da1. rnum. auto_derive; [exact I|]. field. lra.
Qed.
Definition dw_Ef (theta m s : R) : R := 4 * (theta * m - mom_elt (K:=RNum) 3 m s).
Definition dw_Edf (theta m s : R) : R := 4 * (theta - 3 * mom_elt (K:=RNum) 2 m s).
Lemma dw_db theta sigma a b m s : 0 < s -> 0 < sigma ->
  exists e : R -> R, (forall t, E_normal m s (mismatch (f_dw theta) sigma a t) (e t)) /\
    is_derive e b (dEsde_db1 (K:=RNum) (/ sigma) (dw_Ef theta m s) m a b).
Proof.
  intros Hs Hsg. exists (fun t => 1 / 2 * dw_exact theta a t m s / sigma). split.
  - intros t. apply dw_point_E; assumption.
  - unfold dw_exact, dw_Ef, mom_elt, dEsde_db1. rnum. auto_derive; [exact I|]. field. lra.
Qed.
Lemma dw_da theta sigma a b m s : 0 < s -> 0 < sigma ->
  exists e : R -> R, (forall t, E_normal m s (mismatch (f_dw theta) sigma t b) (e t)) /\
    is_derive e a (dEsde_da1 (K:=RNum) (/ sigma) a m s (dw_Edf theta m s) (dEsde_db1 (K:=RNum) (/ sigma) (dw_Ef theta m s) m a b)).
Proof.
  intros Hs Hsg. exists (fun t => 1 / 2 * dw_exact theta t b m s / sigma). split.
  - intros t. apply dw_point_E; assumption.
  - unfold dw_exact, dw_Ef, dw_Edf, mom_elt, dEsde_db1, dEsde_da1. rnum. auto_derive; [exact I|]. field. lra.
Qed.
