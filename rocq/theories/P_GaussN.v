(** * Polynomial expectations under a multivariate normal distribution. *)
From Coq Require Import ZArith List Bool Arith Reals Lra Lia FunctionalExtensionality.
From Coquelicot Require Import Coquelicot.
From Verif Require Import Num Arr ArrFacts M_LinAlg M_Moments Spec_Utils Spec_Gauss Spec_GaussN
  P_Gauss P_Moments P_LinAlg P_Sde1.
Import ListNotations.
Local Open Scope R_scope.

Lemma E_normal_ext m v f g l : (forall x, f x = g x) -> E_normal m v f l -> E_normal m v g l.
Proof.
  intros H. replace g with f; [auto|]. apply functional_extensionality. exact H.
Qed.
Lemma E_normal_lin m v f g a b l k : E_normal m v f l -> E_normal m v g k ->
  E_normal m v (fun x => a * f x + b * g x) (a * l + b * k).
Proof.
  intros H1 H2. unfold E_normal in *.
  replace (fun x => (a * f x + b * g x) * normal_density m v x)
    with (fun x => plus (scal a (f x * normal_density m v x)) (scal b (g x * normal_density m v x)))
    by (apply functional_extensionality; intros x; unfold plus, scal, mult; cbn; unfold mult; cbn; ring).
  apply (is_RInt_gen_plus (V:=R_NormedModule)); apply (is_RInt_gen_scal (V:=R_NormedModule)); assumption.
Qed.

Lemma E_std_ext n f g e : (forall z, f z = g z) -> E_std n f e -> E_std n g e.
Proof.
  intros H. replace g with f; [auto|]. apply functional_extensionality. exact H.
Qed.
Lemma E_std_lin n f g a b l k : E_std n f l -> E_std n g k ->
  E_std n (fun z => a * f z + b * g z) (a * l + b * k).
Proof.
  revert f g l k. induction n as [|n IH]; intros f g l k; cbn.
  - intros -> ->. reflexivity.
  - intros (h1 & A1 & B1) (h2 & A2 & B2). exists (fun z => a * h1 z + b * h2 z). split.
    + intros z. apply E_normal_lin; auto.
    + apply IH; assumption.
Qed.

Lemma E_mvn_ext n m S f g e : (forall x, f x = g x) -> E_mvn n m S f e -> E_mvn n m S g e.
Proof. intros H. replace g with f; [auto|]. apply functional_extensionality. exact H. Qed.
Lemma E_mvn_lin n m S f g a b l k : E_mvn n m S f l -> E_mvn n m S g k ->
  E_mvn n m S (fun z => a * f z + b * g z) (a * l + b * k).
Proof. intros H1 H2 L HL. apply (E_std_lin n (fun z => f _) (fun z => g _)); auto. Qed.
Lemma E_mvn_scal n m S f a l : E_mvn n m S f l -> E_mvn n m S (fun z => a * f z) (a * l).
Proof.
  intros H. apply (E_mvn_ext n m S (fun z => a * f z + 0 * f z)); [intros; ring|].
  replace (a * l) with (a * l + 0 * l) by ring. apply E_mvn_lin; assumption.
Qed.
Lemma E_mvn_plus n m S f g l k : E_mvn n m S f l -> E_mvn n m S g k ->
  E_mvn n m S (fun z => f z + g z) (l + k).
Proof.
  intros H1 H2. apply (E_mvn_ext n m S (fun z => 1 * f z + 1 * g z)); [intros; ring|].
  replace (l + k) with (1 * l + 1 * k) by ring. apply E_mvn_lin; assumption.
Qed.

(** ** Product of four jointly normal variables (Isserlis).
    a i: means, c i j: covariances. *)
Definition wick (a : nat -> R) (c : nat -> nat -> R) : R :=
  a 0%nat * a 1%nat * a 2%nat * a 3%nat
  + c 0%nat 1%nat * a 2%nat * a 3%nat + c 0%nat 2%nat * a 1%nat * a 3%nat + c 0%nat 3%nat * a 1%nat * a 2%nat
  + c 1%nat 2%nat * a 0%nat * a 3%nat + c 1%nat 3%nat * a 0%nat * a 2%nat + c 2%nat 3%nat * a 0%nat * a 1%nat
  + c 0%nat 1%nat * c 2%nat 3%nat + c 0%nat 2%nat * c 1%nat 3%nat + c 0%nat 3%nat * c 1%nat 2%nat.

Lemma wick_step (a b : nat -> R) (c : nat -> nat -> R) :
  E_normal 0 1 (fun t => wick (fun i => a i + b i * t) c) (wick a (fun i j => c i j + b i * b j)).
Proof.
  unfold wick.
  generalize (a 0%nat) (a 1%nat) (a 2%nat) (a 3%nat) (b 0%nat) (b 1%nat) (b 2%nat) (b 3%nat).
  generalize (c 0%nat 1%nat) (c 0%nat 2%nat) (c 0%nat 3%nat) (c 1%nat 2%nat) (c 1%nat 3%nat) (c 2%nat 3%nat).
  clear. intros c01 c02 c03 c12 c13 c23 a0 a1 a2 a3 b0 b1 b2 b3.
  apply (E_poly_eq 0 1
   [ a0*a1*a2*a3 + c01*a2*a3 + c02*a1*a3 + c03*a1*a2 + c12*a0*a3 + c13*a0*a2 + c23*a0*a1
       + c01*c23 + c02*c13 + c03*c12;
     b0*a1*a2*a3 + a0*b1*a2*a3 + a0*a1*b2*a3 + a0*a1*a2*b3
       + c01*(b2*a3+a2*b3) + c02*(b1*a3+a1*b3) + c03*(b1*a2+a1*b2)
       + c12*(b0*a3+a0*b3) + c13*(b0*a2+a0*b2) + c23*(b0*a1+a0*b1);
     b0*b1*a2*a3 + b0*a1*b2*a3 + b0*a1*a2*b3 + a0*b1*b2*a3 + a0*b1*a2*b3 + a0*a1*b2*b3
       + c01*b2*b3 + c02*b1*b3 + c03*b1*b2 + c12*b0*b3 + c13*b0*b2 + c23*b0*b1;
     a0*b1*b2*b3 + b0*a1*b2*b3 + b0*b1*a2*b3 + b0*b1*b2*a3;
     b0*b1*b2*b3 ]).
  - lra.
  - cbn; lia.
  - intros x. cbn [peval]. ring.
  - cbn [pmom]. unfold mom_elt. rnum. ring.
Qed.

(** four affine forms in n standard normal variables *)
Lemma isserlis_std n (a : nat -> R) (B : nat -> nat -> R) (c : nat -> nat -> R) :
  E_std n (fun z => wick (fun i => a i + Rsum n (fun k => B i k * z k)) c)
          (wick a (fun i j => c i j + Rsum n (fun k => B i k * B j k))).
Proof.
  revert c. induction n as [|n IH]; intros c; cbn [E_std Rsum].
  - apply f_equal2; [apply functional_extensionality; intros; ring|].
    apply functional_extensionality; intros i; apply functional_extensionality; intros j; ring.
  - exists (fun z => wick (fun i => a i + Rsum n (fun k => B i k * z k)) (fun i j => c i j + B i n * B j n)).
    split.
    + intros z.
      apply (E_normal_ext 0 1 (fun t => wick (fun i => (a i + Rsum n (fun k => B i k * z k)) + B i n * t) c)).
      { intros t. f_equal. apply functional_extensionality. intros i. unfold vset at 2. rewrite Nat.eqb_refl.
        assert (E : Rsum n (fun k => B i k * vset n t z k) = Rsum n (fun k => B i k * z k)).
        { apply (sumn_ext n (fun k => B i k * vset n t z k) (fun k => B i k * z k)). intros k Hk.
          unfold vset. destruct (Nat.eqb_spec k n); [lia|reflexivity]. }
        rewrite E. ring. }
      apply wick_step.
    + replace (fun i j : nat => c i j + (Rsum n (fun k : nat => B i k * B j k) + B i n * B j n))
        with (fun i j : nat => (c i j + B i n * B j n) + Rsum n (fun k : nat => B i k * B j k)).
      * apply (IH (fun i j => c i j + B i n * B j n)).
      * apply functional_extensionality; intros i; apply functional_extensionality; intros j; ring.
Qed.

Lemma Rsum_0 n (f : nat -> R) : (forall i, f i = 0) -> Rsum n f = 0.
Proof. intros H. apply (sumn_zero n f). auto. Qed.

(** ** Moments of the coordinates *)
Definition fam4 {A} (x0 x1 x2 x3 : A) (i : nat) : A :=
  match i with O => x0 | 1%nat => x1 | 2%nat => x2 | _ => x3 end.
(** index of a coordinate, or the constant 1 *)
Definition ival (m : nat -> R) (o : option nat) : R := match o with Some i => m i | None => 1 end.
Definition iroot (L : nat -> nat -> R) (o : option nat) (k : nat) : R :=
  match o with Some i => L i k | None => 0 end.
Definition icov (S : nat -> nat -> R) (o p : option nat) : R :=
  match o, p with Some i, Some j => S i j | _, _ => 0 end.
Definition okix (n : nat) (o : option nat) : Prop := match o with Some i => (i < n)%nat | None => True end.

Lemma E_mvn_mon4 n m S (o0 o1 o2 o3 : option nat) :
  okix n o0 -> okix n o1 -> okix n o2 -> okix n o3 ->
  E_mvn n m S (fun x => ival x o0 * ival x o1 * ival x o2 * ival x o3)
    (wick (fun i => ival m (fam4 o0 o1 o2 o3 i)) (fun i j => icov S (fam4 o0 o1 o2 o3 i) (fam4 o0 o1 o2 o3 j))).
Proof.
  intros H0 H1 H2 H3 L HL.
  set (o := fam4 o0 o1 o2 o3).
  assert (Ho : forall i, okix n (o i)) by (intros [|[|[|i]]]; assumption).
  replace (fun i j => icov S (o i) (o j)) with
    (fun i j : nat => 0 + Rsum n (fun k => iroot L (o i) k * iroot L (o j) k)).
  - eapply E_std_ext; [|apply (isserlis_std n (fun i => ival m (o i)) (fun i => iroot L (o i)) (fun _ _ => 0))].
    intros z. unfold wick.
    assert (E : forall q, ival m q + Rsum n (fun k => iroot L q k * z k) = ival (mvn_point n m L z) q).
    { intros [i|]; cbn; [reflexivity|].
      rewrite (Rsum_0 n (fun k => 0 * z k)); intros; ring. }
    rewrite !E. cbn [o fam4]. ring.
  - apply functional_extensionality; intros i; apply functional_extensionality; intros j.
    pose proof (Ho i) as Hi. pose proof (Ho j) as Hj. destruct (o i) as [a|], (o j) as [b|]; cbn in *.
    + rewrite (HL a b Hi Hj). ring.
    + rewrite (Rsum_0 n (fun k => L a k * 0)); [ring|intros; ring].
    + rewrite (Rsum_0 n (fun k => 0 * L b k)); [ring|intros; ring].
    + rewrite (Rsum_0 n (fun k => 0 * 0)); [ring|intros; ring].
Qed.

(** ** Products of two quadratic polynomials, given as lists of terms c x_o x_p *)
Definition qterm := (R * option nat * option nat)%type.
Fixpoint qval (l : list qterm) (x : nat -> R) : R :=
  match l with [] => 0 | (c, o, p) :: l' => c * (ival x o * ival x p) + qval l' x end.
Definition mon4 m S o0 o1 o2 o3 : R :=
  wick (fun i => ival m (fam4 o0 o1 o2 o3 i)) (fun i j => icov S (fam4 o0 o1 o2 o3 i) (fam4 o0 o1 o2 o3 j)).
Fixpoint qexp1 m S (c : R) o p (l : list qterm) : R :=
  match l with [] => 0 | (c', o', p') :: l' => c * c' * mon4 m S o p o' p' + qexp1 m S c o p l' end.
Fixpoint qexp m S (l l' : list qterm) : R :=
  match l with [] => 0 | (c, o, p) :: r => qexp1 m S c o p l' + qexp m S r l' end.
Definition qok (n : nat) (l : list qterm) : Prop :=
  List.Forall (fun t : qterm => okix n (snd (fst t)) /\ okix n (snd t)) l.

Lemma E_std_zero n : E_std n (fun _ => 0) 0.
Proof.
  induction n as [|n IH]; cbn; [reflexivity|]. exists (fun _ => 0). split; [|exact IH].
  intros z. apply (E_poly_eq 0 1 []); [lra|cbn; lia|reflexivity|reflexivity].
Qed.
Lemma E_mvn_zero n m S : E_mvn n m S (fun _ => 0) 0.
Proof. intros L _. apply E_std_zero. Qed.

Lemma E_mvn_qq n m S l l' : qok n l -> qok n l' ->
  E_mvn n m S (fun x => qval l x * qval l' x) (qexp m S l l').
Proof.
  intros Hl Hl'. induction Hl as [|[[c o] p] l [Ho Hp] Hl IH].
  - apply (E_mvn_ext n m S (fun _ => 0)); [intros; cbn; ring|]. apply E_mvn_zero.
  - cbn [qexp]. cbn in Ho, Hp.
    apply (E_mvn_ext n m S (fun x => c * (ival x o * ival x p) * qval l' x + qval l x * qval l' x)).
    { intros; cbn; ring. }
    apply E_mvn_plus; [|exact IH]. clear IH Hl l.
    induction Hl' as [|[[c' o'] p'] l' [Ho' Hp'] Hl' IH].
    + apply (E_mvn_ext n m S (fun _ => 0)); [intros; cbn; ring|]. apply E_mvn_zero.
    + cbn [qexp1]. cbn in Ho', Hp'.
      apply (E_mvn_ext n m S (fun x => c * c' * (ival x o * ival x p * ival x o' * ival x p') + c * (ival x o * ival x p) * qval l' x)).
      { intros; cbn; ring. }
      apply E_mvn_plus; [|exact IH]. apply E_mvn_scal. apply E_mvn_mon4; assumption.
Qed.

Lemma E_mvn_qq_eq n m S l l' g e : qok n l -> qok n l' ->
  (forall x, g x = qval l x * qval l' x) -> e = qexp m S l l' -> E_mvn n m S g e.
Proof.
  intros H1 H2 Hg ->. apply (E_mvn_ext n m S (fun x => qval l x * qval l' x)).
  - intros; symmetry; apply Hg.
  - apply E_mvn_qq; assumption.
Qed.

(** a matrix with a Cholesky factor has a root *)
Lemma posdef_root n S : symm n S -> posdef n S -> exists L, is_root n L S.
Proof.
  intros Hs Hp. destruct (chol_succeeds n S Hs Hp) as [L HL].
  apply chol_fact_sym in HL as [_ HL]; [|exact Hs]. exists L. exact HL.
Qed.
