(** * Arithmetic interface of the model.

    numpy computes with IEEE binary64 numbers; most of the properties are about
    exact arithmetic.  The model is therefore written once, over a record of
    operations with NO laws, and instantiated
    - at the real numbers ([RNum]) to state and prove exact-arithmetic facts,
    - at the standard library's executable specification of binary64
      ([FNum], Coq.Floats.SpecFloat) to run witnesses in numpy's arithmetic. *)
From Coq Require Import ZArith List Bool Reals Lra Lia.
From Coq.Floats Require Import SpecFloat.
Import ListNotations.

(** Python exceptions as values. *)
Inductive exn :=
| ValueError | RuntimeError | NotImplementedError | KeyError | TypeError
| IndexError | LinAlgError | ZeroDivisionError
| OverflowError | AttributeError | FileNotFoundError.

Inductive result (A : Type) : Type :=
| Ok (a : A)
| Err (e : exn).
Arguments Ok {A} a.
Arguments Err {A} e.

Definition bind {A B} (r : result A) (f : A -> result B) : result B :=
  match r with Ok a => f a | Err e => Err e end.
Notation "'let*' x := e 'in' f" := (bind e (fun x => f))
  (at level 200, x pattern, e at level 100, f at level 200).

Record Num := mkNum {
  car :> Type;
  nadd : car -> car -> car;
  nsub : car -> car -> car;
  nmul : car -> car -> car;
  ndiv : car -> car -> car;
  nopp : car -> car;
  nsqrt : car -> car;
  nabs : car -> car;
  (* numeric literal: numerator / denominator, e.g. 0.5 is [nlit 1 2] *)
  nlit : Z -> positive -> car;
  (* Python's <=, <, == (all false when an operand is not a number) *)
  nle : car -> car -> bool;
  nlt : car -> car -> bool;
  neqb : car -> car -> bool;
  (* floor / ceiling of a finite number; None for infinities and nan *)
  nfloor : car -> option Z;
  nceil : car -> option Z;
}.
Arguments nadd {n} _ _.
Arguments nsub {n} _ _.
Arguments nmul {n} _ _.
Arguments ndiv {n} _ _.
Arguments nopp {n} _.
Arguments nsqrt {n} _.
Arguments nabs {n} _.
Arguments nlit {n} _ _.
Arguments nle {n} _ _.
Arguments nlt {n} _ _.
Arguments neqb {n} _ _.
Arguments nfloor {n} _.
Arguments nceil {n} _.

Declare Scope num_scope.
Delimit Scope num_scope with num.
Notation "x + y" := (nadd x y) : num_scope.
Notation "x - y" := (nsub x y) : num_scope.
Notation "x * y" := (nmul x y) : num_scope.
Notation "x / y" := (ndiv x y) : num_scope.
Notation "- x" := (nopp x) : num_scope.
Notation "x <=? y" := (nle x y) : num_scope.
Notation "x <? y" := (nlt x y) : num_scope.

(** Integer literals. *)
Definition nZ {K : Num} (z : Z) : K := nlit z 1.

(** [x ** k] for a natural number literal k.  numpy evaluates small integer
    powers as repeated products (k = 2) or with pow(); in exact arithmetic
    both are the repeated product. *)
Fixpoint npow {K : Num} (x : K) (k : nat) : K :=
  match k with
  | O => nZ 1
  | 1%nat => x
  | S k' => nmul (npow x k') x
  end.

(** ** Real numbers *)
Definition Rleb (x y : R) : bool := if Rle_dec x y then true else false.
Definition Rltb (x y : R) : bool := if Rlt_dec x y then true else false.
Definition Reqb (x y : R) : bool := if Req_EM_T x y then true else false.

Definition rlit (z : Z) (p : positive) : R :=
  match p with
  | xH => IZR z
  | _ => (IZR z / IZR (Zpos p))%R
  end.

Definition Rfloor (x : R) : Z := (up x - 1)%Z.
Definition Rceil (x : R) : Z := (- Rfloor (- x))%Z.

Definition RNum : Num :=
  mkNum R Rplus Rminus Rmult Rdiv Ropp sqrt Rabs rlit Rleb Rltb Reqb
        (fun x => Some (Rfloor x)) (fun x => Some (Rceil x)).
Canonical RNum.

Ltac rnum_in_all :=
  cbn [nadd nsub nmul ndiv nopp nsqrt nabs nlit nle nlt neqb nfloor nceil
       RNum car rlit npow nZ] in *.
Ltac rnum :=
  cbn [nadd nsub nmul ndiv nopp nsqrt nabs nlit nle nlt neqb nfloor nceil
       RNum car rlit npow nZ].

Lemma Rleb_spec x y : reflect (x <= y)%R (Rleb x y).
Proof. unfold Rleb; destruct (Rle_dec x y); constructor; assumption. Qed.
Lemma Rltb_spec x y : reflect (x < y)%R (Rltb x y).
Proof. unfold Rltb; destruct (Rlt_dec x y); constructor; assumption. Qed.
Lemma Reqb_spec x y : reflect (x = y)%R (Reqb x y).
Proof. unfold Reqb; destruct (Req_EM_T x y); constructor; assumption. Qed.

Lemma Rfloor_spec x : (IZR (Rfloor x) <= x < IZR (Rfloor x) + 1)%R.
Proof.
  unfold Rfloor. destruct (archimed x) as [H1 H2].
  rewrite minus_IZR. lra.
Qed.
Lemma Rfloor_unique x z : (IZR z <= x < IZR z + 1)%R -> Rfloor x = z.
Proof.
  intros [H1 H2]. pose proof (Rfloor_spec x) as [H3 H4].
  assert (A : (IZR z < IZR (Rfloor x) + 1)%R) by lra.
  assert (B : (IZR (Rfloor x) < IZR z + 1)%R) by lra.
  rewrite <- (plus_IZR _ 1) in A. rewrite <- (plus_IZR _ 1) in B.
  apply lt_IZR in A. apply lt_IZR in B. lia.
Qed.
Lemma Rceil_spec x : (IZR (Rceil x) - 1 < x <= IZR (Rceil x))%R.
Proof.
  unfold Rceil. pose proof (Rfloor_spec (- x)). rewrite opp_IZR. lra.
Qed.

(** ** IEEE binary64 (executable specification of the standard library) *)
Definition f64prec := 53%Z.
Definition f64emax := 1024%Z.
Definition f64_of_Z (z : Z) : spec_float :=
  binary_normalize f64prec f64emax z 0 false.
Definition f64lit (z : Z) (p : positive) : spec_float :=
  match p with
  | xH => f64_of_Z z
  | _ => SFdiv f64prec f64emax (f64_of_Z z) (f64_of_Z (Zpos p))
  end.
Definition f64floor (x : spec_float) : option Z :=
  match x with
  | S754_zero _ => Some 0%Z
  | S754_finite s m e =>
      let v := if s then Zneg m else Zpos m in
      Some (if (0 <=? e)%Z then (v * 2 ^ e)%Z else (v / 2 ^ (- e))%Z)
  | _ => None
  end.
Definition f64ceil (x : spec_float) : option Z :=
  match f64floor (SFopp x) with Some z => Some (- z)%Z | None => None end.

Definition FNum : Num :=
  mkNum spec_float
        (SFadd f64prec f64emax) (SFsub f64prec f64emax)
        (SFmul f64prec f64emax) (SFdiv f64prec f64emax)
        SFopp (SFsqrt f64prec f64emax) SFabs f64lit
        SFleb SFltb SFeqb f64floor f64ceil.

(** ** Generic list helpers *)

(** a[i] = v (no effect out of range; the model guards ranges). *)
Fixpoint upd {A} (i : nat) (v : A) (l : list A) : list A :=
  match l, i with
  | [], _ => []
  | _ :: t, O => v :: t
  | h :: t, S i' => h :: upd i' v t
  end.

Fixpoint map2 {A B C} (f : A -> B -> C) (l : list A) (r : list B) : list C :=
  match l, r with
  | a :: l', b :: r' => f a b :: map2 f l' r'
  | _, _ => []
  end.

Fixpoint map3 {A B C D} (f : A -> B -> C -> D)
         (l : list A) (r : list B) (s : list C) : list D :=
  match l, r, s with
  | a :: l', b :: r', c :: s' => f a b c :: map3 f l' r' s'
  | _, _, _ => []
  end.

Lemma upd_length {A} i (v : A) l : length (upd i v l) = length l.
Proof. revert i; induction l as [|h t IH]; intros [|i]; cbn; auto. Qed.
Lemma nth_upd_same {A} i (v : A) l d : i < length l -> nth i (upd i v l) d = v.
Proof.
  revert i; induction l as [|h t IH]; intros [|i]; cbn; intros H; try lia; auto.
  apply IH; lia.
Qed.
Lemma nth_upd_other {A} i j (v : A) l d : i <> j -> nth j (upd i v l) d = nth j l d.
Proof.
  revert i j; induction l as [|h t IH]; intros [|i] [|j] H; cbn; auto; try congruence.
Qed.
Lemma map2_length {A B C} (f : A -> B -> C) l r :
  length (map2 f l r) = min (length l) (length r).
Proof. revert r; induction l as [|a l IH]; intros [|b r]; cbn; auto. Qed.
Lemma nth_map2 {A B C} (f : A -> B -> C) l r i da db dc :
  i < length l -> i < length r ->
  nth i (map2 f l r) dc = f (nth i l da) (nth i r db).
Proof.
  revert r i; induction l as [|a l IH]; intros [|b r] [|i] Hl Hr; cbn in *; try lia; auto.
  apply IH; lia.
Qed.
