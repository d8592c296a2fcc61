(** * Properties C23 - C25: the Lorenz-96 drift. *)
From Coq Require Import ZArith Bool Reals List Lra Lia Arith.
From Coquelicot Require Import Coquelicot.
From Verif Require Import Num Arr M_L96 Spec_Utils Spec_GaussN Spec_L96 P_GaussN P_L96.
Import ListNotations.
Local Open Scope R_scope.

(** ** C23 *)
Theorem C23_vector_field :
  forall n (x u : nat -> R) i, (i < n)%nat -> l96 (K:=RNum) n x u i = f96 n u x i.
Proof. exact l96_f96. Qed.
Print Assumptions C23_vector_field.
(** the same indexing in every arithmetic, floating point included *)
Theorem C23_indexing :
  forall (K : Num) n (x u : vec K) i, (i < n)%nat ->
  l96 n x u i = nadd (nsub (nmul (nsub (x (nxt n i)) (x (prv n (prv n i)))) (x (prv n i))) (x i)) (u i).
Proof. exact l96_ix. Qed.
Print Assumptions C23_indexing.
Theorem C23_shift :
  forall n (F : R) (x : nat -> R) i, (i < n)%nat ->
  l96 (K:=RNum) n (rot n x) (fun _ => F) i = rot n (l96 (K:=RNum) n x (fun _ => F)) i.
Proof.
  intros n F x i Hi. unfold rot at 2. rewrite l96_f96 by exact Hi.
  rewrite l96_f96 by (apply nxt_lt; exact Hi). apply f96_rot; exact Hi.
Qed.
Print Assumptions C23_shift.
(** quadratic part = drift + x - F *)
Theorem C23_conservation :
  forall n (x u : nat -> R),
  Rsum n (fun i => x i * (l96 (K:=RNum) n x u i + x i - u i)) = 0.
Proof.
  intros n x u. rewrite <- (f96_conserve n x).
  apply (ArrFacts.sumn_ext n (fun i => x i * (l96 (K:=RNum) n x u i + x i - u i)) (fun i => x i * f96_quad n x i)).
  intros i Hi. rewrite l96_f96 by exact Hi. unfold f96, f96_quad. ring.
Qed.
Print Assumptions C23_conservation.
Theorem C23_fixed_point :
  forall n (F : R) i, (i < n)%nat -> l96 (K:=RNum) n (fun _ => F) (fun _ => F) i = 0.
Proof. intros n F i Hi. rewrite l96_f96 by exact Hi. apply f96_fixed. Qed.
Print Assumptions C23_fixed_point.
(** the one-place and two-place shifts used elsewhere *)
Theorem C23_shifts :
  forall (A : Type) n (x : nat -> A) i, (i < n)%nat ->
  fwd_1 n x i = x (nxt n i) /\ bwd_1 n x i = x (prv n i) /\ bwd_2 n x i = x (prv n (prv n i)) /\
  shift_vectors n x = (fwd_1 n x, bwd_1 n x, bwd_2 n x).
Proof.
  intros A n x i Hi. unfold fwd_1, bwd_1, bwd_2, roll.
  rewrite roll_fwd, roll_bwd1, roll_bwd2 by exact Hi. auto.
Qed.
Print Assumptions C23_shifts.
Example C23_instance :
  map (l96 (K:=RNum) 4 (fun i => INR i + 1) (fun _ => 8)) [0; 1; 2; 3]%nat = [3; 5; 11; 1].
Proof.
  cbn [map]. rewrite !l96_f96 by lia. unfold f96, nxt, prv. cbn [Nat.eqb Nat.add Nat.sub INR].
  repeat (match goal with |- (?a :: ?l) = (?b :: ?r) => replace a with b by ring; f_equal end).
Qed.

(** ** C24 *)
Theorem C24_drift :
  forall n E m S (u : nat -> R) i, (i < n)%nat -> is_expectation n E m S ->
  E (fun x => f96 n u x i) = E96_drift (K:=RNum) n u m S i.
Proof. exact E96_any. Qed.
Print Assumptions C24_drift.
Theorem C24_drift_normal :
  forall n m S (u : nat -> R) i, (i < n)%nat ->
  E_mvn n m S (fun x => f96 n u x i) (E96_drift (K:=RNum) n u m S i).
Proof. exact E96_mvn. Qed.
Print Assumptions C24_drift_normal.
Theorem C24_jacobian :
  forall n (u x : nat -> R) i j, (4 <= n)%nat -> (i < n)%nat ->
  is_derive (fun t => f96 n u (vset j t x) i) (x j) (E96_drift_dx (K:=RNum) n x i j).
Proof. exact E96_jac. Qed.
Print Assumptions C24_jacobian.
Theorem C24_jacobian_mean :
  forall n E m S i j, (i < n)%nat -> is_expectation n E m S ->
  E (fun x => E96_drift_dx (K:=RNum) n x i j) = E96_drift_dx (K:=RNum) n m i j.
Proof. exact E96_jac_any. Qed.
Print Assumptions C24_jacobian_mean.
(** a distribution to speak about: a fair choice between two states *)
Example C24_expectation_exists :
  exists E, is_expectation 4 E (fun i => INR i) (fun i j => 1).
Proof.
  exists (fun f => (f (fun i => INR i + 1) + f (fun i => INR i - 1)) / 2).
  split; intros; field.
Qed.
Example C24_instance :
  E96_drift (K:=RNum) 4 (fun _ => 8) (fun i => INR i + 1) (fun i j => if Nat.eqb i j then 2 else INR (i + j)) 0%nat = 2.
Proof. rewrite E96_ix by lia. unfold f96, nxt, prv. cbn [Nat.eqb Nat.add Nat.sub INR]. match goal with |- ?a = ?b => change (@eq R a b) end. ring. Qed.
(** below dimension 4 the assignments collide and the matrix is not the Jacobian *)
Theorem C24_small_dimension :
  ~ is_derive (fun t => f96 3 (fun _ => 0) (vset 1 t (fun _ => 1)) 0%nat) ((fun _ : nat => 1) 1%nat)
      (E96_drift_dx (K:=RNum) 3 (fun _ => 1) 0%nat 1%nat).
Proof. exact E96_dim3. Qed.
Print Assumptions C24_small_dimension.

(** ** C25 *)
(** Finding: np.roll without an axis flattens the batch; the first two and the last column
    take neighbours from other rows. *)
Theorem C25_interior_partial :
  forall (K : Num) r c (x : mat K) u i j, (i < r)%nat -> (2 <= j)%nat -> (j + 1 < c)%nat ->
  l96_batch r c x u i j = l96 c (x i) u j.
Proof. exact l96_batch_interior. Qed.
Print Assumptions C25_interior_partial.
Theorem C25_single_row_partial :
  forall (K : Num) c (x : mat K) u j, (j < c)%nat -> l96_batch 1 c x u 0%nat j = l96 c (x 0%nat) u j.
Proof. exact l96_batch_single. Qed.
Print Assumptions C25_single_row_partial.
Theorem C25_border_refuted :
  forall (K : Num) r c (x : mat K) u i, (i < r)%nat -> (3 <= c)%nat ->
  l96_batch r c x u i (c - 1)%nat =
    nadd (nsub (nmul (nsub (x (nxt r i) 0%nat) (x i (c - 3)%nat)) (x i (c - 2)%nat)) (x i (c - 1)%nat)) (u (c - 1)%nat) /\
  l96_batch r c x u i 0%nat =
    nadd (nsub (nmul (nsub (x i 1%nat) (x (prv r i) (c - 2)%nat)) (x (prv r i) (c - 1)%nat)) (x i 0%nat)) (u 0%nat) /\
  l96_batch r c x u i 1%nat =
    nadd (nsub (nmul (nsub (x i 2%nat) (x (prv r i) (c - 1)%nat)) (x i 0%nat)) (x i 1%nat)) (u 1%nat).
Proof.
  intros K r c x u i Hi Hc. split; [|split].
  - apply l96_batch_last; assumption.
  - apply l96_batch_first; assumption.
  - apply l96_batch_second; assumption.
Qed.
Print Assumptions C25_border_refuted.
(** for every batch of two or more rows in the dimensions the class admits (>= 10) there is
    a matrix of states on which the result is wrong *)
Theorem C25_refuted :
  forall r c, (2 <= r)%nat -> (3 <= c)%nat ->
  exists (x : nat -> nat -> R) (u : nat -> R) i j, (i < r)%nat /\ (j < c)%nat /\
    l96_batch (K:=RNum) r c x u i j <> l96 (K:=RNum) c (x i) u j.
Proof. exact l96_batch_wrong. Qed.
Print Assumptions C25_refuted.
Example C25_instance :
  l96_batch (K:=RNum) 3 5 (fun i j => INR (i * j)) (fun _ => 8) 2%nat 3%nat = l96 (K:=RNum) 5 (fun j => INR (2 * j)) (fun _ => 8) 3%nat.
Proof. apply C25_interior_partial; lia. Qed.
