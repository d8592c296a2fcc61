(** * Proofs about the Lorenz-96 drift. *)
From Coq Require Import ZArith List Bool Arith Reals Lra Lia FunctionalExtensionality.
From Coquelicot Require Import Coquelicot.
From Verif Require Import Num Arr ArrFacts M_L96 Spec_Utils Spec_Gauss Spec_GaussN Spec_L96
  P_Sde1 P_GaussN P_L63.
Import ListNotations.
Local Open Scope R_scope.

Lemma roll_fwd n i : (i < n)%nat -> roll_ix n (-1) i = nxt n i.
Proof.
  intros Hi. unfold roll_ix, nxt. destruct (Nat.eqb_spec (i + 1) n) as [E|E].
  - replace (Z.of_nat i - -1)%Z with (1 * Z.of_nat n)%Z by lia. rewrite Z.mod_mul by lia. reflexivity.
  - rewrite Z.mod_small by lia. lia.
Qed.
Lemma roll_bwd1 n i : (i < n)%nat -> roll_ix n 1 i = prv n i.
Proof.
  intros Hi. unfold roll_ix, prv. destruct (Nat.eqb_spec i 0) as [E|E].
  - subst. replace (Z.of_nat 0 - 1)%Z with (Z.of_nat n - 1 + (-1) * Z.of_nat n)%Z by lia.
    rewrite Z.mod_add by lia. rewrite Z.mod_small by lia. lia.
  - rewrite Z.mod_small by lia. lia.
Qed.
Lemma prv_lt n i : (i < n)%nat -> (prv n i < n)%nat.
Proof. intros. unfold prv. destruct (Nat.eqb_spec i 0); lia. Qed.
Lemma nxt_lt n i : (i < n)%nat -> (nxt n i < n)%nat.
Proof. intros. unfold nxt. destruct (Nat.eqb_spec (i + 1) n); lia. Qed.
Lemma prv_nxt n i : (i < n)%nat -> prv n (nxt n i) = i.
Proof. intros. unfold prv, nxt. destruct (Nat.eqb_spec (i + 1) n); cbn; [lia|]. destruct (Nat.eqb_spec (i + 1) 0); lia. Qed.
Lemma nxt_prv n i : (i < n)%nat -> nxt n (prv n i) = i.
Proof.
  intros. unfold prv, nxt. destruct (Nat.eqb_spec i 0); [destruct (Nat.eqb_spec (n - 1 + 1) n); lia|].
  destruct (Nat.eqb_spec (i - 1 + 1) n); lia.
Qed.
Lemma roll_bwd2 n i : (i < n)%nat -> roll_ix n 2 i = prv n (prv n i).
Proof.
  intros Hi. unfold roll_ix.
  destruct (Nat.eqb_spec n 1) as [->|Hn].
  { rewrite Z.mod_1_r. unfold prv. destruct (Nat.eqb_spec i 0); [reflexivity|lia]. }
  unfold prv. destruct (Nat.eqb_spec i 0) as [E|E].
  - subst. replace (Z.of_nat 0 - 2)%Z with (Z.of_nat n - 2 + (-1) * Z.of_nat n)%Z by lia.
    rewrite Z.mod_add by lia. rewrite Z.mod_small by lia.
    destruct (Nat.eqb_spec (n - 1) 0); lia.
  - destruct (Nat.eqb_spec (i - 1) 0).
    + replace (Z.of_nat i - 2)%Z with (Z.of_nat n - 1 + (-1) * Z.of_nat n)%Z by lia.
      rewrite Z.mod_add by lia. rewrite Z.mod_small by lia. lia.
    + rewrite Z.mod_small by lia. lia.
Qed.

(** for every arithmetic: the code's indexing *)
Lemma l96_ix (K : Num) n (x u : vec K) i : (i < n)%nat ->
  l96 n x u i = nadd (nsub (nmul (nsub (x (nxt n i)) (x (prv n (prv n i)))) (x (prv n i))) (x i)) (u i).
Proof.
  intros Hi. unfold l96, shift_vectors, roll. rewrite roll_fwd, roll_bwd1, roll_bwd2 by exact Hi. reflexivity.
Qed.
Lemma l96_f96 n (x u : nat -> R) i : (i < n)%nat -> l96 (K:=RNum) n x u i = f96 n u x i.
Proof. intros Hi. rewrite l96_ix by exact Hi. reflexivity. Qed.

Lemma f96_rot n F x i : (i < n)%nat ->
  f96 n (fun _ => F) (rot n x) i = f96 n (fun _ => F) x (nxt n i).
Proof.
  intros Hi. unfold f96, rot. rewrite prv_nxt by exact Hi.
  rewrite !nxt_prv by (try apply prv_lt; exact Hi).
  reflexivity.
Qed.

(** sums are invariant under the cyclic shift *)
Lemma Rsum_rot n (f : nat -> R) : Rsum n (fun i => f (nxt n i)) = Rsum n f.
Proof.
  destruct n as [|n]; [reflexivity|].
  change (rsum (S n) (fun i => f (nxt (S n) i)) = rsum (S n) f).
  rewrite sumn_S, sumn_shift.
  replace (nxt (S n) n) with 0%nat by (unfold nxt; destruct (Nat.eqb_spec (n + 1) (S n)); lia).
  rewrite (sumn_ext n (fun i => f (nxt (S n) i)) (fun i => f (S i))); [req; ring|].
  intros i Hi. f_equal. unfold nxt. destruct (Nat.eqb_spec (i + 1) (S n)); lia.
Qed.
Lemma f96_conserve n x : Rsum n (fun i => x i * f96_quad n x i) = 0.
Proof.
  set (g := fun i => x i * (x (prv n i) * x (prv n (prv n i)))).
  assert (E : Rsum n (fun i => x i * f96_quad n x i) = Rsum n (fun i => g (nxt n i)) - Rsum n g).
  { change (rsum n (fun i => x i * f96_quad n x i) = rsum n (fun i => g (nxt n i)) - rsum n g).
    rewrite <- sumn_minus. apply sumn_ext. intros i Hi. unfold g, f96_quad.
    rewrite prv_nxt by exact Hi. ring. }
  rewrite E, Rsum_rot. ring.
Qed.
Lemma f96_fixed n F i : f96 n (fun _ => F) (fun _ => F) i = 0.
Proof. unfold f96. ring. Qed.

(** ** Averages *)
Lemma E96_ix n (u m : nat -> R) (S : nat -> nat -> R) i : (i < n)%nat ->
  E96_drift (K:=RNum) n u m S i =
  S (nxt n i) (prv n i) - S (prv n (prv n i)) (prv n i) + f96 n u m i.
Proof.
  intros Hi. unfold E96_drift, shift_vectors, fwd_1, bwd_1, bwd_2, roll.
  rewrite roll_fwd, roll_bwd1, roll_bwd2 by exact Hi. unfold f96. rnum. ring.
Qed.
Lemma E96_any n E m S (u : nat -> R) i : (i < n)%nat -> is_expectation n E m S ->
  E (fun x => f96 n u x i) = E96_drift (K:=RNum) n u m S i.
Proof.
  intros Hi [Hl H1 Hm Hc]. rewrite E96_ix by exact Hi.
  pose proof (nxt_lt n i Hi) as Hn. pose proof (prv_lt n i Hi) as Hp. pose proof (prv_lt n _ Hp) as Hpp.
  set (a := nxt n i) in *. set (b := prv n i) in *. set (c := prv n b) in *.
  replace (fun x : nat -> R => f96 n u x i) with
    (fun x : nat -> R => 1 * (1 * (x a * x b) + (-1) * (x c * x b)) + 1 * ((-1) * x i + u i * 1)).
  - rewrite (Hl 1 1 (fun x => 1 * (x a * x b) + (-1) * (x c * x b)) (fun x => (-1) * x i + u i * 1)).
    rewrite (Hl 1 (-1) (fun x => x a * x b) (fun x => x c * x b)).
    rewrite (Hl (-1) (u i) (fun x => x i) (fun _ => 1)).
    rewrite !Hc, Hm, H1 by assumption. unfold f96. fold a b c. ring.
  - apply functional_extensionality. intros x. unfold f96. fold a b c. ring.
Qed.
Definition q96 n (u : nat -> R) i : list qterm :=
  [(1, Some (nxt n i), Some (prv n i)); (-1, Some (prv n (prv n i)), Some (prv n i)); (-1, Some i, None); (u i, None, None)].
Lemma q96_ok n u i : (i < n)%nat -> qok n (q96 n u i).
Proof. intros Hi. repeat (constructor; [cbn; auto using nxt_lt, prv_lt|]). constructor. Qed.
Lemma q96_val n u i x : qval (q96 n u i) x = f96 n u x i.
Proof. unfold f96. cbn. ring. Qed.
Lemma E96_mvn n m S (u : nat -> R) i : (i < n)%nat ->
  E_mvn n m S (fun x => f96 n u x i) (E96_drift (K:=RNum) n u m S i).
Proof.
  intros Hi. apply (E_mvn_q n m S (q96 n u i)); [apply q96_ok; exact Hi| |].
  - intros x. symmetry. apply q96_val.
  - rewrite E96_ix by exact Hi. unfold q96, f96. cbn [qexp qexp1]. unfold mon4, wick. cbn [fam4 ival icov]. ring.
Qed.

(** ** Jacobian *)
Lemma E96_dx_ix n (x : nat -> R) i j : (i < n)%nat ->
  E96_drift_dx (K:=RNum) n x i j =
  if Nat.eqb j (prv n i) then x (nxt n i) - x (prv n (prv n i))
  else if Nat.eqb j (prv n (prv n i)) then - x (prv n i)
  else if Nat.eqb j (nxt n i) then x (prv n i)
  else if Nat.eqb j i then -1 else 0.
Proof.
  intros Hi. unfold E96_drift_dx, shift_vectors, roll, aset.
  rewrite roll_fwd, roll_bwd1, roll_bwd2 by exact Hi. reflexivity.
Qed.
Lemma cyc_distinct n i : (4 <= n)%nat -> (i < n)%nat ->
  prv n i <> i /\ prv n (prv n i) <> i /\ nxt n i <> i /\ prv n i <> nxt n i /\
  prv n (prv n i) <> nxt n i /\ prv n (prv n i) <> prv n i.
Proof.
  intros Hn Hi. unfold prv, nxt.
  destruct (Nat.eqb_spec i 0), (Nat.eqb_spec (i + 1) n); try destruct (Nat.eqb_spec (n - 1) 0);
    try destruct (Nat.eqb_spec (i - 1) 0); lia.
Qed.
Lemma E96_jac n (u x : nat -> R) i j : (4 <= n)%nat -> (i < n)%nat ->
  is_derive (fun t => f96 n u (vset j t x) i) (x j) (E96_drift_dx (K:=RNum) n x i j).
Proof.
  intros Hn Hi. rewrite E96_dx_ix by exact Hi.
  destruct (cyc_distinct n i Hn Hi) as (D1 & D2 & D3 & D4 & D5 & D6).
  unfold f96, vset. set (a := nxt n i) in *. set (b := prv n i) in *. set (c := prv n b) in *.
  destruct (Nat.eqb_spec j b) as [->|Hb].
  { rewrite Nat.eqb_refl, (proj2 (Nat.eqb_neq a b)), (proj2 (Nat.eqb_neq c b)), (proj2 (Nat.eqb_neq i b)) by congruence.
    auto_derive; auto; ring. }
  destruct (Nat.eqb_spec j c) as [->|Hc].
  { rewrite Nat.eqb_refl, (proj2 (Nat.eqb_neq a c)), (proj2 (Nat.eqb_neq b c)), (proj2 (Nat.eqb_neq i c)) by congruence.
    auto_derive; auto; ring. }
  destruct (Nat.eqb_spec j a) as [->|Ha].
  { rewrite Nat.eqb_refl, (proj2 (Nat.eqb_neq c a)), (proj2 (Nat.eqb_neq b a)), (proj2 (Nat.eqb_neq i a)) by congruence.
    auto_derive; auto; ring. }
  rewrite (proj2 (Nat.eqb_neq c j)), (proj2 (Nat.eqb_neq b j)), (proj2 (Nat.eqb_neq a j)) by congruence.
  destruct (Nat.eqb_spec j i) as [->|Hj].
  { rewrite Nat.eqb_refl. auto_derive; auto; ring. }
  rewrite (proj2 (Nat.eqb_neq i j)) by congruence. auto_derive; auto; ring.
Qed.
(** the Jacobian is affine in x: its expectation is its value at the mean *)
Lemma E96_jac_any n E m S i j : (i < n)%nat -> is_expectation n E m S ->
  E (fun x => E96_drift_dx (K:=RNum) n x i j) = E96_drift_dx (K:=RNum) n m i j.
Proof.
  intros Hi [Hl H1 Hm Hc].
  pose proof (nxt_lt n i Hi) as Hn. pose proof (prv_lt n i Hi) as Hp. pose proof (prv_lt n _ Hp) as Hpp.
  rewrite E96_dx_ix by exact Hi.
  replace (fun x : nat -> R => E96_drift_dx (K:=RNum) n x i j) with
    (fun x : nat -> R => if Nat.eqb j (prv n i) then x (nxt n i) - x (prv n (prv n i))
      else if Nat.eqb j (prv n (prv n i)) then - x (prv n i)
      else if Nat.eqb j (nxt n i) then x (prv n i)
      else if Nat.eqb j i then -1 else 0)
    by (apply functional_extensionality; intros x; symmetry; apply E96_dx_ix; exact Hi).
  assert (Hsc : forall a f, E (fun x => a * f x) = a * E f).
  { intros a f. replace (fun x => a * f x) with (fun x => a * f x + 0 * f x)
      by (apply functional_extensionality; intros; ring). rewrite Hl. ring. }
  set (a := nxt n i) in *. set (b := prv n i) in *. set (c := prv n b) in *.
  destruct (Nat.eqb j b); [|destruct (Nat.eqb j c); [|destruct (Nat.eqb j a); [|destruct (Nat.eqb j i)]]].
  - change (E (fun x : nat -> R => x a - x c) = m a - m c).
    replace (fun x : nat -> R => x a - x c) with (fun x : nat -> R => 1 * x a + (-1) * x c)
      by (apply functional_extensionality; intros; ring).
    rewrite (Hl 1 (-1) (fun x => x a) (fun x => x c)), !Hm by assumption. ring.
  - change (E (fun x : nat -> R => - x b) = - m b).
    replace (fun x : nat -> R => - x b) with (fun x : nat -> R => (-1) * x b)
      by (apply functional_extensionality; intros; ring).
    rewrite (Hsc (-1) (fun x => x b)), Hm by assumption. ring.
  - apply Hm; assumption.
  - change (E (fun x : nat -> R => -1) = -1).
    replace (fun _ : nat -> R => -1) with (fun _ : nat -> R => (-1) * 1)
      by (apply functional_extensionality; intros; ring).
    rewrite (Hsc (-1) (fun _ => 1)), H1. ring.
  - change (E (fun x : nat -> R => 0) = 0).
    replace (fun _ : nat -> R => 0) with (fun _ : nat -> R => 0 * 1)
      by (apply functional_extensionality; intros; ring).
    rewrite (Hsc 0 (fun _ => 1)). ring.
Qed.

(** ** Batches *)
(** flattened position of the neighbours *)
Lemma roll_in_row r c k i j : (i < r)%nat -> (j < c)%nat -> (0 <= Z.of_nat j - k < Z.of_nat c)%Z ->
  roll_ix (r * c) k (i * c + j) = (i * c + Z.to_nat (Z.of_nat j - k))%nat.
Proof.
  intros Hi Hj Hk. unfold roll_ix. rewrite Z.mod_small; [lia|]. nia.
Qed.
Lemma divmod_row c i j : (j < c)%nat -> ((i * c + j) / c)%nat = i /\ ((i * c + j) mod c)%nat = j.
Proof.
  intros Hj. split.
  - rewrite Nat.div_add_l by lia. rewrite Nat.div_small by exact Hj. lia.
  - rewrite Nat.add_comm, Nat.mod_add by lia. apply Nat.mod_small. exact Hj.
Qed.
Lemma div_row c i j : (j < c)%nat -> ((i * c + j) / c)%nat = i.
Proof. intros H. apply divmod_row, H. Qed.
Lemma mod_row c i j : (j < c)%nat -> ((i * c + j) mod c)%nat = j.
Proof. intros H. apply divmod_row, H. Qed.
Lemma l96_batch_interior (K : Num) r c (x : mat K) u i j :
  (i < r)%nat -> (2 <= j)%nat -> (j + 1 < c)%nat ->
  l96_batch r c x u i j = l96 c (x i) u j.
Proof.
  intros Hi Hj Hc. rewrite l96_ix by lia. unfold l96_batch, roll2.
  rewrite (roll_in_row r c (-1) i j), (roll_in_row r c 1 i j), (roll_in_row r c 2 i j) by lia.
  rewrite !div_row, !mod_row by lia.
  unfold nxt, prv.
  destruct (Nat.eqb_spec (j + 1) c); [lia|]. destruct (Nat.eqb_spec j 0); [lia|]. destruct (Nat.eqb_spec (j - 1) 0); [lia|].
  replace (Z.to_nat (Z.of_nat j - -1)) with (j + 1)%nat by lia.
  replace (Z.to_nat (Z.of_nat j - 1)) with (j - 1)%nat by lia.
  replace (Z.to_nat (Z.of_nat j - 2)) with (j - 1 - 1)%nat by lia. reflexivity.
Qed.
Lemma l96_batch_single (K : Num) c (x : mat K) u j : (j < c)%nat ->
  l96_batch 1 c x u 0%nat j = l96 c (x 0%nat) u j.
Proof.
  intros Hj. rewrite l96_ix by lia. unfold l96_batch, roll2.
  replace (1 * c)%nat with c by lia. replace (0 * c + j)%nat with j by lia.
  rewrite roll_fwd, roll_bwd1, roll_bwd2 by exact Hj.
  pose proof (nxt_lt c j Hj). pose proof (prv_lt c j Hj). pose proof (prv_lt c _ H0).
  rewrite !Nat.div_small, !Nat.mod_small by assumption. reflexivity.
Qed.
(** what the border columns compute (dimension >= 2, last row for the right border wraps to row 0) *)
Lemma l96_batch_last (K : Num) r c (x : mat K) u i : (i < r)%nat -> (3 <= c)%nat ->
  l96_batch r c x u i (c - 1)%nat =
  nadd (nsub (nmul (nsub (x (nxt r i) 0%nat) (x i (c - 3)%nat)) (x i (c - 2)%nat)) (x i (c - 1)%nat)) (u (c - 1)%nat).
Proof.
  intros Hi Hc. unfold l96_batch, roll2.
  rewrite (roll_in_row r c 1 i (c - 1)), (roll_in_row r c 2 i (c - 1)) by lia.
  assert (E : roll_ix (r * c) (-1) (i * c + (c - 1)) = (nxt r i * c + 0)%nat).
  { rewrite roll_fwd by nia. unfold nxt. destruct (Nat.eqb_spec (i + 1) r).
    - destruct (Nat.eqb_spec (i * c + (c - 1) + 1) (r * c)); nia.
    - destruct (Nat.eqb_spec (i * c + (c - 1) + 1) (r * c)); nia. }
  rewrite E.
  rewrite !div_row, !mod_row by lia.
  replace (Z.to_nat (Z.of_nat (c - 1) - 1)) with (c - 2)%nat by lia.
  replace (Z.to_nat (Z.of_nat (c - 1) - 2)) with (c - 3)%nat by lia. reflexivity.
Qed.
Lemma l96_batch_first (K : Num) r c (x : mat K) u i : (i < r)%nat -> (3 <= c)%nat ->
  l96_batch r c x u i 0%nat =
  nadd (nsub (nmul (nsub (x i 1%nat) (x (prv r i) (c - 2)%nat)) (x (prv r i) (c - 1)%nat)) (x i 0%nat)) (u 0%nat).
Proof.
  intros Hi Hc. unfold l96_batch, roll2.
  rewrite (roll_in_row r c (-1) i 0) by lia.
  assert (E1 : roll_ix (r * c) 1 (i * c + 0) = (prv r i * c + (c - 1))%nat).
  { rewrite roll_bwd1 by nia. unfold prv. destruct (Nat.eqb_spec i 0).
    - subst. cbn. nia.
    - destruct (Nat.eqb_spec (i * c + 0) 0); nia. }
  assert (E2 : roll_ix (r * c) 2 (i * c + 0) = (prv r i * c + (c - 2))%nat).
  { rewrite roll_bwd2 by nia. rewrite <- (roll_bwd1 (r * c) (i * c + 0)) by nia. rewrite E1.
    generalize (prv r i). intros q. unfold prv. destruct (Nat.eqb_spec (q * c + (c - 1)) 0); lia. }
  rewrite E1, E2.
  rewrite !div_row, !mod_row by lia. reflexivity.
Qed.
Lemma l96_batch_second (K : Num) r c (x : mat K) u i : (i < r)%nat -> (3 <= c)%nat ->
  l96_batch r c x u i 1%nat =
  nadd (nsub (nmul (nsub (x i 2%nat) (x (prv r i) (c - 1)%nat)) (x i 0%nat)) (x i 1%nat)) (u 1%nat).
Proof.
  intros Hi Hc. unfold l96_batch, roll2.
  rewrite (roll_in_row r c (-1) i 1), (roll_in_row r c 1 i 1) by lia.
  assert (E2 : roll_ix (r * c) 2 (i * c + 1) = (prv r i * c + (c - 1))%nat).
  { rewrite roll_bwd2 by nia.
    assert (E0 : prv (r * c) (i * c + 1) = (i * c)%nat) by (unfold prv; destruct (Nat.eqb_spec (i * c + 1) 0); lia).
    rewrite E0. unfold prv. destruct (Nat.eqb_spec i 0).
    - subst. cbn. nia.
    - destruct (Nat.eqb_spec (i * c) 0); nia. }
  rewrite E2, !div_row, !mod_row by lia. reflexivity.
Qed.
Lemma l96_batch_wrong r c : (2 <= r)%nat -> (3 <= c)%nat ->
  exists (x : nat -> nat -> R) (u : nat -> R) i j, (i < r)%nat /\ (j < c)%nat /\
    l96_batch (K:=RNum) r c x u i j <> l96 (K:=RNum) c (x i) u j.
Proof.
  intros Hr Hc.
  exists (fun i j => if Nat.eqb i 0 then (if Nat.eqb j 0 then 0 else 1) else 1), (fun _ => 0), 0%nat, (c - 1)%nat.
  split; [lia|]. split; [lia|].
  rewrite l96_batch_last by lia. rewrite l96_ix by lia.
  unfold nxt, prv.
  destruct (Nat.eqb_spec (0 + 1) r); [lia|].
  destruct (Nat.eqb_spec (c - 1 + 1) c); [|lia].
  destruct (Nat.eqb_spec (c - 1) 0); [lia|].
  destruct (Nat.eqb_spec (c - 1 - 1) 0); [lia|].
  cbn [Nat.eqb Nat.add].
  replace (c - 1 - 1)%nat with (c - 2)%nat by lia.
  replace (c - 2 - 1)%nat with (c - 3)%nat by lia.
  destruct (Nat.eqb_spec (c - 2) 0); [lia|].
  destruct (Nat.eqb_spec (c - 3) 0); rnum; lra.
Qed.
Lemma E96_dim3 :
  ~ is_derive (fun t => f96 3 (fun _ => 0) (vset 1 t (fun _ => 1)) 0%nat) ((fun _ : nat => 1) 1%nat)
      (E96_drift_dx (K:=RNum) 3 (fun _ => 1) 0%nat 1%nat).
Proof.
  intros H. apply is_derive_unique in H.
  assert (D : is_derive (fun t : R => f96 3 (fun _ => 0) (vset 1 t (fun _ => 1)) 0%nat) 1 0).
  { unfold f96, nxt, prv, vset. cbn. auto_derive; auto; ring. }
  apply is_derive_unique in D. pose proof (eq_trans (eq_sym H) D) as Q. rewrite E96_dx_ix in Q by lia. cbn in Q. lra.
Qed.
