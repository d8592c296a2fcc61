(** * Proofs about my_trapz. *)
From Coq Require Import ZArith List Bool Arith Reals Lra Lia Sorted.
From Coquelicot Require Import Coquelicot.
From Verif Require Import Num Arr ArrFacts M_Utils Spec_Utils.
Import ListNotations.
Local Open Scope R_scope.

Lemma Rsum_rsum n (f : nat -> R) : Rsum n f = rsum n f.
Proof. induction n as [|n IH]; [reflexivity|]. cbn [Rsum]. rewrite IH. reflexivity. Qed.

Lemma nth_skipn {A} n k (l : list A) z : nth k (skipn n l) z = nth (n + k) l z.
Proof. revert l; induction n as [|n IH]; intros [|a l]; cbn; auto. destruct k; reflexivity. Qed.

Section Gen.
Context {V : Val RNum} (E : ValEv V).

Definition smp (fx : list V) (c : vidx E) (k : nat) : R := ev E c (nth k fx (vzero V)).
Definition cell (fx : list V) (dx : R) (c : vidx E) (k : nat) : R :=
  dx * (smp fx c k + smp fx c (k + 1)) / 2.

Lemma fold_vadd_ev c (l : list V) (z : V) :
  ev E c (fold_left vadd l z) = ev E c z + rsum (length l) (fun k => smp l c k).
Proof.
  revert z; induction l as [|a l IH]; intros z; cbn [fold_left length].
  - cbn. lra.
  - rewrite IH, (ev_add E), sumn_shift. unfold smp; cbn. lra.
Qed.

Lemma trapezoid_ev c (y : list V) (dx : R) :
  ev E c (trapezoid y (dx : RNum)) = rsum (length y - 1) (cell y dx c).
Proof.
  unfold trapezoid. rewrite fold_vadd_ev, (ev_zero E), Rplus_0_l.
  rewrite map2_length. unfold slice_from. rewrite skipn_length.
  replace (min (length y - 1) (length y)) with (length y - 1)%nat by lia.
  apply sumn_ext; intros k Hk. unfold smp, cell.
  rewrite (nth_map2 _ _ _ _ (vzero V) (vzero V)) by (rewrite ?skipn_length; lia).
  rewrite (ev_divs E), (ev_scale E), (ev_add E).
  rewrite nth_skipn. unfold smp. rewrite (Nat.add_comm 1 k). rnum. lra.
Qed.

Lemma nth_firstn_lt {A} n k (l : list A) z : (k < n)%nat -> nth k (firstn n l) z = nth k l z.
Proof.
  revert n l; induction k as [|k IH]; intros [|n] [|a l] H; try lia; cbn; auto.
  apply IH; lia.
Qed.

Lemma slice_len {A} a b (l : list A) : length (slice a b l) = min (b - a) (length l - a).
Proof. unfold slice. rewrite firstn_length, skipn_length. reflexivity. Qed.
Lemma slice_nth {A} a b k (l : list A) z :
  (k < b - a)%nat -> nth k (slice a b l) z = nth (a + k) l z.
Proof. intros H. unfold slice. rewrite nth_firstn_lt by lia. apply nth_skipn. Qed.

Lemma trapz_slice c a b (fx : list V) (dx : R) :
  ev E c (trapezoid (slice a b fx) (dx : RNum)) =
  rsum (min (b - a) (length fx - a) - 1) (fun k => cell fx dx c (a + k)).
Proof.
  rewrite trapezoid_ev, slice_len. apply sumn_ext; intros k Hk.
  unfold cell, smp. rewrite !slice_nth by lia.
  rewrite Nat.add_assoc. reflexivity.
Qed.

Lemma trapz_from c a (fx : list V) (dx : R) :
  ev E c (trapezoid (slice_from a fx) (dx : RNum)) =
  rsum (length fx - a - 1) (fun k => cell fx dx c (a + k)).
Proof.
  rewrite trapezoid_ev. unfold slice_from. rewrite skipn_length.
  apply sumn_ext; intros k Hk. unfold cell, smp. rewrite !nth_skipn.
  rewrite Nat.add_assoc. reflexivity.
Qed.

Lemma loop_inv c (fx : list V) (dx : R) (obs : list nat) (tot : V) (f : nat) :
  ev E c tot = rsum (min f (length fx - 1)) (cell fx dx c) ->
  Sorted le (f :: obs) ->
  let '(tot', f') :=
    fold_left (fun acc l =>
                 let '(tot_area, f0) := acc in
                 (vadd tot_area (trapezoid (slice f0 (l + 1) fx) (dx:RNum)), l)) obs (tot, f) in
  ev E c tot' = rsum (min f' (length fx - 1)) (cell fx dx c).
Proof.
  revert tot f; induction obs as [|l obs IH]; intros tot f Ht Hs; cbn [fold_left]; [exact Ht|].
  inversion Hs as [|? ? Hs' Hh]; subst. inversion Hh as [|? ? Hfl]; subst.
  apply IH; [|exact Hs'].
  rewrite (ev_add E), Ht, trapz_slice.
  set (n := length fx).
  replace (min l (n - 1))%nat with (min f (n - 1) + (min (l + 1 - f) (n - f) - 1))%nat by lia.
  rewrite sumn_split. f_equal. apply sumn_ext; intros k Hk. f_equal. lia.
Qed.

Lemma my_trapz_ev c (fx : list V) (dx : R) (obs : option (list nat)) :
  (forall o, obs = Some o -> Sorted le o) ->
  ev E c (my_trapz fx (dx : RNum) obs) = trap (length fx) (smp fx c) dx.
Proof.
  intros Hs. unfold trap. rewrite Rsum_rsum. destruct obs as [obs|]; cbn [my_trapz].
  2: apply trapezoid_ev.
  specialize (Hs obs eq_refl).
  pose proof (loop_inv c fx dx obs (vzero V) 0) as HL.
  unfold trapz_loop. rnum.
  destruct (fold_left _ obs (vzero V, 0%nat)) as [tot f].
  assert (Hev : ev E c tot = rsum (min f (length fx - 1)) (cell fx dx c)).
  { apply HL.
    - rewrite (ev_zero E). reflexivity.
    - constructor; [exact Hs|]. destruct obs; constructor; lia. }
  destruct (Z.eqb_spec (Z.of_nat f) (Z.of_nat (length fx) - 1)) as [He|He]; cbn [negb].
  - rewrite Hev. replace (min f (length fx - 1)) with (length fx - 1)%nat by lia. reflexivity.
  - rewrite (ev_add E), Hev, trapz_from.
    change (fun k => dx * (smp fx c k + smp fx c (k + 1)) / 2) with (cell fx dx c).
    replace (length fx - 1)%nat with (min f (length fx - 1) + (length fx - f - 1))%nat at 2 by lia.
    rewrite sumn_split. f_equal. apply sumn_ext; intros k Hk. f_equal. lia.
Qed.
End Gen.

Lemma trapz_scalar (fx : list R) (dx : R) obs :
  (forall o, obs = Some o -> Sorted le o) ->
  my_trapz (V := scalV RNum) fx dx obs = trap (length fx) (fun k => nth k fx 0) dx.
Proof. intros H. exact (my_trapz_ev scalEv tt fx dx obs H). Qed.
Lemma trapz_vector (fx : list Rvec) (dx : R) obs i :
  (forall o, obs = Some o -> Sorted le o) ->
  (my_trapz (V := vecV RNum) fx dx obs : Rvec) i = trap (length fx) (fun k => nth k fx (fun _ => 0) i) dx.
Proof. intros H. exact (my_trapz_ev vecEv i fx dx obs H). Qed.
Lemma trapz_matrix (fx : list Rmat) (dx : R) obs i j :
  (forall o, obs = Some o -> Sorted le o) ->
  (my_trapz (V := matV RNum) fx dx obs : Rmat) i j =
  trap (length fx) (fun k => nth k fx (fun _ _ => 0) i j) dx.
Proof. intros H. exact (my_trapz_ev matEv (i, j) fx dx obs H). Qed.

Lemma trap_lin n f g a b dx :
  trap n (fun k => a * f k + b * g k) dx = a * trap n f dx + b * trap n g dx.
Proof.
  unfold trap. rewrite !Rsum_rsum, <- !sumn_scal, <- sumn_plus.
  apply sumn_ext; intros; cbv beta; rnum; field.
Qed.
Lemma trap_ext n f g dx : (forall k, (k < n)%nat -> f k = g k) -> trap n f dx = trap n g dx.
Proof.
  intros H. unfold trap. rewrite !Rsum_rsum. apply sumn_ext; intros.
  rewrite !H by lia. reflexivity.
Qed.
Lemma trap_nonneg n f dx : 0 <= dx -> (forall k, (k < n)%nat -> 0 <= f k) -> 0 <= trap n f dx.
Proof.
  intros Hd H. unfold trap. rewrite Rsum_rsum. apply sumn_nonneg; intros k Hk.
  assert (0 <= f k) by (apply H; lia). assert (0 <= f (k+1)%nat) by (apply H; lia). nra.
Qed.
Lemma trap_affine n al be t0 dx :
  (0 < n)%nat ->
  trap n (fun k => al + be * (t0 + INR k * dx)) dx =
  al * (INR (n-1) * dx) + be * (t0 * (INR (n-1) * dx) + (INR (n-1) * dx) ^ 2 / 2).
Proof.
  intros Hn. unfold trap. rewrite Rsum_rsum.
  generalize (n - 1)%nat. intros m. induction m as [|m IH]; [change (rsum 0 _) with 0; cbn [INR]; field|].
  rewrite sumn_S, IH, plus_INR, !S_INR. change (INR 0) with 0. field.
Qed.

Lemma trapz_linear (fx gx : list R) (a b dx : R) obs :
  (forall o, obs = Some o -> Sorted le o) -> length fx = length gx ->
  my_trapz (V := scalV RNum) (map2 (fun u v => a * u + b * v) fx gx) dx obs =
  a * my_trapz (V := scalV RNum) fx dx obs + b * my_trapz (V := scalV RNum) gx dx obs.
Proof.
  intros Hs Hl. rewrite !trapz_scalar by assumption.
  rewrite map2_length, <- Hl, Nat.min_id, <- trap_lin.
  apply trap_ext; intros k Hk. rewrite (nth_map2 _ _ _ _ 0 0) by lia. reflexivity.
Qed.
Lemma trapz_nonneg (fx : list R) (dx : R) obs :
  (forall o, obs = Some o -> Sorted le o) ->
  0 <= dx -> (forall y, In y fx -> 0 <= y) -> 0 <= my_trapz (V := scalV RNum) fx dx obs.
Proof.
  intros Hs Hd Hf. rewrite trapz_scalar by assumption.
  apply trap_nonneg; auto. intros k Hk. apply Hf, nth_In; exact Hk.
Qed.

Lemma is_RInt_affine al be (a b : R) :
  is_RInt (fun t => al + be * t) a b (al * (b - a) + be * (b ^ 2 / 2 - a ^ 2 / 2)).
Proof.
  replace (al * (b - a) + be * (b ^ 2 / 2 - a ^ 2 / 2))
    with (minus (al * b + be * b ^ 2 / 2) (al * a + be * a ^ 2 / 2))
    by (unfold minus, plus, opp; cbn; field).
  apply (is_RInt_derive (fun t => al * t + be * t ^ 2 / 2) (fun t => al + be * t)).
  - intros x _. auto_derive; [exact I|]. field.
  - intros x _. apply (ex_derive_continuous (fun t => al + be * t)). auto_derive. exact I.
Qed.

Lemma trapz_affine (n : nat) (al be t0 dx : R) obs :
  (forall o, obs = Some o -> Sorted le o) -> (0 < n)%nat ->
  is_RInt (fun t => al + be * t) t0 (t0 + INR (n - 1) * dx)
    (my_trapz (V := scalV RNum) (map (fun k => al + be * (t0 + INR k * dx)) (seq 0 n)) dx obs).
Proof.
  intros Hs Hn. rewrite trapz_scalar by assumption.
  rewrite map_length, seq_length.
  rewrite (trap_ext n _ (fun k => al + be * (t0 + INR k * dx))).
  - rewrite trap_affine by exact Hn.
    evar (r : R). replace (al * _ + _) with r; [apply is_RInt_affine|].
    subst r. field.
  - intros k Hk. set (g := fun k => al + be * (t0 + INR k * dx)).
    rewrite (nth_indep _ 0 (g 0%nat)) by (rewrite map_length, seq_length; lia).
    rewrite (map_nth g), seq_nth by lia. reflexivity.
Qed.
