(** * Proofs about the Lorenz-63 energy. *)
From Coq Require Import ZArith List Bool Arith Reals Lra Lia Sorted FunctionalExtensionality.
From Coquelicot Require Import Coquelicot.
From Verif Require Import Num Arr ArrFacts M_LinAlg M_Utils M_Moments M_Sde1 M_L63
  Spec_Utils Spec_Gauss Spec_GaussN Spec_Sde1 Spec_L63 P_Trapz P_LinAlg P_Sde1 P_GaussN.
Import ListNotations.
Local Open Scope R_scope.

Definition edd := energy_dm_ds (K:=RNum).
Definition Efg theta A b m S w : Rvec := fst (fst (edd theta A b m S w)).
Definition Edm theta A b m S w : Rvec := snd (fst (edd theta A b m S w)).
Definition Eds theta A b m S w : Rmat := snd (edd theta A b m S w).

Ltac req := match goal with |- ?a = ?b => change (@eq R a b) end.
Ltac l63unf := cbv beta iota zeta delta [Efg Edm Eds edd energy_dm_ds vec3 mat3 fst snd mvec Efg_drift_theta l63_Ef l63_Edf l63].

Definition mis63 (th : Rvec) (A : Rmat) (b : Rvec) (x : Rvec) (i : nat) : R :=
  f63 (th 0%nat) (th 1%nat) (th 2%nat) x i - glin 3 A b x i.

(** f - g as a list of terms *)
Definition q63 (th : nat -> R) (A : nat -> nat -> R) (b : nat -> R) (i : nat) : list qterm :=
  let X := Some 0%nat in let Y := Some 1%nat in let Z := Some 2%nat in
  match i with
  | O => [(th 0%nat + A 0%nat 1%nat, Y, None); (A 0%nat 0%nat - th 0%nat, X, None); (A 0%nat 2%nat, Z, None); (- b 0%nat, None, None)]
  | 1%nat => [(-1, X, Z); (th 1%nat + A 1%nat 0%nat, X, None); (A 1%nat 1%nat - 1, Y, None); (A 1%nat 2%nat, Z, None); (- b 1%nat, None, None)]
  | _ => [(1, X, Y); (A 2%nat 0%nat, X, None); (A 2%nat 1%nat, Y, None); (A 2%nat 2%nat - th 2%nat, Z, None); (- b 2%nat, None, None)]
  end.
Lemma q63_ok th A b i : qok 3 (q63 th A b i).
Proof. destruct i as [|[|i]]; repeat (constructor; [cbn; lia|]); constructor. Qed.
Lemma q63_val th A b i x : (i < 3)%nat -> qval (q63 th A b i) x = mis63 th A b x i.
Proof.
  intros Hi. destruct i as [|[|[|i]]]; [| | |lia]; unfold mis63, glin; cbn [q63 qval f63 Rsum ival]; ring.
Qed.

Lemma Efg_E th A b m S w i : (i < 3)%nat -> symm 3 S ->
  E_mvn 3 m S (fun x => (mis63 th A b x i) ^ 2) (Efg th A b m S w i).
Proof.
  intros Hi Hs.
  assert (S10 : S 1%nat 0%nat = S 0%nat 1%nat) by (apply Hs; lia).
  assert (S20 : S 2%nat 0%nat = S 0%nat 2%nat) by (apply Hs; lia).
  assert (S21 : S 2%nat 1%nat = S 1%nat 2%nat) by (apply Hs; lia).
  apply (E_mvn_qq_eq 3 m S (q63 th A b i) (q63 th A b i)); try apply q63_ok.
  - intros x. rewrite q63_val by exact Hi. ring.
  - destruct i as [|[|[|i]]]; [| | |lia]; l63unf; unfold q63; cbn [qexp qexp1]; unfold mon4, wick;
      cbn [fam4 ival icov]; rewrite ?S10, ?S20, ?S21; rnum; ring.
Qed.

(** derivative of the drift with respect to its i-th parameter (component i; the other
    components do not depend on it) *)
Definition df63_dth (x : nat -> R) (i : nat) : R :=
  match i with O => x 1%nat - x 0%nat | 1%nat => x 0%nat | _ => - x 2%nat end.
Definition q63t (i : nat) : list qterm :=
  match i with
  | O => [(1, Some 1%nat, None); (-1, Some 0%nat, None)]
  | 1%nat => [(1, Some 0%nat, None)]
  | _ => [(-1, Some 2%nat, None)]
  end.
Lemma q63t_ok i : qok 3 (q63t i).
Proof. destruct i as [|[|i]]; repeat (constructor; [cbn; lia|]); constructor. Qed.
Lemma theta_E th A b m S i : (i < 3)%nat -> symm 3 S ->
  E_mvn 3 m S (fun x => mis63 th A b x i * df63_dth x i) (Efg_drift_theta (K:=RNum) th A b m S i).
Proof.
  intros Hi Hs.
  assert (S10 : S 1%nat 0%nat = S 0%nat 1%nat) by (apply Hs; lia).
  assert (S20 : S 2%nat 0%nat = S 0%nat 2%nat) by (apply Hs; lia).
  assert (S21 : S 2%nat 1%nat = S 1%nat 2%nat) by (apply Hs; lia).
  apply (E_mvn_qq_eq 3 m S (q63 th A b i) (q63t i)); [apply q63_ok|apply q63t_ok| |].
  - intros x. rewrite q63_val by exact Hi. f_equal.
    destruct i as [|[|[|i]]]; [| | |lia]; cbn [q63t qval ival df63_dth]; ring.
  - destruct i as [|[|[|i]]]; [| | |lia]; l63unf; unfold q63, q63t; cbn [qexp qexp1]; unfold mon4, wick;
      cbn [fam4 ival icov]; rewrite ?S10, ?S20, ?S21; rnum; ring.
Qed.

(** averages *)
Lemma E_mvn_q n m S l e g : qok n l -> (forall x, g x = qval l x) ->
  e = qexp m S l [(1, None, None)] -> E_mvn n m S g e.
Proof.
  intros Hl Hg He. apply (E_mvn_qq_eq n m S l [(1, None, None)]); auto.
  - repeat constructor.
  - intros x. rewrite Hg. cbn. ring.
Qed.
Lemma q63_0 th i x : (i < 3)%nat ->
  qval (q63 th (fun _ _ => 0) (fun _ => 0) i) x = f63 (th 0%nat) (th 1%nat) (th 2%nat) x i.
Proof. intros Hi. destruct i as [|[|[|i]]]; [| | |lia]; cbn [q63 qval f63 Rsum ival]; ring. Qed.
Lemma Ef_E th m S i : (i < 3)%nat -> symm 3 S ->
  E_mvn 3 m S (fun x => f63 (th 0%nat) (th 1%nat) (th 2%nat) x i) (l63_Ef (K:=RNum) th m S i).
Proof.
  intros Hi Hs.
  assert (S10 : S 1%nat 0%nat = S 0%nat 1%nat) by (apply Hs; lia).
  assert (S20 : S 2%nat 0%nat = S 0%nat 2%nat) by (apply Hs; lia).
  assert (S21 : S 2%nat 1%nat = S 1%nat 2%nat) by (apply Hs; lia).
  apply (E_mvn_q 3 m S (q63 th (fun _ _ => 0) (fun _ => 0) i)); [apply q63_ok| |].
  - intros x. rewrite q63_0 by exact Hi. reflexivity.
  - destruct i as [|[|[|i]]]; [| | |lia]; l63unf; unfold q63; cbn [qexp qexp1]; unfold mon4, wick;
      cbn [fam4 ival icov]; rewrite ?S10, ?S20, ?S21; rnum; ring.
Qed.
(** Jacobian *)
Definition jac63 (th x : nat -> R) (i j : nat) : R :=
  match i, j with
  | O, O => - th 0%nat | O, 1%nat => th 0%nat | O, _ => 0
  | 1%nat, O => th 1%nat - x 2%nat | 1%nat, 1%nat => -1 | 1%nat, _ => - x 0%nat
  | _, O => x 1%nat | _, 1%nat => x 0%nat | _, _ => - th 2%nat
  end.
Lemma jac63_is (th : nat -> R) (x : nat -> R) i j : (i < 3)%nat -> (j < 3)%nat ->
  is_derive (fun t => f63 (th 0%nat) (th 1%nat) (th 2%nat) (vset j t x) i) (x j) (jac63 th x i j).
Proof.
  intros Hi Hj. destruct i as [|[|[|i]]]; [| | |lia]; (destruct j as [|[|[|j]]]; [| | |lia]);
    cbn [f63 vset Nat.eqb jac63]; unfold vset; cbn [Nat.eqb]; auto_derive; auto; ring.
Qed.
Definition qjac (th : nat -> R) (i j : nat) : list qterm :=
  match i, j with
  | O, O => [(- th 0%nat, None, None)] | O, 1%nat => [(th 0%nat, None, None)] | O, _ => []
  | 1%nat, O => [(th 1%nat, None, None); (-1, Some 2%nat, None)] | 1%nat, 1%nat => [(-1, None, None)]
  | 1%nat, _ => [(-1, Some 0%nat, None)]
  | _, O => [(1, Some 1%nat, None)] | _, 1%nat => [(1, Some 0%nat, None)] | _, _ => [(- th 2%nat, None, None)]
  end.
Lemma Edf_E (th m : nat -> R) S i j : (i < 3)%nat -> (j < 3)%nat ->
  E_mvn 3 m S (fun x => jac63 th x i j) (l63_Edf (K:=RNum) th m i j).
Proof.
  intros Hi Hj.
  apply (E_mvn_q 3 m S (qjac th i j)).
  - destruct i as [|[|i]], j as [|[|j]]; repeat (constructor; [cbn; lia|]); constructor.
  - intros x. destruct i as [|[|[|i]]]; [| | |lia]; (destruct j as [|[|[|j]]]; [| | |lia]);
      cbn [qjac qval jac63 ival]; req; ring.
  - destruct i as [|[|[|i]]]; [| | |lia]; (destruct j as [|[|[|j]]]; [| | |lia]);
      l63unf; cbn [qjac qexp qexp1]; unfold mon4, wick; cbn [fam4 ival icov]; rnum; ring.
Qed.

(** ** Gradients at one time point *)
Definition e63 th A b m S (w : nat -> R) : R := 1 / 2 * Rsum 3 (fun i => w i * Efg th A b m S w i).

Lemma e63_dm th A b (m : nat -> R) S w i : (i < 3)%nat ->
  is_derive (fun t => e63 th A b (vset i t m) S w) (m i) (Edm th A b m S w i).
Proof.
  intros Hi. destruct i as [|[|[|i]]]; [| | |lia]; unfold e63; cbn [Rsum]; l63unf; cbn [sumn]; unfold vset;
    cbn [Nat.eqb]; rnum; auto_derive; auto; rnum; field.
Qed.
Lemma e63_ds th A b (m : nat -> R) S w i j : (i < 3)%nat -> (j < 3)%nat -> symm 3 S ->
  is_derive (fun t => e63 th A b m (sset i j t S) w) (S i j) (Eds th A b m S w i j).
Proof.
  intros Hi Hj Hs.
  assert (S10 : S 1%nat 0%nat = S 0%nat 1%nat) by (apply Hs; lia).
  assert (S20 : S 2%nat 0%nat = S 0%nat 2%nat) by (apply Hs; lia).
  assert (S21 : S 2%nat 1%nat = S 1%nat 2%nat) by (apply Hs; lia).
  destruct i as [|[|[|i]]]; [| | |lia]; (destruct j as [|[|[|j]]]; [| | |lia]);
  rewrite ?S10, ?S20, ?S21;
  unfold e63; cbn [Rsum]; l63unf; cbn [sumn]; unfold sset;
    cbn [Nat.eqb andb orb]; rnum; auto_derive; auto; rnum; field.
Qed.
Lemma e63_dth (th : nat -> R) A b (m : nat -> R) S w i : (i < 3)%nat ->
  is_derive (fun t => e63 (vset i t th) A b m S w) (th i) (w i * Efg_drift_theta (K:=RNum) th A b m S i).
Proof.
  intros Hi. destruct i as [|[|[|i]]]; [| | |lia]; unfold e63; cbn [Rsum]; l63unf; cbn [sumn]; unfold vset;
    cbn [Nat.eqb]; rnum; auto_derive; auto; rnum; field.
Qed.

(** ** The energy over the time grid *)
Notation vz := (fun _ : nat => 0).
Notation mz := (fun _ _ : nat => 0).
Notation gv l k := (nth k l vz).
Notation gm l k := (nth k l mz).

Lemma lset_length {A} k (v : A) x : length (lset k v x) = length x.
Proof. revert k. induction x; intros [|k]; cbn; auto. Qed.
Lemma lset_nth {A} k (v : A) x j d : (k < length x)%nat ->
  nth j (lset k v x) d = if Nat.eqb j k then v else nth j x d.
Proof.
  revert k j. induction x as [|a x IH]; intros k j Hk; [cbn in Hk; lia|].
  destruct k as [|k], j as [|j]; cbn; try reflexivity. cbn in Hk. rewrite IH by lia. reflexivity.
Qed.
Lemma nth_map_lt {A B} (f : A -> B) l k da db : (k < length l)%nat -> nth k (map f l) db = f (nth k l da).
Proof. intros H. rewrite (nth_indep _ db (f da)) by (rewrite map_length; exact H). apply map_nth. Qed.

Section Grid.
Variables (th : nat -> R) (P : nat -> nat -> R) (dt : R)
  (A : list (nat -> nat -> R)) (B M : list (nat -> R)) (S : list (nat -> nat -> R)) (obs : option (list nat)).
Hypotheses (Ho : srt obs) (H1 : length B = length A) (H2 : length M = length A) (H3 : length S = length A).
Let w : nat -> R := fun i => P i i.

Lemma l63_sde : n_sde (l63_energy (K:=RNum) th P dt A B M S obs) =
  trap (length A) (fun k => e63 th (gm A k) (gv B k) (gv M k) (gm S k) w) dt.
Proof.
  unfold l63_energy. cbn [n_sde]. rewrite trapz_scalar by exact Ho.
  rewrite !map_length, map4_length by assumption.
  apply trap_ext. intros k Hk.
  set (f := fun (a : Rmat) (b m : Rvec) (s : Rmat) => energy_dm_ds (K:=RNum) th a b m s (diagv P)).
  assert (HL : (k < length (map4 f A B M S))%nat) by (rewrite map4_length; assumption).
  rewrite (nth_map_lt _ _ _ (f mz vz vz mz)) by exact HL.
  rewrite (map4_nth f A B M S k mz vz vz mz) by assumption.
  unfold e63, Efg, edd, f, vdot. reflexivity.
Qed.
Lemma l63_dm_nth k : (k < length A)%nat ->
  nth k (n_dm (l63_energy (K:=RNum) th P dt A B M S obs)) vz = Edm th (gm A k) (gv B k) (gv M k) (gm S k) w.
Proof.
  intros Hk. unfold l63_energy. cbn [n_dm].
  set (f := fun (a : Rmat) (b m : Rvec) (s : Rmat) => energy_dm_ds (K:=RNum) th a b m s (diagv P)).
  assert (HL : (k < length (map4 f A B M S))%nat) by (rewrite map4_length; assumption).
  rewrite (nth_map_lt _ _ _ (f mz vz vz mz)) by exact HL.
  rewrite (map4_nth f A B M S k mz vz vz mz) by assumption. reflexivity.
Qed.
Lemma l63_ds_nth k : (k < length A)%nat ->
  nth k (n_ds (l63_energy (K:=RNum) th P dt A B M S obs)) mz = Eds th (gm A k) (gv B k) (gv M k) (gm S k) w.
Proof.
  intros Hk. unfold l63_energy. cbn [n_ds].
  set (f := fun (a : Rmat) (b m : Rvec) (s : Rmat) => energy_dm_ds (K:=RNum) th a b m s (diagv P)).
  assert (HL : (k < length (map4 f A B M S))%nat) by (rewrite map4_length; assumption).
  rewrite (nth_map_lt _ _ _ (f mz vz vz mz)) by exact HL.
  rewrite (map4_nth f A B M S k mz vz vz mz) by assumption. reflexivity.
Qed.
Lemma l63_f_nth k : (k < length A)%nat ->
  nth k (n_f (l63_energy (K:=RNum) th P dt A B M S obs)) vz = l63_Ef (K:=RNum) th (gv M k) (gm S k).
Proof.
  intros Hk. unfold l63_energy. cbn [n_f]. apply (nth_map2 (l63_Ef (K:=RNum) th) M S k vz mz vz); [rewrite <- H2 in Hk|rewrite <- H3 in Hk]; exact Hk.
Qed.
Lemma l63_df_nth k : (k < length A)%nat ->
  nth k (n_df (l63_energy (K:=RNum) th P dt A B M S obs)) mz = l63_Edf (K:=RNum) th (gv M k).
Proof.
  intros Hk. unfold l63_energy. cbn [n_df]. apply (nth_map_lt (l63_Edf (K:=RNum) th) M k vz mz). rewrite <- H2 in Hk. exact Hk.
Qed.
Lemma l63_dth_eq i : n_dth (l63_energy (K:=RNum) th P dt A B M S obs) i =
  trap (length A) (fun k => w i * Efg_drift_theta (K:=RNum) th (gm A k) (gv B k) (gv M k) (gm S k) i) dt.
Proof.
  unfold l63_energy. cbn [n_dth]. unfold vhad.
  rewrite trapz_vector by exact Ho. rewrite map4_length by assumption.
  set (g := fun k => Efg_drift_theta (K:=RNum) th (gm A k) (gv B k) (gv M k) (gm S k) i).
  transitivity (w i * trap (length A) g dt + 0 * trap (length A) g dt).
  - unfold diagv, w. rnum. rewrite Rmult_0_l, Rplus_0_r. f_equal. apply trap_ext. intros k Hk.
    rewrite (map4_nth _ A B M S k mz vz vz mz) by assumption. reflexivity.
  - rewrite <- trap_lin. apply trap_ext. intros k Hk. unfold g. ring.
Qed.
End Grid.

Lemma l63_dth_correct (th : nat -> R) (P : nat -> nat -> R) (dt : R) A B M S obs i : srt obs ->
  length B = length A -> length M = length A -> length S = length A -> (i < 3)%nat ->
  is_derive (fun t => n_sde (l63_energy (K:=RNum) (vset i t th) P dt A B M S obs)) (th i)
            (n_dth (l63_energy (K:=RNum) th P dt A B M S obs) i).
Proof.
  intros Ho H1 H2 H3 Hi. rewrite l63_dth_eq by assumption.
  apply (is_derive_ext (fun t => trap (length A) (fun k => e63 (vset i t th) (gm A k) (gv B k) (gv M k) (gm S k) (fun i => P i i)) dt)).
  { intros t. symmetry. apply l63_sde; assumption. }
  apply (is_derive_trap (length A) (fun k t => e63 (vset i t th) (gm A k) (gv B k) (gv M k) (gm S k) (fun i => P i i))).
  intros k Hk. exact (e63_dth th (gm A k) (gv B k) (gv M k) (gm S k) (fun i => P i i) i Hi).
Qed.
Lemma l63_dm_correct (th : nat -> R) (P : nat -> nat -> R) (dt : R) A B M S obs k i : srt obs ->
  length B = length A -> length M = length A -> length S = length A -> (k < length A)%nat -> (i < 3)%nat ->
  is_derive (fun t => n_sde (l63_energy (K:=RNum) th P dt A B (lset k (vset i t (gv M k)) M) S obs)) (gv M k i)
            (tweight (length A) k dt * nth k (n_dm (l63_energy (K:=RNum) th P dt A B M S obs)) vz i).
Proof.
  intros Ho H1 H2 H3 Hk Hi. rewrite l63_dm_nth by assumption.
  apply (is_derive_ext (fun t => trap (length A) (fun j => if Nat.eqb j k
     then e63 th (gm A k) (gv B k) (vset i t (gv M k)) (gm S k) (fun i => P i i)
     else e63 th (gm A j) (gv B j) (gv M j) (gm S j) (fun i => P i i)) dt)).
  { intros t. symmetry. rewrite l63_sde; try assumption; [|rewrite lset_length; assumption].
    apply trap_ext. intros j Hj. rewrite lset_nth by (rewrite H2; exact Hk).
    destruct (Nat.eqb_spec j k) as [->|]; reflexivity. }
  apply (is_derive_trap_one (length A) k (fun j => e63 th (gm A j) (gv B j) (gv M j) (gm S j) (fun i => P i i))
      (fun t => e63 th (gm A k) (gv B k) (vset i t (gv M k)) (gm S k) (fun i => P i i))); [exact Hk|].
  apply e63_dm. exact Hi.
Qed.
Lemma l63_ds_correct (th : nat -> R) (P : nat -> nat -> R) (dt : R) A B M S obs k i j : srt obs ->
  length B = length A -> length M = length A -> length S = length A -> (k < length A)%nat ->
  (i < 3)%nat -> (j < 3)%nat -> symm 3 (gm S k) ->
  is_derive (fun t => n_sde (l63_energy (K:=RNum) th P dt A B M (lset k (sset i j t (gm S k)) S) obs)) (gm S k i j)
            (tweight (length A) k dt * nth k (n_ds (l63_energy (K:=RNum) th P dt A B M S obs)) mz i j).
Proof.
  intros Ho H1 H2 H3 Hk Hi Hj Hs. rewrite l63_ds_nth by assumption.
  apply (is_derive_ext (fun t => trap (length A) (fun l => if Nat.eqb l k
     then e63 th (gm A k) (gv B k) (gv M k) (sset i j t (gm S k)) (fun i => P i i)
     else e63 th (gm A l) (gv B l) (gv M l) (gm S l) (fun i => P i i)) dt)).
  { intros t. symmetry. rewrite l63_sde; try assumption; [|rewrite lset_length; assumption].
    apply trap_ext. intros l Hl. rewrite lset_nth by (rewrite H3; exact Hk).
    destruct (Nat.eqb_spec l k) as [->|]; reflexivity. }
  apply (is_derive_trap_one (length A) k (fun l => e63 th (gm A l) (gv B l) (gv M l) (gm S l) (fun i => P i i))
      (fun t => e63 th (gm A k) (gv B k) (gv M k) (sset i j t (gm S k)) (fun i => P i i))); [exact Hk|].
  apply e63_ds; assumption.
Qed.

(** energy = trapezoidal integral of the expected weighted squared mismatch *)
Lemma l63_energy_E (th : nat -> R) (P : nat -> nat -> R) (dt : R) A B M S obs : srt obs ->
  length B = length A -> length M = length A -> length S = length A ->
  (forall k, (k < length A)%nat -> symm 3 (gm S k)) ->
  exists e : nat -> R,
    (forall k, (k < length A)%nat ->
       E_mvn 3 (gv M k) (gm S k)
         (fun x => 1 / 2 * Rsum 3 (fun i => P i i * mis63 th (gm A k) (gv B k) x i ^ 2)) (e k)) /\
    n_sde (l63_energy (K:=RNum) th P dt A B M S obs) = trap (length A) e dt.
Proof.
  intros Ho H1 H2 H3 Hs.
  exists (fun k => e63 th (gm A k) (gv B k) (gv M k) (gm S k) (fun i => P i i)). split.
  - intros k Hk. unfold e63. apply E_mvn_scal. cbn [Rsum].
    repeat apply E_mvn_plus; try apply E_mvn_zero;
      apply (E_mvn_scal 3 _ _ (fun x => mis63 th (gm A k) (gv B k) x _ ^ 2)); apply Efg_E; auto.
  - apply l63_sde; assumption.
Qed.

(** ** Derivative of the inverse matrix along a curve *)
Lemma inv_derive d (Sg P : R -> nat -> nat -> R) (Sg' P' : nat -> nat -> R) t0 :
  locally t0 (fun t => is_prod d (P t) (Sg t) ident) -> is_prod d (Sg t0) (P t0) ident ->
  (forall i j, (i < d)%nat -> (j < d)%nat -> is_derive (fun t => Sg t i j) t0 (Sg' i j)) ->
  (forall i j, (i < d)%nat -> (j < d)%nat -> is_derive (fun t => P t i j) t0 (P' i j)) ->
  forall i j, (i < d)%nat -> (j < d)%nat ->
    P' i j = - Rsum d (fun k => Rsum d (fun l => P t0 i k * Sg' k l * P t0 l j)).
Proof.
  intros HI HR HS HP.
  assert (E : forall i j, (i < d)%nat -> (j < d)%nat ->
     Rsum d (fun k => P' i k * Sg t0 k j + P t0 i k * Sg' k j) = 0).
  { intros i j Hi Hj.
    assert (D1 : is_derive (fun t => Rsum d (fun k => P t i k * Sg t k j)) t0
              (Rsum d (fun k => P' i k * Sg t0 k j + P t0 i k * Sg' k j))).
    { apply (is_derive_Rsum d (fun k t => P t i k * Sg t k j)). intros k Hk.
      evar_last.
      - apply (is_derive_mult (fun t => P t i k) (fun t => Sg t k j)); [apply HP; assumption|apply HS; assumption|intros; apply Rmult_comm].
      - unfold plus, mult; cbn. ring. }
    assert (D2 : is_derive (fun t => Rsum d (fun k => P t i k * Sg t k j)) t0 0).
    { apply (is_derive_ext_loc (fun _ => ident i j)).
      - revert HI. apply filter_imp. intros t Ht. symmetry. apply Ht; assumption.
      - apply (is_derive_const (V:=R_NormedModule)). }
    transitivity (Derive (fun t => Rsum d (fun k => P t i k * Sg t k j)) t0).
    - symmetry. apply is_derive_unique, D1.
    - apply is_derive_unique, D2. }
  intros i j Hi Hj.
  (* multiply by P on the right *)
  assert (F : Rsum d (fun k => Rsum d (fun l => P' i l * Sg t0 l k + P t0 i l * Sg' l k) * P t0 k j) = 0).
  { apply (sumn_zero d (fun k => Rsum d (fun l => P' i l * Sg t0 l k + P t0 i l * Sg' l k) * P t0 k j)).
    intros k Hk. rewrite E by assumption. ring. }
  assert (G : Rsum d (fun k => Rsum d (fun l => P' i l * Sg t0 l k) * P t0 k j) = P' i j).
  { transitivity (rsum d (fun l => P' i l * Rsum d (fun k => Sg t0 l k * P t0 k j))).
    - transitivity (rsum d (fun k => rsum d (fun l => P' i l * (Sg t0 l k * P t0 k j)))).
      + apply sumn_ext. intros k Hk. change (rsum d (fun l => P' i l * Sg t0 l k) * P t0 k j = rsum d (fun l => P' i l * (Sg t0 l k * P t0 k j))).
        rewrite <- sumn_scal_r. apply sumn_ext. intros; ring.
      + rewrite sumn_swap. apply sumn_ext. intros l Hl. apply (sumn_scal d (P' i l) (fun k => Sg t0 l k * P t0 k j)).
    - rewrite (sumn_single d _ j Hj).
      + rewrite HR by assumption. unfold ident. rewrite Nat.eqb_refl. ring.
      + intros l Hl Hne. rewrite HR by assumption. unfold ident. destruct (Nat.eqb_spec l j); [lia|ring]. }
  assert (F' : Rsum d (fun k => Rsum d (fun l => P' i l * Sg t0 l k) * P t0 k j)
             + Rsum d (fun k => Rsum d (fun l => P t0 i l * Sg' l k) * P t0 k j) = 0).
  { rewrite <- F.
    change (rsum d (fun k => Rsum d (fun l => P' i l * Sg t0 l k) * P t0 k j)
             + rsum d (fun k => Rsum d (fun l => P t0 i l * Sg' l k) * P t0 k j) =
            rsum d (fun k => Rsum d (fun l => P' i l * Sg t0 l k + P t0 i l * Sg' l k) * P t0 k j)).
    rewrite <- sumn_plus. apply sumn_ext. intros k Hk.
    pose proof (sumn_plus d (fun l => P' i l * Sg t0 l k) (fun l => P t0 i l * Sg' l k)) as Q.
    change (Rsum d (fun l => P' i l * Sg t0 l k + P t0 i l * Sg' l k) = Rsum d (fun l => P' i l * Sg t0 l k) + Rsum d (fun l => P t0 i l * Sg' l k)) in Q.
    rewrite Q. ring. }
  assert (T : Rsum d (fun k => Rsum d (fun l => P t0 i l * Sg' l k) * P t0 k j)
            = Rsum d (fun k => Rsum d (fun l => P t0 i k * Sg' k l * P t0 l j))).
  { transitivity (rsum d (fun k => rsum d (fun l => P t0 i l * Sg' l k * P t0 k j))).
    - apply sumn_ext. intros k Hk. apply (eq_sym (sumn_scal_r d (P t0 k j) (fun l => P t0 i l * Sg' l k))).
    - rewrite sumn_swap. reflexivity. }
  lra.
Qed.

(** ** Gradient with respect to the system noise *)
Section Noise.
Variables (th : nat -> R) (dt : R)
  (A : list (nat -> nat -> R)) (B M : list (nat -> R)) (S : list (nat -> nat -> R)) (obs : option (list nat)).
Hypotheses (Ho : srt obs) (H1 : length B = length A) (H2 : length M = length A) (H3 : length S = length A).

Definition Tfg (i : nat) : R :=
  trap (length A) (fun k => Efg th (gm A k) (gv B k) (gv M k) (gm S k) vz i) dt.

Lemma l63_sde_T (P : nat -> nat -> R) : n_sde (l63_energy (K:=RNum) th P dt A B M S obs) =
  1 / 2 * Rsum 3 (fun i => P i i * Tfg i).
Proof.
  rewrite l63_sde by assumption. unfold e63. cbn [Rsum]. unfold Tfg.
  set (F := fun i k => Efg th (gm A k) (gv B k) (gv M k) (gm S k) vz i).
  transitivity (1 / 2 * (P 0%nat 0%nat * trap (length A) (F 0%nat) dt
     + 1 * (P 1%nat 1%nat * trap (length A) (F 1%nat) dt + P 2%nat 2%nat * trap (length A) (F 2%nat) dt))).
  - rewrite <- (trap_lin (length A) (F 1%nat)).
    rewrite <- (trap_lin (length A) (F 0%nat)).
    set (Q := fun k => P 0%nat 0%nat * F 0%nat k + 1 * (P 1%nat 1%nat * F 1%nat k + P 2%nat 2%nat * F 2%nat k)).
    transitivity (1 / 2 * trap (length A) Q dt + 0 * trap (length A) Q dt); [|unfold Q; req; ring].
    rewrite <- trap_lin. apply trap_ext. intros k Hk.
    change (1 / 2 * (0 + P 0%nat 0%nat * F 0%nat k + P 1%nat 1%nat * F 1%nat k + P 2%nat 2%nat * F 2%nat k) = 1 / 2 * Q k + 0 * Q k).
    unfold Q. ring.
  - unfold F. req; ring.
Qed.
Lemma l63_dsig_eq (P : nat -> nat -> R) i j : (i < 3)%nat -> (j < 3)%nat ->
  n_dsig (l63_energy (K:=RNum) th P dt A B M S obs) i j =
  - (1 / 2) * Rsum 3 (fun l => P i l * Tfg l * P l j).
Proof.
  intros Hi Hj. unfold l63_energy. cbn [n_dsig].
  set (f := fun (a : Rmat) (b m : Rvec) (s : Rmat) => energy_dm_ds (K:=RNum) th a b m s (diagv P)).
  assert (ET : forall l, (my_trapz (V:=vecV RNum) (map (fun p : vec RNum * vec RNum * mat RNum => fst (fst p)) (map4 f A B M S)) dt obs : Rvec) l = Tfg l).
  { intros l. rewrite trapz_vector by exact Ho. rewrite map_length, map4_length by assumption.
    apply trap_ext. intros k Hk.
    assert (HL : (k < length (map4 f A B M S))%nat) by (rewrite map4_length; assumption).
    rewrite (nth_map_lt _ _ _ (f mz vz vz mz)) by exact HL.
    rewrite (map4_nth f A B M S k mz vz vz mz) by assumption. reflexivity. }
  unfold mmul, mscale, mdiag. cbn [sumn Rsum].
  cbn [Nat.eqb]. rewrite !ET. rnum. field.
Qed.

(** along every differentiable curve of symmetric inverse noise matrices *)
Lemma l63_dsig_curve (Sg P : R -> nat -> nat -> R) (Sg' P' : nat -> nat -> R) (t0 : R) :
  locally t0 (fun t => is_prod 3 (P t) (Sg t) ident) -> is_prod 3 (Sg t0) (P t0) ident ->
  symm 3 (P t0) ->
  (forall i j, (i < 3)%nat -> (j < 3)%nat -> is_derive (fun t => Sg t i j) t0 (Sg' i j)) ->
  (forall i j, (i < 3)%nat -> (j < 3)%nat -> is_derive (fun t => P t i j) t0 (P' i j)) ->
  is_derive (fun t => n_sde (l63_energy (K:=RNum) th (P t) dt A B M S obs)) t0
    (Rsum 3 (fun i => Rsum 3 (fun j => n_dsig (l63_energy (K:=RNum) th (P t0) dt A B M S obs) i j * Sg' i j))).
Proof.
  intros HI HR Hsym HS HP.
  apply (is_derive_ext (fun t => 1 / 2 * Rsum 3 (fun i => P t i i * Tfg i))).
  { intros t. symmetry. apply l63_sde_T. }
  assert (D : is_derive (fun t => 1 / 2 * Rsum 3 (fun i => P t i i * Tfg i)) t0 (1 / 2 * Rsum 3 (fun i => P' i i * Tfg i))).
  { apply (is_derive_scal (fun t => Rsum 3 (fun i => P t i i * Tfg i))).
    apply (is_derive_Rsum 3 (fun i t => P t i i * Tfg i)). intros i Hi.
    apply (is_derive_ext (fun t => Tfg i * P t i i)).
    { intros t. req. ring. }
    replace (P' i i * Tfg i) with (Tfg i * P' i i) by ring.
    apply (is_derive_scal (fun t => P t i i)). apply HP; assumption. }
  evar_last; [exact D|].
  pose proof (inv_derive 3 Sg P Sg' P' t0 HI HR HS HP) as E.
  assert (S10 : P t0 1%nat 0%nat = P t0 0%nat 1%nat) by (apply Hsym; lia).
  assert (S20 : P t0 2%nat 0%nat = P t0 0%nat 2%nat) by (apply Hsym; lia).
  assert (S21 : P t0 2%nat 1%nat = P t0 1%nat 2%nat) by (apply Hsym; lia).
  cbn [Rsum]. rewrite !l63_dsig_eq by lia.
  rewrite (E 0%nat 0%nat), (E 1%nat 1%nat), (E 2%nat 2%nat) by lia. cbn [Rsum].
  rewrite ?S10, ?S20, ?S21. field.
Qed.
End Noise.

(** ** Noise that is not diagonal *)
Definition Pw : nat -> nat -> R := fun i j => if Nat.eqb i j then 2 else 1.
Lemma full_noise_witness :
  exists (th : nat -> R) P dt A B M S obs (e : nat -> R),
    (length B = length A /\ length M = length A /\ length S = length A /\
     (forall o, obs = Some o -> Sorted le o) /\
     (forall k, (k < length A)%nat -> symm 3 (nth k S (fun _ _ => 0)))) /\ symm 3 P /\ posdef 3 P /\
    (forall k, (k < length A)%nat ->
       E_mvn 3 (nth k M (fun _ => 0)) (nth k S (fun _ _ => 0))
         (fun x => 1 / 2 * Rsum 3 (fun i => Rsum 3 (fun j => P i j *
            (mis63 th (nth k A (fun _ _ => 0)) (nth k B (fun _ => 0)) x i *
             mis63 th (nth k A (fun _ _ => 0)) (nth k B (fun _ => 0)) x j)))) (e k)) /\
    (exists L, is_root 3 L (nth 0 S (fun _ _ => 0))) /\
    n_sde (l63_energy (K:=RNum) th P dt A B M S obs) <> trap (length A) e dt.
Proof.
  exists vz, Pw, 1, [mz; mz], [(fun _ => 1); (fun _ => 1)], [vz; vz], [mz; mz], None, (fun _ => 6).
  split; [|split; [|split; [|split; [|split]]]].
  - repeat split; [discriminate|]. intros [|[|k]] Hk; [| |cbn in Hk; lia]; intros i j _ _; reflexivity.
  - intros i j _ _. unfold Pw. rewrite Nat.eqb_sym. reflexivity.
  - intros v (i & Hi & Hv). cbn [Rsum Pw]. unfold Pw. cbn [Nat.eqb].
    assert (0 < v 0%nat ^ 2 + v 1%nat ^ 2 + v 2%nat ^ 2).
    { pose proof (pow2_ge_0 (v 0%nat)). pose proof (pow2_ge_0 (v 1%nat)). pose proof (pow2_ge_0 (v 2%nat)).
      destruct i as [|[|[|i]]]; [| | |lia]; pose proof (pow2_gt_0 _ Hv); lra. }
    pose proof (pow2_ge_0 (v 0%nat + v 1%nat + v 2%nat)). nra.
  - intros k Hk.
    replace (nth k [mz; mz] mz) with (fun _ _ : nat => 0) by (destruct k as [|[|k]]; [reflexivity|reflexivity|cbn in Hk; lia]).
    replace (nth k [vz; vz] vz) with (fun _ : nat => 0) by (destruct k as [|[|k]]; [reflexivity|reflexivity|cbn in Hk; lia]).
    replace (nth k [fun _ : nat => 1; fun _ : nat => 1] vz) with (fun _ : nat => 1) by (destruct k as [|[|k]]; [reflexivity|reflexivity|cbn in Hk; lia]).
    clear. set (q := q63 vz mz (fun _ : nat => 1)).
    set (e := fun i j => Pw i j * qexp vz mz (q i) (q j)).
    assert (He : 6 = 1 / 2 * Rsum 3 (fun i => Rsum 3 (fun j => e i j))).
    { unfold e, q, q63, Pw. cbn [Rsum Nat.eqb qexp qexp1]. unfold mon4, wick. cbn [fam4 ival icov]. field. }
    rewrite He. apply E_mvn_scal. cbn [Rsum].
    repeat (apply E_mvn_plus || apply E_mvn_zero);
    match goal with |- E_mvn 3 _ _ _ (e ?i ?j) => 
      apply (E_mvn_scal 3 vz mz (fun x => mis63 vz mz (fun _ => 1) x i * mis63 vz mz (fun _ => 1) x j));
      apply (E_mvn_qq_eq 3 vz mz (q i) (q j)); [apply q63_ok|apply q63_ok| |reflexivity];
      intros x; unfold q; rewrite !q63_val by lia; reflexivity end.
  - exists mz. intros i j _ _. cbn. ring.
  - rewrite l63_sde; try reflexivity; [|discriminate].
    unfold trap, e63. cbn [length Rsum nth Nat.sub Nat.add]. l63unf. unfold Pw. cbn [Nat.eqb]. rnum. lra.
Qed.
