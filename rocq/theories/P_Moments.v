(** * Proofs about the Gaussian moments. *)
From Coq Require Import ZArith List Bool Arith String Ascii Reals Lra Lia.
From Coquelicot Require Import Coquelicot.
From Verif Require Import Num Arr ArrFacts M_LinAlg M_Moments Spec_Gauss P_Gauss.
Import ListNotations.
Local Open Scope R_scope.

Ltac order9 k := do 9 (destruct k as [|k]; [|]); [..|lia].

Lemma mom_elt_mom (m v : R) k : 0 < v -> (k <= 8)%nat -> mom m v k (mom_elt (K:=RNum) k m v).
Proof.
  intros Hv.
  assert (H0 : mom m v 0 1) by (apply mom_0, Hv).
  assert (step : forall k a b c, mom m v k a -> mom m v (S k) b ->
            c = m * b + v * INR (S k) * a -> mom m v (S (S k)) c).
  { intros k' a b c Ha Hb ->. apply mom_rec; auto. }
  assert (H1 : mom m v 1 m).
  { replace m with (m * 1 + v * INR 0 * 0) at 2 by (simpl; ring). apply mom_rec; auto. }
  assert (G : forall j, (j <= 7)%nat ->
            mom m v j (mom_elt (K:=RNum) j m v) /\ mom m v (S j) (mom_elt (K:=RNum) (S j) m v)).
  { induction j as [|k' IH]; intros Hk.
    - split; [exact H0|exact H1].
    - destruct IH as [Ha Hb]; [lia|]. split; [exact Hb|].
      eapply step; [exact Ha|exact Hb|].
      do 7 (destruct k' as [|k']; [unfold mom_elt; rnum; simpl INR; ring|]). lia. }
  intros Hk. destruct k as [|k]; [exact H0|]. apply (G k). lia.
Qed.

Lemma mom_elt_E (m v : R) k : 0 < v -> (k <= 8)%nat ->
  E_normal m v (fun x => x ^ k) (mom_elt (K:=RNum) k m v).
Proof. intros. apply gint_RInt_gen. apply mom_elt_mom; assumption. Qed.

Lemma dm_elt_derive (m v : R) k : (1 <= k <= 8)%nat ->
  is_derive (fun x : R => mom_elt (K:=RNum) k x v : R) m (dm_elt (K:=RNum) k m v).
Proof.
  intros Hk. destruct k as [|k]; [lia|].
  do 8 (destruct k as [|k]; [unfold mom_elt, dm_elt; rnum; auto_derive; [auto|ring]|]). lia.
Qed.
Lemma ds_elt_derive (m v : R) k : (1 <= k <= 8)%nat ->
  is_derive (fun x : R => mom_elt (K:=RNum) k m x : R) v (ds_elt (K:=RNum) k m v).
Proof.
  intros Hk. destruct k as [|k]; [lia|].
  do 8 (destruct k as [|k]; [unfold mom_elt, ds_elt; rnum; auto_derive; [auto|ring]|]). lia.
Qed.

(** ** the object *)
Definition elt1 {K : Num} (x : arr K) (i : nat) : K :=
  match x with A1 _ v => v i | A0 x => x | _ => nZ 0 end.

Lemma gm_vectors {K : Num} show n (m v : vec K) :
  gm_init show (A1 n m) (A1 n v) = Ok (mkGM (A1 n m) (A1 n v) n).
Proof.
  unfold gm_init. cbn. destruct (Nat.eq_dec n n) as [e|e]; [|congruence].
  cbn. reflexivity.
Qed.
Lemma gm_scalars {K : Num} show (m v : K) :
  gm_init show (A0 m) (A0 v) = gm_init show (A1 1 (fun _ => m)) (A1 1 (fun _ => v)).
Proof. reflexivity. Qed.
Lemma gm_matrices {K : Num} show r c (m v : mat K) :
  gm_init show (A2 r c m) (A2 r c v) = Ok (mkGM (A2 r c m) (A2 r c v) r).
Proof.
  unfold gm_init. cbn. destruct (Nat.eq_dec r r) as [e|e]; [|congruence]. cbn.
  destruct (Nat.eq_dec c c) as [e'|e']; [|congruence]. reflexivity.
Qed.

Lemma moments_exact show n (m v : nat -> R) (k : nat) :
  (k <= 8)%nat -> (forall i, (i < n)%nat -> 0 < v i) ->
  exists g out, gm_init (K:=RNum) show (A1 n m) (A1 n v) = Ok g /\
    gm_call g (Z.of_nat k) = Ok (A1 n out) /\
    forall i, (i < n)%nat -> E_normal (m i) (v i) (fun x => x ^ k) (out i).
Proof.
  intros Hk Hv. eexists; eexists. split; [apply gm_vectors|]. split.
  - unfold gm_call.
    replace ((0 <=? Z.of_nat k) && (Z.of_nat k <=? 8))%Z with true by (symmetry; apply andb_true_intro; split; apply Z.leb_le; lia).
    f_equal. instantiate (1 := fun i => mom_elt (K:=RNum) k (m i) (v i)).
    destruct (Z.eqb_spec (Z.of_nat k) 0) as [e|e].
    + assert (k = 0)%nat as -> by lia. reflexivity.
    + rewrite Nat2Z.id. reflexivity.
  - intros i Hi. apply mom_elt_E; auto.
Qed.

(** matrix-shaped inputs: same, for the orders 1..8 *)
Lemma moments_exact2 show r c (m v : nat -> nat -> R) (k : nat) :
  (1 <= k <= 8)%nat -> (forall i j, (i < r)%nat -> (j < c)%nat -> 0 < v i j) ->
  exists g out, gm_init (K:=RNum) show (A2 r c m) (A2 r c v) = Ok g /\
    gm_call g (Z.of_nat k) = Ok (A2 r c out) /\
    forall i j, (i < r)%nat -> (j < c)%nat -> E_normal (m i j) (v i j) (fun x => x ^ k) (out i j).
Proof.
  intros Hk Hv. eexists; eexists. split; [apply gm_matrices|]. split.
  - unfold gm_call.
    replace ((0 <=? Z.of_nat k) && (Z.of_nat k <=? 8))%Z with true by (symmetry; apply andb_true_intro; split; apply Z.leb_le; lia).
    f_equal. instantiate (1 := fun i j => mom_elt (K:=RNum) k (m i j) (v i j)).
    destruct (Z.eqb_spec (Z.of_nat k) 0) as [e|e]; [lia|].
    rewrite Nat2Z.id. reflexivity.
  - intros i j Hi Hj. apply mom_elt_E; auto. lia.
Qed.

(** the value returned at position i, as a function of the mean and variance there *)
Definition put (n i : nat) (x : R) (v : nat -> R) : arr RNum :=
  A1 n (fun j => if Nat.eqb j i then x else v j).
Definition call_at show (i : nat) (k : Z) (ma va : arr RNum) : R :=
  match gm_init show ma va with
  | Ok g => match gm_call g k with Ok a => elt1 a i | Err _ => 0 end
  | Err _ => 0
  end.
Definition dm_at show (i : nat) (k : Z) (ma va : arr RNum) : result R :=
  let* g := gm_init show ma va in let* a := gm_dm g k in Ok (elt1 a i : R).
Definition ds_at show (i : nat) (k : Z) (ma va : arr RNum) : result R :=
  let* g := gm_init show ma va in let* a := gm_ds g k in Ok (elt1 a i : R).

Lemma inb lo hi (k : nat) : (lo <= Z.of_nat k <= hi)%Z -> ((lo <=? Z.of_nat k) && (Z.of_nat k <=? hi))%Z = true.
Proof. intros. apply andb_true_intro; split; apply Z.leb_le; lia. Qed.

Lemma call_at_eq show n i (m v : vec RNum) k : (k <= 8)%nat ->
  call_at show i (Z.of_nat k) (A1 n m) (A1 n v) = mom_elt (K:=RNum) k (m i) (v i).
Proof.
  intros Hk. unfold call_at. rewrite gm_vectors. unfold gm_call. rewrite inb by lia.
  destruct (Z.eqb_spec (Z.of_nat k) 0) as [e|e].
  - assert (k = 0)%nat as -> by lia. reflexivity.
  - rewrite Nat2Z.id. reflexivity.
Qed.

Lemma dm_correct show n i (m v : nat -> R) k : (1 <= k <= 8)%nat -> (i < n)%nat ->
  exists d, dm_at show i (Z.of_nat k) (A1 n m) (A1 n v) = Ok d /\
  is_derive (fun x => call_at show i (Z.of_nat k) (put n i x m) (A1 n v)) (m i) d.
Proof.
  intros Hk Hi. exists (dm_elt (K:=RNum) k (m i) (v i)). split.
  - unfold dm_at. rewrite gm_vectors. cbn [bind]. unfold gm_dm. rewrite inb by lia. cbn [bind].
    f_equal. destruct (Z.eqb_spec (Z.of_nat k) 1) as [e|e].
    + assert (k = 1)%nat as -> by lia. reflexivity.
    + rewrite Nat2Z.id. reflexivity.
  - apply (is_derive_ext (fun x => mom_elt (K:=RNum) k x (v i) : R)).
    + intros t. unfold put. rewrite call_at_eq by lia. rewrite Nat.eqb_refl. reflexivity.
    + apply dm_elt_derive, Hk.
Qed.
Lemma ds_correct show n i (m v : nat -> R) k : (1 <= k <= 8)%nat -> (i < n)%nat ->
  exists d, ds_at show i (Z.of_nat k) (A1 n m) (A1 n v) = Ok d /\
  is_derive (fun x => call_at show i (Z.of_nat k) (A1 n m) (put n i x v)) (v i) d.
Proof.
  intros Hk Hi. exists (ds_elt (K:=RNum) k (m i) (v i)). split.
  - unfold ds_at. rewrite gm_vectors. cbn [bind]. unfold gm_ds. rewrite inb by lia. cbn [bind].
    f_equal. destruct (Z.eqb_spec (Z.of_nat k) 1) as [e|e].
    + assert (k = 1)%nat as -> by lia. reflexivity.
    + destruct (Z.eqb_spec (Z.of_nat k) 2) as [e'|e'].
      * assert (k = 2)%nat as -> by lia. reflexivity.
      * rewrite Nat2Z.id. reflexivity.
  - apply (is_derive_ext (fun x => mom_elt (K:=RNum) k (m i) x : R)).
    + intros t. unfold put. rewrite call_at_eq by lia. rewrite Nat.eqb_refl. reflexivity.
    + apply ds_elt_derive, Hk.
Qed.
(** off-diagonal partial derivatives vanish: position i does not read position j *)
Lemma call_local show n i j (m v : nat -> R) k x : (k <= 8)%nat -> i <> j ->
  call_at show i (Z.of_nat k) (put n j x m) (A1 n v) = call_at show i (Z.of_nat k) (A1 n m) (A1 n v) /\
  call_at show i (Z.of_nat k) (A1 n m) (put n j x v) = call_at show i (Z.of_nat k) (A1 n m) (A1 n v).
Proof.
  intros Hk Hij. unfold put. rewrite !call_at_eq by lia.
  destruct (Nat.eqb_spec i j); [contradiction|]. auto.
Qed.

(** ** errors, for every arithmetic *)
Lemma order_errors (K : Num) (g : GM K) (k : Z) :
  (gm_call g k = Err ValueError <-> ~ (0 <= k <= 8)%Z) /\
  (gm_dm g k = Err ValueError <-> ~ (1 <= k <= 8)%Z) /\
  (gm_ds g k = Err ValueError <-> ~ (1 <= k <= 8)%Z) /\
  ((0 <= k <= 8)%Z -> exists a, gm_call g k = Ok a) /\
  ((1 <= k <= 8)%Z -> (exists a, gm_dm g k = Ok a) /\ exists a, gm_ds g k = Ok a).
Proof.
  unfold gm_call, gm_dm, gm_ds.
  destruct (Z.leb_spec 0 k), (Z.leb_spec 1 k), (Z.leb_spec k 8); cbn [andb];
    repeat split; intros; try congruence; try lia; eauto.
Qed.

Lemma str_format_shape_msg a b c : str_format shape_msg [a; b; c] = Err ValueError.
Proof. reflexivity. Qed.

Lemma shape_eqb_eq a b : shape_eqb a b = true <-> a = b.
Proof.
  destruct a as [a|], b as [b|]; cbn; try (split; congruence).
  destruct (list_eq_dec Nat.eq_dec a b); split; congruence.
Qed.
(** a shape mismatch raises, but ValueError instead of RuntimeError *)
Lemma mismatch_error (K : Num) show (m v : arr K) :
  shape (atleast_1d m) <> shape (atleast_1d v) -> gm_init show m v = Err ValueError.
Proof.
  intros H. unfold gm_init.
  destruct (shape_eqb (shape (atleast_1d m)) (shape (atleast_1d v))) eqn:E.
  - apply shape_eqb_eq in E. contradiction.
  - cbn [negb]. rewrite str_format_shape_msg. reflexivity.
Qed.
Lemma match_ok (K : Num) show (m v : arr K) :
  shape (atleast_1d m) = shape (atleast_1d v) ->
  exists g, gm_init show m v = Ok g /\ m_arr g = atleast_1d m /\ v_arr g = atleast_1d v.
Proof.
  intros H. unfold gm_init.
  replace (shape_eqb _ _) with true by (symmetry; apply shape_eqb_eq; exact H).
  eexists. split; [reflexivity|]. auto.
Qed.
