(** * Proofs about the observation energy. *)
From Coq Require Import Reals Lra Lia Arith Bool List FunctionalExtensionality.
From Coquelicot Require Import Coquelicot.
From Verif Require Import Num Arr ArrFacts M_LinAlg M_Like Spec_Utils Spec_Det Spec_Gauss Spec_GaussN Spec_Prior
  Spec_L63 Spec_Like P_Trapz P_LinAlg P_Det P_Gauss P_Moments P_Sde1 P_GaussN P_L63 P_RMat P_Expect P_Prior.
Import ListNotations.
Local Open Scope R_scope.

(** ** indexing *)
Lemma take_ok {A} (l : list A) ix z : List.Forall (fun i => (i < length l)%nat) ix ->
  take l ix = Ok (map (fun i => nth i l z) ix).
Proof.
  induction ix as [|i ix IH]; intros H; [reflexivity|]. inversion H as [|? ? H1 H2]; subst.
  cbn [take map]. rewrite (nth_error_nth' l z H1), (IH H2). reflexivity.
Qed.
Lemma take_err {A} (l : list A) ix : ~ List.Forall (fun i => (i < length l)%nat) ix ->
  take l ix = Err IndexError.
Proof.
  induction ix as [|i ix IH]; intros H; [exfalso; apply H; constructor|].
  cbn [take]. destruct (nth_error l i) eqn:E.
  - rewrite IH; [reflexivity|]. intros H'. apply H. constructor; [|exact H'].
    apply nth_error_Some. congruence.
  - reflexivity.
Qed.
Lemma scatter_length {A} ix : forall (vals l : list A), length (scatter ix vals l) = length l.
Proof.
  induction ix as [|i ix IH]; intros [|v vals] l; try reflexivity.
  cbn [scatter]. rewrite IH. apply upd_length.
Qed.
Lemma scatter_out {A} ix z k : ~ In k ix -> forall (vals l : list A),
  nth k (scatter ix vals l) z = nth k l z.
Proof.
  induction ix as [|i ix IH]; intros H [|v vals] l; try reflexivity.
  cbn [scatter]. rewrite IH by (intros H'; apply H; right; exact H').
  apply nth_upd_other. intros ->. apply H. left. reflexivity.
Qed.
Lemma scatter_in {A} ix z : NoDup ix -> forall (vals l : list A) j, length vals = length ix ->
  (j < length ix)%nat -> (nth j ix O < length l)%nat ->
  nth (nth j ix O) (scatter ix vals l) z = nth j vals z.
Proof.
  induction ix as [|i ix IH]; intros Hn [|v vals] l j Hl Hj Hr; cbn in Hl, Hj; try lia.
  inversion Hn as [|? ? Hi Hn']; subst. cbn [scatter]. destruct j as [|j].
  - cbn [nth] in *. rewrite scatter_out by exact Hi. apply nth_upd_same, Hr.
  - cbn [nth] in *. rewrite (IH Hn' vals); [reflexivity|lia|lia|rewrite upd_length; exact Hr].
Qed.
(** of several assignments to one index the last one stays *)
Lemma scatter_last {A} ix z k v : forall (vals l : list A), length vals = length ix -> (k < length l)%nat ->
  nth k (scatter (ix ++ [k]) (vals ++ [v]) l) z = v.
Proof.
  induction ix as [|i ix IH]; intros [|w vals] l Hl Hk; cbn in Hl; try lia.
  - cbn. apply nth_upd_same, Hk.
  - cbn [app scatter]. apply IH; [lia|rewrite upd_length; exact Hk].
Qed.
Lemma suml_R (l : list R) : suml (K:=RNum) l = Rsum (length l) (fun j => nth j l 0).
Proof.
  unfold suml. cut (forall z : R, fold_left (nadd (n:=RNum)) l z = z + Rsum (length l) (fun j => nth j l 0)).
  { intros H. rewrite H. rnum. ring. }
  induction l as [|a l IH]; intros z; cbn [fold_left length]; [rnum; cbn; ring|].
  rewrite IH, Rsum_shift. cbn [nth]. rnum. ring.
Qed.
Lemma nth_map3 {A B C D} (f : A -> B -> C -> D) l r s i da db dc dd :
  (i < length l)%nat -> (i < length r)%nat -> (i < length s)%nat ->
  nth i (map3 f l r s) dd = f (nth i l da) (nth i r db) (nth i s dc).
Proof.
  revert r s i; induction l as [|a l IH]; intros [|b r] [|c s] [|i] Hl Hr Hs; cbn in *; try lia; auto.
  apply IH; lia.
Qed.
Lemma map3_length {A B C D} (f : A -> B -> C -> D) l r s :
  length (map3 f l r s) = min (length l) (min (length r) (length s)).
Proof. revert r s; induction l as [|a l IH]; intros [|b r] [|c s]; cbn; auto. Qed.
Lemma nth_lset {A} k (v : A) x j d :
  nth j (lset k v x) d = if andb (Nat.eqb j k) (Nat.ltb k (length x)) then v else nth j x d.
Proof.
  revert k j; induction x as [|a x IH]; intros k j.
  - destruct k; cbn; rewrite Bool.andb_false_r; reflexivity.
  - destruct k, j; cbn [lset nth length]; try reflexivity. rewrite IH. reflexivity.
Qed.
Lemma lset_len {A} k (v : A) x : length (lset k v x) = length x.
Proof. revert k; induction x as [|a x IH]; intros [|k]; cbn; auto. Qed.

Ltac rty := change (car RNum) with R in *.

(** ** one dimension *)
Definition lterm (r y m s : R) : R := 1 / 2 * (((y - m) ^ 2 + s) / r) + 1 / 2 * (ln (2 * PI) + ln r).
Lemma lterm_E r y m s : 0 < r -> 0 < s -> E_normal m s (fun x => - ln (normal_density x r y)) (lterm r y m s).
Proof.
  intros Hr Hs.
  apply (E_poly_eq m s [1 / 2 * (ln (2 * PI) + ln r) + y ^ 2 / (2 * r); - (y / r); / (2 * r)]).
  - exact Hs.
  - cbn. lia.
  - intros x. rewrite ln_normal_density by assumption. cbn. field. lra.
  - unfold lterm. cbn [pmom]. unfold M_Moments.mom_elt. rnum. field. lra.
Qed.

Section OneD.
Variables (y : list R) (t : list nat) (r : R) (m s : list R).
Hypothesis Hr : 0 < r.
Hypothesis Hy : length y = length t.
Hypothesis Hms : length s = length m.
Hypothesis Ht : List.Forall (fun i => (i < length m)%nat) t.

Let tm j := nth (nth j t O) m 0.
Let ts j := nth (nth j t O) s 0.

Lemma like_1d_val : like_1d (K:=RNum) ln PI y t r m s = Ok (Rsum (length t) (fun j => lterm r (nth j y 0) (tm j) (ts j))).
Proof.
  assert (Ht' : List.Forall (fun i => (i < length s)%nat) t) by (rewrite Hms; exact Ht).
  unfold like_1d. rewrite (take_ok (A:=RNum) m t 0 Ht), (take_ok (A:=RNum) s t 0 Ht'). cbn [bind].
  unfold same_len. change (car RNum) with R. rewrite map_length, Hy, Nat.eqb_refl. cbn [bind]. f_equal.
  rewrite suml_R, map3_length, map2_length, !map_length, Hy, !Nat.min_id.
  unfold lterm. rewrite Rsum_plus, Rsum_const, Rsum_scal. unfold log2pi. rnum. rewrite <- INR_IZR_INZ.
  rewrite (Rsum_ext (length t) _ (fun j => r * (((nth j y 0 - tm j) ^ 2 + ts j) / r))).
  - rewrite Rsum_scal. field. lra.
  - intros j Hj. rewrite (nth_map3 _ _ _ _ j 0 0 0) by (rewrite ?map2_length, ?map_length, ?Hy; lia).
    rewrite (nth_map2 _ _ _ j 0 0) by (rewrite map_length; lia).
    rewrite !(nth_map_lt _ t j O) by lia. fold (tm j) (ts j). rnum. field. lra.
Qed.

Hypothesis Hs : forall j, (j < length t)%nat -> 0 < ts j.
Lemma obs_1d_E : obs_energy_1d y t r m s (Rsum (length t) (fun j => lterm r (nth j y 0) (tm j) (ts j))).
Proof. eexists. split; [|reflexivity]. intros j Hj. apply lterm_E; [exact Hr|apply Hs, Hj]. Qed.
Lemma obs_1d_unique e : obs_energy_1d y t r m s e ->
  e = Rsum (length t) (fun j => lterm r (nth j y 0) (tm j) (ts j)).
Proof.
  intros (c & Hc & ->). apply Rsum_ext. intros j Hj.
  apply (E_normal_unique _ _ _ _ _ (Hc j Hj)). apply lterm_E; [exact Hr|apply Hs, Hj].
Qed.
Lemma like_1d_ok : exists e, obs_energy_1d y t r m s e /\ like_1d (K:=RNum) ln PI y t r m s = Ok e.
Proof. eexists. split; [apply obs_1d_E|apply like_1d_val]. Qed.

Lemma like_grad_1d_val h : exists gm gs gr,
  like_grad_1d (K:=RNum) y t r h m s = Ok (gm, gs, gr) /\
  length gm = length m /\ length gs = length m /\ length gr = length m /\
  (forall k, ~ In k t -> nth k gm 0 = 0 /\ nth k gs 0 = 0 /\ nth k gr 0 = 0) /\
  (NoDup t -> forall j, (j < length t)%nat ->
     nth (nth j t O) gm 0 = - (nth j y 0 - h * tm j) / r /\
     nth (nth j t O) gs 0 = 1 / 2 / r /\
     nth (nth j t O) gr 0 = - (1 / 2) * ((nth j y 0 - tm j) ^ 2 + ts j + 1) / r).
Proof.
  assert (Ht' : List.Forall (fun i => (i < length s)%nat) t) by (rewrite Hms; exact Ht).
  unfold like_grad_1d. rewrite (take_ok (A:=RNum) m t 0 Ht), (take_ok (A:=RNum) s t 0 Ht'). cbn [bind].
  unfold same_len. rty. rewrite map_length, Hy, Nat.eqb_refl. cbn [bind].
  eexists. eexists. eexists. split; [reflexivity|].
  rewrite !scatter_length, repeat_length. do 3 (split; [reflexivity|]). split.
  - intros k Hk. rewrite !scatter_out by exact Hk. rnum. rewrite !nth_repeat. repeat split.
  - intros Hn j Hj.
    assert (Hjm : (nth j t O < length m)%nat) by (rewrite Forall_forall in Ht; apply Ht, nth_In, Hj).
    rewrite !scatter_in by (rewrite ?repeat_length, ?map_length, ?map3_length, ?map2_length, ?map_length, ?Hy, ?Nat.min_id; auto).
    rewrite (nth_map_lt _ _ j 0) by (rewrite map2_length, map_length; lia).
    rewrite (nth_map_lt _ t j O) by lia.
    rewrite (nth_map3 _ _ _ _ j 0 0 0) by (rewrite ?map2_length, ?map_length, ?Hy; lia).
    rewrite !(nth_map2 _ _ _ j 0 0) by (rewrite ?map_length; lia).
    rewrite !(nth_map_lt _ t j O) by lia. fold (tm j) (ts j). rnum. repeat split; field; lra.
Qed.
End OneD.

Lemma one_index_in t j0 : NoDup t -> (j0 < length t)%nat -> forall D : nat -> R,
  Rsum (length t) (fun j => if Nat.eqb (nth j t O) (nth j0 t O) then D j else 0) = D j0.
Proof.
  intros Hn Hj D. rewrite (Rsum_single _ _ j0 Hj); [rewrite Nat.eqb_refl; reflexivity|].
  intros i Hi Hne. destruct (Nat.eqb_spec (nth i t O) (nth j0 t O)) as [E'|]; [|reflexivity].
  exfalso. apply Hne. apply (proj1 (NoDup_nth t O) Hn); assumption.
Qed.
Lemma one_index_out t k : ~ In k t -> forall D : nat -> R,
  Rsum (length t) (fun j => if Nat.eqb (nth j t O) k then D j else 0) = 0.
Proof.
  intros Hk D. apply Rsum_z. intros i Hi. destruct (Nat.eqb_spec (nth i t O) k) as [<-|]; [|reflexivity].
  exfalso. apply Hk, nth_In, Hi.
Qed.
Lemma in_index t (k : nat) : In k t -> exists j, (j < length t)%nat /\ nth j t O = k.
Proof. intros H. apply (In_nth t k O H). Qed.

Lemma like_grad_1d_ok (y : list R) (t : list nat) (r : R) (m s : list R) : 0 < r -> length y = length t -> length s = length m ->
  List.Forall (fun i => (i < length m)%nat) t -> NoDup t -> (forall k, (k < length m)%nat -> 0 < nth k s 0) ->
  exists gm gs gr,
  like_grad_1d (K:=RNum) y t r 1 m s = Ok (gm, gs, gr) /\
  length gm = length m /\ length gs = length m /\ length gr = length m /\
  forall k, (k < length m)%nat ->
  (forall e : R -> R, (forall x, obs_energy_1d y t r (lset k x m) s (e x)) -> is_derive e (nth k m 0) (nth k gm 0)) /\
  (forall e : R -> R, (forall x, 0 < x -> obs_energy_1d y t r m (lset k x s) (e x)) -> is_derive e (nth k s 0) (nth k gs 0)) /\
  (~ In k t -> nth k gm 0 = 0 /\ nth k gs 0 = 0 /\ nth k gr 0 = 0).
Proof.
  intros Hr Hy Hms Ht Hn Hs.
  destruct (like_grad_1d_val y t r m s Hr Hy Hms Ht 1) as (gm & gs & gr & E & L1 & L2 & L3 & Hz & Hv).
  exists gm, gs, gr. split; [exact E|]. do 3 (split; [assumption|]). intros k Hk. specialize (Hv Hn).
  assert (Htj : forall j, (j < length t)%nat -> (nth j t O < length m)%nat).
  { intros j Hj. rewrite Forall_forall in Ht. apply Ht, nth_In, Hj. }
  split; [|split; [|apply Hz]].
  - intros e He.
    apply (is_derive_ext (fun x => Rsum (length t) (fun j => lterm r (nth j y 0) (nth (nth j t O) (lset k x m) 0) (nth (nth j t O) s 0)))).
    { intros x. symmetry. apply (obs_1d_unique y t r (lset k x m) s Hr).
      - intros j Hj. apply Hs, Htj, Hj.
      - apply He. }
    replace (nth k gm 0) with (Rsum (length t) (fun j => if Nat.eqb (nth j t O) k then - (nth j y 0 - nth k m 0) / r else 0)).
    + apply (is_derive_Rsum' (length t) (fun x j => lterm r (nth j y 0) (nth (nth j t O) (lset k x m) 0) (nth (nth j t O) s 0))).
      intros j Hj.
      apply (is_derive_ext (fun x => lterm r (nth j y 0) (if Nat.eqb (nth j t O) k then x else nth (nth j t O) m 0) (nth (nth j t O) s 0))).
      { intros x. rewrite nth_lset. apply Nat.ltb_lt in Hk. rewrite Hk, Bool.andb_true_r. reflexivity. }
      unfold lterm. destruct (Nat.eqb_spec (nth j t O) k) as [Ek|Ek].
      * auto_derive; [exact I|]. field. lra.
      * auto_derive; [exact I|]. reflexivity.
    + destruct (in_dec Nat.eq_dec k t) as [Hi|Hi].
      * destruct (in_index t k Hi) as (j0 & Hj0 & <-). rewrite one_index_in by assumption.
        rewrite (proj1 (Hv j0 Hj0)). rewrite Rmult_1_l. reflexivity.
      * rewrite one_index_out by exact Hi. symmetry. apply (Hz k Hi).
  - intros e He.
    apply (is_derive_ext_loc (fun x => Rsum (length t) (fun j => lterm r (nth j y 0) (nth (nth j t O) m 0) (nth (nth j t O) (lset k x s) 0)))).
    { assert (Hp : locally (nth k s 0) (fun x => 0 < x)) by (apply (open_gt 0), Hs, Hk).
      revert Hp. apply filter_imp. intros x Hx. symmetry. apply (obs_1d_unique y t r m (lset k x s) Hr).
      - intros j Hj. rewrite nth_lset, Hms. destruct (andb _ _); [exact Hx|apply Hs, Htj, Hj].
      - apply He, Hx. }
    replace (nth k gs 0) with (Rsum (length t) (fun j => if Nat.eqb (nth j t O) k then 1 / 2 / r else 0)).
    + apply (is_derive_Rsum' (length t) (fun x j => lterm r (nth j y 0) (nth (nth j t O) m 0) (nth (nth j t O) (lset k x s) 0))).
      intros j Hj.
      apply (is_derive_ext (fun x => lterm r (nth j y 0) (nth (nth j t O) m 0) (if Nat.eqb (nth j t O) k then x else nth (nth j t O) s 0))).
      { intros x. rewrite nth_lset, Hms. apply Nat.ltb_lt in Hk. rewrite Hk, Bool.andb_true_r. reflexivity. }
      unfold lterm. destruct (Nat.eqb_spec (nth j t O) k) as [Ek|Ek].
      * auto_derive; [exact I|]. field. lra.
      * auto_derive; [exact I|]. reflexivity.
    + destruct (in_dec Nat.eq_dec k t) as [Hi|Hi].
      * destruct (in_index t k Hi) as (j0 & Hj0 & <-). rewrite one_index_in by assumption.
        rewrite (proj1 (proj2 (Hv j0 Hj0))). reflexivity.
      * rewrite one_index_out by exact Hi. symmetry. apply (Hz k Hi).
Qed.

(** ** n dimensions *)
Lemma vdot_R d (u v : nat -> R) : vdot (K:=RNum) d u v = Rsum d (fun i => u i * v i).
Proof. symmetry. apply Rsum_rsum. Qed.
Lemma mvec_R d (A : nat -> nat -> R) (v : nat -> R) i : mvec (K:=RNum) d A v i = Rsum d (fun k => A i k * v k).
Proof. symmetry. apply (Rsum_rsum d (fun k => A i k * v k)). Qed.
Lemma vecm_R d (v : nat -> R) (A : nat -> nat -> R) j : vecm (K:=RNum) d v A j = Rsum d (fun k => v k * A k j).
Proof. symmetry. apply (Rsum_rsum d (fun k => v k * A k j)). Qed.
Lemma mmul_R d (A B : nat -> nat -> R) i j : mmul (K:=RNum) d A B i j = Rsum d (fun k => A i k * B k j).
Proof. symmetry. apply (Rsum_rsum d (fun k => A i k * B k j)). Qed.
Lemma vecm_eye d (v : nat -> R) j : (j < d)%nat -> vecm (K:=RNum) d v (meye (K:=RNum)) j = v j.
Proof.
  intros Hj. rewrite vecm_R, (Rsum_single d _ j Hj).
  - unfold meye. rewrite Nat.eqb_refl. rnum. ring.
  - intros k Hk Hne. unfold meye. destruct (Nat.eqb_spec k j); [contradiction|]. rnum. ring.
Qed.

Definition quad (d : nat) (P : nat -> nat -> R) (w : nat -> R) : R :=
  Rsum d (fun i => Rsum d (fun j => w i * P i j * w j)).
Lemma quad_ext d P P' w w' : (forall i j, (i < d)%nat -> (j < d)%nat -> P i j = P' i j) ->
  (forall i, (i < d)%nat -> w i = w' i) -> quad d P w = quad d P' w'.
Proof.
  intros HP Hw. apply Rsum_ext. intros i Hi. apply Rsum_ext. intros j Hj.
  rewrite HP, !Hw by assumption. reflexivity.
Qed.
Lemma quad_gram d (c : nat -> nat -> R) (w : nat -> R) :
  vdot (K:=RNum) d (vecm (K:=RNum) d w (mtr c)) (vecm (K:=RNum) d w (mtr c)) = quad d (mmul (K:=RNum) d (mtr c) c) w.
Proof.
  rewrite vdot_R. unfold quad.
  transitivity (Rsum d (fun k => Rsum d (fun i => Rsum d (fun j => w i * c k i * (c k j * w j))))).
  - apply Rsum_ext. intros k Hk. rewrite vecm_R. unfold mtr.
    rewrite <- Rsum_scal_r. apply Rsum_ext. intros i Hi. rewrite <- Rsum_scal. apply Rsum_ext. intros j Hj. ring.
  - rewrite Rsum_swap. apply Rsum_ext. intros i Hi. rewrite Rsum_swap. apply Rsum_ext. intros j Hj.
    rewrite mmul_R. rewrite <- Rsum_scal, <- Rsum_scal_r. apply Rsum_ext. intros k Hk. unfold mtr. ring.
Qed.

Definition frob (d : nat) (P S : nat -> nat -> R) : R := Rsum d (fun i => Rsum d (fun j => P i j * S i j)).
Definition nterm (d : nat) (Rn Ri : nat -> nat -> R) (y m : nat -> R) (S : nat -> nat -> R) : R :=
  1 / 2 * (quad d Ri (fun i => y i - m i) + frob d Ri S + (INR d * ln (2 * PI) + ln (detR d Rn))).
Lemma nterm_E d Rn Ri y m S : symm d Rn -> posdef d Rn ->
  E_mvn d m S (fun x => - ln (mvn_density d x Rn Ri y)) (nterm d Rn Ri y m S).
Proof.
  intros Hr Hrp. pose proof (posdef_det d Rn Hr Hrp) as Hdet.
  set (q := fun x => Rsum d (fun i => Rsum d (fun j => (x i - y i) * Ri i j * (x j - y j)))).
  set (c := INR d * ln (2 * PI) + ln (detR d Rn)).
  apply (E_mvn_ext d m S (fun x => 1 / 2 * q x + 1 / 2 * c)).
  { intros x. rewrite ln_mvn_density by exact Hdet. unfold q, c.
    rewrite (Rsum_ext d (fun i => Rsum d (fun j => (y i - x i) * Ri i j * (y j - x j)))
              (fun i => Rsum d (fun j => (x i - y i) * Ri i j * (x j - y j))))
      by (intros; apply Rsum_ext; intros; ring). ring. }
  replace (nterm d Rn Ri y m S) with
    (1 / 2 * (frob d Ri S + Rsum d (fun i => Rsum d (fun j => (m i - y i) * Ri i j * (m j - y j)))) + 1 / 2 * c).
  - apply E_mvn_plus; [apply E_mvn_scal, E_mvn_quad|apply E_mvn_const].
  - unfold nterm, quad. fold c.
    rewrite (Rsum_ext d (fun i => Rsum d (fun j => (y i - m i) * Ri i j * (y j - m j)))
              (fun i => Rsum d (fun j => (m i - y i) * Ri i j * (m j - y j))))
      by (intros; apply Rsum_ext; intros; ring). ring.
Qed.

Lemma like_nd_loop_val d (dg : nat -> R) (s : list (nat -> nat -> R)) (Z : list (nat -> R)) : forall n (acc : R),
  (n + length Z <= length s)%nat ->
  like_nd_loop (K:=RNum) d dg s n Z acc =
  Ok (acc + Rsum (length Z) (fun j => vdot (K:=RNum) d (nth j Z zvec) (nth j Z zvec) +
                                      Rsum d (fun i => dg i * nth (n + j) s zmat i i))).
Proof.
  induction Z as [|z Z IH]; intros n acc H; cbn [like_nd_loop length] in *.
  - rnum. f_equal. cbn. ring.
  - rty. rewrite (nth_error_nth' s zmat) by lia. rewrite (IH (Datatypes.S n)) by lia. f_equal. rewrite Rsum_shift. cbn [nth].
    rewrite (Rsum_ext (length Z) _ (fun j => vdot (K:=RNum) d (nth j Z zvec) (nth j Z zvec) +
                                      Rsum d (fun i => dg i * nth (n + Datatypes.S j) s zmat i i))).
    + rewrite Nat.add_0_r. rewrite (vdot_R d dg). unfold diagv. rnum. ring.
    + intros j Hj. rewrite Nat.add_succ_r. reflexivity.
Qed.

Lemma nodup_range t n : NoDup t -> List.Forall (fun i => (i < n)%nat) t -> (length t <= n)%nat.
Proof.
  intros Hn Ht. rewrite <- (seq_length n 0). apply NoDup_incl_length; [exact Hn|].
  intros i Hi. apply in_seq. rewrite Forall_forall in Ht. specialize (Ht i Hi). lia.
Qed.
Lemma inv_same d Rn Ri Rj : is_inv d Rn Ri -> is_inv d Rn Rj -> rmeq d Ri Rj.
Proof. intros [H1 H2] [H3 H4]. apply (inv_unique d Rn); assumption. Qed.
Lemma nterm_ext d Rn Ri Rj y m S : rmeq d Ri Rj -> nterm d Rn Ri y m S = nterm d Rn Rj y m S.
Proof.
  intros H. unfold nterm. f_equal. f_equal. f_equal.
  - apply quad_ext; [exact H|reflexivity].
  - apply Rsum_ext. intros i Hi. apply Rsum_ext. intros j Hj. rewrite H by assumption. reflexivity.
Qed.

Section ND.
Variables (d : nat) (y : list (nat -> R)) (t : list nat) (Rn : nat -> nat -> R)
          (m : list (nat -> R)) (s : list (nat -> nat -> R)).
Hypothesis Hrs : symm d Rn.
Hypothesis Hrp : posdef d Rn.
Hypothesis Hy : length y = length t.
Hypothesis Hms : length s = length m.
Hypothesis Ht : List.Forall (fun i => (i < length m)%nat) t.
Hypothesis Hn : NoDup t.

Let tm j := nth (nth j t O) m zvec.
Let ts j := nth (nth j t O) s zmat.
Let ty j := nth j y zvec.

(** E summed over the observations *)
Lemma obs_nd_E Ri : is_inv d Rn Ri ->
  obs_energy_nd d y t Rn m s (Rsum (length t) (fun j => nterm d Rn Ri (ty j) (tm j) (ts j))).
Proof.
  intros HRi Rj HRj. exists (fun j => nterm d Rn Rj (ty j) (tm j) (ts j)). split.
  - intros j Hj. apply nterm_E; assumption.
  - apply Rsum_ext. intros j Hj. apply nterm_ext, (inv_same d Rn); assumption.
Qed.
Lemma obs_nd_unique Ri e : is_inv d Rn Ri ->
  (forall j, (j < length t)%nat -> symm d (ts j) /\ posdef d (ts j)) ->
  obs_energy_nd d y t Rn m s e ->
  e = Rsum (length t) (fun j => nterm d Rn Ri (ty j) (tm j) (ts j)).
Proof.
  intros HRi Hs He. destruct (He Ri HRi) as (c & Hc & ->). apply Rsum_ext. intros j Hj.
  destruct (Hs j Hj) as [H1 H2].
  apply (E_mvn_unique _ _ _ _ _ _ H1 H2 (Hc j Hj)). apply nterm_E; assumption.
Qed.

Lemma like_nd_val : exists Ri, is_inv d Rn Ri /\
  like_nd (K:=RNum) ln PI d y t Rn (meye (K:=RNum)) m s =
  Ok (Rsum (length t) (fun j => nterm d Rn Ri (ty j) (tm j) (ts j)
        + 1 / 2 * (Rsum d (fun i => Ri i i * nth j s zmat i i) - frob d Ri (ts j)))).
Proof.
  destruct (chol_inv_matrix d Rn Hrs) as [H _].
  destruct (H Hrp) as (Ri & c & L & E & H1 & H2 & Hsy & Hcc & _). clear H.
  cbn [chol_inv] in E. rewrite Nat.eqb_refl in E.
  destruct (chol_inv_fast d Rn) as [[Ri' c']|e] eqn:Ef; [|discriminate]. cbn [bind] in E.
  assert (Ri' = Ri) by congruence. assert (c' = c) by congruence. subst Ri' c'.
  exists Ri. split; [split; assumption|].
  unfold like_nd, vec, mat. rty. rewrite (take_ok m t zvec Ht). cbn [bind].
  unfold same_len. rewrite map_length, Hy, Nat.eqb_refl. cbn [bind]. rewrite Ef. cbn [bind].
  rewrite like_nd_loop_val
    by (rewrite map_length, map2_length, map_length, Hy, Nat.min_id, Hms; apply nodup_range; assumption).
  cbn [bind].
  assert (Hld : log_det_mat (K:=RNum) ln d Rn = Ok (ln (detR d Rn))).
  { destruct (log_det_matrix d Rn Hrs) as [H _]. specialize (H Hrp). unfold log_det in H. rewrite Nat.eqb_refl in H. exact H. }
  rewrite Hld. cbn [bind]. f_equal.
  rewrite map_length, map2_length, map_length, Hy, Nat.min_id.
  unfold log2pi. rnum. rewrite <- !INR_IZR_INZ.
  transitivity (Rsum (length t) (fun j => 1 / 2 * (quad d Ri (fun i => ty j i - tm j i) + Rsum d (fun i => Ri i i * nth j s zmat i i)
      + (INR d * ln (2 * PI) + ln (detR d Rn))))).
  - rewrite Rsum_scal.
    rewrite (Rsum_plus (length t) (fun j => quad d Ri (fun i => ty j i - tm j i) + Rsum d (fun i => Ri i i * nth j s zmat i i)) (fun _ => INR d * ln (2 * PI) + ln (detR d Rn))).
    rewrite (Rsum_const (length t)). rewrite Rplus_0_l. f_equal. f_equal.
    apply Rsum_ext. intros j Hj. f_equal.
    rewrite (nth_map_lt _ _ j zvec) by (rewrite map2_length, map_length; lia).
    rewrite (nth_map2 _ _ _ j zvec zvec) by (rewrite ?map_length; lia).
    rewrite (nth_map_lt _ t j O) by lia. fold (ty j) (tm j).
    rewrite quad_gram. apply quad_ext.
    + intros a b Ha Hb. rewrite <- (Hcc a b Ha Hb). apply mmul_R.
    + intros a Ha. rewrite vecm_eye by exact Ha. reflexivity.
  - apply Rsum_ext. intros j Hj. unfold nterm. field.
Qed.

Lemma like_grad_nd_val : exists Ri gm gs, is_inv d Rn Ri /\ symm d Ri /\
  like_grad_nd (K:=RNum) d y t Rn (meye (K:=RNum)) m = Ok (gm, gs, (length m, length y, length y)) /\
  length gm = length m /\ length gs = length m /\
  (forall k, ~ In k t -> nth k gm zvec = zvec /\ nth k gs zmat = zmat) /\
  (forall j, (j < length t)%nat ->
     (forall i, (i < d)%nat -> nth (nth j t O) gm zvec i = - rmv d Ri (fun k => ty j k - tm j k) i) /\
     (forall i k, (i < d)%nat -> (k < d)%nat -> nth (nth j t O) gs zmat i k = 1 / 2 * Ri i k)).
Proof.
  destruct (chol_inv_fast_ok d Rn Hrs Hrp) as (Ri & c & Ef & HRi & HRis & _).
  assert (HG : forall i k, (i < d)%nat -> mmul (K:=RNum) d (mtr (meye (K:=RNum))) Ri i k = Ri i k).
  { intros i k Hi. rewrite mmul_R, (Rsum_single d _ i Hi).
    - unfold mtr, meye. rewrite Nat.eqb_refl. rnum. ring.
    - intros l Hl Hne. unfold mtr, meye. destruct (Nat.eqb_spec l i); [contradiction|]. rnum. ring. }
  exists Ri. unfold like_grad_nd, vec, mat. rty. rewrite (take_ok m t zvec Ht). cbn [bind].
  unfold same_len. rewrite map_length, Hy, Nat.eqb_refl. cbn [bind]. rewrite Ef. cbn [bind].
  eexists. eexists. split; [exact HRi|]. split; [exact HRis|]. split; [reflexivity|].
  rewrite !scatter_length, !repeat_length. do 2 (split; [reflexivity|]). split.
  - intros k Hk. rewrite !scatter_out by exact Hk. split; apply nth_repeat.
  - intros j Hj.
    assert (Hjm : (nth j t O < length m)%nat) by (rewrite Forall_forall in Ht; apply Ht, nth_In, Hj).
    rewrite !scatter_in by (rewrite ?repeat_length, ?map_length, ?map2_length, ?map_length, ?Hy, ?Nat.min_id; auto).
    split.
    + intros i Hi. rewrite (nth_map_lt _ _ j zvec) by (rewrite map2_length, map_length; lia).
      rewrite (nth_map2 _ _ _ j zvec zvec) by (rewrite ?map_length; lia).
      rewrite (nth_map_lt _ t j O) by lia. fold (ty j) (tm j). unfold voppv. rewrite mvec_R.
      unfold rmv. rnum. f_equal. apply Rsum_ext. intros k Hk. rewrite HG, vecm_eye by assumption. reflexivity.
    + intros i k Hi Hk. rewrite (nth_map_lt _ t j O) by lia. unfold mscale. rewrite mmul_R. rnum. f_equal.
      rewrite (Rsum_single d _ k Hk).
      * rewrite HG by exact Hi. unfold meye. rewrite Nat.eqb_refl. rnum. ring.
      * intros l Hl Hne. unfold meye. destruct (Nat.eqb_spec l k); [contradiction|]. rnum. ring.
Qed.

Hypothesis Hs : forall k, (k < length m)%nat -> symm d (nth k s zmat) /\ posdef d (nth k s zmat).
Lemma tj_range j : (j < length t)%nat -> (nth j t O < length m)%nat.
Proof. intros Hj. rewrite Forall_forall in Ht. apply Ht, nth_In, Hj. Qed.
End ND.

Lemma frob_derive d P (Sg : R -> nat -> nat -> R) (Sg' : nat -> nat -> R) (t0 : R) :
  (forall i j, (i < d)%nat -> (j < d)%nat -> is_derive (fun t => Sg t i j) t0 (Sg' i j)) ->
  is_derive (fun t => frob d P (Sg t)) t0 (frob d P Sg').
Proof.
  intros Hd. apply (is_derive_Rsum' d (fun t i => Rsum d (fun j => P i j * Sg t i j))). intros i Hi.
  apply (is_derive_Rsum' d (fun t j => P i j * Sg t i j)). intros j Hj.
  apply is_derive_scal, Hd; assumption.
Qed.

Lemma like_grad_nd_ok d (y : list (nat -> R)) t (Rn : nat -> nat -> R) (m : list (nat -> R)) (s : list (nat -> nat -> R)) :
  symm d Rn -> posdef d Rn -> length y = length t -> length s = length m ->
  List.Forall (fun i => (i < length m)%nat) t -> NoDup t ->
  (forall k, (k < length m)%nat -> symm d (nth k s zmat) /\ posdef d (nth k s zmat)) ->
  exists gm gs sh,
  like_grad_nd (K:=RNum) d y t Rn (meye (K:=RNum)) m = Ok (gm, gs, sh) /\
  length gm = length m /\ length gs = length m /\
  forall k, (k < length m)%nat ->
  (forall i (e : R -> R), (i < d)%nat ->
     (forall x, obs_energy_nd d y t Rn (lset k (vset i x (nth k m zvec)) m) s (e x)) ->
     is_derive e (nth k m zvec i) (nth k gm zvec i)) /\
  (forall (Sg : R -> nat -> nat -> R) (Sg' : nat -> nat -> R) (x0 : R) (e : R -> R),
     Sg x0 = nth k s zmat ->
     (forall i j, (i < d)%nat -> (j < d)%nat -> is_derive (fun x => Sg x i j) x0 (Sg' i j)) ->
     locally x0 (fun x => symm d (Sg x) /\ posdef d (Sg x) /\ obs_energy_nd d y t Rn m (lset k (Sg x) s) (e x)) ->
     is_derive e x0 (Rsum d (fun i => Rsum d (fun j => nth k gs zmat i j * Sg' i j)))) /\
  (~ In k t -> nth k gm zvec = zvec /\ nth k gs zmat = zmat).
Proof.
  intros Hrs Hrp Hy Hms Ht Hn Hs.
  destruct (like_grad_nd_val d y t Rn m s Hrs Hrp Hy Hms Ht Hn) as (Ri & gm & gs & HRi & HRis & E & L1 & L2 & Hz & Hv).
  exists gm, gs, (length m, length y, length y). split; [exact E|]. do 2 (split; [assumption|]). intros k Hk.
  assert (Htj : forall j, (j < length t)%nat -> (nth j t O < length m)%nat).
  { intros j Hj. rewrite Forall_forall in Ht. apply Ht, nth_In, Hj. }
  pose proof Hk as Hkb. apply Nat.ltb_lt in Hkb.
  split; [|split; [|apply Hz]].
  - intros i e Hi He.
    apply (is_derive_ext (fun x => Rsum (length t) (fun j => nterm d Rn Ri (nth j y zvec)
             (nth (nth j t O) (lset k (vset i x (nth k m zvec)) m) zvec) (nth (nth j t O) s zmat)))).
    { intros x. symmetry. apply (obs_nd_unique d y t Rn _ s Hrs Hrp Ri); [exact HRi| |apply He].
      intros j Hj. apply Hs, Htj, Hj. }
    replace (nth k gm zvec i) with
      (Rsum (length t) (fun j => if Nat.eqb (nth j t O) k then - rmv d Ri (fun a => nth j y zvec a - nth k m zvec a) i else 0)).
    + apply (is_derive_Rsum' (length t) (fun x j => nterm d Rn Ri (nth j y zvec)
             (nth (nth j t O) (lset k (vset i x (nth k m zvec)) m) zvec) (nth (nth j t O) s zmat))).
      intros j Hj. set (S := nth (nth j t O) s zmat). set (yj := nth j y zvec). set (mk := nth k m zvec).
      destruct (Nat.eqb_spec (nth j t O) k) as [Ek|Ek].
      * set (c := frob d Ri S + (INR d * ln (2 * PI) + ln (detR d Rn))).
        apply (is_derive_ext (fun x => 1 / 2 * (Rsum d (fun a => Rsum d (fun b => (vset i x mk a - yj a) * Ri a b * (vset i x mk b - yj b))) + c))).
        { intros x. rewrite nth_lset, Hkb, Bool.andb_true_r. apply Nat.eqb_eq in Ek. rewrite Ek.
          unfold nterm, c, quad.
          rewrite (Rsum_ext d (fun a => Rsum d (fun b => (yj a - vset i x mk a) * Ri a b * (yj b - vset i x mk b)))
              (fun a => Rsum d (fun b => (vset i x mk a - yj a) * Ri a b * (vset i x mk b - yj b))))
          by (intros; apply Rsum_ext; intros; ring). req. ring. }
        replace (- rmv d Ri (fun a => yj a - mk a) i) with (1 / 2 * (2 * rmv d Ri (fun a => mk a - yj a) i + 0)).
        -- apply (is_derive_scal (fun x => Rsum d (fun a => Rsum d (fun b => (vset i x mk a - yj a) * Ri a b * (vset i x mk b - yj b))) + c)).
           apply @is_derive_plus; [apply quad_sym_derive; assumption|apply @is_derive_const].
        -- unfold rmv. rewrite Rplus_0_r. rewrite <- Rsum_opp. rewrite <- Rmult_assoc.
           replace (1 / 2 * 2) with 1 by field. rewrite Rmult_1_l. apply Rsum_ext; intros; ring.
      * apply (is_derive_ext (fun x => nterm d Rn Ri yj (nth (nth j t O) m zvec) S)).
        { intros x. rewrite nth_lset. apply Nat.eqb_neq in Ek. rewrite Ek. reflexivity. }
        apply @is_derive_const.
    + destruct (in_dec Nat.eq_dec k t) as [Hin|Hin].
      * destruct (in_index t k Hin) as (j0 & Hj0 & <-).
        rewrite (one_index_in t j0 Hn Hj0 (fun j => - rmv d Ri (fun a => nth j y zvec a - nth (nth j0 t O) m zvec a) i)).
        rewrite (proj1 (Hv j0 Hj0) i Hi). reflexivity.
      * rewrite one_index_out by exact Hin. rewrite (proj1 (Hz k Hin)). reflexivity.
  - intros Sg Sg' x0 e H0 Hd Hloc.
    apply (is_derive_ext_loc (fun x => Rsum (length t) (fun j => nterm d Rn Ri (nth j y zvec)
             (nth (nth j t O) m zvec) (nth (nth j t O) (lset k (Sg x) s) zmat)))).
    { revert Hloc. apply filter_imp. intros x (H1 & H2 & H3). symmetry.
      apply (obs_nd_unique d y t Rn m _ Hrs Hrp Ri); [exact HRi| |exact H3].
      intros j Hj. rewrite nth_lset. destruct (andb _ _); [split; assumption|apply Hs, Htj, Hj]. }
    replace (Rsum d (fun i => Rsum d (fun j => nth k gs zmat i j * Sg' i j))) with
      (Rsum (length t) (fun j => if Nat.eqb (nth j t O) k then 1 / 2 * frob d Ri Sg' else 0)).
    + apply (is_derive_Rsum' (length t) (fun x j => nterm d Rn Ri (nth j y zvec)
             (nth (nth j t O) m zvec) (nth (nth j t O) (lset k (Sg x) s) zmat))).
      intros j Hj. set (yj := nth j y zvec). set (mj := nth (nth j t O) m zvec).
      rewrite <- Hms in Hkb.
      destruct (Nat.eqb_spec (nth j t O) k) as [Ek|Ek].
      * apply (is_derive_ext (fun x => 1 / 2 * (quad d Ri (fun i => yj i - mj i) + frob d Ri (Sg x) + (INR d * ln (2 * PI) + ln (detR d Rn))))).
        { intros x. rewrite nth_lset, Hkb, Bool.andb_true_r. apply Nat.eqb_eq in Ek. rewrite Ek. reflexivity. }
        replace (1 / 2 * frob d Ri Sg') with (1 / 2 * (0 + frob d Ri Sg' + 0)) by ring.
        apply (is_derive_scal (fun x => quad d Ri (fun i => yj i - mj i) + frob d Ri (Sg x) + (INR d * ln (2 * PI) + ln (detR d Rn)))).
        apply @is_derive_plus; [|apply @is_derive_const].
        apply @is_derive_plus; [apply @is_derive_const|]. apply frob_derive, Hd.
      * apply (is_derive_ext (fun x => nterm d Rn Ri yj mj (nth (nth j t O) s zmat))).
        { intros x. rewrite nth_lset. apply Nat.eqb_neq in Ek. rewrite Ek. reflexivity. }
        apply @is_derive_const.
    + destruct (in_dec Nat.eq_dec k t) as [Hin|Hin].
      * destruct (in_index t k Hin) as (j0 & Hj0 & <-).
        rewrite (one_index_in t j0 Hn Hj0 (fun j => 1 / 2 * frob d Ri Sg')).
        unfold frob. rewrite <- Rsum_scal. apply Rsum_ext. intros i Hi. rewrite <- Rsum_scal. apply Rsum_ext. intros j Hj.
        rewrite (proj2 (Hv j0 Hj0) i j Hi Hj). req. ring.
      * rewrite one_index_out by exact Hin. rewrite (proj2 (Hz k Hin)). symmetry.
        apply Rsum_z. intros i Hi. apply Rsum_z. intros j Hj. unfold zmat. ring.
Qed.

(** value, exact *)
Lemma like_nd_partial d (y : list (nat -> R)) t (Rn : nat -> nat -> R) (m : list (nat -> R)) (s : list (nat -> nat -> R)) :
  symm d Rn -> posdef d Rn -> length y = length t -> length s = length m ->
  List.Forall (fun i => (i < length m)%nat) t -> NoDup t ->
  exists e Ri, obs_energy_nd d y t Rn m s e /\ is_inv d Rn Ri /\
  like_nd (K:=RNum) ln PI d y t Rn (meye (K:=RNum)) m s =
  Ok (e + 1 / 2 * Rsum (length t) (fun j =>
        Rsum d (fun i => Ri i i * nth j s zmat i i)
        - Rsum d (fun i => Rsum d (fun k => Ri i k * nth (nth j t O) s zmat i k)))).
Proof.
  intros Hrs Hrp Hy Hms Ht Hn.
  destruct (like_nd_val d y t Rn m s Hrs Hrp Hy Hms Ht Hn) as (Ri & HRi & E).
  eexists. exists Ri. split; [apply (obs_nd_E d y t Rn m s Hrs Hrp Ri HRi)|]. split; [exact HRi|].
  rewrite E. f_equal. rewrite Rsum_plus, Rsum_scal. reflexivity.
Qed.
(** right when the noise is diagonal and the marginal variances at the observation times are
    those of the first grid points *)
Lemma diag_inv d Rn Ri i j : (forall a b, (a < d)%nat -> (b < d)%nat -> a <> b -> Rn a b = 0) ->
  (forall a, (a < d)%nat -> Rn a a <> 0) -> is_inv d Rn Ri ->
  (i < d)%nat -> (j < d)%nat -> i <> j -> Ri i j = 0.
Proof.
  intros Ho Hd [H _] Hi Hj Hne. specialize (H i j Hi Hj).
  rewrite (Rsum_single d _ i Hi) in H by (intros k Hk Hkn; rewrite Ho by auto; ring).
  unfold ident in H. destruct (Nat.eqb_spec i j); [contradiction|].
  specialize (Hd i Hi). apply (Rmult_eq_reg_l (Rn i i)); [rewrite H; ring|exact Hd].
Qed.
Lemma posdef_diag_pos d A a : posdef d A -> (a < d)%nat -> 0 < A a a.
Proof.
  intros H Ha. specialize (proj1 (posdef_rdot d A) H (fun i => if Nat.eqb i a then 1 else 0)) as G.
  assert (0 < rdot d (fun i => if Nat.eqb i a then 1 else 0) (rmv d A (fun i => if Nat.eqb i a then 1 else 0))) as G'.
  { apply G. exists a. split; [exact Ha|]. rewrite Nat.eqb_refl. lra. }
  rewrite rdot_rmv in G'. rewrite (Rsum_single d _ a Ha) in G'.
  - rewrite (Rsum_single d _ a Ha) in G'.
    + rewrite Nat.eqb_refl in G'. lra.
    + intros k Hk Hne. destruct (Nat.eqb_spec k a); [contradiction|ring].
  - intros k Hk Hne. apply Rsum_z. intros l Hl. destruct (Nat.eqb_spec k a); [contradiction|ring].
Qed.
Lemma like_nd_right d (y : list (nat -> R)) t (Rn : nat -> nat -> R) (m : list (nat -> R)) (s : list (nat -> nat -> R)) :
  symm d Rn -> posdef d Rn -> length y = length t -> length s = length m ->
  List.Forall (fun i => (i < length m)%nat) t -> NoDup t ->
  (forall a b, (a < d)%nat -> (b < d)%nat -> a <> b -> Rn a b = 0) ->
  (forall j a, (j < length t)%nat -> (a < d)%nat -> nth j s zmat a a = nth (nth j t O) s zmat a a) ->
  exists e, obs_energy_nd d y t Rn m s e /\
  like_nd (K:=RNum) ln PI d y t Rn (meye (K:=RNum)) m s = Ok e.
Proof.
  intros Hrs Hrp Hy Hms Ht Hn Hd He.
  destruct (like_nd_partial d y t Rn m s Hrs Hrp Hy Hms Ht Hn) as (e & Ri & H1 & HRi & E).
  exists e. split; [exact H1|]. rewrite E. f_equal.
  rewrite (Rsum_z (length t)); [ring|]. intros j Hj. rewrite <- Rsum_minus. apply Rsum_z. intros i Hi.
  rewrite (Rsum_single d (fun k => Ri i k * nth (nth j t O) s zmat i k) i Hi).
  - rewrite He by assumption. ring.
  - intros k Hk Hne. rewrite (diag_inv d Rn Ri i k) by (auto; intros a Ha; pose proof (posdef_diag_pos d Rn a Hrp Ha); lra). ring.
Qed.
(** wrong otherwise *)
Lemma like_nd_index_witness : exists y t Rn m s e v,
  symm 2 Rn /\ posdef 2 Rn /\ (forall a b, a <> b -> Rn a b = 0) /\ length y = length t /\ length s = length m /\
  List.Forall (fun i => (i < length m)%nat) t /\ NoDup t /\
  (forall k, (k < length m)%nat -> symm 2 (nth k s zmat) /\ posdef 2 (nth k s zmat)) /\
  obs_energy_nd 2 y t Rn m s e /\
  like_nd (K:=RNum) ln PI 2 y t Rn (meye (K:=RNum)) m s = Ok v /\ v <> e.
Proof.
  set (S2 := mat2 2 0 0 2).
  destruct (like_nd_partial 2 [zvec] [1%nat] ident [zvec; zvec] [ident; S2] (ident_symm 2) (ident_posdef 2)
    eq_refl eq_refl ltac:(repeat constructor) ltac:(repeat constructor; auto)) as (e & Ri & He & HRi & E).
  exists [zvec], [1%nat], ident, [zvec; zvec], [ident; S2], e. eexists.
  split; [apply ident_symm|]. split; [apply ident_posdef|].
  split; [intros a b H; unfold ident; destruct (Nat.eqb_spec a b); [contradiction|reflexivity]|].
  do 2 (split; [reflexivity|]). split; [repeat constructor|]. split; [repeat constructor; auto|]. split.
  { intros [|[|k]] Hk; cbn in Hk; [|  |lia]; cbn [nth]; (split; [first [apply ident_symm|apply mat2_symm]|first [apply ident_posdef|apply mat2_posdef; lra]]). }
  split; [exact He|]. split; [exact E|].
  pose proof (inv_same 2 ident Ri ident HRi (ident_inv 2)) as HR.
  cbn -[ident]. rewrite !HR by lia. unfold S2, mat2, ident. cbn. lra.
Qed.
Lemma like_nd_full_witness : exists y t Rn m s e v,
  symm 2 Rn /\ posdef 2 Rn /\ length y = length t /\ length s = length m /\ length m = length t /\
  List.Forall (fun i => (i < length m)%nat) t /\ NoDup t /\
  (forall k, (k < length m)%nat -> symm 2 (nth k s zmat) /\ posdef 2 (nth k s zmat)) /\
  obs_energy_nd 2 y t Rn m s e /\
  like_nd (K:=RNum) ln PI 2 y t Rn (meye (K:=RNum)) m s = Ok v /\ v <> e.
Proof.
  set (S2 := mat2 2 1 1 2).
  assert (H1 : symm 2 S2) by apply mat2_symm.
  assert (H2 : posdef 2 S2) by (apply mat2_posdef; lra).
  destruct (like_nd_partial 2 [zvec] [0%nat] S2 [zvec] [S2] H1 H2
    eq_refl eq_refl ltac:(repeat constructor) ltac:(repeat constructor; auto)) as (e & Ri & He & HRi & E).
  exists [zvec], [0%nat], S2, [zvec], [S2], e. eexists.
  do 5 (split; [assumption || reflexivity|]). split; [repeat constructor|]. split; [repeat constructor; auto|]. split.
  { intros [|k] Hk; cbn in Hk; [|lia]; cbn [nth]; split; assumption. }
  split; [exact He|]. split; [exact E|].
  assert (Hi : is_inv 2 S2 (mat2 (2/3) (-1/3) (-1/3) (2/3))).
  { unfold S2. split; intros [|[|i]] [|[|j]] Hi Hj; try lia; cbn; unfold ident; cbn; lra. }
  pose proof (inv_same 2 S2 Ri _ HRi Hi) as HR.
  cbn -[S2]. rewrite !HR by lia. unfold S2, mat2. cbn. lra.
Qed.

(** ** one dimension: what does not hold *)
Lemma like_1d_dr_witness : exists y t r m s gm gs gr D (e : R -> R),
  0 < r /\ (forall x, 0 < x -> obs_energy_1d y t x m s (e x)) /\ is_derive e r D /\ t = [0%nat] /\
  like_grad_1d (K:=RNum) y t r 1 m s = Ok (gm, gs, gr) /\ nth 0 gr 0 <> D.
Proof.
  assert (Ht : List.Forall (fun i => (i < length [0])%nat) [0%nat]) by (repeat constructor).
  destruct (like_grad_1d_val [0] [0%nat] 1 [0] [1] Rlt_0_1 eq_refl eq_refl Ht 1) as (gm & gs & gr & E & _ & _ & _ & _ & Hv).
  exists [0], [0%nat], 1, [0], [1], gm, gs, gr, 0.
  exists (fun r => Rsum 1 (fun j => lterm r (nth j [0] 0) (nth (nth j [0%nat] O) [0] 0) (nth (nth j [0%nat] O) [1] 0))).
  split; [lra|]. split.
  { intros x Hx. apply (obs_1d_E [0] [0%nat] x [0] [1] Hx). intros [|j] Hj; cbn in *; [lra|lia]. }
  split.
  { cbn. unfold lterm. auto_derive; [lra|]. cbn. field. }
  split; [reflexivity|]. split; [exact E|].
  destruct (Hv ltac:(repeat constructor; auto) 0%nat ltac:(cbn; lia)) as (_ & _ & H).
  cbn [nth] in H. intros H0. assert (nth 0 gr 0 = - (1 / 2) * ((0 - 0) ^ 2 + 1 + 1) / 1) by exact H. lra.
Qed.
Lemma like_1d_op_witness : exists y t r h m s v e,
  0 < r /\ like_op_1d (K:=RNum) y (Some h) = Ok h /\ obs_energy_1d_op h y t r m s e /\
  like_1d (K:=RNum) ln PI y t r m s = Ok v /\ v <> e.
Proof.
  assert (Ht : List.Forall (fun i => (i < length [0])%nat) [0%nat]) by (repeat constructor).
  exists [0], [0%nat], 1, 0, [0], [1]. eexists. exists (Rsum 1 (fun _ => 1 / 2 * (ln (2 * PI) + ln 1))).
  split; [lra|]. split; [reflexivity|]. split.
  { eexists. split; [|reflexivity]. intros [|j] Hj; [|cbn in Hj; lia]. cbn [nth].
    apply (E_poly_eq 0 1 [1 / 2 * (ln (2 * PI) + ln 1)]); [lra|cbn; lia| |].
    - intros x. rewrite ln_normal_density by lra. cbn. field.
    - cbn [pmom]. unfold M_Moments.mom_elt. rnum. ring. }
  split; [apply like_1d_val; [lra|reflexivity|reflexivity|exact Ht]|].
  cbn. unfold lterm. lra.
Qed.
Lemma like_1d_dup_witness : exists y t r m s gm gs gr D (e : R -> R),
  0 < r /\ t = [0%nat; 0%nat] /\ (forall x, obs_energy_1d y t r (lset 0 x m) s (e x)) /\ is_derive e (nth 0 m 0) D /\
  like_grad_1d (K:=RNum) y t r 1 m s = Ok (gm, gs, gr) /\ nth 0 gm 0 <> D.
Proof.
  set (y := [2; 0]). set (t := [0%nat; 0%nat]).
  exists y, t, 1, [0], [1]. eexists. eexists. eexists.
  exists (-2). exists (fun x => Rsum 2 (fun j => lterm 1 (nth j y 0) (nth (nth j t O) [x] 0) (nth (nth j t O) [1] 0))).
  split; [lra|]. split; [reflexivity|]. split.
  { intros x. apply (obs_1d_E y t 1 [x] [1]); [lra|]. intros [|[|j]] Hj; cbn in *; try lra; lia. }
  split.
  { unfold y, t. cbn. unfold lterm. auto_derive; [exact I|]. field. }
  split; [unfold like_grad_1d; cbn; reflexivity|]. cbn. rnum. lra.
Qed.

(** errors *)
Lemma same_len_err {A B} (l : list A) (r : list B) : length l <> length r -> same_len l r = Err ValueError.
Proof. intros H. unfold same_len. destruct (Nat.eqb_spec (length l) (length r)); [contradiction|reflexivity]. Qed.
Lemma lengths_1d (y : list R) (t : list nat) (r h : R) (m s : list R) :
  List.Forall (fun i => (i < length m)%nat) t -> length s = length m ->
  length y <> length t -> length y <> 1%nat -> length t <> 1%nat ->
  like_1d (K:=RNum) ln PI y t r m s = Err ValueError /\ like_grad_1d (K:=RNum) y t r h m s = Err ValueError.
Proof.
  intros Ht Hs Hy _ _. assert (Ht' : List.Forall (fun i => (i < length s)%nat) t) by (rewrite Hs; exact Ht).
  unfold like_1d, like_grad_1d. rewrite (take_ok (A:=RNum) m t 0 Ht), (take_ok (A:=RNum) s t 0 Ht'). cbn [bind].
  rewrite same_len_err; [split; reflexivity|]. rewrite map_length. exact Hy.
Qed.
Lemma errors_nd d (y : list (nat -> R)) (t : list nat) Rn H h (m : list (nat -> R)) (s : list (nat -> nat -> R)) e :
  (~ List.Forall (fun i => (i < length m)%nat) t /\ e = IndexError \/
   List.Forall (fun i => (i < length m)%nat) t /\ length y <> length t /\ length y <> 1%nat /\ length t <> 1%nat /\ e = ValueError) ->
  like_nd (K:=RNum) ln PI d y t Rn H m s = Err e /\ like_grad_nd (K:=RNum) d y t Rn H m = Err e /\
  like_nd_vec (K:=RNum) ln PI d y t Rn h m s = Err e /\ like_grad_nd_vec (K:=RNum) d y t Rn h m = Err e.
Proof.
  unfold like_nd, like_grad_nd, like_nd_vec, like_grad_nd_vec.
  intros [[Ht ->]|(Ht & Hy & _ & _ & ->)].
  - rewrite (take_err (A:=vec RNum) m t Ht). repeat split; reflexivity.
  - rewrite (take_ok (A:=vec RNum) m t (fun _ => 0) Ht). cbn [bind].
    rewrite same_len_err; [repeat split; reflexivity|]. rewrite map_length. exact Hy.
Qed.
