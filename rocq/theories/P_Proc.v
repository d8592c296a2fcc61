(** * Proofs about the time grid, the trajectories and the observations. *)
From Coq Require Import Reals Lra Lia Arith Bool List ZArith FunctionalExtensionality.
From Verif Require Import Num Arr ArrFacts M_LinAlg M_Utils M_L63 M_L96 M_Like M_Proc Spec_Utils Spec_Proc.
Import ListNotations.
Local Open Scope R_scope.

(** ** normals *)
Lemma normals_len {K} (G : Rng K) n : forall g, length (fst (normals G n g)) = n.
Proof.
  induction n as [|n IH]; intros g; cbn [normals]; [reflexivity|].
  destruct (r_normal G g) as [z g1]. specialize (IH g1). destruct (normals G n g1) as [l g2].
  cbn [fst] in *. cbn [length]. rewrite IH. reflexivity.
Qed.

(** ** arange *)
Lemma map_seq_nth {A} (f : nat -> A) n i d : (i < n)%nat -> nth i (map f (seq 0 n)) d = f i.
Proof.
  intros H. rewrite (nth_indep _ d (f 0%nat)) by (rewrite map_length, seq_length; exact H).
  rewrite map_nth, seq_nth by exact H. reflexivity.
Qed.
Lemma map_seq1_nth {A} (f : nat -> A) n i d : (i < n)%nat -> nth i (map f (seq 1 n)) d = f (S i).
Proof.
  intros H. rewrite (nth_indep _ d (f 0%nat)) by (rewrite map_length, seq_length; exact H).
  rewrite map_nth, seq_nth by exact H. reflexivity.
Qed.

Lemma arange_at_R t0 dt i : arange_at (K:=RNum) t0 dt i = t0 + INR i * dt.
Proof.
  destruct i as [|[|i]]; unfold arange_at; rnum.
  - cbn. lra.
  - cbn. lra.
  - rewrite <- INR_IZR_INZ. ring.
Qed.
(** number of points: the integer n with n - 1 < (stop - start) / dt <= n *)
Lemma arange_R t0 stop dt : dt <> 0 -> exists n, arange (K:=RNum) t0 stop dt = Ok (map (arange_at (K:=RNum) t0 dt) (seq 0 n)) /\
  n = Z.to_nat (Rceil ((stop - t0) / dt)).
Proof.
  intros H. unfold arange. rnum. destruct (Reqb_spec dt 0) as [E|_]; [contradiction|]. eauto.
Qed.
Lemma arange_grid t0 tf dt : 0 < dt -> t0 <= tf ->
  exists n tk, arange (K:=RNum) t0 (tf + dt) dt = Ok tk /\ uniform_grid t0 dt n tk /\ (1 <= n)%nat /\
    tf <= t0 + INR (n - 1) * dt /\ (forall i, (i < n - 1)%nat -> t0 + INR i * dt < tf).
Proof.
  intros Hd Ht. destruct (arange_R t0 (tf + dt) dt ltac:(lra)) as [n [E En]].
  exists n, (map (arange_at (K:=RNum) t0 dt) (seq 0 n)). split; [exact E|].
  split; [split; [rewrite map_length, seq_length; reflexivity|]; intros i Hi; rewrite map_seq_nth by exact Hi; apply arange_at_R|].
  set (q := (tf + dt - t0) / dt) in *. pose proof (Rceil_spec q) as [H1 H2]. set (c := Rceil q) in *.
  assert (Hq : q * dt = tf + dt - t0) by (unfold q; field; lra).
  assert (Hq1 : 1 <= q). { apply Rmult_le_reg_r with dt; [exact Hd|]. lra. }
  assert (Hc : (1 <= c)%Z). { apply le_IZR. lra. }
  assert (En' : IZR c = INR n). { rewrite En, INR_IZR_INZ, Z2Nat.id by lia. reflexivity. }
  assert (Hn : (1 <= n)%nat) by lia.
  split; [exact Hn|]. rewrite minus_INR by exact Hn. cbn [INR].
  split.
  - assert (q * dt <= INR n * dt) by (apply Rmult_le_compat_r; lra). lra.
  - intros i Hi. assert (INR i <= INR n - 2).
    { replace 2 with (INR 2) by (cbn; lra). rewrite <- minus_INR by lia. apply le_INR. lia. }
    assert (INR i * dt <= (INR n - 2) * dt) by (apply Rmult_le_compat_r; lra).
    assert ((INR n - 1) * dt < q * dt) by (apply Rmult_lt_compat_r; lra). lra.
Qed.

(** ** em_path *)
Lemma em_path_len {Y E} (next : Y -> E -> Y) ek : forall x, length (em_path next x ek) = S (length ek).
Proof. induction ek as [|e ek IH]; intros x; cbn [em_path length]; [reflexivity|]. rewrite IH. reflexivity. Qed.
Lemma em_path_0 {Y E} (next : Y -> E -> Y) ek x d : nth 0 (em_path next x ek) d = x.
Proof. destruct ek; reflexivity. Qed.
Lemma em_path_S {Y E} (next : Y -> E -> Y) ek : forall x t d e, (t < length ek)%nat ->
  nth (S t) (em_path next x ek) d = next (nth t (em_path next x ek) d) (nth t ek e).
Proof.
  induction ek as [|a ek IH]; intros x t d e H; cbn [length] in H; [lia|].
  destruct t as [|t]; cbn [em_path nth]; [apply em_path_0|].
  apply IH. lia.
Qed.
Lemma nth_tl {A} (l : list A) i d : nth i (tl l) d = nth (S i) l d.
Proof. destruct l, i; reflexivity. Qed.
Lemma nth_map_lt {A B} (f : A -> B) l i da db : (i < length l)%nat -> nth i (map f l) db = f (nth i l da).
Proof. intros H. rewrite (nth_indep _ db (f da)) by (rewrite map_length; exact H). apply map_nth. Qed.

(** ** integer part of k n / (m+1) *)
Lemma floor_div n m k : Rfloor (IZR (Z.of_nat k) * (IZR (Z.of_nat n) / IZR (Z.of_nat m + 1))) = Z.of_nat (k * n / (m + 1)).
Proof.
  apply Rfloor_unique.
  replace (Z.of_nat m + 1)%Z with (Z.of_nat (m + 1)) by lia. rewrite <- !INR_IZR_INZ.
  assert (Hm : 0 < INR (m + 1)) by (apply lt_0_INR; lia).
  set (q := (k * n / (m + 1))%nat).
  pose proof (Nat.div_mod (k * n) (m + 1) ltac:(lia)) as E. fold q in E.
  pose proof (Nat.mod_upper_bound (k * n) (m + 1) ltac:(lia)) as L.
  set (r := (k * n mod (m + 1))%nat) in *.
  assert (E' : INR k * INR n = INR (m + 1) * INR q + INR r) by (rewrite <- !mult_INR, <- plus_INR, E; reflexivity).
  replace (INR k * (INR n / INR (m + 1))) with (INR q + INR r / INR (m + 1)).
  2:{ apply Rmult_eq_reg_r with (INR (m + 1)); [|lra]. unfold Rdiv. field_simplify; [|lra|lra]. lra. }
  assert (0 <= INR r / INR (m + 1)) by (apply Rmult_le_pos; [apply pos_INR|left; apply Rinv_0_lt_compat; exact Hm]).
  assert (INR r / INR (m + 1) < 1).
  { apply Rmult_lt_reg_r with (INR (m + 1)); [exact Hm|]. unfold Rdiv. rewrite Rmult_assoc, Rinv_l by lra.
    rewrite Rmult_1_r, Rmult_1_l. apply lt_INR. exact L. }
  split; lra.
Qed.
Lemma mapM_ok {A B} (f : A -> result B) (g : A -> B) l : (forall a, In a l -> f a = Ok (g a)) -> mapM f l = Ok (map g l).
Proof.
  induction l as [|a l IH]; intros H; cbn [mapM map]; [reflexivity|].
  rewrite H by (left; reflexivity). cbn [bind]. rewrite IH by (intros; apply H; right; assumption). reflexivity.
Qed.
Lemma uinsert_lt z l : (forall y, In y l -> (z < y)%Z) -> uinsert z l = z :: l.
Proof.
  destruct l as [|y l]; intros H; cbn [uinsert]; [reflexivity|].
  destruct (Z.ltb_spec z y) as [_|E]; [reflexivity|]. specialize (H y (or_introl eq_refl)). lia.
Qed.
Lemma np_unique_inc (f : nat -> Z) n : forall s, (forall i j, (s <= i < j)%nat -> (j < s + n)%nat -> (f i < f j)%Z) ->
  np_unique (map f (seq s n)) = map f (seq s n).
Proof.
  unfold np_unique.
  induction n as [|n IH]; intros s H; cbn [seq map fold_right]; [reflexivity|].
  rewrite IH by (intros i j H1 H2; apply H; lia).
  apply uinsert_lt. intros y Hy. apply in_map_iff in Hy. destruct Hy as [j [<- Hj]].
  apply in_seq in Hj. apply H; lia.
Qed.
Lemma div_strict n m i j : (m + 1 <= n)%nat -> (i < j)%nat -> (i * n / (m + 1) < j * n / (m + 1))%nat.
Proof.
  intros H Hij. apply Nat.lt_le_trans with ((i * n + 1 * (m + 1)) / (m + 1))%nat.
  - rewrite Nat.div_add by lia. lia.
  - apply Nat.div_le_mono; [lia|]. nia.
Qed.

(** the indexes, in exact arithmetic *)
Definition spread_ix (n m : nat) : list nat := map (fun k => (k * n / (m + 1))%nat) (seq 1 m).
Lemma spread_ix_spec n m : (m + 1 <= n)%nat -> spread n m (spread_ix n m).
Proof.
  intros H. unfold spread, spread_ix.
  assert (N : forall i, (i < m)%nat -> nth i (map (fun k => (k * n / (m + 1))%nat) (seq 1 m)) 0%nat = (S i * n / (m + 1))%nat)
    by (intros i Hi; exact (map_seq1_nth (fun k => (k * n / (m + 1))%nat) m i 0%nat Hi)).
  split; [rewrite map_length, seq_length; reflexivity|].
  split. { intros i j Hij. rewrite !N by lia. apply div_strict; lia. }
  split.
  - intros i Hi. rewrite N by exact Hi. split.
    + apply Nat.div_le_lower_bound; nia.
    + enough (S i * n / (m + 1) < n)%nat by lia. apply Nat.div_lt_upper_bound; nia.
  - intros i Hi. rewrite N by exact Hi. rewrite <- (floor_div n m (S i)). unfold int_part.
    replace (INR (i + 1) * INR n / INR (m + 1)) with (IZR (Z.of_nat (S i)) * (IZR (Z.of_nat n) / IZR (Z.of_nat m + 1))).
    { apply Rfloor_spec. }
    replace (Z.of_nat m + 1)%Z with (Z.of_nat (m + 1)) by lia. rewrite <- !INR_IZR_INZ.
    replace (S i) with (i + 1)%nat by lia. unfold Rdiv. ring.
Qed.

Lemma py_int_pos x : 0 <= x -> py_int (K:=RNum) x = Ok (Rfloor x).
Proof. intros H. unfold py_int. rnum. destruct (Rleb_spec 0 x); [reflexivity|contradiction]. Qed.

Lemma grid_shape t0 dt n tk : uniform_grid t0 dt n tk -> (2 <= n)%nat ->
  exists l, tk = t0 :: (t0 + dt) :: l /\ last tk t0 = t0 + INR (n - 1) * dt.
Proof.
  intros [Hl Hv] Hn. destruct tk as [|a [|b l]]; cbn [length] in Hl; try lia.
  pose proof (Hv 0%nat ltac:(lia)) as H0. pose proof (Hv 1%nat ltac:(lia)) as H1. cbn in H0, H1.
  exists l. assert (a = t0) by lra. assert (b = t0 + dt) by lra. clear H0 H1. subst a b. split; [reflexivity|].
  assert (E : forall (l : list R) d, l <> [] -> last l d = nth (length l - 1) l 0).
  { clear. induction l as [|a [|b l] IH]; intros d H; [contradiction|reflexivity|].
    change (last (a :: b :: l) d) with (last (b :: l) d). rewrite IH by discriminate.
    cbn [length]. replace (S (S (length l)) - 1)%nat with (S (S (length l) - 1)) by lia. reflexivity. }
  rewrite E by discriminate. cbn [length] in *. rewrite Hl. apply Hv. lia.
Qed.

(** accepted and rejected densities *)
Lemma density_over n_obs v z : density_is n_obs v -> exceeds (K:=RNum) n_obs z = Ok (Rltb (IZR z) v) /\ rate_of (K:=RNum) n_obs = v.
Proof.
  intros [->|(n & -> & ->)]; cbn [exceeds rate_of]; split; try reflexivity. f_equal.
  destruct (Rltb_spec (IZR z) (IZR n)) as [A|A]; [apply Z.ltb_lt; apply lt_IZR; exact A|apply Z.ltb_ge; apply le_IZR; lra].
Qed.
Lemma rated q : 0 <= rate_val q -> density_is (rate_dens q) (rate_val q) /\ 0 <= rate_val q.
Proof. intros H. split; [|exact H]. destruct q as [z|x|[]]; [right; exists z; split; reflexivity|left; reflexivity|right; eexists; split; reflexivity..]. Qed.
Lemma fits_over v dt : 0 < dt -> (fits_step v dt <-> v <= IZR (Rfloor (1 / dt))).
Proof.
  intros Hd. pose proof (Rfloor_spec (1 / dt)) as [F1 F2]. split.
  - intros (k & H1 & H2). apply Rle_trans with (IZR k); [exact H1|]. apply IZR_le. apply Z.lt_succ_r. apply lt_IZR. rewrite succ_IZR. lra.
  - intros H. exists (Rfloor (1 / dt)). split; assumption.
Qed.
Lemma obs_indexes_R t0 dt n tk n_obs {v : R} : uniform_grid t0 dt n tk -> (2 <= n)%nat -> 0 < dt -> density_is n_obs v /\ 0 <= v ->
  fits_step v dt ->
  exists m, int_part (INR (n - 1) * dt * v) (Z.of_nat m) /\ (m + 1 <= n)%nat /\
    obs_indexes (K:=RNum) n_obs tk = Ok (m, spread_ix n m).
Proof.
  intros Hg Hn Hd [Hv Hz] Hfit. pose proof (proj1 (fits_over v dt Hd) Hfit) as Hcap0.
  assert (Hc : v <= 1 / dt) by (destruct Hfit as (kk & ? & ?); lra). destruct (grid_shape t0 dt n tk Hg Hn) as [l [Htk Hlast]].
  assert (Hcap : py_int (K:=RNum) (1 / dt) = Ok (Rfloor (1 / dt))).
  { apply py_int_pos. apply Rmult_le_pos; [lra|]. left. apply Rinv_0_lt_compat. exact Hd. }
  set (x := INR (n - 1) * dt * v).
  assert (HT : 0 <= INR (n - 1) * dt) by (apply Rmult_le_pos; [apply pos_INR|lra]).
  assert (Hx0 : 0 <= x) by (apply Rmult_le_pos; [exact HT|exact Hz]).
  assert (Hx1 : x <= INR (n - 1)).
  { unfold x. replace (INR (n - 1)) with (INR (n - 1) * dt * (1 / dt)) at 2 by (field; lra).
    apply Rmult_le_compat_l; assumption. }
  pose proof (Rfloor_spec x) as [F1 F2].
  assert (Hm0 : (0 <= Rfloor x)%Z).
  { apply Z.lt_succ_r. apply lt_IZR. rewrite succ_IZR. lra. }
  assert (Hm1 : (Rfloor x <= Z.of_nat (n - 1))%Z) by (apply le_IZR; rewrite <- INR_IZR_INZ; lra).
  exists (Z.to_nat (Rfloor x)). rewrite Z2Nat.id by exact Hm0.
  split; [split; assumption|]. split; [lia|].
  unfold obs_indexes. rewrite Htk.
  assert (Hdt : nsub (n:=RNum) (t0 + dt) t0 = dt) by (rnum; ring).
  rewrite Hdt. rewrite <- Htk.
  change (ndiv (n:=RNum) (nZ 1) dt) with (1 / dt). rewrite Hcap. cbn [bind].
  destruct (density_over n_obs v (Rfloor (1 / dt)) Hv) as [Eo Er]. rewrite Eo. cbn [bind].
  destruct (Rltb_spec (IZR (Rfloor (1 / dt))) v) as [A|_]; [lra|]. rewrite Er.
  match goal with |- context [floor_int ?y] => replace y with x end.
  2:{ rnum. change (car RNum) with R in *. rewrite Hlast. unfold x.
      replace (t0 - (t0 + INR (n - 1) * dt)) with (- (INR (n - 1) * dt)) by ring.
      rewrite Rabs_Ropp, Rabs_pos_eq by exact HT. reflexivity. }
  change (floor_int (K:=RNum) x) with (Ok (Rfloor x) : result Z). cbn [bind].
  destruct (Z.ltb_spec (Rfloor x) 0) as [A|_]; [lia|].
  destruct Hg as [Hlen _]. change (@length (car RNum) tk) with (@length R tk). rewrite Hlen.
  set (m := Z.to_nat (Rfloor x)). assert (Em : Rfloor x = Z.of_nat m) by (unfold m; rewrite Z2Nat.id; [reflexivity|exact Hm0]).
  rewrite (mapM_ok _ (fun k => Z.of_nat (k * n / (m + 1)))).
  2:{ intros k _. unfold linspace_at. rewrite Em. rewrite <- floor_div. reflexivity. }
  cbn [bind]. rewrite np_unique_inc.
  2:{ intros i j H1 H2. apply Nat2Z.inj_lt. apply div_strict; lia. }
  unfold spread_ix. rewrite map_map. do 2 f_equal. apply map_ext. intros k. apply Nat2Z.id.
Qed.
Lemma obs_indexes_high t0 dt n tk n_obs v : density_is n_obs v -> uniform_grid t0 dt n tk -> (2 <= n)%nat -> 0 < dt ->
  ~ fits_step v dt -> obs_indexes (K:=RNum) n_obs tk = Err ValueError.
Proof.
  intros Hv Hg Hn Hd Hc. destruct (grid_shape t0 dt n tk Hg Hn) as [l [Htk _]].
  unfold obs_indexes. rewrite Htk.
  assert (Hdt : nsub (n:=RNum) (t0 + dt) t0 = dt) by (rnum; ring). rewrite Hdt.
  change (ndiv (n:=RNum) (nZ 1) dt) with (1 / dt).
  rewrite py_int_pos. 2:{ apply Rmult_le_pos; [lra|]. left. apply Rinv_0_lt_compat. exact Hd. }
  cbn [bind]. destruct (density_over n_obs v (Rfloor (1 / dt)) Hv) as [Eo Er]. rewrite Eo. cbn [bind].
  destruct (Rltb_spec (IZR (Rfloor (1 / dt))) v) as [_|A]; [reflexivity|]. exfalso. apply Hc, (fits_over v dt Hd). lra.
Qed.
Lemma obs_indexes_neg t0 dt n tk n_obs v : density_is n_obs v -> uniform_grid t0 dt n tk -> (2 <= n)%nat -> 0 < dt -> v < 0 ->
  obs_indexes (K:=RNum) n_obs tk = Err ValueError.
Proof.
  intros Hv Hg Hn Hd Hz. destruct (grid_shape t0 dt n tk Hg Hn) as [l [Htk Hlast]].
  unfold obs_indexes. rewrite Htk.
  assert (Hdt : nsub (n:=RNum) (t0 + dt) t0 = dt) by (rnum; ring). rewrite Hdt. rewrite <- Htk.
  change (ndiv (n:=RNum) (nZ 1) dt) with (1 / dt).
  rewrite py_int_pos. 2:{ apply Rmult_le_pos; [lra|]. left. apply Rinv_0_lt_compat. exact Hd. }
  cbn [bind]. destruct (density_over n_obs v (Rfloor (1 / dt)) Hv) as [Eo Er]. rewrite Eo. cbn [bind].
  destruct (Rltb_spec (IZR (Rfloor (1 / dt))) v) as [_|A]; [reflexivity|]. rewrite Er.
  match goal with |- context [floor_int ?y] => set (x := y) end.
  change (floor_int (K:=RNum) x) with (Ok (Rfloor x) : result Z). cbn [bind].
  destruct (Z.ltb_spec (Rfloor x) 0) as [_|B]; [reflexivity|]. exfalso.
  assert (x < 0).
  { unfold x. rnum. change (car RNum) with R in *. rewrite Hlast. replace (t0 - (t0 + INR (n - 1) * dt)) with (- (INR (n - 1) * dt)) by ring.
    assert (0 < INR (n - 1) * dt) by (apply Rmult_lt_0_compat; [apply lt_0_INR; lia|exact Hd]).
    rewrite Rabs_Ropp, Rabs_pos_eq by lra. nra. }
  apply IZR_le in B. pose proof (Rfloor_spec x). lra.
Qed.

(** ** take, map2 *)
Lemma take_ok {A} (l : list A) d ix : (forall i, In i ix -> (i < length l)%nat) -> take l ix = Ok (map (fun i => nth i l d) ix).
Proof.
  induction ix as [|i ix IH]; intros H; cbn [take map]; [reflexivity|].
  rewrite (nth_error_nth' l d) by (apply H; left; reflexivity).
  rewrite IH by (intros j Hj; apply H; right; exact Hj). reflexivity.
Qed.
Lemma spread_in n m ts : spread n m ts -> forall i, In i ts -> (1 <= i <= n - 1)%nat.
Proof.
  intros (Hl & _ & H & _) i Hi. apply In_nth with (d := 0%nat) in Hi. destruct Hi as (k & Hk & <-).
  apply H. lia.
Qed.
