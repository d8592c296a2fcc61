(** * Proofs about VarGP.initialization. *)
From Coq Require Import ZArith List Bool Arith Reals Lra Lia Sorted.
From Verif Require Import Num Arr ArrFacts M_LinAlg M_Utils M_Ode M_Like M_VarGP
  Spec_Utils P_Ode P_Trapz P_RMat P_Det P_Like P_VarGP.
Import ListNotations.
Local Open Scope R_scope.

(** zero vector and matrix, typed over R *)
Notation zvR := (fun _ : nat => 0%R).
Notation zmR := (fun _ _ : nat => 0%R).
Ltac req := match goal with |- ?a = ?b => change (@eq R a b) end.
(** ** stationarity of 0.25 I *)
Definition quarter (i j : nat) : R := if Nat.eqb i j then 1 / 4 else 0.
Lemma init_a_ix (sigma : nat -> nat -> R) i j :
  init_a (K:=RNum) sigma i j = if Nat.eqb i j then 2 * sigma i i else 0.
Proof.
  unfold init_a, diag_k, mscale, mdiag. destruct (Nat.eqb_spec i j) as [->|]; rnum; [field|ring].
Qed.
Lemma st_quarter d (sigma : nat -> nat -> R) i j : (i < d)%nat -> (j < d)%nat ->
  fun_st_n RNum d quarter (init_a (K:=RNum) sigma) sigma i j = if Nat.eqb i j then 0 else sigma i j.
Proof.
  intros Hi Hj. unfold fun_st_n. rewrite !mmul_R. rnum.
  rewrite (Rsum_single d _ i Hi).
  2:{ intros k Hk Hki. rewrite init_a_ix. destruct (Nat.eqb_spec i k); [congruence|]. ring. }
  rewrite (Rsum_single d _ j Hj).
  2:{ intros k Hk Hkj. unfold mtr. rewrite init_a_ix. destruct (Nat.eqb_spec j k); [congruence|]. rnum. ring. }
  unfold mtr. rewrite !init_a_ix, !Nat.eqb_refl. unfold quarter. destruct (Nat.eqb_spec i j) as [->|]; rnum; field.
Qed.
Lemma st_quarter_1 (sigma : R) : fun_st_1 RNum (1 / 4) (1 / 2 * (sigma / (1 / 4)) * 1) sigma = 0.
Proof. unfold fun_st_1. rnum. field. Qed.

(** the covariance recursion of the Euler solver, started there, stays there *)
Lemma euler_quarter_1 (dt sigma m0 : R) (a b mt st : list R) :
  (forall k, (k < length b)%nat -> nth k a 0 = 1 / 2 * (sigma / (1 / 4)) * 1) ->
  solve_fwd (sys1 RNum) Euler dt a b m0 (1 / 4) sigma = Ok (mt, st) ->
  forall k, (k < length b)%nat -> nth k st 0 = 1 / 4.
Proof.
  intros Ha H. induction k as [|k IH]; intros Hk.
  - destruct (solve_fwd_shape _ _ _ _ _ _ _ _ _ _ H) as (_ & Hl & _ & H0). apply nth_error_nth with (d := 0) in H0. exact H0.
  - pose proof (solve_fwd_step (sys1 RNum) _ _ _ _ _ _ _ _ _ k H (eq_ind_r (fun z => (z < length b)%nat) Hk (Nat.add_1_r k))) as E.
    injection E as _ E. cbn [fwd_body euler_fwd_body sys1 VS f_st] in E. rewrite Nat.add_1_r in E.
    change (ga (sys1 RNum) st (S k)) with (nth (S k) st 0) in E.
    change (ga (sys1 RNum) st k) with (nth k st 0) in E. change (ga (sys1 RNum) a k) with (nth k a 0) in E.
    rewrite IH, Ha in E by lia. rewrite E. cbn. unfold fun_st_1. rnum. field.
Qed.
Lemma fun_st_agree d (s s' a a' sg : nat -> nat -> R) i j : (i < d)%nat -> (j < d)%nat ->
  (forall i j, (i < d)%nat -> (j < d)%nat -> s i j = s' i j) ->
  (forall i j, (i < d)%nat -> (j < d)%nat -> a i j = a' i j) ->
  fun_st_n RNum d s a sg i j = fun_st_n RNum d s' a' sg i j.
Proof.
  intros Hi Hj Hs Ha.
  assert (E1 : mmul (K:=RNum) d a s i j = mmul (K:=RNum) d a' s' i j)
    by (rewrite !mmul_R; apply Rsum_ext; intros c Hc; rewrite Hs, Ha by assumption; reflexivity).
  assert (E2 : mmul (K:=RNum) d s (mtr (K:=RNum) a) i j = mmul (K:=RNum) d s' (mtr (K:=RNum) a') i j)
    by (rewrite !mmul_R; apply Rsum_ext; intros c Hc; unfold mtr; rewrite Hs, Ha by assumption; reflexivity).
  unfold fun_st_n. rewrite E1, E2. reflexivity.
Qed.
Lemma euler_quarter_n d (dt : R) (sigma : nat -> nat -> R) m0 (a : list (nat -> nat -> R)) (b mt : list (nat -> R)) (st : list (nat -> nat -> R)) :
  (forall i j, (i < d)%nat -> (j < d)%nat -> i <> j -> sigma i j = 0) ->
  (forall k i j, (k < length b)%nat -> (i < d)%nat -> (j < d)%nat -> nth k a zmR i j = init_a (K:=RNum) sigma i j) ->
  solve_fwd (sysn RNum d) Euler dt a b m0 quarter sigma = Ok (mt, st) ->
  forall k i j, (k < length b)%nat -> (i < d)%nat -> (j < d)%nat -> nth k st zmR i j = quarter i j.
Proof.
  intros Hsg Ha H. induction k as [|k IH]; intros i j Hk Hi Hj.
  - destruct (solve_fwd_shape _ _ _ _ _ _ _ _ _ _ H) as (_ & Hl & _ & H0). apply nth_error_nth with (d := zmR) in H0.
    exact (f_equal (fun f => f i j) H0).
  - pose proof (solve_fwd_step (sysn RNum d) _ _ _ _ _ _ _ _ _ k H (eq_ind_r (fun z => (z < length b)%nat) Hk (Nat.add_1_r k))) as E.
    injection E as _ E. cbn [fwd_body euler_fwd_body sysn VS f_st] in E. rewrite Nat.add_1_r in E.
    change (ga (sysn RNum d) st (S k)) with (nth (S k) st zmR) in E.
    change (ga (sysn RNum d) st k) with (nth k st zmR) in E. change (ga (sysn RNum d) a k) with (nth k a zmR) in E.
    transitivity (nth k st zmR i j + dt * fun_st_n RNum d (nth k st zmR) (nth k a zmR) sigma i j); [rewrite E; reflexivity|].
    rewrite (fun_st_agree d _ quarter _ (init_a (K:=RNum) sigma) sigma i j Hi Hj) by (intros; (apply IH || apply Ha); try assumption; lia).
    rewrite IH, st_quarter by (try assumption; lia). req. destruct (Nat.eqb_spec i j); [ring|]. rewrite Hsg by assumption. ring.
Qed.

(** ** the Euler sweep stays on the interpolant *)
Lemma euler_interp d (dt : R) (sigma sg s0 : nat -> nat -> R) (mt0 : list (nat -> R)) (a : list (nat -> nat -> R)) (b mt : list (nat -> R)) (st : list (nat -> nat -> R)) : dt <> 0 ->
  length b = length mt0 ->
  (forall k i j, (k < length b)%nat -> (i < d)%nat -> (j < d)%nat -> nth k a zmR i j = init_a (K:=RNum) sigma i j) ->
  (forall k i, (k < length b)%nat -> (i < d)%nat -> nth k b zvR i = init_b (K:=RNum) dt sigma mt0 k i) ->
  solve_fwd (sysn RNum d) Euler dt a b (nth 0 mt0 zvR) s0 sg = Ok (mt, st) ->
  forall k i, (k < length b)%nat -> (i < d)%nat -> nth k mt zvR i = nth k mt0 zvR i.
Proof.
  intros Hdt Hl Ha Hb H. induction k as [|k IH]; intros i Hk Hi.
  - destruct (solve_fwd_shape _ _ _ _ _ _ _ _ _ _ H) as (_ & _ & H0 & _). apply nth_error_nth with (d := zvR) in H0.
    exact (f_equal (fun f => f i) H0).
  - pose proof (solve_fwd_step (sysn RNum d) _ _ _ _ _ _ _ _ _ k H (eq_ind_r (fun z => (z < length b)%nat) Hk (Nat.add_1_r k))) as E.
    injection E as E _. cbn [fwd_body euler_fwd_body sysn VM f_mt] in E. rewrite Nat.add_1_r in E.
    change (gm (sysn RNum d) mt (S k)) with (nth (S k) mt zvR) in E.
    change (gm (sysn RNum d) mt k) with (nth k mt zvR) in E. change (gm (sysn RNum d) b k) with (nth k b zvR) in E.
    change (ga (sysn RNum d) a k) with (nth k a zmR) in E.
    transitivity (nth k mt zvR i + dt * (- mvec (K:=RNum) d (nth k a zmR) (nth k mt zvR) i + nth k b zvR i)); [rewrite E; reflexivity|].
    rewrite Hb by (try assumption; lia). rewrite mvec_R.
    rewrite (Rsum_single d _ i Hi).
    2:{ intros c Hc Hci. rewrite Ha by (try assumption; lia). rewrite init_a_ix. destruct (Nat.eqb_spec i c); [congruence|]. ring. }
    rewrite Ha, IH by (try assumption; lia).
    assert (Eb : init_b (K:=RNum) dt sigma mt0 k i = (nth (S k) mt0 zvR i - nth k mt0 zvR i) / dt + init_a (K:=RNum) sigma i i * nth k mt0 zvR i).
    { unfold init_b. case Nat.ltb_spec; intros Hc; [rewrite Nat.add_1_r; reflexivity|].
      exfalso. assert (Hc' : (length mt0 <= k + 1)%nat) by exact Hc. lia. }
    rewrite Eb. generalize (init_a (K:=RNum) sigma i i : R), (nth k mt0 zvR i : R), (nth (S k) mt0 zvR i : R). intros x y z.
    req. rnum. field. exact Hdt.
Qed.

(** ** knots *)
Lemma nltb_R (x y : R) : nlt (n:=RNum) x y = true <-> x < y.
Proof. cbn. unfold Rltb. destruct (Rlt_dec x y); split; intros; auto; discriminate. Qed.
Lemma increasing_iff (l : list R) : increasing (K:=RNum) l = true <-> LocallySorted Rlt l.
Proof.
  induction l as [|x [|y l] IH].
  - split; [constructor|reflexivity].
  - split; [constructor|reflexivity].
  - cbn [increasing]. rewrite andb_true_iff, nltb_R, IH. split.
    + intros [H1 H2]. constructor; assumption.
    + intros H. inversion H; subst. auto.
Qed.
Lemma sorted_nth_lt (l : list R) : LocallySorted Rlt l -> forall i j, (i < j)%nat -> (j < length l)%nat -> nth i l 0 < nth j l 0.
Proof.
  intros H. apply Sorted_LocallySorted_iff in H. apply Sorted_StronglySorted in H; [|intros x y z; apply Rlt_trans].
  induction H as [|x l H IH Hf]; intros i j Hij Hj; [cbn in Hj; lia|].
  destruct j as [|j]; [lia|]. cbn in Hj. destruct i as [|i]; cbn [nth].
  - rewrite Forall_forall in Hf. apply Hf, nth_In. lia.
  - apply IH; lia.
Qed.
Lemma nth_lt_sorted (l : list R) : (forall i, (S i < length l)%nat -> nth i l 0 < nth (S i) l 0) -> LocallySorted Rlt l.
Proof.
  induction l as [|x [|y l] IH]; intros H; try constructor.
  - apply IH. intros i Hi. apply (H (S i)). cbn in *. lia.
  - apply (H 0%nat). cbn. lia.
Qed.
Lemma last_nth {A} (l : list A) d d' : l <> [] -> last l d = nth (length l - 1) l d'.
Proof.
  induction l as [|x [|y l] IH]; intros H; [congruence|reflexivity|].
  change (last (x :: y :: l) d) with (last (y :: l) d). rewrite IH by discriminate.
  cbn [length]. replace (S (S (length l)) - 1)%nat with (S (S (length l) - 1)) by lia. reflexivity.
Qed.
Lemma time_knots_val (tw : list R) obs : tw <> [] -> List.Forall (fun i => (i < length tw)%nat) obs ->
  time_knots (K:=RNum) tw obs = Ok (map (fun i => nth i tw 0) (0%nat :: obs ++ [(length tw - 1)%nat])).
Proof.
  intros Hn Ho. unfold time_knots. rewrite (take_ok (A:=RNum) tw obs 0 Ho). cbn [bind].
  destruct tw as [|t0 tw]; [congruence|]. unfold ends. f_equal. cbn [map]. f_equal.
  rewrite map_app. f_equal. cbn [map]. f_equal. apply (last_nth (t0 :: tw) t0 0). discriminate.
Qed.
Lemma knots_increasing_iff (tw : list R) ix : LocallySorted Rlt tw -> List.Forall (fun i => (i < length tw)%nat) ix ->
  (LocallySorted Rlt (map (fun i => nth i tw 0) ix) <-> LocallySorted lt ix).
Proof.
  intros Hs. induction ix as [|i [|j ix] IH]; intros H.
  - split; constructor.
  - split; constructor.
  - inversion H as [|? ? Hi H']; subst. specialize (IH H'). inversion H' as [|? ? Hj H'']; subst. cbn [map] in *.
    assert (E : nth i tw 0 < nth j tw 0 <-> (i < j)%nat).
    { split; [|intros; apply sorted_nth_lt; assumption]. intros Hlt.
      destruct (Nat.lt_trichotomy i j) as [?|[->|Hji]]; [assumption|lra|].
      pose proof (sorted_nth_lt tw Hs j i Hji Hi). lra. }
    split; intros HH; inversion HH; subst; constructor; tauto.
Qed.
(** indexes strictly inside a grid of n points, strictly increasing *)
Definition inside (n : nat) (obs : list nat) : Prop :=
  StronglySorted lt obs /\ List.Forall (fun i => (0 < i /\ i + 1 < n)%nat) obs.
Lemma inside_iff n obs : (1 < n)%nat -> (inside n obs <-> LocallySorted lt (0%nat :: obs ++ [(n - 1)%nat])).
Proof.
  intros Hn. rewrite <- Sorted_LocallySorted_iff. split.
  - intros [Hs Hf]. apply StronglySorted_Sorted. constructor.
    + clear - Hs Hf. induction Hs as [|a l H IH Ha]; cbn [app]; [repeat constructor|]. inversion Hf; subst.
      constructor; [apply IH; assumption|]. apply Forall_app. split; [exact Ha|]. repeat constructor. lia.
    + apply Forall_app. split; [|repeat constructor; lia]. eapply Forall_impl; [|exact Hf]. cbn. intros; lia.
  - intros H. apply Sorted_StronglySorted in H; [|intros x y z; apply Nat.lt_trans].
    inversion H as [|? ? H1 H2]; subst. apply Forall_app in H2 as [H2 _]. clear H.
    assert (G : StronglySorted lt obs /\ List.Forall (fun i => (i < n - 1)%nat) obs).
    { clear H2. induction obs as [|a obs IH]; [split; constructor|]. cbn [app] in H1. inversion H1 as [|? ? H3 H4]; subst.
      apply Forall_app in H4 as [H4 H5]. destruct (IH H3) as [I1 I2]. split; constructor; auto. inversion H5; subst. assumption. }
    destruct G as [G1 G2]. split; [exact G1|]. rewrite Forall_forall in *. intros i Hi. specialize (G2 i Hi). specialize (H2 i Hi). lia.
Qed.

Lemma ends_len {A} (y : list A) r : ends y y = Ok r -> length r = (length y + 2)%nat.
Proof. destruct y as [|a y]; [discriminate|]. intros [= <-]. cbn. rewrite app_length. cbn. lia. Qed.
Lemma ends_ok {A} (y : list A) : y <> [] -> exists r, ends y y = Ok r /\ length r = (length y + 2)%nat.
Proof. destruct y as [|a y]; [congruence|]. intros _. eexists. split; [reflexivity|]. apply (ends_len (a :: y)). reflexivity. Qed.
Lemma knots_case {A} (tw : list R) obs (z : list A) : LocallySorted Rlt tw -> (1 < length tw)%nat ->
  List.Forall (fun i => (i < length tw)%nat) obs -> length z = (length obs + 2)%nat ->
  (inside (length tw) obs -> knots_ok (K:=RNum) (map (fun i => nth i tw 0) (0%nat :: obs ++ [(length tw - 1)%nat])) z = Ok tt) /\
  (~ inside (length tw) obs -> knots_ok (K:=RNum) (map (fun i => nth i tw 0) (0%nat :: obs ++ [(length tw - 1)%nat])) z = Err ValueError).
Proof.
  intros Hs Hn Ho Hz. unfold knots_ok.
  set (L := map _ _). assert (HL : length L = (length obs + 2)%nat) by (unfold L; rewrite map_length; cbn; rewrite app_length; cbn; lia).
  change (length (A:=RNum) L) with (length L). rewrite HL, Hz, Nat.eqb_refl.
  replace (Nat.leb 2 (length obs + 2)) with true by (symmetry; apply Nat.leb_le; lia). cbn [andb].
  assert (E : increasing (K:=RNum) L = true <-> inside (length tw) obs).
  { rewrite inside_iff by exact Hn. rewrite increasing_iff. apply knots_increasing_iff; [exact Hs|].
    constructor; [lia|]. apply Forall_app. split; [exact Ho|]. repeat constructor. lia. }
  destruct (increasing (K:=RNum) L); split; intros H; try reflexivity.
  - exfalso. apply H, E. reflexivity.
  - exfalso. apply E in H. discriminate.
Qed.

(** ** the returned vector *)
Section Init.
Context (spline : list R -> list R -> R -> R).
Lemma knots_ok_dec {K : Num} {A} (x : list K) (z : list A) : knots_ok x z = Ok tt \/ knots_ok x z = Err ValueError.
Proof. unfold knots_ok. destruct (_ && _); auto. Qed.
Lemma init1_inv sigma tw obs_t obs_y x : init1 (K:=RNum) spline sigma tw obs_t obs_y = Ok x ->
  exists tx z, time_knots (K:=RNum) tw obs_t = Ok tx /\ ends obs_y obs_y = Ok z /\ knots_ok (K:=RNum) tx z = Ok tt /\
    x = pack1 (K:=RNum) (map (fun _ => 1 / 2 * (sigma / (1 / 4)) * 1) tw) (map (spline tx z) tw).
Proof.
  unfold init1. destruct (time_knots _ _) as [tx|]; [|discriminate]. cbn [bind].
  destruct (ends _ _) as [z|]; [|discriminate]. cbn [bind].
  destruct (knots_ok tx z) as [[]|] eqn:E; [|discriminate]. cbn [bind]. intros [= <-].
  exists tx, z. repeat split; auto.
Qed.
Lemma initn_inv d dt sigma tw obs_t obs_y x : initn (K:=RNum) spline d dt sigma tw obs_t obs_y = Ok x ->
  exists tx z, time_knots (K:=RNum) tw obs_t = Ok tx /\ ends obs_y obs_y = Ok z /\ knots_ok (K:=RNum) tx z = Ok tt /\
    x = packn (K:=RNum) d (map (fun _ => init_a (K:=RNum) sigma) tw)
          (map (init_b (K:=RNum) dt sigma (map (interp (K:=RNum) spline tx z) tw)) (seq 0 (length tw))).
Proof.
  unfold initn. destruct (time_knots _ _) as [tx|]; [|discriminate]. cbn [bind].
  destruct (ends _ _) as [z|]; [|discriminate]. cbn [bind].
  destruct (knots_ok tx z) as [[]|] eqn:E; [|discriminate]. cbn [bind]. intros [= <-].
  exists tx, z. repeat split; auto.
Qed.
Lemma init1_len sigma tw obs_t obs_y x : init1 (K:=RNum) spline sigma tw obs_t obs_y = Ok x ->
  length x = (length tw * 1 * (1 + 1))%nat.
Proof.
  intros H. destruct (init1_inv _ _ _ _ _ H) as (tx & z & _ & _ & _ & ->). unfold pack1. rewrite app_length.
  transitivity (length tw + length tw)%nat; [apply f_equal2; apply map_length|lia].
Qed.
Lemma initn_len d dt sigma tw obs_t obs_y x : initn (K:=RNum) spline d dt sigma tw obs_t obs_y = Ok x ->
  length x = (length tw * d * (d + 1))%nat.
Proof.
  intros H. destruct (initn_inv _ _ _ _ _ _ _ H) as (tx & z & _ & _ & _ & ->).
  apply (packn_len (K:=RNum) d); rewrite map_length; [reflexivity|apply seq_length].
Qed.
Lemma init1_total sigma (tw : list R) obs_t (obs_y : list R) : LocallySorted Rlt tw -> (1 < length tw)%nat -> obs_y <> [] ->
  length obs_y = length obs_t ->
  (List.Forall (fun i => (i < length tw)%nat) obs_t ->
   (inside (length tw) obs_t -> exists x, init1 (K:=RNum) spline sigma tw obs_t obs_y = Ok x) /\
   (~ inside (length tw) obs_t -> init1 (K:=RNum) spline sigma tw obs_t obs_y = Err ValueError)) /\
  (~ List.Forall (fun i => (i < length tw)%nat) obs_t -> init1 (K:=RNum) spline sigma tw obs_t obs_y = Err IndexError).
Proof.
  intros Hs Hn Hy Hl. split.
  - intros Ho. destruct (ends_ok obs_y Hy) as (z & Ez & Lz). rewrite Hl in Lz.
    destruct (knots_case tw obs_t z Hs Hn Ho Lz) as [K1 K2].
    assert (Ht : tw <> []) by (intros ->; cbn in Hn; lia).
    unfold init1. rewrite (time_knots_val tw obs_t Ht Ho). cbn [bind].
    change (ends (A:=RNum) obs_y obs_y) with (ends obs_y obs_y). rewrite Ez. cbn [bind]. split; intros Hin.
    + change (car RNum) with R. rewrite (K1 Hin). eexists. reflexivity.
    + change (car RNum) with R. rewrite (K2 Hin). reflexivity.
  - intros Ho. unfold init1, time_knots. rewrite (take_err (A:=RNum) tw obs_t Ho). reflexivity.
Qed.
Lemma initn_total d dt sigma (tw : list R) obs_t (obs_y : list (nat -> R)) : LocallySorted Rlt tw -> (1 < length tw)%nat -> obs_y <> [] ->
  length obs_y = length obs_t ->
  (List.Forall (fun i => (i < length tw)%nat) obs_t ->
   (inside (length tw) obs_t -> exists x, initn (K:=RNum) spline d dt sigma tw obs_t obs_y = Ok x) /\
   (~ inside (length tw) obs_t -> initn (K:=RNum) spline d dt sigma tw obs_t obs_y = Err ValueError)) /\
  (~ List.Forall (fun i => (i < length tw)%nat) obs_t -> initn (K:=RNum) spline d dt sigma tw obs_t obs_y = Err IndexError).
Proof.
  intros Hs Hn Hy Hl. split.
  - intros Ho. destruct (ends_ok obs_y Hy) as (z & Ez & Lz). rewrite Hl in Lz.
    destruct (knots_case tw obs_t z Hs Hn Ho Lz) as [K1 K2].
    assert (Ht : tw <> []) by (intros ->; cbn in Hn; lia).
    unfold initn. rewrite (time_knots_val tw obs_t Ht Ho). cbn [bind].
    change (ends (A:=vec RNum) obs_y obs_y) with (ends obs_y obs_y). rewrite Ez. cbn [bind]. split; intros Hin.
    + unfold vec. change (car RNum) with R. rewrite (K1 Hin). eexists. reflexivity.
    + unfold vec. change (car RNum) with R. rewrite (K2 Hin). reflexivity.
  - intros Ho. unfold initn, time_knots. rewrite (take_err (A:=RNum) tw obs_t Ho). reflexivity.
Qed.

(** what free_energy unpacks from it *)
Lemma initn_unpack d dt sigma (tw : list R) obs_t obs_y x : initn (K:=RNum) spline d dt sigma tw obs_t obs_y = Ok x ->
  exists tx z (a : list (nat -> nat -> R)) (b : list (nat -> R)),
    time_knots (K:=RNum) tw obs_t = Ok tx /\ ends obs_y obs_y = Ok z /\
    unpackn (K:=RNum) (length tw) d x = Ok (a, b) /\ length a = length tw /\ length b = length tw /\
    (forall k i j, (k < length tw)%nat -> (i < d)%nat -> (j < d)%nat -> nth k a zmR i j = init_a (K:=RNum) sigma i j) /\
    (forall k i, (k < length tw)%nat -> (i < d)%nat ->
       nth k b zvR i = init_b (K:=RNum) dt sigma (map (interp (K:=RNum) spline tx z) tw) k i).
Proof.
  intros H. destruct (initn_inv _ _ _ _ _ _ _ H) as (tx & z & E1 & E2 & _ & ->).
  match goal with |- context [packn d ?A' ?B'] => set (A := A'); set (B := B') end.
  assert (HA : length A = length tw) by apply map_length.
  assert (HB : length B = length tw) by (unfold B; rewrite map_length; apply seq_length).
  destruct (unpackn_pack (K:=RNum) d A B (length tw) HA HB) as (a & b & E & La & Lb & G).
  exists tx, z, a, b. split; [exact E1|]. split; [exact E2|]. split; [exact E|]. split; [exact La|]. split; [exact Lb|]. split.
  - intros k i j Hk Hi Hj. destruct (G k i Hk Hi) as [_ Ga]. specialize (Ga j Hj).
    transitivity (nth k A zm i j); [exact Ga|]. unfold A.
    rewrite (nth_indep _ zm (init_a (K:=RNum) sigma)) by (rewrite map_length; exact Hk).
    exact (f_equal (fun f => f i j) (map_nth (fun _ : R => init_a (K:=RNum) sigma) tw 0 k)).
  - intros k i Hk Hi. destruct (G k i Hk Hi) as [Gb _].
    transitivity (nth k B zv i); [exact Gb|]. unfold B. rewrite map_seq_nth by exact Hk. reflexivity.
Qed.
Lemma initn_sweep d dt sigma (tw : list R) obs_t obs_y x : dt <> 0 -> initn (K:=RNum) spline d dt sigma tw obs_t obs_y = Ok x ->
  exists tx z (a : list (nat -> nat -> R)) (b : list (nat -> R)),
    time_knots (K:=RNum) tw obs_t = Ok tx /\ ends obs_y obs_y = Ok z /\
    unpackn (K:=RNum) (length tw) d x = Ok (a, b) /\
    let curve := fun k => interp (K:=RNum) spline tx z (nth k tw 0) in
    forall s0 sg (mt : list (nat -> R)) (st : list (nat -> nat -> R)),
      solve_fwd (sysn RNum d) Euler dt a b (curve 0%nat) s0 sg = Ok (mt, st) ->
      forall k i, (k < length tw)%nat -> (i < d)%nat -> nth k mt zvR i = curve k i.
Proof.
  intros Hdt H. destruct (initn_unpack _ _ _ _ _ _ _ H) as (tx & z & a & b & E1 & E2 & E & La & Lb & Ga & Gb).
  exists tx, z, a, b. split; [exact E1|]. split; [exact E2|]. split; [exact E|]. intros curve s0 sg mt st Hf k i Hk Hi.
  set (mt0 := map (interp (K:=RNum) spline tx z) tw) in *.
  assert (C : forall k, (k < length tw)%nat -> nth k mt0 zvR = curve k).
  { intros k' Hk'. unfold mt0. transitivity (nth k' (map (interp (K:=RNum) spline tx z) tw) (interp (K:=RNum) spline tx z 0)).
    - apply nth_indep. rewrite map_length. exact Hk'.
    - apply (map_nth (interp (K:=RNum) spline tx z) tw 0 k'). }
  rewrite <- (C k Hk). rewrite <- (C 0%nat) in Hf by lia.
  assert (Lb' : length b = length mt0) by (rewrite Lb; unfold mt0; symmetry; apply (map_length (interp (K:=RNum) spline tx z) tw)).
  apply (euler_interp d dt sigma sg s0 mt0 a b mt st Hdt Lb'); try assumption.
  - intros k' i' j' Hk'. apply Ga. rewrite <- Lb. exact Hk'.
  - intros k' i' Hk'. apply Gb. rewrite <- Lb. exact Hk'.
  - rewrite Lb. exact Hk.
Qed.
End Init.
