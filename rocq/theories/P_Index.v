(** * Observing components given by their numbers *)
From Coq Require Import ZArith List Bool Arith Reals Lra Lia.
From Verif Require Import Num Arr ArrFacts M_LinAlg M_Like M_Proc M_Sim M_SimN Spec_Utils Spec_Proc Spec_Oper P_RMat P_Proc P_Traj P_Oper2 P_Oper3.
Import ListNotations.
Local Open Scope R_scope.

Lemma wrap_all_nth d l cols i z : wrap_all d l = Ok cols -> nth_error l i = Some z -> exists c, wrap d z = Ok c /\ nth_error cols i = Some c.
Proof.
  revert cols i. induction l as [|a l IH]; intros cols i H Hi; [destruct i; discriminate|].
  cbn [wrap_all] in H. destruct (wrap d a) as [c|] eqn:E; cbn [bind] in H; [|discriminate].
  destruct (wrap_all d l) as [cs|]; cbn [bind] in H; [|discriminate]. injection H as <-.
  destruct i as [|i]; cbn in Hi |- *; [injection Hi as <-; eauto|]. apply IH; auto.
Qed.
Lemma table_nth {A} (ix : nat -> nat -> A) r c i j : (i < r)%nat -> (j < c)%nat ->
  nth_error (flat_map (fun i => map (ix i) (seq 0 c)) (seq 0 r)) (i * c + j) = Some (ix i j).
Proof.
  assert (H : forall a, (i < r)%nat -> (j < c)%nat ->
    nth_error (flat_map (fun i => map (ix i) (seq 0 c)) (seq a r)) (i * c + j) = Some (ix (a + i)%nat j)).
  { revert i. induction r as [|r IH]; intros i a Hi Hj; [lia|]. cbn [seq flat_map].
    destruct i as [|i].
    - rewrite nth_error_app1 by (rewrite map_length, seq_length; lia). cbn [Nat.mul plus].
      rewrite (map_nth_error (ix a) j (seq 0 c) (d := j)); [rewrite Nat.add_0_r; reflexivity|].
      rewrite (nth_error_nth' _ 0%nat) by (rewrite seq_length; exact Hj). rewrite seq_nth by exact Hj. reflexivity.
    - rewrite nth_error_app2 by (rewrite map_length, seq_length; cbn; lia). rewrite map_length, seq_length.
      replace (S i * c + j - c)%nat with (i * c + j)%nat by (cbn; lia). rewrite IH by lia. do 2 f_equal. lia. }
  intros Hi Hj. rewrite (H 0%nat Hi Hj). reflexivity.
Qed.
Lemma same_part x m m' : int_part x (Z.of_nat m) -> int_part x (Z.of_nat m') -> m = m'.
Proof.
  intros [A1 A2] [B1 B2]. apply Nat2Z.inj.
  assert (C1 : IZR (Z.of_nat m') < IZR (Z.of_nat m + 1)) by (rewrite plus_IZR; lra).
  assert (C2 : IZR (Z.of_nat m) < IZR (Z.of_nat m' + 1)) by (rewrite plus_IZR; lra).
  apply lt_IZR in C1, C2. lia.
Qed.

Section Index.
Context (G : Rng RNum) (d : nat) (b : Base G (vec RNum)) (tk : list R) (xt : list (nat -> R)) (t0 dt : R) (n : nat) (n_obs : dens RNum) (f : R) (m : nat).
Hypothesis Htk : b_tk b = Some tk.
Hypothesis Hxt : b_xt b = Some xt.
Hypothesis Hg : uniform_grid t0 dt n tk.
Hypothesis Hn : (2 <= n)%nat.
Hypothesis Hdt : 0 < dt.
Hypothesis Hl : length xt = n.
Hypothesis Hf : density_is n_obs f /\ 0 <= f.
Hypothesis Hc : fits_step f dt.
Hypothesis Hm : int_part (INR (n - 1) * dt * f) (Z.of_nat m).
Lemma index_ready : (m + 1 <= n)%nat /\ obs_indexes (K:=RNum) n_obs tk = Ok (m, spread_ix n m) /\ spread n m (spread_ix n m) /\
  take (xt : list (vec RNum)) (spread_ix n m) = Ok (map (fun i => nth i xt vzero0) (spread_ix n m)).
Proof.
  destruct (obs_indexes_R t0 dt n tk n_obs Hg Hn Hdt Hf Hc) as (m' & Hm' & Hmn & E).
  rewrite (same_part _ _ _ Hm' Hm) in *. pose proof (spread_ix_spec n m Hmn) as Hs.
  split; [exact Hmn|]. split; [exact E|]. split; [exact Hs|].
  apply (take_ok (xt : list (vec RNum)) vzero0). intros i Hi. apply (spread_in n m _ Hs) in Hi.
  apply Nat.lt_le_trans with n; [lia|]. apply Nat.eq_le_incl. symmetry. exact Hl.
Qed.
Lemma one_index z c rn v : counted d z c ->
  (exists r, rn = A0 (K:=RNum) r /\ forall i, v i = r) \/ rn = A1 (K:=RNum) m v \/ (exists w, rn = A1 (K:=RNum) 1 w /\ forall i, v i = w 0%nat) ->
  exists ts (ys u : list R) g, normals G m (b_rng b) = (u, g) /\
    collect_one G n_obs rn z d b = (Ok (ts, ys, rn), mkBase (Some xt) (Some tk) g) /\
    spread n m ts /\ length ys = m /\
    forall i, (i < m)%nat -> nth i ys 0 = nth (nth i ts 0%nat) xt vzero0 c + sqrt (v i) * nth i u 0.
Proof.
  intros Hz Hrn. destruct index_ready as (Hmn & E & Hs & Tk). set (ts := spread_ix n m) in *.
  assert (Hts : length ts = m) by apply Hs.
  destruct (normals G m (b_rng b)) as [u g] eqn:Eu.
  assert (Lu : @length R u = m) by (pose proof (normals_len G m (b_rng b)) as L; rewrite Eu in L; exact L).
  assert (Hsq : exists sq : nat -> R, noise1 m rn = Ok sq /\ forall i, (i < m)%nat -> sq i = sqrt (v i)).
  { destruct Hrn as [(r & -> & Hr)|[->|(w & -> & Hw)]]; cbn [noise1].
    - eexists. split; [reflexivity|]. intros i _. rewrite Hr. reflexivity.
    - rewrite Nat.eqb_refl. eexists. split; reflexivity.
    - destruct (Nat.eqb_spec 1 m) as [E1|E1]; (eexists; split; [reflexivity|]); intros i Hi; rewrite Hw; [|reflexivity].
      replace i with 0%nat by lia. reflexivity. }
  destruct Hsq as (sq & Es & Hsq).
  set (oy := map (fun x : nat -> R => x c) (map (fun i => nth i xt vzero0) ts)).
  set (e := map2 Rmult (map sq (seq 0 m)) u).
  assert (Hoy : @length R oy = m) by (unfold oy; rewrite !map_length; exact Hts).
  assert (Hsl : @length R (map sq (seq 0 m)) = m) by (rewrite map_length, seq_length; reflexivity).
  assert (He : @length R e = m) by (unfold e; rewrite map2_len; [exact Hsl|congruence]).
  exists ts, (map2 Rplus oy e), u, g. split; [reflexivity|]. split.
  - unfold collect_one. rewrite Htk, Hxt, E. cbn [bind]. rewrite Tk. cbn [bind]. rewrite (wrap_ok _ _ _ Hz). cbn [bind]. rewrite Eu, Es. cbn [bind].
    unfold same_len. match goal with |- context [Nat.eqb ?p ?q] => replace (Nat.eqb p q) with true
      by (symmetry; apply Nat.eqb_eq; transitivity m; [exact Hoy|symmetry; exact Lu]) end.
    cbn [bind]. unfold set_rng. rewrite Htk, Hxt. reflexivity.
  - split; [exact Hs|]. split; [rewrite map2_len; [exact Hoy|congruence]|].
    intros i Hi. rewrite (map2_nth Rplus 0 0 0) by (first [rewrite Hoy; exact Hi|congruence]). f_equal.
    + unfold oy. rewrite map_map. rewrite (nth_map_lt _ ts i 0%nat 0) by lia. reflexivity.
    + unfold e. rewrite (map2_nth Rmult 0 0 0) by (first [rewrite Hsl; exact Hi|congruence]). f_equal.
      rewrite map_seq_nth by exact Hi. apply Hsq, Hi.
Qed.
Section Table.
Context (r c : nat) (ix : nat -> nat -> Z) (q : nat -> nat -> nat) (rn : arr RNum).
Hypothesis Hq : forall i j, (i < r)%nat -> (j < c)%nat -> counted d (ix i j) (q i j).
Lemma table_ready : exists cols, wrap_all d (flat_map (fun i => map (ix i) (seq 0 c)) (seq 0 r)) = Ok cols /\
  forall i j, (i < r)%nat -> (j < c)%nat -> nth (i * c + j) cols 0%nat = q i j.
Proof.
  destruct (wrap_all_some d (flat_map (fun i => map (ix i) (seq 0 c)) (seq 0 r))) as (cols & E).
  { apply Forall_forall. intros z Hz'. apply in_flat_map in Hz'. destruct Hz' as (i & Hi & Hz'). apply in_map_iff in Hz'. destruct Hz' as (j & <- & Hj).
    apply in_seq in Hi, Hj. exists (q i j). apply Hq; lia. }
  exists cols. split; [exact E|]. intros i j Hi Hj.
  destruct (wrap_all_nth _ _ _ _ _ E (table_nth ix r c i j Hi Hj)) as (k & Ek & En).
  rewrite (wrap_ok _ _ _ (Hq i j Hi Hj)) in Ek. injection Ek as <-. apply nth_error_nth with (d := 0%nat) in En. exact En.
Qed.
Lemma table_many v : c <> 1%nat -> noise_diag_of c rn v ->
  exists u g, normals G (c * m) (b_rng b) = (u, g) /\
  ((m = r \/ m = 1%nat) -> exists ts ys C,
    collect_grid G n_obs rn r c ix d b = (Ok (ts, ys, A2 (K:=RNum) c c C), mkBase (Some xt) (Some tk) g) /\
    diagonal c C /\ (forall i, (i < c)%nat -> C i i = v i) /\ spread n m ts /\ length ys = m /\
    forall k i j, (k < m)%nat -> (i < r)%nat -> (j < c)%nat ->
      nth k ys (fun _ _ => 0) i j = nth (nth k ts 0%nat) xt vzero0 (q i j) + sqrt (v j) * nth (j * m + (if Nat.eqb m 1 then 0 else i)) u 0) /\
  (m <> r -> m <> 1%nat -> collect_grid G n_obs rn r c ix d b = (Err ValueError, mkBase (Some xt) (Some tk) g)).
Proof.
  intros Hc1 Hrn. destruct index_ready as (Hmn & E & Hs & Tk). set (ts := spread_ix n m) in *.
  assert (Hts : length ts = m) by apply Hs.
  destruct table_ready as (cols & Ew & Hcols). destruct (obs_noise_R _ _ _ Hrn) as (C & EC & HCd & HCv).
  destruct (normals G (c * m) (b_rng b)) as [u g] eqn:Eu. exists u, g. split; [reflexivity|].
  assert (Heq : collect_grid G n_obs rn r c ix d b =
    (if (Nat.eqb m r || Nat.eqb m 1)%bool
     then Ok (ts, map (fun y => fun i j => y i j + nth (if Nat.eqb m 1 then 0%nat else i) (map (noise_at (K:=RNum) c m (fun i j => sqrt (C i j)) u) (seq 0 m)) vzero0 j)
        (map (fun (x : nat -> R) => (fun i j => x (nth (i * c + j) cols 0%nat)) : nat -> nat -> R) (map (fun i => nth i xt vzero0) ts)), A2 (K:=RNum) c c C)
     else Err ValueError, mkBase (Some xt) (Some tk) g)).
  { unfold collect_grid. rewrite Htk, Hxt, E. cbn [bind]. rewrite Tk. cbn [bind]. rewrite Ew. cbn [bind].
    destruct (Nat.eqb_spec c 1) as [|_]; [contradiction|]. rewrite EC, Eu. unfold set_rng. rewrite Htk, Hxt. reflexivity. }
  rewrite Heq. split.
  - intros Hfit. assert (Hb : (Nat.eqb m r || Nat.eqb m 1)%bool = true).
    { apply orb_true_iff. rewrite !Nat.eqb_eq. exact Hfit. }
    rewrite Hb. rewrite map_map, map_map.
    set (F := fun t : nat => (fun i j => nth t xt vzero0 (nth (i * c + j) cols 0%nat) +
      nth (if Nat.eqb m 1 then 0%nat else i) (map (noise_at (K:=RNum) c m (fun i j => sqrt (C i j)) u) (seq 0 m)) vzero0 j) : nat -> nat -> R).
    exists ts, (map F ts), C. split; [reflexivity|]. split; [exact HCd|]. split; [exact HCv|]. split; [exact Hs|].
    split; [rewrite map_length; exact Hts|]. intros k i j Hk Hi Hj.
    transitivity (F (nth k ts 0%nat) i j); [exact (f_equal (fun g => g i j) (nth_map_lt F ts k 0%nat (fun _ _ => 0) ltac:(lia)))|]. unfold F.
    rewrite Hcols by assumption. f_equal. rewrite map_seq_nth.
    2:{ destruct (Nat.eqb_spec m 1); [lia|]. destruct Hfit; lia. }
    unfold noise_at, draws_matrix. set (row := if Nat.eqb m 1 then 0%nat else i).
    transitivity (Rsum c (fun k => sqrt (C j k) * nth (k * m + row) u 0)); [reflexivity|].
    rewrite (Rsum_single c _ j Hj).
    + rewrite HCv by exact Hj. reflexivity.
    + intros k' Hk' Hne. rewrite (HCd j k') by auto. rewrite sqrt_0. ring.
  - intros H1 H2. destruct (Nat.eqb_spec m r); [contradiction|]. destruct (Nat.eqb_spec m 1); [contradiction|]. reflexivity.
Qed.
(** a list of variances of another length: the draws have been made *)
Lemma table_refused k w : c <> 1%nat -> rn = A1 (K:=RNum) k w -> k <> c ->
  collect_grid G n_obs rn r c ix d b = (Err ValueError, mkBase (Some xt) (Some tk) (snd (normals G (c * m) (b_rng b)))).
Proof.
  intros Hc1 -> Hk. destruct index_ready as (Hmn & E & Hs & Tk). destruct table_ready as (cols & Ew & _).
  unfold collect_grid. rewrite Htk, Hxt, E. cbn [bind]. rewrite Tk. cbn [bind]. rewrite Ew. cbn [bind].
  destruct (Nat.eqb_spec c 1) as [|_]; [contradiction|]. cbn [obs_noise]. destruct (Nat.eqb_spec k c) as [|_]; [contradiction|].
  unfold set_rng. rewrite Htk, Hxt. reflexivity.
Qed.
(** one column *)
Lemma table_column : c = 1%nat ->
  exists u g, normals G m (b_rng b) = (u, g) /\
  (m <> 1%nat -> collect_grid G n_obs rn r c ix d b = (Err ValueError, mkBase (Some xt) (Some tk) g)) /\
  (m = 1%nat -> forall v,
     rn = A0 (K:=RNum) v \/ (exists w, rn = A1 (K:=RNum) 1 w /\ w 0%nat = v) \/ (exists w, rn = A2 (K:=RNum) 1 1 w /\ w 0%nat 0%nat = v) ->
     exists t y, collect_grid G n_obs rn r c ix d b = (Ok ([t], [y], rn), mkBase (Some xt) (Some tk) g) /\ spread n 1 [t] /\
       forall i, (i < r)%nat -> y i 0%nat = nth t xt vzero0 (q i 0%nat) + sqrt v * nth 0 u 0).
Proof.
  intros Hc1. destruct index_ready as (Hmn & E & Hs & Tk). set (ts := spread_ix n m) in *.
  assert (Hts : length ts = m) by apply Hs.
  destruct table_ready as (cols & Ew & Hcols). destruct (normals G m (b_rng b)) as [u g] eqn:Eu. exists u, g. split; [reflexivity|].
  assert (Lu : @length R u = m) by (pose proof (normals_len G m (b_rng b)) as L; rewrite Eu in L; exact L).
  assert (Heq : collect_grid G n_obs rn r c ix d b =
    (let* sq := noise_col m rn in
     Ok (ts, map2 (fun (y : nat -> nat -> R) (w : R) => (fun i j => y i j + sq * w) : nat -> nat -> R)
        (map (fun (x : nat -> R) => (fun i j => x (nth (i * c + j) cols 0%nat)) : nat -> nat -> R) (map (fun i => nth i xt vzero0) ts)) u, rn),
     mkBase (Some xt) (Some tk) g)).
  { unfold collect_grid. rewrite Htk, Hxt, E. cbn [bind]. rewrite Tk. cbn [bind]. rewrite Ew. cbn [bind].
    rewrite Hc1 at 1. cbn [Nat.eqb]. rewrite Eu. unfold set_rng. rewrite Htk, Hxt. reflexivity. }
  rewrite Heq. split.
  - intros H1. unfold noise_col. destruct (Nat.eqb_spec m 1); [contradiction|]. reflexivity.
  - intros H1 v Hv. destruct ts as [|t [|t' ts']]; cbn in Hts; try lia. destruct u as [|w [|w' u']]; cbn in Lu; try lia.
    assert (Hsq : noise_col m rn = Ok (sqrt v)).
    { unfold noise_col. rewrite H1. cbn [Nat.eqb]. destruct Hv as [->|[(w0 & -> & <-)|(w0 & -> & <-)]]; reflexivity. }
    rewrite Hsq. cbn [bind map map2]. do 2 eexists. split; [reflexivity|]. split.
    + rewrite <- H1 at 1. exact Hs.
    + intros i Hi. cbn [nth]. rewrite Hcols by lia. reflexivity.
Qed.
End Table.
End Index.
