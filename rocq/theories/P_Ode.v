(** * Proofs about the ODE solvers: loops as recurrences, any arithmetic. *)
From Coq Require Import ZArith Bool String Ascii Lia.
From Coq Require Import List.
From Verif Require Import Num Arr M_Ode.
Import ListNotations.

Section Loops.
Context {K : Num} (P : Sys K).
Notation M := (VM P).
Notation S_ := (VS P).

Fixpoint traj (body : nat -> M -> S_ -> M * S_) (m0 : M) (s0 : S_) (k : nat) : M * S_ :=
  match k with
  | O => (m0, s0)
  | S k' => body k' (fst (traj body m0 s0 k')) (snd (traj body m0 s0 k'))
  end.

(** j steps from the end *)
Fixpoint btraj (body : nat -> M -> S_ -> M * S_) (n : nat) (j : nat) : M * S_ :=
  match j with
  | O => (vzero M, vzero S_)
  | S j' => body (n - 1 - j') (fst (btraj body n j')) (snd (btraj body n j'))
  end.

Definition fstep (body : nat -> M -> S_ -> M * S_) :=
  fun '(mt, st) k =>
       let '(m, s) := body k (gm P mt k) (ga P st k) in
       (upd (k + 1) m mt, upd (k + 1) s st).
Definition bstep (body : nat -> M -> S_ -> M * S_) :=
  fun '(lam, psi) t =>
       let '(l, p) := body t (gm P lam t) (ga P psi t) in
       (upd (t - 1) l lam, upd (t - 1) p psi).

Lemma fwd_fold body n m0 s0 j :
  0 < n -> j <= n - 1 ->
  let r := fold_left (fstep body) (seq 0 j)
             (upd 0 m0 (repeat (vzero M) n), upd 0 s0 (repeat (vzero S_) n)) in
  length (fst r) = n /\ length (snd r) = n /\
  forall k, k <= j -> (gm P (fst r) k, ga P (snd r) k) = traj body m0 s0 k.
Proof.
  intros Hn. induction j as [|j IH]; intros Hj.
  - cbn [seq fold_left fst snd]. rewrite !upd_length, !repeat_length.
    repeat split; auto. intros k Hk. replace k with 0 by lia. unfold gm, ga.
    rewrite !nth_upd_same by (rewrite repeat_length; lia). reflexivity.
  - cbv zeta. rewrite seq_S, fold_left_app. cbn [fold_left Nat.add].
    specialize (IH ltac:(lia)). cbv zeta in IH.
    destruct (fold_left (fstep body) (seq 0 j) _) as [mt st] eqn:E.
    cbn [fst snd] in IH. destruct IH as (L1 & L2 & IH).
    unfold fstep at 1 2 3 4. destruct (body j (gm P mt j) (ga P st j)) as [m s] eqn:Eb.
    cbn [fst snd]. rewrite !upd_length. repeat split; auto.
    intros k Hk. destruct (Nat.eq_dec k (j + 1)) as [->|Hne].
    + unfold gm, ga. rewrite !nth_upd_same by lia.
      replace (j + 1) with (S j) by lia. cbn [traj].
      rewrite <- (IH j) by lia. cbn [fst snd]. now rewrite Eb.
    + unfold gm, ga. rewrite !nth_upd_other by lia. apply IH; lia.
Qed.

Lemma fwd_loop_spec body n m0 s0 :
  0 < n ->
  let r := fwd_loop P body n m0 s0 in
  length (fst r) = n /\ length (snd r) = n /\
  forall k, k < n -> (gm P (fst r) k, ga P (snd r) k) = traj body m0 s0 k.
Proof.
  intros Hn. destruct (fwd_fold body n m0 s0 (n - 1) Hn (le_n _)) as (A & B & C).
  unfold fwd_loop. fold (fstep body). repeat split; auto.
  intros k Hk. apply C; lia.
Qed.

Lemma rev_seq_snoc a j : rev (seq a (S j)) = rev (seq (S a) j) ++ [a].
Proof. reflexivity. Qed.

Lemma bwd_fold body n j :
  j <= n - 1 ->
  let r := fold_left (bstep body) (rev (seq (n - j) j))
             (repeat (vzero M) n, repeat (vzero S_) n) in
  length (fst r) = n /\ length (snd r) = n /\
  (0 < n -> forall i, i <= j -> (gm P (fst r) (n - 1 - i), ga P (snd r) (n - 1 - i)) = btraj body n i).
Proof.
  induction j as [|j IH]; intros Hj.
  - cbn [seq rev fold_left fst snd]. rewrite !repeat_length.
    repeat split; auto. intros Hn i Hi. replace i with 0 by lia. unfold gm, ga.
    rewrite !nth_repeat. reflexivity.
  - cbv zeta. rewrite rev_seq_snoc, fold_left_app. cbn [fold_left].
    replace (S (n - S j)) with (n - j) by lia.
    specialize (IH ltac:(lia)). cbv zeta in IH.
    destruct (fold_left (bstep body) (rev (seq (n - j) j)) _) as [mt st] eqn:E.
    cbn [fst snd] in IH. destruct IH as (L1 & L2 & IH).
    unfold bstep at 1 2 3 4.
    destruct (body (n - S j) (gm P mt (n - S j)) (ga P st (n - S j))) as [m s] eqn:Eb.
    cbn [fst snd]. rewrite !upd_length. repeat split; auto.
    intros Hn i Hi. destruct (Nat.eq_dec i (S j)) as [->|Hne].
    + unfold gm, ga. replace (n - 1 - S j) with (n - S j - 1) by lia.
      rewrite !nth_upd_same by lia. cbn [btraj].
      rewrite <- (IH Hn j) by lia. cbn [fst snd].
      replace (n - 1 - j) with (n - S j) by lia. now rewrite Eb.
    + unfold gm, ga. rewrite !nth_upd_other by lia. apply IH; lia.
Qed.

Lemma bwd_loop_spec body n :
  let r := bwd_loop P body n in
  length (fst r) = n /\ length (snd r) = n /\
  forall t, t < n -> (gm P (fst r) t, ga P (snd r) t) = btraj body n (n - 1 - t).
Proof.
  destruct (bwd_fold body n (n - 1) (le_n _)) as (A & B & C).
  unfold bwd_loop. fold (bstep body).
  destruct n as [|n].
  - cbn. repeat split; auto. intros; lia.
  - replace (S n - (S n - 1)) with 1 in * by lia.
    repeat split; auto.
    intros t Ht. specialize (C ltac:(lia) (S n - 1 - t) ltac:(lia)).
    replace (S n - 1 - (S n - 1 - t)) with t in C by lia. exact C.
Qed.

(** What a successful solve_fwd returns. *)
Lemma solve_fwd_ok mtd dt lin_a off_b m0 s0 sigma mt st :
  solve_fwd P mtd dt lin_a off_b m0 s0 sigma = Ok (mt, st) ->
  0 < length off_b /\ length mt = length off_b /\ length st = length off_b /\
  forall k, k < length off_b ->
    (gm P mt k, ga P st k) = traj (fwd_body P mtd dt lin_a off_b sigma) m0 s0 k.
Proof.
  unfold solve_fwd. destruct (fwd_reads_ok _ _ _) eqn:E; [|discriminate].
  intros H; injection H as H.
  assert (Hn : 0 < length off_b).
  { unfold fwd_reads_ok in E. destruct (Nat.eqb_spec (length off_b) 0); cbn in E; [discriminate|lia]. }
  pose proof (fwd_loop_spec (fwd_body P mtd dt lin_a off_b sigma) _ m0 s0 Hn) as (A & B & C).
  rewrite H in *. cbn [fst snd] in *. auto.
Qed.

Lemma solve_fwd_step mtd dt lin_a off_b m0 s0 sigma mt st k :
  solve_fwd P mtd dt lin_a off_b m0 s0 sigma = Ok (mt, st) ->
  k + 1 < length off_b ->
  (gm P mt (k + 1), ga P st (k + 1)) =
  fwd_body P mtd dt lin_a off_b sigma k (gm P mt k) (ga P st k).
Proof.
  intros H Hk. destruct (solve_fwd_ok _ _ _ _ _ _ _ _ _ H) as (_ & _ & _ & C).
  rewrite (C (k + 1)) by lia. pose proof (C k ltac:(lia)) as Ck.
  replace (k + 1) with (S k) by lia. cbn [traj]. rewrite <- Ck. reflexivity.
Qed.

Lemma solve_fwd_total mtd dt lin_a off_b m0 s0 sigma :
  length off_b <= length lin_a -> 0 < length off_b ->
  exists mt st, solve_fwd P mtd dt lin_a off_b m0 s0 sigma = Ok (mt, st).
Proof.
  intros H1 H2. unfold solve_fwd.
  assert (E : fwd_reads_ok mtd (length off_b) (length lin_a) = true).
  { unfold fwd_reads_ok. destruct (Nat.eqb_spec (length off_b) 0); [lia|].
    destruct mtd; cbn [negb andb orb]; rewrite ?orb_true_iff, ?Nat.leb_le; lia. }
  rewrite E. destruct (fwd_loop _ _ _ _ _) as [mt st]. eauto.
Qed.

Lemma solve_bwd_ok mtd dt lin_a dm ds om os lam psi :
  solve_bwd P mtd dt lin_a dm ds om os = Ok (lam, psi) ->
  length lam = length dm /\ length psi = length dm /\
  forall t, t < length dm ->
    (gm P lam t, ga P psi t) =
    btraj (bwd_body P mtd dt lin_a dm ds om os) (length dm) (length dm - 1 - t).
Proof.
  unfold solve_bwd. destruct (bwd_reads_ok _ _ _ _ _) eqn:E; [|discriminate].
  intros H; injection H as H.
  pose proof (bwd_loop_spec (bwd_body P mtd dt lin_a dm ds om os) (length dm)) as (A & B & C).
  rewrite H in *. cbn [fst snd] in *. auto.
Qed.

Lemma solve_bwd_step mtd dt lin_a dm ds om os lam psi t :
  solve_bwd P mtd dt lin_a dm ds om os = Ok (lam, psi) ->
  t + 1 < length dm ->
  (gm P lam t, ga P psi t) =
  bwd_body P mtd dt lin_a dm ds om os (t + 1) (gm P lam (t + 1)) (ga P psi (t + 1)).
Proof.
  intros H Ht. destruct (solve_bwd_ok _ _ _ _ _ _ _ _ _ H) as (_ & _ & C).
  rewrite (C t) by lia. pose proof (C (t + 1) ltac:(lia)) as C1.
  replace (length dm - 1 - t) with (S (length dm - 1 - (t + 1))) by lia.
  cbn [btraj]. rewrite <- C1. cbn [fst snd]. f_equal; lia.
Qed.

Lemma solve_bwd_total mtd dt lin_a dm ds om os :
  length dm <= length lin_a -> length dm <= length ds ->
  length dm - 1 <= length om -> length dm - 1 <= length os ->
  exists lam psi, solve_bwd P mtd dt lin_a dm ds om os = Ok (lam, psi).
Proof.
  intros H1 H2 H3 H4. unfold solve_bwd.
  assert (E : bwd_reads_ok (length dm) (length lin_a) (length ds) (length om) (length os) = true).
  { unfold bwd_reads_ok. rewrite orb_true_iff, !andb_true_iff, !Nat.leb_le. lia. }
  rewrite E. destruct (bwd_loop _ _ _) as [lam psi]. eauto.
Qed.

Lemma solve_fwd_lengths mtd dt lin_a off_b m0 s0 sigma :
  let enough := (1 <= length off_b)%nat /\
    (length off_b = 1 \/ length off_b <= length lin_a \/ (mtd = Euler /\ length off_b = length lin_a + 1))%nat in
  (enough -> exists mt st, solve_fwd P mtd dt lin_a off_b m0 s0 sigma = Ok (mt, st)) /\
  (~ enough -> solve_fwd P mtd dt lin_a off_b m0 s0 sigma = Err IndexError).
Proof.
  intros enough. unfold solve_fwd.
  assert (E : fwd_reads_ok mtd (length off_b) (length lin_a) = true <-> enough).
  { unfold fwd_reads_ok, enough. destruct (Nat.eqb_spec (length off_b) 0) as [->|]; cbn [negb andb]; [split; [discriminate|lia]|].
    destruct mtd; rewrite ?orb_true_iff, ?Nat.leb_le; split; intros H.
    all: try (split; [lia|]).
    all: try (destruct (Nat.eq_dec (length off_b) 1); [tauto|]; destruct (Nat.le_gt_cases (length off_b) (length lin_a)); [tauto|]; right; right; split; [reflexivity|lia]).
    all: try lia.
    all: destruct H as [_ [H|[H|[H _]]]]; try discriminate; lia. }
  destruct (fwd_reads_ok mtd (length off_b) (length lin_a)).
  - split; [intros _; destruct (fwd_loop _ _ _ _ _) as [mt st]; eauto|]. intros N. destruct N. apply E. reflexivity.
  - split; [intros H; apply E in H; discriminate|reflexivity].
Qed.
Lemma solve_bwd_lengths mtd dt lin_a dm ds om os :
  let enough := (length dm <= 1 \/
    (length dm <= length lin_a /\ length dm <= length ds /\ length dm <= length om + 1 /\ length dm <= length os + 1))%nat in
  (enough -> exists lam psi, solve_bwd P mtd dt lin_a dm ds om os = Ok (lam, psi)) /\
  (~ enough -> solve_bwd P mtd dt lin_a dm ds om os = Err IndexError).
Proof.
  intros enough. unfold solve_bwd.
  assert (E : bwd_reads_ok (length dm) (length lin_a) (length ds) (length om) (length os) = true <-> enough).
  { unfold bwd_reads_ok, enough. rewrite orb_true_iff, !andb_true_iff, !Nat.leb_le. lia. }
  destruct (bwd_reads_ok _ _ _ _ _).
  - split; [intros _; destruct (bwd_loop _ _ _) as [lam psi]; eauto|]. intros N. destruct N. apply E. reflexivity.
  - split; [intros H; apply E in H; discriminate|reflexivity].
Qed.

(** Boundary values *)
Lemma solve_fwd_shape mtd dt lin_a off_b m0 s0 sigma mt st :
  solve_fwd P mtd dt lin_a off_b m0 s0 sigma = Ok (mt, st) ->
  length mt = length off_b /\ length st = length off_b /\
  nth_error mt 0 = Some m0 /\ nth_error st 0 = Some s0.
Proof.
  intros H. destruct (solve_fwd_ok _ _ _ _ _ _ _ _ _ H) as (Hn & A & B & C).
  repeat split; auto; specialize (C 0 Hn); cbn in C; injection C as C1 C2.
  - rewrite (nth_error_nth' mt (vzero M)) by lia. unfold gm in C1. congruence.
  - rewrite (nth_error_nth' st (vzero S_)) by lia. unfold ga in C2. congruence.
Qed.

Lemma solve_bwd_shape mtd dt lin_a dm ds om os lam psi :
  solve_bwd P mtd dt lin_a dm ds om os = Ok (lam, psi) ->
  length lam = length dm /\ length psi = length dm /\
  (dm <> [] -> nth_error lam (length dm - 1) = Some (vzero M) /\
               nth_error psi (length dm - 1) = Some (vzero S_)).
Proof.
  intros H. destruct (solve_bwd_ok _ _ _ _ _ _ _ _ _ H) as (A & B & C).
  repeat split; auto.
  all: assert (Hn : 0 < length dm) by (destruct dm; [congruence|cbn; lia]).
  all: specialize (C (length dm - 1) ltac:(lia)); rewrite Nat.sub_diag in C;
       cbn in C; injection C as C1 C2.
  - rewrite (nth_error_nth' lam (vzero M)) by lia. unfold gm in C1. congruence.
  - rewrite (nth_error_nth' psi (vzero S_)) by lia. unfold ga in C2. congruence.
Qed.

(** mid points *)
Lemma nth_removelast {A} (l : list A) k d : k + 1 < length l -> nth k (removelast l) d = nth k l d.
Proof.
  revert k; induction l as [|a l IH]; intros k H; [cbn in H; lia|].
  destruct l as [|b l]; [cbn in H; lia|].
  destruct k as [|k]; [reflexivity|].
  change (removelast (a :: b :: l)) with (a :: removelast (b :: l)).
  cbn [nth]. apply IH. cbn in *; lia.
Qed.
Lemma length_removelast {A} (l : list A) : length (removelast l) = length l - 1.
Proof.
  induction l as [|a [|b l] IH]; auto.
  change (removelast (a :: b :: l)) with (a :: removelast (b :: l)).
  cbn [length]. rewrite IH. cbn; lia.
Qed.
Lemma nth_tl {A} (l : list A) k d : nth k (tl l) d = nth (k + 1) l d.
Proof. replace (k + 1) with (S k) by lia. destruct l; [now destruct k|reflexivity]. Qed.
Lemma length_tl' {A} (l : list A) : length (tl l) = length l - 1.
Proof. destruct l; cbn; lia. Qed.

Lemma mids_length {V : Val K} (x : list V) : length (mids x) = length x - 1.
Proof. unfold mids. rewrite map2_length, length_removelast, length_tl'. lia. Qed.
Lemma nth_mids {V : Val K} (x : list V) k d :
  k + 1 < length x ->
  nth k (mids x) d = vscale half (vadd (nth k x d) (nth (k + 1) x d)).
Proof.
  intros H. unfold mids.
  rewrite (nth_map2 _ _ _ _ d d) by (rewrite ?length_removelast, ?length_tl'; lia).
  now rewrite nth_removelast, nth_tl.
Qed.
Lemma nth_mids_app {V : Val K} (x : list V) k d z :
  k + 1 < length x ->
  nth k (mids x ++ [z]) d = vscale half (vadd (nth k x d) (nth (k + 1) x d)).
Proof. intros H. rewrite app_nth1 by (rewrite mids_length; lia). now apply nth_mids. Qed.

(** Causality: the forward body at index k reads the parameters at k and k+1 only. *)
Lemma fwd_body_agree mtd dt A A' b b' sigma k :
  k + 1 < length A -> k + 1 < length A' -> k + 1 < length b -> k + 1 < length b' ->
  ga P A k = ga P A' k -> ga P A (k + 1) = ga P A' (k + 1) ->
  gm P b k = gm P b' k -> gm P b (k + 1) = gm P b' (k + 1) ->
  forall m s, fwd_body P mtd dt A b sigma k m s = fwd_body P mtd dt A' b' sigma k m s.
Proof.
  intros LA LA' Lb Lb' HA HA1 Hb Hb1 m s. unfold ga, gm in *.
  destruct mtd; cbn [fwd_body].
  - unfold euler_fwd_body, ga, gm. now rewrite HA, Hb.
  - unfold heun_fwd_body, ga, gm. now rewrite HA, Hb, HA1, Hb1.
  - unfold rk2_fwd_body, ga, gm. rewrite !nth_mids by assumption.
    now rewrite HA, Hb, HA1, Hb1.
  - unfold rk4_fwd_body, ga, gm. rewrite !nth_mids by assumption.
    now rewrite HA, Hb, HA1, Hb1.
Qed.

Lemma solve_fwd_causal mtd dt A A' b b' m0 s0 sigma mt st mt' st' k :
  length A = length b -> length A' = length b' ->
  k < length b -> k < length b' ->
  (forall j, j <= k -> ga P A j = ga P A' j /\ gm P b j = gm P b' j) ->
  solve_fwd P mtd dt A b m0 s0 sigma = Ok (mt, st) ->
  solve_fwd P mtd dt A' b' m0 s0 sigma = Ok (mt', st') ->
  gm P mt k = gm P mt' k /\ ga P st k = ga P st' k.
Proof.
  intros LA LA' Lb Lb' Hag H H'.
  destruct (solve_fwd_ok _ _ _ _ _ _ _ _ _ H) as (_ & _ & _ & C).
  destruct (solve_fwd_ok _ _ _ _ _ _ _ _ _ H') as (_ & _ & _ & C').
  assert (E : forall j, j <= k ->
    traj (fwd_body P mtd dt A b sigma) m0 s0 j = traj (fwd_body P mtd dt A' b' sigma) m0 s0 j).
  { induction j as [|j IH]; intros Hj; [reflexivity|].
    cbn [traj]. rewrite <- IH by lia.
    apply fwd_body_agree; try lia; try (apply Hag; lia). }
  specialize (C k Lb). specialize (C' k Lb'). rewrite E in C by lia.
  rewrite <- C' in C. now injection C.
Qed.

(** Anti-causality of the backward sweep w.r.t. the observation jumps. *)
Lemma bwd_body_agree mtd dt A dm ds om om' os os' t :
  gm P om (t - 1) = gm P om' (t - 1) -> ga P os (t - 1) = ga P os' (t - 1) ->
  forall l p, bwd_body P mtd dt A dm ds om os t l p = bwd_body P mtd dt A dm ds om' os' t l p.
Proof.
  intros H1 H2 l p. unfold gm, ga in *.
  destruct mtd; cbn [bwd_body];
    unfold euler_bwd_body, heun_bwd_body, rk2_bwd_body, rk4_bwd_body, gm, ga;
    now rewrite H1, H2.
Qed.

Lemma solve_bwd_later mtd dt A dm ds om om' os os' lam psi lam' psi' j :
  (forall t, j < t -> t + 1 < length dm -> gm P om t = gm P om' t /\ ga P os t = ga P os' t) ->
  solve_bwd P mtd dt A dm ds om os = Ok (lam, psi) ->
  solve_bwd P mtd dt A dm ds om' os' = Ok (lam', psi') ->
  forall t, j < t -> t < length dm -> gm P lam t = gm P lam' t /\ ga P psi t = ga P psi' t.
Proof.
  intros Hag H H'.
  destruct (solve_bwd_ok _ _ _ _ _ _ _ _ _ H) as (_ & _ & C).
  destruct (solve_bwd_ok _ _ _ _ _ _ _ _ _ H') as (_ & _ & C').
  assert (E : forall i, j < length dm - 1 - i -> i < length dm ->
     btraj (bwd_body P mtd dt A dm ds om os) (length dm) i =
     btraj (bwd_body P mtd dt A dm ds om' os') (length dm) i).
  { induction i as [|i IH]; intros Hj Hi; [reflexivity|].
    cbn [btraj]. rewrite <- IH by lia. apply bwd_body_agree; apply Hag; lia. }
  intros t Hj Ht. specialize (C t Ht). specialize (C' t Ht).
  rewrite E in C by lia. rewrite <- C' in C. now injection C.
Qed.

End Loops.

(** ** Solver selection *)
Lemma lookup_num_integration s m :
  lookup s num_integration = Some m <->
  (s = "euler" /\ m = Euler \/ s = "heun" /\ m = Heun \/
   s = "rk2" /\ m = RK2 \/ s = "rk4" /\ m = RK4)%string.
Proof.
  cbn. repeat (match goal with |- context [String.eqb s ?k] =>
     destruct (String.eqb_spec s k) as [->|]; cbn end).
  all: split; [intros H; try discriminate; injection H as <-; tauto
              | intros H; repeat (destruct H as [[? ->]|H]); try discriminate; try congruence;
                try (destruct H as [? ->]; congruence)].
Qed.
