(** * check_gradient_function *)
From Coq Require Import ZArith List Bool Arith Reals Lra Lia Psatz.
From Coquelicot Require Import Coquelicot.
From Verif Require Import Num Arr ArrFacts M_Utils M_Scg M_Check Spec_Utils Spec_Check P_Utils P_Like.
Import ListNotations.
Local Open Scope R_scope.

Section S.
Context {W : Type} (fn : list R -> R) (gr : list R -> list R) (st : list R -> W -> W) (sd : list R -> W -> W).
Context (f : list R -> W -> result R * W) (df : list R -> bool -> W -> result (list R) * W).
Context (Hf : forall p w, f p w = (Ok (fn p), st p w)) (Hdf : forall p w, df p true w = (Ok (gr p), sd p w)).

Lemma fd_run_pure (x : list R) i todo s w :
  fd_run (K := RNum) f x (length x) i todo s w =
  (Ok (map (cdiff fn x) (seq i todo)), s,
   fold_left (fun w p => st p w) (flat_map (fun k => [move k hstep x; move k (- hstep) x]) (seq i todo)) w).
Proof.
  revert i w; induction todo as [|todo IH]; intros i w; [reflexivity|].
  cbn [fd_run seq map flat_map app fold_left]. rewrite delta_h_eq.
  change (@nadd RNum) with Rplus. change (@nsub RNum) with Rminus. change (@nZ RNum 0) with 0.
  rewrite step_plus, step_minus by reflexivity.
  unfold mbind at 1. unfold call_f at 1. rewrite Hf. unfold mbind at 1. unfold call_f at 1. rewrite Hf.
  unfold mbind at 1. rewrite IH. unfold ret. cbn [app fold_left].
  assert (Eg : @ndiv RNum (@nmul RNum (@nlit RNum 1 2) (fn (move i hstep x) - fn (move i (- hstep) x))) hstep
               = cdiff fn x i).
  { unfold cdiff; rnum. assert (Hh : 0 < hstep) by (apply Rinv_0_lt_compat, pow_lt; lra). field. lra. }
  rewrite Eg. reflexivity.
Qed.
End S.

Lemma norm2_enorm (v : list R) : norm2 (K := RNum) v = enorm (length v) (fun i => nth i v 0).
Proof.
  unfold norm2, enorm, ldot. rewrite suml_R. rnum. f_equal.
  assert (L : @length R (map2 Rmult v v) = length v) by (rewrite map2_length; apply Nat.min_id).
  change (@length (car RNum)) with (@length R). rewrite L.
  apply sumn_ext. intros i Hi.
  assert (H : forall (u w : list R) k, (k < length u)%nat -> (k < length w)%nat -> nth k (map2 Rmult u w) 0 = nth k u 0 * nth k w 0).
  { clear. induction u as [|a u IH]; intros w k H1 H2; [cbn in H1; lia|]. destruct w as [|b w]; [cbn in H2; lia|].
    destruct k; cbn; [reflexivity|]. apply IH; cbn in *; lia. }
  rewrite (H v v i Hi Hi). ring.
Qed.
Lemma lsub_nth (u w : list R) k : length u = length w -> nth k (lsub (K := RNum) u w) 0 = nth k u 0 - nth k w 0.
Proof.
  revert w k. induction u as [|a u IH]; intros [|b w] k H; try discriminate.
  - destruct k; cbn; ring.
  - destruct k; cbn; [reflexivity|]. apply IH. cbn in H; lia.
Qed.
Lemma lsub_length (u w : list R) : length u = length w -> @length R (lsub (K := RNum) u w) = length u.
Proof. intros H. unfold lsub. rewrite map2_length. change (@length (car RNum)) with (@length R). lia. Qed.
Lemma enorm_ext n u v : (forall i, (i < n)%nat -> u i = v i) -> enorm n u = enorm n v.
Proof. intros H. unfold enorm. f_equal. apply sumn_ext. intros i Hi. now rewrite H. Qed.

Theorem check_result {W} (fn : list R -> R) (gr : list R -> list R) (stf std : list R -> W -> W)
   (f : list R -> W -> result R * W) (df : list R -> bool -> W -> result (list R) * W) (x : list R) tol s w :
  (forall p w, f p w = (Ok (fn p), stf p w)) -> (forall p w, df p true w = (Ok (gr p), std p w)) ->
  length (gr x) = length x ->
  let n := length x in
  let h := / 10 ^ 6 in
  let g := fun i => nth i (gr x) 0 in
  let c := central h fn x in
  let dist := enorm n (fun i => g i - c i) in
  exists passed,
  check_gradient (K := RNum) f df x tol s w =
    (Ok (dist / (enorm n g + enorm n c), passed), s, fold_left (fun w p => stf p w) (central_points h x) (std x w)) /\
  (passed = true <-> dist / INR n <= match tol with Some t => t | None => / 10 ^ 4 end).
Proof.
  intros Hf Hdf HL n h g c dist.
  set (T := match tol with Some t => t | None => / 10 ^ 4 end).
  exists (Rleb (dist / INR n) T). split; [|split; intros H; destruct (Rleb_spec (dist / INR n) T); auto; congruence].
  unfold check_gradient, mbind at 1, call_df. rewrite Hdf. unfold mbind.
  rewrite (fd_run_pure fn stf f Hf). unfold ret.
  set (cn := map (cdiff fn x) (seq 0 (length x))).
  assert (LC : @length R cn = n) by (unfold cn, n; now rewrite map_length, seq_length).
  assert (Ec : forall i, (i < n)%nat -> nth i cn 0 = c i).
  { intros i Hi. unfold cn. rewrite (nth_indep _ 0 (cdiff fn x 0)) by (rewrite map_length, seq_length; exact Hi).
    rewrite map_nth, seq_nth by exact Hi. reflexivity. }
  assert (N1 : norm2 (K := RNum) (gr x) = enorm n g).
  { rewrite norm2_enorm. change (@length (car RNum)) with (@length R). rewrite HL. reflexivity. }
  assert (N2 : norm2 (K := RNum) cn = enorm n c).
  { rewrite norm2_enorm. rewrite LC. apply enorm_ext. exact Ec. }
  assert (N3 : norm2 (K := RNum) (lsub (K := RNum) (gr x) cn) = dist).
  { assert (HL2 : @length R (gr x) = @length R cn) by (rewrite LC; exact HL).
    rewrite norm2_enorm, lsub_length by exact HL2. rewrite HL. apply enorm_ext. intros i Hi.
    rewrite lsub_nth by exact HL2. rewrite Ec by exact Hi. reflexivity. }
  change ((Ok (@ndiv RNum (norm2 (K := RNum) (lsub (K := RNum) (gr x) cn)) (@nadd RNum (norm2 (K := RNum) (gr x)) (norm2 (K := RNum) cn)),
     Rleb (@ndiv RNum (norm2 (K := RNum) (lsub (K := RNum) (gr x) cn)) (nZ (K := RNum) (Z.of_nat n))) (check_tol (K := RNum) tol)), s,
     fold_left (fun w p => stf p w) (central_points h x) (std x w)) =
    (Ok (dist / (enorm n g + enorm n c), Rleb (dist / INR n) T), s, fold_left (fun w p => stf p w) (central_points h x) (std x w))).
  rewrite N1, N2, N3.
  assert (ET : check_tol (K := RNum) tol = T).
  { unfold T, check_tol. destruct tol; cbn [or_default]; [reflexivity|]. rnum. lra. }
  assert (EN : nZ (K := RNum) (Z.of_nat n) = INR n) by (rnum; symmetry; apply INR_IZR_INZ).
  rewrite ET, EN. reflexivity.
Qed.

(** ** norms *)
Lemma rsum_sq_nonneg n u : 0 <= Rsum n (fun i => u i ^ 2).
Proof. apply (sumn_nonneg n). intros. apply pow2_ge_0. Qed.
Lemma enorm_nonneg n u : 0 <= enorm n u.
Proof. apply sqrt_pos. Qed.
Lemma enorm_coord n u i : (i < n)%nat -> Rabs (u i) <= enorm n u.
Proof.
  intros Hi. rewrite <- sqrt_Rsqr_abs. apply sqrt_le_1_alt. unfold Rsqr.
  replace (u i * u i) with (u i ^ 2) by ring.
  apply (sumn_ge_term n (fun i => u i ^ 2) i); [intros; apply pow2_ge_0|exact Hi].
Qed.
Lemma enorm_bound n u b : 0 <= b -> (forall i, (i < n)%nat -> Rabs (u i) <= b) -> enorm n u <= INR n * b.
Proof.
  intros Hb H. unfold enorm.
  assert (H1 : Rsum n (fun i => u i ^ 2) <= (INR n * b) ^ 2).
  { apply Rle_trans with (Rsum n (fun _ => b ^ 2)).
    - apply (sumn_le n). intros i Hi. rewrite <- (pow2_abs (u i)). apply pow_incr. split; [apply Rabs_pos|auto].
    - change (Rsum n (fun _ => b ^ 2)) with (rsum n (fun _ => b ^ 2)). rewrite sumn_const.
      destruct n; [cbn; nra|]. assert (1 <= INR (S n)) by (rewrite S_INR; pose proof (pos_INR n); lra).
      rewrite Rpow_mult_distr. apply Rmult_le_compat_r; [apply pow2_ge_0|]. nra. }
  apply Rle_trans with (sqrt ((INR n * b) ^ 2)); [apply sqrt_le_1_alt, H1|].
  rewrite sqrt_pow2; [lra|]. apply Rmult_le_pos; [apply pos_INR|exact Hb].
Qed.
Lemma cauchy_rsum n u v : Rsum n (fun i => u i * v i) ^ 2 <= Rsum n (fun i => u i ^ 2) * Rsum n (fun i => v i ^ 2).
Proof.
  set (A := Rsum n (fun i => u i ^ 2)). set (B := Rsum n (fun i => v i ^ 2)). set (C := Rsum n (fun i => u i * v i)).
  assert (Q : forall t, 0 <= A * t ^ 2 + 2 * C * t + B).
  { intros t. assert (E : A * t ^ 2 + 2 * C * t + B = rsum n (fun i => (t * u i + v i) ^ 2)).
    { unfold A, B, C.
      rewrite (sumn_ext n (fun i => (t * u i + v i) ^ 2) (fun i => t ^ 2 * u i ^ 2 + (2 * t * (u i * v i) + v i ^ 2))) by (intros; ring).
      rewrite sumn_plus, sumn_plus, !sumn_scal. change (Rsum n) with (rsum n). ring. }
    rewrite E. apply sumn_nonneg. intros. apply pow2_ge_0. }
  assert (HA : 0 <= A) by apply rsum_sq_nonneg. assert (HB : 0 <= B) by apply rsum_sq_nonneg.
  destruct (Rle_lt_or_eq_dec 0 A HA) as [HA'|HA'].
  - pose proof (Q (- C / A)) as H. replace (A * (- C / A) ^ 2 + 2 * C * (- C / A) + B) with (B - C ^ 2 / A) in H by (field; lra).
    assert (C ^ 2 / A * A <= B * A) by (apply Rmult_le_compat_r; lra). unfold Rdiv in H0.
    rewrite Rmult_assoc, Rinv_l in H0 by lra. lra.
  - rewrite <- HA' in *. destruct (Req_dec C 0) as [->|HC]; [nra|].
    exfalso. pose proof (Q ((- B - 1) / (2 * C))) as H.
    replace (0 * ((- B - 1) / (2 * C)) ^ 2 + 2 * C * ((- B - 1) / (2 * C)) + B) with (-1) in H by (field; lra). lra.
Qed.
Lemma enorm_triangle n u v : enorm n (fun i => u i - v i) <= enorm n u + enorm n v.
Proof.
  assert (HS : 0 <= enorm n u + enorm n v) by (pose proof (enorm_nonneg n u); pose proof (enorm_nonneg n v); lra).
  rewrite <- (sqrt_pow2 (enorm n u + enorm n v)) by exact HS. unfold enorm at 1. apply sqrt_le_1_alt.
  pose proof (cauchy_rsum n u v) as HC.
  set (A := Rsum n (fun i => u i ^ 2)) in *. set (B := Rsum n (fun i => v i ^ 2)) in *. set (C := Rsum n (fun i => u i * v i)) in *.
  assert (E : Rsum n (fun i => (u i - v i) ^ 2) = A - 2 * C + B).
  { change (rsum n (fun i => (u i - v i) ^ 2) = A - 2 * C + B).
    rewrite (sumn_ext n (fun i => (u i - v i) ^ 2) (fun i => u i ^ 2 + (-2 * (u i * v i) + v i ^ 2))) by (intros; ring).
    rewrite sumn_plus, sumn_plus, sumn_scal. unfold A, B, C. change (@eq (car RNum)) with (@eq R). cbv beta. change Rsum with (@sumn RNum). ring. }
  rewrite E. replace ((enorm n u + enorm n v) ^ 2) with (enorm n u ^ 2 + 2 * (enorm n u * enorm n v) + enorm n v ^ 2) by ring.
  unfold enorm. fold A B. assert (HA : 0 <= A) by apply rsum_sq_nonneg. assert (HB : 0 <= B) by apply rsum_sq_nonneg.
  rewrite <- sqrt_mult by assumption. rewrite !pow2_sqrt by assumption.
  assert (Rabs C <= sqrt (A * B)).
  { rewrite <- sqrt_Rsqr_abs. apply sqrt_le_1_alt. unfold Rsqr. nra. }
  assert (- C <= Rabs C) by (rewrite <- Rabs_Ropp; apply Rle_abs). lra.
Qed.

(** ** what the outcome says about the gradient *)
Lemma central_error fn x i M : smooth_along fn x i M ->
  Rabs (central (/ 10 ^ 6) fn x i - Derive (fun t => fn (move i t x)) 0) <= M * (/ 10 ^ 6) ^ 2 / 6.
Proof. intros (r & H1 & H2 & H3). exact (cdiff_error fn x i M r H1 H2 H3). Qed.

Lemma dist_sound (fn : list R -> R) (x g : list R) M T :
  let n := length x in let h := / 10 ^ 6 in
  (0 < n)%nat -> (forall i, (i < n)%nat -> smooth_along fn x i M) ->
  enorm n (fun i => nth i g 0 - central h fn x i) / INR n <= T ->
  forall i, (i < n)%nat -> Rabs (nth i g 0 - Derive (fun t => fn (move i t x)) 0) <= INR n * T + M * h ^ 2 / 6.
Proof.
  intros n h Hn Hs HT i Hi.
  assert (HN : 0 < INR n) by (apply lt_0_INR, Hn).
  pose proof (enorm_coord n (fun i => nth i g 0 - central h fn x i) i Hi) as H1. cbv beta in H1.
  assert (H2 : enorm n (fun i => nth i g 0 - central h fn x i) <= INR n * T).
  { apply (Rmult_le_compat_r (INR n)) in HT; [|lra]. unfold Rdiv in HT. rewrite Rmult_assoc, Rinv_l in HT by lra. lra. }
  pose proof (central_error fn x i M (Hs i Hi)) as H3. fold h in H3.
  replace (nth i g 0 - Derive (fun t => fn (move i t x)) 0) with
    ((nth i g 0 - central h fn x i) + (central h fn x i - Derive (fun t => fn (move i t x)) 0)) by ring.
  eapply Rle_trans; [apply Rabs_triang|]. lra.
Qed.
Lemma dist_complete (fn : list R -> R) (x g : list R) M T :
  let n := length x in let h := / 10 ^ 6 in
  (0 < n)%nat -> 0 <= T -> (forall i, (i < n)%nat -> smooth_along fn x i M) -> M * h ^ 2 / 6 <= T ->
  (forall i, (i < n)%nat -> nth i g 0 = Derive (fun t => fn (move i t x)) 0) ->
  enorm n (fun i => nth i g 0 - central h fn x i) / INR n <= T.
Proof.
  intros n h Hn HT0 Hs HT Hg.
  assert (HN : 0 < INR n) by (apply lt_0_INR, Hn).
  assert (H : enorm n (fun i => nth i g 0 - central h fn x i) <= INR n * T).
  { apply enorm_bound; [exact HT0|]. intros i Hi. rewrite (Hg i Hi). rewrite <- Rabs_Ropp, Ropp_minus_distr.
    eapply Rle_trans; [apply (central_error fn x i M (Hs i Hi))|exact HT]. }
  apply (Rmult_le_reg_r (INR n)); [exact HN|]. unfold Rdiv. rewrite Rmult_assoc, Rinv_l by lra. lra.
Qed.
Lemma check_last {W} (stf : list R -> W -> W) h x w : (0 < length x)%nat ->
  exists w', fold_left (fun w p => stf p w) (central_points h x) w = stf (move (length x - 1) (- h) x) w'.
Proof.
  intros Hn. unfold central_points. destruct (length x) as [|n] eqn:E; [lia|].
  rewrite seq_S, flat_map_app, fold_left_app. cbn. rewrite Nat.sub_0_r. eauto.
Qed.
Lemma check_err_df {W} (f : list R -> W -> result R * W) (df : list R -> bool -> W -> result (list R) * W) x tol s w e w' :
  df x true w = (Err e, w') -> check_gradient (K := RNum) f df x tol s w = (Err e, s, w').
Proof. intros H. unfold check_gradient, mbind, call_df. rewrite H. reflexivity. Qed.
Lemma fd_run_stats {K : Num} {W} (f : list K -> W -> result K * W) x n i todo s w r s' w' :
  fd_run f x n i todo s w = (r, s', w') -> s' = s.
Proof.
  revert i w r s' w'; induction todo as [|todo IH]; intros i w r s' w'; cbn [fd_run].
  - unfold ret. intros H; injection H; intros; subst; reflexivity.
  - unfold mbind, call_f. destruct (f _ w) as [[a|e] w1]; [|intros H; injection H; intros; subst; reflexivity].
    destruct (f _ w1) as [[a2|e] w2]; [|intros H; injection H; intros; subst; reflexivity].
    destruct (fd_run f x n (S i) todo s w2) as [[r1 s1] w3] eqn:E. pose proof (IH _ _ _ _ _ E) as ->.
    destruct r1; unfold ret; intros H; injection H; intros; subst; reflexivity.
Qed.
Lemma check_stats {K : Num} {W} (f : list K -> W -> result K * W) df x tol s w r s' w' :
  check_gradient f df x tol s w = (r, s', w') -> s' = s.
Proof.
  unfold check_gradient, mbind, call_df. destruct (df x true w) as [[g|e] w1]; [|intros H; injection H; intros; subst; reflexivity].
  destruct (fd_run f x (length x) 0 (length x) s w1) as [[r1 s1] w2] eqn:E. pose proof (fd_run_stats _ _ _ _ _ _ _ _ _ _ E) as ->.
  destruct r1; unfold ret; intros H; injection H; intros; subst; reflexivity.
Qed.
(** an objective that remembers the last point it was evaluated at, x^2 with derivative 2x *)
Definition cf (p : list R) (w : R) : result R * R := (Ok (nth 0 p 0 ^ 2), nth 0 p 0).
Definition cdf (p : list R) (e : bool) (w : R) : result (list R) * R :=
  if e then (Ok [2 * nth 0 p 0], nth 0 p 0) else (Ok [2 * w], w).
Lemma check_stale s : exists r w1,
  cf [1] 0 = (Ok (1 ^ 2), 1) /\ fst (cdf [1] false 1) = Ok [2 * 1] /\
  check_gradient (K := RNum) cf cdf [1] None s 1 = (Ok r, s, w1) /\ snd r = true /\
  fst (cdf [1] false w1) <> Ok [2 * 1].
Proof.
  assert (H1 : forall (p : list R) (w : R), cf p w = (Ok ((fun q => nth 0 q 0 ^ 2) p), (fun q _ => nth 0 q 0) p w)) by reflexivity.
  assert (H2 : forall (p : list R) (w : R), cdf p true w = (Ok ((fun q => [2 * nth 0 q 0]) p), (fun q _ => nth 0 q 0) p w)) by reflexivity.
  destruct (check_result (fun q => nth 0 q 0 ^ 2) (fun q => [2 * nth 0 q 0]) (fun q _ => nth 0 q 0) (fun q _ => nth 0 q 0)
    cf cdf [1] None s 1 H1 H2 eq_refl) as (pd & E & P).
  eexists; eexists. split; [reflexivity|]. split; [reflexivity|]. split; [exact E|]. cbn [snd]. split.
  - apply P. unfold enorm, central. cbn -[pow].
    replace (0 + (2 * 1 - ((1 + / 10 ^ 6) ^ 2 - (1 + - / 10 ^ 6) ^ 2) / (2 * / 10 ^ 6)) ^ 2) with 0.
    + rewrite sqrt_0. unfold Rdiv. rewrite Rmult_0_l. left. apply Rinv_0_lt_compat, pow_lt. lra.
    + field_simplify; lra.
  - cbn -[pow]. intros H. injection H. lra.
Qed.
Lemma smooth_poly (fn : list R -> R) x i a b c : (forall t, fn (move i t x) = a + b * t + c * t ^ 2) -> smooth_along fn x i 0.
Proof.
  intros H. exists 1.
  assert (D1 : forall t, Derive (fun t => fn (move i t x)) t = b + 2 * c * t).
  { intros t. apply is_derive_unique. apply (is_derive_ext (fun t => a + b * t + c * t ^ 2)); [intros; symmetry; apply H|].
    auto_derive; [exact I|ring]. }
  assert (D2 : forall t, Derive_n (fun t => fn (move i t x)) 2 t = 2 * c).
  { intros t. transitivity (Derive (fun t => b + 2 * c * t) t); [exact (Derive_ext _ _ t D1)|].
    apply is_derive_unique. auto_derive; [exact I|ring]. }
  assert (D3 : forall t, Derive_n (fun t => fn (move i t x)) 3 t = 0).
  { intros t. transitivity (Derive (fun _ => 2 * c) t); [exact (Derive_ext _ _ t D2)|apply Derive_const]. }
  split; [|split].
  - assert (1 < 10 ^ 6) by (cbn; lra). rewrite <- Rinv_1. apply Rinv_lt_contravar; lra.
  - intros t k _ Hk. destruct k as [|[|[|[|k]]]]; [exact I| | | |lia].
    + cbn. eexists. apply (is_derive_ext (fun t => a + b * t + c * t ^ 2)); [intros; symmetry; apply H|]. auto_derive; [exact I|reflexivity].
    + apply (ex_derive_ext (fun t => b + 2 * c * t)); [intros; symmetry; apply D1|]. auto_derive. exact I.
    + apply (ex_derive_ext (fun _ => 2 * c)); [intros; symmetry; apply D2|]. auto_derive. exact I.
  - intros t _. rewrite D3, Rabs_R0. lra.
Qed.
