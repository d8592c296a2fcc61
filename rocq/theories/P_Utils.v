(** * Proofs about safe_log, finite_diff and ut_approx. *)
From Coq Require Import ZArith List Bool Arith Reals Lra Lia.
From Coquelicot Require Import Coquelicot.
From Verif Require Import Num Arr ArrFacts M_LinAlg M_Utils Spec_Utils P_Trapz P_LinAlg.
Import ListNotations.
Local Open Scope R_scope.

(** ** safe_log *)
Lemma rlit_eq z p : rlit z p = IZR z / IZR (Zpos p).
Proof. destruct p; cbn [rlit]; [reflexivity|reflexivity|field]. Qed.

Lemma big_eq : @nZ RNum (10 ^ 300) = 10 ^ 300.
Proof. unfold nZ. change (@nlit RNum) with rlit. rewrite rlit_eq.
  rewrite (pow_IZR 10 300). change (Z.of_nat 300) with 300%Z.
  unfold Rdiv. rewrite Rinv_1. apply Rmult_1_r.
Qed.
Lemma small_eq : @nlit RNum 1 (10 ^ 300)%positive = / 10 ^ 300.
Proof.
  change (@nlit RNum) with rlit. rewrite rlit_eq, Pos2Z.inj_pow.
  rewrite (pow_IZR 10 300). change (Z.of_nat 300) with 300%Z. apply Rmult_1_l.
Qed.

Definition clamp (lo hi x : R) : R := Rmax (Rmin x hi) lo.
Lemma nmin_R (x y : R) : nmin (K:=RNum) x y = Rmin x y.
Proof. unfold nmin; rnum. unfold Rmin. destruct (Rleb_spec x y), (Rle_dec x y); try reflexivity; contradiction. Qed.
Lemma nmax_R (x y : R) : nmax (K:=RNum) x y = Rmax x y.
Proof. unfold nmax; rnum. unfold Rmax. destruct (Rleb_spec x y), (Rle_dec x y); try reflexivity; contradiction. Qed.
Lemma safe_log_clamp (x : R) : safe_log (K:=RNum) ln x = ln (clamp (/ 10 ^ 300) (10 ^ 300) x).
Proof. unfold safe_log, clamp. rewrite big_eq, small_eq, nmin_R, nmax_R. reflexivity. Qed.

Lemma lo_pos : 0 < / 10 ^ 300.
Proof. apply Rinv_0_lt_compat, pow_lt; lra. Qed.
Lemma lo_hi : / 10 ^ 300 < 10 ^ 300.
Proof.
  assert (1 < 10 ^ 300) by (apply Rlt_pow_R1; [lra|lia]).
  assert (/ 10 ^ 300 < / 1) by (apply Rinv_lt_contravar; lra). lra.
Qed.
Lemma clamp_bounds x : / 10 ^ 300 <= clamp (/ 10 ^ 300) (10 ^ 300) x <= 10 ^ 300.
Proof.
  pose proof lo_hi as H. revert H. generalize (/ 10 ^ 300); intros lo; generalize (10 ^ 300); intros hi H.
  unfold clamp, Rmax, Rmin. destruct (Rle_dec x hi); match goal with |- context [Rle_dec ?a lo] => destruct (Rle_dec a lo) end; lra.
Qed.
Lemma clamp_mono x y : x <= y -> clamp (/ 10 ^ 300) (10 ^ 300) x <= clamp (/ 10 ^ 300) (10 ^ 300) y.
Proof.
  pose proof lo_hi as H. revert H. generalize (/ 10 ^ 300); intros lo; generalize (10 ^ 300); intros hi H Hxy.
  unfold clamp, Rmax, Rmin. destruct (Rle_dec x hi), (Rle_dec y hi);
    repeat match goal with |- context [Rle_dec ?a lo] => destruct (Rle_dec a lo) end; lra.
Qed.
Lemma clamp_id x : / 10 ^ 300 <= x <= 10 ^ 300 -> clamp (/ 10 ^ 300) (10 ^ 300) x = x.
Proof.
  generalize (/ 10 ^ 300); intros lo; generalize (10 ^ 300); intros hi H.
  unfold clamp, Rmax, Rmin. destruct (Rle_dec x hi); match goal with |- context [Rle_dec ?a lo] => destruct (Rle_dec a lo) end; lra.
Qed.
Lemma ln_mono x y : 0 < x -> x <= y -> ln x <= ln y.
Proof. intros Hx [H|H]; [left; apply ln_increasing; assumption|subst; lra]. Qed.

Lemma safe_log_spec (x : R) :
  ln (/ 10 ^ 300) <= safe_log (K:=RNum) ln x <= ln (10 ^ 300) /\
  (/ 10 ^ 300 <= x <= 10 ^ 300 -> safe_log (K:=RNum) ln x = ln x).
Proof.
  rewrite safe_log_clamp. pose proof (clamp_bounds x) as [H1 H2]. pose proof lo_pos.
  repeat split; [apply ln_mono; lra|apply ln_mono; lra|].
  intros Hx. rewrite clamp_id by exact Hx. reflexivity.
Qed.
Lemma safe_log_mono (x y : R) : x <= y -> safe_log (K:=RNum) ln x <= safe_log (K:=RNum) ln y.
Proof.
  intros H. rewrite !safe_log_clamp. apply ln_mono; [|apply clamp_mono, H].
  pose proof (clamp_bounds x) as [H1 H2]. pose proof lo_pos. lra.
Qed.

(** ** finite_diff *)
Definition hstep : R := / 10 ^ 6.
Lemma delta_h_eq : @delta_h RNum = hstep.
Proof. unfold delta_h, hstep; rnum. lra. Qed.

Lemma map2_zero_add (x : list R) n : (length x <= n)%nat -> map2 Rplus x (repeat 0 n) = x.
Proof.
  revert n; induction x as [|a x IH]; intros [|n] H; cbn in *; try lia; try reflexivity.
  rewrite IH by lia. f_equal. lra.
Qed.
Lemma map2_zero_sub (x : list R) n : (length x <= n)%nat -> map2 Rminus x (repeat 0 n) = x.
Proof.
  revert n; induction x as [|a x IH]; intros [|n] H; cbn in *; try lia; try reflexivity.
  rewrite IH by lia. f_equal. lra.
Qed.
Lemma step_plus (x : list R) i h n : (length x = n)%nat -> map2 Rplus x (upd i h (repeat 0 n)) = move i h x.
Proof.
  intros <-. revert i; induction x as [|a x IH]; intros [|i]; cbn; try reflexivity.
  - rewrite map2_zero_add by lia. reflexivity.
  - rewrite IH. f_equal. lra.
Qed.
Lemma step_minus (x : list R) i h n : (length x = n)%nat -> map2 Rminus x (upd i h (repeat 0 n)) = move i (- h) x.
Proof.
  intros <-. revert i; induction x as [|a x IH]; intros [|i]; cbn; try reflexivity.
  - rewrite map2_zero_sub by lia. reflexivity.
  - rewrite IH. f_equal. lra.
Qed.

Definition cdiff (fn : list R -> R) (x : list R) (i : nat) : R :=
  (fn (move i hstep x) - fn (move i (- hstep) x)) / (2 * hstep).

Lemma fd_loop_spec (fn : list R -> R) (x : list R) i todo :
  fd_loop (K:=RNum) fn x (length x) i todo =
  (map (cdiff fn x) (seq i todo),
   flat_map (fun k => [move k hstep x; move k (- hstep) x]) (seq i todo)).
Proof.
  revert i; induction todo as [|todo IH]; intros i; [reflexivity|].
  cbn [fd_loop seq map flat_map app]. rewrite IH. rewrite delta_h_eq.
  change (@nadd RNum) with Rplus. change (@nsub RNum) with Rminus. change (@nZ RNum 0) with 0.
  rewrite step_plus, step_minus by reflexivity. cbn [app].
  assert (Eg : @ndiv RNum (@nmul RNum (@nlit RNum 1 2) (fn (move i hstep x) - fn (move i (- hstep) x))) hstep
               = cdiff fn x i).
  { unfold cdiff; rnum. assert (Hh : 0 < hstep) by (apply Rinv_0_lt_compat, pow_lt; lra). field. lra. }
  rewrite Eg. reflexivity.
Qed.

Lemma finite_diff_spec (fn : list R -> R) (x : list R) :
  let n := length x in
  exists g : list R,
    length g = n /\
    finite_diff (K:=RNum) fn (Ve x) =
      (if Nat.eqb n 1 then Sc (nth 0 g 0 : RNum) else Ve g,
       flat_map (fun k => [move k hstep x; move k (- hstep) x]) (seq 0 n)) /\
    forall i, (i < n)%nat -> nth i g 0 = cdiff fn x i.
Proof.
  intros n. exists (map (cdiff fn x) (seq 0 n)). split; [rewrite map_length, seq_length; reflexivity|].
  split.
  - unfold finite_diff. rewrite fd_loop_spec. reflexivity.
  - intros i Hi. rewrite (nth_indep _ 0 (cdiff fn x 0)) by (rewrite map_length, seq_length; exact Hi).
    rewrite map_nth, seq_nth by exact Hi. reflexivity.
Qed.
Lemma finite_diff_scalar (fn : list R -> R) (x : R) :
  finite_diff (K:=RNum) fn (Sc (x : RNum)) = finite_diff (K:=RNum) fn (Ve [x : RNum]).
Proof. reflexivity. Qed.

Lemma hstep_pos : 0 < hstep.
Proof. apply Rinv_0_lt_compat, pow_lt; lra. Qed.

Lemma cdiff_quadratic (fn : list R -> R) x i a b c :
  (forall t, fn (move i t x) = a + b * t + c * t ^ 2) ->
  cdiff fn x i = b /\ is_derive (fun t => fn (move i t x)) 0 (cdiff fn x i).
Proof.
  intros H. assert (E : cdiff fn x i = b).
  { unfold cdiff. rewrite !H. pose proof hstep_pos. field. lra. }
  split; [exact E|]. rewrite E.
  apply (is_derive_ext (fun t => a + b * t + c * t ^ 2)); [intros; symmetry; apply H|].
  auto_derive; [exact I|]. cbn. ring.
Qed.

Lemma cdiff_error (fn : list R -> R) x i M r :
  let g := fun t => fn (move i t x) in
  hstep < r ->
  (forall t k, Rabs t < r -> (k <= 3)%nat -> ex_derive_n g k t) ->
  (forall t, Rabs t <= hstep -> Rabs (Derive_n g 3 t) <= M) ->
  Rabs (cdiff fn x i - Derive g 0) <= M * hstep ^ 2 / 6.
Proof.
  intros g Hr Hd HM. pose proof hstep_pos as Hh.
  assert (Hloc : forall t, 0 <= t <= hstep ->
             locally (- t) (fun y => forall k, (k <= 3)%nat -> ex_derive_n g k y)).
  { intros t Ht. assert (He : 0 < r - hstep) by lra. exists (mkposreal _ He).
    intros y Hy k Hk. apply Hd; [|exact Hk]. unfold ball in Hy; cbn in Hy.
    unfold AbsRing_ball, abs, minus, plus, opp in Hy; cbn in Hy.
    apply Rabs_def2 in Hy. apply Rabs_def1; lra. }
  destruct (Taylor_Lagrange g 2 0 hstep Hh) as (z1 & Hz1 & E1).
  { intros t Ht k Hk. apply Hd; [rewrite Rabs_pos_eq; lra|exact Hk]. }
  destruct (Taylor_Lagrange (fun t => g (- t)) 2 0 hstep Hh) as (z2 & Hz2 & E2).
  { intros t Ht k Hk. apply ex_derive_n_comp_opp.
    apply (filter_imp (fun y => forall k, (k <= 3)%nat -> ex_derive_n g k y)); [|apply Hloc, Ht].
    intros y Hy k' Hk'. apply Hy. lia. }
  assert (Hopp : forall k t, (k <= 3)%nat -> 0 <= t <= hstep ->
             Derive_n (fun y => g (- y)) k t = (-1) ^ k * Derive_n g k (- t)).
  { intros k t Hk Ht. apply Derive_n_comp_opp.
    apply (filter_imp (fun y => forall k, (k <= 3)%nat -> ex_derive_n g k y)); [|apply Hloc, Ht].
    intros y Hy k' Hk'. apply Hy. lia. }
  cbn [sum_f_R0] in E1, E2. rewrite !Hopp in E2 by (lia || lra).
  rewrite Ropp_0 in E2. rewrite Rminus_0_r in E1, E2.
  change (Derive_n g 0 0) with (g 0) in *. change (Derive_n g 1 0) with (Derive g 0) in *.
  cbn [Factorial.fact pow Nat.mul Nat.add INR] in E1, E2.
  unfold cdiff. change (fn (move i hstep x)) with (g hstep). change (fn (move i (- hstep) x)) with (g (- hstep)).
  rewrite E1, E2.
  pose proof (HM z1 ltac:(rewrite Rabs_pos_eq; lra)) as B1.
  pose proof (HM (- z2) ltac:(rewrite Rabs_Ropp, Rabs_pos_eq; lra)) as B2.
  revert B1 B2. generalize (Derive_n g 3 z1) (Derive_n g 3 (- z2)). intros u v B1 B2.
  apply Rabs_le_between in B1. apply Rabs_le_between in B2.
  match goal with |- Rabs ?e <= _ => replace e with (hstep ^ 2 / 12 * (u + v)) by (field; lra) end.
  rewrite Rabs_mult, (Rabs_pos_eq (hstep ^ 2 / 12)) by nra.
  assert (Rabs (u + v) <= 2 * M) by (apply Rabs_le; lra).
  assert (0 <= hstep ^ 2 / 12) by nra. nra.
Qed.
