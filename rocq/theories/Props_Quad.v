(** * Property C58: the optimiser on quadratic objectives. *)
From Coq Require Import List Bool Arith ZArith Reals Lra Lia.
From Verif Require Import Num Arr M_Utils M_Scg Spec_Utils Spec_Quad P_RMat P_ScgR P_Quad P_Quad2 P_Quad3 P_Rosen.
Import ListNotations.
Local Open Scope R_scope.

(** ** Every iteration succeeds *)
(** f(x) = c + b'x + x'Qx/2 with eigenvalues of Q between l > 0 and L, f and df may keep any state. The run completes;
    r steps are made and all of them are accepted: the recorded values v(1), v(2), ... strictly decrease from v(0) = f(x0),
    the distance to any other value of the objective shrinks by the factor quad_rate l L < 1 per step, and the recorded
    scale parameter is 2^-k in iteration k, but at least 1e-15. The run ends because the budget is used up, because the
    gradient is small, or because the last decrease is at most f_tol. *)
Theorem C58_steps :
  forall (n : nat) (Q : nat -> nat -> R) (b : nat -> R) (c l L : R), between n l L Q ->
  forall (W : Type) (f : list R -> W -> result R * W) (df : list R -> bool -> W -> result (list R) * W),
  (forall x w, length x = n -> fst (f x w) = Ok (quadratic n Q b c x)) ->
  (forall x e w, length x = n -> fst (df x e w) = Ok (quad_grad n Q b x)) ->
  forall (o : Opts RNum) (x0 : list R) (w : W), length x0 = n ->
  0 <= quad_rate l L < 1 /\
  exists (x : list R) (fx : R) st w', scg_run (K:=RNum) f df o x0 w = (Ok (x, fx), st, w') /\
  length x = n /\ fx = quadratic n Q b c x /\
  exists r, (r <= s_maxit st <= o_nit o)%nat /\
  let v := fun k => nth k (quadratic n Q b c x0 :: s_fx st) 0 in
  v r = fx /\
  (forall k, (k < r)%nat -> v (S k) < v k /\ nth k (s_beta st) 0 = Rmax ((/ 2) ^ k) (/ 10 ^ 15)) /\
  (forall k z, (k < r)%nat -> length z = n ->
     v (S k) - quadratic n Q b c z <= quad_rate l L * (v k - quadratic n Q b c z)) /\
  (forall k z, (k <= r)%nat -> length z = n ->
     v k - quadratic n Q b c z <= quad_rate l L ^ k * (quadratic n Q b c x0 - quadratic n Q b c z)) /\
  ((r = o_nit o /\ s_maxit st = r) \/
   sumsq n (quad_grad n Q b x) <= 1 / 100000000 \/
   ((0 < r)%nat /\ s_maxit st = r /\ v (r - 1)%nat - fx <= o_ftol o)).
Proof.
  intros n Q b c l L HQ W f df Hf Hdf o x0 w Lx0. pose proof (rate_range l L (proj1 (proj2 HQ))) as Hq. split; [exact Hq|].
  destruct (gen_run n Q b c l L HQ f df Hf Hdf o x0 Lx0 w) as (x & fx & st & w' & E & Lx & Efx & r & H & Hr & Hm & Hex).
  cbn [fst snd] in *. exists x, fx, st, w'. split; [exact E|]. split; [exact Lx|]. split; [exact Efx|]. exists r. split; [exact Hm|]. cbv zeta.
  assert (B : forall k, nth k (quadratic n Q b c x0 :: s_fx st) 0 = before n Q b c x0 st k) by (intros [|k]; reflexivity).
  split; [exact (eq_trans (B r) Hr)|]. split; [|split; [|split]].
  - intros k Hk. destruct H as (_ & _ & _ & H). destruct (H k Hk) as (H1 & _ & H3). split; [|exact H3].
    exact (eq_ind_r (fun u => u < _) (eq_ind_r (fun u => _ < u) H1 (B k)) (B (S k))).
  - intros k z Hk Lz. destruct H as (_ & _ & _ & H). destruct (H k Hk) as (_ & H2 & _).
    refine (eq_ind_r (fun u => u - _ <= _) (eq_ind_r (fun u => _ <= _ * (u - _)) _ (B k)) (B (S k))).
    apply H2. exists z. split; [exact Lz|reflexivity].
  - intros k z Hk Lz. refine (eq_ind_r (fun u => u - _ <= _) _ (B k)).
    refine (hist_pow n Q b c (refgen n Q b c) _ o x0 r st _ (proj1 Hq) _ H k Hk). exists z. split; [exact Lz|reflexivity].
  - rewrite (sumsq_dot n) by apply len_grad. destruct Hex as [Hex|[Hex|(H1 & H2 & H3)]]; [left; exact Hex|right; left; exact Hex|].
    right; right. split; [exact H1|]. split; [exact H2|]. exact (eq_ind_r (fun u => u - _ <= _) H3 (B (r - 1)%nat)).
Qed.
Print Assumptions C58_steps.

(** ** The returned value is close to the minimum *)
Theorem C58_near_minimum :
  forall (n : nat) (Q : nat -> nat -> R) (b : nat -> R) (c l L : R), between n l L Q ->
  forall (W : Type) (f : list R -> W -> result R * W) (df : list R -> bool -> W -> result (list R) * W),
  (forall x w, length x = n -> fst (f x w) = Ok (quadratic n Q b c x)) ->
  (forall x e w, length x = n -> fst (df x e w) = Ok (quad_grad n Q b x)) ->
  forall (o : Opts RNum) (x0 : list R) (w : W), length x0 = n ->
  exists (x : list R) (fx : R) st w', scg_run (K:=RNum) f df o x0 w = (Ok (x, fx), st, w') /\
  fx = quadratic n Q b c x /\
  let q := quad_rate l L in
  let bound := fun z => Rmax (q ^ o_nit o * (quadratic n Q b c x0 - quadratic n Q b c z))
                             (Rmax (q / (1 - q) * o_ftol o) (1 / 100000000 / (2 * l))) in
  (forall z, length z = n -> fx - quadratic n Q b c z <= bound z) /\
  (* at the minimum z the gradient is zero *)
  (forall z, length z = n -> (forall i, (i < n)%nat -> nth i (quad_grad n Q b z) 0 = 0) ->
     l / 2 * Rsum n (fun i => (nth i x 0 - nth i z 0) ^ 2) <= bound z).
Proof.
  intros n Q b c l L HQ W f df Hf Hdf o x0 w Lx0.
  destruct (C58_steps n Q b c l L HQ W f df Hf Hdf o x0 w Lx0) as (Hq & x & fx & st & w' & E & Lx & Efx & r & Hm & T).
  exists x, fx, st, w'. split; [exact E|]. split; [exact Efx|]. cbv zeta. cbv zeta in T. destruct T as (Hr & H1 & H1' & H2 & Hex).
  pose proof (Hl n Q l L HQ) as Pl. set (q := quad_rate l L) in *.
  assert (K : forall z, length z = n -> fx - quadratic n Q b c z <=
    Rmax (q ^ o_nit o * (quadratic n Q b c x0 - quadratic n Q b c z)) (Rmax (q / (1 - q) * o_ftol o) (1 / 100000000 / (2 * l)))).
  { intros z Lz. destruct Hex as [[Hn _]|[Hex|(A1 & A2 & A3)]].
    - eapply Rle_trans; [|apply Rmax_l]. pose proof (H2 r z (le_n _) Lz) as G. rewrite <- Hn.
      exact (eq_ind _ (fun u => u - _ <= _) G _ Hr).
    - eapply Rle_trans; [|apply Rmax_r]. eapply Rle_trans; [|apply Rmax_r].
      rewrite Efx. eapply Rle_trans; [apply (gap n Q b c l L HQ)|]. rewrite <- (sumsq_dot n) by apply len_grad.
      unfold Rdiv. apply Rmult_le_compat_r; [left; apply Rinv_0_lt_compat; lra|exact Hex].
    - eapply Rle_trans; [|apply Rmax_r]. eapply Rle_trans; [|apply Rmax_l].
      pose proof (H1' (r - 1)%nat z ltac:(lia) Lz) as G'. replace (S (r - 1)) with r in G' by lia.
      set (v := fun k => nth k (quadratic n Q b c x0 :: s_fx st) 0) in *. change (v r - quadratic n Q b c z <= q * (v (r - 1)%nat - quadratic n Q b c z)) in G'.
      change (v r = fx) in Hr. rewrite Hr in G'.
      change (v (r - 1)%nat - fx <= o_ftol o) in A3. set (ft := (o_ftol o : R)) in *. set (u := v (r - 1)%nat) in *. clearbody u.
      change (fx - quadratic n Q b c z <= q / (1 - q) * ft). set (vz := quadratic n Q b c z) in *. clearbody vz.
      change (u - fx <= ft) in A3.
      apply Rmult_le_reg_r with (1 - q); [lra|]. replace (q / (1 - q) * ft * (1 - q)) with (q * ft) by (field; lra).
      assert (q * (u - fx) <= q * ft) by (apply Rmult_le_compat_l; lra). nra. }
  split; [exact K|]. intros z Lz Hz. eapply Rle_trans; [|exact (K z Lz)]. rewrite Efx. apply (dist n Q b c l L HQ); assumption.
Qed.
Print Assumptions C58_near_minimum.
(** every symmetric positive definite matrix has such bounds *)
Theorem C58_bounds_exist :
  forall n Q, symm n Q -> posdef n Q -> exists l L, between n l L Q.
Proof. exact posdef_between. Qed.
Print Assumptions C58_bounds_exist.

(** A gradient of squared length below 2^-52 at the start: the start point is returned, however far the minimum is. *)
Theorem C58_flat :
  forall (W : Type) (f : list R -> W -> result R * W) (df : list R -> bool -> W -> result (list R) * W)
         (o : Opts RNum) (x0 g : list R) (f0 : R) (w w1 w2 : W),
  f x0 w = (Ok f0, w1) -> df x0 false w1 = (Ok g, w2) -> sumsq (length g) g < / 2 ^ 52 ->
  fst (fst (scg_run (K:=RNum) f df o x0 w)) = Ok (x0, f0).
Proof.
  intros W f df o x0 g f0 w w1 w2 Ef Eg Hg. rewrite (sumsq_dot _ g eq_refl) in Hg.
  assert (He : dot g g < eps_float (K:=RNum)).
  { unfold eps_float. rnum. replace (1 / 4503599627370496) with (/ 2 ^ 52) by (field_simplify; reflexivity || lra). exact Hg. }
  unfold scg_run, scg_call, mbind, scg_start, call_f, call_df, add_evals, set_stats, ret, mbind. change (car RNum) with R in *.
  rewrite Ef, Eg. destruct (o_nit o) as [|k]; [reflexivity|].
  cbn [scg_loop]. unfold mbind, scg_body, mbind, scg_directions. cbn [l_success l_d l_gnew l_x l_fnow].
  change (nlt (n:=RNum)) with Rltb. cbv zeta.
  match goal with |- context [if ?c then lopp g else lopp g] => replace (if c then lopp g else lopp g) with (lopp g) by (destruct c; reflexivity) end.
  change (ldot (K:=RNum) (lopp g) (lopp g)) with (dot (lopp (K:=RNum) g) (lopp (K:=RNum) g)). rewrite dot_lopp.
  destruct (Rltb_spec (dot g g) (eps_float (K:=RNum))) as [_|H]; [reflexivity|contradiction].
Qed.
Print Assumptions C58_flat.
Example C58_flat_instance :
  let f := fun (x : list R) (w : unit) => (Ok (/ 10 ^ 9 * nth 0 x 0 ^ 2), w) in
  let df := fun (x : list R) (e : bool) (w : unit) => (Ok [2 / 10 ^ 9 * nth 0 x 0], w) in
  fst (fst (scg_run (K:=RNum) f df (scg_options None None None) [1] tt)) = Ok ([1], / 10 ^ 9 * 1 ^ 2).
Proof. intros f df. apply C58_flat with (g := [2 / 10 ^ 9 * 1]) (w1 := tt) (w2 := tt); [reflexivity|reflexivity|]. unfold sumsq. cbn. lra. Qed.

(** ** test_scg.py *)
Definition sphere_f (x : list R) (w : unit) : result R * unit := (Ok (sphere x), w).
(** gradf = lambda x: finite_diff(fun, x) *)
Definition sphere_df (x : list R) (w : unit) : result (list R) * unit :=
  (Ok (match fst (finite_diff (K:=RNum) sphere (Ve x)) with Ve g => g | Sc g => [g] end), w).
(** With the change of line 167 that the test file asks for (df called with the point only): whatever the start point,
    if it is not astronomically far away, the run with default options meets the assertions of test_sphere_fun. *)
Theorem C58_sphere_test :
  forall (x0 : list R), length x0 <> 1%nat -> sphere x0 <= 10 ^ 130 ->
  exists (x : list R) (fx : R) st, scg_run (K:=RNum) sphere_f (fun x _ => sphere_df x) (scg_options None None None) x0 tt = (Ok (x, fx), st, tt) /\
  length x = length x0 /\ fx = sphere x /\ 0 <= fx <= / 10 ^ 8 /\ forall i, Rabs (nth i x 0) <= / 10 ^ 4.
Proof.
  intros x0 Hn Hx0. set (n := length x0).
  destruct (sphere_run n (W := unit) sphere_f (fun x _ => sphere_df x)) with (o := scg_options (K:=RNum) None None None) (x0 := x0) (w := tt)
    as (x & fx & st & w' & E & Lx & Efx & r & H & Hr & Hm & Hex).
  { intros x w Lx. cbn [fst sphere_f]. rewrite sphere_F, sphere_sumsq, Lx. reflexivity. }
  { intros x e w Lx. cbn [fst sphere_df]. rewrite <- Lx. rewrite sphere_fd by (rewrite Lx; exact Hn). reflexivity. }
  { reflexivity. }
  cbn [fst snd] in *. destruct w'. exists x, fx, st. split; [exact E|]. split; [exact Lx|].
  rewrite sphere_F in Efx. split; [rewrite sphere_sumsq, Lx; exact Efx|].
  assert (P0 : 0 <= fx) by (rewrite Efx; apply Rsum_nonneg; intros; apply pow2_ge_0).
  assert (K : fx <= 3 * / 10 ^ 9).
  { assert (P : 0 < / 10 ^ 9) by (apply Rinv_0_lt_compat, pow_lt; lra).
    pose proof (hist_pow _ _ _ _ (fun v => v = 0) (/ 9) _ x0 r st 0 ltac:(lra) eq_refl H r (le_n _)) as Hp.
    rewrite Hr, !Rminus_0_r, sphere_F in Hp. unfold n in Hp at 1. rewrite <- sphere_sumsq in Hp.
    destruct Hex as [[Hb _]|[Hex|(H1 & H2 & H3)]].
    - cbn [o_nit scg_options or_default] in Hb. rewrite Hb in Hp. pose proof pow9.
      assert ((/ 9) ^ 150 * sphere x0 <= (/ 9) ^ 150 * 10 ^ 130) by (apply Rmult_le_compat_l; [apply pow_le; lra|exact Hx0]). lra.
    - pose proof (gap n Qs (fun _ => 0) 0 2 2 (Qs_between n) x (repeat 0 n)) as G. rewrite !sphere_F in G.
      assert (Z : sumsq n (repeat 0 n) = 0) by (apply Rsum_z; intros; rewrite nth_repeat; ring). rewrite Z, <- Efx in G.
      assert (E9 : 10 ^ 9 = 1000000000) by ring. rewrite E9. lra.
    - destruct H as (_ & _ & _ & H). destruct (H (r - 1)%nat ltac:(lia)) as (_ & G & _). specialize (G 0 eq_refl).
      replace (S (r - 1)) with r in G by lia. rewrite Hr in G. cbn [o_ftol scg_options or_default] in H3. revert H3. rnum. intros H3.
      assert (E9 : 10 ^ 9 = 1000000000) by ring. rewrite E9. lra. }
  assert (E9 : 10 ^ 9 = 1000000000) by ring. rewrite E9 in K. assert (E8 : 10 ^ 8 = 100000000) by ring. rewrite E8.
  split; [lra|]. intros i. assert (E4 : 10 ^ 4 = 10000) by ring. rewrite E4. destruct (lt_dec i n) as [Hi|Hi].
  - assert (B : nth i x 0 ^ 2 <= fx).
    { rewrite Efx. apply (Rsum_ge_term n (fun i => nth i x 0 ^ 2)); [intros; apply pow2_ge_0|exact Hi]. }
    assert (C : Rabs (nth i x 0) ^ 2 <= (/ 10000) ^ 2) by (rewrite pow2_abs; lra).
    pose proof (Rabs_pos (nth i x 0)). destruct (Rle_lt_dec (Rabs (nth i x 0)) (/ 10000)) as [D|D]; [exact D|]. nra.
  - rewrite nth_overflow by lia. rewrite Rabs_R0. lra.
Qed.
Print Assumptions C58_sphere_test.
Example C58_sphere_instance : sphere [3; -1; 2; 100] = 10014 /\ sphere [3; -1; 2; 100] <= 10 ^ 130.
Proof.
  assert (E : sphere [3; -1; 2; 100] = 10014) by (unfold sphere; cbn; ring). split; [exact E|]. rewrite E.
  rewrite pow_IZR. apply IZR_le. vm_compute. discriminate.
Qed.
(** As the files are, the gradient of the tests does not know the keyword eval_fun, and every run from a point with a gradient
    that is not tiny raises TypeError. *)
Theorem C58_tests_raise :
  forall (W : Type) (f : list R -> W -> result R * W) (df1 : list R -> W -> result (list R) * W)
         (o : Opts RNum) (x0 g : list R) (f0 : R) (w w1 w2 : W),
  let df := fun x e w => if e : bool then (Err TypeError, w) else df1 x w in
  f x0 w = (Ok f0, w1) -> df1 x0 w1 = (Ok g, w2) -> / 2 ^ 52 <= sumsq (length g) g -> (0 < o_nit o)%nat ->
  fst (fst (scg_run (K:=RNum) f df o x0 w)) = Err TypeError.
Proof.
  intros W f df1 o x0 g f0 w w1 w2 df Ef Eg Hg Ho. rewrite (sumsq_dot _ g eq_refl) in Hg.
  assert (He : eps_float (K:=RNum) <= dot g g).
  { unfold eps_float. rnum. replace (1 / 4503599627370496) with (/ 2 ^ 52) by (field_simplify; reflexivity || lra). exact Hg. }
  unfold scg_run, scg_call, mbind, scg_start, call_f, call_df, add_evals, set_stats, ret, mbind. change (car RNum) with R in *.
  unfold df at 1. rewrite Ef, Eg. destruct (o_nit o) as [|k]; [lia|].
  cbn [scg_loop]. unfold mbind, scg_body, mbind, scg_directions. cbn [l_success l_d l_gnew l_x l_fnow].
  change (nlt (n:=RNum)) with Rltb. cbv zeta.
  match goal with |- context [if ?c then lopp g else lopp g] => replace (if c then lopp g else lopp g) with (lopp g) by (destruct c; reflexivity) end.
  change (ldot (K:=RNum) (lopp g) (lopp g)) with (dot (lopp (K:=RNum) g) (lopp (K:=RNum) g)). rewrite dot_lopp.
  destruct (Rltb_spec (dot g g) (eps_float (K:=RNum))) as [H|H]; [lra|]. reflexivity.
Qed.
Print Assumptions C58_tests_raise.
(** test_rosenbrock_fun in binary64, with the same change of line 167: the claim that the run of 50 iterations from a random
    start point ends at the minimum is false.  From (-2, 1) it ends with a value above 0.01, more than 0.1 away from (1, 1);
    from (0.5, -1) both assertions hold. *)
Theorem C58_rosenbrock_refuted :
  (exists (a b fx : FNum), fst (fst (rosen_run [fl (-2) 1; fl 1 1])) = Ok ([a; b], fx) /\
     nlt (n:=FNum) (fl 1 100) fx = true /\ nlt (n:=FNum) a (fl 9 10) = true /\ nlt (n:=FNum) b (fl 9 10) = true) /\
  (exists (a b fx : FNum), fst (fst (rosen_run [fl 1 2; fl (-1) 1])) = Ok ([a; b], fx) /\
     nle (n:=FNum) (nabs fx) (fl 1 100000000) = true /\
     nle (n:=FNum) (nabs (nsub a (nZ 1))) (fl 1 10000) = true /\ nle (n:=FNum) (nabs (nsub b (nZ 1))) (fl 1 10000) = true).
Proof.
  split.
  - pose proof rosen_fails as H. destruct (fst (fst (rosen_run [fl (-2) 1; fl 1 1]))) as [[[|a [|b [|]]] fx]|e]; cbn [rosen_far] in H; try discriminate H.
    apply andb_prop in H. destruct H as [H H3]. apply andb_prop in H. destruct H as [H1 H2].
    exists a, b, fx. split; [reflexivity|]. split; [exact H1|]. split; [exact H2|exact H3].
  - pose proof rosen_holds as H. destruct (fst (fst (rosen_run [fl 1 2; fl (-1) 1]))) as [[[|a [|b [|]]] fx]|e]; cbn [rosen_near] in H; try discriminate H.
    apply andb_prop in H. destruct H as [H H3]. apply andb_prop in H. destruct H as [H1 H2].
    exists a, b, fx. split; [reflexivity|]. split; [exact H1|]. split; [exact H2|exact H3].
Qed.
Print Assumptions C58_rosenbrock_refuted.
Example C58_instance :
  let Q := fun i j => match i, j with O, O => 2 | 1%nat, 1%nat => 3 | O, 1%nat | 1%nat, O => 1 | _, _ => 0 end in
  between 2 1 4 Q /\ quad_rate 1 4 = 124 / 125.
Proof.
  intros Q. split.
  - split; [|split; [lra|]].
    + intros i j Hi Hj. destruct i as [|[|i]]; [| |lia]; destruct j as [|[|j]]; try lia; reflexivity.
    + intros v. cbn. split; nra.
  - unfold quad_rate. field.
Qed.
