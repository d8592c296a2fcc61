(** * Properties C39 - C43: the stochastic processes. *)
From Coq Require Import ZArith Reals Lra Lia Arith Bool List Sorted SpecFloat.
From Verif Require Import Num Arr M_LinAlg M_L63 M_L96 M_Proc
  Spec_Utils Spec_GaussN Spec_L63 Spec_L96 Spec_Proc
  P_RMat P_L96 P_Spectral P_Proc P_Traj P_Noise P_ProcWit.
Import ListNotations.
Local Open Scope R_scope.

(** ** C39: observations *)
(** one-dimensional systems, variance r: m = integer part of T * n_obs indexes, increasing, inside
    the grid and spread evenly, the values there plus sqrt(r) times the next m draws; path and
    window stay, the generator has moved m draws on *)
Theorem C39_one_dim :
  forall (G : Rng RNum) (b : Base G RNum) (tk xt : list R) t0 dt n (n_obs : dens RNum) (f : R) (r : R),
  b_tk b = Some tk -> b_xt b = Some xt -> uniform_grid t0 dt n tk -> (2 <= n)%nat -> 0 < dt -> length xt = n ->
  density_is n_obs f /\ 0 <= f -> fits_step f dt ->
  exists m ts ys z g,
    int_part (INR (n - 1) * dt * f) (Z.of_nat m) /\ normals G m (b_rng b) = (z, g) /\
    collect1 G n_obs (A0 (K:=RNum) r) None b = (Ok (ts, ys, A0 (K:=RNum) r), mkBase (Some xt) (Some tk) g) /\
    spread n m ts /\ length ys = m /\
    forall i, (i < m)%nat -> nth i ys 0 = nth (nth i ts 0%nat) xt 0 + sqrt r * nth i z 0.
Proof. exact collect1_R. Qed.
Print Assumptions C39_one_dim.
(** systems of dimension d, observing all components or those of a mask, unless the mask selects
    exactly one; [v] are the variances given as a number, a vector or the diagonal of a matrix *)
Theorem C39_multi_dim_partial :
  forall (G : Rng RNum) d (b : Base G (vec RNum)) (tk : list R) (xt : list (nat -> R)) t0 dt n (n_obs : dens RNum) (f : R)
         (rn : arr RNum) h cols v,
  b_tk b = Some tk -> b_xt b = Some xt -> uniform_grid t0 dt n tk -> (2 <= n)%nat -> 0 < dt -> length xt = n ->
  density_is n_obs f /\ 0 <= f -> fits_step f dt ->
  length (mask_of d h) = d -> selected (mask_of d h) cols -> length cols <> 1%nat -> noise_diag_of (length cols) rn v ->
  exists m ts ys C z g,
    int_part (INR (n - 1) * dt * f) (Z.of_nat m) /\ normals G (length cols * m) (b_rng b) = (z, g) /\
    collectN G n_obs rn h d b = (Ok (ts, ys, A2 (K:=RNum) (length cols) (length cols) C), mkBase (Some xt) (Some tk) g) /\
    diagonal (length cols) C /\ (forall i, (i < length cols)%nat -> C i i = v i) /\
    spread n m ts /\ length ys = m /\
    forall i j, (i < m)%nat -> (j < length cols)%nat ->
      nth i ys vzero0 j = nth (nth i ts 0%nat) xt vzero0 (nth j cols 0%nat) + sqrt (v j) * nth (j * m + i) z 0.
Proof. exact collectN_R. Qed.
Print Assumptions C39_multi_dim_partial.
(** too high a density (or a negative one) *)
Theorem C39_rejected :
  forall (G : Rng RNum) d (tk : list R) t0 dt n (n_obs : dens RNum) (f : R) rn h,
  uniform_grid t0 dt n tk -> (2 <= n)%nat -> 0 < dt -> density_is n_obs f -> ~ fits_step f dt \/ f < 0 ->
  (forall (b : Base G RNum) (xt : list R), b_tk b = Some tk -> b_xt b = Some xt ->
     collect1 G n_obs rn h b = (Err ValueError, b)) /\
  (forall (b : Base G (vec RNum)) (xt : list (nat -> R)), b_tk b = Some tk -> b_xt b = Some xt ->
     collectN G n_obs rn h d b = (Err ValueError, b)).
Proof.
  intros. split; intros; [eapply collect1_reject|eapply collectN_reject]; eassumption.
Qed.
Print Assumptions C39_rejected.
(** no path or no window; any arithmetic *)
Theorem C39_no_path :
  forall (K : Num) (G : Rng K) d (n_obs : dens K) rn h,
  (forall b : Base G K, b_tk b = None \/ b_xt b = None -> collect1 G n_obs rn h b = (Err NotImplementedError, b)) /\
  (forall b : Base G (vec K), b_tk b = None \/ b_xt b = None -> collectN G n_obs rn h d b = (Err NotImplementedError, b)).
Proof.
  intros. split; intros b [H|H]; unfold collect1, collectN, collect_cols; rewrite H; try reflexivity; destruct (b_tk b); reflexivity.
Qed.
Print Assumptions C39_no_path.
(** path and window stay, whatever the arguments and the outcome; any arithmetic *)
Theorem C39_path_kept :
  forall (K : Num) (G : Rng K) d (n_obs : dens K) rn h,
  (forall b : Base G K, b_xt (snd (collect1 G n_obs rn h b)) = b_xt b /\ b_tk (snd (collect1 G n_obs rn h b)) = b_tk b) /\
  (forall b : Base G (vec K), b_xt (snd (collectN G n_obs rn h d b)) = b_xt b /\ b_tk (snd (collectN G n_obs rn h d b)) = b_tk b).
Proof.
  intros. split; intros b.
  - unfold collect1. destruct (b_tk b) eqn:E1, (b_xt b) eqn:E2; cbn [snd]; try (rewrite E1, E2; split; reflexivity).
    match goal with |- context [match ?x with Ok _ => _ | Err _ => _ end] => destruct x as [[[m t] y]|e] end.
    + destruct (normals G m (b_rng b)). cbn [snd set_rng b_xt b_tk]. split; assumption.
    + split; assumption.
  - unfold collectN, collect_cols. destruct (b_tk b) eqn:E1, (b_xt b) eqn:E2; cbn [snd]; try (rewrite E1, E2; split; reflexivity).
    match goal with |- context [match ?x with Ok _ => _ | Err _ => _ end] => destruct x as [[[[m t] c] y]|e] end.
    + destruct (Nat.eqb (length c) 1).
      * destruct (normals G m (b_rng b)). cbn [snd set_rng b_xt b_tk]. split; assumption.
      * destruct (obs_noise (length c) rn).
        -- destruct (normals G (length c * m) (b_rng b)). cbn [snd set_rng b_xt b_tk]. split; assumption.
        -- cbn [snd]. destruct rn; cbn [set_rng b_xt b_tk]; split; assumption.
    + split; assumption.
Qed.
Print Assumptions C39_path_kept.
(** A mask that selects one component makes collect_obs raise unless there is exactly one
    observation time, although the density is accepted: the (m,) draws do not fit the (m, 1) values. *)
Theorem C39_refuted :
  forall (G : Rng RNum) d (b : Base G (vec RNum)) (tk : list R) (xt : list (nat -> R)) t0 dt n (n_obs : dens RNum) (f : R) (rn : arr RNum) h cols m,
  b_tk b = Some tk -> b_xt b = Some xt -> uniform_grid t0 dt n tk -> (2 <= n)%nat -> 0 < dt -> length xt = n ->
  density_is n_obs f /\ 0 <= f -> fits_step f dt ->
  length (mask_of d h) = d -> selected (mask_of d h) cols -> length cols = 1%nat ->
  int_part (INR (n - 1) * dt * f) (Z.of_nat m) -> m <> 1%nat ->
  fst (collectN G n_obs rn h d b) = Err ValueError.
Proof. exact collectN_single. Qed.
Print Assumptions C39_refuted.
(** with exactly one observation time a mask that selects one component works: the value there plus the
    square root of the variance (a number, a vector or a matrix with one entry) times the next draw *)
Theorem C39_one_column :
  forall (G : Rng RNum) d (b : Base G (vec RNum)) (tk : list R) (xt : list (nat -> R)) t0 dt n (n_obs : dens RNum) (f : R) (rn : arr RNum) h c r,
  b_tk b = Some tk -> b_xt b = Some xt -> uniform_grid t0 dt n tk -> (2 <= n)%nat -> 0 < dt -> length xt = n ->
  density_is n_obs f /\ 0 <= f -> fits_step f dt ->
  length (mask_of d h) = d -> selected (mask_of d h) [c] ->
  int_part (INR (n - 1) * dt * f) 1 ->
  rn = A0 (K:=RNum) r \/ (exists v, rn = A1 (K:=RNum) 1 v /\ v 0%nat = r) \/ (exists m, rn = A2 (K:=RNum) 1 1 m /\ m 0%nat 0%nat = r) ->
  exists t y z g, normals G 1 (b_rng b) = ([z], g) /\
    collectN G n_obs rn h d b = (Ok ([t], [y], rn), mkBase (Some xt) (Some tk) g) /\
    spread n 1 [t] /\ y 0%nat = nth t xt vzero0 c + sqrt r * z.
Proof. exact collectN_one. Qed.
Print Assumptions C39_one_column.
(** a density that is no number, for paths of at least two times with a usable step *)
Theorem C39_no_number :
  forall (K : Num) (G : Rng K) d rn h t0 t1 tk c,
  py_int (ndiv (nZ 1) (nsub t1 t0)) = Ok c ->
  (forall (b : Base G K) xt, b_tk b = Some (t0 :: t1 :: tk) -> b_xt b = Some xt -> collect1 G DBad rn h b = (Err TypeError, b)) /\
  (forall (b : Base G (vec K)) xt, b_tk b = Some (t0 :: t1 :: tk) -> b_xt b = Some xt -> collectN G DBad rn h d b = (Err TypeError, b)).
Proof.
  intros K G d rn h t0 t1 tk c E. split; intros b xt Ht Hx; unfold collect1, collectN, collect_cols; rewrite Ht, Hx; unfold obs_indexes; rewrite E; reflexivity.
Qed.
Print Assumptions C39_no_number.
(** sorted(np.unique(l)): strictly increasing, with the elements of l *)
Theorem C39_unique :
  forall l : list Z, Sorted.StronglySorted Z.lt (np_unique l) /\ forall z, In z (np_unique l) <-> In z l.
Proof. intros l. split; [apply np_unique_sorted|intros z; apply np_unique_in]. Qed.
Print Assumptions C39_unique.
(** binary64: equal first times, or a time that is not a number *)
Theorem C39_binary64_errors :
  forall (G : Rng FNum) n_obs (t0 t1 : FNum) tk rn h (b : Base G FNum) xt,
  b_tk b = Some (t0 :: t1 :: tk) -> b_xt b = Some xt ->
  (forall s, nsub (n:=FNum) t1 t0 = S754_zero s -> collect1 G n_obs rn h b = (Err OverflowError, b)) /\
  (nsub (n:=FNum) t1 t0 = S754_nan -> collect1 G n_obs rn h b = (Err ValueError, b)).
Proof.
  intros G n_obs t0 t1 tk rn h b xt Ht Hx. unfold collect1. rewrite Ht, Hx. unfold obs_indexes.
  split; [intros s E|intros E]; rewrite E; [destruct s|]; reflexivity.
Qed.
Print Assumptions C39_binary64_errors.
(** binary64: densities that are no finite number.  nan passes the comparison with the cap and fails in int(); so does
    minus infinity, with another exception; plus infinity is too large *)
Theorem C39_binary64_density :
  forall (G : Rng FNum) (t0 t1 : FNum) tk d rn h c,
  py_int (K:=FNum) (ndiv (n:=FNum) (nZ 1) (nsub (n:=FNum) t1 t0)) = Ok c ->
  let out (x : FNum) e :=
    (forall (b : Base G FNum) xt, b_tk b = Some (t0 :: t1 :: tk) -> b_xt b = Some xt -> collect1 G (DNum x) rn h b = (Err e, b)) /\
    (forall (b : Base G (vec FNum)) xt, b_tk b = Some (t0 :: t1 :: tk) -> b_xt b = Some xt -> collectN G (DNum x) rn h d b = (Err e, b)) in
  out (S754_nan : FNum) ValueError /\
  (forall s m e, nZ (K:=FNum) c = S754_finite s m e -> out (S754_infinity false : FNum) ValueError) /\
  (forall s m e s' m' e', nZ (K:=FNum) c = S754_finite s' m' e' -> nsub (n:=FNum) t0 (last (t0 :: t1 :: tk) t0) = S754_finite s m e ->
     out (S754_infinity true : FNum) OverflowError).
Proof.
  intros G t0 t1 tk d rn h c E out.
  assert (K0 : forall (x : FNum) e, obs_indexes (K:=FNum) (DNum x) (t0 :: t1 :: tk) = Err e -> out x e).
  { intros x e H. split; intros b xt Ht Hx; unfold collect1, collectN, collect_cols; rewrite Ht, Hx, H; reflexivity. }
  split; [|split].
  - apply K0. unfold obs_indexes. rewrite E. cbn [bind exceeds rate_of].
    assert (L : nlt (n:=FNum) (nZ c) (S754_nan : FNum) = false) by (destruct (nZ (K:=FNum) c); reflexivity). rewrite L. cbn [bind].
    assert (M : forall z : FNum, nmul (n:=FNum) z (S754_nan : FNum) = (S754_nan : FNum)) by (intros z; destruct z; reflexivity).
    rewrite M. reflexivity.
  - intros s m e Hc. apply K0. unfold obs_indexes. rewrite E. cbn [bind exceeds rate_of].
    assert (L : nlt (n:=FNum) (nZ c) (S754_infinity false : FNum) = true) by (rewrite Hc; destruct s; reflexivity). rewrite L. reflexivity.
  - intros s m e s' m' e' Hc Hl. apply K0. unfold obs_indexes. rewrite E. cbn [bind exceeds rate_of].
    assert (L : nlt (n:=FNum) (nZ c) (S754_infinity true : FNum) = false) by (rewrite Hc; destruct s'; reflexivity). rewrite L. cbn [bind].
    rewrite Hl. reflexivity.
Qed.
Print Assumptions C39_binary64_density.
Example C39_density_instance : py_int (K:=FNum) (ndiv (n:=FNum) (nZ 1) (nsub (n:=FNum) (nlit 1 4) (nZ 0))) = Ok 4%Z /\
  exists m e m' e', nZ (K:=FNum) 4 = S754_finite false m e /\ nsub (n:=FNum) (nZ 0) (nlit 1 2) = S754_finite true m' e'.
Proof. split; [vm_compute; reflexivity|]. do 4 eexists. split; vm_compute; reflexivity. Qed.
Example C39_grid : uniform_grid 0 (1/4) 9 (map (fun i => INR i * (1/4)) (seq 0 9)) /\ fits_step 4 (1/4) /\
  fits_step (7/2) (1/4) /\ density_is (DInt 4) 4 /\ density_is (DNum (7/2 : RNum)) (7/2).
Proof.
  split; [split; [reflexivity|]; intros i Hi; rewrite map_seq_nth by exact Hi; ring|].
  split; [exists 4%Z; lra|]. split; [exists 4%Z; lra|]. split; [right; exists 4%Z; split; reflexivity|left; reflexivity].
Qed.
Example C39_mask : selected [false; true; false] [1%nat] /\ length (mask_of 3 (Some [false; true; false])) = 3%nat /\
  selected [true; false; true] [0%nat; 2%nat].
Proof. split; [exact (positions_selected [false; true; false])|]. split; [reflexivity|exact (positions_selected [true; false; true])]. Qed.
(** binary64: 9 points with step 1/4, two per unit of time *)
Example C39_instance :
  match fst (collect1 (count_rng FNum) (DInt 2) (A0 (K:=FNum) (nZ 4)) None
     (mkBase (K:=FNum) (G:=count_rng FNum) (Some (map (fun i => nZ (K:=FNum) (Z.of_nat i)) (seq 0 9)))
             (Some (map (fun i => nlit (n:=FNum) (Z.of_nat i) 4) (seq 0 9))) 7%Z)) with
  | Ok (ts, ys, _) => (if list_eq_dec Nat.eq_dec ts [1; 3; 5; 7]%nat then true else false) &&
                      feql ys (map (nZ (K:=FNum)) [15; 19; 23; 27]%Z)
  | Err _ => false
  end = true.
Proof. vm_compute. reflexivity. Qed.

(** ... and with the density 1.75 *)
Example C39_instance_fraction :
  match fst (collect1 (count_rng FNum) (DNum (nlit (n:=FNum) 7 4)) (A0 (K:=FNum) (nZ 4)) None
     (mkBase (K:=FNum) (G:=count_rng FNum) (Some (map (fun i => nZ (K:=FNum) (Z.of_nat i)) (seq 0 9)))
             (Some (map (fun i => nlit (n:=FNum) (Z.of_nat i) 4) (seq 0 9))) 7%Z)) with
  | Ok (ts, ys, _) => if list_eq_dec Nat.eq_dec ts [2; 4; 6]%nat then true else false
  | Err _ => false
  end = true.
Proof. vm_compute. reflexivity. Qed.

(** ** C40: trajectories *)
Theorem C40_ou :
  forall (G : Rng RNum) t0 tf dt mu (p : P1 G), 0 < dt -> t0 <= tf -> 0 < p_sigma p ->
  exists n tk x z g, normals G n (b_rng (p_base p)) = (z, g) /\
    ou_trajectory G t0 tf dt mu p = (Ok tt, with_base G (mkBase (Some x) (Some tk) g) p) /\
    uniform_grid t0 dt n tk /\ reaches t0 dt tf n /\
    euler_maruyama (fun v => p_theta p * (mu - v)) dt mu (fun t => sqrt (p_sigma p * dt) * nth t z 0) n x /\
    noise_cov 1 (fun _ _ => sqrt (p_sigma p * dt)) (fun _ _ => p_sigma p * dt).
Proof.
  intros G t0 tf dt mu p Hd Ht Hs. destruct (ou_traj_R G t0 tf dt mu p Hd Ht) as (n & tk & x & z & g & H).
  exists n, tk, x, z, g. repeat (split; [apply H|]). apply noise_1d. apply Rlt_le, Rmult_lt_0_compat; assumption.
Qed.
Print Assumptions C40_ou.
Theorem C40_dw :
  forall (G : Rng RNum) t0 tf dt (p : P1 G), 0 < dt -> t0 <= tf -> 0 < p_sigma p ->
  exists n tk x u g1 z0 g2 z g x0,
    r_uniform G (b_rng (p_base p)) = (u, g1) /\ r_normal G g1 = (z0, g2) /\ normals G n g2 = (z, g) /\
    dw_trajectory G t0 tf dt p = (Ok tt, with_base G (mkBase (Some x) (Some tk) g) p) /\
    uniform_grid t0 dt n tk /\ reaches t0 dt tf n /\
    x0 = (if Rlt_dec (1 / 2) u then p_theta p else - p_theta p) + sqrt (1 / 2 * p_sigma p * dt) * z0 /\
    euler_maruyama (fun v => 4 * v * (p_theta p - v ^ 2)) dt x0 (fun t => sqrt (p_sigma p * dt) * nth t z 0) n x /\
    noise_cov 1 (fun _ _ => sqrt (p_sigma p * dt)) (fun _ _ => p_sigma p * dt).
Proof.
  intros G t0 tf dt p Hd Ht Hs. destruct (dw_traj_R G t0 tf dt p Hd Ht) as (n & tk & x & u & g1 & z0 & g2 & z & g & x0 & H).
  exists n, tk, x, u, g1, z0, g2, z, g, x0. repeat (split; [apply H|]). apply noise_1d. apply Rlt_le, Rmult_lt_0_compat; assumption.
Qed.
Print Assumptions C40_dw.
(** The noise of time t is F z_t for d independent draws z_t.  F is the factor of Sigma dt that
    scipy returns. *)
Theorem C40_l63 :
  forall (G : Rng RNum) t0 tf dt (p : PN G), q_dim p = 3%nat -> 0 < dt -> t0 <= tf ->
  let th := q_theta p in let f := f63 (th 0%nat) (th 1%nat) (th 2%nat) in
  let F := noise_factor (K:=RNum) 3 (q_sigma p) dt in
  exists n tk x z g x0, normals G (3 * n) (b_rng (q_base p)) = (z, g) /\
    l63_trajectory G t0 tf dt p = (Ok tt, with_baseN G (mkBase (Some x) (Some tk) g) p) /\
    uniform_grid t0 dt n tk /\ reaches t0 dt tf n /\
    euler_steps 3 f (1 / 1000) (fun _ => 1) 5000 x0 /\
    euler_maruyama_n 3 f dt x0 (fun t i => Rsum 3 (fun k => F i k * nth (k * n + t) z 0)) n x.
Proof.
  intros G t0 tf dt p Hp Hd Ht th f F.
  destruct (traj_n_R G 3 (fun x => l63 (K:=RNum) x th) f (l63_start (K:=RNum) th) t0 tf dt p Hp Hd Ht (fun x i Hi => l63_f63 x th i Hi))
    as (n & tk & x & z & g & H1 & H2 & H3 & H4 & H5).
  exists n, tk, x, z, g, (l63_start (K:=RNum) th).
  split; [exact H1|]. split; [exact H2|]. split; [exact H3|]. split; [exact H4|]. split; [apply l63_start_R|exact H5].
Qed.
Print Assumptions C40_l63.
Theorem C40_l96 :
  forall (G : Rng RNum) d t0 tf dt (p : PN G), q_dim p = d -> 0 < dt -> t0 <= tf ->
  let f := f96 d (q_theta p) in
  let F := noise_factor (K:=RNum) d (q_sigma p) dt in
  exists n tk x z g x0, normals G (d * n) (b_rng (q_base p)) = (z, g) /\
    l96_trajectory G t0 tf dt p = (Ok tt, with_baseN G (mkBase (Some x) (Some tk) g) p) /\
    uniform_grid t0 dt n tk /\ reaches t0 dt tf n /\
    euler_steps d f (1 / 1000) (fun i => if Nat.eqb i (d / 2) then q_theta p i * 1 + 1 / 1000 else q_theta p i * 1) 5000 x0 /\
    euler_maruyama_n d f dt x0 (fun t i => Rsum d (fun k => F i k * nth (k * n + t) z 0)) n x.
Proof.
  intros G d t0 tf dt p Hp Hd Ht f F.
  destruct (traj_n_R G d (fun x => l96 (K:=RNum) d x (q_theta p)) f (l96_start (K:=RNum) d (q_theta p)) t0 tf dt p Hp Hd Ht
    (fun x i Hi => l96_f96 d x (q_theta p) i Hi)) as (n & tk & x & z & g & H1 & H2 & H3 & H4 & H5).
  exists n, tk, x, z, g, (l96_start (K:=RNum) d (q_theta p)).
  split; [exact H1|]. split; [unfold l96_trajectory; rewrite Hp; exact H2|].
  split; [exact H3|]. split; [exact H4|]. split; [apply l96_start_R|exact H5].
Qed.
Print Assumptions C40_l96.
(** The factor is used on the wrong side: for a symmetric positive definite Sigma the noise has
    covariance Sigma dt exactly when Sigma is diagonal. *)
Theorem C40_covariance_partial :
  forall d (S : nat -> nat -> R) dt, symm d S -> posdef d S -> 0 < dt ->
  (noise_cov d (noise_factor (K:=RNum) d S dt) (fun i j => S i j * dt) <-> diagonal d S).
Proof. exact noise_diag. Qed.
Print Assumptions C40_covariance_partial.
(** When scipy's factorisation fails (a matrix that is stored but not positive definite, C41), the noise
    of the components is independent with the variances Sigma_ii dt. *)
Theorem C40_fallback :
  forall d (S : nat -> nat -> R) dt, symm d S -> ~ posdef d S -> 0 < dt ->
  (forall i j, (i < d)%nat -> (j < d)%nat -> noise_factor (K:=RNum) d S dt i j = if Nat.eqb i j then sqrt (S i i * dt) else 0) /\
  ((forall i, (i < d)%nat -> 0 <= S i i) -> noise_cov d (noise_factor (K:=RNum) d S dt) (fun i j => if Nat.eqb i j then S i i * dt else 0)).
Proof. exact noise_fallback. Qed.
Print Assumptions C40_fallback.
Example C40_fallback_example : symm 2 (fun i j => if Nat.eqb i j then 1 else 2) /\ ~ posdef 2 (fun i j => if Nat.eqb i j then 1 else 2).
Proof.
  split; [intros i j _ _; rewrite Nat.eqb_sym; reflexivity|]. intros H.
  specialize (H (fun i => if Nat.eqb i 0 then 1 else -1)). cbn in H. assert (Q := H ltac:(exists O; split; [lia|cbn; lra])). lra.
Qed.
(** a matrix that Lorenz63 accepts and whose trajectories have another covariance *)
Theorem C40_refuted :
  forall (G : Rng RNum) theta s e g dt, make_rng G s e = Ok g -> 0 < dt ->
  exists p : PN G, l63_init G (fun _ _ => m_corr_eig) Float64 (A2 (K:=RNum) 3 3 m_corr) theta s e = Ok p /\
    q_sigma p = m_corr /\ spectrum 3 m_corr m_corr_eig /\
    ~ noise_cov 3 (noise_factor (K:=RNum) 3 (q_sigma p) dt) (fun i j => q_sigma p i j * dt).
Proof.
  intros G theta s e g dt Hg Hd.
  destruct (init_sym G (fun _ _ => m_corr_eig) L63 (A2 (K:=RNum) 3 3 m_corr) theta s 0 e g m_corr ltac:(discriminate) Hg
    eq_refl m_corr_symm m_corr_spectrum) as [H _].
  destruct (H m_corr_posdef) as (y & Ey & _). cbn [initnd] in Ey. eexists. split; [exact Ey|]. split; [reflexivity|].
  split; [exact m_corr_spectrum|]. intros N. apply (noise_diag 3 m_corr dt m_corr_symm m_corr_posdef Hd) in N.
  specialize (N 0%nat 1%nat ltac:(lia) ltac:(lia) ltac:(lia)). cbn in N. lra.
Qed.
Print Assumptions C40_refuted.
(** binary64: arange(0, 0.2 + 0.1, 0.1) has a fourth point after one that is not before tf = 0.2 *)
Theorem C40_binary64_refuted :
  exists tk, arange (K:=FNum) (nZ 0) (nadd (n:=FNum) (nlit 2 10) (nlit 1 10)) (nlit 1 10) = Ok tk /\
    length tk = 4%nat /\ nle (n:=FNum) (nlit 2 10) (nth 2 tk (nZ 0)) = true.
Proof.
  assert (H : match arange (K:=FNum) (nZ 0) (nadd (n:=FNum) (nlit 2 10) (nlit 1 10)) (nlit 1 10) with
              | Ok tk => Nat.eqb (length tk) 4 && nle (n:=FNum) (nlit 2 10) (nth 2 tk (nZ 0))
              | Err _ => false end = true) by (vm_compute; reflexivity).
  destruct (arange (K:=FNum) (nZ 0) (nadd (n:=FNum) (nlit 2 10) (nlit 1 10)) (nlit 1 10)) as [tk|]; [|discriminate].
  exists tk. apply andb_true_iff in H. destruct H as [H1 H2]. apply Nat.eqb_eq in H1. split; [reflexivity|split; assumption].
Qed.
Print Assumptions C40_binary64_refuted.
(** binary64: a time window without a number of points.  A limit or a step that is nan, or an infinite limit with the
    other finite, makes every model raise ValueError and leaves the object, the generator included, as it was *)
Theorem C40_binary64_window :
  forall (G : Rng FNum) (t0 tf dt : FNum),
  let refused :=
    (forall mu (p : P1 G), ou_trajectory G t0 tf dt mu p = (Err ValueError, p)) /\
    (forall p : P1 G, dw_trajectory G t0 tf dt p = (Err ValueError, p)) /\
    (forall p : PN G, l63_trajectory G t0 tf dt p = (Err ValueError, p)) /\
    (forall p : PN G, l96_trajectory G t0 tf dt p = (Err ValueError, p)) in
  (dt = (S754_nan : FNum) -> refused) /\
  (forall s m e, dt = (S754_finite s m e : FNum) ->
     (t0 = (S754_nan : FNum) \/ tf = (S754_nan : FNum) -> refused) /\
     (forall s0 sf m' e', t0 = (S754_finite s0 m' e' : FNum) \/ t0 = (S754_zero s0 : FNum) ->
        tf = (S754_infinity sf : FNum) -> refused)).
Proof.
  intros G t0 tf dt refused.
  assert (K0 : arange (K:=FNum) t0 (nadd (n:=FNum) tf dt) dt = Err ValueError -> refused).
  { intros H. repeat split; intros; unfold ou_trajectory, dw_trajectory, l63_trajectory, l96_trajectory, trajectoryN;
      rewrite H; reflexivity. }
  split; [intros ->; apply K0; destruct t0, tf; reflexivity|].
  intros s m e ->. split.
  - intros [->| ->]; apply K0; unfold arange.
    + assert (M : forall z : FNum, nsub (n:=FNum) z (S754_nan : FNum) = (S754_nan : FNum)) by (intros z; destruct z; reflexivity).
      rewrite M. destruct s; reflexivity.
    + destruct t0, s; reflexivity.
  - intros s0 sf m' e' [->| ->] ->; apply K0; destruct s, sf; reflexivity.
Qed.
Print Assumptions C40_binary64_window.
Example C40_window_instance : exists s m e, (nlit (n:=FNum) 1 10) = (S754_finite s m e : FNum).
Proof. do 3 eexists. vm_compute. reflexivity. Qed.
(** windows without points: a zero step is a division by zero, and a final time that lies a step or more before t0
    (after t0 for a negative step) leaves no first point to write.  Nothing is stored; only the double well has drawn its starting side by then *)
Theorem C40_empty_window :
  forall (G : Rng RNum) (t0 tf dt : R),
  (dt = 0 ->
    (forall mu (p : P1 G), ou_trajectory G t0 tf dt mu p = (Err ZeroDivisionError, p)) /\
    (forall p : P1 G, dw_trajectory G t0 tf dt p = (Err ZeroDivisionError, p)) /\
    (forall p : PN G, l63_trajectory G t0 tf dt p = (Err ZeroDivisionError, p)) /\
    (forall p : PN G, l96_trajectory G t0 tf dt p = (Err ZeroDivisionError, p))) /\
  (0 < dt /\ tf + dt <= t0 \/ dt < 0 /\ t0 <= tf + dt ->
    (forall mu (p : P1 G), ou_trajectory G t0 tf dt mu p = (Err IndexError, p)) /\
    (forall p : P1 G, exists q, dw_trajectory G t0 tf dt p = (Err IndexError, q) /\
       p_theta q = p_theta p /\ p_sigma q = p_sigma p /\
       b_xt (p_base q) = b_xt (p_base p) /\ b_tk (p_base q) = b_tk (p_base p) /\
       b_rng (p_base q) = snd (r_uniform G (b_rng (p_base p)))) /\
    (forall p : PN G, l63_trajectory G t0 tf dt p = (Err IndexError, p)) /\
    (forall p : PN G, l96_trajectory G t0 tf dt p = (Err IndexError, p))).
Proof.
  intros G t0 tf dt. split.
  - intros ->.
    assert (H : arange (K:=RNum) t0 (nadd (n:=RNum) tf 0) 0 = Err ZeroDivisionError).
    { unfold arange. rnum. destruct (Reqb_spec 0 0) as [_|E]; [reflexivity|contradiction E; reflexivity]. }
    repeat split; intros; unfold ou_trajectory, dw_trajectory, l63_trajectory, l96_trajectory, trajectoryN;
      rewrite H; reflexivity.
  - intros Hw.
    assert (H : arange (K:=RNum) t0 (nadd (n:=RNum) tf dt) dt = Ok []).
    { unfold arange. rnum. destruct (Reqb_spec dt 0) as [E|_]; [lra|].
      assert (Q : (tf + dt - t0) / dt <= 0).
      { destruct Hw as [[D W]|[D W]].
        - apply Rmult_le_reg_r with dt; [exact D|]. unfold Rdiv. rewrite Rmult_assoc, Rinv_l by lra. lra.
        - apply Rmult_le_reg_r with (- dt); [lra|].
          replace ((tf + dt - t0) / dt * - dt) with (- (tf + dt - t0)) by (field; lra). lra. }
      pose proof (Rceil_spec ((tf + dt - t0) / dt)) as [C _].
      assert (Z : (Rceil ((tf + dt - t0) / dt) < 1)%Z) by (apply lt_IZR; lra).
      replace (Z.to_nat (Rceil ((tf + dt - t0) / dt))) with 0%nat by lia. reflexivity. }
    split; [|split; [|split]]; intros; unfold ou_trajectory, dw_trajectory, l63_trajectory, l96_trajectory, trajectoryN;
      rewrite H; cbn [length Nat.eqb]; try reflexivity.
    destruct (r_uniform G (b_rng (p_base p))) as [u g] eqn:E. eexists. split; [reflexivity|].
    repeat split; reflexivity.
Qed.
Print Assumptions C40_empty_window.
Example C40_empty_instance : 0 < 1/10 /\ 0 + 1/10 <= 1 \/ 1/10 < 0 /\ 1 <= 0 + 1/10.
Proof. lra. Qed.
(** sample_path and time_window raise NotImplementedError until a trajectory (or an assignment)
    has stored them, and then return what was stored *)
Theorem C40_accessors :
  forall (K : Num) (G : Rng K) (X : Type) (b : Base G X),
  (forall s h, base_init G s h = Ok b -> get_path G b = Err NotImplementedError /\ get_window G b = Err NotImplementedError) /\
  (forall x tk g, let b' := mkBase (Some x) (Some tk) g : Base G X in get_path G b' = Ok x /\ get_window G b' = Ok tk) /\
  (forall x, get_path G (set_path G x b) = Ok x /\ get_window G (set_path G x b) = get_window G b) /\
  (forall t, get_window G (set_window G t b) = Ok t /\ get_path G (set_window G t b) = get_path G b).
Proof.
  intros K G X b. split; [|repeat split].
  intros s h. unfold base_init. destruct (make_rng G s h) as [g|e]; cbn [bind]; [|discriminate].
  intros [= <-]. split; reflexivity.
Qed.
Print Assumptions C40_accessors.
(** assigning sample_path or time_window on a simulated system: that attribute and nothing else *)
Theorem C40_assign :
  forall (K : Num) (G : Rng K),
  (forall k (p : P1 G) x t, let b := p_base p in
     step1 G k (C_path x) p = (Done, mkP1 (p_sigma p) (p_theta p) (p_isig p) (mkBase (Some x) (b_tk b) (b_rng b))) /\
     step1 G k (C_window t) p = (Done, mkP1 (p_sigma p) (p_theta p) (p_isig p) (mkBase (b_xt b) (Some t) (b_rng b)))) /\
  (forall eigvals k (q : PN G) x t, let b := q_base q in
     stepn G eigvals k (CN_path x) q = (Done, mkPN (q_dim q) (q_theta q) (q_sigma q) (q_isig q) (mkBase (Some x) (b_tk b) (b_rng b))) /\
     stepn G eigvals k (CN_window t) q = (Done, mkPN (q_dim q) (q_theta q) (q_sigma q) (q_isig q) (mkBase (b_xt b) (Some t) (b_rng b)))).
Proof. intros K G. repeat split. Qed.
Print Assumptions C40_assign.
Example C40_instance :
  match ou_trajectory (count_rng FNum) (nZ 0) (nZ 1) (nlit 1 4) (nZ 2)
          (mkP1 (nZ (K:=FNum) 4) (nZ 2) (nlit 1 4) (mkBase (K:=FNum) (G:=count_rng FNum) None None 0%Z)) with
  | (Ok _, p) => match b_xt (p_base p) with
                 | Some x => feql x (map (fun z => nlit (n:=FNum) z 8) [16; 24; 36; 50; 65]%Z) && Z.eqb (b_rng (p_base p)) 5
                 | None => false
                 end
  | _ => false
  end = true.
Proof. vm_compute. reflexivity. Qed.
Example C40_reaches : reaches 0 (1/4) 1 5.
Proof.
  split; [lia|]. split; [cbn; lra|]. intros i Hi. assert (INR i <= 3) by (replace 3 with (INR 3) by (cbn; lra); apply le_INR; lia). lra.
Qed.

(** ** C41: noise and inverse noise *)
(** one-dimensional systems: every history of calls *)
Theorem C41_one_dim :
  forall (G : Rng RNum) k sigma theta s e (p : P1 G) cs, init1d G k sigma theta s e = Ok p ->
  let q := snd (run1 G k cs p) in
  0 < p_sigma q /\ p_isig q = / p_sigma q /\ (k = OU -> 0 < p_theta q).
Proof. intros G k sigma theta s e p cs H. apply run_sync. eapply init_sync. exact H. Qed.
Print Assumptions C41_one_dim.
(** the constructors: a seed that is refused is reported first, then a noise that is not positive, then (Ornstein-Uhlenbeck)
    a drift parameter that is not positive; otherwise the object holds what it was given and has no path yet *)
Theorem C41_one_dim_constructor :
  forall (G : Rng RNum) k sigma theta s e,
  (forall er, make_rng G s e = Err er -> init1d G k sigma theta s e = Err er) /\
  forall g, make_rng G s e = Ok g ->
  (0 < sigma /\ (k = OU -> 0 < theta) ->
     exists p : P1 G, init1d G k sigma theta s e = Ok p /\ p_sigma p = sigma /\ p_theta p = theta /\ p_isig p = / sigma /\
     b_xt (p_base p) = None /\ b_tk (p_base p) = None /\ b_rng (p_base p) = g) /\
  (sigma <= 0 \/ (k = OU /\ theta <= 0) -> init1d G k sigma theta s e = Err ValueError).
Proof.
  intros G k sigma theta s e. split; [intros er E; destruct k; cbn [init1d]; unfold ou_init, dw_init, base_init; rewrite E; reflexivity|].
  intros g E. split.
  - intros [H1 H2]. exists (mkP1 sigma theta (1 / sigma) (mkBase None None g)). cbn [p_sigma p_theta p_isig p_base b_xt b_tk b_rng].
    split; [|split; [reflexivity|split; [reflexivity|split; [exact (Rmult_1_l (/ sigma))|auto]]]].
    destruct k; cbn [init1d]; unfold ou_init, dw_init, base_init; rewrite E; cbn [bind]; change (nle (n:=RNum)) with Rleb; change (nZ (K:=RNum) 0) with 0;
      (destruct (Rleb_spec sigma 0); [lra|]); [specialize (H2 eq_refl); destruct (Rleb_spec theta 0); [lra|]|]; reflexivity.
  - intros H. destruct k; cbn [init1d]; unfold ou_init, dw_init, base_init; rewrite E; cbn [bind]; change (nle (n:=RNum)) with Rleb; change (nZ (K:=RNum) 0) with 0;
      (destruct (Rleb_spec sigma 0); [reflexivity|]); destruct H as [H|[H H']]; try lra; try discriminate. destruct (Rleb_spec theta 0); [reflexivity|lra].
Qed.
Print Assumptions C41_one_dim_constructor.
(** a rejected assignment leaves the object unchanged *)
Theorem C41_one_dim_atomic :
  forall (G : Rng RNum) k (p p' : P1 G) e v c, c = C_sigma v \/ c = C_theta v ->
  step1 G k c p = (Raised e, p') -> p' = p.
Proof. intros. eapply rejected1; eauto. Qed.
Print Assumptions C41_one_dim_atomic.
(** which values the setters accept *)
Theorem C41_one_dim_setter :
  forall (G : Rng RNum) v (p : P1 G),
  (0 < v -> set_sigma1 G v p = (Ok tt, mkP1 v (p_theta p) (/ v) (p_base p))) /\
  (v <= 0 -> set_sigma1 G v p = (Err ValueError, p)).
Proof. exact set_sigma1_R. Qed.
Print Assumptions C41_one_dim_setter.
(** assigning the drift parameter: any number for the double well, a positive one for the Ornstein-Uhlenbeck process; any
    vector for the Lorenz systems; nothing else changes *)
Theorem C41_theta_setter :
  forall (G : Rng RNum) v (p : P1 G),
  let p' := mkP1 (p_sigma p) v (p_isig p) (p_base p) in
  step1 G DW (C_theta v) p = (Done, p') /\
  (0 < v -> step1 G OU (C_theta v) p = (Done, p')) /\
  (v <= 0 -> step1 G OU (C_theta v) p = (Raised ValueError, p)) /\
  forall u (q : PN G), set_thetaN G u q = (Ok tt, mkPN (q_dim q) u (q_sigma q) (q_isig q) (q_base q)).
Proof.
  intros G v p p'. split; [reflexivity|]. cbn [step1]. unfold ou_set_theta. change (nle (n:=RNum)) with Rleb. change (nZ (K:=RNum) 0) with 0.
  split; [intros H; destruct (Rleb_spec v 0); [lra|reflexivity]|]. split; [intros H; destruct (Rleb_spec v 0); [reflexivity|lra]|].
  reflexivity.
Qed.
Print Assumptions C41_theta_setter.
(** numpy compares complex eigenvalues (real part, imaginary part) lexicographically: when the setter
    and the constructors raise RuntimeError, for any list of eigenvalues *)
Definition lex_le0 (z : R * R) : Prop := fst z < 0 \/ (fst z = 0 /\ snd z <= 0).
Theorem C41_complex :
  forall (G : Rng RNum) eigvals t (m : nat -> nat -> R),
  (forall p : PN G, fst (set_sigmaN G eigvals t (A2 (K:=RNum) (q_dim p) (q_dim p) m) p) = Err RuntimeError <->
     forall z, In z (eigvals (q_dim p) m) -> lex_le0 z) /\
  (forall theta s e g, make_rng G s e = Ok g ->
     (l63_init G eigvals t (A2 (K:=RNum) 3 3 m) theta s e = Err RuntimeError <-> exists z, In z (eigvals 3%nat m) /\ lex_le0 z) /\
     (forall d, (10 <= d)%nat -> l96_init G eigvals t (A2 (K:=RNum) d d m) theta s d e = Err RuntimeError <-> exists z, In z (eigvals d m) /\ lex_le0 z)).
Proof. exact complex_runtime. Qed.
Print Assumptions C41_complex.
(** the Lorenz systems, assigning a symmetric matrix of floats: positive definite, without positive
    eigenvalues, and between the two *)
Theorem C41_setter_outcomes :
  forall (G : Rng RNum) eigvals (p : PN G) (m : nat -> nat -> R), let d := q_dim p in
  (0 < d)%nat -> symm d m -> spectrum d m (eigvals d m) ->
  let set := set_sigmaN G eigvals Float64 (A2 (K:=RNum) d d m) p in
  (posdef d m -> exists y, set = (Ok tt, mkPN d (q_theta p) m y (q_base p)) /\ inverse d m y) /\
  ((forall v, rdot d v (rmv d m v) <= 0) -> set = (Err RuntimeError, p)) /\
  (~ posdef d m -> (exists v, 0 < rdot d v (rmv d m v)) ->
     set = (Err LinAlgError, mkPN d (q_theta p) m (q_isig p) (q_base p))).
Proof. exact set_sigmaN_sym. Qed.
Print Assumptions C41_setter_outcomes.
(** every history in which each matrix of the right size that is assigned is one of floats,
    symmetric, and positive definite or without positive eigenvalues *)
Theorem C41_histories_partial :
  forall (G : Rng RNum) eigvals k t sigma theta s d e (p : PN G) cs,
  let n := match k with L63 => 3%nat | L96 => d end in
  initnd G eigvals k t sigma theta s d e = Ok p ->
  (forall m, noise_matrix (K:=RNum) n sigma = Ok m -> symm n m /\ spectrum n m (eigvals n m)) ->
  List.Forall (harmless eigvals n) cs ->
  let q := snd (runn G eigvals k cs p) in
  symm (q_dim q) (q_sigma q) /\ posdef (q_dim q) (q_sigma q) /\ inverse (q_dim q) (q_sigma q) (q_isig q).
Proof.
  intros G eigvals k t sigma theta s d e p cs n H Hm Hc. destruct (init_sync_N G eigvals k sigma t theta s d e p H Hm) as (A & B & C).
  fold n in B, C. apply runN_sync; [lia|exact A|rewrite B; exact Hc].
Qed.
Print Assumptions C41_histories_partial.
(** assigning diag(1, 1, -1) raises and still replaces sigma: it is then not positive definite and
    inverse_sigma is not its inverse *)
Theorem C41_refuted :
  forall (G : Rng RNum) (p : PN G), q_dim p = 3%nat -> in_syncN p ->
  let eigvals := fun d m => diag_eigvals d m in
  exists q, set_sigmaN G eigvals Float64 (A2 (K:=RNum) 3 3 m_indef) p = (Err LinAlgError, q) /\
    spectrum 3 m_indef (eigvals 3%nat m_indef) /\
    q_sigma q = m_indef /\ ~ posdef 3 (q_sigma q) /\ ~ inverse 3 (q_sigma q) (q_isig q) /\ q <> p.
Proof.
  intros G p Hp (Hs & Hpd & Hinv) eigvals.
  pose proof (diag_spectrum 3 m_indef m_indef_diag) as Hl.
  pose proof (set_sigmaN_sym G eigvals p m_indef) as H. cbv zeta in H. rewrite Hp in *.
  destruct (H ltac:(lia) m_indef_symm Hl) as (_ & _ & C).
  rewrite C; [|exact m_indef_not_pd|].
  2:{ exists (fun i => if Nat.eqb i 0 then 1 else 0). unfold rdot, rmv, m_indef. cbn. lra. }
  eexists. split; [reflexivity|]. split; [exact Hl|]. split; [reflexivity|]. split; [exact m_indef_not_pd|]. split.
  - cbn [q_sigma q_isig]. intros [I1 I2]. destruct Hinv as [J1 J2].
    (* q_isig p is the inverse of both *)
    assert (E : rmeq 3 m_indef (q_sigma p)) by (apply (inv_unique 3 (q_isig p)); assumption).
    apply m_indef_not_pd. intros v Hv. specialize (Hpd v Hv).
    erewrite P_Det.Rsum_ext; [exact Hpd|]. intros i Hi. cbv beta. apply P_Det.Rsum_ext. intros j Hj. rewrite (E i j Hi Hj). reflexivity.
  - intros E. apply (f_equal q_sigma) in E. cbn [q_sigma] in E. rewrite <- E in Hpd. exact (m_indef_not_pd Hpd).
Qed.
Print Assumptions C41_refuted.
(** a matrix of integers is stored, then its inversion fails *)
Theorem C41_integers_refuted :
  forall (G : Rng RNum) eigvals (p : PN G) (m : nat -> nat -> R), let d := q_dim p in
  (0 < d)%nat -> symm d m -> spectrum d m (eigvals d m) -> posdef d m ->
  set_sigmaN G eigvals Int64 (A2 (K:=RNum) d d m) p = (Err TypeError, mkPN d (q_theta p) m (q_isig p) (q_base p)).
Proof.
  intros G eigvals p m d Hd Hs Hl Hp. destruct (set_sigmaN_sym G eigvals p m Hd Hs Hl) as (A & _). destruct (A Hp) as (y & Ey & _).
  fold d in Ey. unfold set_sigmaN in *. fold d in Ey |- *. rewrite !Nat.eqb_refl in *. cbn [andb] in *.
  destruct (forallb _ _); [discriminate|]. reflexivity.
Qed.
Print Assumptions C41_integers_refuted.
(** a matrix that is not symmetric is never in sync: the stored inverse is always symmetric *)
Theorem C41_nonsymmetric_refuted :
  forall (G : Rng RNum) eigvals k t sigma theta s d e (p : PN G), initnd G eigvals k t sigma theta s d e = Ok p ->
  ~ symm (q_dim p) (q_sigma p) -> ~ inverse (q_dim p) (q_sigma p) (q_isig p).
Proof.
  intros G eigvals k t sigma theta s d e p H Hn Hi. apply Hn.
  destruct k; cbn [initnd] in H; unfold l63_init, l96_init in H; destruct (base_init G s e) as [b|]; cbn [bind] in H; try discriminate.
  - destruct (noise_matrix 3 sigma) as [m|]; cbn [bind] in H; [|discriminate]. destruct (existsb _ _); [discriminate|].
    destruct (np_chol_inv t 3 m) as [y|] eqn:Ey; cbn [bind] in H; [|discriminate]. injection H as <-. exact (nonsym_never_inverse t 3 m y Ey Hi).
  - destruct (Nat.ltb d 10); [discriminate|]. destruct (noise_matrix d sigma) as [m|]; cbn [bind] in H; [|discriminate]. destruct (forallb _ _); [|discriminate].
    destruct (np_chol_inv t d m) as [y|] eqn:Ey; cbn [bind] in H; [|discriminate]. injection H as <-. exact (nonsym_never_inverse t d m y Ey Hi).
Qed.
Print Assumptions C41_nonsymmetric_refuted.
(** binary64: nan passes the test for positivity *)
Theorem C41_nan_refuted :
  forall (G : Rng FNum) (p : P1 G), exists q, set_sigma1 G (S754_nan : FNum) p = (Ok tt, q) /\
  p_sigma q = (S754_nan : FNum) /\ nlt (n:=FNum) (nZ 0) (p_sigma q) = false.
Proof. intros G p. eexists. split; [reflexivity|]. split; reflexivity. Qed.
Print Assumptions C41_nan_refuted.
Example C41_instance :
  let q := snd (run1 (count_rng FNum) OU [C_sigma (nZ (K:=FNum) 4); C_sigma (nZ (K:=FNum) (-1)); C_theta (nZ (K:=FNum) 0)]
    (mkP1 (nZ (K:=FNum) 1) (nZ 2) (nZ 1) (mkBase (K:=FNum) (G:=count_rng FNum) None None 0%Z))) in
  feql [p_sigma q; p_theta q; p_isig q] [nZ (K:=FNum) 4; nZ 2; nlit 1 4] = true.
Proof. vm_compute. reflexivity. Qed.

(** ** C42: constructors of the Lorenz systems *)
(** a symmetric noise matrix of floats, given as such or as the vector of its diagonal *)
Theorem C42_matrix :
  forall (G : Rng RNum) eigvals k (sigma : arr RNum) theta s d e g (m : nat -> nat -> R),
  let n := match k with L63 => 3%nat | L96 => d end in
  (k = L96 -> (10 <= d)%nat) -> make_rng G s e = Ok g -> symm n m -> spectrum n m (eigvals n m) ->
  sigma = A2 n n m \/ (exists v, sigma = A1 n v /\ m = mdiag v) ->
  (posdef n m -> exists y, initnd G eigvals k Float64 sigma theta s d e = Ok (mkPN n theta m y (mkBase None None g)) /\ inverse n m y) /\
  (~ posdef n m -> initnd G eigvals k Float64 sigma theta s d e = Err RuntimeError).
Proof.
  intros G eigvals k sigma theta s d e g m n Hk Hg Hs Hl Hm. apply init_sym; try assumption.
  pose proof (noise_matrix_shape n sigma) as H. destruct Hm as [-> | (v & -> & ->)].
  - rewrite !Nat.eqb_refl in H. exact H.
  - rewrite Nat.eqb_refl in H. exact H.
Qed.
Print Assumptions C42_matrix.
(** vectors: accepted exactly when all entries are positive *)
Theorem C42_vector :
  forall (G : Rng RNum) eigvals k theta s d e g (v : nat -> R),
  let n := match k with L63 => 3%nat | L96 => d end in
  (k = L96 -> (10 <= d)%nat) -> make_rng G s e = Ok g -> spectrum n (mdiag (K:=RNum) v) (eigvals n (mdiag v)) ->
  ((forall i, (i < n)%nat -> 0 < v i) ->
     exists y, initnd G eigvals k Float64 (A1 (K:=RNum) n v) theta s d e = Ok (mkPN n theta (mdiag v) y (mkBase None None g)) /\
               inverse n (mdiag (K:=RNum) v) y) /\
  ((exists i, (i < n)%nat /\ v i <= 0) -> initnd G eigvals k Float64 (A1 (K:=RNum) n v) theta s d e = Err RuntimeError).
Proof.
  intros G eigvals k theta s d e g v n Hk Hg Hl.
  destruct (C42_matrix G eigvals k (A1 (K:=RNum) n v) theta s d e g (mdiag v) Hk Hg (P_Det.mdiag_sym n v) Hl (or_intror (ex_intro _ v (conj eq_refl eq_refl)))) as [A B].
  fold n in A, B. split.
  - intros H. apply A. apply P_Det.mdiag_posdef. exact H.
  - intros (i & Hi & Hv). apply B. intros P. apply (P_Det.mdiag_posdef n v) with (i := i) in P; [lra|exact Hi].
Qed.
Print Assumptions C42_vector.
(** wrong length, shape or rank; wrong dimension of Lorenz96 *)
Theorem C42_shapes :
  forall (G : Rng RNum) eigvals k t theta s d e g (sigma : arr RNum), make_rng G s e = Ok g ->
  let n := match k with L63 => 3%nat | L96 => d end in
  match sigma with
  | A0 _ => False
  | A1 l _ => l <> n
  | A2 r c _ => r <> n \/ c <> n
  | A3 => True
  end \/ (k = L96 /\ (d < 10)%nat) ->
  initnd G eigvals k t sigma theta s d e = Err ValueError.
Proof.
  intros G eigvals k t theta s d e g sigma Hg n [H|[-> H]].
  - apply init_bad_shape with g; [exact Hg|]. fold n. pose proof (noise_matrix_shape n sigma) as Q. destruct sigma as [x|l v|r c m|].
    + contradiction.
    + destruct (Nat.eqb_spec l n); [contradiction|exact Q].
    + destruct (Nat.eqb_spec r n), (Nat.eqb_spec c n); cbn [andb] in Q; try exact Q. destruct H; contradiction.
    + exact Q.
  - cbn [initnd]. unfold l96_init, base_init. rewrite Hg. cbn [bind]. destruct (Nat.ltb_spec d 10); [reflexivity|lia].
Qed.
Print Assumptions C42_shapes.
(** a scalar is always refused: np.isscalar of a numpy array is False *)
Theorem C42_scalar_refuted :
  forall (G : Rng RNum) eigvals k t theta s d e (x : R),
  exists er, initnd G eigvals k t (A0 (K:=RNum) x) theta s d e = Err er /\ (seed_valid s = true -> er = ValueError).
Proof.
  intros G eigvals k t theta s d e x. destruct (make_rng G s e) as [g|er] eqn:E.
  - exists ValueError. split; [|reflexivity]. apply init_bad_shape with g; [exact E|reflexivity].
  - exists er. split.
    + destruct k; cbn [initnd]; unfold l63_init, l96_init, base_init; rewrite E; reflexivity.
    + intros Hv. unfold make_rng in E. rewrite Hv in E. destruct (seed_truthy s); discriminate.
Qed.
Print Assumptions C42_scalar_refuted.
(** integers are always refused *)
Theorem C42_integers_refuted :
  forall (G : Rng RNum) eigvals k (sigma : arr RNum) theta s d e p, initnd G eigvals k Int64 sigma theta s d e <> Ok p.
Proof. exact init_int. Qed.
Print Assumptions C42_integers_refuted.
(** a matrix that is not symmetric can be accepted *)
Theorem C42_nonsymmetric_refuted :
  forall (G : Rng RNum) theta s e g, make_rng G s e = Ok g ->
  exists p : PN G, l63_init G (fun _ _ => [(1, 0)]) Float64 (A2 (K:=RNum) 3 3 m_shear) theta s e = Ok p /\
    spectrum 3 m_shear [(1, 0)] /\ q_sigma p = m_shear /\ ~ symm 3 m_shear.
Proof.
  intros G theta s e g Hg. destruct m_shear_chol as [y Hy].
  unfold l63_init, base_init. rewrite Hg. cbn [bind].
  pose proof (noise_matrix_shape 3 (A2 (K:=RNum) 3 3 m_shear)) as Q. cbn [Nat.eqb andb] in Q. rewrite Q. cbn [bind existsb orb].
  assert (E : cle0 (K:=RNum) (1, 0) = false).
  { destruct (cle0 (K:=RNum) (1, 0)) eqn:E; [|reflexivity]. apply cle0_R in E. lra. }
  change (@nil (RNum * RNum)) with (@nil (R * R)). rewrite E, Hy. cbn [bind orb]. eexists. split; [reflexivity|].
  split; [exact m_shear_spectrum|]. split; [reflexivity|]. intros H. specialize (H 0%nat 1%nat ltac:(lia) ltac:(lia)). cbn in H. lra.
Qed.
Print Assumptions C42_nonsymmetric_refuted.
Example C42_instance :
  posdef 3 m_corr /\ spectrum 3 m_corr m_corr_eig /\ ~ posdef 3 m_indef /\ spectrum 3 m_indef (diag_eigvals 3 m_indef).
Proof. split; [exact m_corr_posdef|]. split; [exact m_corr_spectrum|]. split; [exact m_indef_not_pd|exact (diag_spectrum 3 _ m_indef_diag)]. Qed.

(** ** C43: seeds *)
(** the same seed (not 0, not None, not an empty list) gives the same object and the same replies to
    every sequence of calls, whatever the operating system returns; any arithmetic *)
Theorem C43_seeded_partial :
  forall (K : Num) (G : Rng K) s e e', seed_truthy s = true ->
  (forall k sigma theta, init1d G k sigma theta s e = init1d G k sigma theta s e') /\
  (forall k sigma theta p p' cs, init1d G k sigma theta s e = Ok p -> init1d G k sigma theta s e' = Ok p' ->
     run1 G k cs p = run1 G k cs p') /\
  (forall eig k t sigma theta d, initnd G eig k t sigma theta s d e = initnd G eig k t sigma theta s d e') /\
  (forall eig k t sigma theta d p p' cs, initnd G eig k t sigma theta s d e = Ok p -> initnd G eig k t sigma theta s d e' = Ok p' ->
     runn G eig k cs p = runn G eig k cs p').
Proof.
  intros K G s e e' H. split; [intros; apply seed_init1; exact H|]. split.
  { intros k sigma theta p p' cs H1 H2. rewrite (seed_init1 G k sigma theta s e e' H) in H1. congruence. }
  split; [intros; apply seed_initn; exact H|].
  intros eig k t sigma theta d p p' cs H1 H2. rewrite (seed_initn G eig k t sigma theta s d e e' H) in H1. congruence.
Qed.
Print Assumptions C43_seeded_partial.
(** seed 0 counts as no seed: two runs draw different numbers *)
Theorem C43_refuted :
  exists (e e' : Z) (p p' : P1 (count_rng FNum)),
    init1d (count_rng FNum) OU (nZ 1) (nZ 1) (SeedInt 0) e = Ok p /\
    init1d (count_rng FNum) OU (nZ 1) (nZ 1) (SeedInt 0) e' = Ok p' /\
    b_xt (p_base (snd (run1 (count_rng FNum) OU [C_traj (nZ 0) (nZ 1) (nZ 1) (nZ 0)] p))) <>
    b_xt (p_base (snd (run1 (count_rng FNum) OU [C_traj (nZ 0) (nZ 1) (nZ 1) (nZ 0)] p'))).
Proof.
  set (after := fun p : P1 (count_rng FNum) => b_xt (p_base (snd (run1 (count_rng FNum) OU [C_traj (nZ 0) (nZ 1) (nZ 1) (nZ 0)] p)))).
  set (obj := fun e : Z => mkP1 (K:=FNum) (nZ 1) (nZ 1) (ndiv (n:=FNum) (nZ 1) (nZ 1)) (mkBase (K:=FNum) (G:=count_rng FNum) None None e)).
  assert (N1 : match after (obj 0%Z) with Some x => feql x x | None => false end = true) by (vm_compute; reflexivity).
  assert (N2 : match after (obj 0%Z), after (obj 5%Z) with Some x, Some x' => feql x x' | _, _ => true end = false) by (vm_compute; reflexivity).
  exists 0%Z, 5%Z, (obj 0%Z), (obj 5%Z). split; [reflexivity|]. split; [reflexivity|].
  change (after (obj 0%Z) <> after (obj 5%Z)). intros H. rewrite <- H in N2. destruct (after (obj 0%Z)); congruence.
Qed.
Print Assumptions C43_refuted.
(** negative seeds are refused *)
Theorem C43_negative_seed :
  forall (K : Num) (G : Rng K) k sigma theta z e, (z < 0)%Z -> init1d G k sigma theta (SeedInt z) e = Err ValueError.
Proof.
  intros K G k sigma theta z e H. assert (A : seed_truthy (SeedInt z) = true) by (cbn; destruct (Z.eqb_spec z 0); [lia|reflexivity]).
  assert (B : seed_valid (SeedInt z) = false) by (cbn; apply Z.leb_gt; exact H).
  destruct k; unfold init1d, ou_init, dw_init, base_init, make_rng; rewrite A, B; reflexivity.
Qed.
Print Assumptions C43_negative_seed.
(** lists of integers as seeds, in all four processes: a list with a negative number is refused, the empty list counts as no
    seed, and any other list fixes the process *)
Theorem C43_seed_lists :
  forall (K : Num) (G : Rng K) (l : list Z),
  (Exists (fun z => (z < 0)%Z) l ->
     (forall k sigma theta e, init1d G k sigma theta (SeedList l) e = Err ValueError) /\
     (forall eigvals k t x theta d e, initnd G eigvals k t x theta (SeedList l) d e = Err ValueError)) /\
  (Forall (fun z => (0 <= z)%Z) l -> l <> [] ->
     (forall k sigma theta e e', init1d G k sigma theta (SeedList l) e = init1d G k sigma theta (SeedList l) e') /\
     (forall eigvals k t x theta d e e',
        initnd G eigvals k t x theta (SeedList l) d e = initnd G eigvals k t x theta (SeedList l) d e')) /\
  (forall k sigma theta e, init1d G k sigma theta (SeedList []) e = init1d G k sigma theta SeedNone e).
Proof.
  intros K G l. split; [|split].
  - intros H. assert (E : forall e, make_rng G (SeedList l) e = Err ValueError).
    { intros e. unfold make_rng. destruct l as [|z l']; [inversion H|]. cbn [seed_truthy].
      destruct (seed_valid (SeedList (z :: l'))) eqn:V; [|reflexivity]. cbn [seed_valid] in V. rewrite forallb_forall in V.
      apply Exists_exists in H. destruct H as (u & Hu & Hn). apply V in Hu. apply Z.leb_le in Hu. lia. }
    split; [intros k sigma theta e; destruct k; unfold init1d, ou_init, dw_init, base_init; rewrite E; reflexivity|].
    intros eigvals k t x theta d e. destruct k; cbn [initnd]; unfold l63_init, l96_init, base_init; rewrite E; reflexivity.
  - intros H N. assert (E : forall e, make_rng G (SeedList l) e = Ok (r_seeded G (SeedList l))).
    { intros e. unfold make_rng. destruct l as [|z l']; [contradiction|]. cbn [seed_truthy].
      replace (seed_valid (SeedList (z :: l'))) with true; [reflexivity|]. symmetry. cbn [seed_valid]. apply forallb_forall.
      intros u Hu. rewrite Forall_forall in H. apply Z.leb_le, H, Hu. }
    split; [intros k sigma theta e e'; destruct k; unfold init1d, ou_init, dw_init, base_init; rewrite !E; reflexivity|].
    intros eigvals k t x theta d e e'. destruct k; cbn [initnd]; unfold l63_init, l96_init, base_init; rewrite !E; reflexivity.
  - intros k sigma theta e. destruct k; reflexivity.
Qed.
Print Assumptions C43_seed_lists.
Example C43_instance :
  match init1d (count_rng FNum) DW (nZ 1) (nZ 1) (SeedInt 6771) 99%Z with
  | Ok p => Z.eqb (b_rng (p_base (snd (run1 (count_rng FNum) DW
              [C_traj (nZ 0) (nZ 2) (nZ 1) (nZ 0); C_collect (DInt 1) (A0 (nZ (K:=FNum) 1)) None] p)))) 6778
  | Err _ => false
  end = true.
Proof. vm_compute. reflexivity. Qed.
