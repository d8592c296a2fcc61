(** * Proofs: trajectories and observations over the reals. *)
From Coq Require Import Reals Lra Lia Arith Bool List ZArith FunctionalExtensionality.
From Verif Require Import Num Arr ArrFacts M_LinAlg M_Utils M_L63 M_L96 M_Like M_Proc
  Spec_Utils Spec_GaussN Spec_Det Spec_L63 Spec_L96 Spec_Proc
  P_Trapz P_LinAlg P_Det P_RMat P_GaussN P_Expect P_L96 P_Proc.
Import ListNotations.
Local Open Scope R_scope.

Lemma map2_len {A B C} (f : A -> B -> C) l r : length l = length r -> length (map2 f l r) = length l.
Proof. revert r; induction l as [|a l IH]; intros [|b r] H; cbn in *; try discriminate; auto. Qed.
Lemma map2_nth {A B C} (f : A -> B -> C) da db dc l : forall r i, (i < length l)%nat -> length l = length r ->
  nth i (map2 f l r) dc = f (nth i l da) (nth i r db).
Proof.
  induction l as [|a l IH]; intros [|b r] i Hi H; cbn in *; try lia; try discriminate.
  destruct i; [reflexivity|]. apply IH; lia.
Qed.

(** ** 1-D trajectories *)
Lemma em_R (f : R -> R) dt (s : R) x0 (z : list R) n (next : R -> R -> R) :
  (forall x e, next x e = x + f x * dt + e) -> length z = n -> (1 <= n)%nat ->
  euler_maruyama f dt x0 (fun t => s * nth t z 0) n (em_path next x0 (tl (map (fun u => s * u) z))).
Proof.
  intros Hx Hz Hn. assert (Htl : length (tl (map (fun u => s * u) z)) = (n - 1)%nat).
  { destruct z; cbn in *; [lia|]. rewrite map_length. lia. }
  split; [rewrite em_path_len, Htl; lia|]. split; [apply em_path_0|].
  intros t Ht. destruct t as [|t]; [lia|]. rewrite (em_path_S _ _ _ t 0 0) by (rewrite Htl; lia).
  rewrite Hx. replace (S t - 1)%nat with t by lia. rewrite nth_tl.
  rewrite (nth_map_lt (fun u => s * u) z (S t) 0 0) by lia. reflexivity.
Qed.

Section T.
Context (G : Rng RNum).
Lemma ou_traj_R t0 tf dt mu p : 0 < dt -> t0 <= tf ->
  exists n tk x z g, normals G n (b_rng (p_base p)) = (z, g) /\
    ou_trajectory G t0 tf dt mu p = (Ok tt, with_base G (mkBase (Some x) (Some tk) g) p) /\
    uniform_grid t0 dt n tk /\ reaches t0 dt tf n /\
    euler_maruyama (fun v => p_theta p * (mu - v)) dt mu (fun t => sqrt (p_sigma p * dt) * nth t z 0) n x.
Proof.
  intros Hd Ht. destruct (arange_grid t0 tf dt Hd Ht) as (n & tk & E & Hg & Hn & H1 & H2).
  destruct (normals G n (b_rng (p_base p))) as [z g] eqn:Ez.
  assert (Hz : length z = n) by (rewrite <- (normals_len G n (b_rng (p_base p))), Ez; reflexivity).
  exists n, tk, (em_path (ou_next (K:=RNum) (p_theta p) mu dt) mu (tl (map (fun u => sqrt (p_sigma p * dt) * u) z))), z, g.
  split; [exact Ez|]. split.
  - unfold ou_trajectory. change (nadd (n:=RNum) tf dt) with (tf + dt). rewrite E.
    destruct Hg as [Hl _]. change (@length (car RNum) tk) with (@length R tk). rewrite Hl.
    destruct (Nat.eqb_spec n 0); [lia|]. rewrite Ez. reflexivity.
  - split; [exact Hg|]. split; [split; [exact Hn|split; assumption]|].
    apply em_R; [|exact Hz|exact Hn]. intros. unfold ou_next. rnum. rring.
Qed.
Lemma dw_traj_R t0 tf dt p : 0 < dt -> t0 <= tf ->
  exists n tk x u g1 z0 g2 z g x0,
    r_uniform G (b_rng (p_base p)) = (u, g1) /\ r_normal G g1 = (z0, g2) /\ normals G n g2 = (z, g) /\
    dw_trajectory G t0 tf dt p = (Ok tt, with_base G (mkBase (Some x) (Some tk) g) p) /\
    uniform_grid t0 dt n tk /\ reaches t0 dt tf n /\
    x0 = (if Rlt_dec (1 / 2) u then p_theta p else - p_theta p) + sqrt (1 / 2 * p_sigma p * dt) * z0 /\
    euler_maruyama (fun v => 4 * v * (p_theta p - v ^ 2)) dt x0 (fun t => sqrt (p_sigma p * dt) * nth t z 0) n x.
Proof.
  intros Hd Ht. destruct (arange_grid t0 tf dt Hd Ht) as (n & tk & E & Hg & Hn & H1 & H2).
  destruct (r_uniform G (b_rng (p_base p))) as [u g1] eqn:Eu.
  destruct (r_normal G g1) as [z0 g2] eqn:E0.
  destruct (normals G n g2) as [z g] eqn:Ez.
  assert (Hz : length z = n) by (rewrite <- (normals_len G n g2), Ez; reflexivity).
  set (x0 := (if Rlt_dec (1 / 2) u then p_theta p else - p_theta p) + sqrt (1 / 2 * p_sigma p * dt) * z0).
  exists n, tk, (em_path (dw_next (K:=RNum) (p_theta p) dt) x0 (tl (map (fun u => sqrt (p_sigma p * dt) * u) z))), u, g1, z0, g2, z, g, x0.
  split; [reflexivity|]. split; [exact E0|]. split; [exact Ez|]. split.
  - unfold dw_trajectory. change (nadd (n:=RNum) tf dt) with (tf + dt). rewrite E, Eu.
    destruct Hg as [Hl _]. change (@length (car RNum) tk) with (@length R tk). rewrite Hl.
    destruct (Nat.eqb_spec n 0); [lia|]. rewrite E0, Ez.
    replace (nadd (n:=RNum) _ _) with x0; [reflexivity|].
    unfold x0. rnum. f_equal. destruct (Rltb_spec (1 / 2) u), (Rlt_dec (1 / 2) u); try contradiction; reflexivity.
  - split; [exact Hg|]. split; [split; [exact Hn|split; assumption]|]. split; [reflexivity|].
    apply em_R; [|exact Hz|exact Hn]. intros. unfold dw_next. rnum. rring.
Qed.

(** ** n-D trajectories *)
Lemma burn_in_R d (f f' : (nat -> R) -> nat -> R) k : forall x0, (forall x i, (i < d)%nat -> f x i = f' x i) ->
  euler_steps d f' (1 / 1000) x0 k (burn_in (K:=RNum) k f x0).
Proof.
  induction k as [|k IH]; intros x0 H.
  - exists (fun _ => x0). repeat split. intros; lia.
  - destruct (IH (fun i => x0 i + f x0 i * (1 / 1000)) H) as (y & Y0 & Yk & YS).
    exists (fun j => match j with O => x0 | S j' => y j' end). split; [reflexivity|]. split; [exact Yk|].
    intros j i Hj Hi. destruct j as [|j].
    + rewrite Y0. rewrite H by exact Hi. reflexivity.
    + apply YS; [lia|exact Hi].
Qed.
Lemma traj_n_R d (f f' : (nat -> R) -> nat -> R) x0 t0 tf dt p : q_dim p = d -> 0 < dt -> t0 <= tf ->
  (forall x i, (i < d)%nat -> f x i = f' x i) ->
  exists n tk x z g, normals G (d * n) (b_rng (q_base p)) = (z, g) /\
    trajectoryN (K:=RNum) G f x0 t0 tf dt p = (Ok tt, with_baseN G (mkBase (Some x) (Some tk) g) p) /\
    uniform_grid t0 dt n tk /\ reaches t0 dt tf n /\
    euler_maruyama_n d f' dt x0
      (fun t i => Rsum d (fun k => noise_factor (K:=RNum) d (q_sigma p) dt i k * nth (k * n + t) z 0)) n x.
Proof.
  intros Hp Hd Ht Hf. destruct (arange_grid t0 tf dt Hd Ht) as (n & tk & E & Hg & Hn & H1 & H2).
  destruct (normals G (d * n) (b_rng (q_base p))) as [z g] eqn:Ez.
  set (F := noise_factor (K:=RNum) d (q_sigma p) dt).
  set (next := fun (x e : nat -> R) => (fun i => x i + f x i * dt + e i) : nat -> R).
  set (ek := map (noise_at (K:=RNum) d n F z) (seq 1 (n - 1))).
  exists n, tk, (em_path next x0 ek), z, g. split; [exact Ez|]. split.
  - unfold trajectoryN. change (nadd (n:=RNum) tf dt) with (tf + dt). rewrite E.
    destruct Hg as [Hl _]. change (@length (car RNum) tk) with (@length R tk). rewrite Hl, Hp.
    destruct (Nat.eqb_spec n 0); [lia|]. rewrite Ez. reflexivity.
  - split; [exact Hg|]. split; [split; [exact Hn|split; assumption]|].
    assert (Hek : @length (nat -> R) ek = (n - 1)%nat) by (unfold ek; rewrite map_length, seq_length; reflexivity).
    split; [rewrite em_path_len, Hek; lia|]. split; [apply em_path_0|].
    intros t i Ht' Hi. destruct t as [|t]; [lia|]. rewrite (em_path_S _ _ _ t vzero0 vzero0) by (rewrite Hek; lia).
    replace (S t - 1)%nat with t by lia. unfold next at 1. rewrite Hf by exact Hi. f_equal.
    unfold ek. rewrite map_seq1_nth by lia. reflexivity.
Qed.
Lemma l63_f63 (x th : nat -> R) i : (i < 3)%nat -> l63 (K:=RNum) x th i = f63 (th 0%nat) (th 1%nat) (th 2%nat) x i.
Proof. intros H. destruct i as [|[|[|i]]]; try lia; unfold l63, vec3, f63; rnum; cbn; ring. Qed.
End T.

Lemma burn_in_one k d f f' (x0 x1 : nat -> R) : x0 = x1 -> (forall x i, (i < d)%nat -> f x i = f' x i) ->
  euler_steps d f' (1 / 1000) x1 k (burn_in (K:=RNum) k f x0).
Proof. intros -> H. apply burn_in_R, H. Qed.
Lemma l63_start_R th : euler_steps 3 (f63 (th 0%nat) (th 1%nat) (th 2%nat)) (1 / 1000) (fun _ => 1) 5000 (l63_start (K:=RNum) th).
Proof.
  unfold l63_start. generalize 5000%nat. intros k. apply burn_in_one; [reflexivity|]. intros x i Hi. apply l63_f63. exact Hi.
Qed.
Lemma l96_start_R d th : euler_steps d (f96 d th) (1 / 1000)
  (fun i => if Nat.eqb i (d / 2) then th i * 1 + 1 / 1000 else th i * 1) 5000 (l96_start (K:=RNum) d th).
Proof.
  unfold l96_start. generalize 5000%nat. intros k. apply burn_in_one; [reflexivity|]. intros x i Hi. apply l96_f96. exact Hi.
Qed.

(** ** the noise of the n-D trajectories *)
Lemma noise_cov_gram d (F : nat -> nat -> R) : noise_cov d F (fun i j => Rsum d (fun k => F i k * F j k)).
Proof.
  intros i j Hi Hj.
  pose proof (E_mvn_xy d (fun _ => 0) (fun i j => Rsum d (fun k => F i k * F j k)) 0 0 i j Hi Hj F) as H.
  assert (HR : is_root d F (fun i j => Rsum d (fun k => F i k * F j k))) by (intros a b _ _; reflexivity).
  specialize (H HR). cbv beta in H. replace (_ + (0 - 0) * (0 - 0)) with (Rsum d (fun k => F i k * F j k)) in H by ring.
  replace (fun z : nat -> R => Rsum d (fun k => F i k * z k) * Rsum d (fun k => F j k * z k))
    with (fun z => (mvn_point d (fun _ => 0) F z i - 0) * (mvn_point d (fun _ => 0) F z j - 0)); [exact H|].
  apply functional_extensionality. intros z. unfold mvn_point. ring.
Qed.
Lemma noise_cov_unique d F C C' : noise_cov d F C -> noise_cov d F C' -> rmeq d C C'.
Proof. intros H H' i j Hi Hj. eapply E_std_unique; [apply H|apply H']; assumption. Qed.

(** a triangular factor of a diagonal matrix is diagonal *)
Lemma ltri_diag d (L S : nat -> nat -> R) : lower_tri d L -> is_prod d L (transp L) S -> diagonal d S -> diagonal d L.
Proof.
  intros [Hl Hp] Hs Hd.
  assert (H : forall j, (j < d)%nat -> forall j' i, (j' <= j)%nat -> (j' < i < d)%nat -> L i j' = 0).
  { induction j as [j IH] using lt_wf_ind. intros Hj j' i Hj' Hi.
    destruct (Nat.eq_dec j' j) as [->|Hne]; [|apply (IH j'); lia].
    pose proof (Hs i j ltac:(lia) Hj) as E. rewrite (Hd i j) in E by lia.
    rewrite (Rsum_single d _ j Hj) in E.
    - unfold transp in E. specialize (Hp j Hj). apply Rmult_integral in E. destruct E; [assumption|lra].
    - intros k Hk Hkj. unfold transp. destruct (Nat.lt_ge_cases k j).
      + rewrite (IH k) by lia. ring.
      + rewrite (Hl j k) by lia. ring. }
  intros i j Hi Hj Hne. destruct (Nat.lt_ge_cases i j); [apply Hl; lia|]. apply (H j Hj); lia.
Qed.
(** a triangular factor that commutes with its transpose is diagonal *)
Lemma ltri_normal d (L : nat -> nat -> R) : lower_tri d L ->
  (forall j, (j < d)%nat -> Rsum d (fun k => L k j * L k j) = Rsum d (fun k => L j k * L j k)) -> diagonal d L.
Proof.
  intros [Hl Hp] Hn.
  assert (H : forall j, (j < d)%nat -> forall i, (j < i < d)%nat -> L i j = 0).
  { induction j as [j IH] using lt_wf_ind. intros Hj i Hi.
    pose proof (Hn j Hj) as E. rewrite (Rsum_single d (fun k => L j k * L j k) j Hj) in E.
    2:{ intros k Hk Hkj. destruct (Nat.lt_ge_cases k j); [rewrite (IH k) by lia|rewrite (Hl j k) by lia]; ring. }
    assert (Q : L i j * L i j + L j j * L j j <= Rsum d (fun k => L k j * L k j)).
    { assert (G : L i j * L i j <= Rsum d (fun k => if Nat.eqb k j then 0 else L k j * L k j)).
      { pose proof (Rsum_ge_term d (fun k => if Nat.eqb k j then 0 else L k j * L k j) i) as T. cbv beta in T.
        destruct (Nat.eqb_spec i j); [lia|]. apply T; [|lia]. intros k _. destruct (Nat.eqb k j); nra. }
      replace (Rsum d (fun k => L k j * L k j))
        with (Rsum d (fun k => if Nat.eqb k j then 0 else L k j * L k j) + Rsum d (fun k => if Nat.eqb k j then L k j * L k j else 0)).
      - rewrite (Rsum_single d (fun k => if Nat.eqb k j then L k j * L k j else 0) j Hj); [rewrite Nat.eqb_refl; lra|].
        intros k _ Hk. destruct (Nat.eqb_spec k j); [contradiction|reflexivity].
      - rewrite <- Rsum_plus. apply Rsum_ext. intros k _. destruct (Nat.eqb k j); ring. }
    nra. }
  intros i j Hi Hj Hne. destruct (Nat.lt_ge_cases i j); [apply Hl; lia|]. apply (H j Hj); lia.
Qed.

Definition scaled (S : nat -> nat -> R) (dt : R) : nat -> nat -> R := fun i j => S i j * dt.
Lemma scaled_posdef d S dt : 0 < dt -> posdef d S -> posdef d (scaled S dt).
Proof.
  intros Hd Hp v Hv. specialize (Hp v Hv). unfold scaled.
  replace (Rsum d (fun i => Rsum d (fun j => v i * (S i j * dt) * v j))) with (dt * Rsum d (fun i => Rsum d (fun j => v i * S i j * v j))).
  - apply Rmult_lt_0_compat; assumption.
  - rewrite <- Rsum_scal. apply Rsum_ext. intros i _. rewrite <- Rsum_scal. apply Rsum_ext. intros; ring.
Qed.
(** the factor is the transpose of the lower triangular root *)
Lemma noise_factor_R d (S : nat -> nat -> R) dt : symm d S -> posdef d S -> 0 < dt ->
  exists L, lower_tri d L /\ is_prod d L (transp L) (scaled S dt) /\ noise_factor (K:=RNum) d S dt = transp L.
Proof.
  intros Hs Hp Hd.
  assert (Hs' : symm d (transp (scaled S dt))) by (intros i j Hi Hj; unfold transp, scaled; rewrite (Hs i j Hi Hj); reflexivity).
  assert (Hp' : posdef d (transp (scaled S dt))).
  { intros v Hv. pose proof (scaled_posdef d S dt Hd Hp v Hv) as Q.
    erewrite Rsum_ext; [exact Q|]. intros i Hi. cbv beta. apply Rsum_ext. intros j Hj. unfold transp, scaled. rewrite (Hs i j Hi Hj). reflexivity. }
  destruct (chol_succeeds d (transp (scaled S dt)) Hs' Hp') as [L HL].
  destruct (chol_fact_sym d _ L Hs' HL) as [Ht HLL].
  exists L. split; [exact Ht|]. split.
  - intros i j Hi Hj. specialize (HLL i j Hi Hj). unfold mmul, mtr in HLL. rewrite <- (Rsum_rsum d) in HLL.
    unfold transp, scaled in *. rewrite (Hs i j Hi Hj), <- HLL. reflexivity.
  - unfold noise_factor, scipy_cholesky.
    change (mtr (K:=RNum) (fun i j => nmul (n:=RNum) (S i j) dt)) with (transp (scaled S dt)). rewrite HL. reflexivity.
Qed.
Lemma noise_diag d S dt : symm d S -> posdef d S -> 0 < dt ->
  (noise_cov d (noise_factor (K:=RNum) d S dt) (scaled S dt) <-> diagonal d S).
Proof.
  intros Hs Hp Hd. destruct (noise_factor_R d S dt Hs Hp Hd) as (L & Ht & HL & EF). rewrite EF.
  pose proof (noise_cov_gram d (transp L)) as HG. unfold transp in HG at 2.
  split.
  - intros HC. pose proof (noise_cov_unique d _ _ _ HC HG) as E.
    assert (Dg : diagonal d L).
    { apply ltri_normal; [exact Ht|]. intros j Hj. specialize (E j j Hj Hj). specialize (HL j j Hj Hj). unfold transp in *.
      transitivity (scaled S dt j j); [rewrite E; reflexivity|symmetry; exact HL]. }
    intros i j Hi Hj Hne. specialize (HL i j Hi Hj).
    rewrite Rsum_z in HL. { unfold scaled in HL. apply eq_sym in HL. apply Rmult_integral in HL. destruct HL; [assumption|lra]. }
    intros k Hk. unfold transp. destruct (Nat.eq_dec i k) as [->|N]; [rewrite (Dg j k) by auto|rewrite (Dg i k) by auto]; ring.
  - intros HD. assert (HD' : diagonal d (scaled S dt)) by (intros i j Hi Hj Hne; unfold scaled; rewrite HD by auto; ring).
    pose proof (ltri_diag d L _ Ht HL HD') as Dg.
    intros i j Hi Hj. replace (scaled S dt i j) with (Rsum d (fun k => transp L i k * transp L j k)); [apply noise_cov_gram; assumption|].
    rewrite <- (HL i j Hi Hj). apply Rsum_ext. intros k Hk. unfold transp.
    destruct (Nat.eq_dec k i) as [->|N].
    + destruct (Nat.eq_dec i j) as [->|N']; [reflexivity|]. rewrite (Dg i j), (Dg j i) by auto. ring.
    + rewrite (Dg k i), (Dg i k) by auto. ring.
Qed.
Lemma noise_1d s : 0 <= s -> noise_cov 1 (fun _ _ => sqrt s) (fun _ _ => s).
Proof.
  intros Hs i j Hi Hj. pose proof (noise_cov_gram 1 (fun _ _ => sqrt s) i j Hi Hj) as H. cbv beta in H.
  replace (Rsum 1 (fun _ => sqrt s * sqrt s)) with s in H; [exact H|]. cbn. rewrite sqrt_sqrt by exact Hs. ring.
Qed.

(** ** observations *)
Section C.
Context (G : Rng RNum).
Lemma collect1_R (b : Base G RNum) (tk xt : list R) t0 dt n (n_obs : dens RNum) {f : R} (r : R) :
  b_tk b = Some tk -> b_xt b = Some xt -> uniform_grid t0 dt n tk -> (2 <= n)%nat -> 0 < dt -> length xt = n ->
  density_is n_obs f /\ 0 <= f -> fits_step f dt ->
  exists m ts ys z g,
    int_part (INR (n - 1) * dt * f) (Z.of_nat m) /\ normals G m (b_rng b) = (z, g) /\
    collect1 G n_obs (A0 (K:=RNum) r) None b = (Ok (ts, ys, A0 (K:=RNum) r), mkBase (Some xt) (Some tk) g) /\
    spread n m ts /\ length ys = m /\
    forall i, (i < m)%nat -> nth i ys 0 = nth (nth i ts 0%nat) xt 0 + sqrt r * nth i z 0.
Proof.
  intros Ht Hx Hg Hn Hd Hl Hz Hc.
  destruct (obs_indexes_R t0 dt n tk n_obs Hg Hn Hd Hz Hc) as (m & Hm & Hmn & E).
  pose proof (spread_ix_spec n m Hmn) as Hs. set (ts := spread_ix n m) in *.
  destruct (normals G m (b_rng b)) as [z g] eqn:Ez.
  assert (Hzl : @length R z = m) by (pose proof (normals_len G m (b_rng b)) as Q; rewrite Ez in Q; exact Q).
  assert (Htl : length ts = m) by apply Hs.
  set (oy := map (fun i => nth i xt 0) ts : list R).
  set (nz := map2 Rmult (map (fun _ => sqrt r) (seq 0 m)) z).
  assert (Hoy : length oy = m) by (unfold oy; rewrite map_length; exact Htl).
  assert (Hsq : length (map (fun _ : nat => sqrt r) (seq 0 m)) = m) by (rewrite map_length, seq_length; reflexivity).
  assert (Hnz : length nz = m) by (unfold nz; rewrite map2_len; [exact Hsq|rewrite Hsq, Hzl; reflexivity]).
  exists m, ts, (map2 Rplus oy nz), z, g. split; [exact Hm|]. split; [exact Ez|]. split.
  - unfold collect1. rewrite Ht, Hx, E. cbn [bind].
    rewrite (take_ok (xt : list RNum) (0 : R) ts).
    2:{ intros i Hi. apply (spread_in n m ts Hs) in Hi. apply Nat.lt_le_trans with n; [lia|]. apply Nat.eq_le_incl. symmetry. exact Hl. }
    cbn [bind mask_given]. rewrite Ez. cbn [noise1 bind]. unfold same_len.
    change (map (fun i => nth i xt 0) ts) with oy.
    change (@length (car RNum) oy) with (@length R oy). change (@length (car RNum) z) with (@length R z).
    rewrite Hoy, Hzl, Nat.eqb_refl. cbn [bind]. unfold set_rng. rewrite Ht, Hx. reflexivity.
  - split; [exact Hs|]. split; [rewrite map2_len by congruence; exact Hoy|].
    intros i Hi. rewrite (map2_nth Rplus 0 0 0) by (rewrite ?Hnz, Hoy; first [exact Hi|reflexivity]).
    f_equal. { unfold oy. rewrite (nth_map_lt (fun i => nth i xt 0) ts i 0%nat 0) by lia. reflexivity. }
    unfold nz. rewrite (map2_nth Rmult 0 0 0) by (rewrite ?Hzl, Hsq; first [exact Hi|reflexivity]). f_equal.
    rewrite (map_seq_nth (fun _ => sqrt r)) by exact Hi. reflexivity.
Qed.
Lemma collect1_reject (b : Base G RNum) (tk xt : list R) t0 dt n (n_obs : dens RNum) {f : R} rn h :
  b_tk b = Some tk -> b_xt b = Some xt -> uniform_grid t0 dt n tk -> (2 <= n)%nat -> 0 < dt ->
  density_is n_obs f -> ~ fits_step f dt \/ f < 0 -> collect1 G n_obs rn h b = (Err ValueError, b).
Proof.
  intros Ht Hx Hg Hn Hd Hv [H|H]; unfold collect1; rewrite Ht, Hx.
  - rewrite (obs_indexes_high t0 dt n tk n_obs f) by assumption. reflexivity.
  - rewrite (obs_indexes_neg t0 dt n tk n_obs f) by assumption. reflexivity.
Qed.
Lemma collectN_reject d (b : Base G (vec RNum)) (tk : list R) (xt : list (nat -> R)) t0 dt n (n_obs : dens RNum) {f : R} rn h :
  b_tk b = Some tk -> b_xt b = Some xt -> uniform_grid t0 dt n tk -> (2 <= n)%nat -> 0 < dt ->
  density_is n_obs f -> ~ fits_step f dt \/ f < 0 -> collectN G n_obs rn h d b = (Err ValueError, b).
Proof.
  intros Ht Hx Hg Hn Hd Hv [H|H]; unfold collectN, collect_cols; rewrite Ht, Hx.
  - rewrite (obs_indexes_high t0 dt n tk n_obs f) by assumption. reflexivity.
  - rewrite (obs_indexes_neg t0 dt n tk n_obs f) by assumption. reflexivity.
Qed.

(** the selected columns *)
Lemma positions_in l : forall k c, In c (positions k l) <-> (k <= c)%nat /\ nth (c - k) l false = true.
Proof.
  induction l as [|a l IH]; intros k c; cbn [positions].
  - split; [intros []|]. intros [_ H]. destruct (c - k)%nat; discriminate.
  - assert (E : (k < c)%nat -> nth (c - k) (a :: l) false = nth (c - S k) l false).
    { intros H. replace (c - k)%nat with (S (c - S k)) by lia. reflexivity. }
    destruct a.
    + cbn [In]. rewrite IH. split.
      * intros [<-|[H1 H2]]; [split; [lia|]; replace (k - k)%nat with 0%nat by lia; reflexivity|]. split; [lia|]. rewrite E by lia. exact H2.
      * intros [H1 H2]. destruct (Nat.eq_dec k c) as [->|N]; [left; reflexivity|right]. split; [lia|]. rewrite <- E by lia. exact H2.
    + rewrite IH. split.
      * intros [H1 H2]. split; [lia|]. rewrite E by lia. exact H2.
      * intros [H1 H2]. destruct (Nat.eq_dec k c) as [->|N]; [rewrite Nat.sub_diag in H2; discriminate|]. split; [lia|]. rewrite <- E by lia. exact H2.
Qed.
Lemma positions_sorted l : forall k i j, (i < j < length (positions k l))%nat -> (nth i (positions k l) 0 < nth j (positions k l) 0)%nat.
Proof.
  induction l as [|a l IH]; intros k i j H; cbn [positions length] in *; [lia|].
  destruct a; [|apply IH; exact H]. cbn [length] in H. destruct j as [|j]; [lia|]. destruct i as [|i]; cbn [nth].
  - assert (In (nth j (positions (S k) l) 0%nat) (positions (S k) l)) by (apply nth_In; lia).
    apply positions_in in H0. lia.
  - apply IH. lia.
Qed.
Lemma positions_selected l : selected l (positions 0 l).
Proof.
  split; [apply positions_sorted|]. intros c. rewrite positions_in, Nat.sub_0_r. split; [tauto|]. intros; split; [lia|assumption].
Qed.
Lemma selected_unique l c c' : selected l c -> selected l c' -> c = c'.
Proof.
  intros [H1 H2] [H1' H2'].
  assert (G0 : forall (a b : list nat), (forall i j, (i < j < length a)%nat -> (nth i a 0 < nth j a 0)%nat) ->
     (forall i j, (i < j < length b)%nat -> (nth i b 0 < nth j b 0)%nat) -> (forall x, In x a <-> In x b) -> a = b).
  { clear. induction a as [|x a IH]; intros [|y b] Ha Hb H; [reflexivity| | |].
    - exfalso. apply (H y). left; reflexivity.
    - exfalso. apply (H x). left; reflexivity.
    - assert (Ax : forall u, In u a -> (x < u)%nat).
      { intros u Hu. apply In_nth with (d := 0%nat) in Hu. destruct Hu as (k & Hk & <-). apply (Ha 0%nat (S k)). cbn; lia. }
      assert (By : forall u, In u b -> (y < u)%nat).
      { intros u Hu. apply In_nth with (d := 0%nat) in Hu. destruct Hu as (k & Hk & <-). apply (Hb 0%nat (S k)). cbn; lia. }
      assert (x = y).
      { destruct (proj1 (H x) (or_introl eq_refl)) as [E|E]; [auto|]. apply By in E.
        destruct (proj2 (H y) (or_introl eq_refl)) as [E'|E']; [auto|]. apply Ax in E'. lia. }
      subst y. f_equal. apply IH.
      + intros i j Hij. apply (Ha (S i) (S j)). cbn; lia.
      + intros i j Hij. apply (Hb (S i) (S j)). cbn; lia.
      + intros u. split; intros Hu.
        * destruct (proj1 (H u) (or_intror Hu)) as [E|E]; [|exact E]. apply Ax in Hu. lia.
        * destruct (proj2 (H u) (or_intror Hu)) as [E|E]; [|exact E]. apply By in Hu. lia. }
  apply G0; [assumption|assumption|]. intros x. rewrite H2, H2'. tauto.
Qed.
Lemma all_selected d : selected (repeat true d) (seq 0 d).
Proof.
  split.
  - intros i j H. rewrite seq_length in H. rewrite !seq_nth by lia. lia.
  - intros c. rewrite in_seq. split.
    + intros H. rewrite nth_indep with (d' := true) by (rewrite repeat_length; lia). apply nth_repeat.
    + intros H. split; [lia|]. destruct (Nat.lt_ge_cases c d); [assumption|].
      rewrite nth_overflow in H by (rewrite repeat_length; lia). discriminate.
Qed.
Lemma columns_R d h cols : length (mask_of d h) = d -> selected (mask_of d h) cols -> columns d h = Ok cols.
Proof.
  intros Hl Hs. unfold columns. destruct h as [[|a l]|]; cbn [mask_given mask_of] in *.
  - rewrite (selected_unique _ _ _ Hs (all_selected d)). reflexivity.
  - rewrite Hl, Nat.eqb_refl. rewrite (selected_unique _ _ _ Hs (positions_selected _)). reflexivity.
  - rewrite (selected_unique _ _ _ Hs (all_selected d)). reflexivity.
Qed.

(** noise for dd >= 2 observed components: variances v *)
Definition noise_diag_of (dd : nat) (rn : arr RNum) (v : nat -> R) : Prop :=
  match rn with
  | A0 r => forall i, v i = r
  | A1 n u => n = dd /\ forall i, (i < dd)%nat -> v i = u i
  | A2 r c m => r = dd /\ c = dd /\ forall i, (i < dd)%nat -> v i = m i i
  | A3 => False
  end.
Lemma obs_noise_R dd rn v : noise_diag_of dd rn v ->
  exists C, obs_noise (K:=RNum) dd rn = Ok C /\ diagonal dd C /\ forall i, (i < dd)%nat -> C i i = v i.
Proof.
  intros H. destruct rn as [r|n u|r c m|]; cbn [noise_diag_of] in H.
  - eexists. split; [reflexivity|]. split.
    + intros i j Hi Hj Hne. unfold mscale, meye. rnum. destruct (Nat.eqb_spec i j); [contradiction|]. rring.
    + intros i Hi. unfold mscale, meye. rewrite Nat.eqb_refl. rnum. rewrite (H i). rring.
  - destruct H as [-> H]. cbn [obs_noise]. rewrite Nat.eqb_refl. eexists. split; [reflexivity|]. split.
    + intros i j Hi Hj Hne. unfold mdiag. destruct (Nat.eqb_spec i j); [contradiction|reflexivity].
    + intros i Hi. unfold mdiag. rewrite Nat.eqb_refl. symmetry. apply H, Hi.
  - destruct H as (-> & -> & H). cbn [obs_noise]. rewrite !Nat.eqb_refl. cbn [orb andb]. eexists. split; [reflexivity|]. split.
    + intros i j Hi Hj Hne. unfold meye. rnum. destruct (Nat.eqb_spec i j); [contradiction|]. rring.
    + intros i Hi. unfold meye. rewrite Nat.eqb_refl. rnum. rewrite (H i Hi). rring.
  - contradiction.
Qed.
Lemma collect_cols_R (b : Base G (vec RNum)) (tk : list R) (xt : list (nat -> R)) t0 dt n (n_obs : dens RNum) {f : R} (rn : arr RNum) cols v :
  b_tk b = Some tk -> b_xt b = Some xt -> uniform_grid t0 dt n tk -> (2 <= n)%nat -> 0 < dt -> length xt = n ->
  density_is n_obs f /\ 0 <= f -> fits_step f dt ->
  length cols <> 1%nat -> noise_diag_of (length cols) rn v ->
  exists m ts ys C z g,
    int_part (INR (n - 1) * dt * f) (Z.of_nat m) /\ normals G (length cols * m) (b_rng b) = (z, g) /\
    collect_cols G n_obs rn (Ok cols) b = (Ok (ts, ys, A2 (K:=RNum) (length cols) (length cols) C), mkBase (Some xt) (Some tk) g) /\
    diagonal (length cols) C /\ (forall i, (i < length cols)%nat -> C i i = v i) /\
    spread n m ts /\ length ys = m /\
    forall i j, (i < m)%nat -> (j < length cols)%nat ->
      nth i ys vzero0 j = nth (nth i ts 0%nat) xt vzero0 (nth j cols 0%nat) + sqrt (v j) * nth (j * m + i) z 0.
Proof.
  intros Ht Hx Hg Hn Hd Hl Hz Hc Hdd Hrn.
  destruct (obs_indexes_R t0 dt n tk n_obs Hg Hn Hd Hz Hc) as (m & Hm & Hmn & E).
  destruct (obs_noise_R _ _ _ Hrn) as (C & EC & HCd & HCv).
  pose proof (spread_ix_spec n m Hmn) as Hs. set (ts := spread_ix n m) in *. set (dd := length cols) in *.
  destruct (normals G (dd * m) (b_rng b)) as [z g] eqn:Ez.
  assert (Htl : length ts = m) by apply Hs.
  set (oy := map (fun (x : nat -> R) => (fun i => x (nth i cols 0%nat)) : nat -> R) (map (fun i => nth i xt vzero0) ts)).
  set (e := map (noise_at (K:=RNum) dd m (fun i j => sqrt (C i j)) z) (seq 0 m)).
  assert (Hoy : @length (nat -> R) oy = m) by (unfold oy; rewrite !map_length; exact Htl).
  assert (He : @length (nat -> R) e = m) by (unfold e; rewrite map_length, seq_length; reflexivity).
  exists m, ts, (map2 (fun (y u : nat -> R) => (fun i => y i + u i) : nat -> R) oy e), C, z, g.
  split; [exact Hm|]. split; [exact Ez|]. split.
  - unfold collect_cols. rewrite Ht, Hx, E. cbn [bind].
    rewrite (take_ok (xt : list (vec RNum)) vzero0 ts).
    2:{ intros i Hi. apply (spread_in n m ts Hs) in Hi. apply Nat.lt_le_trans with n; [lia|]. apply Nat.eq_le_incl. symmetry. exact Hl. }
    cbn [bind]. fold dd.
    destruct (Nat.eqb_spec dd 1) as [|_]; [contradiction|]. rewrite EC, Ez. unfold same_len.
    match goal with |- context [Nat.eqb ?u ?w] => replace (Nat.eqb u w) with true
      by (symmetry; apply Nat.eqb_eq; transitivity m; [exact Hoy|symmetry; exact He]) end.
    cbn [bind]. unfold set_rng. rewrite Ht, Hx. reflexivity.
  - split; [exact HCd|]. split; [exact HCv|]. split; [exact Hs|]. split; [rewrite map2_len by (transitivity m; [exact Hoy|symmetry; exact He]); exact Hoy|].
    intros i j Hi Hj. rewrite (map2_nth _ vzero0 vzero0 vzero0) by (first [rewrite Hoy; exact Hi|transitivity m; [exact Hoy|symmetry; exact He]]).
    f_equal.
    + unfold oy. rewrite map_map. rewrite (nth_map_lt _ ts i 0%nat vzero0) by lia. reflexivity.
    + unfold e. rewrite map_seq_nth by exact Hi. unfold noise_at, draws_matrix.
      transitivity (Rsum dd (fun k => sqrt (C j k) * nth (k * m + i) z 0)); [reflexivity|].
      rewrite (Rsum_single dd _ j Hj).
      * rewrite HCv by exact Hj. reflexivity.
      * intros k Hk Hne. rewrite (HCd j k) by auto. rewrite sqrt_0. ring.
Qed.
Lemma collectN_R d (b : Base G (vec RNum)) (tk : list R) (xt : list (nat -> R)) t0 dt n (n_obs : dens RNum) {f : R} (rn : arr RNum) h cols v :
  b_tk b = Some tk -> b_xt b = Some xt -> uniform_grid t0 dt n tk -> (2 <= n)%nat -> 0 < dt -> length xt = n ->
  density_is n_obs f /\ 0 <= f -> fits_step f dt ->
  length (mask_of d h) = d -> selected (mask_of d h) cols -> length cols <> 1%nat -> noise_diag_of (length cols) rn v ->
  exists m ts ys C z g,
    int_part (INR (n - 1) * dt * f) (Z.of_nat m) /\ normals G (length cols * m) (b_rng b) = (z, g) /\
    collectN G n_obs rn h d b = (Ok (ts, ys, A2 (K:=RNum) (length cols) (length cols) C), mkBase (Some xt) (Some tk) g) /\
    diagonal (length cols) C /\ (forall i, (i < length cols)%nat -> C i i = v i) /\
    spread n m ts /\ length ys = m /\
    forall i j, (i < m)%nat -> (j < length cols)%nat ->
      nth i ys vzero0 j = nth (nth i ts 0%nat) xt vzero0 (nth j cols 0%nat) + sqrt (v j) * nth (j * m + i) z 0.
Proof.
  intros Ht Hx Hg Hn Hd Hl Hz Hc Hmk Hsel. unfold collectN. rewrite (columns_R d h cols Hmk Hsel).
  apply (collect_cols_R b tk xt t0 dt n n_obs rn cols v Ht Hx Hg Hn Hd Hl Hz Hc).
Qed.
(** one observed component *)
Lemma collect_cols_single (b : Base G (vec RNum)) (tk : list R) (xt : list (nat -> R)) t0 dt n (n_obs : dens RNum) {f : R} (rn : arr RNum) cols m :
  b_tk b = Some tk -> b_xt b = Some xt -> uniform_grid t0 dt n tk -> (2 <= n)%nat -> 0 < dt -> length xt = n ->
  density_is n_obs f /\ 0 <= f -> fits_step f dt ->
  length cols = 1%nat ->
  int_part (INR (n - 1) * dt * f) (Z.of_nat m) -> m <> 1%nat ->
  fst (collect_cols G n_obs rn (Ok cols) b) = Err ValueError.
Proof.
  intros Ht Hx Hg Hn Hd Hl Hz Hc Hdd Hm Hm1.
  destruct (obs_indexes_R t0 dt n tk n_obs Hg Hn Hd Hz Hc) as (m' & Hm' & Hmn & E).
  assert (m' = m).
  { assert (Z.of_nat m' = Z.of_nat m); [|lia]. destruct Hm as [A B], Hm' as [A' B'].
    apply Z.le_antisymm; apply Z.lt_succ_r; apply lt_IZR; rewrite succ_IZR; lra. }
  subst m'. pose proof (spread_ix_spec n m Hmn) as Hs. set (ts := spread_ix n m) in *.
  unfold collect_cols. rewrite Ht, Hx, E. cbn [bind].
  rewrite (take_ok (xt : list (vec RNum)) vzero0 ts).
  2:{ intros i Hi. apply (spread_in n m ts Hs) in Hi. apply Nat.lt_le_trans with n; [lia|]. apply Nat.eq_le_incl. symmetry. exact Hl. }
  cbn [bind]. rewrite Hdd. cbn [Nat.eqb].
  destruct (normals G m (b_rng b)) as [z g]. cbn [fst]. unfold noise_col. destruct (Nat.eqb_spec m 1); [contradiction|reflexivity].
Qed.
Lemma collectN_single d (b : Base G (vec RNum)) (tk : list R) (xt : list (nat -> R)) t0 dt n (n_obs : dens RNum) {f : R} (rn : arr RNum) h cols m :
  b_tk b = Some tk -> b_xt b = Some xt -> uniform_grid t0 dt n tk -> (2 <= n)%nat -> 0 < dt -> length xt = n ->
  density_is n_obs f /\ 0 <= f -> fits_step f dt ->
  length (mask_of d h) = d -> selected (mask_of d h) cols -> length cols = 1%nat ->
  int_part (INR (n - 1) * dt * f) (Z.of_nat m) -> m <> 1%nat ->
  fst (collectN G n_obs rn h d b) = Err ValueError.
Proof.
  intros Ht Hx Hg Hn Hd Hl Hz Hc Hmk Hsel. unfold collectN. rewrite (columns_R d h cols Hmk Hsel).
  apply (collect_cols_single b tk xt t0 dt n n_obs rn cols m Ht Hx Hg Hn Hd Hl Hz Hc).
Qed.
(** an index that is refused *)
Lemma collect_cols_bad (b : Base G (vec RNum)) (tk : list R) (xt : list (nat -> R)) t0 dt n (n_obs : dens RNum) {f : R} (rn : arr RNum) e :
  b_tk b = Some tk -> b_xt b = Some xt -> uniform_grid t0 dt n tk -> (2 <= n)%nat -> 0 < dt -> length xt = n ->
  density_is n_obs f /\ 0 <= f -> fits_step f dt -> collect_cols G n_obs rn (Err e) b = (Err e, b).
Proof.
  intros Ht Hx Hg Hn Hd Hl Hz Hc. destruct (obs_indexes_R t0 dt n tk n_obs Hg Hn Hd Hz Hc) as (m & Hm & Hmn & E).
  pose proof (spread_ix_spec n m Hmn) as Hs. unfold collect_cols. rewrite Ht, Hx, E. cbn [bind].
  rewrite (take_ok (xt : list (vec RNum)) vzero0 (spread_ix n m)).
  2:{ intros i Hi. apply (spread_in n m _ Hs) in Hi. apply Nat.lt_le_trans with n; [lia|]. apply Nat.eq_le_incl. symmetry. exact Hl. }
  reflexivity.
Qed.
End C.
