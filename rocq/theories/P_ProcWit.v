(** * Proofs: witnesses for the noise of the Lorenz systems. *)
From Coq Require Import Reals Lra Lia Arith Bool List ZArith Sorted FunctionalExtensionality.
From Verif Require Import Num Arr ArrFacts M_LinAlg M_Utils M_L63 M_L96 M_Like M_Proc
  Spec_Utils Spec_Det Spec_Proc P_Trapz P_LinAlg P_Det P_RMat P_Spectral P_Proc P_Traj P_Noise.
Import ListNotations.
Local Open Scope R_scope.

(** a bit generator: counts the draws *)
Definition count_rng (K : Num) : Rng K :=
  mkRng K Z (fun g => (nZ g, (g + 1)%Z)) (fun g => (nZ g, (g + 1)%Z))
    (fun s => match s with SeedInt z => z | _ => 0%Z end).

(** [[2,1,0],[1,2,0],[0,0,2]]: eigenvalues 1, 3, 2 *)
Definition m_corr (i j : nat) : R :=
  match i, j with
  | 0%nat, 1%nat | 1%nat, 0%nat => 1
  | _, _ => if Nat.eqb i j then 2 else 0
  end.
Lemma m_corr_symm : symm 3 m_corr.
Proof. intros i j Hi Hj. destruct i as [|[|[|i]]], j as [|[|[|j]]]; try lia; reflexivity. Qed.
Lemma m_corr_posdef : posdef 3 m_corr.
Proof.
  intros v (i & Hi & Hv). unfold m_corr. cbn [Rsum Nat.eqb].
  replace (_ + _) with ((v 0%nat + v 1%nat) ^ 2 + v 0%nat ^ 2 + v 1%nat ^ 2 + 2 * v 2%nat ^ 2) by ring.
  assert (0 < v i ^ 2) by (apply Rsqr_pos_lt in Hv; unfold Rsqr in Hv; lra).
  pose proof (pow2_ge_0 (v 0%nat + v 1%nat)). pose proof (pow2_ge_0 (v 0%nat)). pose proof (pow2_ge_0 (v 1%nat)). pose proof (pow2_ge_0 (v 2%nat)).
  destruct i as [|[|[|i]]]; try lia; lra.
Qed.
Definition m_corr_eig : list (R * R) := [(1, 0); (3, 0); (2, 0)].
Lemma m_corr_spectrum : spectrum 3 m_corr m_corr_eig.
Proof.
  intros z. split.
  - intros [<-|[<-|[<-|[]]]].
    + apply eigen_real with (fun i => match i with 0%nat => 1 | 1%nat => -1 | _ => 0 end); [exists 0%nat; split; [lia|lra]|].
      intros i Hi. unfold rmv, m_corr. destruct i as [|[|[|i]]]; try lia; cbn; lra.
    + apply eigen_real with (fun i => match i with 0%nat => 1 | 1%nat => 1 | _ => 0 end); [exists 0%nat; split; [lia|lra]|].
      intros i Hi. unfold rmv, m_corr. destruct i as [|[|[|i]]]; try lia; cbn; lra.
    + apply eigen_real with (fun i => match i with 2%nat => 1 | _ => 0 end); [exists 2%nat; split; [lia|lra]|].
      intros i Hi. unfold rmv, m_corr. destruct i as [|[|[|i]]]; try lia; cbn; lra.
  - intros Hz. destruct (eigen_symm 3 m_corr z m_corr_symm Hz) as (Hb & v & (i & Hi & Hv) & He).
    destruct z as [a b]. cbn [fst snd] in *. subst b.
    pose proof (He 0%nat ltac:(lia)) as H0. pose proof (He 1%nat ltac:(lia)) as H1. pose proof (He 2%nat ltac:(lia)) as H2.
    unfold rmv, m_corr in H0, H1, H2. cbn [Rsum Nat.eqb] in H0, H1, H2.
    unfold m_corr_eig. cbn [In].
    assert (P0 : (a - 1) * (a - 3) * v 0%nat = 0).
    { replace (v 1%nat) with ((a - 2) * v 0%nat) in H1 by lra. lra. }
    assert (P1 : (a - 1) * (a - 3) * v 1%nat = 0).
    { replace (v 0%nat) with ((a - 2) * v 1%nat) in H0 by lra. lra. }
    assert (P2 : (a - 2) * v 2%nat = 0) by lra.
    destruct i as [|[|[|i]]]; try lia.
    + apply Rmult_integral in P0. destruct P0 as [P0|P0]; [|contradiction]. apply Rmult_integral in P0.
      destruct P0; [left|right; left]; f_equal; lra.
    + apply Rmult_integral in P1. destruct P1 as [P1|P1]; [|contradiction]. apply Rmult_integral in P1.
      destruct P1; [left|right; left]; f_equal; lra.
    + apply Rmult_integral in P2. destruct P2 as [P2|P2]; [|contradiction]. right; right; left; f_equal; lra.
Qed.

(** [[1,1,0],[0,1,0],[0,0,1]]: not symmetric, the only eigenvalue is 1 *)
Definition m_shear (i j : nat) : R :=
  match i, j with 0%nat, 1%nat => 1 | _, _ => if Nat.eqb i j then 1 else 0 end.
Lemma m_shear_spectrum : spectrum 3 m_shear [(1, 0)].
Proof.
  intros z. split.
  - intros [<-|[]]. apply eigen_real with (fun i => match i with 0%nat => 1 | _ => 0 end); [exists 0%nat; split; [lia|lra]|].
    intros i Hi. unfold rmv, m_shear. destruct i as [|[|[|i]]]; try lia; cbn; lra.
  - intros (u & v & (i & Hi & Hne) & H). destruct z as [a b]. cbn [fst snd] in H.
    pose proof (H 0%nat ltac:(lia)) as [A0 B0]. pose proof (H 1%nat ltac:(lia)) as [A1 B1]. pose proof (H 2%nat ltac:(lia)) as [A2 B2].
    unfold m_shear in *. cbn [Rsum Nat.eqb] in *. left.
    destruct (Req_dec ((1 - a) ^ 2 + b ^ 2) 0) as [Z|N].
    { pose proof (pow2_ge_0 (1 - a)). pose proof (pow2_ge_0 b). assert (E1 : (1 - a) ^ 2 = 0) by lra. assert (E2 : b ^ 2 = 0) by lra.
      apply Rsqr_0_uniq in E2 || (rewrite <- Rsqr_pow2 in E2; apply Rsqr_0_uniq in E2).
      rewrite <- Rsqr_pow2 in E1; apply Rsqr_0_uniq in E1. f_equal; lra. }
    exfalso.
    assert (K : forall x y, x = a * x - b * y -> y = b * x + a * y -> x = 0 /\ y = 0).
    { intros x y H1 H2. assert (Q1 : x - (a * x - b * y) = 0) by lra. assert (Q2 : y - (b * x + a * y) = 0) by lra. assert (E : ((1 - a) ^ 2 + b ^ 2) * x = 0).
      { replace (((1 - a) ^ 2 + b ^ 2) * x) with ((1 - a) * (x - (a * x - b * y)) - b * (y - (b * x + a * y))) by ring. rewrite Q1, Q2. ring. }
      assert (E' : ((1 - a) ^ 2 + b ^ 2) * y = 0).
      { replace (((1 - a) ^ 2 + b ^ 2) * y) with ((1 - a) * (y - (b * x + a * y)) + b * (x - (a * x - b * y))) by ring. rewrite Q1, Q2. ring. }
      apply Rmult_integral in E, E'. split; [destruct E|destruct E']; auto; contradiction. }
    destruct (K (u 2%nat) (v 2%nat)) as [U2 V2]; [lra|lra|].
    destruct (K (u 1%nat) (v 1%nat)) as [U1 V1]; [lra|lra|].
    rewrite U1, V1 in *. destruct (K (u 0%nat) (v 0%nat)) as [U0 V0]; [lra|lra|].
    destruct i as [|[|[|i]]]; try lia; destruct Hne; contradiction.
Qed.
Lemma m_shear_chol : exists y, np_chol_inv (K:=RNum) Float64 3 m_shear = Ok y.
Proof.
  assert (E : forall i k, (k <= i < 3)%nat -> m_shear i k = ident i k).
  { intros i k H. destruct i as [|[|[|i]]], k as [|[|[|k]]]; try lia; reflexivity. }
  pose proof (chol_upto_ext RNum m_shear ident 3 3 E (le_n 3)) as Q.
  assert (Hs : symm 3 ident) by (intros i j _ _; unfold ident; rewrite Nat.eqb_sym; reflexivity).
  assert (Hp : posdef 3 ident).
  { apply (diag_posdef 3 ident); [intros i j _ _ H; unfold ident; destruct (Nat.eqb_spec i j); [contradiction|reflexivity]|].
    intros i _. unfold ident. rewrite Nat.eqb_refl. lra. }
  destruct (chol_succeeds 3 ident Hs Hp) as [L HL]. unfold cholesky in HL. rewrite HL in Q.
  destruct (chol_upto (K:=RNum) m_shear 3) as [L'|e] eqn:E'; [|contradiction].
  unfold np_chol_inv, chol_inv_fast, cholesky. rewrite E'. cbn [bind]. eexists; reflexivity.
Qed.

(** the stored inverse is always symmetric *)
Lemma np_chol_inv_symm t d (m y : nat -> nat -> R) : np_chol_inv (K:=RNum) t d m = Ok y -> symm d y.
Proof.
  destruct t; cbn [np_chol_inv]; [discriminate|]. unfold chol_inv_fast. destruct (cholesky (K:=RNum) d m) as [L|]; [|discriminate].
  cbn [bind]. intros [= <-]. intros i j Hi Hj. unfold mmul, mtr. apply sumn_ext; intros; rnum; rring.
Qed.
Lemma nonsym_never_inverse t d (m y : nat -> nat -> R) : np_chol_inv (K:=RNum) t d m = Ok y -> inverse d m y -> symm d m.
Proof. intros H [H1 H2]. exact (inv_symm d y m (np_chol_inv_symm t d m y H) H2 H1). Qed.

(** diag(1, 1, -1) *)
Definition m_indef (i j : nat) : R := if Nat.eqb i j then (if Nat.eqb i 2 then -1 else 1) else 0.
Lemma m_indef_diag : diagonal 3 m_indef.
Proof. intros i j _ _ H. unfold m_indef. destruct (Nat.eqb_spec i j); [contradiction|reflexivity]. Qed.
Lemma m_indef_symm : symm 3 m_indef.
Proof. intros i j _ _. unfold m_indef. rewrite (Nat.eqb_sym j i). destruct (Nat.eqb_spec i j); [subst; reflexivity|reflexivity]. Qed.
Lemma m_indef_not_pd : ~ posdef 3 m_indef.
Proof. intros H. apply (diag_posdef 3 m_indef m_indef_diag) with (i := 2%nat) in H; [unfold m_indef in H; cbn in H; lra|lia]. Qed.

(** comparison of lists of floats *)
Definition feql (l : list FNum) (r : list FNum) : bool :=
  Nat.eqb (length l) (length r) && forallb (fun p => neqb (n:=FNum) (fst p) (snd p)) (combine l r).

(** sorted(np.unique(l)) *)
Lemma uinsert_in z l : forall u, In u (uinsert z l) <-> u = z \/ In u l.
Proof.
  induction l as [|y l IH]; intros u; cbn [uinsert]; [cbn; intuition|].
  destruct (Z.ltb_spec z y); [cbn; intuition|]. destruct (Z.eqb_spec z y); [subst; cbn; intuition|]. cbn. rewrite IH. intuition.
Qed.
Lemma uinsert_sorted z l : Sorted.StronglySorted Z.lt l -> Sorted.StronglySorted Z.lt (uinsert z l).
Proof.
  induction 1 as [|y l Hl IH Hy]; cbn [uinsert]; [repeat constructor|].
  destruct (Z.ltb_spec z y); [|destruct (Z.eqb_spec z y)].
  - constructor; [constructor; assumption|]. constructor; [assumption|]. eapply Forall_impl; [|exact Hy]. cbn. lia.
  - constructor; assumption.
  - constructor; [exact IH|]. rewrite Forall_forall in *. intros u Hu. apply uinsert_in in Hu. destruct Hu as [->|Hu]; [lia|auto].
Qed.
Lemma np_unique_sorted l : Sorted.StronglySorted Z.lt (np_unique l).
Proof. induction l; cbn; [constructor|apply uinsert_sorted; assumption]. Qed.
Lemma np_unique_in l z : In z (np_unique l) <-> In z l.
Proof. induction l as [|y l IH]; cbn; [tauto|]. change (fold_right uinsert [] l) with (np_unique l). rewrite uinsert_in, IH. intuition. Qed.

(** the fall-back factor *)
Lemma noise_fallback d (S : nat -> nat -> R) dt : symm d S -> ~ posdef d S -> 0 < dt ->
  (forall i j, (i < d)%nat -> (j < d)%nat -> noise_factor (K:=RNum) d S dt i j = if Nat.eqb i j then sqrt (S i i * dt) else 0) /\
  ((forall i, (i < d)%nat -> 0 <= S i i) -> noise_cov d (noise_factor (K:=RNum) d S dt) (fun i j => if Nat.eqb i j then S i i * dt else 0)).
Proof.
  intros Hs Hp Hd.
  assert (E : forall i j, (i < d)%nat -> (j < d)%nat -> noise_factor (K:=RNum) d S dt i j = if Nat.eqb i j then sqrt (S i i * dt) else 0).
  { intros i j Hi Hj. unfold noise_factor, scipy_cholesky. change (mtr (K:=RNum) (fun i j => nmul (n:=RNum) (S i j) dt)) with (transp (scaled S dt)).
    destruct (cholesky d (transp (scaled S dt))) as [L|e] eqn:EL.
    - exfalso. apply Hp.
      assert (Hs' : symm d (transp (scaled S dt))) by (intros a b Ha Hb; unfold transp, scaled; rewrite (Hs a b Ha Hb); reflexivity).
      destruct (chol_fact_sym d _ L Hs' EL) as [Ht HL]. pose proof (chol_posdef d _ L Ht HL) as Q. intros v Hv. specialize (Q v Hv).
      match type of Q with 0 < ?x => match goal with |- 0 < ?y => assert (Q2 : x = dt * y) end end.
      { rewrite <- Rsum_scal. apply Rsum_ext. intros a Ha. rewrite <- Rsum_scal. apply Rsum_ext. intros b Hb. unfold transp, scaled. rewrite (Hs b a Hb Ha). ring. }
      rewrite Q2 in Q. apply (Rmult_lt_reg_l dt); [exact Hd|]. lra.
    - cbn. unfold meye. rewrite (Nat.eqb_sym i j). destruct (Nat.eqb_spec j i) as [->|_]; cbn.
      + f_equal. rnum. ring.
      + rnum. replace (0 * S i j * dt) with 0 by ring. apply sqrt_0. }
  split; [exact E|]. intros Hn i j Hi Hj.
  pose proof (noise_cov_gram d (noise_factor (K:=RNum) d S dt) i j Hi Hj) as G.
  match goal with |- _ ?v => match type of G with _ ?w => replace v with w; [exact G|] end end.
  rewrite (Rsum_single d _ i Hi).
  - rewrite !E by assumption. rewrite Nat.eqb_refl, (Nat.eqb_sym j i). destruct (Nat.eqb_spec i j) as [<-|_]; [|ring].
    apply sqrt_sqrt. apply Rmult_le_pos; [apply Hn, Hi|lra].
  - intros k Hk Hki. rewrite (E i k) by assumption. destruct (Nat.eqb_spec i k) as [Q|_]; [congruence|ring].
Qed.

(** eigenvalues with imaginary parts *)
Lemma cle0_lex (z : R * R) : cle0 (K:=RNum) z = true <-> fst z < 0 \/ (fst z = 0 /\ snd z <= 0).
Proof.
  destruct z as [a b]. unfold cle0. cbn [fst snd]. rnum. destruct (Rltb_spec a 0), (Reqb_spec a 0), (Rleb_spec b 0); cbn; split; try lra; try discriminate; auto.
Qed.
Lemma cgt0_lex (z : R * R) : cgt0 (K:=RNum) z = negb (cle0 (K:=RNum) z).
Proof.
  destruct z as [a b]. unfold cle0, cgt0. cbn [fst snd]. rnum.
  destruct (Rltb_spec a 0), (Reqb_spec a 0), (Rleb_spec b 0), (Rltb_spec 0 a), (Rltb_spec 0 b); cbn; try reflexivity; lra.
Qed.
Lemma chol_no_runtime t d (m : nat -> nat -> R) : np_chol_inv (K:=RNum) t d m <> Err RuntimeError.
Proof.
  destruct t; cbn [np_chol_inv]; [intros H; discriminate H|]. unfold chol_inv_fast, cholesky.
  assert (E : forall q, chol_upto (K:=RNum) m q <> Err RuntimeError).
  { induction q as [|q IH]; [discriminate|]. cbn [chol_upto]. destruct (chol_upto m q) as [L|e] eqn:EL; cbn [bind].
    - destruct (nlt _ _); [|intros Q; discriminate Q]. intros Q; discriminate Q.
    - intros Q. apply IH. injection Q as ->. reflexivity. }
  specialize (E d). destruct (chol_upto m d) as [L|e]; cbn [bind]; [intros Q; discriminate Q|]. intros Q. apply E. injection Q as ->. reflexivity.
Qed.
Lemma complex_runtime (G : Rng RNum) eigvals t (m : nat -> nat -> R) :
  (forall p : PN G, fst (set_sigmaN G eigvals t (A2 (K:=RNum) (q_dim p) (q_dim p) m) p) = Err RuntimeError <->
     forall z, In z (eigvals (q_dim p) m) -> fst z < 0 \/ (fst z = 0 /\ snd z <= 0)) /\
  (forall theta s e g, make_rng G s e = Ok g ->
     (l63_init G eigvals t (A2 (K:=RNum) 3 3 m) theta s e = Err RuntimeError <-> exists z, In z (eigvals 3%nat m) /\ (fst z < 0 \/ (fst z = 0 /\ snd z <= 0))) /\
     (forall d, (10 <= d)%nat -> l96_init G eigvals t (A2 (K:=RNum) d d m) theta s d e = Err RuntimeError <-> exists z, In z (eigvals d m) /\ (fst z < 0 \/ (fst z = 0 /\ snd z <= 0)))).
Proof.
  assert (X : forall l, existsb (cle0 (K:=RNum)) l = true <-> exists z, In z l /\ (fst z < 0 \/ (fst z = 0 /\ snd z <= 0))).
  { intros l. rewrite existsb_exists. split; intros (z & H1 & H2); exists z; (split; [exact H1|]); apply cle0_lex; exact H2. }
  assert (Y : forall l, forallb (cgt0 (K:=RNum)) l = negb (existsb (cle0 (K:=RNum)) l)).
  { induction l as [|z l IH]; [reflexivity|]. cbn [forallb existsb]. rewrite cgt0_lex, IH, negb_orb. reflexivity. }
  split.
  - intros p. cbn [set_sigmaN]. rewrite !Nat.eqb_refl. cbn [andb].
    destruct (forallb (cle0 (K:=RNum)) (eigvals (q_dim p) m)) eqn:E.
    + cbn [fst]. split; [|reflexivity]. intros _ z Hz. rewrite forallb_forall in E. apply cle0_lex, E, Hz.
    + split.
      * pose proof (chol_no_runtime t (q_dim p) m) as N. destruct (np_chol_inv t (q_dim p) m) as [y|e]; cbn [fst]; [intros Q; discriminate Q|].
        intros Q. exfalso. apply N. injection Q as ->. reflexivity.
      * intros H. exfalso. assert (E' : forallb (cle0 (K:=RNum)) (eigvals (q_dim p) m) = true).
        { apply forallb_forall. intros z Hz. apply cle0_lex, H, Hz. } rewrite E' in E. discriminate E.
  - intros theta s e g Hg. split.
    + unfold l63_init, base_init. rewrite Hg. cbn [bind].
      pose proof (noise_matrix_shape 3 (A2 (K:=RNum) 3 3 m)) as Q. cbn [Nat.eqb andb] in Q. rewrite Q. cbn [bind]. rewrite <- X.
      destruct (existsb (cle0 (K:=RNum)) (eigvals 3%nat m)); [tauto|]. split; [|discriminate].
      pose proof (chol_no_runtime t 3 m) as N. destruct (np_chol_inv t 3 m) as [y|e']; cbn [bind]; [intros Z; discriminate Z|].
      intros Z. exfalso. apply N. injection Z as ->. reflexivity.
    + intros d Hd. unfold l96_init, base_init. rewrite Hg. cbn [bind]. destruct (Nat.ltb_spec d 10); [lia|].
      assert (Q : noise_matrix (K:=RNum) d (A2 (K:=RNum) d d m) = Ok m) by (unfold noise_matrix; cbn [np_isscalar_of_array bind]; rewrite !Nat.eqb_refl; reflexivity).
      rewrite Q. cbn [bind]. rewrite <- X, Y.
      destruct (existsb (cle0 (K:=RNum)) (eigvals d m)); cbn [negb]; [tauto|]. split; [|discriminate].
      pose proof (chol_no_runtime t d m) as N. destruct (np_chol_inv t d m) as [y|e']; cbn [bind]; [intros Z; discriminate Z|].
      intros Z. exfalso. apply N. injection Z as ->. reflexivity.
Qed.

(** one observed component at one time *)
Lemma collectN_one (G : Rng RNum) d (b : Base G (vec RNum)) (tk : list R) (xt : list (nat -> R)) t0 dt n (n_obs : dens RNum) {f : R} (rn : arr RNum) h c r :
  b_tk b = Some tk -> b_xt b = Some xt -> uniform_grid t0 dt n tk -> (2 <= n)%nat -> 0 < dt -> length xt = n ->
  density_is n_obs f /\ 0 <= f -> fits_step f dt ->
  length (mask_of d h) = d -> selected (mask_of d h) [c] ->
  int_part (INR (n - 1) * dt * f) 1 ->
  rn = A0 (K:=RNum) r \/ (exists v, rn = A1 (K:=RNum) 1 v /\ v 0%nat = r) \/ (exists m, rn = A2 (K:=RNum) 1 1 m /\ m 0%nat 0%nat = r) ->
  exists t y z g, normals G 1 (b_rng b) = ([z], g) /\
    collectN G n_obs rn h d b = (Ok ([t], [y], rn), mkBase (Some xt) (Some tk) g) /\
    spread n 1 [t] /\ y 0%nat = nth t xt vzero0 c + sqrt r * z.
Proof.
  intros Ht Hx Hg Hn Hd Hl Hz Hc Hmk Hsel Hm Hr.
  destruct (obs_indexes_R t0 dt n tk n_obs Hg Hn Hd Hz Hc) as (m' & Hm' & Hmn & E).
  assert (m' = 1%nat).
  { assert (Z.of_nat m' = 1%Z); [|lia]. destruct Hm as [A B], Hm' as [A' B'].
    apply Z.le_antisymm; apply Z.lt_succ_r; apply lt_IZR; rewrite succ_IZR; lra. }
  subst m'. pose proof (spread_ix_spec n 1 Hmn) as Hs. set (ts := spread_ix n 1) in *.
  assert (Et : exists t, ts = [t]) by (destruct ts as [|t [|]]; destruct Hs as [Q _]; try discriminate Q; eauto). destruct Et as (t & Et).
  destruct (r_normal G (b_rng b)) as [z g] eqn:Ez.
  exists t, (fun i => nth t xt vzero0 (nth i [c] 0%nat) + sqrt r * z), z, g.
  assert (En : normals G 1 (b_rng b) = ([z], g)) by (cbn [normals]; rewrite Ez; reflexivity).
  split; [exact En|]. split; [|split; [rewrite <- Et; exact Hs|reflexivity]].
  unfold collectN, collect_cols. rewrite Ht, Hx, E. cbn [bind].
  rewrite (take_ok (xt : list (vec RNum)) vzero0 ts).
  2:{ intros i Hi. apply (spread_in n 1 ts Hs) in Hi. apply Nat.lt_le_trans with n; [lia|]. apply Nat.eq_le_incl. symmetry. exact Hl. }
  cbn [bind]. rewrite (columns_R d h [c] Hmk Hsel). cbn [bind length Nat.eqb]. rewrite En, Et. unfold set_rng. rewrite Ht, Hx.
  destruct Hr as [->|[(v & -> & <-)|(m & -> & <-)]]; reflexivity.
Qed.
