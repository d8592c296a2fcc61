(** * Proofs: constructors, noise setters, histories and seeds. *)
From Coq Require Import Reals Lra Lia Arith Bool List ZArith FunctionalExtensionality Classical_Prop.
From Verif Require Import Num Arr ArrFacts M_LinAlg M_Utils M_L63 M_L96 M_Like M_Proc
  Spec_Utils Spec_Det Spec_Proc P_Trapz P_LinAlg P_Det P_RMat P_Spectral P_Proc.
Import ListNotations.
Local Open Scope R_scope.

(** ** one dimension *)
Definition in_sync1 {G : Rng RNum} (k : kind1) (p : P1 G) : Prop :=
  0 < p_sigma p /\ p_isig p = / p_sigma p /\ (k = OU -> 0 < p_theta p).

Section One.
Context (G : Rng RNum).
Lemma init_sync k sigma theta s e p : init1d G k sigma theta s e = Ok p ->
  in_sync1 k p /\ p_sigma p = sigma /\ p_theta p = theta.
Proof.
  intros H. destruct k; cbn [init1d] in H; unfold ou_init, dw_init in H;
    destruct (base_init G s e) as [b|]; cbn [bind] in H; try discriminate; rnum_in_all;
    destruct (Rleb_spec sigma 0); try discriminate.
  - destruct (Rleb_spec theta 0); try discriminate. injection H as <-. split; [|split; reflexivity].
    split; [cbn; lra|]. split; [cbn; rnum; lra|]. intros _. cbn. lra.
  - injection H as <-. split; [|split; reflexivity]. split; [cbn; lra|]. split; [cbn; rnum; lra|]. discriminate.
Qed.
Lemma set_sigma1_R v p :
  (0 < v -> set_sigma1 G v p = (Ok tt, mkP1 v (p_theta p) (/ v) (p_base p))) /\
  (v <= 0 -> set_sigma1 G v p = (Err ValueError, p)).
Proof.
  unfold set_sigma1. rnum. split; intros H; destruct (Rleb_spec v 0); try lra; [|reflexivity].
  unfold Rdiv. rewrite Rmult_1_l. reflexivity.
Qed.
Lemma step_sync k c p : in_sync1 k p -> in_sync1 k (snd (step1 G k c p)).
Proof.
  intros (H1 & H2 & H3). destruct c as [v|v|x|t|t0 tf dt mu|n rn h]; cbn [step1].
  - destruct (Rlt_le_dec 0 v) as [P|P].
    + rewrite (proj1 (set_sigma1_R v p) P). split; [exact P|]. split; [reflexivity|exact H3].
    + rewrite (proj2 (set_sigma1_R v p) P). split; [exact H1|split; assumption].
  - destruct k; unfold ou_set_theta, dw_set_theta.
    + rnum. destruct (Rleb_spec v 0); [split; [exact H1|split; assumption]|]. split; [exact H1|]. split; [exact H2|]. intros _. cbn. lra.
    + split; [exact H1|]. split; [exact H2|discriminate].
  - split; [exact H1|split; assumption].
  - split; [exact H1|split; assumption].
  - destruct k; [unfold ou_trajectory|unfold dw_trajectory]; destruct (arange _ _ _) as [tk|]; try (split; [exact H1|split; assumption]).
    + destruct (Nat.eqb _ _); [split; [exact H1|split; assumption]|]. destruct (normals _ _ _). split; [exact H1|split; assumption].
    + destruct (r_uniform _ _). destruct (Nat.eqb _ _); [split; [exact H1|split; assumption]|]. destruct (r_normal _ _). destruct (normals _ _ _). split; [exact H1|split; assumption].
  - destruct (collect1 _ _ _ _ _). split; [exact H1|split; assumption].
Qed.
Lemma run_sync k cs : forall p, in_sync1 k p -> in_sync1 k (snd (run1 G k cs p)).
Proof.
  induction cs as [|c cs IH]; intros p H; cbn [run1]; [exact H|].
  pose proof (step_sync k c p H) as Hs. destruct (step1 G k c p) as [r p1]. cbn [snd] in Hs.
  specialize (IH p1 Hs). destruct (run1 G k cs p1). exact IH.
Qed.
(** parameters of the object that a call leaves as they were *)
Lemma rejected1 k c p e p' : step1 G k c p = (Raised e, p') -> (exists v, c = C_sigma v \/ c = C_theta v) -> p' = p.
Proof.
  intros H [v [-> | ->]]; cbn [step1] in H.
  - unfold set_sigma1 in H. destruct (nle _ _); cbn in H; congruence.
  - destruct k; unfold ou_set_theta, dw_set_theta in H; [destruct (nle _ _)|]; cbn in H; congruence.
Qed.
End One.

(** ** the noise matrix and its eigenvalues *)
Definition in_syncN {G : Rng RNum} (p : PN G) : Prop :=
  symm (q_dim p) (q_sigma p) /\ posdef (q_dim p) (q_sigma p) /\ inverse (q_dim p) (q_sigma p) (q_isig p).

Lemma cle0_R (a : R) : cle0 (K:=RNum) (a, 0) = true <-> a <= 0.
Proof.
  unfold cle0. cbn [fst snd]. rnum. destruct (Rltb_spec a 0), (Reqb_spec a 0), (Rleb_spec 0 0); cbn; split; try lra; try discriminate; auto.
Qed.
Lemma cgt0_R (a : R) : cgt0 (K:=RNum) (a, 0) = true <-> 0 < a.
Proof.
  unfold cgt0. cbn [fst snd]. rnum. destruct (Rltb_spec 0 a), (Reqb_spec a 0), (Rltb_spec 0 0); cbn; split; try lra; try discriminate; auto.
Qed.
Section Eig.
Context (d : nat) (m : nat -> nat -> R) (l : list (R * R)).
Hypothesis Hs : symm d m.
Hypothesis Hl : spectrum d m l.
Lemma spec_real z : In z l -> exists a, z = (a, 0) /\ eigen d m (a, 0).
Proof.
  intros H. apply Hl in H. destruct (eigen_symm d m z Hs H) as [E _]. destruct z as [a b]. cbn in E. subst b. eauto.
Qed.
(** the tests on the eigenvalues *)
Lemma all_positive : forallb (cgt0 (K:=RNum)) l = true <-> posdef d m.
Proof.
  rewrite forallb_forall, (eigen_posdef d m Hs). split.
  - intros H z Hz. apply Hl in Hz. destruct (spec_real z Hz) as (a & -> & _). split; [reflexivity|]. apply cgt0_R. apply H, Hz.
  - intros H z Hz. destruct (spec_real z Hz) as (a & -> & E). apply cgt0_R. apply (H _ E).
Qed.
Lemma some_nonpositive : existsb (cle0 (K:=RNum)) l = true <-> ~ posdef d m.
Proof.
  rewrite existsb_exists, <- all_positive, forallb_forall. split.
  - intros (z & Hz & C) A. destruct (spec_real z Hz) as (a & -> & _). specialize (A _ Hz). apply cle0_R in C. apply cgt0_R in A. lra.
  - intros N. apply NNPP. intros N'. apply N. intros z Hz. destruct (spec_real z Hz) as (a & -> & _). apply cgt0_R.
    apply Rnot_le_lt. intros C. apply N'. exists (a, 0). split; [exact Hz|apply cle0_R; exact C].
Qed.
Lemma all_nonpositive : forallb (cle0 (K:=RNum)) l = true <-> forall v, rdot d v (rmv d m v) <= 0.
Proof.
  rewrite forallb_forall. split.
  - intros H v. apply Rnot_lt_le. intros P.
    (* - m has an eigenvalue < 0 if it is not positive semidefinite; shift by a small multiple of the identity *)
    assert (N : 0 < rdot d v v).
    { destruct (vec_zero_dec d v) as [(i & Hi & Hv)|Z].
      - pose proof (Rsum_ge_term d (fun k => v k * v k) i ltac:(intros; nra) Hi) as Q. cbv beta in Q. unfold rdot. nra.
      - exfalso. assert (rdot d v (rmv d m v) = 0); [|lra]. unfold rdot. apply Rsum_z. intros i Hi. rewrite Z by exact Hi. ring. }
    set (q := rdot d v (rmv d m v)) in *. set (c := q / rdot d v v).
    assert (Hc : 0 < c) by (apply Rmult_lt_0_compat; [exact P|apply Rinv_0_lt_compat; exact N]).
    (* B = c I - m is not positive definite *)
    set (B := addI (fun i j => - m i j) c).
    assert (Bs : symm d B) by (apply addI_symm; intros i j Hi Hj; rewrite (Hs i j Hi Hj); reflexivity).
    assert (E0 : forall u i, rmv d (fun i j => - m i j) u i = - rmv d m u i).
    { intros u i. unfold rmv. rewrite <- Rsum_opp. apply Rsum_ext. intros; ring. }
    assert (Bn : ~ posdef d B).
    { intros Q. pose proof (posdef_rdot d B) as [Q1 _]. specialize (Q1 Q v).
      assert (Hv : exists i, (i < d)%nat /\ v i <> 0).
      { destruct (vec_zero_dec d v) as [Hv|Z]; [exact Hv|]. exfalso. assert (rdot d v v = 0); [|lra].
        unfold rdot. apply Rsum_z. intros i Hi. rewrite Z by exact Hi. ring. }
      specialize (Q1 Hv). unfold B in Q1. rewrite q_addI in Q1.
      assert (E1 : rdot d v (rmv d (fun i j => - m i j) v) = - q).
      { unfold q, rdot. rewrite <- Rsum_opp. apply Rsum_ext. intros i _. rewrite E0. ring. }
      rewrite E1 in Q1. assert (c * rdot d v v = q) by (unfold c; field; lra). lra. }
    destruct (not_pd_eigen d B Bs Bn) as (a & u & Ha & Hu & He).
    assert (Em : eigen d m (c - a, 0)).
    { apply eigen_real with u; [exact Hu|]. intros i Hi. specialize (He i Hi). unfold B in He.
      rewrite rmv_addI in He by exact Hi. rewrite E0 in He. lra. }
    apply Hl in Em. apply H in Em. apply cle0_R in Em. lra.
  - intros H z Hz. destruct (spec_real z Hz) as (a & -> & E). apply cle0_R.
    destruct (eigen_symm d m _ Hs E) as (_ & v & Hv & He). cbn [fst] in He.
    destruct (eigen_quot d m a v Hv He) as [Q P]. specialize (H v). rewrite Q in H.
    apply Rnot_lt_le. intros C. assert (0 < a * rdot d v v) by (apply Rmult_lt_0_compat; assumption). lra.
Qed.
End Eig.

Lemma np_chol_inv_R d (m : nat -> nat -> R) : symm d m ->
  (posdef d m -> exists y, np_chol_inv (K:=RNum) Float64 d m = Ok y /\ inverse d m y) /\
  (~ posdef d m -> np_chol_inv (K:=RNum) Float64 d m = Err LinAlgError).
Proof.
  intros Hs. destruct (chol_iff d m Hs) as [[Hok _] Herr]. split.
  - intros Hp. destruct (Hok Hp) as [L HL].
    destruct (chol_inv_fast (K:=RNum) d m) as [[y c]|e] eqn:Hf.
    2:{ unfold chol_inv_fast in Hf. rewrite HL in Hf. discriminate. }
    destruct (chol_inv_fast_spec d m y c Hs Hf) as (L' & _ & _ & _ & _ & _ & _ & Hxy & Hyx & _).
    exists y. unfold np_chol_inv. rewrite Hf. cbn [bind]. split; [reflexivity|].
    split; rewrite ident_eye; apply is_prod_mmul; assumption.
  - intros Hn. unfold np_chol_inv, chol_inv_fast. rewrite (Herr Hn). reflexivity.
Qed.

Section Noise.
Context (G : Rng RNum) (eigvals : nat -> mat RNum -> list (RNum * RNum)).

(** what assigning a symmetric float matrix of the right size does *)
Lemma set_sigmaN_sym (p : PN G) (m : nat -> nat -> R) : let d := q_dim p in (0 < d)%nat -> symm d m -> spectrum d m (eigvals d m) ->
  (posdef d m -> exists y, set_sigmaN G eigvals Float64 (A2 (K:=RNum) d d m) p = (Ok tt, mkPN d (q_theta p) m y (q_base p)) /\ inverse d m y) /\
  ((forall v, rdot d v (rmv d m v) <= 0) -> set_sigmaN G eigvals Float64 (A2 (K:=RNum) d d m) p = (Err RuntimeError, p)) /\
  (~ posdef d m -> (exists v, 0 < rdot d v (rmv d m v)) ->
     set_sigmaN G eigvals Float64 (A2 (K:=RNum) d d m) p = (Err LinAlgError, mkPN d (q_theta p) m (q_isig p) (q_base p))).
Proof.
  intros d Hd Hs Hl. destruct (np_chol_inv_R d m Hs) as [Hok Herr]. unfold set_sigmaN. fold d. rewrite !Nat.eqb_refl. cbn [andb].
  split; [|split].
  - intros Hp. destruct (forallb _ (eigvals d m)) eqn:E.
    + apply (all_nonpositive d m _ Hs Hl) with (v := fun _ => 1) in E.
      pose proof (proj1 (posdef_rdot d m) Hp (fun _ => 1)) as Q. assert (0 < rdot d (fun _ => 1) (rmv d m (fun _ => 1))); [|lra].
      apply Q. exists 0%nat. split; [exact Hd|lra].
    + destruct (Hok Hp) as (y & Ey & Hy). rewrite Ey. exists y. split; [reflexivity|exact Hy].
  - intros H. apply (all_nonpositive d m _ Hs Hl) in H. change (forallb (cle0 (K:=RNum)) (eigvals d m) = true) in H.
    rewrite H. reflexivity.
  - intros Hn (v & Hv). destruct (forallb _ (eigvals d m)) eqn:E.
    + pose proof (proj1 (all_nonpositive d m _ Hs Hl) E v). lra.
    + rewrite (Herr Hn). reflexivity.
Qed.

(** a call that keeps the object in sync *)
Definition harmless (d : nat) (c : calln) : Prop :=
  match c with
  | CN_sigma t (A2 r k m) =>
      (r = d /\ k = d) -> t = Float64 /\ symm d m /\ spectrum d m (eigvals d m) /\ (posdef d m \/ forall v, rdot d v (rmv d m v) <= 0)
  | _ => True
  end.
Lemma stepN_sync k c p : (0 < q_dim p)%nat -> in_syncN p -> harmless (q_dim p) c ->
  in_syncN (snd (stepn G eigvals k c p)) /\ q_dim (snd (stepn G eigvals k c p)) = q_dim p.
Proof.
  intros Hd H Hc. destruct c as [t v|v|x|t|t0 tf dt|n rn h]; cbn [stepn].
  - unfold set_sigmaN. destruct v as [r|n u|r c m|]; try (split; [exact H|reflexivity]).
    destruct (Nat.eqb r (q_dim p) && Nat.eqb c (q_dim p)) eqn:E; [|split; [exact H|reflexivity]].
    apply andb_true_iff in E. destruct E as [E1 E2]. apply Nat.eqb_eq in E1, E2. subst r c.
    destruct (Hc (conj eq_refl eq_refl)) as (-> & Hs & Hl & Hor).
    destruct (set_sigmaN_sym p m Hd Hs Hl) as (A & B & _).
    destruct Hor as [Hp|Hp].
    + destruct (A Hp) as (y & Ey & Hy). unfold set_sigmaN in Ey. rewrite !Nat.eqb_refl in Ey. cbn [andb] in Ey. rewrite Ey.
      split; [|reflexivity]. split; [exact Hs|]. split; assumption.
    + specialize (B Hp). unfold set_sigmaN in B. rewrite !Nat.eqb_refl in B. cbn [andb] in B. rewrite B. split; [exact H|reflexivity].
  - split; [exact H|reflexivity].
  - split; [exact H|reflexivity].
  - split; [exact H|reflexivity].
  - destruct k; unfold l63_trajectory, l96_trajectory, trajectoryN; destruct (arange _ _ _) as [tk|]; try (split; [exact H|reflexivity]);
      (destruct (Nat.eqb _ _); [split; [exact H|reflexivity]|]); destruct (normals _ _ _); split; [exact H|reflexivity|exact H|reflexivity].
  - destruct (collectN _ _ _ _ _ _). split; [exact H|reflexivity].
Qed.
Lemma runN_sync k cs : forall p, (0 < q_dim p)%nat -> in_syncN p -> Forall (harmless (q_dim p)) cs -> in_syncN (snd (runn G eigvals k cs p)).
Proof.
  induction cs as [|c cs IH]; intros p Hd H Hc; cbn [runn]; [exact H|].
  inversion Hc as [|? ? Hc1 Hc2]; subst. destruct (stepN_sync k c p Hd H Hc1) as [Hs Hq].
  destruct (stepn G eigvals k c p) as [r p1]. cbn [snd] in *.
  specialize (IH p1). rewrite Hq in IH. specialize (IH Hd Hs Hc2). destruct (runn G eigvals k cs p1). exact IH.
Qed.

(** constructors *)
Lemma init_sym k (sigma : arr RNum) theta s d e g (m : nat -> nat -> R) :
  let n := match k with L63 => 3%nat | L96 => d end in
  (k = L96 -> (10 <= d)%nat) -> make_rng G s e = Ok g ->
  noise_matrix n sigma = Ok m -> symm n m -> spectrum n m (eigvals n m) ->
  (posdef n m -> exists y, initnd G eigvals k Float64 sigma theta s d e = Ok (mkPN n theta m y (mkBase None None g)) /\ inverse n m y) /\
  (~ posdef n m -> initnd G eigvals k Float64 sigma theta s d e = Err RuntimeError).
Proof.
  intros n Hk Hg Hm Hs Hl. destruct (np_chol_inv_R n m Hs) as [Hok _].
  pose proof (all_positive n m _ Hs Hl) as P1. pose proof (some_nonpositive n m _ Hs Hl) as P2.
  destruct k; cbn [initnd]; unfold l63_init, l96_init, base_init; rewrite Hg; cbn [bind].
  - unfold n in *. rewrite Hm. cbn [bind]. split.
    + intros Hp. destruct (existsb _ _) eqn:E; [exfalso; exact (proj1 P2 eq_refl Hp)|].
      destruct (Hok Hp) as (y & -> & Hy). cbn [bind]. eauto.
    + intros Hn. apply P2 in Hn. change (existsb (cle0 (K:=RNum)) (eigvals 3%nat m) = true) in Hn. rewrite Hn. reflexivity.
  - specialize (Hk eq_refl). destruct (Nat.ltb_spec d 10); [lia|]. unfold n in *. rewrite Hm. cbn [bind]. split.
    + intros Hp. pose proof (proj2 P1 Hp) as E. change (forallb (cgt0 (K:=RNum)) (eigvals d m) = true) in E. rewrite E.
      destruct (Hok Hp) as (y & -> & Hy). cbn [bind]. eauto.
    + intros Hn. destruct (forallb _ _) eqn:E; [exfalso; exact (Hn (proj1 P1 eq_refl))|reflexivity].
Qed.
Lemma init_sync_N k (sigma : arr RNum) t theta s d e (p : PN G) :
  let n := match k with L63 => 3%nat | L96 => d end in
  initnd G eigvals k t sigma theta s d e = Ok p ->
  (forall m, noise_matrix n sigma = Ok m -> symm n m /\ spectrum n m (eigvals n m)) ->
  in_syncN p /\ q_dim p = n /\ (3 <= n)%nat.
Proof.
  intros n H Hm.
  assert (Hg : exists g, make_rng G s e = Ok g).
  { destruct (make_rng G s e) as [g|] eqn:E; [eauto|]. destruct k; cbn [initnd] in H; unfold l63_init, l96_init, base_init in H; rewrite E in H; discriminate. }
  destruct Hg as [g Hg].
  assert (Hd : k = L96 -> (10 <= d)%nat).
  { intros ->. cbn [initnd] in H. unfold l96_init, base_init in H. rewrite Hg in H. cbn [bind] in H. destruct (Nat.ltb_spec d 10); [discriminate|assumption]. }
  assert (Hn3 : (3 <= n)%nat) by (destruct k; [unfold n; lia|specialize (Hd eq_refl); unfold n; lia]).
  assert (Hn : exists m, noise_matrix n sigma = Ok m).
  { destruct (noise_matrix n sigma) as [m|] eqn:E; [eauto|]. exfalso. unfold n in E. destruct k; cbn [initnd] in H; unfold l63_init, l96_init, base_init in H; rewrite Hg in H; cbn [bind] in H.
    - rewrite E in H. discriminate.
    - destruct (Nat.ltb d 10); [discriminate|]. rewrite E in H. discriminate. }
  destruct Hn as [m Em]. destruct (Hm m Em) as [Hs Hl].
  assert (Ht : t = Float64).
  { destruct t; [exfalso|reflexivity]. unfold n in Em. destruct k; cbn [initnd] in H; unfold l63_init, l96_init, base_init in H; rewrite Hg in H; cbn [bind] in H.
    - rewrite Em in H. cbn [bind] in H. destruct (existsb _ _); discriminate.
    - destruct (Nat.ltb d 10); [discriminate|]. rewrite Em in H. cbn [bind] in H. destruct (forallb _ _); discriminate. }
  subst t. destruct (init_sym k sigma theta s d e g m Hd Hg Em Hs Hl) as [A B]. fold n in A, B.
  destruct (classic (posdef n m)) as [Hp|Hp].
  - destruct (A Hp) as (y & Ey & Hy). rewrite Ey in H. injection H as <-. split; [|split; [reflexivity|exact Hn3]].
    split; [exact Hs|split; assumption].
  - rewrite (B Hp) in H. discriminate.
Qed.
(** shapes *)
Lemma noise_matrix_shape n sigma :
  match sigma with
  | A1 k v => if Nat.eqb k n then noise_matrix (K:=RNum) n sigma = Ok (mdiag v) else noise_matrix n sigma = Err ValueError
  | A2 r c m => if Nat.eqb r n && Nat.eqb c n then noise_matrix n sigma = Ok m else noise_matrix n sigma = Err ValueError
  | _ => noise_matrix n sigma = Err ValueError
  end.
Proof.
  unfold noise_matrix, np_isscalar_of_array. destruct sigma as [x|k v|r c m|]; try reflexivity.
  - cbn [bind]. destruct (Nat.eqb k n); reflexivity.
  - cbn [bind]. destruct (Nat.eqb r n && Nat.eqb c n)%bool; reflexivity.
Qed.
Lemma init_bad_shape k t (sigma : arr RNum) theta s d e g :
  let n := match k with L63 => 3%nat | L96 => d end in
  make_rng G s e = Ok g -> noise_matrix n sigma = Err ValueError -> initnd G eigvals k t sigma theta s d e = Err ValueError.
Proof.
  intros n Hg Hm. unfold n in Hm. destruct k; cbn [initnd]; unfold l63_init, l96_init, base_init; rewrite Hg; cbn [bind].
  - rewrite Hm. reflexivity.
  - destruct (Nat.ltb d 10); [reflexivity|]. rewrite Hm. reflexivity.
Qed.
(** integer matrices never make it *)
Lemma init_int k (sigma : arr RNum) theta s d e p : initnd G eigvals k Int64 sigma theta s d e <> Ok p.
Proof.
  intros H. destruct k; cbn [initnd] in H; unfold l63_init, l96_init in H; destruct (base_init G s e) as [b|]; cbn [bind] in H; try discriminate.
  - destruct (noise_matrix 3 sigma); cbn [bind] in H; [|discriminate]. destruct (existsb _ _); discriminate.
  - destruct (Nat.ltb d 10); [discriminate|]. destruct (noise_matrix d sigma); cbn [bind] in H; [|discriminate]. destruct (forallb _ _); discriminate.
Qed.
End Noise.

(** ** diagonal matrices as lists of eigenvalues: enough for examples *)
Definition diag_eigvals (d : nat) (m : nat -> nat -> R) : list (R * R) := map (fun i => (m i i, 0)) (seq 0 d).
Lemma diag_spectrum d m : diagonal d m -> spectrum d m (diag_eigvals d m).
Proof.
  intros Hd z. unfold diag_eigvals. rewrite (diag_eigen d m Hd z), in_map_iff. split.
  - intros (i & <- & Hi). apply in_seq in Hi. exists i. split; [lia|reflexivity].
  - intros (i & Hi & ->). exists i. split; [reflexivity|]. apply in_seq. lia.
Qed.
Lemma mdiag_diagonal d (v : nat -> R) : diagonal d (mdiag (K:=RNum) v).
Proof. intros i j _ _ H. unfold mdiag. destruct (Nat.eqb_spec i j); [contradiction|reflexivity]. Qed.

(** ** seeds *)
Lemma seed_init1 {K} (G : Rng K) k sigma theta s e e' : seed_truthy s = true ->
  init1d G k sigma theta s e = init1d G k sigma theta s e'.
Proof. intros H. destruct k; unfold init1d, ou_init, dw_init, base_init, make_rng; rewrite H; reflexivity. Qed.
Lemma seed_initn {K} (G : Rng K) eig k t sigma theta s d e e' : seed_truthy s = true ->
  initnd G eig k t sigma theta s d e = initnd G eig k t sigma theta s d e'.
Proof. intros H. destruct k; unfold initnd, l63_init, l96_init, base_init, make_rng; rewrite H; reflexivity. Qed.
