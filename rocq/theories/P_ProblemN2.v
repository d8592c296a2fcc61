(** * The value of the objective of the Lorenz models, and its starting point *)
From Coq Require Import ZArith List Bool Arith Reals Lra Lia Sorted String FunctionalExtensionality.
From Verif Require Import Num Arr ArrFacts M_LinAlg M_Ode M_Sde1 M_L63 M_L96 M_L96E M_Prior M_Like M_VarGP M_Scg M_Run M_Proc M_Sim M_SimN
  Spec_Utils Spec_Gauss Spec_GaussN Spec_Ode Spec_L63 Spec_L96 Spec_L96E Spec_Prior Spec_Like Spec_Proc Spec_Sim Spec_SimN Spec_Problem Spec_ProblemN Spec_Priors
  P_Det P_RMat P_Spectral P_Ode P_OdeR P_OdeRK P_OdeSel P_Like P_Init P_Proc P_Traj P_Noise P_VarGP P_Trapz P_Sim P_Sim2 P_SimN P_SimN2 P_Problem P_ProblemN
  Props_Ode Props_L63 Props_Prior Props_Like Props_Proc.
From Verif Require Props_L96E P_PriorMany.
Import ListNotations.
Local Open Scope R_scope.

Lemma times_id_eye (c : R) : mscale (K:=RNum) c meye = times_id c.
Proof. do 2 (apply functional_extensionality; intros). apply eye_val. Qed.
Lemma times_id_symm d c : symm d (times_id c).
Proof. intros i j _ _. unfold times_id. rewrite (Nat.eqb_sym i j). reflexivity. Qed.
Lemma times_id_posdef d c : 0 < c -> posdef d (times_id c).
Proof. intros H. rewrite <- times_id_eye. apply eye_posdef, H. Qed.
Lemma times_id_row d c (f : nat -> R) i : (i < d)%nat -> Rsum d (fun j => times_id c i j * f j) = c * f i.
Proof.
  intros Hi. rewrite (Rsum_single d _ i Hi).
  - unfold times_id. rewrite Nat.eqb_refl. reflexivity.
  - intros j _ Hj. unfold times_id. destruct (Nat.eqb_spec i j); [congruence|ring].
Qed.
Lemma times_id_commute d c c' : commute d (times_id c) (times_id c').
Proof.
  intros i j Hi Hj. rewrite (times_id_row d c (fun k => times_id c' k j) i Hi), (times_id_row d c' (fun k => times_id c k j) i Hi).
  unfold times_id. destruct (Nat.eqb i j); ring.
Qed.
(** the entries of the inverse *)
Lemma times_id_inv d c Ti : c <> 0 -> is_inv d (times_id c) Ti -> forall i j, (i < d)%nat -> (j < d)%nat -> Ti i j = if Nat.eqb i j then / c else 0.
Proof.
  intros Hc [H _] i j Hi Hj. specialize (H i j Hi Hj). rewrite (times_id_row d c (fun k => Ti k j) i Hi) in H. unfold ident in H.
  destruct (Nat.eqb i j); apply (Rmult_eq_reg_l c); try assumption; rewrite H; [field; exact Hc|ring].
Qed.
Lemma diag_inv d (Rn Ri : nat -> nat -> R) : diagonal d Rn -> (forall i, (i < d)%nat -> Rn i i <> 0) -> is_inv d Rn Ri ->
  forall i j, (i < d)%nat -> (j < d)%nat -> Ri i j = if Nat.eqb i j then / Rn i i else 0.
Proof.
  intros Hd Hn [H _] i j Hi Hj. specialize (H i j Hi Hj). rewrite (Rsum_single d _ i Hi) in H.
  2:{ intros k Hk Hne. rewrite (Hd i k Hi Hk) by congruence. ring. }
  unfold ident in H. destruct (Nat.eqb i j); apply (Rmult_eq_reg_l (Rn i i)); try (apply Hn, Hi); rewrite H; [field; apply Hn, Hi|ring].
Qed.
Lemma diag_of_diagonal d tau : diagonal d (diag_of tau).
Proof. intros i j _ _ Hne. unfold diag_of. destruct (Nat.eqb_spec i j); [contradiction|reflexivity]. Qed.
Lemma diag_of_posdef d tau : (forall i, (i < d)%nat -> 0 < tau i) -> posdef d (diag_of tau).
Proof. intros H. apply diag_posdef; [apply diag_of_diagonal|]. intros i Hi. unfold diag_of. rewrite Nat.eqb_refl. auto. Qed.
Lemma id_commute d c T : commute d (times_id c) T.
Proof.
  intros i j Hi Hj. rewrite (times_id_row d c (fun k => T k j) i Hi). rewrite (Rsum_single d _ j Hj).
  - unfold times_id. rewrite Nat.eqb_refl. ring.
  - intros k _ Hk. unfold times_id. destruct (Nat.eqb_spec k j); [congruence|ring].
Qed.
(** the mean that is stored *)
Definition stored (mu : nat -> R) (flat : spelling) : meann RNum :=
  match flat with Flat => MVec (mu : vec RNum) | Rows more => MRows ((mu :: more) : list (vec RNum)) end.
Lemma prior_value d (m0 mu tau : nat -> R) flat s0 v : (forall i, (i < d)%nat -> 0 < tau i) -> 0 < s0 ->
  kl0_calln RNum ln d (stored mu flat, diag_of tau) m0 (mscale (K:=RNum) s0 meye) = Ok v ->
  exists kl, KLn d m0 (times_id s0) mu (diag_of tau) kl /\ v = kl + excess d flat m0 mu tau.
Proof.
  intros Ht Hs H. rewrite !times_id_eye in H.
  pose proof (diagonal_symm d _ (diag_of_diagonal d tau)) as HT. pose proof (diag_of_posdef d tau Ht) as PT.
  destruct flat; cbn [stored kl0_calln fst snd] in H.
  - destruct (C26_nd_partial d mu (diag_of tau) m0 (times_id s0) (times_id_symm d s0) (times_id_posdef d s0 Hs)
      HT PT (id_commute d s0 _)) as (kl & Ti & K1 & K2 & K3).
    rewrite K3 in H. injection H as <-. exists kl. split; [exact K1|]. unfold excess. do 3 f_equal.
    + f_equal. apply Rsum_ext. intros i Hi. pose proof (diag_inv d (diag_of tau) Ti (diag_of_diagonal d tau)) as V.
      assert (V' : forall j, (j < d)%nat -> Ti i j = if Nat.eqb i j then / tau i else 0).
      { intros j Hj. rewrite V; auto; [unfold diag_of; rewrite Nat.eqb_refl; reflexivity|].
        intros k Hk. unfold diag_of. rewrite Nat.eqb_refl. specialize (Ht k Hk). lra. }
      rewrite (Rsum_single d _ i Hi).
      * rewrite V' by assumption. rewrite Nat.eqb_refl. reflexivity.
      * intros j Hj Hne. rewrite V' by assumption. destruct (Nat.eqb_spec i j); [congruence|reflexivity].
    + apply Rsum_ext. intros i Hi. pose proof (diag_inv d (diag_of tau) Ti (diag_of_diagonal d tau)) as V.
      assert (V' : forall j, (j < d)%nat -> Ti i j = if Nat.eqb i j then / tau i else 0).
      { intros j Hj. rewrite V; auto; [unfold diag_of; rewrite Nat.eqb_refl; reflexivity|].
        intros k Hk. unfold diag_of. rewrite Nat.eqb_refl. specialize (Ht k Hk). lra. }
      rewrite (Rsum_single d _ i Hi).
      * rewrite V' by assumption. rewrite Nat.eqb_refl. unfold Rdiv. ring.
      * intros j Hj Hne. rewrite V' by assumption. destruct (Nat.eqb_spec i j); [congruence|ring].
  - destruct (P_PriorMany.kl0_many d (List.length more) (fun i => nth i (mu :: more) (fun _ => 0)) (diag_of tau) (fun _ => m0) (times_id s0) (times_id_symm d s0) (times_id_posdef d s0 Hs)
      HT PT (id_commute d s0 _)) as (kl & Ti & K1 & K0 & K2).
    cbn [nth] in K1. exists kl. split; [exact K1|]. unfold excess.
    pose proof (eq_trans (eq_sym H) K2) as E. injection E as ->. f_equal. f_equal. cbn [nth].
    pose proof (diag_inv d (diag_of tau) Ti (diag_of_diagonal d tau)) as V.
    assert (V' : forall i j, (i < d)%nat -> (j < d)%nat -> Ti i j = if Nat.eqb i j then / tau i else 0).
    { intros i j Hi Hj. rewrite V; auto; [unfold diag_of; rewrite Nat.eqb_refl; reflexivity|].
      intros k Hk. unfold diag_of. rewrite Nat.eqb_refl. specialize (Ht k Hk). lra. }
    clear K1 K2 H. induction more as [|u more IH]; [reflexivity|]. cbn [List.length map fold_right]. rewrite Rsum_shift. cbn [nth].
    f_equal; [|exact IH]. apply Rsum_ext. intros i Hi. rewrite (Rsum_single d _ i Hi).
    + rewrite V' by assumption. rewrite Nat.eqb_refl. unfold Rdiv. ring.
    + intros j Hj Hne. rewrite V' by assumption. destruct (Nat.eqb_spec i j); [congruence|ring].
Qed.
Lemma prior_ok d (m0 mu tau : nat -> R) flat s0 : (forall i, (i < d)%nat -> 0 < tau i) -> 0 < s0 ->
  exists v, kl0_calln RNum ln d (stored mu flat, diag_of tau) m0 (mscale (K:=RNum) s0 meye) = Ok v.
Proof.
  intros Ht Hs. rewrite !times_id_eye.
  pose proof (diagonal_symm d _ (diag_of_diagonal d tau)) as HT. pose proof (diag_of_posdef d tau Ht) as PT.
  destruct flat; cbn [stored kl0_calln fst snd].
  - destruct (C26_nd_partial d mu (diag_of tau) m0 (times_id s0) (times_id_symm d s0) (times_id_posdef d s0 Hs)
      HT PT (id_commute d s0 _)) as (kl & Ti & K1 & K2 & K3). eexists. exact K3.
  - destruct (P_PriorMany.kl0_many d (List.length more) (fun i => nth i (mu :: more) (fun _ => 0)) (diag_of tau) (fun _ => m0) (times_id s0) (times_id_symm d s0) (times_id_posdef d s0 Hs)
      HT PT (id_commute d s0 _)) as (kl & Ti & K1 & K0 & K2). eexists. exact K2.
Qed.
Lemma like_value d (ys : list (nat -> R)) ts (Rn : nat -> nat -> R) v (mt : list (nat -> R)) (st : list (nat -> nat -> R)) val :
  diagonal d Rn -> (forall i, (i < d)%nat -> Rn i i = v i) -> (forall i, (i < d)%nat -> 0 < v i) ->
  List.length ys = List.length ts -> List.length st = List.length mt -> List.Forall (fun i => (i < List.length mt)%nat) ts -> NoDup ts ->
  like_nd (K:=RNum) ln PI d ys ts Rn meye mt st = Ok val ->
  exists eo, obs_energy_nd d ys ts Rn mt st eo /\
    val = eo + 1 / 2 * Rsum (List.length ts) (fun j => Rsum d (fun i => (nth j st zmat i i - nth (nth j ts 0%nat) st zmat i i) / v i)).
Proof.
  intros Hd Hv Hp Hy Hs Ht Hn H.
  assert (Hp' : forall i, (i < d)%nat -> 0 < Rn i i) by (intros i Hi; rewrite Hv by exact Hi; apply Hp, Hi).
  destruct (C28_energy_partial d ys ts Rn mt st (diagonal_symm d Rn Hd) (proj2 (diag_posdef d Rn Hd) Hp') Hy Hs Ht Hn) as (e & Ri & O1 & O2 & O3).
  rewrite O3 in H. injection H as <-. exists e. split; [exact O1|]. do 2 f_equal.
  assert (V : forall i j, (i < d)%nat -> (j < d)%nat -> Ri i j = if Nat.eqb i j then / v i else 0).
  { intros i j Hi Hj. rewrite (diag_inv d Rn Ri Hd) by (auto; intros k Hk; specialize (Hp' k Hk); lra). rewrite Hv by exact Hi. reflexivity. }
  apply Rsum_ext. intros j Hj.
  rewrite (Rsum_ext d (fun i => Rsum d (fun k => Ri i k * nth (nth j ts 0%nat) st zmat i k)) (fun i => / v i * nth (nth j ts 0%nat) st zmat i i)).
  - rewrite (Rsum_ext d (fun i => Ri i i * nth j st zmat i i) (fun i => / v i * nth j st zmat i i)).
    + assert (S : forall f g, Rsum d f - Rsum d g = Rsum d (fun i => f i - g i)).
      { intros f g. transitivity (Rsum d f + Rsum d (fun i => (-1) * g i)); [rewrite Rsum_scal; ring|]. rewrite <- Rsum_plus. apply Rsum_ext. intros; ring. }
      match goal with |- ?L = _ => replace L with (Rsum d (fun i => / v i * nth j st zmat i i) - Rsum d (fun i => / v i * nth (nth j ts 0%nat) st zmat i i)) by ring end.
      rewrite S. apply Rsum_ext. intros i Hi. unfold Rdiv. ring.
    + intros i Hi. rewrite V, Nat.eqb_refl by assumption. reflexivity.
  - intros i Hi. rewrite (Rsum_single d _ i Hi).
    + rewrite V, Nat.eqb_refl by assumption. reflexivity.
    + intros k Hk Hne. rewrite V by assumption. destruct (Nat.eqb_spec i k); [congruence|ring].
Qed.
Lemma momentsn d mm n dt (C : nat -> nat -> R) m0 s0 (a : list (nat -> nat -> R)) (b mt : list (nat -> R)) (st : list (nat -> nat -> R)) :
  List.length a = n -> List.length b = n -> (0 < n)%nat ->
  solve_fwd (sysn RNum d) mm dt a b m0 s0 C = Ok (mt, st) -> moments_solve_n d (tab_of mm) n dt C m0 s0 a b mt st.
Proof.
  intros La Lb Hn H. destruct (C11_fwd_shape_boundary _ _ _ _ _ _ _ _ _ _ _ H) as (L1 & L2 & N1 & N2).
  assert (L1' : List.length mt = n) by (rewrite <- Lb; exact L1).
  assert (L2' : List.length st = n) by (rewrite <- Lb; exact L2).
  split; [exact La|]. split; [exact Lb|]. split; [exact L1'|]. split; [exact L2'|].
  split; [exact (nth_error_nth _ _ zvec N1)|]. split; [exact (nth_error_nth _ _ zmat N2)|].
  intros i Hi. split.
  - apply (C12_mean_nd d mm dt a b m0 s0 C mt st i H); [exact (eq_trans La (eq_sym Lb))|exact (eq_ind_r (fun q => (i + 1 < q)%nat) Hi Lb)].
  - intros Ht. apply (C12_cov_nd_partial d mm dt a b m0 s0 C mt st i); [|exact H|exact (eq_trans La (eq_sym Lb))|exact (eq_ind_r (fun q => (i + 1 < q)%nat) Hi Lb)].
    intros ->. apply Ht. reflexivity.
Qed.
Lemma momentsn_symm d mm dt (C : nat -> nat -> R) m0 s0 (a : list (nat -> nat -> R)) (b mt : list (nat -> R)) (st : list (nat -> nat -> R)) :
  solve_fwd (sysn RNum d) mm dt a b m0 s0 C = Ok (mt, st) -> symm d s0 -> symm d C ->
  forall k, (k < List.length st)%nat -> symm d (nth k st zmat).
Proof.
  intros H Hs Hc k Hk. apply (C15_covariance_symmetric d mm dt a b m0 s0 C mt st H Hs Hc). apply nth_In, Hk.
Qed.
Lemma energy_value (G : Rng RNum) (solve : nat -> mat RNum -> result (vec RNum -> vec RNum)) k (p : PN G) th P dt n ts
  (a : list (nat -> nat -> R)) (b mt : list (nat -> R)) (st : list (nat -> nat -> R)) en :
  (k = L96 -> solver_ok solve) -> q_dim p = dim_n k -> q_theta p = th -> q_isig p = P -> Sorted le ts -> (0 < n)%nat ->
  List.length a = n -> List.length b = n -> List.length mt = n -> List.length st = n ->
  (forall t, (t < n)%nat -> symm (dim_n k) (nth t st zmat)) ->
  energyn RNum G solve (k, p) dt a b mt st (Some ts) = Ok en ->
  exists e : nat -> R,
    (forall t, (t < n)%nat -> mismatch_n k th P (nth t a zmat) (nth t b zvec) (nth t mt zvec) (nth t st zmat) (e t)) /\
    n_sde en = trap n e dt.
Proof.
  intros Hsol Hd Hth HP Hso Hn La Lb Lm Ls Hsy H. unfold energyn in H. cbn [fst snd] in H. destruct k; cbn [dim_n] in *.
  - injection H as <-. rewrite Hth, HP.
    assert (Hwf : wf3 a b mt st (Some ts)).
    { split; [exact (eq_trans Lb (eq_sym La))|]. split; [exact (eq_trans Lm (eq_sym La))|]. split; [exact (eq_trans Ls (eq_sym La))|]. split; [intros o [= <-]; exact Hso|].
      intros i Hi. apply Hsy. rewrite <- La. exact Hi. }
    destruct (C22_energy th P dt a b mt st (Some ts) Hwf) as (e & He & Ev). rewrite La in He, Ev.
    exists e. split; [exact He|exact Ev].
  - specialize (Hsol eq_refl). rewrite Hd, Hth, HP in H.
    assert (Hpd : forall t, (t < n)%nat -> posdef 40 (nth t st zmat)).
    { intros t Ht. destruct (Classical_Prop.classic (posdef 40 (nth t st zmat))) as [|Hnp]; [assumption|exfalso].
      pose proof (Props_L96E.C50_indefinite solve 40 th P dt a b mt st (Some ts) t Hsol ltac:(lia) (eq_trans Lb (eq_sym La)) (eq_trans Lm (eq_sym La)) (eq_trans Ls (eq_sym La))) as Hi.
      change (@List.length (mat RNum) a) with (@List.length (nat -> nat -> R) a) in Hi. rewrite La in Hi. specialize (Hi Hsy Ht Hnp). pose proof (eq_trans (eq_sym H) Hi). discriminate. }
    assert (Hroot : forall t, (t < n)%nat -> exists L, scaled_root 40 (nth t st zmat) L).
    { intros t Ht. apply Props_L96E.C50_root_exists; [lia|apply Hsy, Ht|apply Hpd, Ht]. }
    assert (HL : exists L : nat -> nat -> nat -> R, forall t, (t < n)%nat -> scaled_root 40 (nth t st zmat) (L t)).
    { clear - Hroot. induction n as [|m IH].
      - exists (fun _ => zmat). lia.
      - destruct IH as (L & HL); [intros t Ht; apply Hroot; lia|]. destruct (Hroot m ltac:(lia)) as (L0 & H0).
        exists (fun t => if Nat.eqb t m then L0 else L t). intros t Ht. destruct (Nat.eqb_spec t m) as [->|]; [exact H0|apply HL; lia]. }
    destruct HL as (L & HL).
    exists (fun t => uavg 40 (hring 40 th P (nth t a zmat) (nth t b zvec) (nth t mt zvec) (L t))). split.
    + intros t Ht. exists (L t). split; [apply HL, Ht|reflexivity].
    + assert (Hwf : wf96 40 a b mt st (Some ts)).
      { split; [lia|]. split; [exact (eq_trans Lb (eq_sym La))|]. split; [exact (eq_trans Lm (eq_sym La))|]. split; [exact (eq_trans Ls (eq_sym La))|]. split; [intros o [= <-]; exact Hso|].
        intros t Ht. rewrite La in Ht. split; [apply Hsy, Ht|apply Hpd, Ht]. }
      pose proof (Props_L96E.C50_energy_partial solve 40 th P dt a b mt st (Some ts) en L Hsol Hwf H) as Ev. rewrite La in Ev. apply Ev.
      exact HL.
Qed.
Lemma startn (spline : list R -> list R -> R -> R) d (C : nat -> nat -> R) t0 dt n (tk : list R) ts (ys : list (nat -> R)) x0 a b :
  uniform_grid t0 dt n tk -> (0 < n)%nat -> List.Forall (fun i => (i < n)%nat) ts -> ys <> [] ->
  initn (K:=RNum) spline d dt C tk ts ys = Ok x0 -> unpackn (K:=RNum) n d x0 = Ok (a, b) ->
  starting_point_n spline d C t0 dt n ts ys a b.
Proof.
  intros [Htl Htv] Hn Hts Hy H Hu. destruct (initn_unpack spline _ _ _ _ _ _ _ H) as (tx & z & a' & b' & E1 & E2 & E3 & La & Lb & Va & Vb).
  rewrite Htl in E3, La, Lb, Va, Vb. rewrite E3 in Hu. injection Hu as -> ->.
  assert (Htk : tk <> []) by (intros ->; cbn in Htl; lia).
  pose proof (time_knots_val tk ts Htk) as E4. rewrite Htl in E4. specialize (E4 Hts).
  change (car RNum) with R in *. rewrite E4 in E1. injection E1 as <-.
  assert (Ez : z = (nth 0 ys zvec :: ys ++ [last ys zvec])%list).
  { destruct ys as [|y ys]; [congruence|]. unfold ends in E2. injection E2 as <-.
    change (y :: (y :: ys) ++ [last (y :: ys) y] = y :: (y :: ys) ++ [last (y :: ys) zvec])%list.
    rewrite (last_indep y ys y zvec). reflexivity. }
  subst z. split; [exact La|]. split; [exact Lb|]. intros k i Hk Hi. cbv zeta.
  assert (Ia : forall i j, init_a (K:=RNum) C i j = if Nat.eqb i j then 2 * C i i else 0).
  { intros i' j'. unfold init_a, diag_k, mscale, mdiag. destruct (Nat.eqb i' j'); rnum; [field|ring]. }
  split.
  - intros j Hj. etransitivity; [exact (Va k i j Hk Hi Hj)|]. apply Ia.
  - etransitivity; [exact (Vb k i Hk Hi)|]. unfold init_b.
    set (mt0 := map _ tk).
    assert (Lm : List.length mt0 = n) by (unfold mt0; rewrite map_length; exact Htl).
    match goal with |- context [Nat.ltb (k + 1) ?q] => replace q with n by (symmetry; exact Lm) end.
    assert (Kn : map (fun i => nth i tk 0) (0%nat :: ts ++ [(n - 1)%nat])%list = map (fun i => t0 + INR i * dt) (0%nat :: ts ++ [(n - 1)%nat])%list).
    { apply map_ext_in. intros q Hq. apply Htv. destruct Hq as [<-|Hq]; [lia|]. apply in_app_or in Hq. destruct Hq as [Hq|[<-|[]]]; [|lia].
      rewrite Forall_forall in Hts. apply Hts, Hq. }
    assert (Vm : forall q, (q < n)%nat -> nth q mt0 zvec i =
      spline (map (fun t => t0 + INR t * dt) (0%nat :: ts ++ [(n - 1)%nat])%list)
                 (map (fun y => y i) (nth 0 ys zvec :: ys ++ [last ys zvec])%list) (t0 + INR q * dt)).
    { intros q Hq. unfold mt0. rewrite (nth_indep _ zvec (M_VarGP.interp (K:=RNum) spline (map (fun i => nth i tk 0) (0%nat :: ts ++ [(n - 1)%nat])%list) (nth 0 ys zvec :: ys ++ [last ys zvec])%list 0)) by (rewrite map_length; lia).
      etransitivity; [apply (f_equal (fun f : nat -> R => f i)); apply map_nth|]. unfold M_VarGP.interp.
      rewrite (Htv q Hq). rewrite <- Kn. reflexivity. }
    change (fun _ : nat => nZ (K:=RNum) 0) with zvec.
    destruct (Nat.ltb_spec (k + 1) n) as [Hk1|Hk1].
    + rnum. rewrite (Ia i i), Nat.eqb_refl. 
      pose proof (Vm (k + 1)%nat Hk1) as V1. pose proof (Vm k Hk) as V2. 
      match goal with |- context [nth (k + 1) mt0 ?z] => change (nth (k + 1) mt0 z i) with (nth (k + 1) mt0 zvec i) end.
      rewrite <- V1, <- V2. reflexivity.
    + rnum. rewrite (Ia i i), Nat.eqb_refl. pose proof (Vm k Hk) as V2. rewrite <- V2. rewrite Rplus_0_l. reflexivity.
Qed.
