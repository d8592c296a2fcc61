(** * Setup and run together, one dimension *)
From Coq Require Import ZArith List Bool Arith Reals Lra Lia Sorted String.
From Verif Require Import Num Arr ArrFacts M_LinAlg M_Ode M_Sde1 M_Prior M_Like M_VarGP M_Scg M_Run M_Proc M_Sim M_Sim1
  Spec_Utils Spec_Gauss Spec_Ode Spec_Sde1 Spec_Prior Spec_Like Spec_Proc Spec_Sim Spec_Sim1 Spec_Problem
  P_Ode P_OdeRK P_OdeSel P_Like P_Init P_Proc P_Traj P_VarGP P_Sim P_Sim1 P_Sim2 P_Problem.
Import ListNotations.
Local Open Scope string_scope.
Local Open Scope R_scope.

Section End1.
Context (G : Rng RNum) (spline : list R -> list R -> R -> R) (show : pv (leaf RNum) -> string).
Notation W := (world1 RNum G ln PI spline show).

Lemma spread_sorted n m ts : spread n m ts -> Sorted le ts.
Proof.
  intros (Hl & Hi & _). subst m. induction ts as [|a ts IH]; [constructor|]. constructor.
  - apply IH. intros i j Hij. apply (Hi (S i) (S j)). cbn in *. lia.
  - destruct ts as [|b ts]; constructor. apply Nat.lt_le_incl. apply (Hi 0%nat 1%nat). cbn. lia.
Qed.

Lemma evaluates_core k p name sigma theta dt n mu0 tau0 r ts (ys : list R) m0 s0 mm x v o :
  same_up_to_case name (name_of k) -> 0 < sigma -> 0 < tau0 -> 0 < r -> (0 < n)%nat -> Sorted le ts ->
  List.Forall (fun i => (i < n)%nat) ts -> List.length ys = List.length ts -> p_sigma p = sigma -> p_theta p = theta ->
  fe_core (sim_env1 RNum G ln PI k p n dt m0 s0 (mkSolver (K:=RNum) mm dt true) (mkSolver (K:=RNum) mm dt true)
    (mkLike1 (K:=RNum) ys ts r (Ok (1 : RNum))) (mu0, tau0) ts) x = Ok (v, o) -> List.length x = (2 * n)%nat ->
  evaluates (tab_of mm) name sigma theta dt n mu0 tau0 r ts ys m0 s0 (firstn n x) (skipn n x) (o_mt o) (o_st o) v.
Proof.
  intros Hk Hs Ht Hr Hn Hso Hts Hy Hsig Hth H Hx.
  destruct (fe_core_parts G k p n dt m0 s0 _ _ (mkLike1 (K:=RNum) ys ts r (Ok (1 : RNum))) _ ts (1 : RNum) eq_refl x v o H Hx) as (eo & E1 & E2 & ->).
  cbn [sol_method sol_dt fst snd k_y k_t k_noise] in *. rewrite Hsig, Hth in *.
  assert (La : List.length (firstn n x) = n) by (rewrite firstn_length, Hx; lia).
  assert (Lb : List.length (skipn n x) = n) by (rewrite skipn_length, Hx; lia).
  change (list (VM (sys1 RNum))) with (list R) in *. clear H.
  revert E1 E2. generalize (o_mt o : list R), (o_st o : list R). clear o. intros mt st E1 E2.
  pose proof (moments1 mm n dt sigma m0 s0 _ _ _ _ La Lb Hn E1) as M. split; [exact M|]. intros Hp.
  destruct M as (_ & _ & L1 & L2 & N1 & N2 & _). rewrite <- N1, <- N2.
  apply value1; assumption.
Qed.

Lemma optimise1_full k p name sigma theta (tk x : list R) t0 dt n m ts (ys : list R) r (m0 s0 : R) mm mu0 tau0 :
  same_up_to_case name (name_of k) -> 0 < sigma -> 0 < tau0 -> 0 < r -> p_sigma p = sigma -> p_theta p = theta ->
  b_tk (p_base p) = Some tk -> b_xt (p_base p) = Some x ->
  uniform_grid t0 dt n tk -> (2 <= n)%nat -> 0 < dt -> List.length x = n -> (m + 1 < n)%nat -> spread n m ts -> List.length ys = m -> (1 <= m)%nat ->
  exists (a b mt st Efx Edf lamt psit : list R) (fx : R) (mt1 st1 a0 b0 mt0 st0 : list R) (f0 : R) (a1 b1 : list R) (f1 : R),
    optimise1 RNum G ln PI spline (k, p) (VNum (K:=RNum) m0) (VNum (K:=RNum) s0)
      (mkSolver (K:=RNum) mm dt true) (mkSolver (K:=RNum) mm dt true) (mkLike1 (K:=RNum) ys ts r (Ok (1 : RNum))) (mu0, tau0)
      (VVals (K:=RNum) ys) (VIdx ts) =
    Ok (OArr [n] (a : list RNum), OArr [n] (b : list RNum), OScal (fx : RNum), arg_out1 RNum m0 s0 mt st Efx Edf lamt psit) /\
    Forall (fun l : list R => List.length l = n) [a; b; mt; st; Efx; Edf; lamt; psit] /\
    evaluates (tab_of mm) name sigma theta dt n mu0 tau0 r ts ys m0 s0 a b mt1 st1 fx /\
    starting_point spline sigma t0 dt n ts ys a0 b0 /\
    evaluates (tab_of mm) name sigma theta dt n mu0 tau0 r ts ys m0 s0 a0 b0 mt0 st0 f0 /\
    fx <= f0 /\
    evaluates (tab_of mm) name sigma theta dt n mu0 tau0 r ts ys m0 s0 a1 b1 mt st f1.
Proof.
  intros Hk Hsg Htau Hr Hsig Hth Htk Hx Hg Hn Hd Hl Hmn Hs Hy Hm.
  destruct (grid_shape _ _ _ _ Hg Hn) as (tl & Etk & _).
  assert (E1 : time_step G (p_base p) = Ok dt).
  { unfold time_step. rewrite Htk, Etk. f_equal. rnum. replace (t0 + dt - t0) with dt by ring. apply Rabs_pos_eq. lra. }
  assert (E2 : get_path G (p_base p) = Ok x) by (unfold get_path; rewrite Hx; reflexivity).
  assert (E3 : get_window G (p_base p) = Ok tk) by (unfold get_window; rewrite Htk; reflexivity).
  assert (Htl : List.length tk = n) by apply Hg.
  assert (Hts : List.length ts = m) by apply Hs.
  assert (Hlt : forall i, In i ts -> (i < n)%nat) by (intros i Hi; pose proof (spread_in _ _ _ Hs i Hi); lia).
  assert (Hlt' : List.Forall (fun i => (i < n)%nat) ts) by (rewrite Forall_forall; exact Hlt).
  assert (Hyn : ys <> []) by (intros ->; cbn in Hy; lia).
  pose proof (grid_sorted _ _ _ _ Hd Hg) as Hsort.
  destruct (init1_total spline (p_sigma p) tk ts ys Hsort ltac:(lia) Hyn ltac:(lia)) as [Hin _].
  destruct Hin as [Hok _]. { rewrite Htl. exact Hlt'. }
  rewrite Htl in Hok. destruct Hok as (x0 & E4). { apply (spread_inside _ _ _ Hs ltac:(lia)). auto. }
  assert (L0 : @List.length (car RNum) x0 = (2 * n)%nat).
  { pose proof (init1_len _ _ _ _ _ _ E4) as L. change (@List.length (car RNum) tk) with (@List.length R tk) in L. rewrite Htl in L. rewrite L. lia. }
  destruct (sim_run1_spec G k p n dt m0 s0 (mkSolver (K:=RNum) mm dt true) (mkSolver (K:=RNum) mm dt true)
    (mkLike1 (K:=RNum) ys ts r (Ok (1 : RNum))) (mu0, tau0) ts ltac:(lia) Hlt ltac:(cbn; congruence) (1 : RNum) eq_refl x0 L0)
    as (xx & fx & o & x' & v' & o1 & f0 & o0 & R1 & Lx & (oo & Eo & F1 & F2 & F3 & F4 & F5 & F6) & V1 & V0 & Hdec & Lx' & V').
  injection Eo as <-.
  assert (La : List.length (firstn n xx) = n) by (rewrite firstn_length, Lx; lia).
  assert (Lb : List.length (skipn n xx) = n) by (rewrite skipn_length, Lx; lia).
  exists (firstn n xx), (skipn n xx), (o_mt o), (o_st o), (o_Efx o), (o_Edf o), (o_lam o), (o_psi o), fx,
    (o_mt o1), (o_st o1), (firstn n x0), (skipn n x0), (o_mt o0), (o_st o0), f0, (firstn n x'), (skipn n x'), v'.
  split.
  { unfold optimise1. cbn [fst snd]. rewrite E1, E2, E3. cbn [bind]. change (@List.length (car RNum) x) with (@List.length R x). rewrite Hl.
    rewrite E4. cbn [bind]. rewrite R1. cbn [bind r_arg r_at r_bt r_fx]. unfold arr1. rewrite La, Lb. reflexivity. }
  pose proof (spread_sorted _ _ _ Hs) as Hso.
  assert (EV : forall x v o, _) by (exact (fun x v o => evaluates_core k p name sigma theta dt n mu0 tau0 r ts ys m0 s0 mm x v o Hk Hsg Htau Hr ltac:(lia) Hso Hlt' ltac:(congruence) Hsig Hth)).
  split; [repeat constructor; assumption|]. split; [apply EV; assumption|]. split.
  { rewrite <- Hsig. apply (start1 spline (p_sigma p) t0 dt n tk); auto. lia. }
  split; [apply EV; assumption|]. split; [exact Hdec|]. apply EV; assumption.
Qed.

Lemma store_has n (out : dict (oval RNum)) (a b mt st Efx Edf lamt psit : list R) (fx m0 s0 : R) :
  Forall (fun l : list R => List.length l = n) [a; b; mt; st; Efx; Edf; lamt; psit] ->
  let out' := store W (OArr [n] (a : list RNum), OArr [n] (b : list RNum), OScal (fx : RNum), arg_out1 RNum m0 s0 mt st Efx Edf lamt psit) out in
  has out' "at" (OArr [n] (a : list RNum)) /\ has out' "bt" (OArr [n] (b : list RNum)) /\ has out' "fx" (OScal (fx : RNum)) /\
  has out' "mt" (OArr [n] (mt : list RNum)) /\ has out' "st" (OArr [n] (st : list RNum)) /\
  has out' "m0" (OScal (m0 : RNum)) /\ has out' "s0" (OScal (s0 : RNum)).
Proof.
  intros F. rewrite Forall_forall in F. cbv zeta.
  assert (L : forall l : list R, In l [a; b; mt; st; Efx; Edf; lamt; psit] -> arr1 RNum l = OArr [n] (l : list RNum)).
  { intros l Hl. unfold arr1. do 2 f_equal. exact (F l Hl). }
  unfold store, dupdate, arg_out1. cbn [fold_left fst snd]. rewrite <- !dget_has. look.
  repeat split; try reflexivity; f_equal; apply L; cbn [In]; tauto.
Qed.

Lemma problem1 params name method sigma theta r t0 tf dt mu0 tau0 density seed (h : r_state G) (s : Sim W) :
  entries params name method sigma theta r t0 tf dt mu0 tau0 density seed ->
  acceptable name method sigma theta t0 tf dt density seed -> 0 < tau0 -> 0 < r ->
  exists n m T, reaches t0 dt tf n /\ int_part (INR (n - 1) * dt * rate_val density) (Z.of_nat m) /\ tableau_named method T /\
  ((1 <= m)%nat -> (m + 1 < n)%nat ->
   exists g0 g1 g2 g3 x ts ys z s1 s2 a b fx mt st mt1 st1 a0 b0 mt0 st0 f0 a1 b1 f1,
     let m0 := nth 0 x 0 + 1 / 10 * z in let s0 := 1 / 5 in
     sim_setup W params DNone h s = (Ok tt, s1) /\ sim_run W s1 = (Ok tt, s2) /\
     starts G seed h g0 /\ path_named G name sigma theta dt n g0 g1 x /\ observed G n m r x g1 g2 ts ys /\ r_normal G g2 = (z, g3) /\
     has (s_out s2) "at" (OArr [n] (a : list RNum)) /\ has (s_out s2) "bt" (OArr [n] (b : list RNum)) /\
     has (s_out s2) "fx" (OScal (fx : RNum)) /\
     has (s_out s2) "mt" (OArr [n] (mt : list RNum)) /\ has (s_out s2) "st" (OArr [n] (st : list RNum)) /\
     has (s_out s2) "m0" (OScal (m0 : RNum)) /\ has (s_out s2) "s0" (OScal (s0 : RNum)) /\
     evaluates T name sigma theta dt n mu0 tau0 r ts ys m0 s0 a b mt1 st1 fx /\
     starting_point spline sigma t0 dt n ts ys a0 b0 /\
     evaluates T name sigma theta dt n mu0 tau0 r ts ys m0 s0 a0 b0 mt0 st0 f0 /\
     fx <= f0 /\
     evaluates T name sigma theta dt n mu0 tau0 r ts ys m0 s0 a1 b1 mt st f1).
Proof.
  intros (dr & nz & tw & os & pr & x1 & x2 & x3 & x4 & x5 & x6 & x7 & x8 & F1 & F2 & F3 & F4 & N1 & F5 & F6 & N2 & F7 & N3 &
    F8 & F9 & N4 & F10 & N5 & F11 & N6 & F12 & F13 & N7 & F14 & N8 & F15 & F16 & F17 & F18)
    ((A1 & A2 & A3 & A4) & A5 & A6 & (mn & A7 & A8) & A9) Htau Hr.
  destruct (build1_full G name sigma theta seed x2 x1 h A1 A6 A9 N2 N1) as (k & p & B & Bk & Bs & Bt & Bg).
  destruct (traj1_full G k name p t0 tf dt x4 x5 x6 Bk A2 A3 N4 N5 N6) as (n & tk & x & p1 & T & Ts & Tt & Ttk & Tx & Tg & Tr & Tl & Tp).
  pose proof (reaches_two _ _ _ _ A3 Tr) as Hn2.
  destruct (collect1_full G k p1 tk x t0 dt n x3 r density Ttk Tx Tg Hn2 A2 Tl A5 A4 N3) as (m & ts & ys & p2 & C & Cm & Cmn & Co & Csig & Cth & Ctk & Cx).
  destruct (m0_full G k p2 x Cx ltac:(lia)) as (z & g3 & p3 & Mz & M & Mg & Ms & Mth & Mtk & Mx).
  rewrite Ctk in Mtk. rewrite Cx in Mx.
  assert (Hm : exists mm, method_name mm = mn /\ tableau_named method (tab_of mm)).
  { unfold tableau_named. cbn [In] in A7. destruct A7 as [<-|[<-|[<-|[<-|[]]]]]; [exists Euler|exists Heun|exists RK2|exists RK4]; (split; [reflexivity|]); cbn [tab_of]; tauto. }
  destruct Hm as (mm & <- & HT).
  destruct (sel_R dt method true) as (_ & _ & _ & Hsel). destruct (Hsel mm A2 A8) as [S1 S2].
  set (v := nth 0 x 0 + 1 / 10 * z) in *.
  destruct (setup_forward W params h (s_data s) dr nz tw os pr (PLeaf (LStr method)) _ x2 x3 x1 x4 x5 x6 (rate_leaf1 density) (PLeaf LNull)
    x7 x8 (LStr name) (k, p) (k, p1) (k, p2) (k, p3) (VIdx ts) (VVals (ys : list RNum)) (VNoise (A0 (K:=RNum) r)) (VNum v)
    F3 F5 F8 F2 F18 F15 F12 F1 F13 F14 F6 F7 F4 F9 F10 F11 F16 F17 B eq_refl T C M) as (d & Hset & Hfinds).
  exists n, m, (tab_of mm). split; [exact Tr|]. split; [exact Cm|]. split; [exact HT|]. intros Hm1 Hmn.
  pose proof (run_finds W d _ Hfinds) as Hrun. unfold run_on in Hrun.
  cbn [i_dt i_method i_single i_y i_t i_noise i_op i_mu0 i_tau0 i_model i_m0 i_s0] in Hrun.
  assert (R1 : w_fwd W x6 (PLeaf (LStr method)) true = Ok (mkSolver (K:=RNum) mm dt true)).
  { cbn [w_fwd world1]. rewrite (number_num _ _ N6). cbn [bind as_text]. exact S1. }
  assert (R2 : w_bwd W x6 (PLeaf (LStr method)) true = Ok (mkSolver (K:=RNum) mm dt true)).
  { cbn [w_bwd world1]. rewrite (number_num _ _ N6). cbn [bind as_text]. exact S2. }
  rewrite R1, R2 in Hrun. cbn [bind] in Hrun.
  assert (R3 : w_mkkl0 W (@inl (pv (w_leaf W)) (w_val W) x7) (@inl (pv (w_leaf W)) (w_val W) x8) true = Ok (mu0, tau0)).
  { cbn [w_mkkl0 world1]. unfold kl0_1. rewrite (number_num _ _ N7), (number_num _ _ N8). reflexivity. }
  assert (Cy : List.length ys = m) by (destruct Co as (? & _ & _ & ? & _); assumption).
  assert (Cs : spread n m ts) by (destruct Co as (? & _ & ? & _); assumption).
  assert (R4 : w_mklike W (VVals (ys : list RNum)) (VIdx ts) (VNoise (A0 (K:=RNum) r)) (PLeaf LNull) true = Ok (mkLike1 (K:=RNum) ys ts r (Ok (1 : RNum)))).
  { cbn [w_mklike world1 like1]. destruct ys; [cbn in Cy; lia|reflexivity]. }
  rewrite R4 in Hrun. cbn [bind] in Hrun. rewrite R3 in Hrun. cbn [bind] in Hrun.
  destruct (optimise1_full k p3 name sigma theta tk x t0 dt n m ts ys r v (nlit (n:=RNum) 1 5) mm mu0 tau0 Bk A1 Htau Hr
    ltac:(congruence) ltac:(congruence) Mtk Mx Tg Hn2 A2 Tl Hmn Cs Cy Hm1)
    as (a & b & mt & st & Efx & Edf & lamt & psit & fx & mt1 & st1 & a0 & b0 & mt0 & st0 & f0 & a1 & b1 & f1 & E & F & V1 & P0 & V0 & Hd & V2).
  change (w_optimise W) with (optimise1 RNum G ln PI spline) in Hrun. change (w_s0 W (k, p3)) with (VNum (nlit (n:=RNum) 1 5)) in Hrun.
  pose proof (eq_trans Hrun E) as Hrun2.
  exists (b_rng (p_base p)), (b_rng (p_base p1)), (b_rng (p_base p2)), g3, x, ts, ys, z, (mkSim (s_name s) d (s_out s)). eexists.
  exists a, b, fx, mt, st, mt1, st1, a0, b0, mt0, st0, f0, a1, b1, f1. cbv zeta. fold v.
  change (nlit (n:=RNum) 1 5) with (1 / 5) in *.
  split. { unfold sim_setup. rewrite Hset. reflexivity. }
  split. { unfold sim_run. cbn [s_data]. rewrite Hrun2. reflexivity. }
  split; [exact Bg|]. split. { rewrite Bs, Bt in Tp. exact Tp. }
  split; [exact Co|]. split; [exact Mz|]. cbn [s_out].
  destruct (store_has n (s_out s) a b mt st Efx Edf lamt psit fx v (1 / 5) F) as (H1 & H2 & H3 & H4 & H5 & H6 & H7).
  repeat (split; [assumption|]). assumption.
Qed.
End End1.
