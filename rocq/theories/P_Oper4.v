(** * Observation operators of the one-dimensional models that setup does not refuse *)
From Coq Require Import ZArith List Bool Arith Reals Lra Lia Sorted String.
From Verif Require Import Num Arr ArrFacts M_LinAlg M_Ode M_Sde1 M_Prior M_Like M_VarGP M_Scg M_Run M_Proc M_Sim M_Sim1
  Spec_Utils Spec_Ode Spec_Proc Spec_Sim Spec_Sim1 Spec_Oper P_Sde1 P_Ode P_Like P_VarGP P_OdeSel P_Init P_Proc P_Traj P_Sim P_Sim1 P_Sim2 P_Oper2.
Import ListNotations.
Local Open Scope string_scope.

(** ** an operator with which the gradients raise *)
Section Fails.
Context {K : Num} (G : Rng K).
Variable nln : K -> K.
Variable npi : K.
Variables (k : kind1) (p : P1 G) (n : nat) (step m0 s0 : K) (fwd bwd : solver K) (l : Like1 K) (pr : K * K) (obs_t : list nat) (e : exn).
Hypothesis Hn : (0 < n)%nat.
Hypothesis Ht : forall i, In i (k_t l) -> (i < n)%nat.
Hypothesis Hy : List.length (k_y l) = List.length (k_t l).
Hypothesis HH : k_H l = Err e.
Let E := sim_env1 K G nln npi k p n step m0 s0 fwd bwd l pr obs_t.
Lemma fe_fails x : List.length x = (2 * n)%nat -> fe_core E x = Err e.
Proof.
  intros Hx. unfold fe_core, E. cbn -[fwd_ode_call1 bwd_ode_call1 like_1d like_grad_1d energy1 kl0_1d Nat.mul].
  set (a := firstn _ x). set (b := skipn _ x).
  assert (Ha : List.length a = n) by (unfold a; rewrite firstn_length; lia).
  assert (Hb : List.length b = n) by (unfold b; rewrite skipn_length; lia).
  destruct (solve_fwd_total (sys1 K) (sol_method fwd) (sol_dt fwd) a b m0 s0 (p_sigma p)) as (mt & st & E1).
  { cbn. lia. } { cbn. lia. }
  destruct (solve_fwd_shape _ _ _ _ _ _ _ _ _ _ E1) as (M1 & M2 & _).
  assert (M1' : List.length (mt : list K) = n) by (transitivity (List.length b); [exact M1|exact Hb]).
  assert (M2' : List.length (st : list K) = n) by (transitivity (List.length b); [exact M2|exact Hb]).
  unfold fwd_ode_call1. rewrite E1. cbn [bind].
  assert (Tm : forall q : list K, List.length q = n -> take q (k_t l) = Ok (map (fun i => nth i q (nZ 0)) (k_t l))).
  { intros q Hq. apply take_ok. intros i Hi. rewrite Hq. apply Ht, Hi. }
  rewrite HH. cbn [bind]. unfold like_1d. rewrite !Tm by assumption. cbn [bind]. unfold same_len.
  rewrite map_length, <- Hy, Nat.eqb_refl. cbn [bind]. reflexivity.
Qed.
Lemma sim_run1_fails x0 : List.length x0 = (2 * n)%nat -> sim_run1 E n x0 = Err e.
Proof.
  intros Hx. unfold sim_run1, sim_optimise, scg_run, scg_call, scg_start, mbind, call_f, free_energy.
  rewrite (fe_fails x0 Hx). reflexivity.
Qed.
End Fails.

Local Open Scope R_scope.
Section OneD.
Context (G : Rng RNum) (spline : list R -> list R -> R -> R) (show : pv (leaf RNum) -> string).
Notation W := (world1 RNum G ln PI spline show).
(** ** an operator that is false: all observations are collected, the operator goes to the gradients *)
Lemma collect1_false k m p xd xr op : truthy RNum op = false -> collect_1 RNum G xd xr op (k, p) = m ->
  collect_1 RNum G xd xr (PLeaf LNull) (k, p) = m.
Proof.
  intros Hf <-. unfold collect_1. destruct (as_num RNum xr); [|reflexivity].
  assert (E : forall A (a b : A), match op with PLeaf (LBool true) => a | _ => b end = b).
  { intros A u v. destruct op as [[| | | |[]| | |]|]; try reflexivity. discriminate Hf. }
  rewrite E. unfold op_mask1. rewrite Hf. reflexivity.
Qed.
Lemma sim1_false op (HH : result RNum) params name method sigma theta r t0 tf dt mu0 tau0 density seed (h : r_state G) (s : Sim W) :
  entries_op op params name method sigma theta r t0 tf dt mu0 tau0 density seed ->
  acceptable name method sigma theta t0 tf dt density seed ->
  truthy RNum op = false -> op_value1 RNum op = Some HH ->
  exists n m, reaches t0 dt tf n /\ int_part (INR (n - 1) * dt * rate_val density) (Z.of_nat m) /\ (m + 1 <= n)%nat /\
    exists s1 (ys : list R), sim_setup W params DNone h s = (Ok tt, s1) /\
      has (s_data s1) "obs_y" (SVal (W:=W) (VVals (ys : list RNum))) /\ List.length ys = m /\
      ((1 <= m)%nat -> (m + 1 < n)%nat ->
         (forall v, HH = Ok v -> exists s2, sim_run W s1 = (Ok tt, s2) /\ completed n (s_out s2)) /\
         (forall e, HH = Err e -> sim_run W s1 = (Err e, s1))) /\
      ((1 <= m)%nat -> (m + 1 = n)%nat -> sim_run W s1 = (Err ValueError, s1)) /\
      (m = 0%nat -> sim_run W s1 = (Err IndexError, s1)).
Proof.
  intros (dr & nz & tw & os & pr & x1 & x2 & x3 & x4 & x5 & x6 & x7 & x8 & F1 & F2 & F3 & F4 & N1 & F5 & F6 & N2 & F7 & N3 &
    F8 & F9 & N4 & F10 & N5 & F11 & N6 & F12 & F13 & N7 & F14 & N8 & F15 & F16 & F17 & F18)
    ((A1 & A2 & A3 & A4) & A5 & A6 & (mn & A7 & A8) & A9) Hf Hv.
  destruct (build1_ok G name sigma theta seed x2 x1 h A1 A6 A9 N2 N1) as (k & p & B & Bs).
  destruct (traj1_ok G k p t0 tf dt x4 x5 x6 A2 A3 N4 N5 N6) as (n & tk & x & p1 & T & Ts & Ttk & Tx & Tg & Tr & Tl).
  pose proof (reaches_two _ _ _ _ A3 Tr) as Hn2.
  destruct (collect1_ok G k p1 tk x t0 dt n x3 r density Ttk Tx Tg Hn2 A2 Tl A5 A4 N3) as (m & ts & ys & p2 & C & Cm & Cmn & Cs & Cy & Csig & Ctk & Cx).
  rewrite (collect1_false k _ p1 (rate_leaf1 density) x3 op Hf eq_refl) in C.
  destruct (m0_ok G k p2 x Cx ltac:(lia)) as (v & p3 & M & Ms & Mtk & Mx).
  rewrite Ctk in Mtk. rewrite Cx in Mx.
  assert (Hm : exists mm, method_name mm = mn).
  { cbn [In] in A7. destruct A7 as [<-|[<-|[<-|[<-|[]]]]]; [exists Euler|exists Heun|exists RK2|exists RK4]; reflexivity. }
  destruct Hm as (mm & <-).
  destruct (sel_R dt method true) as (_ & _ & _ & Hsel). destruct (Hsel mm A2 A8) as [S1 S2].
  destruct (setup_forward W params h (s_data s) dr nz tw os pr (PLeaf (LStr method)) _ x2 x3 x1 x4 x5 x6 (rate_leaf1 density) op
    x7 x8 (LStr name) (k, p) (k, p1) (k, p2) (k, p3) (VIdx ts) (VVals (ys : list RNum)) (VNoise (A0 (K:=RNum) r)) (VNum v)
    F3 F5 F8 F2 F18 F15 F12 F1 F13 F14 F6 F7 F4 F9 F10 F11 F16 F17 B eq_refl T C M) as (d & Hset & Hfinds).
  exists n, m. split; [exact Tr|]. split; [exact Cm|]. split; [exact Cmn|].
  exists (mkSim (s_name s) d (s_out s)), ys.
  split. { unfold sim_setup. rewrite Hset. reflexivity. }
  split. { cbn [s_data]. unfold finds in Hfinds. cbn [i_y] in Hfinds. tauto. }
  split; [exact Cy|].
  pose proof (run_finds W d _ Hfinds) as Hrun. unfold run_on in Hrun.
  cbn [i_dt i_method i_single i_y i_t i_noise i_op i_mu0 i_tau0 i_model i_m0 i_s0] in Hrun.
  assert (R1 : w_fwd W x6 (PLeaf (LStr method)) true = Ok (mkSolver (K:=RNum) mm dt true)).
  { cbn [w_fwd world1]. rewrite (number_num _ _ N6). cbn [bind as_text]. exact S1. }
  assert (R2 : w_bwd W x6 (PLeaf (LStr method)) true = Ok (mkSolver (K:=RNum) mm dt true)).
  { cbn [w_bwd world1]. rewrite (number_num _ _ N6). cbn [bind as_text]. exact S2. }
  rewrite R1, R2 in Hrun. cbn [bind] in Hrun.
  assert (R3 : w_mkkl0 W (@inl (pv (w_leaf W)) (w_val W) x7) (@inl (pv (w_leaf W)) (w_val W) x8) true = Ok (mu0, tau0)).
  { cbn [w_mkkl0 world1]. unfold kl0_1. rewrite (number_num _ _ N7), (number_num _ _ N8). reflexivity. }
  assert (R4 : w_mklike W (VVals (ys : list RNum)) (VIdx ts) (VNoise (A0 (K:=RNum) r)) op true = Ok (mkLike1 (K:=RNum) ys ts r HH)).
  { cbn [w_mklike world1 like1]. rewrite Hv. reflexivity. }
  rewrite R4 in Hrun. cbn [bind] in Hrun. rewrite R3 in Hrun. cbn [bind] in Hrun.
  change (w_optimise W) with (optimise1 RNum G ln PI spline) in Hrun. change (w_s0 W (k, p3)) with (VNum (nlit (n:=RNum) 1 5)) in Hrun.
  destruct (grid_shape _ _ _ _ Tg Hn2) as (tl & Etk & _).
  assert (E1 : time_step G (p_base p3) = Ok (Rabs (t0 + dt - t0))) by (unfold time_step; rewrite Mtk, Etk; reflexivity).
  assert (E2 : get_path G (p_base p3) = Ok x) by (unfold get_path; rewrite Mx; reflexivity).
  assert (E3 : get_window G (p_base p3) = Ok tk) by (unfold get_window; rewrite Mtk; reflexivity).
  assert (Htl : @List.length R tk = n) by apply Tg.
  assert (Hts : List.length ts = m) by apply Cs.
  assert (Hlt : forall i, In i ts -> (i < n)%nat) by (intros i Hi; pose proof (spread_in _ _ _ Cs i Hi); lia).
  pose proof (grid_sorted _ _ _ _ A2 Tg) as Hsort.
  split; [|split].
  - intros H1 H2. split.
    + intros v' ->.
      destruct (optimise1_ok G spline k p3 tk x t0 dt n m ts ys r v (nlit (n:=RNum) 1 5) (mkSolver (K:=RNum) mm dt true) (mkSolver (K:=RNum) mm dt true) (mu0, tau0) v'
        Mtk Mx Tg Hn2 A2 Tl Cmn Cs Cy ltac:(lia)) as [O1 _].
      destruct (O1 H2) as (a & b & mt & st & Efx & Edf & lamt & psit & fx & E & F).
      eexists. unfold sim_run. cbn [s_data]. rewrite Hrun, E. split; [reflexivity|]. cbn [s_out]. apply store_completed. exact F.
    + intros e ->. unfold sim_run. cbn [s_data]. rewrite Hrun. clear Hrun. unfold optimise1. cbn [fst snd]. rewrite E1, E2, E3. cbn [bind].
      change (@List.length (car RNum) x) with (@List.length R x). rewrite Tl.
      assert (Hyn : ys <> []) by (intros ->; cbn in Cy; lia).
      destruct (init1_total spline (p_sigma p3) tk ts ys Hsort ltac:(lia) Hyn ltac:(lia)) as [Hin _].
      destruct Hin as [Hok _]. { rewrite Forall_forall. intros i Hi. rewrite Htl. apply Hlt, Hi. }
      destruct Hok as (x0 & E4). { rewrite Htl. apply (spread_inside _ _ _ Cs Cmn). auto. }
      rewrite E4. cbn [bind].
      rewrite (sim_run1_fails (K:=RNum) G ln PI k p3 n (Rabs (t0 + dt - t0)) v (nlit (n:=RNum) 1 5) _ _ (mkLike1 (K:=RNum) ys ts r (Err e)) (mu0, tau0) ts e); [reflexivity|..].
      * lia.
      * exact Hlt.
      * cbn. congruence.
      * reflexivity.
      * pose proof (init1_len _ _ _ _ _ _ E4) as L. change (@List.length (car RNum) tk) with (@List.length R tk) in L. rewrite Htl in L. rewrite L. lia.
  - intros H1 H2. unfold sim_run. cbn [s_data]. rewrite Hrun. clear Hrun. unfold optimise1. cbn [fst snd]. rewrite E1, E2, E3. cbn [bind].
    assert (Hyn : ys <> []) by (intros ->; cbn in Cy; lia).
    destruct (init1_total spline (p_sigma p3) tk ts ys Hsort ltac:(lia) Hyn ltac:(lia)) as [Hin _].
    destruct Hin as [_ Hbad]. { rewrite Forall_forall. intros i Hi. rewrite Htl. apply Hlt, Hi. }
    rewrite Hbad; [reflexivity|]. rewrite Htl. intros Hin. apply (spread_inside _ _ _ Cs Cmn) in Hin. lia.
  - intros H0. unfold sim_run. cbn [s_data]. rewrite Hrun. clear Hrun. unfold optimise1. cbn [fst snd]. rewrite E1, E2, E3. cbn [bind].
    unfold init1. rewrite (time_knots_val tk ts).
    + destruct ys; [reflexivity|cbn in Cy; lia].
    + intros ->. cbn in Htl. lia.
    + rewrite Forall_forall. intros i Hi. rewrite Htl. apply Hlt, Hi.
Qed.
(** ** true as operator *)
Lemma sim1_true params name method sigma theta r t0 tf dt mu0 tau0 density seed (h : r_state G) (s : Sim W) :
  entries_op (PLeaf (LBool true)) params name method sigma theta r t0 tf dt mu0 tau0 density seed ->
  acceptable name method sigma theta t0 tf dt density seed ->
  exists n m, reaches t0 dt tf n /\ int_part (INR (n - 1) * dt * rate_val density) (Z.of_nat m) /\
    (m <> 1%nat -> exists s', sim_setup W params DNone h s = (Err ValueError, s')) /\
    (m = 1%nat -> exists s1, sim_setup W params DNone h s = (Ok tt, s1) /\ sim_run W s1 = (Err ValueError, s1)).
Proof.
  intros (dr & nz & tw & os & pr & x1 & x2 & x3 & x4 & x5 & x6 & x7 & x8 & F1 & F2 & F3 & F4 & N1 & F5 & F6 & N2 & F7 & N3 &
    F8 & F9 & N4 & F10 & N5 & F11 & N6 & F12 & F13 & N7 & F14 & N8 & F15 & F16 & F17 & F18)
    ((A1 & A2 & A3 & A4) & A5 & A6 & (mn & A7 & A8) & A9).
  destruct (build1_ok G name sigma theta seed x2 x1 h A1 A6 A9 N2 N1) as (k & p & B & Bs).
  destruct (traj1_ok G k p t0 tf dt x4 x5 x6 A2 A3 N4 N5 N6) as (n & tk & x & p1 & T & Ts & Ttk & Tx & Tg & Tr & Tl).
  pose proof (reaches_two _ _ _ _ A3 Tr) as Hn2.
  destruct (obs_indexes_R t0 dt n tk (rate_dens density) Tg Hn2 A2 (rated density A5) A4) as (m & Hm & Hmn & E).
  pose proof (spread_ix_spec n m Hmn) as Hs. set (ts := spread_ix n m) in *.
  assert (Hts : List.length ts = m) by apply Hs.
  destruct (normals G m (b_rng (p_base p1))) as [z g] eqn:Ez.
  assert (Lz : List.length z = m).
  { pose proof (normals_len G m (b_rng (p_base p1))) as L. rewrite Ez in L. exact L. }
  set (ys := map (fun i => nth i x 0) ts).
  assert (C : collect_1 RNum G (rate_leaf1 density) x3 (PLeaf (LBool true)) (k, p1) =
    (match ys, z with
     | [y], [w] => Ok (VIdx ts, VCol (K:=RNum) (y + sqrt r * w), VNoise (A0 (K:=RNum) r))
     | _, _ => Err ValueError
     end, (k, with_base G (set_rng G g (p_base p1)) p1))).
  { unfold collect_1. rewrite (number_num _ _ N3), as_rate. unfold collect_true. cbn [fst snd]. rewrite Ttk, Tx, E. cbn [bind].
    rewrite (take_ok (x : list RNum) 0 ts).
    2:{ intros i Hi. apply (spread_in n m _ Hs) in Hi. apply Nat.lt_le_trans with n; [lia|]. apply Nat.eq_le_incl. symmetry. exact Tl. }
    cbn [bind]. rewrite Ez. reflexivity. }
  assert (Ly : List.length ys = m) by (unfold ys; rewrite map_length; exact Hts).
  exists n, m. split; [exact Tr|]. split; [exact Hm|]. split.
  - intros H1.
    assert (C' : collect_1 RNum G (rate_leaf1 density) x3 (PLeaf (LBool true)) (k, p1) = (Err ValueError, (k, with_base G (set_rng G g (p_base p1)) p1))).
    { rewrite C. destruct ys as [|y [|y' ys]]; try reflexivity. cbn in Ly. congruence. }
    destruct (setup_collect_fails W params h (s_data s) dr nz tw os pr (PLeaf (LStr method)) _ x2 x3 x1 x4 x5 x6 (rate_leaf1 density) (PLeaf (LBool true))
      x7 x8 (LStr name) (k, p) (k, p1) _ ValueError
      F3 F5 F8 F2 F18 F15 F12 F1 F13 F14 F6 F7 F4 F9 F10 F11 F16 F17 B T C') as (d & Ed).
    unfold sim_setup. rewrite Ed. eauto.
  - intros ->. destruct ys as [|y [|y' ys']]; [discriminate| |discriminate]. destruct z as [|w [|w' z']]; [discriminate| |discriminate].
    destruct (m0_ok G k (with_base G (set_rng G g (p_base p1)) p1) x) as (v & p3 & M & Ms & Mtk & Mx).
    { cbn. exact Tx. } { lia. }
    cbn [with_base p_base b_tk b_xt set_rng] in Mtk, Mx. rewrite Ttk in Mtk. rewrite Tx in Mx.
    destruct (setup_forward W params h (s_data s) dr nz tw os pr (PLeaf (LStr method)) _ x2 x3 x1 x4 x5 x6 (rate_leaf1 density) (PLeaf (LBool true))
      x7 x8 (LStr name) (k, p) (k, p1) _ (k, p3) _ _ _ (VNum v)
      F3 F5 F8 F2 F18 F15 F12 F1 F13 F14 F6 F7 F4 F9 F10 F11 F16 F17 B eq_refl T C M) as (d & Hset & Hfinds).
    assert (Hm' : exists mm, method_name mm = mn).
    { cbn [In] in A7. destruct A7 as [<-|[<-|[<-|[<-|[]]]]]; [exists Euler|exists Heun|exists RK2|exists RK4]; reflexivity. }
    destruct Hm' as (mm & <-).
    destruct (sel_R dt method true) as (_ & _ & _ & Hsel). destruct (Hsel mm A2 A8) as [S1 S2].
    exists (mkSim (s_name s) d (s_out s)). split. { unfold sim_setup. rewrite Hset. reflexivity. }
    pose proof (run_finds W d _ Hfinds) as Hrun. unfold run_on in Hrun.
    cbn [i_dt i_method i_single i_y i_t i_noise i_op i_mu0 i_tau0 i_model i_m0 i_s0] in Hrun.
    assert (R1 : w_fwd W x6 (PLeaf (LStr method)) true = Ok (mkSolver (K:=RNum) mm dt true)).
    { cbn [w_fwd world1]. rewrite (number_num _ _ N6). cbn [bind as_text]. exact S1. }
    assert (R2 : w_bwd W x6 (PLeaf (LStr method)) true = Ok (mkSolver (K:=RNum) mm dt true)).
    { cbn [w_bwd world1]. rewrite (number_num _ _ N6). cbn [bind as_text]. exact S2. }
    rewrite R1, R2 in Hrun. cbn [bind] in Hrun.
    assert (R3 : w_mkkl0 W (@inl (pv (w_leaf W)) (w_val W) x7) (@inl (pv (w_leaf W)) (w_val W) x8) true = Ok (mu0, tau0)).
    { cbn [w_mkkl0 world1]. unfold kl0_1. rewrite (number_num _ _ N7), (number_num _ _ N8). reflexivity. }
    assert (R4 : w_mklike W (VCol (K:=RNum) (y + sqrt r * w)) (VIdx ts) (VNoise (A0 (K:=RNum) r)) (PLeaf (LBool true)) true =
      Ok (mkLike1 (K:=RNum) [y + sqrt r * w] ts r (Err ValueError))) by reflexivity.
    rewrite R4 in Hrun. cbn [bind] in Hrun. rewrite R3 in Hrun. cbn [bind] in Hrun.
    unfold sim_run. cbn [s_data]. rewrite Hrun. clear Hrun. cbn [bind w_optimise world1].
    destruct (grid_shape _ _ _ _ Tg Hn2) as (tl & Etk & _).
    unfold optimise1, time_step, get_path, get_window. cbn [fst snd]. rewrite Mtk, Mx, Etk. reflexivity.
Qed.
(** ** zero and empty operators *)
Lemma zero_false op : number op 0 -> truthy RNum op = false /\ op_value1 RNum op = Some (Ok (0 : RNum)).
Proof.
  intros [->|[(z & -> & Hz)|(b & -> & Hb)]].
  - split; [|reflexivity]. cbn [truthy]. rnum. destruct (Reqb_spec 0 0); [reflexivity|contradiction].
  - apply eq_IZR in Hz. subst z. split; reflexivity.
  - destruct b; [lra|]. split; reflexivity.
Qed.
Lemma empty_false op e : empty_op1 op e -> truthy RNum op = false /\ op_value1 RNum op = Some (Err e).
Proof. intros [([->| ->] & ->)|([->|[->| ->]] & ->)]; split; reflexivity. Qed.
End OneD.
