(** * Observation operators: zero, numbers, truth values and rows of integers *)
From Coq Require Import ZArith List Bool Arith Reals Lra Lia Sorted String.
From Verif Require Import Num Arr ArrFacts M_LinAlg M_Ode M_Sde1 M_L63 M_L96 M_L96E M_Prior M_Like M_VarGP M_Scg M_Run M_Proc M_Sim M_Sim1 M_SimN
  Spec_Utils Spec_Det Spec_Ode Spec_Prior Spec_L63 Spec_Like Spec_Proc Spec_Sim Spec_Sim1 Spec_SimN Spec_Oper P_Trapz P_LinAlg P_Det P_Utils P_L63 P_RMat P_Spectral P_Prior P_Like P_VarGP P_OdeSel P_Init P_Proc P_Traj P_Noise P_Sim P_Sim2 P_Main P_SimN P_SimN2 P_Oper P_Oper2.
Import ListNotations.
Local Open Scope string_scope.
Local Open Scope R_scope.

Lemma f2_length {A B} (Q : A -> B -> Prop) l l' : Forall2 Q l l' -> List.length l = List.length l'.
Proof. induction 1; cbn; congruence. Qed.
Lemma in_upd {A} i (v w : A) l : In w (upd i v l) -> w = v \/ In w l.
Proof.
  revert i. induction l as [|a l IH]; intros [|i] H; cbn in H; try contradiction; cbn.
  - destruct H as [->|H]; auto.
  - destruct H as [->|H]; auto. destruct (IH _ H); auto.
Qed.
(** the likelihood with the operator zero: the observations and the means do not matter *)
Section Zero.
Variables (d : nat) (y : list (nat -> R)) (t : list nat) (Rn : nat -> nat -> R) (m : list (nat -> R)) (s : list (nat -> nat -> R)).
Hypothesis Hrs : symm d Rn.
Hypothesis Hrp : posdef d Rn.
Hypothesis Hy : List.length y = List.length t.
Hypothesis Hms : List.length s = List.length m.
Hypothesis Ht : List.Forall (fun i => (i < List.length m)%nat) t.
Hypothesis Hn : NoDup t.
Notation Z0 := (mscale (K:=RNum) (0 : RNum) meye).
Lemma vecm_zero (w : nat -> R) i : vecm (K:=RNum) d w Z0 i = 0.
Proof. rewrite vecm_R. apply Rsum_zero. intros k _. unfold mscale. rnum. ring. Qed.
Lemma zero_val : exists Ri, is_inv d Rn Ri /\
  like_nd (K:=RNum) ln PI d y t Rn Z0 m s =
  Ok (1 / 2 * (Rsum (List.length t) (fun j => Rsum d (fun i => Ri i i * nth j s zmat i i)) + INR (List.length t) * (INR d * ln (2 * PI) + ln (detR d Rn)))).
Proof.
  destruct (chol_inv_fast_ok d Rn Hrs Hrp) as (Ri & c & Ef & HRi & _).
  exists Ri. split; [exact HRi|].
  unfold like_nd, vec, mat. rty. rewrite (P_Like.take_ok m t zvec Ht). cbn [bind].
  unfold same_len. rewrite map_length, Hy, Nat.eqb_refl. cbn [bind]. rewrite Ef. cbn [bind].
  rewrite like_nd_loop_val
    by (rewrite map_length, map2_length, map_length, Hy, Nat.min_id, Hms; apply nodup_range; assumption).
  cbn [bind].
  assert (Hld : log_det_mat (K:=RNum) ln d Rn = Ok (ln (detR d Rn))).
  { destruct (log_det_matrix d Rn Hrs) as [H _]. specialize (H Hrp). unfold log_det in H. rewrite Nat.eqb_refl in H. exact H. }
  rewrite Hld. cbn [bind]. f_equal.
  rewrite map_length, map2_length, map_length, Hy, Nat.min_id.
  unfold log2pi. rnum. rewrite <- !INR_IZR_INZ. f_equal. f_equal. rewrite Rplus_0_l.
  apply Rsum_ext. intros j Hj.
  rewrite (nth_map_lt _ _ j zvec) by (rewrite map2_length, map_length; lia).
  rewrite (nth_map2 _ _ _ j zvec zvec) by (rewrite ?map_length; lia).
  match goal with |- ?a + _ = _ => assert (Za : a = 0) end.
  { apply Rsum_zero. intros i Hi. 
    assert (Q : forall (w : nat -> R), (forall a, w a = 0) -> vecm (K:=RNum) d w (mtr c) i = 0).
    { intros w Hw. rewrite vecm_R. apply Rsum_zero. intros k _. rewrite Hw. ring. }
    rewrite Q by (intros a; apply vecm_zero). apply Rmult_0_l. }
  rewrite Za. apply Rplus_0_l.
Qed.
Lemma zero_grad : exists gm gs sh, like_grad_nd (K:=RNum) d y t Rn Z0 m = Ok (gm, gs, sh) /\
  List.length gm = List.length m /\ List.length gs = List.length m /\
  (forall k i, nth k gm zvec i = 0) /\ (forall k i j, nth k gs zmat i j = 0).
Proof.
  destruct (chol_inv_fast_ok d Rn Hrs Hrp) as (Ri & c & Ef & HRi & HRis & _).
  unfold like_grad_nd, vec, mat. rty. rewrite (P_Like.take_ok m t zvec Ht). cbn [bind].
  unfold same_len. rewrite map_length, Hy, Nat.eqb_refl. cbn [bind]. rewrite Ef. cbn [bind].
  eexists. eexists. eexists. split; [reflexivity|].
  rewrite !scatter_length, !repeat_length. do 2 (split; [reflexivity|]).
  split.
  - intros k. assert (Hall : forall (l : list nat) (v : list (nat -> R)) z, (forall w i, In w v -> w i = 0) -> (forall w i, In w z -> w i = 0) ->
      forall i, nth k (scatter l v z) zvec i = 0).
    { induction l as [|a l IH]; intros [|w v] z Hv Hz i; cbn [scatter]; try (destruct (nth_in_or_default k z zvec) as [H|H]; [apply Hz, H|rewrite H; reflexivity]).
      apply IH; [intros w' i' H; apply Hv; right; exact H|]. intros w' i' H. apply in_upd in H. destruct H as [->|H]; [apply Hv; left; reflexivity|apply Hz, H]. }
    apply Hall.
    + intros w i Hw. apply in_map_iff in Hw. destruct Hw as (u & <- & _). unfold voppv. rewrite mvec_R. rnum.
      rewrite Rsum_zero; [ring|]. intros q _. rewrite mmul_R. rewrite Rsum_zero; [ring|]. intros q' _. unfold mtr, mscale. rnum. ring.
    + intros w i Hw. apply repeat_spec in Hw. subst w. reflexivity.
  - intros k. assert (Hall : forall (l : list nat) (v : list (nat -> nat -> R)) z, (forall w i j, In w v -> w i j = 0) -> (forall w i j, In w z -> w i j = 0) ->
      forall i j, nth k (scatter l v z) zmat i j = 0).
    { induction l as [|a l IH]; intros [|w v] z Hv Hz i j; cbn [scatter]; try (destruct (nth_in_or_default k z zmat) as [H|H]; [apply Hz, H|rewrite H; reflexivity]).
      apply IH; [intros w' i' j' H; apply Hv; right; exact H|]. intros w' i' j' H. apply in_upd in H. destruct H as [->|H]; [apply Hv; left; reflexivity|apply Hz, H]. }
    apply Hall.
    + intros w i j Hw. apply in_map_iff in Hw. destruct Hw as (u & <- & _). unfold mscale at 1. rewrite mmul_R. rnum.
      rewrite Rsum_zero; [ring|]. intros q _. unfold mscale. rnum. ring.
    + intros w i j Hw. apply repeat_spec in Hw. subst w. reflexivity.
Qed.
End Zero.

Section ND.
Context (G : Rng RNum) (eigvals : nat -> mat RNum -> list (RNum * RNum)) (solve : nat -> mat RNum -> result (vec RNum -> vec RNum))
  (spline : list R -> list R -> R -> R) (show : parn -> string).
Notation W := (worldn RNum G eigvals solve ln PI spline show).
Notation seed_of seed := (match seed with None => PLeaf NNull | Some z => PLeaf (NInt z) end).
(** rows have to fit the observations *)
Definition must_fit (op : parn) (m : nat) : Prop :=
  match op with
  | PLeaf (NArr _ (A2 r _ _)) => m = r \/ m = 1%nat
  | PLeaf (NBool true) => m = 1%nat
  | _ => True
  end.
(** what collect_obs does with an operator that gives no rows: it fails, or leaves m observations *)
Definition apart_obs (op : parn) (density : rate) (obs : parn) (k : kindn) (m : nat) (p : PN G) : Prop :=
  let r := collect_n RNum G (rate_leafn density) obs op (k, p) in
  (exists m', r = (Err ValueError, m')) \/
  (must_fit op m /\ exists ts ys yl nz (p' : PN G), r = (Ok (WIdx ts, ys, WNoise nz), (k, p')) /\
    ((exists u, ys = WCol u /\ List.length u = yl) \/ (exists u, ys = WGrid u /\ List.length u = yl)) /\ yl = m /\
    q_dim p' = q_dim p /\ b_tk (q_base p') = b_tk (q_base p) /\ b_xt (q_base p') = b_xt (q_base p)).
Lemma simn_zero k (Hsolve : k = L96 -> forall d S e, solve d S = Err e -> e = LinAlgError)
  op params name method sys theta obs C v t0 tf dt mu0 tau0 density seed (h : r_state G) (s : Sim W) :
  let d := dim_n k in let q := d in
  entries_n_op op params name method sys theta obs t0 tf dt mu0 tau0 density seed ->
  acceptable_n k name method C v t0 tf dt tau0 density seed ->
  drift_n k theta -> sys_n d sys C -> spectrum d C (eigvals d C) ->
  zero_op op -> obs_n d obs v ->
  exists n m, reaches t0 dt tf n /\ int_part (INR (n - 1) * dt * rate_val density) (Z.of_nat m) /\ (m + 1 <= n)%nat /\
    exists s1 (ys : list (nat -> R)), sim_setup W params DNone h s = (Ok tt, s1) /\
      has (s_data s1) "obs_y" (SVal (W:=W) (WRows (ys : list (vec RNum)))) /\ List.length ys = m /\
      ((1 <= m)%nat -> (m + 1 = n)%nat -> sim_run W s1 = (Err ValueError, s1)) /\
      ((1 <= m)%nat -> (m + 1 < n)%nat ->
         (exists s2, sim_run W s1 = (Ok tt, s2) /\ completed_n d n (s_out s2)) \/ (k = L96 /\ sim_run W s1 = (Err LinAlgError, s1))) /\
      (m = 0%nat -> sim_run W s1 = (Err IndexError, s1)).
Proof.
  intros d q (dr & nz & tw & os & pr & x4 & x5 & x6 & x7 & x8 & F1 & F2 & F3 & F4 & F5 & F6 & F7 &
    F8 & F9 & N4 & F10 & N5 & F11 & N6 & F12 & F13 & N7 & F14 & N8 & F15 & F16 & F17 & F18)
    (Q1 & Q2 & Q3 & (Q4 & Q5 & Q6 & Q7) & Q8 & Q9 & (mn & Q10 & Q11) & Q12) Hdr Hsys Hspec Hz0 Hobs.
  assert (Hv : forall i, (i < q)%nat -> 0 < v i) by (intros i Hi; apply Q3; exact Hi).
  assert (Hd0 : (0 < d)%nat) by (unfold d; destruct k; cbn; lia).
  assert (Hd1 : d <> 1%nat) by (unfold d; destruct k; cbn; lia).
  destruct (buildn_ok G eigvals k name C sys theta seed h Q9 Hdr Hsys Q1 Q2 Hspec Q12) as (p & B & Bd). fold d in Bd.
  destruct (trajn_ok G k p d t0 tf dt x4 x5 x6 Bd Q5 Q6 N4 N5 N6) as (n & tk & x & p1 & T & Td & Ttk & Tx & Tg & Tr & Tl).
  pose proof (reaches_two _ _ _ _ Q6 Tr) as Hn2.
  destruct (collectn_cols G k p1 d tk x t0 dt n obs v density op (seq 0 d) Td Ttk Tx Tg Hn2 Q5 Tl Q8 Q7 (zero_picks G d op Hz0)
    ltac:(rewrite seq_length; exact Hobs)) as (m & Cm & Cmn & _ & CO). rewrite seq_length in CO.
  assert (Hop : forall ys, op_like RNum ys op = Ok (OpMat (K:=RNum) (mscale (0 : RNum) meye))).
  { intros ys. destruct Hz0 as [->|[->|[(zz & -> & Hzz)|([] & -> & Hzz)]]]; [reflexivity|reflexivity| |lra|reflexivity]. apply (eq_IZR 0) in Hzz. subst zz. reflexivity. }
  exists n, m. split; [exact Tr|]. split; [exact Cm|]. split; [exact Cmn|].
  destruct (CO Hd1) as (ts & ys & Cn & p2 & z & g & g' & Cc & CnD & CnV & Cs & Cy & Cz & Cv & Cd & Ctk & Cx). clear CO.
  destruct (m0n_ok G k p2 x Cx ltac:(lia)) as (m0 & p3 & M & Md & Mtk & Mx).
  rewrite Ctk in Mtk. rewrite Cx in Mx. rewrite Cd in Md.
  assert (Hm : exists mm, method_name mm = mn).
  { cbn [In] in Q10. destruct Q10 as [<-|[<-|[<-|[<-|[]]]]]; [exists Euler|exists Heun|exists RK2|exists RK4]; reflexivity. }
  destruct Hm as (mm & <-).
  destruct (sel_R dt method false) as (_ & _ & _ & Hsel'). destruct (Hsel' mm Q5 Q11) as [S1 S2].
  assert (R5 : w_mu0 W x7 (k, p3) = Ok (WVec (fun _ => nmul (n:=RNum) mu0 (nZ 1)))).
  { cbn [w_mu0 worldn]. apply mu0_num, N7. }
  assert (R6 : w_tau0 W x8 (k, p3) = Ok (WMat (mscale (K:=RNum) tau0 meye))).
  { cbn [w_tau0 worldn]. apply tau0_num, N8. }
  destruct (setup_forward_n W params h (s_data s) dr nz tw os pr (PLeaf (NStr method)) _ sys obs theta x4 x5 x6 (rate_leafn density) op
    x7 x8 (NStr name) (k, p) (k, p1) (k, p2) (k, p3) (WIdx ts) (WRows (ys : list (vec RNum))) (WNoise (A2 (K:=RNum) q q Cn)) (WVec m0) _ _
    F3 F5 F8 F2 F18 F15 F12 F1 F13 F14 F6 F7 F4 F9 F10 F11 F16 F17 B eq_refl T Cc M R5 R6) as (dd & Hset & Hfinds).
  exists (mkSim (s_name s) dd (s_out s)), ys.
  split. { unfold sim_setup. rewrite Hset. reflexivity. }
  split; [apply Hfinds|]. split; [exact Cy|].
  pose proof (run_finds W dd _ Hfinds) as Hrun. unfold run_on in Hrun.
  cbn [i_dt i_method i_single i_y i_t i_noise i_op i_mu0 i_tau0 i_model i_m0 i_s0] in Hrun.
  assert (R1 : w_fwd W x6 (PLeaf (NStr method)) false = Ok (mkSolver (K:=RNum) mm dt false)).
  { cbn [w_fwd worldn]. rewrite (num_nas _ _ N6). cbn [bind nas_text]. exact S1. }
  assert (R2 : w_bwd W x6 (PLeaf (NStr method)) false = Ok (mkSolver (K:=RNum) mm dt false)).
  { cbn [w_bwd worldn]. rewrite (num_nas _ _ N6). cbn [bind nas_text]. exact S2. }
  rewrite R1, R2 in Hrun. cbn [bind] in Hrun.
  assert (R4 : w_mklike W (WRows (ys : list (vec RNum))) (WIdx ts) (WNoise (A2 (K:=RNum) q q Cn)) op false = Ok (mkLikeN (K:=RNum) q ys ts Cn (OpMat (K:=RNum) (mscale (0 : RNum) meye)))).
  { cbn [w_mklike worldn like_n]. rewrite Hop. reflexivity. }
  rewrite R4 in Hrun. cbn [bind w_mkkl0 worldn kl0_n] in Hrun.
  change (w_optimise W) with (optimisen RNum G solve ln PI spline) in Hrun.
  change (w_s0 W (k, p3)) with (WMat (mscale (K:=RNum) (nlit (n:=RNum) 1 5) meye)) in Hrun.
  destruct (Nat.eq_dec m 0) as [E0|E0].
  - split; [lia|]. split; [lia|]. intros _. subst m. destruct ys; [|discriminate]. assert (ts = []) as -> by (destruct Cs as (Ls & _); destruct ts; [reflexivity|discriminate]).
    unfold sim_run. cbn [s_data]. rewrite Hrun. unfold optimisen. cbn [fst snd].
    destruct (grid_shape _ _ _ _ Tg Hn2) as (tl & Etk & _).
    unfold time_step, get_path, get_window. rewrite Mtk, Mx, Etk. cbn [bind]. unfold initn, time_knots. cbn. reflexivity.
  - destruct (optimisen_gen G solve spline k Hsolve p3 d tk x t0 dt n m ts ys (mkLikeN (K:=RNum) q ys ts Cn (OpMat (K:=RNum) (mscale (0 : RNum) meye))) m0 (fun _ => nmul (n:=RNum) mu0 (nZ 1)) tau0
      (mkSolver (K:=RNum) mm dt false) (mkSolver (K:=RNum) mm dt false) Md
      Mtk Mx Tg Hn2 Q5 Tl Cmn Cs Cy ltac:(lia) Q4) as [O1 O2].
    assert (Hpos : forall i, (i < q)%nat -> 0 < Cn i i) by (intros i Hi; rewrite CnV by exact Hi; apply Hv, Hi).
    assert (Hsy := diagonal_symm q Cn CnD). assert (Hpd : posdef q Cn) by (apply diag_posdef; assumption).
    assert (Hts : List.length ts = m) by apply Cs.
    assert (Hlt : forall (mm0 : list (nat -> R)), List.length mm0 = n -> List.Forall (fun i => (i < List.length mm0)%nat) ts).
    { intros mm0 Hmm0. rewrite Forall_forall. intros i Hi. rewrite Hmm0. pose proof (spread_in _ _ _ Cs i Hi). lia. }
    split; [|split; [|lia]].
    + intros _ En. unfold sim_run. cbn [s_data]. rewrite Hrun. rewrite O2 by (left; exact En). reflexivity.
    + intros _ Hltn. unfold sim_run. cbn [s_data]. destruct (O1 Hltn eq_refl) as [O1a _].
      destruct O1a as [(r & E & F)|(Ek & E)].
      * intros mm0 ss Hmm Hss. unfold like_calln, like_gradn. cbn [kn_d kn_y kn_t kn_noise kn_H].
        assert (Hlss : @List.length (nat -> nat -> R) ss = @List.length (nat -> R) mm0) by (transitivity n; [exact Hss|symmetry; exact Hmm]).
        split.
        -- destruct (zero_val d ys ts Cn mm0 ss Hsy Hpd ltac:(lia) Hlss (Hlt mm0 Hmm) (spread_nodup _ _ _ Cs)) as (Ri & _ & E). eauto.
        -- destruct (zero_grad d ys ts Cn mm0 Hsy Hpd ltac:(lia) (Hlt mm0 Hmm)) as (gm & gs & sh & E & L1 & L2 & _).
           exists gm, gs, sh. split; [exact E|]. split; (etransitivity; [eassumption|exact Hmm]).
      * left. eexists. rewrite Hrun, E. split; [reflexivity|]. cbn [s_out]. apply storen_completed. exact F.
      * right. split; [exact Ek|]. rewrite Hrun, E. reflexivity.
Qed.
Lemma simn_other k
  op params name method sys theta obs C v t0 tf dt mu0 tau0 density seed (h : r_state G) (s : Sim W) :
  let d := dim_n k in
  entries_n_op op params name method sys theta obs t0 tf dt mu0 tau0 density seed ->
  acceptable_n k name method C v t0 tf dt tau0 density seed ->
  drift_n k theta -> sys_n d sys C -> spectrum d C (eigvals d C) ->
  (forall n (p : PN G) (tk : list R) (x : list (nat -> R)), q_dim p = d -> b_tk (q_base p) = Some tk -> b_xt (q_base p) = Some x ->
     uniform_grid t0 dt n tk -> (2 <= n)%nat -> List.length x = n ->
     forall m, int_part (INR (n - 1) * dt * rate_val density) (Z.of_nat m) -> (m + 1 <= n)%nat -> apart_obs op density obs k m p) ->
  exists n m, reaches t0 dt tf n /\ int_part (INR (n - 1) * dt * rate_val density) (Z.of_nat m) /\ (m + 1 <= n)%nat /\
    ((exists s', sim_setup W params DNone h s = (Err ValueError, s')) \/
     (must_fit op m /\ exists s1, sim_setup W params DNone h s = (Ok tt, s1) /\
        sim_run W s1 = (Err (if Nat.eqb m 0 then IndexError else ValueError), s1))).
Proof.
  intros d (dr & nz & tw & os & pr & x4 & x5 & x6 & x7 & x8 & F1 & F2 & F3 & F4 & F5 & F6 & F7 &
    F8 & F9 & N4 & F10 & N5 & F11 & N6 & F12 & F13 & N7 & F14 & N8 & F15 & F16 & F17 & F18)
    (Q1 & Q2 & Q3 & (Q4 & Q5 & Q6 & Q7) & Q8 & Q9 & (mn & Q10 & Q11) & Q12) Hdr Hsys Hspec Hcol.
  assert (Hd0 : (0 < d)%nat) by (unfold d; destruct k; cbn; lia).
  destruct (buildn_ok G eigvals k name C sys theta seed h Q9 Hdr Hsys Q1 Q2 Hspec Q12) as (p & B & Bd). fold d in Bd.
  destruct (trajn_ok G k p d t0 tf dt x4 x5 x6 Bd Q5 Q6 N4 N5 N6) as (n & tk & x & p1 & T & Td & Ttk & Tx & Tg & Tr & Tl).
  pose proof (reaches_two _ _ _ _ Q6 Tr) as Hn2.
  destruct (obs_indexes_R t0 dt n tk (rate_dens density) Tg Hn2 Q5 (rated density Q8) Q7) as (m & Cm & Cmn & _).
  exists n, m. split; [exact Tr|]. split; [exact Cm|]. split; [exact Cmn|].
  destruct (Hcol n p1 tk x Td Ttk Tx Tg Hn2 Tl m Cm Cmn) as [(m' & Cc)|(Hfit & ts & ys & yl & nzv & p2 & Cc & Hys & Hyl & Cd & Ctk & Cx)].
  { left. destruct (setup_collect_fails W params h (s_data s) dr nz tw os pr (PLeaf (NStr method)) _ sys obs theta x4 x5 x6 (rate_leafn density) op
      x7 x8 (NStr name) (k, p) (k, p1) m' ValueError
      F3 F5 F8 F2 F18 F15 F12 F1 F13 F14 F6 F7 F4 F9 F10 F11 F16 F17 B T Cc) as (dd & E).
    unfold sim_setup. rewrite E. eauto. }
  right. split; [exact Hfit|]. rewrite Tx in Cx. rewrite Ttk in Ctk.
  destruct (m0n_ok G k p2 x Cx ltac:(lia)) as (m0 & p3 & M & Md & Mtk & Mx).
  assert (Hm : exists mm, method_name mm = mn).
  { cbn [In] in Q10. destruct Q10 as [<-|[<-|[<-|[<-|[]]]]]; [exists Euler|exists Heun|exists RK2|exists RK4]; reflexivity. }
  destruct Hm as (mm & <-).
  destruct (sel_R dt method false) as (_ & _ & _ & Hsel'). destruct (Hsel' mm Q5 Q11) as [S1 S2].
  assert (R5 : w_mu0 W x7 (k, p3) = Ok (WVec (fun _ => nmul (n:=RNum) mu0 (nZ 1)))).
  { cbn [w_mu0 worldn]. apply mu0_num, N7. }
  assert (R6 : w_tau0 W x8 (k, p3) = Ok (WMat (mscale (K:=RNum) tau0 meye))).
  { cbn [w_tau0 worldn]. apply tau0_num, N8. }
  destruct (setup_forward_n W params h (s_data s) dr nz tw os pr (PLeaf (NStr method)) _ sys obs theta x4 x5 x6 (rate_leafn density) op
    x7 x8 (NStr name) (k, p) (k, p1) (k, p2) (k, p3) (WIdx ts) ys (WNoise nzv) (WVec m0) _ _
    F3 F5 F8 F2 F18 F15 F12 F1 F13 F14 F6 F7 F4 F9 F10 F11 F16 F17 B eq_refl T Cc M R5 R6) as (dd & Hset & Hfinds).
  exists (mkSim (s_name s) dd (s_out s)).
  split. { unfold sim_setup. rewrite Hset. reflexivity. }
  pose proof (run_finds W dd _ Hfinds) as Hrun. unfold run_on in Hrun.
  cbn [i_dt i_method i_single i_y i_t i_noise i_op i_mu0 i_tau0 i_model i_m0 i_s0] in Hrun.
  assert (R1 : w_fwd W x6 (PLeaf (NStr method)) false = Ok (mkSolver (K:=RNum) mm dt false)).
  { cbn [w_fwd worldn]. rewrite (num_nas _ _ N6). cbn [bind nas_text]. exact S1. }
  assert (R2 : w_bwd W x6 (PLeaf (NStr method)) false = Ok (mkSolver (K:=RNum) mm dt false)).
  { cbn [w_bwd worldn]. rewrite (num_nas _ _ N6). cbn [bind nas_text]. exact S2. }
  rewrite R1, R2 in Hrun. cbn [bind] in Hrun.
  assert (R4 : exists l, w_mklike W ys (WIdx ts) (WNoise nzv) op false = Ok l).
  { destruct Hys as [(u & -> & _)|(u & -> & _)]; eexists; reflexivity. }
  destruct R4 as (lk & R4). rewrite R4 in Hrun. cbn [bind w_mkkl0 worldn kl0_n] in Hrun.
  change (w_optimise W) with (optimisen RNum G solve ln PI spline) in Hrun.
  change (w_s0 W (k, p3)) with (WMat (mscale (K:=RNum) (nlit (n:=RNum) 1 5) meye)) in Hrun.
  unfold sim_run. cbn [s_data]. rewrite Hrun.
  destruct Hys as [(u & -> & Hu)|(u & -> & Hu)]; rewrite <- Hyl, <- Hu; destruct u; reflexivity.
Qed.
Lemma map2_m {A B C} (f : A -> B -> C) l r m : List.length l = m -> List.length r = m -> List.length (map2 f l r) = m.
Proof. intros H1 H2. rewrite map2_length, H1, H2. apply Nat.min_id. Qed.
Lemma map_m {A B} (f : A -> B) l m : List.length l = m -> List.length (map f l) = m.
Proof. rewrite map_length. auto. Qed.
Lemma obs_noise_err d rn e : obs_noise (K:=RNum) d rn = Err e -> e = ValueError.
Proof. destruct rn; cbn [obs_noise]; try discriminate; repeat match goal with |- context [if ?b then _ else _] => destruct b end; congruence. Qed.
Lemma wrap_all_some d l : Forall (fun z => exists c, counted d z c) l -> exists cols, wrap_all d l = Ok cols.
Proof.
  induction 1 as [|z l (c & Hz) H (cols & IH)]; [exists []; reflexivity|]. cbn [wrap_all]. rewrite (wrap_ok _ _ _ Hz), IH. eexists. reflexivity.
Qed.
Lemma take_spread n m (x : list (nat -> R)) : (m + 1 <= n)%nat -> List.length x = n ->
  exists rows, take (x : list (vec RNum)) (spread_ix n m) = Ok rows /\ List.length rows = m /\ List.length (spread_ix n m) = m.
Proof.
  intros Hmn Hl. pose proof (spread_ix_spec n m Hmn) as Hs. rewrite (P_Proc.take_ok (x : list (vec RNum)) (fun _ => 0) (spread_ix n m)).
  - eexists. split; [reflexivity|]. rewrite map_length. split; apply Hs.
  - intros i Hi. apply (spread_in n m _ Hs) in Hi. apply Nat.lt_le_trans with n; [lia|]. apply Nat.eq_le_incl. symmetry. exact Hl.
Qed.
Section Shapes.
Variables (k : kindn) (d : nat) (obs : parn) (density : rate) (t0 dt : R) (n m : nat) (p : PN G) (tk : list R) (x : list (nat -> R)).
Hypothesis Hp : q_dim p = d.
Hypothesis Htk : b_tk (q_base p) = Some tk.
Hypothesis Hx : b_xt (q_base p) = Some x.
Hypothesis Hg : uniform_grid t0 dt n tk.
Hypothesis Hn : (2 <= n)%nat.
Hypothesis Hd : 0 < dt.
Hypothesis Hl : List.length x = n.
Hypothesis Hz : (0 <= rate_val density)%R.
Hypothesis Hc : fits_step (rate_val density) dt.
Hypothesis Hm : int_part (INR (n - 1) * dt * rate_val density) (Z.of_nat m).
Hypothesis Hmn : (m + 1 <= n)%nat.
Lemma indexes_m : obs_indexes (rate_dens density) (tk : list RNum) = Ok (m, spread_ix n m).
Proof.
  destruct (obs_indexes_R t0 dt n tk (rate_dens density) Hg Hn Hd (rated density Hz) Hc) as (m' & Hm' & _ & E). rewrite E.
  assert (m' = m) as ->; [|reflexivity]. destruct Hm as [A1 A2], Hm' as [B1 B2]. apply Nat2Z.inj.
  assert (C1 : IZR (Z.of_nat m') < IZR (Z.of_nat m + 1)) by (rewrite plus_IZR; lra).
  assert (C2 : IZR (Z.of_nat m) < IZR (Z.of_nat m' + 1)) by (rewrite plus_IZR; lra).
  apply lt_IZR in C1, C2. lia.
Qed.
Lemma one_apart z c : z <> 0%Z -> counted d z c -> apart_obs (PLeaf (NInt z)) density obs k m p.
Proof.
  intros Hz0 Hcz. destruct (take_spread n m x Hmn Hl) as (rows & Tk & Lr & Ls).
  unfold apart_obs, collect_n. cbn [bind fst snd]. cbv zeta. rewrite nas_rate, Hp.
  assert (Es : op_sel RNum d (PLeaf (NInt z)) = Ok (SelOne z)) by (destruct z; [contradiction|reflexivity|reflexivity]).
  rewrite Es. cbn [bind]. unfold collect_one. rewrite Htk, Hx, indexes_m. cbn [bind]. rewrite Tk. cbn [bind]. rewrite (wrap_ok _ _ _ Hcz). cbn [bind].
  destruct (normals G m (b_rng (q_base p))) as [u g] eqn:En. pose proof (normals_len G m (b_rng (q_base p))) as Lu. rewrite En in Lu. cbn [fst] in Lu.
  cbn [fst snd].
  destruct (noise1 m (snd (nas_arr RNum obs))) as [sq|e] eqn:Enz; cbn [bind].
  - right. split; [exact I|]. unfold same_len.
    match goal with |- context [Nat.eqb ?u ?w] => replace (Nat.eqb u w) with true
      by (symmetry; apply Nat.eqb_eq; transitivity m; [apply map_m; exact Lr|symmetry; exact Lu]) end.
    cbn [bind].
    do 5 eexists. split; [reflexivity|]. split; [left; eexists; split; reflexivity|]. split; [|auto].
    apply map2_m; [apply map_m; exact Lr|]. apply map2_m; [apply map_m, seq_length|exact Lu].
  - left. assert (e = ValueError) as ->; [|eauto].
    unfold noise1 in Enz. destruct (snd (nas_arr RNum obs)); repeat match type of Enz with context [if ?b then _ else _] => destruct b end; congruence.
Qed.
Lemma grid_apart op r c ix : op_sel RNum d op = Ok (SelGrid r c ix) -> must_fit op m = (m = r \/ m = 1%nat) \/ (r = 1%nat /\ must_fit op m = (m = 1%nat)) ->
  (forall i j, (i < r)%nat -> (j < c)%nat -> exists q, counted d (ix i j) q) -> apart_obs op density obs k m p.
Proof.
  intros Es Hfit Hin. destruct (take_spread n m x Hmn Hl) as (rows & Tk & Lr & Ls).
  destruct (wrap_all_some d (flat_map (fun i => map (ix i) (seq 0 c)) (seq 0 r))) as (cols & Ew).
  { apply Forall_forall. intros z Hz'. apply in_flat_map in Hz'. destruct Hz' as (i & Hi & Hz'). apply in_map_iff in Hz'. destruct Hz' as (j & <- & Hj).
    apply in_seq in Hi, Hj. apply Hin; lia. }
  unfold apart_obs, collect_n. cbn [bind fst snd]. cbv zeta. rewrite nas_rate, Hp, Es. cbn [bind]. unfold collect_grid.
  rewrite Htk, Hx, indexes_m. cbn [bind]. rewrite Tk. cbn [bind]. rewrite Ew. cbn [bind].
  destruct (Nat.eqb c 1).
  - destruct (normals G m (b_rng (q_base p))) as [u g] eqn:En. pose proof (normals_len G m (b_rng (q_base p))) as Lu. rewrite En in Lu. cbn [fst] in Lu.
    unfold noise_col. destruct (Nat.eqb_spec m 1) as [E1|E1]; cbn [bind fst snd]; [|left; eexists; reflexivity].
    assert (HF : must_fit op m) by (destruct Hfit as [->|[_ ->]]; tauto).
    destruct (snd (nas_arr RNum obs)) as [r0|[|[|?]] v0|[|[|?]] [|[|?]] v0|]; cbn [bind fst snd];
      try (left; eexists; reflexivity); right; (split; [exact HF|]);
      do 5 eexists; (split; [reflexivity|]); (split; [right; eexists; split; reflexivity|]); (split; [|auto]);
      (apply map2_m; [apply map_m; exact Lr|exact Lu]).
  - destruct (obs_noise c (snd (nas_arr RNum obs))) as [Cm|e] eqn:Eo.
    + destruct (normals G (c * m) (b_rng (q_base p))) as [u g]. cbn [fst snd].
      destruct (Nat.eqb m r || Nat.eqb m 1)%bool eqn:Eb; cbn [bind]; [|left; eexists; reflexivity]. right. split.
      { apply orb_true_iff in Eb. destruct Hfit as [->|[-> ->]]; destruct Eb as [Eb|Eb]; apply Nat.eqb_eq in Eb; auto. }
      do 5 eexists. split; [reflexivity|]. split; [right; eexists; split; reflexivity|]. split; [|auto]. apply map_m, map_m; exact Lr.
    + left. apply obs_noise_err in Eo. subst e. eexists. reflexivity.
Qed.
Lemma rows_apart op r c ix : int_rows op r c ix -> (forall i j, (i < r)%nat -> (j < c)%nat -> exists q, counted d (ix i j) q) ->
  apart_obs op density obs k m p.
Proof.
  intros (Hr & Hc' & M & -> & HM) Hin. destruct r as [|r]; [contradiction|]. destruct c as [|c]; [contradiction|].
  eapply grid_apart; [reflexivity|left; reflexivity|]. intros i j Hi Hj. unfold to_int. rewrite HM by assumption. rewrite floorR_Z. apply Hin; assumption.
Qed.
Lemma true_apart : apart_obs (PLeaf (NBool true)) density obs k m p.
Proof.
  eapply grid_apart; [reflexivity|right; split; reflexivity|]. intros i j Hi Hj. exists j. split; [exact Hj|]. left. reflexivity.
Qed.
End Shapes.
End ND.
