(** * Observation operators: setup and run *)
From Coq Require Import ZArith List Bool Arith Reals Lra Lia Sorted String.
From Verif Require Import Num Arr ArrFacts M_LinAlg M_Ode M_Sde1 M_L63 M_L96 M_L96E M_Prior M_Like M_VarGP M_Scg M_Run M_Proc M_Sim M_Sim1 M_SimN
  Spec_Utils Spec_Ode Spec_Prior Spec_Like Spec_Proc Spec_Sim Spec_Sim1 Spec_SimN Spec_Oper P_RMat P_Spectral P_VarGP P_OdeSel P_Init P_Proc P_Traj P_Noise P_Sim P_Sim2 P_Main P_SimN P_SimN2 P_Oper.
Import ListNotations.
Local Open Scope string_scope.

Section Forward.
Context (W : World).
Ltac go :=
  match goal with
  | |- context [sbind W (put W ?k ?v) ?f ?d] => rewrite (sbind_go W (put W k v) f d tt (dset k v d) eq_refl)
  | |- context [sbind W (lift W ?r) ?f ?d] => erewrite (sbind_go W (lift W r) f d) by (apply lift_go; first [eassumption | apply item_field; eassumption])
  | |- context [sbind W (get2 W ?k ?j) ?f ?d] => erewrite (sbind_go W (get2 W k j) f d) by (eapply get2_go; [look; reflexivity|apply item_field; eassumption])
  | |- context [sbind W (get_par W ?k) ?f ?d] => erewrite (sbind_go W (get_par W k) f d) by (apply get_par_go; look; reflexivity)
  | |- context [sbind W (get_flag W ?k) ?f ?d] => erewrite (sbind_go W (get_flag W k) f d) by (apply get_flag_go; look; reflexivity)
  | |- context [sbind W (get_model W ?k) ?f ?d] => erewrite (sbind_go W (get_model W k) f d) by (apply get_model_go; look; reflexivity)
  | |- context [sbind W (on_model W ?g) ?f ?d] => erewrite (sbind_go W (on_model W g) f d) by (eapply on_model_go; [look; reflexivity|eassumption])
  end; cbv beta iota.
(** collect_obs that fails *)
Lemma setup_collect_fails params h d0 dr nz tw os pr mtd seed sys obs theta t0 tf dt density op mu tau name m m1 m2 e :
  field params "Drift" dr -> field params "Noise" nz -> field params "Time-window" tw -> field params "Ode-method" mtd ->
  field params "Random-Seed" seed -> field params "Observations" os -> field params "Prior" pr ->
  field params "Model" (PLeaf name) ->
  field pr "mu0" mu -> field pr "tau0" tau -> field nz "sys" sys -> field nz "obs" obs -> field dr "theta" theta ->
  field tw "t0" t0 -> field tw "tf" tf -> field tw "dt" dt -> field os "density" density -> field os "operator" op ->
  w_build W (upper (w_str W (PLeaf name))) sys theta seed h = Some (Ok m) ->
  w_traj W t0 tf dt m = (Ok tt, m1) -> w_collect W density obs op m1 = (Err e, m2) ->
  exists d, setup W params DNone h d0 = (Err e, d).
Proof.
  intros. assert (Hb : stochastic_model W (PLeaf name) sys theta seed h = Ok m).
  { unfold stochastic_model. rewrite H17. reflexivity. }
  unfold setup, setup_params. rewrite !sbind_assoc.
  repeat (first [go | rewrite sbind_assoc]; cbv beta).
  unfold setup_model. rewrite !sbind_assoc.
  repeat (first [go | rewrite sbind_assoc]; cbv beta).
  unfold setup_obs. repeat (first [go | rewrite sbind_assoc]; cbv beta).
  match goal with |- context [sbind W (on_model W ?g) ?f ?d] =>
    assert (E : on_model W g d = (Err e, dset "model" (SModel m2) d)) end.
  { unfold on_model, sbind. erewrite get_model_go by (look; reflexivity). cbv beta iota. rewrite H19. reflexivity. }
  rewrite (sbind_stop W _ _ _ _ _ E). eauto.
Qed.
End Forward.

Local Open Scope R_scope.
(** ** one dimension *)
Section OneD.
Context (G : Rng RNum) (spline : list R -> list R -> R -> R) (show : pv (leaf RNum) -> string).
Notation W := (world1 RNum G ln PI spline show).
Lemma counts_truthy op : counts_as_true op -> truthy RNum op = true.
Proof.
  intros [(v & -> & Hv)|[(z & -> & Hv)|[(s & -> & Hs)|[(d & -> & Hd)|[(l & -> & Hl)|[(l & -> & Hl)|(l & -> & Hl)]]]]]]; cbn [truthy].
  - rnum. destruct (Reqb_spec v 0); [contradiction|reflexivity].
  - destruct (Z.eqb_spec z 0); [contradiction|reflexivity].
  - destruct (String.eqb_spec s ""); [contradiction|reflexivity].
  - destruct d; [contradiction|reflexivity].
  - destruct l; [contradiction|reflexivity].
  - destruct l; [contradiction|reflexivity].
  - destruct l; [contradiction|reflexivity].
Qed.
Lemma counts_not_true {A} op (a b : A) : counts_as_true op -> match op with PLeaf (LBool true) => a | _ => b end = b.
Proof. intros [(v & -> & Hv)|[(z & -> & Hv)|[(s & -> & Hs)|[(d & -> & Hd)|[(l & -> & Hl)|[(l & -> & Hl)|(l & -> & Hl)]]]]]]; reflexivity. Qed.
Lemma collect1_true k p (tk x : list R) t0 dt n xr r density op : b_tk (p_base p) = Some tk -> b_xt (p_base p) = Some x ->
  uniform_grid t0 dt n tk -> (2 <= n)%nat -> 0 < dt -> List.length x = n -> (0 <= rate_val density)%R -> fits_step (rate_val density) dt -> number xr r ->
  counts_as_true op -> exists m', collect_1 RNum G (rate_leaf1 density) xr op (k, p) = (Err IndexError, m').
Proof.
  intros Htk Hx Hg Hn Hd Hl Hz Hc Hr Hop. unfold collect_1. rewrite (number_num _ _ Hr). rewrite (counts_not_true _ _ _ Hop). unfold op_mask1. rewrite (counts_truthy _ Hop).
  cbn [bind fst snd]. rewrite as_rate. unfold collect1. rewrite Htk, Hx.
  destruct (obs_indexes_R t0 dt n tk (rate_dens density) Hg Hn Hd (rated density Hz) Hc) as (m & Hm & Hmn & E). rewrite E. cbn [bind].
  pose proof (spread_ix_spec n m Hmn) as Hs.
  rewrite (take_ok (x : list RNum) 0 (spread_ix n m)).
  2:{ intros i Hi. apply (spread_in n m _ Hs) in Hi. apply Nat.lt_le_trans with n; [lia|]. apply Nat.eq_le_incl. symmetry. exact Hl. }
  cbn [bind mask_given]. eexists. reflexivity.
Qed.
Lemma sim1_operator op params name method sigma theta r t0 tf dt mu0 tau0 density seed (h : r_state G) (s : Sim W) :
  entries_op op params name method sigma theta r t0 tf dt mu0 tau0 density seed ->
  acceptable name method sigma theta t0 tf dt density seed -> counts_as_true op ->
  exists s', sim_setup W params DNone h s = (Err IndexError, s').
Proof.
  intros (dr & nz & tw & os & pr & x1 & x2 & x3 & x4 & x5 & x6 & x7 & x8 & F1 & F2 & F3 & F4 & N1 & F5 & F6 & N2 & F7 & N3 &
    F8 & F9 & N4 & F10 & N5 & F11 & N6 & F12 & F13 & N7 & F14 & N8 & F15 & F16 & F17 & F18)
    ((A1 & A2 & A3 & A4) & A5 & A6 & (mn & A7 & A8) & A9) Hop.
  destruct (build1_ok G name sigma theta seed x2 x1 h A1 A6 A9 N2 N1) as (k & p & B & Bs).
  destruct (traj1_ok G k p t0 tf dt x4 x5 x6 A2 A3 N4 N5 N6) as (n & tk & x & p1 & T & Ts & Ttk & Tx & Tg & Tr & Tl).
  pose proof (reaches_two _ _ _ _ A3 Tr) as Hn2.
  destruct (collect1_true k p1 tk x t0 dt n x3 r density op Ttk Tx Tg Hn2 A2 Tl A5 A4 N3 Hop) as (m' & C).
  destruct (setup_collect_fails W params h (s_data s) dr nz tw os pr (PLeaf (LStr method)) _ x2 x3 x1 x4 x5 x6 (rate_leaf1 density) op
    x7 x8 (LStr name) (k, p) (k, p1) m' IndexError
    F3 F5 F8 F2 F18 F15 F12 F1 F13 F14 F6 F7 F4 F9 F10 F11 F16 F17 B T C) as (d & E).
  unfold sim_setup. rewrite E. eauto.
Qed.
End OneD.

(** ** the Lorenz models *)
Section ND.
Context (G : Rng RNum) (eigvals : nat -> mat RNum -> list (RNum * RNum)) (solve : nat -> mat RNum -> result (vec RNum -> vec RNum))
  (spline : list R -> list R -> R -> R) (show : parn -> string).
Notation W := (worldn RNum G eigvals solve ln PI spline show).
Notation seed_of seed := (match seed with None => PLeaf NNull | Some z => PLeaf (NInt z) end).
(** the operator is refused as an index *)
Lemma floorR_Z z : nfloor (n:=RNum) (IZR z) = Some z.
Proof.
  cbn [nfloor RNum]. f_equal. destruct (Rfloor_spec (IZR z)) as [H1 H2].
  apply le_IZR in H1. rewrite <- plus_IZR in H2. apply lt_IZR in H2. lia.
Qed.
Lemma ints_ix (l : list Z) (v : nat -> R) : (forall i, (i < List.length l)%nat -> v i = IZR (nth i l 0%Z)) ->
  map (fun i => to_int RNum (v i)) (seq 0 (List.length l)) = l.
Proof.
  intros H. apply nth_ext with (d := to_int RNum (v 0%nat)) (d' := 0%Z); rewrite map_length, seq_length; [reflexivity|]. intros i Hi.
  rewrite (map_nth (fun i => to_int RNum (v i)) (seq 0 (List.length l)) 0%nat i), seq_nth by exact Hi. cbn [plus].
  unfold to_int. rewrite H by exact Hi. rewrite floorR_Z. reflexivity.
Qed.
Lemma wrap_ok d z c : counted d z c -> wrap d z = Ok c.
Proof.
  intros [Hc Hz]. unfold wrap.
  assert (E : (Z.leb (- Z.of_nat d) z && Z.ltb z (Z.of_nat d))%bool = true).
  { apply andb_true_iff. split; [apply Z.leb_le|apply Z.ltb_lt]; destruct Hz; lia. }
  rewrite E. f_equal. destruct (Z.ltb_spec z 0); destruct Hz; lia.
Qed.
Lemma wrap_bad d z : outside d z -> wrap d z = Err IndexError.
Proof.
  intros H. unfold wrap. destruct (Z.leb_spec (- Z.of_nat d) z), (Z.ltb_spec z (Z.of_nat d)); cbn [andb]; try reflexivity.
  destruct H; lia.
Qed.
Lemma wrap_all_ok d l cols : Forall2 (counted d) l cols -> wrap_all d l = Ok cols.
Proof.
  induction 1 as [|z c l cols Hz H IH]; [reflexivity|]. cbn [wrap_all]. rewrite (wrap_ok _ _ _ Hz), IH. reflexivity.
Qed.
Lemma wrap_or d z : outside d z \/ exists c, counted d z c.
Proof.
  unfold outside, counted. destruct (Z_lt_le_dec z (- Z.of_nat d)); [left; lia|]. destruct (Z_le_dec (Z.of_nat d) z); [left; lia|].
  right. destruct (Z_lt_le_dec z 0); [exists (Z.to_nat (z + Z.of_nat d))|exists (Z.to_nat z)]; lia.
Qed.
Lemma wrap_all_bad d l : Exists (outside d) l -> wrap_all d l = Err IndexError.
Proof.
  induction 1 as [z l Hz|z l H IH]; cbn [wrap_all].
  - rewrite (wrap_bad _ _ Hz). reflexivity.
  - destruct (wrap_or d z) as [Hz|(c & Hz)]; [rewrite (wrap_bad _ _ Hz)|rewrite (wrap_ok _ _ _ Hz); cbn [bind]; rewrite IH]; reflexivity.
Qed.
Lemma collectn_refused k (p : PN G) d (tk : list R) (x : list (nat -> R)) t0 dt n xr density op : q_dim p = d -> (0 < d)%nat ->
  b_tk (q_base p) = Some tk -> b_xt (q_base p) = Some x ->
  uniform_grid t0 dt n tk -> (2 <= n)%nat -> 0 < dt -> List.length x = n -> (0 <= rate_val density)%R -> fits_step (rate_val density) dt ->
  refused d op -> exists m', collect_n RNum G (rate_leafn density) xr op (k, p) = (Err IndexError, m').
Proof.
  intros Hp Hd0 Htk Hx Hg Hn Hd Hl Hz Hc Hop.
  pose proof (collect_cols_bad G (q_base p) tk x t0 dt n (rate_dens density) (snd (nas_arr RNum xr)) IndexError Htk Hx Hg Hn Hd Hl (rated density Hz) Hc) as Bad.
  destruct (obs_indexes_R t0 dt n tk (rate_dens density) Hg Hn Hd (rated density Hz) Hc) as (m & Hm & Hmn & E).
  pose proof (spread_ix_spec n m Hmn) as Hs.
  assert (Tk : take (x : list (vec RNum)) (spread_ix n m) = Ok (map (fun i => nth i (x : list (vec RNum)) (fun _ => 0)) (spread_ix n m))).
  { rewrite (take_ok (x : list (vec RNum)) (fun _ => 0) (spread_ix n m)); [reflexivity|].
    intros i Hi. apply (spread_in n m _ Hs) in Hi. apply Nat.lt_le_trans with n; [lia|]. apply Nat.eq_le_incl. symmetry. exact Hl. }
  unfold collect_n. cbn [bind fst snd]. cbv zeta. rewrite nas_rate, Hp.
  destruct Hop as [Hno|[(l & -> & H1 & H2)|[(l & (v & -> & Hv) & H1 & H2)|[(z & -> & H2)|(r & c & ix & (Hr & Hc' & M & -> & HM) & i & j & Hi & Hj & H2)]]]].
  - assert (Es : op_sel RNum d op = Ok SelBad).
    { destruct Hno as [(r & c & M & -> & Hr & Hc')|[(j & v & -> & Hj)|[(v & -> & Hv)|[(s & -> & Hs')|(dd & -> & Hdd)]]]].
      - destruct r, c; try contradiction. reflexivity.
      - destruct j; [contradiction|]. reflexivity.
      - cbn [op_sel ntruthy]. rnum. destruct (Reqb_spec v 0); [contradiction|reflexivity].
      - cbn [op_sel ntruthy]. destruct (String.eqb_spec s ""); [contradiction|reflexivity].
      - destruct dd; [contradiction|reflexivity]. }
    rewrite Es. cbn [bind]. rewrite Bad. eexists. reflexivity.
  - destruct l as [|a l]; [contradiction|]. cbn [op_sel bind]. unfold collectN, columns. cbn [mask_given].
    destruct (Nat.eqb_spec (List.length (a :: l)) d) as [|_]; [contradiction|]. rewrite Bad. eexists. reflexivity.
  - destruct l as [|a l]; [contradiction|]. cbn [op_sel List.length bind].
    change (S (List.length l)) with (List.length (a :: l)). rewrite (ints_ix _ _ Hv). unfold collect_ints. rewrite (wrap_all_bad _ _ H2), Bad. eexists. reflexivity.
  - destruct z as [|z|z]; [destruct H2; lia| |]; cbn [op_sel bind]; unfold collect_one; rewrite Htk, Hx, E; cbn [bind]; rewrite Tk; cbn [bind];
      rewrite (wrap_bad _ _ H2); eexists; reflexivity.
  - destruct r as [|r]; [contradiction|]. destruct c as [|c]; [contradiction|]. cbn [op_sel bind]. unfold collect_grid. rewrite Htk, Hx, E. cbn [bind]. rewrite Tk. cbn [bind].
    rewrite wrap_all_bad.
    + eexists. reflexivity.
    + apply Exists_exists. exists (ix i j). split; [|exact H2]. apply in_flat_map. exists i. split; [apply in_seq; lia|].
      apply in_map_iff. exists j. split; [|apply in_seq; lia]. unfold to_int. rewrite HM by assumption. rewrite floorR_Z. reflexivity.
Qed.
Lemma simn_refused k op params name method sys theta obs C v t0 tf dt mu0 tau0 density seed (h : r_state G) (s : Sim W) :
  entries_n_op op params name method sys theta obs t0 tf dt mu0 tau0 density seed ->
  acceptable_n k name method C v t0 tf dt tau0 density seed ->
  drift_n k theta -> sys_n (dim_n k) sys C -> spectrum (dim_n k) C (eigvals (dim_n k) C) ->
  refused (dim_n k) op ->
  exists s', sim_setup W params DNone h s = (Err IndexError, s').
Proof.
  intros (dr & nz & tw & os & pr & x4 & x5 & x6 & x7 & x8 & F1 & F2 & F3 & F4 & F5 & F6 & F7 &
    F8 & F9 & N4 & F10 & N5 & F11 & N6 & F12 & F13 & N7 & F14 & N8 & F15 & F16 & F17 & F18)
    (Q1 & Q2 & Q3 & (Q4 & Q5 & Q6 & Q7) & Q8 & Q9 & (mn & Q10 & Q11) & Q12) Hdr Hsys Hspec Hop.
  destruct (buildn_ok G eigvals k name C sys theta seed h Q9 Hdr Hsys Q1 Q2 Hspec Q12) as (p & B & Bd).
  destruct (trajn_ok G k p (dim_n k) t0 tf dt x4 x5 x6 Bd Q5 Q6 N4 N5 N6) as (n & tk & x & p1 & T & Td & Ttk & Tx & Tg & Tr & Tl).
  pose proof (reaches_two _ _ _ _ Q6 Tr) as Hn2.
  destruct (collectn_refused k p1 (dim_n k) tk x t0 dt n obs density op Td ltac:(destruct k; cbn; lia) Ttk Tx Tg Hn2 Q5 Tl Q8 Q7 Hop) as (m' & Cc).
  destruct (setup_collect_fails W params h (s_data s) dr nz tw os pr (PLeaf (NStr method)) _ sys obs theta x4 x5 x6 (rate_leafn density) op
    x7 x8 (NStr name) (k, p) (k, p1) m' IndexError
    F3 F5 F8 F2 F18 F15 F12 F1 F13 F14 F6 F7 F4 F9 F10 F11 F16 F17 B T Cc) as (d & E).
  unfold sim_setup. rewrite E. eauto.
Qed.

(** a mask of the right length *)
(** an operator that selects columns *)
Definition picks (d : nat) (op : parn) (cols : list nat) : Prop :=
  forall density xr k (p : PN G), q_dim p = d ->
  collect_n RNum G (rate_leafn density) xr op (k, p) =
  (let X := collect_cols G (rate_dens density) (snd (nas_arr RNum xr)) (Ok cols) (q_base p) in
   (let* (t, y, nz) := fst X in Ok (WIdx t, WRows y, WNoise nz), (k, with_baseN G (snd X) p))).
Lemma mask_picks d l cols : (0 < d)%nat -> List.length l = d -> selected l cols -> picks d (PLeaf (NMask l)) cols.
Proof.
  intros H0 Hlen Hsel density xr k p Hp. unfold collect_n. cbn [bind fst snd]. cbv zeta. rewrite nas_rate, Hp.
  destruct l as [|a l]; [cbn in Hlen; lia|]. cbn [op_sel bind]. unfold collectN.
  rewrite (columns_R d (Some (a :: l)) cols Hlen Hsel). reflexivity.
Qed.
Lemma ints_picks d op l cols : int_list op l -> l <> [] -> Forall2 (counted d) l cols -> picks d op cols.
Proof.
  intros (v & -> & Hv) H1 H2 density xr k p Hp. unfold collect_n. cbn [bind fst snd]. cbv zeta. rewrite nas_rate, Hp.
  destruct l as [|a l]; [contradiction|]. cbn [op_sel List.length bind]. change (S (List.length l)) with (List.length (a :: l)).
  rewrite (ints_ix _ _ Hv). unfold collect_ints. rewrite (wrap_all_ok _ _ _ H2). reflexivity.
Qed.
Lemma zero_picks d op : zero_op op -> picks d op (seq 0 d).
Proof.
  intros H density xr k p Hp. unfold collect_n. cbn [bind fst snd]. cbv zeta. rewrite nas_rate, Hp.
  assert (E : op_sel RNum d op = Ok SelAll).
  { destruct H as [->|[->|[(z & -> & Hz)|([] & -> & Hz)]]].
    - reflexivity.
    - cbn [op_sel ntruthy]. rnum. destruct (Reqb_spec 0 0); [reflexivity|contradiction].
    - apply (eq_IZR 0) in Hz. subst z. reflexivity.
    - lra.
    - reflexivity. }
  rewrite E. reflexivity.
Qed.
Lemma empty_picks d op : empty_list op -> picks d op (seq 0 d).
Proof.
  intros H density xr k p Hp. unfold collect_n. cbn [bind fst snd]. cbv zeta. rewrite nas_rate, Hp.
  assert (E : op_sel RNum d op = Ok SelAll) by (destruct H as [->|(t & v & ->)]; [|destruct t]; reflexivity).
  rewrite E. reflexivity.
Qed.
Lemma collectn_cols k (p : PN G) d (tk : list R) (x : list (nat -> R)) t0 dt n xr v density op cols : q_dim p = d ->
  b_tk (q_base p) = Some tk -> b_xt (q_base p) = Some x ->
  uniform_grid t0 dt n tk -> (2 <= n)%nat -> 0 < dt -> List.length x = n -> (0 <= rate_val density)%R -> fits_step (rate_val density) dt ->
  picks d op cols -> obs_n (List.length cols) xr v ->
  exists m, int_part (INR (n - 1) * dt * rate_val density) (Z.of_nat m) /\ (m + 1 <= n)%nat /\
  let r := collect_n RNum G (rate_leafn density) xr op (k, p) in
  (List.length cols = 1%nat -> m <> 1%nat -> exists m', r = (Err ValueError, m')) /\
  (List.length cols <> 1%nat -> exists ts (ys : list (nat -> R)) (C : nat -> nat -> R) p' z g g',
    r = (Ok (WIdx ts, WRows (ys : list (vec RNum)), WNoise (A2 (K:=RNum) (List.length cols) (List.length cols) C)), (k, p')) /\
    diagonal (List.length cols) C /\ (forall i, (i < List.length cols)%nat -> C i i = v i) /\
    spread n m ts /\ List.length ys = m /\ normals G (List.length cols * m) g = (z, g') /\
    (forall i j, (i < m)%nat -> (j < List.length cols)%nat ->
       nth i ys (fun _ => 0) j = nth (nth i ts 0%nat) x (fun _ => 0) (nth j cols 0%nat) + sqrt (v j) * nth (j * m + i) z 0) /\
    q_dim p' = d /\ b_tk (q_base p') = Some tk /\ b_xt (q_base p') = Some x).
Proof.
  intros Hp Htk Hx Hg Hn Hd Hl Hz Hc Hpick Hr.
  destruct (obs_indexes_R t0 dt n tk (rate_dens density) Hg Hn Hd (rated density Hz) Hc) as (m & Hm & Hle & Eidx).
  exists m. split; [exact Hm|]. split; [exact Hle|]. intros r. unfold r. rewrite (Hpick density xr k p Hp). cbv zeta. split.
  - intros H1 Hm1.
    pose proof (collect_cols_single G (q_base p) tk x t0 dt n (rate_dens density) (snd (nas_arr RNum xr)) cols m Htk Hx Hg Hn Hd Hl (rated density Hz) Hc H1 Hm Hm1) as Q.
    rewrite Q. cbn [bind]. eauto.
  - intros H1. pose proof (collect_cols_R G (q_base p) tk x t0 dt n (rate_dens density) (snd (nas_arr RNum xr)) cols v Htk Hx Hg Hn Hd Hl (rated density Hz) Hc H1 (obs_diag _ _ _ Hr)) as Q.
    destruct Q as (m' & ts & ys & C & z & g & Hm' & Hz' & E & HC & HCv & Hs & Hy & Hv).
    assert (Em : m' = m).
    { destruct Hm as [Ha Hb], Hm' as [Hc' Hd']. apply Nat2Z.inj.
      assert (C1 : IZR (Z.of_nat m') < IZR (Z.of_nat m + 1)) by (rewrite plus_IZR; lra).
      assert (C2 : IZR (Z.of_nat m) < IZR (Z.of_nat m' + 1)) by (rewrite plus_IZR; lra).
      apply lt_IZR in C1, C2. lia. }
    rewrite Em in *. rewrite E. cbn [bind fst snd].
    exists ts, ys, C, (with_baseN G (mkBase (Some x) (Some tk) g) p), z, (b_rng (q_base p)), g.
    repeat (split; [first [reflexivity|assumption]|]). reflexivity.
Qed.
Lemma selected_full l : selected l (seq 0 (List.length l)) <-> forall i, (i < List.length l)%nat -> nth i l false = true.
Proof.
  split.
  - intros [_ H] i Hi. apply H, in_seq. lia.
  - intros H. split.
    + intros i j Hij. rewrite seq_length in Hij. rewrite !seq_nth by lia. lia.
    + intros c. rewrite in_seq. split; [intros Hc; apply H; lia|]. intros Hc.
      destruct (le_lt_dec (List.length l) c) as [Hle|]; [|lia]. rewrite nth_overflow in Hc by exact Hle. discriminate.
Qed.
Lemma selected_le l cols : selected l cols -> (List.length cols <= List.length l)%nat.
Proof.
  intros [H1 H2]. assert (Hi : forall i, (i < List.length cols)%nat -> (i <= nth i cols 0)%nat).
  { induction i as [|i IH]; intros Hi; [lia|]. specialize (IH ltac:(lia)). specialize (H1 i (S i) ltac:(lia)). lia. }
  destruct cols as [|c cols]; [cbn; lia|]. set (j := List.length cols).
  assert (Hj : (nth j (c :: cols) 0 < List.length l)%nat).
  { destruct (le_lt_dec (List.length l) (nth j (c :: cols) 0%nat)) as [Hle|]; [|assumption].
    assert (Hin : In (nth j (c :: cols) 0%nat) (c :: cols)) by (apply nth_In; unfold j; cbn; lia).
    apply H2 in Hin. rewrite nth_overflow in Hin by exact Hle. discriminate. }
  specialize (Hi j ltac:(unfold j; cbn; lia)). cbn [List.length]. fold j. lia.
Qed.
Lemma simn_cols k (Hsolve : k = L96 -> forall d S e, solve d S = Err e -> e = LinAlgError)
  op cols w hh params name method sys theta obs C v t0 tf dt mu0 tau0 density seed (h : r_state G) (s : Sim W) :
  let d := dim_n k in let q := List.length cols in
  entries_n_op op params name method sys theta obs t0 tf dt mu0 tau0 density seed ->
  acceptable_n k name method C v t0 tf dt tau0 density seed ->
  drift_n k theta -> sys_n d sys C -> spectrum d C (eigvals d C) ->
  picks d op cols -> (forall ys, op_like RNum ys op = Ok (OpVec (K:=RNum) w hh)) -> (q <= d)%nat \/ (forall i, 0 < v i) -> obs_n q obs v ->
  exists n m, reaches t0 dt tf n /\ int_part (INR (n - 1) * dt * rate_val density) (Z.of_nat m) /\ (m + 1 <= n)%nat /\
    (q = 1%nat -> m <> 1%nat -> exists s', sim_setup W params DNone h s = (Err ValueError, s')) /\
    (q <> 1%nat -> exists s1 ts (ys : list (nat -> R)) (p : PN G) (x : list (nat -> R)) z g g',
      sim_setup W params DNone h s = (Ok tt, s1) /\
      has (s_data s1) "obs_t" (SVal (W:=W) (WIdx ts)) /\ has (s_data s1) "obs_y" (SVal (W:=W) (WRows (ys : list (vec RNum)))) /\
      has (s_data s1) "model" (SModel (W:=W) (k, p)) /\ b_xt (q_base p) = Some x /\ spread n m ts /\ List.length ys = m /\
      normals G (q * m) g = (z, g') /\
      (forall i j, (i < m)%nat -> (j < q)%nat ->
         nth i ys (fun _ => 0) j = nth (nth i ts 0%nat) x (fun _ => 0) (nth j cols 0%nat) + sqrt (v j) * nth (j * m + i) z 0) /\
      ((1 <= m)%nat -> q <> d \/ m <> d \/ (m + 1 = n)%nat \/ w <> d -> sim_run W s1 = (Err ValueError, s1)) /\
      (q = d -> w = d -> m = d -> (m + 1 < n)%nat ->
         (exists s2, sim_run W s1 = (Ok tt, s2) /\ completed_n d n (s_out s2)) \/ (k = L96 /\ sim_run W s1 = (Err LinAlgError, s1))) /\
      (m = 0%nat -> sim_run W s1 = (Err IndexError, s1))).
Proof.
  intros d q (dr & nz & tw & os & pr & x4 & x5 & x6 & x7 & x8 & F1 & F2 & F3 & F4 & F5 & F6 & F7 &
    F8 & F9 & N4 & F10 & N5 & F11 & N6 & F12 & F13 & N7 & F14 & N8 & F15 & F16 & F17 & F18)
    (Q1 & Q2 & Q3 & (Q4 & Q5 & Q6 & Q7) & Q8 & Q9 & (mn & Q10 & Q11) & Q12) Hdr Hsys Hspec Hpick Hop Hqd Hobs.
  assert (Hv : forall i, (i < q)%nat -> 0 < v i) by (intros i Hi; destruct Hqd as [Hqd|Hqd]; [apply Q3; fold d; lia|apply Hqd]).
  assert (Hd0 : (0 < d)%nat) by (unfold d; destruct k; cbn; lia).
  assert (Hd1 : d <> 1%nat) by (unfold d; destruct k; cbn; lia).
  destruct (buildn_ok G eigvals k name C sys theta seed h Q9 Hdr Hsys Q1 Q2 Hspec Q12) as (p & B & Bd). fold d in Bd.
  destruct (trajn_ok G k p d t0 tf dt x4 x5 x6 Bd Q5 Q6 N4 N5 N6) as (n & tk & x & p1 & T & Td & Ttk & Tx & Tg & Tr & Tl).
  pose proof (reaches_two _ _ _ _ Q6 Tr) as Hn2.
  destruct (collectn_cols k p1 d tk x t0 dt n obs v density op cols Td Ttk Tx Tg Hn2 Q5 Tl Q8 Q7 Hpick Hobs)
    as (m & Cm & Cmn & CE & CO). fold q in CE, CO.
  exists n, m. split; [exact Tr|]. split; [exact Cm|]. split; [exact Cmn|]. split.
  { intros Eq Hm1. destruct (CE Eq Hm1) as (m' & Cc).
    destruct (setup_collect_fails W params h (s_data s) dr nz tw os pr (PLeaf (NStr method)) _ sys obs theta x4 x5 x6 (rate_leafn density) op
      x7 x8 (NStr name) (k, p) (k, p1) m' ValueError
      F3 F5 F8 F2 F18 F15 F12 F1 F13 F14 F6 F7 F4 F9 F10 F11 F16 F17 B T Cc) as (dd & E).
    unfold sim_setup. rewrite E. eauto. }
  intros Hq1. destruct (CO Hq1) as (ts & ys & Cn & p2 & z & g & g' & Cc & CnD & CnV & Cs & Cy & Cz & Cv & Cd & Ctk & Cx). clear CE CO.
  destruct (m0n_ok G k p2 x Cx ltac:(lia)) as (m0 & p3 & M & Md & Mtk & Mx).
  rewrite Ctk in Mtk. rewrite Cx in Mx. rewrite Cd in Md.
  assert (Hm : exists mm, method_name mm = mn).
  { cbn [In] in Q10. destruct Q10 as [<-|[<-|[<-|[<-|[]]]]]; [exists Euler|exists Heun|exists RK2|exists RK4]; reflexivity. }
  destruct Hm as (mm & <-).
  destruct (sel_R dt method false) as (_ & _ & _ & Hsel'). destruct (Hsel' mm Q5 Q11) as [S1 S2].
  assert (R5 : w_mu0 W x7 (k, p3) = Ok (WVec (fun _ => nmul (n:=RNum) mu0 (nZ 1)))).
  { cbn [w_mu0 worldn]. apply mu0_num, N7. }
  assert (R6 : w_tau0 W x8 (k, p3) = Ok (WMat (mscale (K:=RNum) tau0 meye))).
  { cbn [w_tau0 worldn]. apply tau0_num, N8. }
  destruct (setup_forward_n W params h (s_data s) dr nz tw os pr (PLeaf (NStr method)) _ sys obs theta x4 x5 x6 (rate_leafn density) op
    x7 x8 (NStr name) (k, p) (k, p1) (k, p2) (k, p3) (WIdx ts) (WRows (ys : list (vec RNum))) (WNoise (A2 (K:=RNum) q q Cn)) (WVec m0) _ _
    F3 F5 F8 F2 F18 F15 F12 F1 F13 F14 F6 F7 F4 F9 F10 F11 F16 F17 B eq_refl T Cc M R5 R6) as (dd & Hset & Hfinds).
  exists (mkSim (s_name s) dd (s_out s)), ts, ys, p3, x, z, g, g'.
  split. { unfold sim_setup. rewrite Hset. reflexivity. }
  split; [apply Hfinds|]. split; [apply Hfinds|]. split; [apply Hfinds|]. split; [exact Mx|]. split; [exact Cs|]. split; [exact Cy|].
  split; [exact Cz|]. split; [exact Cv|].
  pose proof (run_finds W dd _ Hfinds) as Hrun. unfold run_on in Hrun.
  cbn [i_dt i_method i_single i_y i_t i_noise i_op i_mu0 i_tau0 i_model i_m0 i_s0] in Hrun.
  assert (R1 : w_fwd W x6 (PLeaf (NStr method)) false = Ok (mkSolver (K:=RNum) mm dt false)).
  { cbn [w_fwd worldn]. rewrite (num_nas _ _ N6). cbn [bind nas_text]. exact S1. }
  assert (R2 : w_bwd W x6 (PLeaf (NStr method)) false = Ok (mkSolver (K:=RNum) mm dt false)).
  { cbn [w_bwd worldn]. rewrite (num_nas _ _ N6). cbn [bind nas_text]. exact S2. }
  rewrite R1, R2 in Hrun. cbn [bind] in Hrun.
  assert (R4 : w_mklike W (WRows (ys : list (vec RNum))) (WIdx ts) (WNoise (A2 (K:=RNum) q q Cn)) op false = Ok (mkLikeN (K:=RNum) q ys ts Cn (OpVec (K:=RNum) w hh))).
  { cbn [w_mklike worldn like_n]. rewrite Hop. reflexivity. }
  rewrite R4 in Hrun. cbn [bind w_mkkl0 worldn kl0_n] in Hrun.
  change (w_optimise W) with (optimisen RNum G solve ln PI spline) in Hrun.
  change (w_s0 W (k, p3)) with (WMat (mscale (K:=RNum) (nlit (n:=RNum) 1 5) meye)) in Hrun.
  destruct (Nat.eq_dec m 0) as [E0|E0].
  - split; [lia|]. split; [lia|]. intros _. subst m. destruct ys; [|discriminate]. assert (ts = []) as -> by (destruct Cs as (Ls & _); destruct ts; [reflexivity|discriminate]).
    unfold sim_run. cbn [s_data]. rewrite Hrun. unfold optimisen. cbn [fst snd].
    destruct (grid_shape _ _ _ _ Tg Hn2) as (tl & Etk & _).
    unfold time_step, get_path, get_window. rewrite Mtk, Mx, Etk. cbn [bind]. unfold initn, time_knots. cbn. reflexivity.
  - destruct (optimisen_gen G solve spline k Hsolve p3 d tk x t0 dt n m ts ys (mkLikeN (K:=RNum) q ys ts Cn (OpVec (K:=RNum) w hh)) m0 (fun _ => nmul (n:=RNum) mu0 (nZ 1)) tau0
      (mkSolver (K:=RNum) mm dt false) (mkSolver (K:=RNum) mm dt false) Md
      Mtk Mx Tg Hn2 Q5 Tl Cmn Cs Cy ltac:(lia) Q4) as [O1 O2].
    assert (Hpos : forall i, (i < q)%nat -> 0 < Cn i i) by (intros i Hi; rewrite CnV by exact Hi; apply Hv, Hi).
    assert (Hsy := diagonal_symm q Cn CnD). assert (Hpd : posdef q Cn) by (apply diag_posdef; assumption).
    assert (Hts : List.length ts = m) by apply Cs.
    assert (Hlt : forall (mm0 : list (nat -> R)), List.length mm0 = n -> List.Forall (fun i => (i < List.length mm0)%nat) ts).
    { intros mm0 Hmm0. rewrite Forall_forall. intros i Hi. rewrite Hmm0. pose proof (spread_in _ _ _ Cs i Hi). lia. }
    split; [|split; [|lia]].
    + intros _ Hor. unfold sim_run. cbn [s_data]. rewrite Hrun.
      destruct (Nat.eq_dec q d) as [Eq|Eq]; [|rewrite O2 by (right; exact Eq); reflexivity].
      destruct (Nat.eq_dec (m + 1) n) as [En|En]; [rewrite O2 by (left; exact En); reflexivity|].
      destruct (O1 ltac:(lia) Eq) as [_ O1b].
      rewrite (O1b ValueError); [reflexivity|].
      intros mm0 ss Hmm Hss. unfold like_calln. cbn [kn_d kn_y kn_t kn_noise kn_H].
      rewrite Eq. destruct (Nat.eqb_spec w d) as [Ew|Ew]; [|reflexivity].
      destruct Hor as [Hor|[Hor|[Hor|Hor]]]; try contradiction. rewrite <- Eq in *.
      apply vec_fails; [exact Hsy|exact Hpd|lia|apply Hlt; exact Hmm|lia].
    + intros Eq Hw Em Hltn. unfold sim_run. cbn [s_data].
      destruct (O1 Hltn Eq) as [O1a _].
      destruct O1a as [(r & E & F)|(Ek & E)].
      * intros mm0 ss Hmm Hss. unfold like_calln, like_gradn. cbn [kn_d kn_y kn_t kn_noise kn_H].
        rewrite Hw, Eq, Nat.eqb_refl. rewrite <- Eq in *.
        assert (Hlss : @List.length (nat -> nat -> R) ss = @List.length (nat -> R) mm0) by (transitivity n; [exact Hss|symmetry; exact Hmm]).
        split.
        -- destruct (vec_val q ys ts Cn hh mm0 ss Hsy Hpd ltac:(lia) Hlss (Hlt mm0 Hmm) (spread_nodup _ _ _ Cs) ltac:(lia)) as (Ri & _ & E). eauto.
        -- destruct (vec_grad q ys ts Cn hh mm0 ss Hsy Hpd ltac:(lia) Hlss (Hlt mm0 Hmm) (spread_nodup _ _ _ Cs)) as (Ri & gm & gs & sh & _ & E & L1 & L2 & _).
           exists gm, gs, sh. split; [exact E|]. split; (etransitivity; [eassumption|exact Hmm]).
      * left. eexists. rewrite Hrun, E. split; [reflexivity|]. cbn [s_out]. apply storen_completed. exact F.
      * right. split; [exact Ek|]. rewrite Hrun, E. reflexivity.
Qed.
Lemma simn_mask k (Hsolve : k = L96 -> forall d S e, solve d S = Err e -> e = LinAlgError)
  l cols params name method sys theta obs C v t0 tf dt mu0 tau0 density seed (h : r_state G) (s : Sim W) :
  let d := dim_n k in let q := List.length cols in
  entries_n_op (PLeaf (NMask l)) params name method sys theta obs t0 tf dt mu0 tau0 density seed ->
  acceptable_n k name method C v t0 tf dt tau0 density seed ->
  drift_n k theta -> sys_n d sys C -> spectrum d C (eigvals d C) ->
  List.length l = d -> selected l cols -> obs_n q obs v ->
  exists n m, reaches t0 dt tf n /\ int_part (INR (n - 1) * dt * rate_val density) (Z.of_nat m) /\ (m + 1 <= n)%nat /\
    (q = 1%nat -> m <> 1%nat -> exists s', sim_setup W params DNone h s = (Err ValueError, s')) /\
    (q <> 1%nat -> exists s1 ts (ys : list (nat -> R)) (p : PN G) (x : list (nat -> R)) z g g',
      sim_setup W params DNone h s = (Ok tt, s1) /\
      has (s_data s1) "obs_t" (SVal (W:=W) (WIdx ts)) /\ has (s_data s1) "obs_y" (SVal (W:=W) (WRows (ys : list (vec RNum)))) /\
      has (s_data s1) "model" (SModel (W:=W) (k, p)) /\ b_xt (q_base p) = Some x /\ spread n m ts /\ List.length ys = m /\
      normals G (q * m) g = (z, g') /\
      (forall i j, (i < m)%nat -> (j < q)%nat ->
         nth i ys (fun _ => 0) j = nth (nth i ts 0%nat) x (fun _ => 0) (nth j cols 0%nat) + sqrt (v j) * nth (j * m + i) z 0) /\
      ((1 <= m)%nat -> q <> d \/ m <> d \/ (m + 1 = n)%nat -> sim_run W s1 = (Err ValueError, s1)) /\
      (q = d -> m = d -> (m + 1 < n)%nat ->
         (exists s2, sim_run W s1 = (Ok tt, s2) /\ completed_n d n (s_out s2)) \/ (k = L96 /\ sim_run W s1 = (Err LinAlgError, s1))) /\
      (m = 0%nat -> sim_run W s1 = (Err IndexError, s1))).
Proof.
  intros d q He Ha Hdr Hsys Hspec Hlen Hsel Hobs. assert (Hd0 : (0 < d)%nat) by (unfold d; destruct k; cbn; lia).
  destruct (simn_cols k Hsolve (PLeaf (NMask l)) cols d (fun i => of_bool RNum (nth i l false)) params name method sys theta obs C v t0 tf dt mu0 tau0 density seed h s)
    as (n & m & H1 & H2 & H3 & H4 & H5); try assumption.
  - apply mask_picks; assumption.
  - intros ys. cbn [op_like]. rewrite Hlen. reflexivity.
  - left. pose proof (selected_le _ _ Hsel) as Q. rewrite Hlen in Q. exact Q.
  - exists n, m. repeat (split; [assumption|]). intros Hq. destruct (H5 Hq) as (s1 & ts & ys & p & x & z & g & g' & E1 & E2 & E3 & E4 & E5 & E6 & E7 & E8 & E9 & R1 & R2 & R3).
    exists s1, ts, ys, p, x, z, g, g'. repeat (split; [assumption|]). split; [intros Q1 Q2; apply R1; tauto|]. split; [|exact R3].
    intros Q1 Q2 Q3. apply R2; auto.
Qed.
End ND.
