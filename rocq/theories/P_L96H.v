(** * Lorenz96.energy: where the returned values are not what they are documented to be. *)
From Coq Require Import ZArith List Bool Arith Reals Lra Lia Sorted FunctionalExtensionality Classical_Prop.
From Coquelicot Require Import Coquelicot.
From Verif Require Import Num Arr ArrFacts M_LinAlg M_Utils M_Sde1 M_L63 M_L96 M_L96E Spec_Utils Spec_Sde1 Spec_L63 Spec_L96 Spec_L96E
  Spec_GaussN P_Trapz P_LinAlg P_Utils P_Ut P_Sde1 P_GaussN P_L63 P_L96 P_RMat P_Det P_Expect P_L96E P_L96F P_L96G.
Import ListNotations.
Local Open Scope R_scope.

Definition dg (s : nat -> R) (i j : nat) : R := if Nat.eqb i j then s i else 0.
Lemma dg_symm d s : symm d (dg s).
Proof. intros i j _ _. unfold dg. rewrite (Nat.eqb_sym j i). destruct (Nat.eqb_spec i j) as [->|]; reflexivity. Qed.
Lemma dg_sum d s (x : nat -> R) i : (i < d)%nat -> Rsum d (fun k => dg s i k * x k) = s i * x i.
Proof.
  intros Hi. rewrite (Rsum_single d _ i Hi).
  - unfold dg. rewrite Nat.eqb_refl. reflexivity.
  - intros j _ Hj. unfold dg. destruct (Nat.eqb_spec i j); [lia|ring].
Qed.
Lemma dg_posdef d s : (forall i, (i < d)%nat -> 0 < s i) -> posdef d (dg s).
Proof. intros H. exact (proj2 (mdiag_posdef d s) H). Qed.
Definition kap (d : nat) : R := 41 / 20 * INR d.
Lemma dg_root d s : (0 < d)%nat -> (forall i, (i < d)%nat -> 0 < s i) ->
  scaled_root d (dg s) (dg (fun i => sqrt (kap d * s i))).
Proof.
  intros Hd Hs. assert (Hk : 0 < kap d) by (apply d_pos, Hd). split; [split|].
  - intros i j Hij. unfold dg. destruct (Nat.eqb_spec i j); [lia|reflexivity].
  - intros i Hi. unfold dg. rewrite Nat.eqb_refl. apply sqrt_lt_R0, Rmult_lt_0_compat; auto.
  - intros i j Hi Hj. rewrite dg_sum by exact Hi. unfold dg. rewrite (Nat.eqb_sym j i).
    destruct (Nat.eqb_spec i j) as [<-|]; [|unfold kap; ring].
    rewrite sqrt_sqrt; [reflexivity|]. apply Rlt_le, Rmult_lt_0_compat; auto.
Qed.
Lemma dg_ident : dg (fun _ => 1) = ident. Proof. reflexivity. Qed.
Lemma dg_inv d : is_prod d ident (dg (fun _ => 1)) ident.
Proof. intros i j Hi Hj. rewrite ident_sum by exact Hi. reflexivity. Qed.

(** averages of functions of the first four entries *)
Lemma W_sum d : (0 < d)%nat -> W0 + 2 * INR d * W1 d = 1.
Proof. intros Hd. pose proof (INR_pos d Hd). unfold W0, W1. field. lra. Qed.
Lemma W_kap d : (0 < d)%nat -> W1 d * kap d = 1 / 2.
Proof. intros Hd. pose proof (INR_pos d Hd). unfold W1, kap. field. lra. Qed.
Lemma sig_dp d m c a i : (a < d)%nat -> sig_pt d m (dg c) (1 + a) i = m i + (if Nat.eqb i a then c i else 0).
Proof. intros Ha. cbn [sig_pt Nat.add]. destruct (Nat.ltb_spec a d); [reflexivity|lia]. Qed.
Lemma sig_dm d m c a i : (a < d)%nat -> sig_pt d m (dg c) (1 + d + a) i = m i - (if Nat.eqb i a then c i else 0).
Proof.
  intros Ha. cbn [sig_pt Nat.add]. destruct (Nat.ltb_spec (d + a) d); [lia|].
  replace (d + a - d)%nat with a by lia. reflexivity.
Qed.
Lemma uavg4 d (m c : nat -> R) (g : R -> R -> R -> R -> R) : (4 <= d)%nat ->
  let m0 := m 0%nat in let m1 := m 1%nat in let m2 := m 2%nat in let m3 := m 3%nat in
  let c0 := c 0%nat in let c1 := c 1%nat in let c2 := c 2%nat in let c3 := c 3%nat in
  let g0 := g m0 m1 m2 m3 in
  uavg d (fun r => let x := sig_pt d m (dg c) r in g (x 0%nat) (x 1%nat) (x 2%nat) (x 3%nat)) =
  g0 + W1 d * ((g (m0 + c0) m1 m2 m3 + g (m0 - c0) m1 m2 m3 - 2 * g0) + (g m0 (m1 + c1) m2 m3 + g m0 (m1 - c1) m2 m3 - 2 * g0)
     + (g m0 m1 (m2 + c2) m3 + g m0 m1 (m2 - c2) m3 - 2 * g0) + (g m0 m1 m2 (m3 + c3) + g m0 m1 m2 (m3 - c3) - 2 * g0)).
Proof.
  intros Hd. cbn zeta. rewrite uavg_split.
  rewrite (Rsum_ext d _ (fun a => 2 * g (m 0%nat) (m 1%nat) (m 2%nat) (m 3%nat) +
    (let p := fun i => m i + (if Nat.eqb i a then c i else 0) in let q := fun i => m i - (if Nat.eqb i a then c i else 0) in
     g (p 0%nat) (p 1%nat) (p 2%nat) (p 3%nat) + g (q 0%nat) (q 1%nat) (q 2%nat) (q 3%nat) - 2 * g (m 0%nat) (m 1%nat) (m 2%nat) (m 3%nat)))).
  2:{ intros a Ha. rewrite !sig_dp, !sig_dm by exact Ha. cbn zeta beta. ring. }
  rewrite Rsum_plus, Rsum_const. pose proof (W_sum d ltac:(lia)) as HW.
  destruct d as [|[|[|[|e]]]]; try lia.
  rewrite !Rsum_shift. cbn [Nat.eqb]. rewrite (Rsum_z e).
  2:{ intros i Hi. rewrite !Rplus_0_r, !Rminus_0_r. ring. }
  rewrite !Rplus_0_r, !Rminus_0_r. cbn [sig_pt].
  set (g0 := g (m 0%nat) (m 1%nat) (m 2%nat) (m 3%nat)).
  set (d := Datatypes.S (Datatypes.S (Datatypes.S (Datatypes.S e)))) in *.
  replace W0 with (1 - 2 * INR d * W1 d) by lra. ring.
Qed.
Lemma mpt_2 d al m S L r : (4 <= d)%nat -> symm d S -> posdef d S -> scaled_root d S L -> (r < 2 * d + 1)%nat ->
  mpt d vz (dg (fun _ => al)) vz m S r 2 =
  let x := sig_pt d m L r in (x 3%nat - x 0%nat) * x 1%nat + (al - 1) * x 2%nat.
Proof.
  intros Hd Hs Hp HL Hr. rewrite (mpt_root d S L) by (assumption || lia). unfold misfit.
  rewrite <- batch_ring by lia. rewrite l96_batch_interior by lia. rewrite l96_f96 by lia.
  rewrite dg_sum by lia. unfold f96.
  assert (N : nxt d 2 = 3%nat) by (unfold nxt; destruct (Nat.eqb_spec (2 + 1) d); lia).
  rewrite N. change (prv d 2) with 1%nat. change (prv d 1) with 0%nat. cbn zeta. ring.
Qed.
Lemma hpt_add d u q q' A b m S j r : (j < d)%nat -> (forall i, (i < d)%nat -> q' i = q i + (if Nat.eqb i j then 1 else 0)) ->
  hpt d u q' A b m S r = hpt d u q A b m S r + 1 / 2 * mpt d u A b m S r j ^ 2.
Proof.
  intros Hj H. unfold hpt.
  rewrite (Rsum_ext d _ (fun i => q i * mpt d u A b m S r i ^ 2 + (if Nat.eqb i j then mpt d u A b m S r j ^ 2 else 0))).
  - rewrite Rsum_plus. rewrite (Rsum_single d (fun i => if Nat.eqb i j then _ else 0) j Hj).
    + rewrite Nat.eqb_refl. ring.
    + intros i _ Hi. destruct (Nat.eqb_spec i j); [lia|reflexivity].
  - intros i Hi. rewrite H by exact Hi. destruct (Nat.eqb_spec i j) as [->|]; ring.
Qed.

(** the two noise matrices *)
Definition P1 : nat -> nat -> R := dg (fun _ => 1).
Definition P2 : nat -> nat -> R := dg (fun i => 1 + (if Nat.eqb i 2 then 1 else 0)).
Lemma P1_ok d : symm d P1 /\ posdef d P1.
Proof. split; [apply dg_symm|apply dg_posdef; intros; lra]. Qed.
Lemma P2_ok d : symm d P2 /\ posdef d P2.
Proof. split; [apply dg_symm|apply dg_posdef; intros i _; destruct (Nat.eqb i 2); lra]. Qed.
Lemma P12 i : P2 i i = P1 i i + (if Nat.eqb i 2 then 1 else 0).
Proof. unfold P1, P2, dg. rewrite Nat.eqb_refl. reflexivity. Qed.
Lemma P12_sum d (T : nat -> R) : (2 < d)%nat ->
  Rsum d (fun j => P2 j j * T j) = Rsum d (fun j => P1 j j * T j) + T 2%nat.
Proof.
  intros Hd. rewrite (Rsum_ext d _ (fun j => P1 j j * T j + (if Nat.eqb j 2 then T 2%nat else 0))).
  - rewrite Rsum_plus, (Rsum_single d (fun j => if Nat.eqb j 2 then T 2%nat else 0) 2 Hd); [reflexivity|].
    intros j _ Hj. destruct (Nat.eqb_spec j 2); [lia|reflexivity].
  - intros j Hj. rewrite P12. destruct (Nat.eqb_spec j 2) as [->|]; ring.
Qed.
Lemma wf_two d A b m S m' S' : (0 < d)%nat -> symm d S -> posdef d S -> symm d S' -> posdef d S' ->
  wf96 d [A; A] [b; b] [m; m'] [S; S'] None.
Proof.
  intros Hd H1 H2 H3 H4. repeat split; try discriminate; try assumption;
    (destruct k as [|[|k]]; [assumption|assumption|cbn in H; lia]).
Qed.
Lemma trap2 f : trap 2 f 1 = (f 0%nat + f 1%nat) / 2.
Proof. unfold trap. cbn [Nat.sub Rsum Nat.add]. field. Qed.

Section Wit.
Variable solve : nat -> (nat -> nat -> R) -> result ((nat -> R) -> nat -> R).
Hypothesis Hsol : solver_ok solve.
Variable d : nat.
Hypothesis Hd : (4 <= d)%nat.
Let I1 : nat -> nat -> R := dg (fun _ => 1).
Lemma I1s : symm d I1. Proof. apply dg_symm. Qed.
Lemma I1p : posdef d I1. Proof. apply dg_posdef. intros; lra. Qed.
Let c : nat -> R := fun i => sqrt (kap d * 1).
Lemma I1r : scaled_root d I1 (dg c). Proof. apply (dg_root d (fun _ => 1)); [lia|intros; lra]. Qed.
Lemma kpos : 0 < kap d. Proof. apply d_pos; lia. Qed.
Lemma c2 i : c i * c i = kap d.
Proof. unfold c. rewrite sqrt_sqrt; [ring|]. pose proof kpos. lra. Qed.

(** mean *)
Definition mw : nat -> R := fun i => if Nat.eqb i 1 then 1 else if Nat.eqb i 3 then 1 else 0.
Lemma U_dm t : uavg d (fun r => mpt d vz I1 vz (vset 1 t mw) I1 r 2 ^ 2) = 3 * t ^ 2 + 1.
Proof.
  set (g := fun a b _ e : R => ((e - a) * b) ^ 2).
  transitivity (uavg d (fun r => let x := sig_pt d (vset 1 t mw) (dg c) r in g (x 0%nat) (x 1%nat) (x 2%nat) (x 3%nat))).
  { apply uavg_ext. unfold g. intros r Hr. unfold I1 at 1. rewrite (mpt_2 d 1 _ I1 (dg c) r Hd I1s I1p I1r Hr). cbn zeta. ring. }
  rewrite uavg4 by exact Hd. unfold g. cbn zeta beta. unfold vset, mw. cbn [Nat.eqb].
  set (cc := c 0%nat). change (c 1%nat) with cc. change (c 2%nat) with cc. change (c 3%nat) with cc.
  pose proof (c2 0) as Hc. fold cc in Hc. pose proof (W_kap d ltac:(lia)) as HW.
  transitivity (t ^ 2 + 2 * (W1 d * (cc * cc)) * (1 + 2 * t ^ 2)); [ring|]. rewrite Hc, HW. field.
Qed.
Lemma D_dm : uavg d (fun r => 1 / 2 * mpt d vz I1 vz mw I1 r 2 ^ 2 * zpt d mw I1 ident r 1) = 1.
Proof.
  set (g := fun a b _ e : R => 1 / 2 * ((e - a) * b) ^ 2 * (b - 1)).
  transitivity (uavg d (fun r => let x := sig_pt d mw (dg c) r in g (x 0%nat) (x 1%nat) (x 2%nat) (x 3%nat))).
  { apply uavg_ext. unfold g. intros r Hr. unfold I1 at 1. rewrite (mpt_2 d 1 _ I1 (dg c) r Hd I1s I1p I1r Hr). cbn zeta.
      rewrite (zpt_root d I1 (dg c) ltac:(lia) I1s I1p I1r) by exact Hr.
      rewrite (ident_sum d (fun k => sig_pt d mw (dg c) r k - mw k) 1) by lia. change (mw 1%nat) with 1.
      replace (1 - 1) with 0 by ring. ring. }
  rewrite uavg4 by exact Hd. unfold g. cbn zeta beta. unfold mw. cbn [Nat.eqb].
  set (cc := c 0%nat). change (c 1%nat) with cc. change (c 2%nat) with cc. change (c 3%nat) with cc.
  pose proof (c2 0) as Hc. fold cc in Hc. pose proof (W_kap d ltac:(lia)) as HW.
  transitivity (2 * (W1 d * (cc * cc))); [field|]. rewrite Hc, HW. field.
Qed.

Lemma wfI m m' : wf96 d [I1; I1] [vz; vz] [m; m'] [I1; I1] None.
Proof. apply wf_two; [lia|apply I1s|apply I1p|apply I1s|apply I1p]. Qed.

Lemma dm_wrong : exists th P dt A B M S obs k i e,
  wf96 d A B M S obs /\ symm d P /\ posdef d P /\ (k < length A)%nat /\ (i < d)%nat /\
  l96_energy (K:=RNum) solve d th P dt A B M S obs = Ok e /\
  ~ is_derive (fun t => esde_of (l96_energy (K:=RNum) solve d th P dt A B (lset k (vset i t (gv M k)) M) S obs))
      (gv M k i) (tweight (length A) k dt * nth k (n_dm e) vz i).
Proof.
  destruct (l96_grid_wf solve Hsol d vz P1 1 _ _ _ _ _ (wfI mw mw)) as (e1 & E1 & _ & _ & G1 & _ & _).
  destruct (l96_grid_wf solve Hsol d vz P2 1 _ _ _ _ _ (wfI mw mw)) as (e2 & E2 & _ & _ & G2 & _ & _).
  specialize (G1 0%nat ident ltac:(cbn; lia) (dg_inv d)). specialize (G2 0%nat ident ltac:(cbn; lia) (dg_inv d)).
  cbn [nth] in G1, G2. cbn zeta in G1, G2. destruct G1 as [G1 _]. destruct G2 as [G2 _].
  specialize (G1 1%nat ltac:(lia)). specialize (G2 1%nat ltac:(lia)).
  set (F := fun P t => esde_of (l96_energy (K:=RNum) solve d vz P 1 [I1; I1] [vz; vz] [vset 1 t mw; mw] [I1; I1] None)).
  destruct (classic (is_derive (F P1) 1 (tweight 2 0 1 * nth 0 (n_dm e1) vz 1%nat))) as [D1|D1].
  2:{ exists vz, P1, 1, [I1; I1], [vz; vz], [mw; mw], [I1; I1], None, 0%nat, 1%nat, e1.
      split; [apply wfI|]. split; [apply P1_ok|]. split; [apply P1_ok|]. split; [cbn; lia|]. split; [lia|].
      split; [exact E1|exact D1]. }
  exists vz, P2, 1, [I1; I1], [vz; vz], [mw; mw], [I1; I1], None, 0%nat, 1%nat, e2.
  split; [apply wfI|]. split; [apply P2_ok|]. split; [apply P2_ok|]. split; [cbn; lia|]. split; [lia|].
  split; [exact E2|]. intros D2. change (is_derive (F P2) 1 (tweight 2 0 1 * nth 0 (n_dm e2) vz 1%nat)) in D2.
  pose proof (is_derive_minus _ _ _ _ _ D2 D1) as D.
  assert (U1 : uavg d (fun r => mpt d vz I1 vz mw I1 r 2 ^ 2) = 4).
  { transitivity (uavg d (fun r => mpt d vz I1 vz (vset 1 1 mw) I1 r 2 ^ 2)); [|rewrite U_dm; ring].
    f_equal. apply functional_extensionality. intros r. f_equal. f_equal.
    apply functional_extensionality. intros i. unfold vset. destruct (Nat.eqb_spec i 1) as [->|]; reflexivity. }
  assert (D' : is_derive (fun t => minus (F P2 t) (F P1 t)) 1 (3 / 2)).
  { apply (is_derive_ext (fun t => 1 / 2 * ((3 * t ^ 2 + 1 + 4) / 2))).
    { intros t. unfold F. rewrite !(esde_T solve Hsol) by apply wfI. rewrite P12_sum by lia.
      unfold T96. cbn [length]. rewrite trap2. cbn [nth]. rewrite U_dm.
      rewrite U1. unfold minus, plus, opp; cbn. field. }
    auto_derive; auto. field. }
  pose proof (eq_trans (eq_sym (is_derive_unique _ _ _ D)) (is_derive_unique _ _ _ D')) as Q2.
  rewrite G1, G2 in Q2.
  rewrite (uavg_ext d (fun r => hpt d vz (fun j => P2 j j) I1 vz mw I1 r * zpt d mw I1 ident r 1)
     (fun r => hpt d vz (fun j => P1 j j) I1 vz mw I1 r * zpt d mw I1 ident r 1
               + 1 / 2 * mpt d vz I1 vz mw I1 r 2 ^ 2 * zpt d mw I1 ident r 1)) in Q2.
  2:{ intros r Hr. rewrite (hpt_add d vz (fun j => P1 j j) (fun j => P2 j j) _ _ _ _ 2 r) by (lia || (intros; apply P12)). ring. }
  rewrite uavg_plus, D_dm in Q2. unfold minus, plus, opp, tweight in Q2. cbn in Q2. lra.
Qed.

(** covariance *)
Let A2 : nat -> nat -> R := dg (fun _ => 2).
Let St : R -> nat -> nat -> R := fun t => sset 2 2 t I1.
Lemma St_dg t : St t = dg (fun i => if Nat.eqb i 2 then t else 1).
Proof.
  do 2 (apply functional_extensionality; intros). unfold St, sset, I1, dg.
  destruct (Nat.eqb_spec x 2), (Nat.eqb_spec x0 2), (Nat.eqb_spec x x0); cbn; subst; try reflexivity; lia.
Qed.
Lemma St_ok t : 0 < t -> symm d (St t) /\ posdef d (St t) /\
  scaled_root d (St t) (dg (fun i => sqrt (kap d * (if Nat.eqb i 2 then t else 1)))).
Proof.
  intros Ht. rewrite St_dg.
  assert (H : forall i, (i < d)%nat -> 0 < (if Nat.eqb i 2 then t else 1)) by (intros i _; destruct (Nat.eqb i 2); lra).
  split; [apply dg_symm|]. split; [apply dg_posdef; exact H|apply dg_root; [lia|exact H]].
Qed.
Lemma U_ds t : 0 < t -> uavg d (fun r => mpt d vz A2 vz vz (St t) r 2 ^ 2) = t.
Proof.
  intros Ht. destruct (St_ok t Ht) as (Hs & Hp & HL).
  set (ct := fun i => sqrt (kap d * (if Nat.eqb i 2 then t else 1))) in *.
  set (g := fun a b f e : R => ((e - a) * b + f) ^ 2).
  transitivity (uavg d (fun r => let x := sig_pt d vz (dg ct) r in g (x 0%nat) (x 1%nat) (x 2%nat) (x 3%nat))).
  { apply uavg_ext. unfold g. intros r Hr. unfold A2. rewrite (mpt_2 d 2 _ (St t) (dg ct) r Hd Hs Hp HL Hr). cbn zeta. ring. }
  rewrite uavg4 by exact Hd. unfold g. cbn zeta beta.
  assert (E2 : ct 2%nat * ct 2%nat = kap d * t).
  { unfold ct. cbn [Nat.eqb]. apply sqrt_sqrt. pose proof kpos. nra. }
  transitivity (2 * (W1 d * (ct 2%nat * ct 2%nat))); [ring|]. rewrite E2, <- (Rmult_assoc (W1 d)), W_kap by lia. field.
Qed.
Lemma D_ds : uavg d (fun r => 1 / 2 * mpt d vz A2 vz vz I1 r 2 ^ 2 * (zpt d vz I1 ident r 2 * zpt d vz I1 ident r 2)) = 1 / 2 * kap d.
Proof.
  set (g := fun a b f e : R => 1 / 2 * ((e - a) * b + f) ^ 2 * (f * f)).
  transitivity (uavg d (fun r => let x := sig_pt d vz (dg c) r in g (x 0%nat) (x 1%nat) (x 2%nat) (x 3%nat))).
  { apply uavg_ext. unfold g. intros r Hr. unfold A2. rewrite (mpt_2 d 2 _ I1 (dg c) r Hd I1s I1p I1r Hr). cbn zeta.
    rewrite !(zpt_root d I1 (dg c) ltac:(lia) I1s I1p I1r) by exact Hr.
    rewrite (ident_sum d (fun k => sig_pt d vz (dg c) r k - 0) 2) by lia. ring. }
  rewrite uavg4 by exact Hd. unfold g. cbn zeta beta.
  transitivity (W1 d * (c 2%nat * c 2%nat) * (c 2%nat * c 2%nat)); [field|]. rewrite !c2, W_kap by lia. field.
Qed.
Lemma wfS t : 0 < t -> wf96 d [A2; A2] [vz; vz] [vz; vz] [St t; I1] None.
Proof. intros Ht. destruct (St_ok t Ht) as (Hs & Hp & _). apply wf_two; [lia|exact Hs|exact Hp|apply I1s|apply I1p]. Qed.
Lemma St_1 : St 1 = I1.
Proof. rewrite St_dg. do 2 (apply functional_extensionality; intros). unfold I1, dg. destruct (Nat.eqb x 2); reflexivity. Qed.

Lemma ds_wrong : exists th P dt A B M S obs k i j e,
  wf96 d A B M S obs /\ symm d P /\ posdef d P /\ (k < length A)%nat /\ (i < d)%nat /\ (j < d)%nat /\
  l96_energy (K:=RNum) solve d th P dt A B M S obs = Ok e /\
  ~ is_derive (fun t => esde_of (l96_energy (K:=RNum) solve d th P dt A B M (lset k (sset i j t (gm S k)) S) obs))
      (gm S k i j) (tweight (length A) k dt * nth k (n_ds e) mz i j).
Proof.
  pose proof (wfS 1 ltac:(lra)) as W. rewrite St_1 in W.
  destruct (l96_grid_wf solve Hsol d vz P1 1 _ _ _ _ _ W) as (e1 & E1 & _ & _ & G1 & _ & _).
  destruct (l96_grid_wf solve Hsol d vz P2 1 _ _ _ _ _ W) as (e2 & E2 & _ & _ & G2 & _ & _).
  specialize (G1 0%nat ident ltac:(cbn; lia) (dg_inv d)). specialize (G2 0%nat ident ltac:(cbn; lia) (dg_inv d)).
  cbn [nth] in G1, G2. cbn zeta in G1, G2. destruct G1 as [_ G1]. destruct G2 as [_ G2].
  specialize (G1 2%nat 2%nat ltac:(lia) ltac:(lia)). specialize (G2 2%nat 2%nat ltac:(lia) ltac:(lia)).
  change (ident 2%nat 2%nat) with 1 in G1, G2.
  set (F := fun P t => esde_of (l96_energy (K:=RNum) solve d vz P 1 [A2; A2] [vz; vz] [vz; vz] [St t; I1] None)).
  destruct (classic (is_derive (F P1) 1 (tweight 2 0 1 * nth 0 (n_ds e1) mz 2%nat 2%nat))) as [D1|D1].
  2:{ exists vz, P1, 1, [A2; A2], [vz; vz], [vz; vz], [I1; I1], None, 0%nat, 2%nat, 2%nat, e1.
      split; [exact W|]. split; [apply P1_ok|]. split; [apply P1_ok|]. split; [cbn; lia|]. split; [lia|]. split; [lia|].
      split; [exact E1|exact D1]. }
  exists vz, P2, 1, [A2; A2], [vz; vz], [vz; vz], [I1; I1], None, 0%nat, 2%nat, 2%nat, e2.
  split; [exact W|]. split; [apply P2_ok|]. split; [apply P2_ok|]. split; [cbn; lia|]. split; [lia|]. split; [lia|].
  split; [exact E2|]. intros D2. change (is_derive (F P2) 1 (tweight 2 0 1 * nth 0 (n_ds e2) mz 2%nat 2%nat)) in D2.
  pose proof (is_derive_minus _ _ _ _ _ D2 D1) as D.
  assert (U1 : uavg d (fun r => mpt d vz A2 vz vz I1 r 2 ^ 2) = 1) by (rewrite <- St_1; apply U_ds; lra).
  assert (D' : is_derive (fun t => minus (F P2 t) (F P1 t)) 1 (1 / 4)).
  { apply (is_derive_ext_loc (fun t => 1 / 2 * ((t + 1) / 2))).
    { exists (mkposreal 1 Rlt_0_1). intros t Ht. change (Rabs (t - 1) < 1) in Ht. apply Rabs_def2 in Ht.
      assert (Ht' : 0 < t) by lra.
      unfold F. rewrite !(esde_T solve Hsol) by (apply wfS; exact Ht'). rewrite P12_sum by lia.
      unfold T96. cbn [length]. rewrite trap2. cbn [nth]. rewrite U_ds by exact Ht'. rewrite U1.
      unfold minus, plus, opp; cbn. field. }
    auto_derive; auto. field. }
  pose proof (eq_trans (eq_sym (is_derive_unique _ _ _ D)) (is_derive_unique _ _ _ D')) as Q2.
  rewrite G1, G2 in Q2.
  rewrite (uavg_ext d (fun r => hpt d vz (fun j => P2 j j) A2 vz vz I1 r * (zpt d vz I1 ident r 2 * zpt d vz I1 ident r 2))
     (fun r => hpt d vz (fun j => P1 j j) A2 vz vz I1 r * (zpt d vz I1 ident r 2 * zpt d vz I1 ident r 2)
               + 1 / 2 * mpt d vz A2 vz vz I1 r 2 ^ 2 * (zpt d vz I1 ident r 2 * zpt d vz I1 ident r 2))) in Q2.
  2:{ intros r Hr. rewrite (hpt_add d vz (fun j => P1 j j) (fun j => P2 j j) _ _ _ _ 2 r) by (lia || (intros; apply P12)). ring. }
  rewrite (uavg_ext d (hpt d vz (fun j => P2 j j) A2 vz vz I1)
     (fun r => hpt d vz (fun j => P1 j j) A2 vz vz I1 r + 1 / 2 * mpt d vz A2 vz vz I1 r 2 ^ 2)) in Q2.
  2:{ intros r Hr. apply (hpt_add d vz (fun j => P1 j j) (fun j => P2 j j) _ _ _ _ 2 r); [lia|intros; apply P12]. }
  rewrite !uavg_plus, D_ds, uavg_scal, U1 in Q2. unfold minus, plus, opp, tweight in Q2. cbn in Q2.
  assert (Hk : kap d = 3) by lra. unfold kap in Hk. rewrite INR_IZR_INZ in Hk.
  assert (HZ : (41 * Z.of_nat d = 60)%Z) by (apply eq_IZR; rewrite mult_IZR; lra). lia.
Qed.

(** neighbours taken from other points *)
Definition mb : nat -> R := fun i => if Nat.eqb i 1 then 1 else 0.
Lemma mb0 i : (2 <= i)%nat -> mb i = 0.
Proof. intros Hi. unfold mb. destruct (Nat.eqb_spec i 1); [lia|reflexivity]. Qed.
Lemma border_avg u : uavg d (fun r => ring_drift (2 * d + 1) d u (sig_pt d mb (dg c)) r 0) = c 0%nat * (W1 d - W0) + u 0%nat.
Proof.
  set (x := sig_pt d mb (dg c)). set (N := (2 * d + 1)%nat).
  set (f := fun r => (x r 1%nat - x (prv N r) (d - 2)%nat) * x (prv N r) (d - 1)%nat).
  rewrite (uavg_ext d _ (fun r => f r + (-1 * x r 0%nat + u 0%nat))).
  2:{ intros r Hr. rewrite <- batch_ring by lia. rewrite l96_batch_first by lia. unfold f, N. rnum. ring. }
  rewrite uavg_plus, uavg_plus, uavg_scal, uavg_const by lia.
  assert (EM : uavg d (fun r => x r 0%nat) = 0)
    by exact (exp_mean _ _ _ _ (uavg_expect d I1 (dg c) ltac:(lia) I1r mb) 0%nat ltac:(lia)).
  rewrite EM.
  assert (F0 : f 0%nat = - c 0%nat).
  { unfold f. change (x 0%nat 1%nat) with 1. unfold prv. cbn [Nat.eqb]. unfold N.
    replace (2 * d + 1 - 1)%nat with (1 + d + (d - 1))%nat by lia. unfold x. rewrite !sig_dm by lia.
    rewrite !mb0 by lia. rewrite Nat.eqb_refl. destruct (Nat.eqb_spec (d - 2) (d - 1)); [lia|].
    change (c (d - 1)%nat) with (c 0%nat). ring. }
  assert (Fp : forall i, (i < d)%nat -> f (1 + i)%nat = 0).
  { intros i Hi. unfold f. replace (prv N (1 + i)) with i by (unfold prv; cbn [Nat.add Nat.eqb]; lia).
    assert (E : x i (d - 1)%nat = 0); [|rewrite E; ring]. destruct i as [|i].
    - apply mb0. lia.
    - unfold x. change (Datatypes.S i) with (1 + i)%nat. rewrite sig_dp, mb0 by lia.
      destruct (Nat.eqb_spec (d - 1) i); [lia|ring]. }
  assert (Fm0 : f (1 + d + 0)%nat = c 0%nat).
  { unfold f. replace (prv N (1 + d + 0)) with (1 + (d - 1))%nat by (unfold prv; cbn [Nat.add Nat.eqb]; lia).
    unfold x. rewrite sig_dm, !sig_dp by lia. cbn [Nat.eqb]. change (mb 1%nat) with 1. rewrite (mb0 (d - 1)), (mb0 (d - 2)) by lia.
    rewrite Nat.eqb_refl. destruct (Nat.eqb_spec (d - 2) (d - 1)); [lia|].
    change (c (d - 1)%nat) with (c 0%nat). ring. }
  assert (Fm : forall i, (i < d)%nat -> i <> 0%nat -> f (1 + d + i)%nat = 0).
  { intros i Hi Hi0. unfold f. replace (prv N (1 + d + i)) with (1 + d + (i - 1))%nat by (unfold prv; cbn [Nat.add Nat.eqb]; lia).
    assert (E : x (1 + d + (i - 1))%nat (d - 1)%nat = 0); [|rewrite E; ring].
    unfold x. rewrite sig_dm, mb0 by lia. destruct (Nat.eqb_spec (d - 1) (i - 1)); [lia|ring]. }
  rewrite uavg_split, F0. rewrite (Rsum_single d _ 0%nat ltac:(lia)).
  - rewrite Fp, Fm0 by lia. ring.
  - intros i Hi Hi0. rewrite Fp, Fm by assumption. ring.
Qed.
Lemma own_avg u : E96_drift (K:=RNum) d u mb I1 0%nat = u 0%nat.
Proof.
  rewrite E96_ix by lia. unfold f96.
  assert (N : nxt d 0 = 1%nat) by (unfold nxt; destruct (Nat.eqb_spec (0 + 1) d); lia).
  assert (Q : prv d 0 = (d - 1)%nat) by reflexivity.
  assert (Q' : prv d (d - 1) = (d - 2)%nat) by (unfold prv; destruct (Nat.eqb_spec (d - 1) 0); lia).
  rewrite N, Q, Q', (mb0 (d - 1)), (mb0 (d - 2)) by lia. unfold I1, dg.
  destruct (Nat.eqb_spec 1 (d - 1)); [lia|]. destruct (Nat.eqb_spec (d - 2) (d - 1)); [lia|].
  change (mb 0%nat) with 0. change (mb 1%nat) with 1. req. ring.
Qed.
Lemma gap : c 0%nat * (W1 d - W0) <> 0.
Proof.
  assert (0 < c 0%nat) by (unfold c; apply sqrt_lt_R0; pose proof kpos; lra).
  assert (Hi : 1 <= INR d) by (apply (le_INR 1); lia).
  assert (W1 d - W0 < 0); [|nra].
  unfold W1, W0. apply (Rmult_lt_reg_r (41 * INR d)); [lra|]. field_simplify; lra.
Qed.
Lemma wfb b : wf96 d [mz; mz] [b; b] [mb; mb] [I1; I1] None.
Proof. apply wf_two; [lia|apply I1s|apply I1p|apply I1s|apply I1p]. Qed.
Lemma uavg_mpt0 b : uavg d (fun r => mpt d vz mz b mb I1 r 0) = c 0%nat * (W1 d - W0) - b 0%nat.
Proof.
  rewrite (uavg_mpt d vz mz b mb I1 (dg c) 0 ltac:(lia) I1s I1p I1r) by lia.
  rewrite border_avg. rewrite (Rsum_z d) by (intros; ring). ring.
Qed.
Lemma dth_wrong P : P 0%nat 0%nat <> 0 -> exists th dt A B M S obs e,
  wf96 d A B M S obs /\ l96_energy (K:=RNum) solve d th P dt A B M S obs = Ok e /\
  ~ is_derive (fun t => esde_of (l96_energy (K:=RNum) solve d (vset 0 t th) P dt A B M S obs)) (th 0%nat) (n_dth e 0%nat).
Proof.
  intros HP.
  destruct (l96_grid_wf solve Hsol d vz P 1 _ _ _ _ _ (wfb vz)) as (e & E & _ & _ & _ & G & _).
  exists vz, 1, [mz; mz], [vz; vz], [mb; mb], [I1; I1], None, e. split; [apply wfb|]. split; [exact E|].
  intros D.
  assert (D' : is_derive (fun t => esde_of (l96_energy (K:=RNum) solve d (vset 0 t vz) P 1 [mz; mz] [vz; vz] [mb; mb] [I1; I1] None)) 0
     (P 0%nat 0%nat * (c 0%nat * (W1 d - W0)))).
  { apply (is_derive_ext (fun t => uavg d (hpt d (vset 0 t vz) (fun j => P j j) mz vz mb I1))).
    { intros t. rewrite (esde_wf solve Hsol) by apply wfb. cbn [length]. rewrite trap2. cbn [nth]. req. field. }
    evar_last; [exact (e96_dth d vz (fun j => P j j) mz vz mb I1 0 ltac:(lia) ltac:(lia))|].
    rewrite uavg_mpt0. ring. }
  pose proof (eq_trans (eq_sym (is_derive_unique _ _ _ D)) (is_derive_unique _ _ _ D')) as Q.
  rewrite G in Q. cbn [length] in Q. rewrite trap2 in Q. cbn [nth] in Q. rewrite own_avg in Q.
  rewrite (Rsum_z d) in Q by (intros; ring).
  replace ((0 + 0 - 0 + (0 + 0 - 0)) / 2) with 0 in Q by field. rewrite Rmult_0_r in Q.
  symmetry in Q. apply Rmult_integral in Q as [Q|Q]; [exact (HP Q)|exact (gap Q)].
Qed.

(** b moves entry 0 of the misfit *)
Definition bb (be : R) : nat -> R := fun i => if Nat.eqb i 0 then be else 0.
Lemma hmis_b P A f x r be :
  hmis d P A (bb be) f x r = hmis d P A vz f x r - be * P 0%nat 0%nat * misfit d A vz f x r 0 + 1 / 2 * P 0%nat 0%nat * be ^ 2.
Proof.
  unfold hmis.
  rewrite (Rsum_ext d (fun j => P j j * misfit d A (bb be) f x r j ^ 2)
    (fun j => P j j * misfit d A vz f x r j ^ 2 + (if Nat.eqb j 0 then P 0%nat 0%nat * (be ^ 2 - 2 * be * misfit d A vz f x r 0) else 0))).
  - rewrite Rsum_plus. rewrite (Rsum_single d (fun j => if Nat.eqb j 0 then _ else 0) 0%nat ltac:(lia)).
    + cbn [Nat.eqb]. field.
    + intros j _ Hj. destruct (Nat.eqb_spec j 0); [lia|reflexivity].
  - intros j Hj. unfold misfit, bb. destruct (Nat.eqb_spec j 0) as [->|]; ring.
Qed.
Lemma own_wrong : exists th P dt A B M S obs L e,
  wf96 d A B M S obs /\ symm d P /\ posdef d P /\
  (forall k, (k < length A)%nat -> scaled_root d (gm S k) (L k)) /\
  l96_energy (K:=RNum) solve d th P dt A B M S obs = Ok e /\
  n_sde e <> trap (length A) (fun k => let x := sig_pt d (gv M k) (L k) in
                uavg d (hmis d P (gm A k) (gv B k) (own_drift d th x) x)) dt.
Proof.
  set (x := sig_pt d mb (dg c)). set (fr := ring_drift (2 * d + 1) d vz x). set (fo := own_drift d vz x).
  set (Eg := fun f be => uavg d (hmis d I1 mz (bb be) f x)).
  assert (HE : forall be, exists e, l96_energy (K:=RNum) solve d vz I1 1 [mz; mz] [bb be; bb be] [mb; mb] [I1; I1] None = Ok e /\ n_sde e = Eg fr be).
  { intros be. destruct (l96_grid_wf solve Hsol d vz I1 1 _ _ _ _ _ (wfb (bb be))) as (e & E & G & _).
    exists e. split; [exact E|]. rewrite G. cbn [length]. rewrite trap2. cbn [nth].
    rewrite (uavg_ext d (hpt d vz (fun j => I1 j j) mz (bb be) mb I1) (hmis d I1 mz (bb be) fr x)).
    - unfold Eg. change (car RNum) with R; field.
    - intros r Hr. apply (hpt_root d I1 (dg c) ltac:(lia) I1s I1p I1r). exact Hr. }
  assert (Hb : forall f be, Eg f be = Eg f 0 - be * uavg d (fun r => misfit d mz vz f x r 0) + 1 / 2 * be ^ 2).
  { intros f be. unfold Eg.
    rewrite (uavg_ext d _ (fun r => hmis d I1 mz vz f x r + (- be * misfit d mz vz f x r 0 + 1 / 2 * be ^ 2))).
    2:{ intros r Hr. rewrite hmis_b. change (I1 0%nat 0%nat) with 1. ring. }
    rewrite (uavg_ext d (hmis d I1 mz (bb 0) f x) (hmis d I1 mz vz f x)).
    2:{ intros r Hr. rewrite hmis_b. ring. }
    rewrite uavg_plus, uavg_plus, uavg_scal, uavg_const by lia. ring. }
  assert (Hr : uavg d (fun r => misfit d mz vz fr x r 0) = c 0%nat * (W1 d - W0)).
  { rewrite (uavg_ext d _ (fun r => mpt d vz mz vz mb I1 r 0)); [rewrite uavg_mpt0; ring|].
    intros r Hr. symmetry. apply (mpt_root d I1 (dg c) ltac:(lia) I1s I1p I1r); [exact Hr|lia]. }
  assert (Ho : uavg d (fun r => misfit d mz vz fo x r 0) = 0).
  { rewrite (uavg_ext d _ (fun r => f96 d vz (x r) 0)).
    - etransitivity; [exact (E96_any d _ mb I1 vz 0%nat ltac:(lia) (uavg_expect d I1 (dg c) ltac:(lia) I1r mb))|apply own_avg].
    - intros r _. unfold misfit, fo, own_drift. rewrite (Rsum_z d) by (intros; ring). ring. }
  assert (HT : forall be, trap 2 (fun k => uavg d (hmis d I1 mz (bb be) fo x)) 1 = Eg fo be).
  { intros be. rewrite trap2. unfold Eg. field. }
  assert (HW : forall be e, l96_energy (K:=RNum) solve d vz I1 1 [mz; mz] [bb be; bb be] [mb; mb] [I1; I1] None = Ok e ->
    n_sde e <> Eg fo be ->
    exists th P dt A B M S obs L e,
      wf96 d A B M S obs /\ symm d P /\ posdef d P /\
      (forall k, (k < length A)%nat -> scaled_root d (gm S k) (L k)) /\
      l96_energy (K:=RNum) solve d th P dt A B M S obs = Ok e /\
      n_sde e <> trap (length A) (fun k => let x := sig_pt d (gv M k) (L k) in
                    uavg d (hmis d P (gm A k) (gv B k) (own_drift d th x) x)) dt).
  { intros be e He Hne. exists vz, I1, 1, [mz; mz], [bb be; bb be], [mb; mb], [I1; I1], None, (fun _ => dg c), e.
    split; [apply wfb|]. split; [apply I1s|]. split; [apply I1p|]. split; [|split; [exact He|]].
    - intros k Hk. destruct k as [|[|k]]; [apply I1r|apply I1r|cbn in Hk; lia].
    - cbn [length]. rewrite trap2. cbn [nth]. cbn zeta. fold x. fold fo. rewrite <- HT, trap2 in Hne. exact Hne. }
  destruct (HE 0) as (e0 & E0 & G0). destruct (HE 1) as (e1 & E1 & G1).
  destruct (Req_dec (n_sde e0) (Eg fo 0)) as [Q0|Q0]; [|exact (HW 0 e0 E0 Q0)].
  apply (HW 1 e1 E1). intros Q1. rewrite G0 in Q0. rewrite G1, (Hb fr 1), (Hb fo 1), Hr, Ho, Q0 in Q1.
  apply gap. lra.
Qed.

(** Gaussian expectations *)
Definition ql (j : nat) : list qterm :=
  [(1, Some (nxt d j), Some (prv d j)); (-1, Some (prv d (prv d j)), Some (prv d j))].
Lemma ql_ok j : (j < d)%nat -> qok d (ql j).
Proof. intros Hj. repeat (constructor; [cbn; auto using nxt_lt, prv_lt|]). constructor. Qed.
Let Gq : nat -> R := fun j => qexp vz I1 (ql j) (ql j).
Lemma gauss_e P : E_mvn d vz I1 (fun x => 1 / 2 * Rsum d (fun j => P j j * (f96 d vz x j - glin d I1 vz x j) ^ 2))
  (1 / 2 * Rsum d (fun j => P j j * Gq j)).
Proof.
  apply E_mvn_scal. apply (E_mvn_sum d vz I1 d (fun j x => P j j * (f96 d vz x j - glin d I1 vz x j) ^ 2)).
  intros j Hj. apply (E_mvn_scal d vz I1 (fun x => (f96 d vz x j - glin d I1 vz x j) ^ 2)).
  apply (E_mvn_qq_eq d vz I1 (ql j) (ql j)); [apply ql_ok, Hj|apply ql_ok, Hj| |reflexivity].
  intros x. unfold glin. unfold I1. rewrite dg_sum by exact Hj. unfold f96. cbn. ring.
Qed.
Lemma Gq2 : Gq 2 = 2.
Proof.
  unfold Gq, ql.
  assert (N : nxt d 2 = 3%nat) by (unfold nxt; destruct (Nat.eqb_spec (2 + 1) d); lia).
  rewrite N. change (prv d 2) with 1%nat. change (prv d 1) with 0%nat.
  cbn [qexp qexp1]. unfold mon4, wick. cbn [fam4 ival icov]. unfold I1, dg. cbn [Nat.eqb]. ring.
Qed.
Lemma U_0 : uavg d (fun r => mpt d vz I1 vz vz I1 r 2 ^ 2) = 0.
Proof.
  set (g := fun a b _ e : R => ((e - a) * b) ^ 2).
  transitivity (uavg d (fun r => let x := sig_pt d vz (dg c) r in g (x 0%nat) (x 1%nat) (x 2%nat) (x 3%nat))).
  { apply uavg_ext. unfold g. intros r Hr. unfold I1 at 1. rewrite (mpt_2 d 1 _ I1 (dg c) r Hd I1s I1p I1r Hr). cbn zeta. ring. }
  rewrite uavg4 by exact Hd. unfold g. cbn zeta beta. ring.
Qed.
Lemma gauss_wrong : exists th P dt A B M S obs g e,
  wf96 d A B M S obs /\ symm d P /\ posdef d P /\
  (forall k, (k < length A)%nat -> E_mvn d (gv M k) (gm S k)
     (fun x => 1 / 2 * Rsum d (fun j => P j j * (f96 d th x j - glin d (gm A k) (gv B k) x j) ^ 2)) (g k)) /\
  (forall k, (k < length A)%nat -> exists L, is_root d L (gm S k)) /\
  l96_energy (K:=RNum) solve d th P dt A B M S obs = Ok e /\ n_sde e <> trap (length A) g dt.
Proof.
  set (gP := fun P : nat -> nat -> R => 1 / 2 * Rsum d (fun j => P j j * Gq j)).
  assert (HR : is_root d (dg (fun _ => 1)) I1).
  { intros i j Hi Hj. rewrite dg_sum by exact Hi. unfold I1, dg. rewrite (Nat.eqb_sym j i). ring. }
  assert (HW : forall P e, symm d P -> posdef d P ->
     l96_energy (K:=RNum) solve d vz P 1 [I1; I1] [vz; vz] [vz; vz] [I1; I1] None = Ok e -> n_sde e <> gP P ->
     exists th P dt A B M S obs g e,
       wf96 d A B M S obs /\ symm d P /\ posdef d P /\
       (forall k, (k < length A)%nat -> E_mvn d (gv M k) (gm S k)
          (fun x => 1 / 2 * Rsum d (fun j => P j j * (f96 d th x j - glin d (gm A k) (gv B k) x j) ^ 2)) (g k)) /\
       (forall k, (k < length A)%nat -> exists L, is_root d L (gm S k)) /\
       l96_energy (K:=RNum) solve d th P dt A B M S obs = Ok e /\ n_sde e <> trap (length A) g dt).
  { intros P e Hs Hp He Hne. exists vz, P, 1, [I1; I1], [vz; vz], [vz; vz], [I1; I1], None, (fun _ => gP P), e.
    split; [apply wfI|]. split; [exact Hs|]. split; [exact Hp|]. split; [|split; [|split; [exact He|]]].
    - intros k Hk. destruct k as [|[|k]]; [apply gauss_e|apply gauss_e|cbn in Hk; lia].
    - intros k Hk. exists (dg (fun _ => 1)). destruct k as [|[|k]]; [exact HR|exact HR|cbn in Hk; lia].
    - cbn [length]. rewrite trap2. intros Q. apply Hne. rewrite Q. req. field. }
  assert (HE : forall P, exists e, l96_energy (K:=RNum) solve d vz P 1 [I1; I1] [vz; vz] [vz; vz] [I1; I1] None = Ok e /\
     n_sde e = 1 / 2 * Rsum d (fun j => P j j * T96 d vz 1 [I1; I1] [vz; vz] [vz; vz] [I1; I1] j)).
  { intros P. destruct (l96_grid_wf solve Hsol d vz P 1 _ _ _ _ _ (wfI vz vz)) as (e & E & _).
    exists e. split; [exact E|]. rewrite <- (esde_T solve Hsol d vz P 1 _ _ _ _ None (wfI vz vz)). rewrite E. reflexivity. }
  destruct (HE P1) as (e1 & E1 & Q1). destruct (HE P2) as (e2 & E2 & Q2).
  destruct (Req_dec (n_sde e1) (gP P1)) as [G1|G1]; [|apply (HW P1 e1); try assumption; apply P1_ok].
  apply (HW P2 e2); try assumption; try apply P2_ok. intros G2. unfold gP in G1, G2.
  rewrite P12_sum in Q2, G2 by lia. rewrite Q1 in G1. rewrite Q2, Gq2 in G2.
  assert (T2 : T96 d vz 1 [I1; I1] [vz; vz] [vz; vz] [I1; I1] 2 = 0).
  { unfold T96. cbn [length]. rewrite trap2. cbn [nth]. rewrite U_0. field. }
  rewrite T2 in G2. lra.
Qed.
End Wit.
