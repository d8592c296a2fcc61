(** * One iteration of the optimiser on a quadratic objective: vectors as functions *)
From Coq Require Import List Bool Arith Reals Lra Lia FunctionalExtensionality.
From Verif Require Import Spec_Utils Spec_Quad P_Det P_RMat.
Import ListNotations.
Local Open Scope R_scope.

Definition vax (x : nat -> R) (t : R) (d : nat -> R) : nat -> R := fun i => x i + t * d i.
Section Quad.
Variables (n : nat) (Q : nat -> nat -> R) (b : nat -> R) (c l L : R).
Hypothesis HQ : between n l L Q.
Notation dot := (rdot n). Notation A := (rmv n Q).
Definition qF (x : nat -> R) : R := c + dot b x + / 2 * dot x (A x).
Definition qG (x : nat -> R) : nat -> R := fun i => b i + A x i.

Lemma dot_ax_l x t d u : dot (vax x t d) u = dot x u + t * dot d u.
Proof. unfold rdot, vax. rewrite <- Rsum_scal, <- Rsum_plus. apply Rsum_ext; intros; ring. Qed.
Lemma dot_ax_r x t d u : dot u (vax x t d) = dot u x + t * dot u d.
Proof. rewrite (rdot_comm n u (vax x t d)), dot_ax_l, (rdot_comm n x), (rdot_comm n d). ring. Qed.
Lemma A_ax x t d : A (vax x t d) = vax (A x) t (A d).
Proof.
  apply functional_extensionality; intros i. unfold rmv, vax. rewrite <- Rsum_scal, <- Rsum_plus. apply Rsum_ext; intros; ring.
Qed.
Lemma dot_sq v : dot v v = Rsum n (fun i => v i ^ 2).
Proof. apply Rsum_ext; intros; ring. Qed.
Lemma Hl : 0 < l. Proof. apply HQ. Qed.
Lemma HL : l <= L. Proof. apply HQ. Qed.
Lemma A_lo v : l * dot v v <= dot v (A v).
Proof. destruct HQ as (_ & _ & H). rewrite dot_sq, rdot_rmv. apply H. Qed.
Lemma A_hi v : dot v (A v) <= L * dot v v.
Proof. destruct HQ as (_ & _ & H). rewrite dot_sq, rdot_rmv. apply H. Qed.
Lemma A_sym u v : dot u (A v) = dot (A u) v.
Proof. apply rdot_rmv_sym. apply HQ. Qed.
Lemma G_ax x t d : qG (vax x t d) = vax (qG x) t (A d).
Proof. apply functional_extensionality; intros i. unfold qG. rewrite A_ax. unfold vax. ring. Qed.
Lemma dot_G_l x u : dot (qG x) u = dot b u + dot (A x) u.
Proof. unfold rdot, qG. rewrite <- Rsum_plus. apply Rsum_ext; intros; ring. Qed.
Lemma dot_G x u : dot u (qG x) = dot u b + dot u (A x).
Proof. unfold rdot, qG. rewrite <- Rsum_plus. apply Rsum_ext; intros; ring. Qed.
Lemma F_ax x t d : qF (vax x t d) = qF x + t * dot d (qG x) + t * t / 2 * dot d (A d).
Proof.
  unfold qF. rewrite A_ax, dot_ax_r, dot_ax_l, !dot_ax_r, dot_G, (A_sym x d), (rdot_comm n d b), (rdot_comm n d (A x)). field.
Qed.
(** |Av|^2 <= L v'Av *)
Lemma A_norm v : dot (A v) (A v) <= L * L * dot v v.
Proof.
  pose proof Hl. pose proof HL.
  (* 0 <= (w - t v)' A (w - t v) with w = A v *)
  assert (K : dot (A v) (A v) <= L * dot v (A v)).
  { set (w := A v). pose proof (rdot_self_nonneg n w) as W0. destruct W0 as [W0|W0].
    - set (p := dot v w). set (q := dot w (A w)).
      assert (Hq : q <= L * dot w w) by apply A_hi.
      assert (Hq0 : l * dot w w <= q) by apply A_lo.
      assert (Hq1 : 0 < q) by (assert (0 < l * dot w w) by (apply Rmult_lt_0_compat; assumption); lra).
      pose proof (A_lo (vax v (- (dot w w / q)) w)) as B. pose proof (rdot_self_nonneg n (vax v (- (dot w w / q)) w)) as B1.
      assert (B2 : 0 <= dot (vax v (- (dot w w / q)) w) (A (vax v (- (dot w w / q)) w))).
      { eapply Rle_trans; [|exact B]. apply Rmult_le_pos; lra. }
      clear B B1. rewrite A_ax, dot_ax_l, !dot_ax_r in B2. rewrite (A_sym v w) in B2. fold w in B2. fold p q in B2.
      replace (p + - (dot w w / q) * dot w w + - (dot w w / q) * (dot w w + - (dot w w / q) * q))
        with (p - dot w w * dot w w / q) in B2 by (field; lra).
      assert (B3 : dot w w * dot w w <= p * q).
      { apply Rmult_le_reg_r with (/ q); [apply Rinv_0_lt_compat; exact Hq1|].
        replace (p * q * / q) with p by (field; lra). unfold Rdiv in B2. lra. }
      assert (0 < p) by (destruct (Rlt_le_dec 0 p); [assumption|nra]).
      assert (B4 : dot w w * dot w w <= L * p * dot w w) by nra.
      apply Rmult_le_reg_r with (dot w w); [exact W0|exact B4].
    - fold w. rewrite <- W0. apply Rmult_le_pos; [lra|]. pose proof (A_lo v). pose proof (rdot_self_nonneg n v).
      fold w in H1. nra. }
  pose proof (A_hi v). nra.
Qed.
(** strong convexity *)
Lemma F_gap x z : qF x - qF z <= dot (qG x) (qG x) / (2 * l).
Proof.
  pose proof Hl as Pl. assert (E : z = vax x 1 (rvsub z x)) by (apply functional_extensionality; intros i; unfold vax, rvsub; ring).
  rewrite E, F_ax. set (d := rvsub z x). pose proof (A_lo d) as B.
  pose proof (rdot_self_nonneg n (vax (qG x) l d)) as C. rewrite dot_ax_l, !dot_ax_r in C. rewrite (rdot_comm n (qG x) d) in C.
  set (gg := dot (qG x) (qG x)) in *. set (dg := dot d (qG x)) in *. set (dd := dot d d) in *.
  apply Rmult_le_reg_r with (2 * l); [lra|]. replace (gg / (2 * l) * (2 * l)) with gg by (field; lra). nra.
Qed.
Lemma F_dist x z : (forall i, (i < n)%nat -> qG z i = 0) -> l / 2 * dot (rvsub x z) (rvsub x z) <= qF x - qF z.
Proof.
  intros Hz. assert (E : x = vax z 1 (rvsub x z)) by (apply functional_extensionality; intros i; unfold vax, rvsub; ring).
  rewrite E at 3. rewrite F_ax. set (d := rvsub x z). pose proof (A_lo d).
  replace (dot d (qG z)) with 0 by (symmetry; apply Rsum_z; intros i Hi; rewrite (Hz i Hi); ring). lra.
Qed.

(** ** One iteration: gradient g = G x, direction d, scale be *)
Section Step.
Variables (x d : nat -> R) (be : R).
Let g := qG x.
Let mu := dot d g. Let ka := dot d d. Let th := dot d (A d). Let de := th + be * ka.
Hypothesis Hbe : 0 < be. Hypothesis Hka : 0 < ka. Hypothesis Hmu : mu <= - dot g g. Hypothesis Hg : 0 < dot g g.
Let al := - (mu / de).
Let x' := vax x al d. Let g' := qG x'.
Lemma st_th : 0 < th.
Proof. pose proof (A_lo d). pose proof Hl. fold ka th in H. assert (0 < l * ka) by (apply Rmult_lt_0_compat; assumption). lra. Qed.
Lemma st_de : 0 < de.
Proof. pose proof st_th. assert (0 < be * ka) by (apply Rmult_lt_0_compat; assumption). unfold de. lra. Qed.
Lemma st_al : 0 < al.
Proof. pose proof st_de. unfold al. replace (- (mu / de)) with ((- mu) / de) by (field; lra). apply Rdiv_lt_0_compat; lra. Qed.
Lemma st_dec : qF x' - qF x = al * mu * (1 - th / (2 * de)).
Proof. pose proof st_de. unfold x'. rewrite F_ax. fold g mu th. unfold al. field. lra. Qed.
(** comparison ratio *)
Lemma st_ratio : 2 * (qF x' - qF x) / (al * mu) = 2 - th / de.
Proof. pose proof st_de. pose proof st_al. rewrite st_dec. field. split; [lra|]. split; lra. Qed.
Lemma st_ratio_ge : 1 <= 2 - th / de.
Proof.
  pose proof st_de. assert (th / de <= 1); [|lra]. apply Rmult_le_reg_r with de; [assumption|].
  replace (th / de * de) with th by (field; lra). unfold de. assert (0 < be * ka) by (apply Rmult_lt_0_compat; assumption). lra.
Qed.
(** d'g' <= 0 *)
Lemma st_dg : dot d g' = mu * (be * ka / de).
Proof. pose proof st_de. unfold g', x'. rewrite G_ax, dot_ax_r. fold g mu th. unfold al. unfold de in *. field. lra. Qed.
Lemma st_dg_le : dot d g' <= 0.
Proof.
  pose proof st_de. rewrite st_dg. assert (0 < be * ka / de) by (apply Rdiv_lt_0_compat; [apply Rmult_lt_0_compat; assumption|assumption]). nra.
Qed.
(** conjugation coefficient *)
Let ga := Rmax (dot g' (rvsub g g') / mu) 0.
Lemma st_ga : dot g' (rvsub g g') / mu = dot g' (A d) / de.
Proof.
  pose proof st_de. replace (dot g' (rvsub g g')) with (- al * dot g' (A d)).
  - unfold al. field. split; lra.
  - assert (E : forall u, dot u g' = dot u g + al * dot u (A d)) by (intros u; unfold g', x'; rewrite G_ax, dot_ax_r; reflexivity).
    rewrite rdot_sub_r, (E g'). ring.
Qed.
Let d' := fun i => ga * d i - g' i.
Lemma d'_ax : d' = vax (fun i => - g' i) ga d.
Proof. apply functional_extensionality; intros i. unfold d', vax. ring. Qed.
Lemma dot_opp_l u v : dot (fun i => - u i) v = - dot u v.
Proof. unfold rdot. rewrite <- Rsum_opp. apply Rsum_ext; intros; ring. Qed.
Lemma st_mu' : dot d' g' <= - dot g' g'.
Proof.
  rewrite d'_ax, dot_ax_l, dot_opp_l. pose proof st_dg_le. assert (0 <= ga) by apply Rmax_r. nra.
Qed.
(** size of the new direction *)
Lemma st_d' : dot d' d' <= (1 + L / l) ^ 2 * dot g' g'.
Proof.
  pose proof Hl as Pl. pose proof HL as PL. pose proof st_de as Pde. pose proof (A_lo d) as Blo. fold th ka in Blo.
  assert (HR : 1 <= L / l). { apply Rmult_le_reg_r with l; [assumption|]. replace (L / l * l) with L by (field; lra). lra. }
  set (r := L / l) in *. set (gg := dot g' g'). assert (Hgg : 0 <= gg) by apply rdot_self_nonneg.
  assert (Hga0 : 0 <= ga) by apply Rmax_r.
  (* ga^2 ka <= r^2 gg *)
  assert (H1 : ga * ga * ka <= r * r * gg).
  { unfold ga. rewrite st_ga. unfold Rmax. destruct (Rle_dec (dot g' (A d) / de) 0) as [H|H].
    - rewrite !Rmult_0_l. apply Rmult_le_pos; [nra|exact Hgg].
    - pose proof (cauchy_schwarz n g' (A d)) as CS. pose proof (A_norm d) as AN. fold gg in CS. fold ka in AN.
      set (u := dot g' (A d)) in *.
      replace (u / de * (u / de) * ka) with (u * u * ka / (de * de)) by (field; lra).
      apply Rle_trans with (gg * (L * L * ka) * ka / (de * de)).
      + unfold Rdiv. apply Rmult_le_compat_r; [left; apply Rinv_0_lt_compat, Rmult_lt_0_compat; assumption|].
        apply Rmult_le_compat_r; [lra|]. eapply Rle_trans; [exact CS|]. apply Rmult_le_compat_l; assumption.
      + assert (K : l * ka <= de) by (unfold de; assert (0 < be * ka) by (apply Rmult_lt_0_compat; assumption); lra).
        apply Rmult_le_reg_r with (de * de); [apply Rmult_lt_0_compat; assumption|].
        replace (gg * (L * L * ka) * ka / (de * de) * (de * de)) with (gg * (r * r) * ((l * ka) * (l * ka)))
          by (unfold r; field; lra).
        rewrite (Rmult_comm (r * r) gg). apply Rmult_le_compat_l; [apply Rmult_le_pos; [exact Hgg|nra]|].
        assert (0 < l * ka) by (apply Rmult_lt_0_compat; assumption). nra. }
  (* -2 ga d'g' <= 2 r gg by Cauchy-Schwarz *)
  assert (H2 : - dot d g' * ga <= r * gg).
  { pose proof (cauchy_schwarz n d g') as CS. fold ka gg in CS. set (u := dot d g') in *. pose proof st_dg_le as U. fold u in U.
    assert (0 <= r * gg) by (apply Rmult_le_pos; lra).
    apply Rsqr_incr_0_var; [|assumption]. unfold Rsqr.
    apply Rle_trans with ((ga * ga * ka) * gg).
    - replace (- u * ga * (- u * ga)) with (ga * ga * (u * u)) by ring.
      replace (ga * ga * ka * gg) with (ga * ga * (ka * gg)) by ring. apply Rmult_le_compat_l; [nra|exact CS].
    - replace (r * gg * (r * gg)) with ((r * r * gg) * gg) by ring. apply Rmult_le_compat_r; [exact Hgg|exact H1]. }
  assert (E : dot d' d' = gg - 2 * ga * dot d g' + ga * ga * ka).
  { rewrite d'_ax, dot_ax_l, !dot_ax_r, !dot_opp_l, (rdot_comm n d (fun i => - g' i)), (rdot_comm n g' (fun i => - g' i)), !dot_opp_l, (rdot_comm n g' d).
    fold gg ka. ring. }
  rewrite E. nra.
Qed.
(** decrease of the objective *)
Lemma st_rate_gen cd z : 0 < cd -> be <= 1 -> ka <= cd * dot g g ->
  qF x' - qF z <= (1 - l / ((L + 1) * cd)) * (qF x - qF z).
Proof.
  intros Hcd Hb1 Hd. pose proof Hl as Pl. pose proof HL as PL. pose proof st_de as Pde. pose proof st_al as Pal. pose proof st_ratio_ge as R1.
  pose proof (F_gap x z) as GAP. fold g in GAP. set (gg := dot g g) in *.
  assert (T : th <= L * ka) by apply A_hi.
  assert (D : de <= (L + 1) * (cd * gg)).
  { unfold de. assert (be * ka <= 1 * ka) by (apply Rmult_le_compat_r; lra). assert ((L + 1) * ka <= (L + 1) * (cd * gg)) by (apply Rmult_le_compat_l; lra). lra. }
  assert (M : gg * gg <= mu * mu) by nra.
  assert (DEC : qF x - qF x' >= gg / (2 * ((L + 1) * cd))).
  { pose proof st_dec as S. assert (S2 : qF x - qF x' = mu * mu / de * (1 - th / (2 * de))).
    { replace (qF x - qF x') with (- (qF x' - qF x)) by ring. rewrite S. unfold al. field. lra. }
    rewrite S2. apply Rle_ge.
    assert (HF : / 2 <= 1 - th / (2 * de)) by (replace (th / (2 * de)) with (th / de / 2) by (field; lra); lra).
    apply Rle_trans with (mu * mu / de * / 2).
    - apply Rmult_le_reg_r with (2 * (de * ((L + 1) * cd))).
      { apply Rmult_lt_0_compat; [lra|]. apply Rmult_lt_0_compat; [assumption|]. apply Rmult_lt_0_compat; lra. }
      replace (gg / (2 * ((L + 1) * cd)) * (2 * (de * ((L + 1) * cd)))) with (gg * de) by (field; split; lra).
      replace (mu * mu / de * / 2 * (2 * (de * ((L + 1) * cd)))) with (mu * mu * ((L + 1) * cd)) by (field; lra).
      apply Rle_trans with (gg * ((L + 1) * (cd * gg))); [apply Rmult_le_compat_l; lra|].
      replace (gg * ((L + 1) * (cd * gg))) with (gg * gg * ((L + 1) * cd)) by ring.
      apply Rmult_le_compat_r; [left; apply Rmult_lt_0_compat; lra|exact M].
    - apply Rmult_le_compat_l; [|exact HF]. apply Rle_trans with (/ de * (mu * mu)); [|right; field; lra].
      apply Rmult_le_pos; [left; apply Rinv_0_lt_compat; assumption|nra]. }
  assert (G2 : l / ((L + 1) * cd) * (qF x - qF z) <= gg / (2 * ((L + 1) * cd))).
  { assert (0 < (L + 1) * cd) by (apply Rmult_lt_0_compat; lra).
    apply Rle_trans with (l / ((L + 1) * cd) * (gg / (2 * l))).
    - apply Rmult_le_compat_l; [left; apply Rdiv_lt_0_compat; lra|exact GAP].
    - right. field. split; lra. }
  lra.
Qed.
Lemma st_strict : qF x' < qF x.
Proof.
  pose proof st_dec as S. pose proof st_al. pose proof st_ratio_ge. pose proof st_de.
  assert (0 < 1 - th / (2 * de)) by (replace (th / (2 * de)) with (th / de / 2) by (field; lra); lra).
  assert (al * mu < 0) by nra. nra.
Qed.
End Step.
End Quad.
