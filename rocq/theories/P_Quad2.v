(** * Runs of the optimiser on a quadratic objective *)
From Coq Require Import List Bool Arith ZArith Reals Lra Lia FunctionalExtensionality.
From Verif Require Import Num Arr ArrFacts M_Scg Spec_Utils Spec_Scg Spec_Quad P_Det P_RMat P_Scg P_ScgPure P_ScgR P_Quad.
Import ListNotations.
Local Open Scope R_scope.

Definition vf (x : list R) : nat -> R := fun i => nth i x 0.
Definition dot (u v : list R) : R := ldot (K:=RNum) u v.
Definition axl (x : list R) (t : R) (d : list R) : list R := ladd (K:=RNum) x (lscale (K:=RNum) t d).

Lemma dot_rdot n : forall u v, length u = n -> length v = n -> dot u v = rdot n (vf u) (vf v).
Proof.
  induction n as [|n IH]; intros [|a u] [|b v]; cbn [length]; intros Hu Hv; try lia; [reflexivity|].
  unfold dot. rewrite ldot_cons. unfold rdot. rewrite Rsum_shift. cbn [vf nth]. f_equal.
  apply IH; lia.
Qed.
Lemma vf_axl t : forall x d, length d = length x -> vf (axl x t d) = vax (vf x) t (vf d).
Proof.
  induction x as [|a x IH]; intros [|b d] H; cbn [length] in H; try lia; apply functional_extensionality; intros i; unfold vax.
  - unfold vf, axl. cbn. destruct i; cbn; ring.
  - specialize (IH d ltac:(lia)). destruct i as [|i]; [unfold vf, axl; cbn; reflexivity|].
    exact (f_equal (fun h => h i) IH).
Qed.
Lemma vf_lsub : forall x d, length d = length x -> vf (lsub (K:=RNum) x d) = rvsub (vf x) (vf d).
Proof.
  induction x as [|a x IH]; intros [|b d] H; cbn [length] in H; try lia; apply functional_extensionality; intros i; unfold rvsub.
  - unfold vf. cbn. destruct i; cbn; ring.
  - specialize (IH d ltac:(lia)). destruct i as [|i]; [unfold vf; cbn; reflexivity|].
    exact (f_equal (fun h => h i) IH).
Qed.
Lemma vf_lscale t : forall x, vf (lscale (K:=RNum) t x) = fun i => t * vf x i.
Proof.
  induction x as [|a x IH]; apply functional_extensionality; intros i.
  - unfold vf. cbn. destruct i; cbn; ring.
  - destruct i as [|i]; [reflexivity|]. exact (f_equal (fun h => h i) IH).
Qed.
Lemma vf_lopp : forall x, vf (lopp (K:=RNum) x) = fun i => - vf x i.
Proof.
  induction x as [|a x IH]; apply functional_extensionality; intros i.
  - unfold vf. cbn. destruct i; cbn; ring.
  - destruct i as [|i]; [reflexivity|]. exact (f_equal (fun h => h i) IH).
Qed.
Lemma len_axl x t d : length d = length x -> length (axl x t d) = length x.
Proof. intros H. unfold axl, ladd, lscale. rewrite map2_length, map_length. change (car RNum) with R in *. rewrite H. lia. Qed.
Lemma len_lsub (x d : list R) : length d = length x -> length (lsub (K:=RNum) x d) = length x.
Proof. intros H. unfold lsub. rewrite map2_length. change (car RNum) with R in *. rewrite H. lia. Qed.
Lemma len_lscale t (x : list R) : length (lscale (K:=RNum) t x) = length x.
Proof. apply map_length. Qed.
Lemma len_lopp (x : list R) : length (lopp (K:=RNum) x) = length x.
Proof. apply map_length. Qed.
Lemma len_grad n Q b x : length (quad_grad n Q b x) = n.
Proof. unfold quad_grad. rewrite map_length, seq_length. reflexivity. Qed.
Lemma npmax_R (a b : R) : npmax (K:=RNum) a b = Rmax a b.
Proof.
  unfold npmax. rnum. unfold Rmax. destruct (Rle_dec a b); destruct (Rleb_spec b a); try lra. destruct (Rleb_spec a b); lra.
Qed.

Section Quad.
Variables (n : nat) (Q : nat -> nat -> R) (b : nat -> R) (c l L : R).
Hypothesis HQ : between n l L Q.
Notation F := (quadratic n Q b c). Notation G := (quad_grad n Q b).
Notation qF' := (qF n Q b c). Notation qG' := (qG n Q b).
Lemma F_qF x : F x = qF' (vf x).
Proof. unfold quadratic, qF. rewrite rdot_rmv. reflexivity. Qed.
Lemma G_qG x i : (i < n)%nat -> vf (G x) i = qG' (vf x) i.
Proof.
  intros Hi. unfold vf, quad_grad. rewrite (nth_indep _ 0 (b 0 + Rsum n (fun j => Q 0 j * nth j x 0))) by (rewrite map_length, seq_length; exact Hi).
  rewrite (map_nth (fun i => b i + Rsum n (fun j => Q i j * nth j x 0))), seq_nth by exact Hi. reflexivity.
Qed.
Lemma dot_G u x : length u = n -> dot u (G x) = rdot n (vf u) (qG' (vf x)).
Proof. intros Hu. rewrite (dot_rdot n) by (try apply len_grad; exact Hu). apply rdot_ext; [reflexivity|]. intros; apply G_qG; assumption. Qed.
Lemma dot_GG x : dot (G x) (G x) = rdot n (qG' (vf x)) (qG' (vf x)).
Proof. rewrite (dot_G (G x) x (len_grad _ _ _ _)). apply rdot_ext; [|reflexivity]. intros; apply G_qG; assumption. Qed.

(** ** One iteration *)
Section Step.
Variables (x d : list R) (be : R).
Hypothesis Lx : length x = n. Hypothesis Ld : length d = n.
Hypothesis Hbe : 0 < be. Hypothesis Hka : 0 < dot d d.
Hypothesis Hmu : dot d (G x) <= - dot (G x) (G x). Hypothesis Hg : 0 < dot (G x) (G x).
Definition theta_of : R := rdot n (vf d) (rmv n Q (vf d)).
Definition alpha_of : R := - (dot d (G x) / (theta_of + be * dot d d)).
Definition next_x : list R := axl x alpha_of d.
Definition gamma_of : R := Rmax (dot (G next_x) (lsub (K:=RNum) (G x) (G next_x)) / dot d (G x)) 0.
Definition next_d : list R := lsub (K:=RNum) (lscale (K:=RNum) gamma_of d) (G next_x).
Lemma len_next : length next_x = n.
Proof. unfold next_x. rewrite len_axl by lia. exact Lx. Qed.
Lemma len_next_d : length next_d = n.
Proof. unfold next_d. rewrite len_lsub; rewrite len_lscale; [exact Ld|]. rewrite len_grad. lia. Qed.
Let fbe := Hbe.
Let fka : 0 < rdot n (vf d) (vf d). Proof. rewrite <- (dot_rdot n) by assumption. exact Hka. Qed.
Let fmu : rdot n (vf d) (qG' (vf x)) <= - rdot n (qG' (vf x)) (qG' (vf x)).
Proof. rewrite <- dot_GG, <- (dot_G d x Ld). exact Hmu. Qed.
Let fg : 0 < rdot n (qG' (vf x)) (qG' (vf x)). Proof. rewrite <- dot_GG. exact Hg. Qed.
Lemma alpha_eq : alpha_of = - (rdot n (vf d) (qG' (vf x)) / (rdot n (vf d) (rmv n Q (vf d)) + be * rdot n (vf d) (vf d))).
Proof. unfold alpha_of, theta_of. rewrite (dot_G d x Ld), (dot_rdot n d d) by assumption. reflexivity. Qed.
Lemma vf_next : vf next_x = vax (vf x) alpha_of (vf d).
Proof. apply vf_axl. lia. Qed.
Lemma s_theta sg : sg <> 0 -> dot d (lsub (K:=RNum) (G (axl x sg d)) (G x)) / sg = theta_of.
Proof.
  intros Hs. rewrite (dot_rdot n d) by (try (rewrite len_lsub; rewrite !len_grad; reflexivity); assumption).
  rewrite vf_lsub by (rewrite !len_grad; reflexivity). rewrite rdot_sub_r.
  rewrite <- !(dot_rdot n) by (try apply len_grad; assumption). rewrite !dot_G by assumption.
  rewrite vf_axl by lia. rewrite G_ax, dot_ax_r. unfold theta_of. field. exact Hs.
Qed.
Lemma s_de : 0 < theta_of + be * dot d d.
Proof. rewrite (dot_rdot n d d) by assumption. exact (st_de n Q l L HQ (vf d) be Hbe fka). Qed.
Lemma s_ka : dot (G x) (G x) <= dot d d.
Proof.
  pose proof (cauchy_schwarz n (vf d) (qG' (vf x))) as CS. rewrite <- (dot_G d x Ld), <- dot_GG, <- (dot_rdot n) in CS by assumption.
  set (gg := dot (G x) (G x)) in *. set (u := dot d (G x)) in *. assert (gg * gg <= u * u) by nra.
  apply Rmult_le_reg_r with gg; [exact Hg|]. lra.
Qed.
Lemma s_alpha : 0 < alpha_of.
Proof. rewrite alpha_eq. exact (st_al n Q b l L HQ (vf x) (vf d) be Hbe fka fmu fg). Qed.
Lemma s_ratio : 2 * (F next_x - F x) / (alpha_of * dot d (G x)) = 2 - theta_of / (theta_of + be * dot d d) /\
  1 <= 2 - theta_of / (theta_of + be * dot d d).
Proof.
  rewrite !F_qF, vf_next, (dot_G d x Ld), alpha_eq, (dot_rdot n d d) by assumption. split.
  - exact (st_ratio n Q b c l L HQ (vf x) (vf d) be Hbe fka fmu fg).
  - exact (st_ratio_ge n Q l L HQ (vf d) be Hbe fka).
Qed.
Lemma s_strict : F next_x < F x.
Proof. rewrite !F_qF, vf_next, alpha_eq. exact (st_strict n Q b c l L HQ (vf x) (vf d) be Hbe fka fmu fg). Qed.
Lemma gamma_eq : let g' := qG' (vax (vf x) alpha_of (vf d)) in
  gamma_of = Rmax (rdot n g' (rvsub (qG' (vf x)) g') / rdot n (vf d) (qG' (vf x))) 0.
Proof.
  cbv zeta. unfold gamma_of. f_equal. rewrite (dot_G d x Ld). f_equal. rewrite <- vf_next.
  rewrite (dot_rdot n) by (try (rewrite len_lsub; rewrite !len_grad; reflexivity); apply len_grad).
  rewrite vf_lsub by (rewrite !len_grad; reflexivity). apply rdot_ext; intros i Hi; [apply G_qG; exact Hi|].
  unfold rvsub. rewrite !G_qG by exact Hi. reflexivity.
Qed.
Lemma next_d_eq i : (i < n)%nat -> vf next_d i = gamma_of * vf d i - qG' (vf next_x) i.
Proof.
  intros Hi. unfold next_d. rewrite vf_lsub by (rewrite len_grad, len_lscale; lia). unfold rvsub. rewrite vf_lscale, G_qG by exact Hi. reflexivity.
Qed.
Lemma s_mu : dot next_d (G next_x) <= - dot (G next_x) (G next_x).
Proof.
  pose proof (st_mu' n Q b l L HQ (vf x) (vf d) be Hbe fka fmu fg) as S. rewrite <- alpha_eq in S. rewrite <- gamma_eq, <- vf_next in S.
  rewrite dot_GG, (dot_G next_d _ len_next_d). erewrite (rdot_ext n (vf next_d)); [exact S|apply next_d_eq|reflexivity].
Qed.
Lemma s_d : dot next_d next_d <= (1 + L / l) ^ 2 * dot (G next_x) (G next_x).
Proof.
  pose proof (st_d' n Q b l L HQ (vf x) (vf d) be Hbe fka fmu fg) as S. rewrite <- alpha_eq in S. rewrite <- gamma_eq, <- vf_next in S.
  rewrite dot_GG, (dot_rdot n) by apply len_next_d. erewrite (rdot_ext n (vf next_d)); [exact S|apply next_d_eq|apply next_d_eq].
Qed.
Lemma s_rate z : be <= 1 -> dot d d <= (1 + L / l) ^ 2 * dot (G x) (G x) ->
  F next_x - F z <= quad_rate l L * (F x - F z).
Proof.
  intros Hb1 Hd. rewrite !F_qF, vf_next, alpha_eq. unfold quad_rate.
  apply (st_rate_gen n Q b c l L HQ (vf x) (vf d) be Hbe fka fmu fg); [|exact Hb1|].
  - pose proof (Hl n Q l L HQ). pose proof (HL n Q l L HQ). apply pow_lt. assert (0 < L / l) by (apply Rdiv_lt_0_compat; lra). lra.
  - rewrite (dot_rdot n d d), dot_GG in Hd by assumption. exact Hd.
Qed.
End Step.

(** ** Whole runs *)
Variable P : list R -> list R -> Prop.
Variable ref : R -> Prop.
Variable q : R.
Hypothesis HP0 : forall x, length x = n -> P (lopp (K:=RNum) (G x)) (G x).
Hypothesis HPs : forall x d be, length x = n -> length d = n -> 0 < be -> be <= 1 -> 0 < dot d d -> dot d (G x) <= - dot (G x) (G x) ->
  0 < dot (G x) (G x) -> P d (G x) -> P (next_d x d be) (G (next_x x d be)).
Hypothesis Hrate : forall x d be, length x = n -> length d = n -> 0 < be -> be <= 1 -> 0 < dot d d -> dot d (G x) <= - dot (G x) (G x) ->
  0 < dot (G x) (G x) -> P d (G x) -> forall v, ref v -> F (next_x x d be) - v <= q * (F x - v).

Context {W : Type}.
Variable f : list R -> W -> result R * W.
Variable df : list R -> bool -> W -> result (list R) * W.
Hypothesis Hf : forall x w, length x = n -> fst (f x w) = Ok (F x).
Hypothesis Hdf : forall x e w, length x = n -> fst (df x e w) = Ok (G x).
Notation f' := (f : list RNum -> W -> result RNum * W).
Notation df' := (df : list RNum -> bool -> W -> result (list RNum) * W).

Lemma wp_fq x (R : RNum -> Stats RNum -> W -> Prop) E st w : length x = n ->
  (forall w', R (F x) st w') -> wp (call_f f' x) R E st w.
Proof.
  intros Hx HR. unfold wp, call_f. specialize (Hf x w Hx). change (car RNum) with Rdefinitions.R in *.
  destruct (f x w) as [r w']. cbn [fst] in Hf. subst r. apply HR.
Qed.
Lemma wp_dfq x e (R : list RNum -> Stats RNum -> W -> Prop) E st w : length x = n ->
  (forall w', R (G x) st w') -> wp (call_df df' x e) R E st w.
Proof.
  intros Hx HR. unfold wp, call_df. specialize (Hdf x e w Hx). change (car RNum) with Rdefinitions.R in *.
  destruct (df x e w) as [r w']. cbn [fst] in Hdf. subst r. apply HR.
Qed.

Definition scale (j : nat) : R := Rmax ((/ 2) ^ j) (/ 10 ^ 15).
Lemma small15 : 0 < / 10 ^ 15 <= 1.
Proof.
  split; [apply Rinv_0_lt_compat, pow_lt; lra|]. replace 1 with (/ 1) by apply Rinv_1. apply Rinv_le_contravar; [lra|]. apply pow_R1_Rle. lra.
Qed.
Lemma scale_pos j : 0 < scale j.
Proof. pose proof small15. unfold scale. eapply Rlt_le_trans; [|apply Rmax_r]. lra. Qed.
Lemma scale_le j : scale j <= 1.
Proof.
  pose proof small15. unfold scale. apply Rmax_lub; [|lra]. replace 1 with (1 ^ j) by apply pow1. apply pow_incr. lra.
Qed.
Lemma scale_S j : scale (S j) = Rmax (scale j / 2) (/ 10 ^ 15).
Proof.
  pose proof small15 as Hm. unfold scale. rewrite <- tech_pow_Rmult. set (m := / 10 ^ 15) in *. set (p := (/ 2) ^ j). unfold Rmax. destruct (Rle_dec p m).
  all: repeat match goal with |- context [Rle_dec ?a ?b] => destruct (Rle_dec a b) end; lra.
Qed.

Variable o : Opts RNum.
Variable x0 : list R.
Hypothesis Lx0 : length x0 = n.

(** value before iteration k *)
Definition before (st : Stats RNum) (k : nat) : R := match k with O => F x0 | Datatypes.S k' => nth k' (s_fx st) 0 end.
Definition hist (r : nat) (st : Stats RNum) : Prop :=
  length (s_fx st) = o_nit o /\ length (s_beta st) = o_nit o /\ (r <= o_nit o)%nat /\
  forall k, (k < r)%nat -> before st (Datatypes.S k) < before st k /\
    (forall v, ref v -> before st (Datatypes.S k) - v <= q * (before st k - v)) /\
    (nth k (s_beta st) 0 : R) = scale k.
Record qinv (j : nat) (s : Loc RNum) (st : Stats RNum) : Prop := {
  q_succ : l_success s = true;
  q_lx : length (l_x s) = n;
  q_ld : length (l_d s) = n;
  q_now : (l_fnow s : R) = F (l_x s);
  q_old : (l_fold s : R) = F (l_x s);
  q_g : l_gnew s = G (l_x s);
  q_beta : (l_beta s : R) = scale j;
  q_mu : dot (l_d s) (l_gnew s) <= - dot (l_gnew s) (l_gnew s);
  q_P : P (l_d s) (l_gnew s);
  q_start : (l_d s = lopp (l_gnew s) /\ j = O) \/ 1 / 100000000 < dot (l_gnew s) (l_gnew s);
  q_hist : hist j st;
  q_last : before st j = F (l_x s);
  q_it : s_maxit st = o_nit o }.
(** what holds when the run returns [out] *)
Definition done (out : list R * R) (st : Stats RNum) : Prop :=
  length (fst out) = n /\ snd out = F (fst out) /\
  exists r, hist r st /\ before st r = snd out /\ (r <= s_maxit st <= o_nit o)%nat /\
    ((r = o_nit o /\ s_maxit st = r) \/
     (dot (G (fst out)) (G (fst out)) <= 1 / 100000000) \/
     ((0 < r)%nat /\ s_maxit st = r /\ before st (r - 1) - snd out <= o_ftol o)).

Lemma nth_upd_same (k : nat) (v : R) (a : list R) : (k < length a)%nat -> nth k (upd k v a) 0 = v.
Proof. revert a. induction k as [|k IH]; intros [|u a]; cbn; intros H; try lia; [reflexivity|]. apply IH. lia. Qed.
Lemma nth_upd_other (k i : nat) (v : R) (a : list R) : i <> k -> nth i (upd k v a) 0 = nth i a 0.
Proof. revert i a. induction k as [|k IH]; intros [|i] [|u a] H; cbn; try reflexivity; try lia. apply IH. lia. Qed.
Lemma len_upd (k : nat) (v : R) (a : list R) : length (upd k v a) = length a.
Proof. revert a. induction k as [|k IH]; intros [|u a]; cbn; try reflexivity. f_equal. apply IH. Qed.
Lemma hist_next j st st' v : hist j st -> (j < o_nit o)%nat ->
  s_fx st' = upd j v (s_fx st) -> s_beta st' = upd j (scale j : R) (s_beta st) ->
  v < before st j -> (forall u, ref u -> v - u <= q * (before st j - u)) -> hist (Datatypes.S j) st' /\ before st' (Datatypes.S j) = v /\ before st' j = before st j.
Proof.
  intros (L1 & L2 & Hj & H) Hlt E1 E2 Hv Hr. unfold hist.
  assert (B : forall k, (k <= j)%nat -> before st' k = before st k).
  { intros [|k] Hk; [reflexivity|]. cbn [before]. rewrite E1. apply nth_upd_other. lia. }
  assert (B1 : before st' (Datatypes.S j) = v).
  { cbn [before]. rewrite E1. apply nth_upd_same. change (car RNum) with R in *. lia. }
  split; [|split; [exact B1|apply B; lia]].
  split; [rewrite E1; etransitivity; [apply len_upd|exact L1]|]. split; [rewrite E2; etransitivity; [apply len_upd|exact L2]|]. split; [lia|].
  intros k Hk. destruct (Nat.eq_dec k j) as [->|Hne].
  - rewrite B1, (B j (le_n _)). split; [exact Hv|]. split; [exact Hr|]. rewrite E2. apply nth_upd_same. change (car RNum) with R in *. lia.
  - rewrite (B (Datatypes.S k)), (B k) by lia. destruct (H k ltac:(lia)) as (A1 & A2 & A3). split; [exact A1|]. split; [exact A2|].
    rewrite E2. etransitivity; [apply nth_upd_other; exact Hne|exact A3].
Qed.

Lemma body_q j s st w : (j < o_nit o)%nat -> qinv j s st ->
  wp (scg_body f' df' o n j s)
     (fun r st' _ => match r with inl s' => qinv (Datatypes.S j) s' st' | inr out => done out st' end) (fun _ _ => False) st w.
Proof.
  intros Hj [I1 I2 I3 I4 I5 I6 I7 I8 I9 I10 I11 I12 I13].
  unfold scg_body, scg_directions. cbv zeta. rewrite I1.
  change (nle (n:=RNum)) with Rleb. change (nlt (n:=RNum)) with Rltb. change (nZ (K:=RNum) 0) with 0.
  set (x := l_x s : list R) in *. set (d := l_d s : list R) in *. rewrite I6 in *. set (g := G x) in *.
  change (ldot d g) with (dot d g).
  (* the direction is kept *)
  assert (Ed : (if Rleb 0 (dot d g) then lopp (K:=RNum) g else d) = d).
  { destruct (Rleb_spec 0 (dot d g)) as [H|H]; [|reflexivity]. destruct I10 as [[E _]|E]; [symmetry; exact E|].
    pose proof small15. lra. }
  rewrite Ed. replace (if Rleb 0 (dot d g) then ldot (K:=RNum) d g else dot d g) with (dot d g) by (destruct (Rleb 0 (dot d g)); reflexivity).
  change (ldot (K:=RNum) d d) with (dot d d).
  assert (Lg : length g = n) by apply len_grad.
  assert (CK : 0 < dot g g -> dot g g <= dot d d).
  { intros Hg. exact (s_ka x d I3 I8 Hg). }
  destruct (Rltb_spec (dot d d) (eps_float (K:=RNum))) as [H|H].
  { repeat wpstep. split; [exact I2|]. split; [exact I4|]. exists j. cbn [s_maxit fst snd]. split; [exact I11|]. split; [etransitivity; [exact I12|symmetry; exact I4]|].
    split; [lia|]. right. left. unfold eps_float in H. rnum_in_all. destruct I10 as [[E _]|E].
    - rewrite E in H. unfold dot in H at 1. change (car RNum) with R in *. rewrite ldot_opp_opp in H. change (dot g g <= 1 / 100000000). change (dot g g < 1 / 4503599627370496) in H. lra.
    - specialize (CK ltac:(lra)). lra. }
  assert (Hka : 0 < dot d d) by (pose proof eps_pos; lra).
  assert (Hgg : 0 < dot g g).
  { destruct I10 as [[E _]|E]; [|lra]. rewrite E in Hka. unfold dot in Hka at 1. change (car RNum) with R in *. rewrite ldot_opp_opp in Hka. exact Hka. }
  set (sg := ndiv (n:=RNum) (sigma0 (K:=RNum)) (nsqrt (n:=RNum) (dot d d)) : R).
  assert (Hsg : sg <> 0).
  { unfold sg, sigma0. rnum. assert (0 < sqrt (dot d d)) by (apply sqrt_lt_R0; exact Hka).
    apply Rgt_not_eq. apply Rdiv_lt_0_compat; lra. }
  change (ladd x (lscale sg d)) with (axl x sg d).
  apply wp_bind. apply wp_bind. apply wp_dfq; [rewrite len_axl; [exact I2|change (car RNum) with R in *; lia]|]. intros w1. wpstep. wpstep. wpstep.
  set (mu := dot d g) in *.
  replace (ndiv (n:=RNum) (ldot (K:=RNum) d (lsub (K:=RNum) (G (axl x sg d)) g)) sg) with (theta_of d)
    by (symmetry; exact (s_theta x d I2 I3 sg Hsg)).
  set (th := theta_of d).
  set (s1 := mkLoc _ _ _ _ _ _ _ _ _ _ _ _).
  set (be := scale j) in *.
  assert (Hbe : 0 < be) by apply scale_pos. assert (Hbe1 : be <= 1) by apply scale_le.
  assert (Hde : 0 < th + be * dot d d) by exact (s_de d be I3 Hbe Hka).
  assert (Ec : scg_curvature s1 = ((th + be * dot d d : R), (be : R))).
  { unfold scg_curvature, s1. cbn [l_theta l_beta l_kappa]. rewrite I7. rnum.
    destruct (Rleb_spec (th + be * dot d d) 0) as [Hc|Hc]; [exfalso; lra|reflexivity]. }
  assert (Ea : scg_alpha s1 = alpha_of x d be).
  { unfold scg_alpha. rewrite Ec. cbn [fst]. unfold s1. cbn [l_mu]. rnum. reflexivity. }
  unfold scg_step. cbv zeta. rewrite Ec, Ea. cbn [snd].
  change (ladd (l_x s1) (lscale (alpha_of x d be) (l_d s1))) with (next_x x d be).
  set (xn := next_x x d be).
  assert (Lxn : length xn = n) by exact (len_next x d be I2 I3).
  destruct (s_ratio x d be I2 I3 Hbe Hka I8 Hgg) as [Er Hr1]. fold xn in Er. fold g in Er. fold mu th in Er. fold th in Hr1.
  pose proof (s_strict x d be I2 I3 Hbe Hka I8 Hgg) as Hlt. fold xn in Hlt.
  pose proof (Hrate x d be I2 I3 Hbe Hbe1 Hka I8 Hgg I9) as Hq. fold xn in Hq.
  apply wp_bind. apply wp_fq; [exact Lxn|]. intros w2. wpstep. wpstep.
  replace (ndiv (n:=RNum) (nmul (n:=RNum) (nZ (K:=RNum) 2) (nsub (n:=RNum) (F xn) (l_fold s1))) (nmul (n:=RNum) (alpha_of x d be) (l_mu s1)))
    with (2 - th / (th + be * dot d d)).
  2:{ symmetry. unfold s1. cbn [l_fold l_mu]. rewrite I5. rnum. exact Er. }
  set (ra := 2 - th / (th + be * dot d d)) in *.
  change (nle (n:=RNum)) with Rleb. change (nZ (K:=RNum) 0) with 0.
  destruct (Rleb_spec 0 ra) as [Hra|Hra]; [|lra].
  wpstep. wpstep.
  match goal with |- wp _ _ _ ?t _ => set (st2 := t) end.
  destruct (hist_next j st st2 (F xn) I11 Hj eq_refl eq_refl) as (H2 & B2 & B2').
  { rewrite I12. exact Hlt. } { intros v Hv. rewrite I12. apply Hq. exact Hv. }
  match goal with |- wp (if ?c then _ else _) _ _ _ _ => destruct c eqn:Et end.
  { apply andb_prop in Et. destruct Et as [_ Et]. repeat wpstep.
    split; [exact Lxn|]. split; [reflexivity|]. cbn [fst snd s_maxit].
    exists (Datatypes.S j). split; [exact H2|]. split; [exact B2|]. split; [lia|]. right; right. split; [lia|]. split; [lia|].
    replace (Datatypes.S j - 1)%nat with j by lia. refine (eq_ind_r (fun u : R => u - F xn <= o_ftol o) _ (eq_trans B2' I12)).
    revert Et. unfold s1. cbn [l_fold]. rewrite I5. rnum. destruct (Rleb_spec (Rabs (F xn - F x)) (o_ftol o)) as [Ht|Ht]; [intros _|discriminate].
    rewrite Rabs_left in Ht by lra. change (F x - F xn <= o_ftol o). lra. }
  apply wp_bind. apply wp_fq; [exact Lxn|]. intros w3. apply wp_bind. apply wp_dfq; [exact Lxn|]. intros w4. wpstep. wpstep.
  match goal with |- wp _ _ _ ?t _ => set (st3 := t) end.
  assert (H3 : hist (Datatypes.S j) st3) by exact H2. assert (B3 : before st3 (Datatypes.S j) = F xn) by exact B2.
  change (ldot (K:=RNum) (G xn) (G xn)) with (dot (G xn) (G xn)).
  destruct (isclose0 (K:=RNum) (dot (G xn) (G xn))) eqn:Ei.
  - repeat wpstep. split; [exact Lxn|]. split; [reflexivity|]. cbn [fst snd s_maxit].
    exists (Datatypes.S j). split; [exact H3|]. split; [exact B3|]. split; [lia|]. right; left.
    revert Ei. unfold isclose0. rnum. rewrite Rminus_0_r, Rabs_R0, Rmult_0_r, Rplus_0_r.
    destruct (Rleb_spec (Rabs (dot (G xn) (G xn))) (1 / 100000000)) as [Hi|Hi]; [intros _|discriminate].
    pose proof (Rle_abs (dot (G xn) (G xn))). lra.
  - wpstep.
    assert (Hi : 1 / 100000000 < dot (G xn) (G xn)).
    { revert Ei. unfold isclose0. rnum. rewrite Rminus_0_r, Rabs_R0, Rmult_0_r, Rplus_0_r.
      destruct (Rleb_spec (Rabs (dot (G xn) (G xn))) (1 / 100000000)) as [Hi|Hi]; [discriminate|intros _].
      rewrite Rabs_pos_eq in Hi by apply ldot_self. lra. }
    assert (Eb : scg_beta (K:=RNum) be ra = scale (Datatypes.S j)).
    { rewrite scg_beta_eq, scale_S. destruct (Rlt_dec ra (1 / 4)); [lra|]. destruct (Rlt_dec (3 / 4) ra); [reflexivity|lra]. }
    replace (npmax (K:=RNum) (ndiv (n:=RNum) (ldot (K:=RNum) (G xn) (lsub (K:=RNum) (l_gnew s1) (G xn))) (l_mu s1)) 0) with (gamma_of x d be)
      by (symmetry; apply npmax_R).
    change (lsub (K:=RNum) (lscale (K:=RNum) (gamma_of x d be) (l_d s1)) (G xn)) with (next_d x d be).
    set (dn := if Nat.eqb _ _ then _ else _).
    assert (D : (length dn = n /\ dot dn (G xn) <= - dot (G xn) (G xn) /\ P dn (G xn))).
    { unfold dn. destruct (Nat.eqb (Datatypes.S (l_count s1)) n).
      - split; [etransitivity; [apply len_lopp|apply len_grad]|]. split; [|apply HP0; exact Lxn].
        right. apply ldot_opp_l.
      - split; [exact (len_next_d x d be I2 I3)|]. split; [exact (s_mu x d be I2 I3 Hbe Hka I8 Hgg)|].
        exact (HPs x d be I2 I3 Hbe Hbe1 Hka I8 Hgg I9). }
    destruct D as (D1 & D2 & D3).
    constructor; cbn [l_success l_x l_d l_fnow l_fold l_gnew l_beta]; auto; try reflexivity.
Qed.

Lemma start_q st w : s_fx st = repeat 0 (o_nit o) -> s_beta st = repeat 0 (o_nit o) -> s_maxit st = o_nit o ->
  wp (scg_start f' df' x0) (fun s st' _ => qinv 0 s st') (fun _ _ => False) st w.
Proof.
  intros E1 E2 E3. unfold scg_start. cbv zeta. apply wp_bind. apply wp_fq; [exact Lx0|]. intros w1.
  apply wp_bind. apply wp_dfq; [exact Lx0|]. intros w2. wpstep. wpstep. wpstep.
  constructor; cbn [l_success l_x l_d l_fnow l_fold l_gnew l_beta s_fx s_beta s_maxit before]; auto; try reflexivity.
  - etransitivity; [apply len_lopp|apply len_grad].
  - unfold scale. cbn [pow]. rewrite Rmax_left; [reflexivity|]. pose proof small15 as H. cbn [pow] in H. lra.
  - right. apply ldot_opp_l.
  - split; [cbn [s_fx]; rewrite E1; apply repeat_length|]. split; [cbn [s_beta]; rewrite E2; apply repeat_length|].
    split; [lia|]. intros; lia.
Qed.

Lemma run_q w : exists x fx st w', scg_run (K:=RNum) f' df' o x0 w = (Ok (x, fx), st, w') /\ done (x, fx) st.
Proof.
  assert (A : wp (scg_call f' df' o x0) (fun out st _ => done out st) (fun _ _ => False) (fresh_stats (o_nit o)) w).
  { apply wp_call with (Inv := fun j s st _ => qinv j s st).
    - apply start_q; reflexivity.
    - intros j s st1 w1 Hj HI. change (@length (car RNum) x0) with (@length R x0). rewrite Lx0. apply body_q; assumption.
    - intros s st1 w1 [I1 I2 I3 I4 I5 I6 I7 I8 I9 I10 I11 I12 I13]. split; [exact I2|]. split; [exact I5|]. cbn [fst snd].
      exists (o_nit o). split; [exact I11|]. split; [rewrite I5; exact I12|]. split; [lia|]. left. auto. }
  unfold wp in A. unfold scg_run. destruct (scg_call f' df' o x0 (fresh_stats (o_nit o)) w) as [[[[x fx]|e] st] w']; [|contradiction].
  exists x, fx, st, w'. split; [reflexivity|exact A].
Qed.
End Quad.
