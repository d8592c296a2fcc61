(** * Runs of the optimiser follow the scaled conjugate gradient method *)
From Coq Require Import List Bool Arith ZArith Reals Lra Lia.
From Verif Require Import Num Arr ArrFacts M_Scg Spec_Utils Spec_Scg Spec_ScgAlg P_Det P_RMat P_Scg P_ScgPure P_ScgR.
Import ListNotations.
Local Open Scope R_scope.

(** ** vectors *)
Lemma ldot_dotp : forall u v : list R, length v = length u -> ldot (K:=RNum) u v = dotp u v.
Proof.
  induction u as [|a u IH]; intros [|b v] H; try discriminate; [reflexivity|]. rewrite ldot_cons. unfold dotp.
  change (length (a :: u)) with (S (length u)). rewrite Rsum_shift. cbn [nth]. f_equal. apply IH. cbn in H; lia.
Qed.
Lemma comb_cons a x u b y v : comb a (x :: u) b (y :: v) = (a * x + b * y) :: comb a u b v.
Proof. unfold comb. change (length (x :: u)) with (S (length u)). cbn [seq map nth]. f_equal. rewrite <- seq_shift, map_map. reflexivity. Qed.
Lemma comb_len a u b v : length (comb a u b v) = length u.
Proof. unfold comb. rewrite map_length, seq_length. reflexivity. Qed.
Lemma minus_len u : length (minus u) = length u. Proof. apply map_length. Qed.
Lemma axl_comb t : forall x d : list R, length d = length x -> ladd (K:=RNum) x (lscale (K:=RNum) t d) = comb 1 x t d.
Proof.
  induction x as [|a x IH]; intros [|b d] H; try discriminate; [reflexivity|]. rewrite comb_cons.
  change (ladd (K:=RNum) (a :: x) (lscale (K:=RNum) t (b :: d))) with ((a + t * b) :: ladd (K:=RNum) x (lscale (K:=RNum) t d)).
  rewrite IH by (cbn in H; lia). f_equal. ring.
Qed.
Lemma sub_comb : forall x d : list R, length d = length x -> lsub (K:=RNum) x d = comb 1 x (- 1) d.
Proof.
  induction x as [|a x IH]; intros [|b d] H; try discriminate; [reflexivity|]. rewrite comb_cons.
  change (lsub (K:=RNum) (a :: x) (b :: d)) with ((a - b) :: lsub (K:=RNum) x d). rewrite IH by (cbn in H; lia). f_equal. ring.
Qed.
Lemma pr_comb t : forall x d : list R, length d = length x -> lsub (K:=RNum) (lscale (K:=RNum) t x) d = comb t x (- 1) d.
Proof.
  induction x as [|a x IH]; intros [|b d] H; try discriminate; [reflexivity|]. rewrite comb_cons.
  change (lsub (K:=RNum) (lscale (K:=RNum) t (a :: x)) (b :: d)) with ((t * a - b) :: lsub (K:=RNum) (lscale (K:=RNum) t x) d). rewrite IH by (cbn in H; lia). f_equal. ring.
Qed.
Lemma labs_norm1 (u : list R) : labs_sum (K:=RNum) u = norm1 u.
Proof.
  unfold labs_sum, norm1, suml. change (fold_left Rplus (map Rabs u) 0 = Rsum (length u) (fun i => Rabs (nth i u 0))).
  induction u as [|a u IH]; [reflexivity|]. change (length (a :: u)) with (S (length u)). rewrite Rsum_shift. cbn [map fold_left nth]. rewrite fold_plus_acc, IH. lra.
Qed.
Lemma abs_le_all (u : list R) (t : R) : abs_max_le (K:=RNum) u t = true <-> forall i, (i < length u)%nat -> Rabs (nth i u 0) <= t.
Proof.
  unfold abs_max_le. rewrite forallb_forall. change (nle (n:=RNum)) with Rleb. change (nabs (n:=RNum)) with Rabs. split.
  - intros H i Hi. specialize (H (nth i u 0) (nth_In u 0 Hi)). destruct (Rleb_spec (Rabs (nth i u 0)) t); [assumption|discriminate].
  - intros H x Hx. destruct (In_nth u x 0 Hx) as (i & Hi & <-). destruct (Rleb_spec (Rabs (nth i u 0)) t) as [|N]; [reflexivity|]. exfalso. specialize (H i Hi). lra.
Qed.
Lemma nth_comb a u b v i : (i < length u)%nat -> nth i (comb a u b v) 0 = a * nth i u 0 + b * nth i v 0.
Proof.
  intros Hi. unfold comb. set (g := fun i => a * nth i u 0 + b * nth i v 0). rewrite (nth_indep _ 0 (g 0%nat)) by (rewrite map_length, seq_length; exact Hi).
  rewrite map_nth, seq_nth by exact Hi. reflexivity.
Qed.
Lemma nth_lscale t (u : list R) i : nth i (lscale (K:=RNum) t u) 0 = t * nth i u 0.
Proof. change (nth i (map (Rmult t) u) 0 = t * nth i u 0). revert i. induction u as [|a u IH]; intros [|i]; cbn [map nth]; try ring. apply IH. Qed.
Lemma npmax_Rmax (a b : R) : npmax (K:=RNum) a b = Rmax a b.
Proof. unfold npmax. rnum. unfold Rmax. destruct (Rle_dec a b); destruct (Rleb_spec b a); try lra. destruct (Rleb_spec a b); lra. Qed.
Lemma wp_both {K : Num} {W A} (m : @M K W A) Q Q' E st w : wp m Q E st w -> wp m Q' E st w -> wp m (fun a s u => Q a s u /\ Q' a s u) E st w.
Proof. unfold wp. destruct (m st w) as [[[a|e] s'] w']; auto. Qed.

Section Alg.
Context {W : Type} (f : list R -> W -> result R * W) (df : list R -> bool -> W -> result (list R) * W).
Context (F : list R -> R) (G : list R -> list R).
Notation f' := (f : list RNum -> W -> result RNum * W).
Notation df' := (df : list RNum -> bool -> W -> result (list RNum) * W).
Context (HF : forall x w v w', f x w = (Ok v, w') -> v = F x) (HD : forall x e w g w', df x e w = (Ok g, w') -> g = G x).
Context (n : nat) (HG : forall x, length x = n -> length (G x) = n).
Notation hd := (heading G). Notation sl := (slope G). Notation sz := (size2 G). Notation cu := (curvature G).
Notation ad := (advance F G n).

Lemma hd_len s : length (here s) = n -> length (plan s) = n -> length (hd s) = n.
Proof. intros H1 H2. unfold heading. destruct (Rle_dec _ _); [rewrite minus_len; auto|exact H2]. Qed.
Lemma hd_keep s s' : here s' = here s -> plan s' = hd s -> sl s < 0 -> hd s' = hd s.
Proof.
  intros H1 H2 H3. unfold heading at 1. rewrite H1, H2. destruct (Rle_dec 0 (dotp (hd s) (G (here s)))) as [Q|_]; [|reflexivity].
  exfalso. unfold slope in H3. lra.
Qed.
Lemma cu_keep s s' : here s' = here s -> hd s' = hd s -> cu s' = cu s.
Proof. intros H1 H2. unfold curvature, probe, size2. rewrite H1, H2. reflexivity. Qed.

(** the local variables at the start of an iteration *)
Record at_place (s : place) (l : Loc RNum) : Prop := {
  a_inv : inv n l; a_x : l_x l = here s; a_lx : length (here s) = n; a_lp : length (plan s) = n;
  a_fn : (l_fnow l : R) = F (here s); a_fo : (l_fold l : R) = F (here s); a_g : l_gnew l = G (here s); a_go : l_gold l = G (before s);
  a_d : l_d l = plan s; a_b : (l_beta l : R) = damp s; a_c : l_count l = (moves s mod n)%nat;
  a_keep : l_success l = false -> hd s = plan s /\ (l_kappa l : R) = sz s /\ (l_mu l : R) = sl s /\ (l_theta l : R) = cu s /\ ~ stuck G s }.
(** after the directional derivatives *)
Record on_way (s : place) (l : Loc RNum) : Prop := {
  w_good : good l; w_x : l_x l = here s; w_fo : (l_fold l : R) = F (here s); w_g : l_gnew l = G (here s); w_go : l_gold l = G (before s);
  w_d : l_d l = hd s; w_b : (l_beta l : R) = damp s; w_c : l_count l = (moves s mod n)%nat;
  w_k : (l_kappa l : R) = sz s; w_m : (l_mu l : R) = sl s; w_t : (l_theta l : R) = cu s }.
Definition same_arrays (st st' : Stats RNum) : Prop := s_fx st' = s_fx st /\ s_dfx st' = s_dfx st /\ s_beta st' = s_beta st.

Lemma eps52 : eps_float (K:=RNum) = 1 / 2 ^ 52.
Proof. unfold eps_float. rnum. f_equal. rewrite pow_IZR. apply f_equal. reflexivity. Qed.

Lemma dir_alg s j l st w : at_place s l ->
  wp (scg_directions df' j l)
    (fun r st' w' => same_arrays st st' /\ match r with
       | inl l1 => ~ stuck G s /\ on_way s l1 /\ s_maxit st' = s_maxit st
       | inr out => stuck G s /\ out = (here s, F (here s)) /\ s_maxit st' = S j end) (fun _ _ => True) st w.
Proof.
  intros P. pose proof (a_inv _ _ P) as I. pose proof (dir_R df n j l st w I) as DR.
  assert (B : wp (scg_directions df' j l)
    (fun r st' w' => same_arrays st st' /\ match r with
       | inl l1 => ~ stuck G s /\ (l_d l1 = hd s /\ (l_kappa l1 : R) = sz s /\ (l_mu l1 : R) = sl s /\ (l_theta l1 : R) = cu s) /\ s_maxit st' = s_maxit st
       | inr out => stuck G s /\ out = (here s, F (here s)) /\ s_maxit st' = S j end) (fun _ _ => True) st w).
  { unfold scg_directions. cbv zeta. destruct (l_success l) eqn:Es.
    - pose proof (HG _ (a_lx _ _ P)) as LG. pose proof (hd_len s (a_lx _ _ P) (a_lp _ _ P)) as LH.
      rewrite (a_d _ _ P), (a_g _ _ P).
      assert (M0 : ldot (K:=RNum) (plan s) (G (here s)) = dotp (plan s) (G (here s))) by (apply ldot_dotp; rewrite LG; symmetry; apply (a_lp _ _ P)).
      rewrite M0. change (nZ (K:=RNum) 0) with 0. change (nle (n:=RNum)) with Rleb.
      assert (EH : (if Rleb 0 (dotp (plan s) (G (here s))) then lopp (K:=RNum) (G (here s)) else plan s) = hd s).
      { unfold heading. destruct (Rle_dec 0 (dotp (plan s) (G (here s)))); destruct (Rleb_spec 0 (dotp (plan s) (G (here s)))); try contradiction; try lra; reflexivity. }
      rewrite EH.
      assert (EM : (if Rleb 0 (dotp (plan s) (G (here s))) then ldot (K:=RNum) (hd s) (G (here s)) else dotp (plan s) (G (here s))) = sl s).
      { rewrite ldot_dotp by (rewrite LG, LH; reflexivity). unfold slope, heading. destruct (Rle_dec 0 (dotp (plan s) (G (here s)))); destruct (Rleb_spec 0 (dotp (plan s) (G (here s)))); try contradiction; try lra; reflexivity. }
      rewrite EM. rewrite (ldot_dotp (hd s) (hd s) eq_refl). fold (sz s). change (nlt (n:=RNum)) with Rltb. rewrite eps52.
      destruct (Rltb_spec (sz s) (1 / 2 ^ 52)) as [K|K].
      + repeat wpstep. split; [repeat split|]. split; [exact K|]. split; [rewrite (a_x _ _ P); apply f_equal; exact (a_fn _ _ P)|cbn; lia].
      + apply wp_bind. apply wp_df; [intros g w' Eg|auto]. apply HD in Eg. repeat wpstep. split; [repeat split|]. split; [exact K|].
        split; [|reflexivity]. cbn [l_d l_kappa l_mu l_theta]. split; [reflexivity|]. split; [reflexivity|]. split; [reflexivity|].
        rewrite Eg, (a_x _ _ P). change (ndiv (n:=RNum)) with Rdiv. change (nsqrt (n:=RNum)) with sqrt.
        assert (ES : sigma0 (K:=RNum) / sqrt (sz s) = probe G s) by reflexivity. rewrite ES.
        assert (EP : ladd (K:=RNum) (here s) (lscale (K:=RNum) (probe G s) (hd s)) = comb 1 (here s) (probe G s) (hd s)) by (apply axl_comb; rewrite LH; symmetry; apply (a_lx _ _ P)).
        rewrite EP.
        assert (LP : length (comb 1 (here s) (probe G s) (hd s)) = n) by (rewrite comb_len; apply (a_lx _ _ P)).
        rewrite sub_comb by (rewrite LG, HG by exact LP; reflexivity).
        rewrite ldot_dotp by (rewrite comb_len, HG, LH by exact LP; reflexivity). reflexivity.
    - destruct (a_keep _ _ P Es) as (K1 & K2 & K3 & K4 & K5). apply wp_ret. split; [repeat split|]. split; [exact K5|]. split; [|reflexivity].
      split; [rewrite (a_d _ _ P); symmetry; exact K1|]. auto. }
  eapply wp_mono; [exact (wp_both _ _ _ _ _ _ DR B)| |auto]. intros [l1|out] st' w' [H1 H2]; cbn beta iota in *; [|exact H2].
  destruct H1 as (Gd & (E1 & E2 & E3 & E4 & E5 & E6 & E7) & _). destruct H2 as (SA & NS & (D1 & D2 & D3 & D4) & MX).
  split; [exact SA|]. split; [exact NS|]. split; [|exact MX]. destruct P. constructor; try assumption; try (etransitivity; eassumption).
Qed.

(** lines 177-274 *)
Definition after (o : Opts RNum) (j : nat) (s : place) (st : Stats RNum) (r : Loc RNum + list RNum * RNum) (st' : Stats RNum) : Prop :=
  s_fx st' = upd j (F (here (ad s))) (s_fx st) /\ s_dfx st' = upd j (norm1 (G (before (ad s)))) (s_dfx st) /\
  s_beta st' = upd j (damp_used G s) (s_beta st) /\
  match r with
  | inl l' => ~ (downhill F G s /\ (settled F G n (o_xtol o) (o_ftol o) s \/ flat G s)) /\ at_place (ad s) l' /\ s_maxit st' = s_maxit st
  | inr out => downhill F G s /\ (settled F G n (o_xtol o) (o_ftol o) s \/ flat G s) /\
               out = (here (ad s), F (here (ad s))) /\ s_maxit st' = S j end.
Lemma damp_alg s l : on_way s l -> snd (scg_curvature l) = damp_used G s.
Proof.
  intros H. unfold scg_curvature, damp_used, damped. rnum. rewrite (w_t _ _ H), (w_b _ _ H), (w_k _ _ H).
  destruct (Rle_dec (cu s + damp s * sz s) 0); destruct (Rleb_spec (cu s + damp s * sz s) 0); try contradiction; try lra; reflexivity.
Qed.
Lemma step_len_alg s l : on_way s l -> scg_alpha l = step_length G s.
Proof.
  intros H. unfold scg_alpha, scg_curvature, step_length, damped. rnum. rewrite (w_t _ _ H), (w_b _ _ H), (w_k _ _ H), (w_m _ _ H).
  destruct (Rle_dec (cu s + damp s * sz s) 0); destruct (Rleb_spec (cu s + damp s * sz s) 0); try contradiction; try lra; reflexivity.
Qed.
Lemma isclose0_R (v : R) : isclose0 (K:=RNum) v = true <-> Rabs v <= 1 / 10 ^ 8.
Proof.
  unfold isclose0. rnum. rewrite Rabs_R0, Rminus_0_r, Rmult_0_r, Rplus_0_r.
  replace (1 / 10 ^ 8) with (1 / 100000000) by (apply f_equal; ring).
  destruct (Rleb_spec (Rabs v) (1 / 100000000)); split; intros; try assumption; try reflexivity; try discriminate; lra.
Qed.
Lemma dotp_self u : 0 <= dotp u u.
Proof. rewrite <- ldot_dotp by reflexivity. apply ldot_self. Qed.
Lemma count_mod m c : (0 < n)%nat -> c = (m mod n)%nat -> (Nat.eqb (S c) n = Nat.eqb (S m mod n) 0) /\ (if Nat.eqb (S c) n then 0 else S c)%nat = (S m mod n)%nat.
Proof.
  intros n0 ->. assert (E : (S m mod n = S (m mod n) mod n)%nat).
  { pose proof (Nat.div_mod m n ltac:(lia)) as D. rewrite D at 1. replace (S (n * (m / n) + m mod n)) with (S (m mod n) + (m / n) * n)%nat by lia. apply Nat.mod_add. lia. }
  pose proof (Nat.mod_upper_bound m n ltac:(lia)) as B. rewrite E. destruct (Nat.eqb_spec (S (m mod n)) n) as [Q|Q].
  - rewrite Q, Nat.mod_same by lia. split; reflexivity.
  - rewrite Nat.mod_small by lia. split; reflexivity.
Qed.

Lemma step_alg o s j l st w : on_way s l -> length (here s) = n -> length (plan s) = n -> ~ stuck G s ->
  wp (scg_step f' df' o n j l) (fun r st' _ => after o j s st r st') (fun _ _ => True) st w.
Proof.
  intros H Lx Lp NS. pose proof (hd_len s Lx Lp) as LH. pose proof (w_good _ _ H) as Gd. destruct (good_alpha l Gd) as [Ha Ham].
  pose proof (good_curv l Gd) as [_ Hb]. assert (n0 : (0 < n)%nat).
  { destruct n; [|lia]. exfalso. apply NS. unfold stuck, size2, dotp. rewrite LH. cbn [Rsum]. apply Rdiv_lt_0_compat; [lra|apply pow_lt; lra]. }
  destruct (count_mod _ _ n0 (w_c _ _ H)) as [C1 C2].
  assert (Cn : (l_count l < n)%nat) by (rewrite (w_c _ _ H); apply Nat.mod_upper_bound; lia).
  unfold scg_step. cbv zeta. rewrite (damp_alg s l H) in *. rewrite (step_len_alg s l H) in *.
  assert (EX : ladd (K:=RNum) (l_x l) (lscale (K:=RNum) (step_length G s) (l_d l)) = trial G s).
  { rewrite (w_x _ _ H), (w_d _ _ H). apply axl_comb. rewrite LH. symmetry. exact Lx. }
  rewrite EX. assert (LT : length (trial G s) = n) by (unfold trial; rewrite comb_len; exact Lx).
  pose proof (HG _ LT) as LGT. pose proof (HG _ Lx) as LG.
  apply wp_bind. apply wp_f; [intros fn w1 E1|auto]. apply HF in E1. subst fn. apply wp_bind. apply wp_set.
  rewrite (w_m _ _ H) in *. rewrite (w_fo _ _ H) in *.
  assert (ER : ndiv (n:=RNum) (nmul (n:=RNum) (nZ (K:=RNum) 2) (nsub (n:=RNum) (F (trial G s)) (F (here s)))) (nmul (n:=RNum) (step_length G s) (sl s)) = ratio F G s) by reflexivity.
  rewrite ER. assert (RS : 0 <= ratio F G s <-> F (trial G s) <= F (here s)) by (apply ratio_sign; exact Ham).
  change (nZ (K:=RNum) 0) with 0. change (nle (n:=RNum)) with Rleb.
  destruct (Rleb_spec 0 (ratio F G s)) as [Q|Q].
  - apply RS in Q. assert (EA : ad s = mkPlace (trial G s) (next_plan G n s) (next_damp F G s) (S (moves s)) (here s)).
    { unfold advance. destruct (Rle_dec (F (trial G s)) (F (here s))); [reflexivity|contradiction]. }
    unfold after. rewrite EA. cbn [here before plan damp moves]. rewrite (w_g _ _ H).
    apply wp_bind. apply wp_set. cbn [s_fx s_maxit s_dfx s_beta s_feval s_dfeval].
    destruct (abs_max_le (K:=RNum) (lscale (step_length G s) (l_d l)) (o_xtol o) && Rleb (nabs (n:=RNum) (nsub (n:=RNum) (F (trial G s)) (F (here s)))) (o_ftol o))%bool eqn:ES.
    + assert (SE : settled F G n (o_xtol o) (o_ftol o) s).
      { apply andb_true_iff in ES. destruct ES as [ES1 ES2]. split.
        - rewrite (w_d _ _ H) in ES1. pose proof (proj1 (abs_le_all _ _) ES1) as A. intros i Hi. specialize (A i). unfold lscale in A. rewrite map_length in A. fold (lscale (K:=RNum) (step_length G s) (hd s)) in A.
          rewrite nth_lscale in A. unfold trial. rewrite nth_comb by lia. replace (1 * nth i (here s) 0 + step_length G s * nth i (hd s) 0 - nth i (here s) 0) with (step_length G s * nth i (hd s) 0) by ring. apply A. change (i < length (hd s))%nat. rewrite LH. exact Hi.
        - change (Rleb (Rabs (F (trial G s) - F (here s))) (o_ftol o) = true) in ES2. destruct (Rleb_spec (Rabs (F (trial G s) - F (here s))) (o_ftol o)); [assumption|discriminate]. }
      repeat wpstep. cbn [s_fx s_maxit s_dfx s_beta]. rewrite labs_norm1. repeat (split; [first [reflexivity|exact Q|left; exact SE]|]). change (j + 1 = S j)%nat. lia.
    + apply wp_bind. apply wp_f; [intros fn2 w2 E2|auto]. apply HF in E2. subst fn2. apply wp_bind. apply wp_df; [intros gn w3 E3|auto]. apply HD in E3. subst gn.
      apply wp_bind. apply wp_set. cbn [s_fx s_maxit s_dfx s_beta s_feval s_dfeval].
      assert (NSE : ~ settled F G n (o_xtol o) (o_ftol o) s).
      { intros [S1 S2]. apply andb_false_iff in ES. destruct ES as [ES|ES].
        - rewrite (w_d _ _ H) in ES. assert (A : abs_max_le (K:=RNum) (lscale (step_length G s) (hd s)) (o_xtol o) = true); [|congruence].
          apply abs_le_all. unfold lscale. rewrite map_length. fold (lscale (K:=RNum) (step_length G s) (hd s)). intros i Hi. change (i < length (hd s))%nat in Hi. rewrite LH in Hi. rewrite nth_lscale. specialize (S1 i Hi). unfold trial in S1. rewrite nth_comb in S1 by lia.
          replace (1 * nth i (here s) 0 + step_length G s * nth i (hd s) 0 - nth i (here s) 0) with (step_length G s * nth i (hd s) 0) in S1 by ring. exact S1.
        - change (Rleb (Rabs (F (trial G s) - F (here s))) (o_ftol o) = false) in ES. destruct (Rleb_spec (Rabs (F (trial G s) - F (here s))) (o_ftol o)); [discriminate|contradiction]. }
      assert (EG : ldot (K:=RNum) (G (trial G s)) (G (trial G s)) = dotp (G (trial G s)) (G (trial G s))) by (apply ldot_dotp; reflexivity). rewrite EG.
      destruct (isclose0 (K:=RNum) (dotp (G (trial G s)) (G (trial G s)))) eqn:EI.
      * apply isclose0_R in EI. rewrite Rabs_right in EI by (apply Rle_ge, dotp_self).
        repeat wpstep. cbn [s_fx s_maxit s_dfx s_beta]. rewrite labs_norm1. repeat (split; [first [reflexivity|exact Q|right; exact EI]|]). change (j + 1 = S j)%nat. lia.
      * assert (NF : ~ flat G s). { intros A. assert (isclose0 (K:=RNum) (dotp (G (trial G s)) (G (trial G s))) = true); [|congruence]. apply isclose0_R. rewrite Rabs_right by (apply Rle_ge, dotp_self). exact A. }
        repeat wpstep. cbn [s_fx s_maxit s_dfx s_beta]. rewrite labs_norm1. split; [reflexivity|]. split; [reflexivity|]. split; [reflexivity|]. split; [tauto|]. split; [|reflexivity].
        assert (EP : (if Nat.eqb (S (l_count l)) n then lopp (K:=RNum) (G (trial G s)) else lsub (K:=RNum) (lscale (K:=RNum) (npmax (K:=RNum) (ndiv (n:=RNum) (ldot (K:=RNum) (G (trial G s)) (lsub (K:=RNum) (G (here s)) (G (trial G s)))) (sl s)) 0) (l_d l)) (G (trial G s))) = next_plan G n s).
        { unfold next_plan. rewrite C1. destruct (Nat.eqb (S (moves s) mod n) 0); [reflexivity|]. rewrite (w_d _ _ H), npmax_Rmax, pr_comb by lia.
          rewrite sub_comb by lia. rewrite ldot_dotp by (rewrite comb_len; lia). reflexivity. }
        constructor; cbn [l_x l_fnow l_fold l_gnew l_gold l_d l_success l_count l_beta l_kappa l_theta l_mu here plan damp moves before]; try reflexivity; try assumption; try discriminate.
        -- constructor; cbn [l_beta l_count l_success]; try discriminate; [apply scg_beta_min; exact Hb|]. intros _. destruct (Nat.eqb_spec (S (l_count l)) n); lia.
        -- unfold next_plan. destruct (Nat.eqb (S (moves s) mod n) 0); [rewrite minus_len|rewrite comb_len]; assumption.
        -- etransitivity; [apply scg_beta_eq|reflexivity].
  - assert (NA : ~ F (trial G s) <= F (here s)) by (intros A; apply RS in A; lra).
    assert (EA : ad s = mkPlace (here s) (hd s) (next_damp F G s) (moves s) (before s)).
    { unfold advance. destruct (Rle_dec (F (trial G s)) (F (here s))); [contradiction|reflexivity]. }
    assert (Cq : Nat.eqb (l_count l) n = false) by (apply Nat.eqb_neq; lia).
    unfold after. rewrite EA. cbn [here before plan damp moves].
    repeat wpstep. cbn [s_fx s_maxit s_dfx s_beta]. rewrite labs_norm1, (w_go _ _ H). split; [reflexivity|]. split; [reflexivity|]. split; [reflexivity|].
    split; [intros [A _]; contradiction|]. split; [|reflexivity]. rewrite Cq.
    pose proof (w_m _ _ H) as WM. pose proof (g_mu _ Gd) as GM.
    assert (SL : sl s < 0) by (rewrite <- WM; exact GM).
    set (s' := mkPlace (here s) (hd s) (next_damp F G s) (moves s) (before s)). assert (HK : hd s' = hd s) by (apply hd_keep; [reflexivity|reflexivity|exact SL]).
    constructor; cbn [l_x l_fnow l_fold l_gnew l_gold l_d l_success l_count l_beta l_kappa l_theta l_mu]; try reflexivity; try assumption; try apply H.
    - constructor; cbn [l_beta l_count l_success l_kappa l_mu l_d l_gnew]; [apply scg_beta_min; exact Hb|intros _; exact Cn|].
      intros _. split; [constructor; cbn [l_beta l_kappa l_mu]; [apply Gd|exact SL|apply scg_beta_min; exact Hb]|].
      rewrite (w_k _ _ H), (w_d _ _ H), (w_g _ _ H). split; intros _; symmetry; apply ldot_dotp; [reflexivity|lia].
    - etransitivity; [apply scg_beta_eq|reflexivity].
    - intros _. assert (SZ : sz s' = sz s) by (unfold size2; rewrite HK; reflexivity).
      split; [exact HK|]. split; [rewrite SZ; apply H|]. split; [unfold slope; rewrite HK; reflexivity|]. split; [rewrite (cu_keep s s' eq_refl HK); apply H|].
      unfold stuck. rewrite SZ. exact NS.
Qed.

(** ** whole runs *)
Variable nit : nat.
Definition recs (x0 : list R) (k : nat) (st : Stats RNum) : Prop :=
  length (s_fx st) = nit /\ length (s_dfx st) = nit /\ length (s_beta st) = nit /\
  forall j, (j < nit)%nat ->
    nth j (s_fx st) 0 = (if Nat.ltb j k then F (here (place_at F G n x0 (S j))) else 0) /\
    nth j (s_dfx st) 0 = (if Nat.ltb j k then norm1 (G (before (place_at F G n x0 (S j)))) else 0) /\
    nth j (s_beta st) 0 = (if Nat.ltb j k then damp_used G (place_at F G n x0 j) else 0).
Lemma recs_step x0 k st st' : recs x0 k st -> (k < nit)%nat ->
  s_fx st' = upd k (F (here (place_at F G n x0 (S k)))) (s_fx st) -> s_dfx st' = upd k (norm1 (G (before (place_at F G n x0 (S k))))) (s_dfx st) ->
  s_beta st' = upd k (damp_used G (place_at F G n x0 k)) (s_beta st) -> recs x0 (S k) st'.
Proof.
  intros (L1 & L2 & L3 & P) Hk E1 E2 E3. unfold recs. rewrite E1, E2, E3, !upd_length. split; [exact L1|]. split; [exact L2|]. split; [exact L3|].
  intros j Hj. destruct (P j Hj) as (P1 & P2 & P3). destruct (Nat.eq_dec j k) as [->|N].
  - destruct (Nat.ltb_spec k (S k)); [|lia]. rewrite !nth_upd_same by (first [rewrite L1|rewrite L2|rewrite L3]; exact Hk). repeat split.
  - rewrite !nth_upd_other by lia. rewrite P1, P2, P3. destruct (Nat.ltb_spec j k); destruct (Nat.ltb_spec j (S k)); try lia; repeat split.
Qed.
Lemma recs_same x0 k st st' : recs x0 k st -> same_arrays st st' -> recs x0 k st'.
Proof. intros (L1 & L2 & L3 & P) (E1 & E2 & E3). unfold recs. rewrite E1, E2, E3. auto. Qed.

Lemma run_alg xtol ftol x0 w x fx st w' : length x0 = n ->
  scg_run f' df' (mkOpts (K:=RNum) nit xtol ftol) x0 w = (Ok (x, fx), st, w') ->
  exists k, scg_ends F G n nit xtol ftol x0 x k (s_maxit st) /\ fx = F x /\ recs x0 k st.
Proof.
  unfold scg_run. intros Ln H. set (o := mkOpts (K:=RNum) nit xtol ftol) in *.
  assert (A : wp (scg_call f' df' o x0) (fun out st' _ => exists k, scg_ends F G n nit xtol ftol x0 (fst out) k (s_maxit st') /\ snd out = F (fst out) /\ recs x0 k st')
    (fun _ _ => True) (fresh_stats nit) w).
  { apply wp_call with (Inv := fun j l st _ => at_place (place_at F G n x0 j) l /\ (forall i, (i < j)%nat -> ~ finished F G n xtol ftol (place_at F G n x0 i)) /\ s_maxit st = nit /\ recs x0 j st).
    - pose proof (start_inv f df n x0 (fresh_stats nit) w) as SI. unfold scg_start in *. cbv zeta in *.
      assert (B : wp (scg_start f' df' x0) (fun l st' _ => s_maxit st' = nit /\ same_arrays (fresh_stats nit) st' /\
          l = mkLoc (K:=RNum) x0 (F x0) (F x0) (G x0) (G x0) (minus (G x0)) true 0 1 0 0 0) (fun _ _ => True) (fresh_stats nit) w).
      { unfold scg_start. cbv zeta. apply wp_bind. apply wp_f; [intros v w1 E1|auto]. apply HF in E1. subst v. apply wp_bind. apply wp_df; [intros g w2 E2|auto]. apply HD in E2. subst g.
        repeat wpstep. split; [reflexivity|]. split; [repeat split|]. reflexivity. }
      eapply wp_mono; [exact (wp_both _ _ _ _ _ _ SI B)| |auto]. intros l st1 w1 (I & M & SA & ->). split; [|split; [intros i Hi; lia|split; [exact M|]]].
      + constructor; cbn [place_at start here plan damp moves before l_x l_fnow l_fold l_gnew l_gold l_d l_success l_count l_beta]; try reflexivity; try assumption; try discriminate.
        * rewrite minus_len. auto.
        * destruct n; [reflexivity|symmetry; apply Nat.mod_0_l; lia].
      + eapply recs_same; [|exact SA]. unfold recs, fresh_stats. cbn [s_fx s_dfx s_beta]. rewrite !repeat_length. split; [reflexivity|]. split; [reflexivity|]. split; [reflexivity|].
        intros j Hj. assert (Z : forall k i, nth i (repeat 0 k) 0 = 0) by (induction k as [|k IH]; intros [|i]; cbn; auto). change (Nat.ltb j 0) with false. cbn iota. repeat split; apply Z.
    - intros j l st1 w1 Hj (P & NF & MX & RC). change (j < nit)%nat in Hj. unfold scg_body. apply wp_bind. set (s := place_at F G n x0 j) in *. rewrite Ln.
      eapply wp_mono; [exact (dir_alg s j l st1 w1 P)| |auto]. intros [l1|out] st2 w2 (SA & D); cbn beta iota in D.
      + destruct D as (NS & OW & MX2). eapply wp_mono; [exact (step_alg o s j l1 st2 w2 OW (a_lx _ _ P) (a_lp _ _ P) NS)| |auto].
        intros r st3 w3 (A1 & A2 & A3 & A4). assert (RC3 : recs x0 (S j) st3) by (eapply recs_step; [exact (recs_same _ _ _ _ RC SA)|exact Hj|exact A1|exact A2|exact A3]).
        destruct r as [l'|out].
        * destruct A4 as (N & P' & MX3). split; [exact P'|]. split; [|split; [congruence|exact RC3]]. intros i Hi. destruct (Nat.eq_dec i j) as [->|Ne]; [|apply NF; lia]. intros [X|X]; [exact (NS X)|exact (N X)].
        * destruct A4 as (D1 & D2 & -> & MX3). exists (S j). cbn [fst snd]. split; [|split; [reflexivity|exact RC3]]. right. right. exists j. rewrite MX3. repeat (split; [first [reflexivity|assumption|right; split; assumption]|]). exact NF.
      + destruct D as (S & -> & MX2). apply wp_ret. cbn [fst snd]. exists j. split; [|split; [reflexivity|exact (recs_same _ _ _ _ RC SA)]]. right. left. rewrite MX2. repeat (split; [first [reflexivity|assumption]|]). exact NF.
    - intros l st1 w1 (P & NF & MX & RC). cbn [fst snd]. change (o_nit o) with nit in *. exists nit. rewrite (a_x _ _ P). split; [|split; [exact (a_fo _ _ P)|exact RC]].
      left. rewrite MX. repeat (split; [reflexivity|]). exact NF. }
  exact (wp_and _ _ _ _ _ _ _ _ A H).
Qed.
End Alg.

(** runs of functions that never raise never raise *)
Lemma run_total {K : Num} {W} (f : list K -> W -> result K * W) (df : list K -> bool -> W -> result (list K) * W) o x0 w :
  (forall x w, exists v w', f x w = (Ok v, w')) -> (forall x e w, exists g w', df x e w = (Ok g, w')) ->
  exists x fx st w', scg_run f df o x0 w = (Ok (x, fx), st, w').
Proof.
  intros HF HD. assert (A : wp (scg_call f df o x0) (fun _ _ _ => True) (fun _ _ => False) (fresh_stats (o_nit o)) w).
  { assert (XF : forall x w e w', f x w = (Err e, w') -> False) by (intros x u e u' E; destruct (HF x u) as (v & w' & E'); congruence).
    assert (XD : forall x b w e w', df x b w = (Err e, w') -> False) by (intros x b u e u' E; destruct (HD x b u) as (v & w' & E'); congruence).
    apply wp_call with (Inv := fun _ _ _ _ => True); [|intros j s st w1 _ _|auto].
    - unfold scg_start. cbv zeta. repeat wpstep; eauto.
    - unfold scg_body, scg_directions, scg_step. cbv zeta. apply wp_bind.
      eapply wp_mono with (Q := fun _ _ _ => True) (E := fun _ _ => False); [| |auto].
      + destruct (l_success s); [|apply wp_ret; auto]. match goal with |- wp (if ?c then _ else _) _ _ _ _ => destruct c end; repeat wpstep; eauto.
      + intros [l|out] st1 w2 _; [|apply wp_ret; auto]. apply wp_bind. apply wp_f; [intros fn w3 _|eauto]. apply wp_bind. apply wp_set.
        match goal with |- context [if ?c then S _ else _] => destruct c end; apply wp_bind; apply wp_set.
        * match goal with |- wp (if ?c then _ else _) _ _ _ _ => destruct c end; [repeat wpstep; auto|]. apply wp_bind. apply wp_f; [intros fn2 w4 _|eauto]. apply wp_bind. apply wp_df; [intros gn w5 _|eauto].
          apply wp_bind. apply wp_set. match goal with |- wp (if ?c then _ else _) _ _ _ _ => destruct c end; repeat wpstep; auto.
        * repeat wpstep; auto. }
  unfold wp in A. unfold scg_run. destruct (scg_call f df o x0 (fresh_stats (o_nit o)) w) as [[[[x fx]|e] st] w'] eqn:E; [|contradiction]. eauto 6.
Qed.
