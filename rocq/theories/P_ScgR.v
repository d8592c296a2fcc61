(** * Runs of the optimiser in exact arithmetic *)
From Coq Require Import List Bool Arith ZArith Reals Lra Lia.
From Verif Require Import Num Arr M_Scg Spec_Scg P_Scg P_ScgPure.
Import ListNotations.
Local Open Scope R_scope.

Lemma fold_plus_acc (l : list R) a : fold_left Rplus l a = a + fold_left Rplus l 0.
Proof.
  revert a. induction l as [|b l IH]; intros a; cbn [fold_left]; [lra|].
  rewrite (IH (a + b)), (IH (0 + b)). lra.
Qed.
Lemma ldot_cons (a b : R) (u v : list R) : ldot (K:=RNum) (a :: u) (b :: v) = a * b + ldot (K:=RNum) u v.
Proof.
  unfold ldot, suml. cbn [map2 fold_left]. rnum.
  etransitivity; [apply fold_plus_acc|]. lra.
Qed.
Lemma ldot_opp_l (u v : list R) : ldot (K:=RNum) (lopp u) v = - ldot (K:=RNum) u v.
Proof.
  revert v. induction u as [|a u IH]; intros [|b v]; try (unfold ldot; cbn; lra).
  change (lopp (K:=RNum) (a :: u)) with ((- a) :: lopp (K:=RNum) u). rewrite !ldot_cons, IH. lra.
Qed.
Lemma ldot_opp_opp (u v : list R) : ldot (K:=RNum) (lopp u) (lopp v) = ldot (K:=RNum) u v.
Proof.
  revert v. induction u as [|a u IH]; intros [|b v]; try (unfold ldot; cbn; lra).
  change (lopp (K:=RNum) (a :: u)) with ((- a) :: lopp (K:=RNum) u).
  change (lopp (K:=RNum) (b :: v)) with ((- b) :: lopp (K:=RNum) v). rewrite !ldot_cons, IH. lra.
Qed.
Lemma ldot_self (u : list R) : 0 <= ldot (K:=RNum) u u.
Proof.
  induction u as [|a u IH]; [unfold ldot; cbn; lra|]. rewrite ldot_cons. nra.
Qed.
Lemma eps_pos : 0 < eps_float (K:=RNum).
Proof. unfold eps_float. rnum. lra. Qed.
Lemma sigma0_pos : 0 < sigma0 (K:=RNum).
Proof. unfold sigma0. rnum. lra. Qed.

(** ** After the directional derivatives have been computed (line 176) *)
Record good (s : Loc RNum) : Prop := {
  g_kappa : eps_float (K:=RNum) <= l_kappa s;
  g_mu : (l_mu s : R) < 0;
  g_beta : / 10 ^ 15 <= (l_beta s : R) }.
Lemma curv_beta (th k b : R) : 0 < k -> 0 < b * k -> th + b * k <= 0 -> b <= b - th / k.
Proof.
  intros Hp Hbk H. assert (D : th / k <= 0); [|lra].
  apply Rmult_le_reg_r with k; [exact Hp|]. replace (th / k * k) with th by (field; lra). lra.
Qed.
Lemma neg_div_pos (m c : R) : m < 0 -> 0 < c -> 0 < - (m / c).
Proof.
  intros Hm Hc. replace (- (m / c)) with ((- m) / c) by (field; lra). apply Rdiv_lt_0_compat; lra.
Qed.
Lemma mul_pos_neg (a m : R) : 0 < a -> m < 0 -> a * m < 0.
Proof. intros; nra. Qed.
Lemma bmin_pos (b : R) : / 10 ^ 15 <= b -> 0 < b.
Proof. intros H. eapply Rlt_le_trans; [|exact H]. apply Rinv_0_lt_compat, pow_lt. lra. Qed.
Lemma good_curv s : good s -> 0 < fst (scg_curvature s) /\ / 10 ^ 15 <= snd (scg_curvature s).
Proof.
  intros [Hk Hm Hb0]. pose proof (bmin_pos _ Hb0) as Hb. pose proof eps_pos as He. unfold scg_curvature.
  assert (Hp : 0 < (l_kappa s : R)) by (eapply Rlt_le_trans; eauto).
  assert (Hbk : 0 < (l_beta s : R) * l_kappa s) by (apply Rmult_lt_0_compat; assumption).
  rnum. change (car RNum) with R in *. destruct (Rleb_spec ((l_theta s : R) + l_beta s * l_kappa s) 0) as [H|H]; cbn [fst snd]; split; try lra.
  eapply Rle_trans; [exact Hb0|]. apply curv_beta; assumption.
Qed.
Lemma good_alpha s : good s -> 0 < scg_alpha s /\ scg_alpha s * l_mu s < 0.
Proof.
  intros G. destruct (good_curv s G) as [Hc _]. destruct G as [Hk Hm Hb].
  unfold scg_alpha. rnum. set (c := fst (scg_curvature s) : R) in *.
  assert (A : 0 < - ((l_mu s : R) / c)) by (apply neg_div_pos; assumption).
  split; [exact A|]. apply mul_pos_neg; assumption.
Qed.
(** lines 254-261 *)
Lemma scg_beta_eq (b d : R) : scg_beta (K:=RNum) b d =
  if Rlt_dec d (1 / 4) then Rmin (4 * b) (10 ^ 100) else if Rlt_dec (3 / 4) d then Rmax (b / 2) (/ 10 ^ 15) else b.
Proof.
  unfold scg_beta, npmin, npmax, beta_min, beta_max. rnum.
  replace (IZR (10 ^ 100)) with (10 ^ 100) by (rewrite pow_IZR; reflexivity).
  assert (E : 1 / 1000000000000000 = / 10 ^ 15) by (unfold Rdiv; rewrite Rmult_1_l; f_equal; ring). rewrite !E.
  set (M := 10 ^ 100). set (m := / 10 ^ 15).
  destruct (Rlt_dec d (1 / 4)) as [H|H].
  - destruct (Rltb_spec d (1/4)); [|contradiction]. destruct (Rltb_spec (3/4) d); [lra|].
    unfold Rmin. destruct (Rle_dec (4 * b) M); destruct (Rleb_spec (4 * b) M); try lra.
    destruct (Rleb_spec M (4 * b)); lra.
  - destruct (Rltb_spec d (1/4)); [contradiction|].
    destruct (Rlt_dec (3 / 4) d); destruct (Rltb_spec (3/4) d); try contradiction; [|reflexivity].
    unfold Rmax. replace (1 / 2 * b) with (b / 2) by field.
    destruct (Rle_dec (b / 2) m); destruct (Rleb_spec m (b / 2)); try lra.
    destruct (Rleb_spec (b / 2) m); lra.
Qed.
Lemma scg_beta_min (b d : R) : / 10 ^ 15 <= b -> / 10 ^ 15 <= scg_beta (K:=RNum) b d.
Proof.
  intros Hb. pose proof (bmin_pos b Hb). rewrite scg_beta_eq.
  assert (H1 : 1 <= 10 ^ 100) by (apply pow_R1_Rle; lra).
  assert (H2 : / 10 ^ 15 <= 1).
  { replace 1 with (/ 1) by apply Rinv_1. apply Rinv_le_contravar; [lra|]. apply pow_R1_Rle. lra. }
  set (M := 10 ^ 100) in *. set (m := / 10 ^ 15) in *.
  destruct (Rlt_dec d (1 / 4)); [apply Rmin_glb; lra|].
  destruct (Rlt_dec (3 / 4) d); [apply Rmax_r|exact Hb].
Qed.
(** the comparison ratio is non-negative exactly when the objective does not increase *)
Lemma ratio_sign (a b c : R) : c < 0 -> (0 <= 2 * (a - b) / c <-> a <= b).
Proof.
  intros Hc. assert (Hi : / c < 0) by (apply Rinv_lt_0_compat; exact Hc).
  unfold Rdiv. split; intros H; nra.
Qed.

(** ** Invariant at the start of an iteration; [n] is the number of variables *)
Record inv (n : nat) (s : Loc RNum) : Prop := {
  i_beta : / 10 ^ 15 <= (l_beta s : R);
  i_count : (0 < n)%nat -> (l_count s < n)%nat;
  i_keep : l_success s = false ->
           good s /\ ((0 < n)%nat -> (l_kappa s : R) = ldot (l_d s) (l_d s)) /\
           ((0 < n)%nat -> (l_mu s : R) = ldot (l_d s) (l_gnew s)) }.

Section Run.
Context {W : Type}.
Variable f : list R -> W -> result R * W.
Variable df : list R -> bool -> W -> result (list R) * W.
Notation f' := (f : list RNum -> W -> result RNum * W).
Notation df' := (df : list RNum -> bool -> W -> result (list RNum) * W).

(** the local variables after line 175 *)
Definition frame (s s1 : Loc RNum) : Prop :=
  l_x s1 = l_x s /\ l_fnow s1 = l_fnow s /\ l_fold s1 = l_fold s /\ l_gnew s1 = l_gnew s /\
  l_gold s1 = l_gold s /\ l_count s1 = l_count s /\ l_beta s1 = l_beta s.
Lemma dir_R n j s st w : inv n s ->
  wp (scg_directions df' j s)
     (fun r st' w' => match r with
        | inl s1 => good s1 /\ frame s s1 /\ ((0 < n)%nat -> (l_kappa s1 : R) = ldot (l_d s1) (l_d s1)) /\
                    ((0 < n)%nat -> (l_mu s1 : R) = ldot (l_d s1) (l_gnew s1)) /\
                    s_fx st' = s_fx st
        | inr out => out = (l_x s, l_fnow s) /\ s_fx st' = s_fx st /\ s_maxit st' = S j
        end) (fun _ _ => True) st w.
Proof.
  intros [Hb Hc Hk]. unfold scg_directions. cbv zeta. destruct (l_success s) eqn:Es.
  - set (mu := ldot (l_d s) (l_gnew s) : R).
    set (d := if Rleb 0 mu then lopp (l_gnew s) else l_d s : list R).
    set (mu1 := if Rleb 0 mu then ldot (K:=RNum) d (l_gnew s) else mu : R).
    change (nZ (K:=RNum) 0) with 0. change (nle (n:=RNum)) with Rleb. fold mu. fold d. fold mu1.
    change (nlt (n:=RNum)) with Rltb.
    assert (Hmu : mu1 = ldot (K:=RNum) d (l_gnew s)).
    { unfold mu1, d. destruct (Rleb 0 mu); reflexivity. }
    destruct (Rltb_spec (ldot (K:=RNum) d d) (eps_float (K:=RNum))) as [H|H]; repeat wpstep; auto.
    + cbn. repeat split. lia.
    + cbn [s_fx]. assert (Hn : mu1 < 0).
      { pose proof eps_pos as He. unfold mu1. destruct (Rleb_spec 0 mu) as [Hm|Hm]; [|lra].
        unfold d in *. destruct (Rleb 0 mu) eqn:Ed; [|unfold mu1 in Hmu; discriminate Ed || idtac].
        - rewrite ldot_opp_l. rewrite ldot_opp_opp in H. lra.
        - destruct (Rleb_spec 0 mu); [discriminate|lra]. }
      split; [|split; [|split; [|split]]]; cbn [l_kappa l_mu l_beta l_d l_gnew]; auto.
      * constructor; cbn [l_kappa l_mu l_beta]; auto. apply Rnot_lt_le. exact H.
      * unfold frame. cbn. auto 10.
  - apply wp_ret. cbn. destruct (Hk eq_refl) as (G & E1 & E2). unfold frame. auto 12.
Qed.

Lemma step_inv o n j s st w : good s -> ((0 < n)%nat -> (l_kappa s : R) = ldot (l_d s) (l_d s)) ->
  ((0 < n)%nat -> (l_mu s : R) = ldot (l_d s) (l_gnew s)) -> ((0 < n)%nat -> (l_count s < n)%nat) ->
  wp (scg_step f' df' o n j s)
     (fun r _ _ => match r with inl s' => inv n s' | inr _ => True end) (fun _ _ => True) st w.
Proof.
  intros G Hk Hm Hcnt. destruct (good_curv s G) as [Hc Hb].
  assert (Hq : (0 < n)%nat -> Nat.eqb (l_count s) n = false).
  { intros Hn. apply Nat.eqb_neq. specialize (Hcnt Hn). lia. }
  unfold scg_step. cbv zeta.
  apply wp_bind. apply wp_f; [intros fn w1 _|auto]. apply wp_bind. apply wp_set.
  set (de := ndiv (nmul (nZ 2) (nsub fn (l_fold s))) (nmul (scg_alpha s) (l_mu s)) : R).
  destruct (nle (n:=RNum) (nZ 0) de); apply wp_bind; apply wp_set.
  - match goal with |- wp (if ?c then _ else _) _ _ _ _ => destruct c end; [repeat wpstep; auto|].
    apply wp_bind. apply wp_f; [intros fn2 w2 _|auto]. apply wp_bind. apply wp_df; [intros gn w3 _|auto].
    apply wp_bind. apply wp_set.
    match goal with |- wp (if ?c then _ else _) _ _ _ _ => destruct c end; repeat wpstep; auto.
    constructor; cbn [l_beta l_count l_success]; try discriminate.
    + apply scg_beta_min. exact Hb.
    + intros Hn. specialize (Hcnt Hn). destruct (Nat.eqb_spec (S (l_count s)) n); lia.
  - repeat wpstep. constructor; cbn [l_beta l_count l_success l_kappa l_mu l_d l_gnew].
    + apply scg_beta_min. exact Hb.
    + intros Hn. rewrite (Hq Hn). auto.
    + intros _. split; [|split; intros Hn; rewrite (Hq Hn); auto].
      constructor; cbn [l_beta l_kappa l_mu]; try apply G. apply scg_beta_min. exact Hb.
Qed.
Lemma body_inv o n j s st w : inv n s ->
  wp (scg_body f' df' o n j s) (fun r _ _ => match r with inl s' => inv n s' | inr _ => True end) (fun _ _ => True) st w.
Proof.
  intros I. unfold scg_body. apply wp_bind. eapply wp_mono; [exact (dir_R n j s st w I) | | auto].
  intros [s1|out] st1 w1 H; cbn beta iota in H; [|apply wp_ret; exact Logic.I].
  destruct H as (G & (E1 & E2 & E3 & E4 & E5 & E6 & E7) & Hk & Hm & Hfx).
  apply step_inv with (n := n); auto. intros Hn. rewrite E6. apply I. exact Hn.
Qed.
Lemma start_inv n x0 st w : wp (scg_start f' df' x0) (fun s _ _ => inv n s) (fun _ _ => True) st w.
Proof.
  unfold scg_start. cbv zeta. repeat wpstep; auto. constructor; cbn -[pow]; try discriminate; auto.
  replace 1 with (/ 1) by apply Rinv_1. apply Rinv_le_contravar; [lra|]. apply pow_R1_Rle. lra.
Qed.
Lemma inv_reach o x0 st0 w0 j s st w : reach f' df' o x0 st0 w0 j s st w -> inv (length x0) s.
Proof.
  apply (reach_inv f' df' o x0 st0 w0 (fun _ s _ _ => inv (length x0) s) (fun _ _ => True)).
  - apply start_inv.
  - intros j' s' st' w' _ H1. exact (body_inv o (length x0) j' s' st' w' H1).
Qed.

Variable F : list R -> result R.
Hypothesis HF : forall x w, fst (f x w) = F x.

(** the effect of lines 177-274: the new point is the old one, or one where f is not larger *)
Definition accepted (x xn : list R) (v vn : R) : Prop := (xn = x /\ vn = v) \/ (F xn = Ok vn /\ vn <= v).
Lemma step_R o n j s st w : good s ->
  F (l_x s) = Ok (l_fold s : R) ->
  wp (scg_step f' df' o n j s)
     (fun r st' w' => match r with
        | inl s' => val_inv F s' /\ accepted (l_x s) (l_x s') (l_fold s) (l_fold s') /\
                    s_fx st' = upd j (l_fold s') (s_fx st)
        | inr out => accepted (l_x s) (fst out) (l_fold s) (snd out) /\
                    s_fx st' = upd j (snd out) (s_fx st) /\ s_maxit st' = S j
        end) (fun _ _ => True) st w.
Proof.
  intros G Hx. destruct (good_alpha s G) as [Ha Ham].
  unfold scg_step. cbv zeta.
  set (al := scg_alpha s : R) in *. set (be := snd (scg_curvature s) : R) in *.
  set (xn := ladd (l_x s) (lscale al (l_d s)) : list R).
  apply wp_bind. apply wp_f; [intros fn w1 E1|auto].
  apply (HF' f' F HF) in E1.
  apply wp_bind. apply wp_set.
  set (de := ndiv (nmul (nZ 2) (nsub fn (l_fold s))) (nmul al (l_mu s)) : R).
  assert (Hde : 0 <= de <-> fn <= l_fold s) by (apply ratio_sign; exact Ham).
  change (nZ (K:=RNum) 0) with 0. change (nle (n:=RNum)) with Rleb.
  destruct (Rleb_spec 0 de) as [Hs|Hs]; apply wp_bind; apply wp_set; cbn [s_fx s_maxit s_dfx s_beta s_feval s_dfeval].
  - apply Hde in Hs.
    match goal with |- wp (if ?c then _ else _) _ _ _ _ => destruct c end.
    + repeat wpstep. cbn. split; [right; auto|]. split; [reflexivity|lia].
    + apply wp_bind. apply wp_f; [intros fn2 w2 E2|auto]. apply (HF' f' F HF) in E2.
      assert (fn2 = fn) by congruence. subst fn2.
      apply wp_bind. apply wp_df; [intros gn w3 E3|auto].
      apply wp_bind. apply wp_set.
      match goal with |- wp (if ?c then _ else _) _ _ _ _ => destruct c end.
      * repeat wpstep. cbn. split; [right; auto|]. split; [reflexivity|lia].
      * repeat wpstep. cbn [s_fx l_x l_fold l_fnow].
        split; [|split].
        -- unfold val_inv. cbn [l_x l_fold l_fnow]. auto.
        -- right. auto.
        -- reflexivity.
  - repeat wpstep. cbn [s_fx l_x l_fold l_fnow].
    split; [|split].
    + unfold val_inv. cbn [l_x l_fold l_fnow]. auto.
    + left. auto.
    + reflexivity.
Qed.
Lemma body_R o n j s st w : inv n s -> val_inv F s ->
  wp (scg_body f' df' o n j s)
     (fun r st' w' => match r with
        | inl s' => val_inv F s' /\ accepted (l_x s) (l_x s') (l_fold s) (l_fold s') /\
                    s_fx st' = upd j (l_fold s') (s_fx st)
        | inr out => s_maxit st' = S j /\
            ((out = (l_x s, l_fnow s) /\ s_fx st' = s_fx st) \/
             (accepted (l_x s) (fst out) (l_fold s) (snd out) /\ s_fx st' = upd j (snd out) (s_fx st)))
        end) (fun _ _ => True) st w.
Proof.
  intros I V. unfold scg_body. apply wp_bind. eapply wp_mono; [exact (dir_R n j s st w I) | | auto].
  intros [s1|out] st1 w1 H; cbn beta iota in H.
  - destruct H as (G & (E1 & E2 & E3 & E4 & E5 & E6 & E7) & Hk & Hm & Hfx).
    eapply wp_mono; [apply step_R with (n := n); auto | | auto].
    + rewrite E1, E3. apply V.
    + intros [s'|out] st2 w2; cbn beta iota; rewrite E1, E3, Hfx.
      * tauto.
      * intros (A & B & C). split; [exact C|]. right. auto.
  - apply wp_ret. destruct H as (A & B & C). split; [exact C|]. left. auto.
Qed.
Lemma start_R x0 st w :
  wp (scg_start f' df' x0)
     (fun s st' _ => val_inv F s /\ l_x s = x0 /\ s_fx st' = s_fx st) (fun _ _ => True) st w.
Proof.
  unfold scg_start. cbv zeta. repeat wpstep; auto.
  repeat match goal with E : f _ _ = _ |- _ => apply (HF' f' F HF) in E end.
  cbn [l_x s_fx]. split; [|split]; try reflexivity.
  unfold val_inv. cbn. auto.
Qed.
Lemma val_reach o x0 st0 w0 j s st w : reach f' df' o x0 st0 w0 j s st w -> val_inv F s.
Proof.
  apply (reach_inv f' df' o x0 st0 w0 (fun _ s _ _ => val_inv F s) (fun _ _ => True)).
  - eapply wp_mono; [apply (value_start f' df' F HF) | cbn; tauto | auto].
  - intros j' s' st' w' _ H. eapply wp_mono; [exact (value_body f' df' F HF o (length x0) j' s' st' w' H) | | auto].
    intros [?|?]; cbn; tauto.
Qed.

(** ** The sequence of iterates *)
Definition chain (x0 : list R) (r : nat) (fxs : list R) (xs : nat -> list R) : Prop :=
  xs 0%nat = x0 /\
  forall i, (i < r)%nat -> exists a b, F (xs i) = Ok a /\ F (xs (S i)) = Ok b /\ b <= a /\
                                   nth i fxs 0 = b /\ (i < length fxs)%nat.
Lemma chain_ext x0 r fxs xs x xn v vn N :
  chain x0 r fxs xs -> xs r = x -> F x = Ok v -> accepted x xn v vn -> (r < N)%nat -> length fxs = N ->
  (forall i, (r <= i)%nat -> nth i fxs 0 = 0) ->
  exists xs', chain x0 (S r) (upd r vn fxs) xs' /\ xs' (S r) = xn /\ F xn = Ok vn /\
              length (upd r vn fxs) = N /\ (forall i, (S r <= i)%nat -> nth i (upd r vn fxs) 0 = 0).
Proof.
  intros [C0 C1] Ex Ev A Hr HN Hz.
  exists (fun i => if Nat.eqb i (S r) then xn else xs i).
  assert (Hn : F xn = Ok vn /\ vn <= v).
  { destruct A as [[-> ->]|[A1 A2]]; [split; [exact Ev|lra] | auto]. }
  split; [split|split; [|split; [|split]]].
  - exact C0.
  - intros i Hi. destruct (Nat.eqb_spec i (S r)) as [|_]; [lia|]. cbn [Nat.eqb].
    destruct (Nat.eqb_spec i r) as [->|Hir].
    + exists v, vn. rewrite Ex, nth_upd_same, upd_length by lia. repeat split; try tauto. lia.
    + rewrite nth_upd_other, upd_length by lia. apply C1. lia.
  - rewrite Nat.eqb_refl. reflexivity.
  - tauto.
  - rewrite upd_length. exact HN.
  - intros i Hi. rewrite nth_upd_other by lia. apply Hz. lia.
Qed.

Lemma run_R o x0 w0 x fx st' w' :
  scg_run f' df' o x0 w0 = (Ok (x, fx), st', w') ->
  F x = Ok fx /\
  exists r xs, chain x0 r (s_fx st') xs /\ xs r = x /\ (r <= s_maxit st' <= S r)%nat /\
               length (s_fx st') = o_nit o /\ forall i, (r <= i)%nat -> nth i (s_fx st') 0 = 0.
Proof.
  unfold scg_run. intros H.
  assert (Z : forall k i, nth i (repeat 0 k) 0 = 0).
  { induction k as [|k IH]; intros [|i]; cbn; auto. }
  assert (A : wp (scg_call f' df' o x0)
    (fun out st _ => F (fst out) = Ok (snd out) /\
       exists r xs, chain x0 r (s_fx st) xs /\ xs r = fst out /\ (r <= s_maxit st <= S r)%nat /\
               length (s_fx st) = o_nit o /\ forall i, (r <= i)%nat -> nth i (s_fx st) 0 = 0)
    (fun _ _ => True) (fresh_stats (o_nit o)) w0).
  { apply wp_call with (Inv := fun j s st w => inv (length x0) s /\ val_inv F s /\ s_maxit st = o_nit o /\
       length (s_fx st) = o_nit o /\ (forall i, (j <= i)%nat -> nth i (s_fx st) 0 = 0) /\
       exists xs, chain x0 j (s_fx st) xs /\ xs j = l_x s).
    - assert (B0 := start_inv (length x0) x0 (fresh_stats (o_nit o)) w0).
      assert (B := start_R x0 (fresh_stats (o_nit o)) w0).
      assert (B2 := maxit_start f' df' x0 (fresh_stats (o_nit o)) w0).
      unfold wp in *. destruct (scg_start f' df' x0 (fresh_stats (o_nit o)) w0) as [[[s|e] st] w]; [|exact I].
      destruct B as (B4 & B5 & B6). split; [exact B0|]. split; [exact B4|]. split; [exact B2|].
      rewrite B6. split; [apply repeat_length|]. split; [intros; apply Z|].
      exists (fun _ => x0). split; [split; [reflexivity | intros i Hi; lia] | auto].
    - intros j s st w Hj (I1 & I2 & I3 & I4 & I5 & xs & I6 & I7).
      assert (B := body_R o (length x0) j s st w I1 I2).
      assert (B0 := body_inv o (length x0) j s st w I1).
      assert (B2 := maxit_body f' df' o (length x0) j s st w).
      unfold wp in *. destruct (scg_body f' df' o (length x0) j s st w) as [[[[s'|out]|e] st1] w1]; [| |exact I].
      + destruct B as (B4 & B5 & B6).
        destruct (chain_ext x0 j (s_fx st) xs (l_x s) (l_x s') (l_fold s) (l_fold s') (o_nit o))
          as (xs' & D1 & D2 & D3 & D4 & D5); auto; try apply I2.
        rewrite B6. split; [exact B0|]. split; [exact B4|]. split; [congruence|]. split; [exact D4|].
        split; [exact D5|]. exists xs'. auto.
      + destruct B as (B3 & [(-> & B5)|(B4 & B5)]).
        * cbn [fst snd]. split; [apply I2|]. exists j, xs. rewrite B5, B3. repeat split; auto; try apply I6; lia.
        * destruct (chain_ext x0 j (s_fx st) xs (l_x s) (fst out) (l_fold s) (snd out) (o_nit o))
            as (xs' & D1 & D2 & D3 & D4 & D5); auto; try apply I2.
          split; [exact D3|]. exists (S j), xs'. rewrite B5, B3. repeat split; auto; try apply D1; lia.
    - intros s st w (I1 & I2 & I3 & I4 & I5 & xs & I6 & I7). cbn [fst snd]. split; [apply I2|].
      exists (o_nit o), xs. rewrite I3. repeat split; auto; try apply I6; lia. }
  exact (wp_and _ _ _ _ _ _ _ _ A H).
Qed.
Lemma chain_le x0 r fxs xs : chain x0 r fxs xs -> forall i j, (i <= j <= r)%nat ->
  forall a b, F (xs i) = Ok a -> F (xs j) = Ok b -> b <= a.
Proof.
  intros [_ C] i j Hij. destruct Hij as [Hij Hj]. induction Hij as [|j Hij IH]; intros a b Ha Hb.
  - replace b with a by congruence. lra.
  - destruct (C j ltac:(lia)) as (u & v & Eu & Ev & Hle & _).
    replace b with v by congruence. specialize (IH ltac:(lia) a u Ha Eu). lra.
Qed.
End Run.
