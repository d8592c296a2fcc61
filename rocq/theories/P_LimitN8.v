(** * Lorenz 63: the limit of the offset part of [gradient], and a case where it is wrong. *)
From Coq Require Import List Arith Reals Lra Lia Psatz.
From Coquelicot Require Import Coquelicot.
From Verif Require Import Num Arr ArrFacts M_LinAlg M_Utils M_Ode M_Moments M_Sde1 M_L63 M_Prior M_Like M_VarGP
  Spec_Utils Spec_Det Spec_Ode Spec_Gauss Spec_GaussN Spec_Sde1 Spec_L63 Spec_Prior Spec_Like Spec_VarGP Spec_TimeVar Spec_Limit Spec_GradN Spec_LimitN
  P_Ode P_OdeR P_Sde1 P_Det P_RMat P_Prior P_Like P_L63 P_VarGP P_GaussN P_Expect P_GradN P_GradN2 P_GradN3 P_GradL63 P_GradL63T
  P_TimeVar P_TimeVar3 P_TimeVar4 P_TimeVar5 P_Limit1 P_Limit6 P_LimitN1 P_LimitN2 P_LimitN3 P_LimitN6 P_LimitN7.
Import ListNotations.
Local Open Scope R_scope.

Lemma isq_eb63 th w i : (i < 3)%nat -> isq 3 (fun A b m S => eb63 th w A b m S i).
Proof.
  intros Hi. assert (E : i = 0%nat \/ i = 1%nat \/ i = 2%nat) by lia. destruct E as [ -> | [ -> | -> ] ];
  unfold eb63; cbn [Rsum]; l63unf; cbn [sumn]; rnum;
  repeat first [apply q_add|apply q_sub|apply q_opp|apply q_mul|apply q_div|apply q_pow|apply q_const|apply q_A; lia|apply q_b; lia|apply q_m; lia|apply q_S; lia].
Qed.
Lemma isq_em63 th w i : (i < 3)%nat -> isq 3 (fun A b m S => em63 th w A b m S i).
Proof.
  intros Hi. assert (E : i = 0%nat \/ i = 1%nat \/ i = 2%nat) by lia. destruct E as [ -> | [ -> | -> ] ];
  unfold em63; cbn [Rsum]; l63unf; cbn [sumn]; rnum;
  repeat first [apply q_add|apply q_sub|apply q_opp|apply q_mul|apply q_div|apply q_pow|apply q_const|apply q_A; lia|apply q_b; lia|apply q_m; lia|apply q_S; lia].
Qed.
Lemma dir63 th (P : nat -> nat -> R) : (forall i j, (i < 3)%nat -> (j < 3)%nat -> i <> j -> P i j = 0) ->
  forall (A S : nat -> nat -> R) (b m k u : nat -> R), symm 3 S ->
  is_derive (fun x => de63 th (fun i => P i i) A (fun i => b i + x * k i) (fun i => m i + x * u i) S) 0
    (dot 3 (eb63 th (fun i => P i i) A b m S) k + dot 3 (em63 th (fun i => P i i) A b m S) u).
Proof.
  intros HP A S b m k u HS. pose proof (l63_okn th P 1 HP) as EO.
  pose proof (eok_chain _ _ _ _ _ _ _ _ _ EO (fun _ => A) (fun _ => S) (fun x i => b i + x * k i) (fun x i => m i + x * u i) (fun _ _ => 0) (fun _ _ => 0) k u) as D.
  eapply d_eq; [apply D|].
  - intros; apply d_const.
  - intros; apply d_const.
  - intros i. auto_derive; [exact I|ring].
  - intros i. auto_derive; [exact I|ring].
  - intros t. exact HS.
  - intros i j _ _. reflexivity.
  - cbv beta. destruct (eok_ext _ _ _ _ _ _ _ _ _ EO A A (fun i => b i + 0 * k i) b (fun i => m i + 0 * u i) m S S) as (_ & _ & _ & E4 & E5);
      [intros i j _ _; reflexivity|intros i _; ring|intros i _; ring|intros i j _ _; reflexivity|].
    assert (Z : forall X : nat -> nat -> R, dots 3 X (fun _ _ => 0) = 0) by (intros X; unfold dots; apply Rsum_z; intros; apply Rsum_z; intros; ring).
    assert (Zb : forall X : nat -> nat -> R, dot_below 3 X (fun _ _ => 0) = 0) by (intros X; unfold dot_below; apply Rsum_z; intros; apply Rsum_z; intros; try destruct (_ <? _)%nat; ring).
    rewrite !Z, Zb. rewrite (dot_ext 3 _ (eb63 th (fun i => P i i) A b m S) k k E4 (fun i _ => eq_refl)).
    rewrite (dot_ext 3 _ (em63 th (fun i => P i i) A b m S) u u E5 (fun i _ => eq_refl)). ring.
Qed.

(** only the values of Q on [0,T] matter *)
Lemma fits_ext d T (Q Q' : R -> nat -> nat -> R) g : (forall t, 0 <= t <= T -> eqm d (Q t) (Q' t)) ->
  forall ps T2 y0, T2 <= T -> fits (solq d Q g) (glueq d) T2 y0 ps -> fits (solq d Q' g) (glueq d) T2 y0 ps.
Proof.
  intros HQ. assert (Sl : forall u v y, 0 <= u -> v <= T -> solq d Q g u v y -> solq d Q' g u v y).
  { intros u v y Hu Hv H t i Ht Hi. eapply d_eq; [apply (H t i Ht Hi)|]. f_equal. apply Rsum_ext. intros k Hk. rewrite (HQ t ltac:(lra) i k Hi Hk). reflexivity. }
  induction ps as [|[[tau c] y] r IH]; intros T2 y0 H2 Hf; cbn [fits] in *; [apply Sl; [lra|lra|exact Hf]|].
  destruct Hf as (Ht & Hs & Hg & Hr). split; [exact Ht|]. split; [apply Sl; [lra|lra|exact Hs]|]. split; [exact Hg|]. apply IH; [lra|exact Hr].
Qed.

Section G63.
Context (th : nat -> R) (T : R) (Sigma P : nat -> nat -> R) (m0 : nat -> R) (s0 : nat -> nat -> R) (mu : nat -> R) (tau Ti Rn Ri : nat -> nat -> R) (obs : list (R * (nat -> R))) (A : R -> nat -> nat -> R) (b : R -> nat -> R).
Context (HT : 0 <= T) (HSs : symm 3 Sigma) (HSp : posdef 3 Sigma) (HP : is_inv 3 Sigma P) (HPd : forall i j, (i < 3)%nat -> (j < 3)%nat -> i <> j -> P i j = 0) (H0s : symm 3 s0) (H0p : posdef 3 s0)
  (Hts : symm 3 tau) (Htp : posdef 3 tau) (HTi : is_inv 3 tau Ti) (Hrs : symm 3 Rn) (Hrp : posdef 3 Rn) (HRi : is_inv 3 Rn Ri) (Hobs : times_ok 0 T (clock obs)) (Hcm : commute 3 s0 tau).
Context (HA : forall i j, (i < 3)%nat -> (j < 3)%nat -> smooth 2 T (fun t => A t i j)) (Hb : forall i, (i < 3)%nat -> smooth 2 T (fun t => b t i)).
Notation f63' := (f63 (th 0%nat) (th 1%nat) (th 2%nat)).
Notation w := (fun i => P i i).
Notation EE mtd dt n t := (vgpn (K:=RNum) ln PI (fun a b m s o => Ok (l63_energy (K:=RNum) th P dt a b m s o)) mtd (n + 1) 3 dt Sigma P m0 s0 mu tau (map snd obs) t Rn (meye (K:=RNum))).
Notation gM m S := (gm (em63 th w) A b m S).
Notation eBt m S := (eB (eb63 th w) A b m S).

Lemma exact_b m S y0 ps : moments_n 3 T Sigma m0 s0 A b m S -> (forall i, y0 T i = 0) -> fits (solq 3 (trA A) (gM m S)) (glueq 3) T y0 ps ->
  map fst ps = map (fun o => (fst o, cb 3 Ri m o)) (rev obs) ->
  cont_gradient_b f63' 3 T Sigma m0 s0 mu tau Rn obs A b (fun t i => eBt m S t i + with_jumps y0 ps t i).
Proof.
  intros HM. apply (gradient_b_is 3 P (de63 th w) (isq_de63 _ _) f63' (eb63 th w) (em63 th w) (fun A b m S HS => e63_mis th P A b m S HPd HS)
    (fun i Hi => isq_eb63 th w i Hi) (fun i Hi => isq_em63 th w i Hi) (dir63 th P HPd)) with (Ti := Ti); assumption.
Qed.
Lemma code_b m S y0 ps : moments_n 3 T Sigma m0 s0 A b m S -> (forall i, y0 T i = 0) -> fits (solq 3 A (gM m S)) (glueq 3) T y0 ps ->
  map fst ps = map (fun o => (fst o, cb 3 Ri m o)) (rev obs) ->
  exists K dt0, 0 < dt0 /\ forall mtd dt n t x, 0 < dt < dt0 -> INR n * dt = T -> at_index dt (clock obs) t -> sampled_n 3 dt n A b x ->
  exists g : list R, (forall st, fst (gradient (EE mtd dt n t) x true st) = Ok g) /\ length g = ((n + 1) * 3 * (3 + 1))%nat /\
  forall k i, (k <= n)%nat -> (i < 3)%nat -> Rabs (part_b (n + 1) 3 (entry g) k i / dt - (eBt m S (INR k * dt) i + with_jumps y0 ps (INR k * dt) i)) <= K * dt.
Proof.
  intros HM Hy Hf Em. destruct (kl0_nd_partial 3 mu tau m0 s0 H0s H0p Hts Htp Hcm) as (k & Tj & _ & _ & Hk0).
  destruct (code_b_conv 3 P (de63 th w) (ea63 th w) (es63 th w) (eb63 th w) (em63 th w) (fun dt a b m s o => Ok (l63_energy (K:=RNum) th P dt a b m s o))
    (fun dt => l63_okn th P dt HPd) (fun i Hi => isq_eb63 th w i Hi) (fun i Hi => isq_em63 th w i Hi) T Sigma s0 m0 mu tau Rn Ri obs _ HT HSs H0s Hrs Hrp HRi Hobs Hk0 A b m S HA Hb HM y0 ps Hy Hf Em)
    as (K & dt0 & Hd & H).
  exists K, dt0. split; [exact Hd|]. intros mtd dt n t x Hdt Hn Ht Hx. destruct (H mtd dt n t x Hdt Hn Ht Hx) as (g & o & HG & Lg & Hg).
  exists g. split; [intros st; rewrite HG; reflexivity|]. split; [exact Lg|]. intros j i Hj Hi. specialize (Hg j i Hj Hi).
  set (z := eBt m S (INR j * dt) i + with_jumps y0 ps (INR j * dt) i) in *.
  replace (part_b (n + 1) 3 (entry g) j i / dt - z) with (/ dt * (part_b (n + 1) 3 (entry g) j i - dt * z)) by (field; lra).
  rewrite Rabs_mult, (Rabs_pos_eq (/ dt)) by (left; apply Rinv_0_lt_compat; lra).
  apply Rmult_le_reg_l with dt; [lra|]. rewrite <- Rmult_assoc, Rinv_r, Rmult_1_l by lra. exact Hg.
Qed.

Lemma both_b : (forall t, 0 <= t <= T -> symm 3 (A t)) ->
  exists gb, cont_gradient_b f63' 3 T Sigma m0 s0 mu tau Rn obs A b gb /\
  exists K dt0, 0 < dt0 /\ forall mtd dt n t x, 0 < dt < dt0 -> INR n * dt = T -> at_index dt (clock obs) t -> sampled_n 3 dt n A b x ->
  exists g : list R, (forall st, fst (gradient (EE mtd dt n t) x true st) = Ok g) /\ length g = ((n + 1) * 3 * (3 + 1))%nat /\
  forall k i, (k <= n)%nat -> (i < 3)%nat -> Rabs (part_b (n + 1) 3 (entry g) k i / dt - gb (INR k * dt) i) <= K * dt.
Proof.
  intros Hsy. destruct (moments_n_ex 3 T Sigma s0 m0 A b HT (fun i j Hi Hj => smooth_pred 1 T _ (HA i j Hi Hj)) (fun i Hi => smooth_pred 1 T _ (Hb i Hi))) as (m & S & HM).
  destruct (mults_ex 3 (em63 th w) (fun i Hi => isq_em63 th w i Hi) T Sigma s0 m0 Ri obs HT Hobs A b HA Hb m S HM A (fun i j Hi Hj => smooth_pred 1 T _ (HA i j Hi Hj))) as (y0 & ps & Y & F & E).
  exists (fun t i => eBt m S t i + with_jumps y0 ps t i). split; [|apply code_b; assumption].
  apply exact_b; auto. apply (fits_ext 3 T A (trA A)) with (2 := Rle_refl T); [|exact F]. intros t Ht i j Hi Hj. apply (Hsy t Ht i j Hi Hj).
Qed.
End G63.

(** ** the witness: A has the single entry A_02 = 1 *)
Definition thw : nat -> R := fun i => if (i =? 1)%nat then 1 else 0.
Definition Aw (_ : R) (i j : nat) : R := if andb (i =? 0)%nat (j =? 2)%nat then 1 else 0.
Definition bw (_ : R) (_ : nat) : R := 0.
Definition Swn (t : R) (i j : nat) : R :=
  match i, j with
  | 0%nat, 0%nat => 1 + t + t ^ 2 + t ^ 3 / 3 | 1%nat, 1%nat => 1 + t | 2%nat, 2%nat => 1 + t
  | 0%nat, 2%nat => - t - t ^ 2 / 2 | 2%nat, 0%nat => - t - t ^ 2 / 2 | _, _ => 0 end.
Ltac three H := match type of H with (?i < 3)%nat => let Q := fresh in assert (Q : i = 0%nat \/ i = 1%nat \/ i = 2%nat) by lia; clear H; destruct Q as [ -> | [ -> | -> ] ] end.
Lemma Swn_moments : moments_n 3 1 ident (fun _ => 0) ident Aw bw (fun _ _ => 0) Swn.
Proof.
  split; [reflexivity|]. split; [|split].
  - intros i j Hi Hj. three Hi; three Hj; unfold Swn, ident; cbn [Nat.eqb]; field.
  - intros t i _ _. eapply d_eq; [apply d_const|]. unfold glin, bw. rewrite Rsum_z by (intros; ring). ring.
  - intros t i j Ht Hi Hj. cbn [Rsum]. three Hi; three Hj; unfold Swn, Aw, ident; cbn [Nat.eqb andb]; auto_derive; auto; field.
Qed.
(** the multipliers of the derivative, and those of the program *)
Definition lw (t : R) (i : nat) : R :=
  match i with 0%nat => 4 / 3 - t ^ 2 - t ^ 3 / 3 | 1%nat => - (2 / 3) + t ^ 2 / 2 + t ^ 3 / 6 | 2%nat => 7 / 3 * t + t ^ 2 / 2 - 17 / 6 | _ => 0 end.
Definition lw' (t : R) (i : nat) : R :=
  match i with 0%nat => - t ^ 2 / 2 - t ^ 3 / 6 + t ^ 4 / 12 + t ^ 5 / 60 - 23 / 12 * t + 149 / 60 | 1%nat => - (2 / 3) + t ^ 2 / 2 + t ^ 3 / 6
  | 2%nat => t + t ^ 2 / 2 + t ^ 3 / 3 + t ^ 4 / 12 - 23 / 12 | _ => 0 end.
Definition gw (t : R) (i : nat) : R := match i with 0%nat => 2 * t + t ^ 2 | 1%nat => - t - t ^ 2 / 2 | 2%nat => - (1 + t + t ^ 2 + t ^ 3 / 3) | _ => 0 end.
Lemma gm_w t i : (i < 3)%nat -> gm (em63 thw (fun i => ident i i)) Aw bw (fun _ _ => 0) Swn t i = gw t i.
Proof.
  intros Hi. three Hi; unfold gm, em63, gw; cbn [Rsum]; l63unf; cbn [sumn]; rnum; unfold thw, Aw, bw, Swn, ident; cbn [Nat.eqb andb]; field.
Qed.
Lemma lw_sol : fits (solq 3 (trA Aw) (gm (em63 thw (fun i => ident i i)) Aw bw (fun _ _ => 0) Swn)) (glueq 3) 1 lw [].
Proof.
  intros t i Ht Hi. rewrite gm_w by exact Hi. cbn [Rsum]. three Hi; unfold lw, gw, trA, Aw; cbn [Nat.eqb andb]; auto_derive; auto; field.
Qed.
Lemma lw'_sol : fits (solq 3 Aw (gm (em63 thw (fun i => ident i i)) Aw bw (fun _ _ => 0) Swn)) (glueq 3) 1 lw' [].
Proof.
  intros t i Ht Hi. rewrite gm_w by exact Hi. cbn [Rsum]. three Hi; unfold lw', gw, Aw; cbn [Nat.eqb andb]; auto_derive; auto; field.
Qed.
Lemma lw_end i : lw 1 i = 0. Proof. destruct i as [|[|[|i]]]; unfold lw; try field; reflexivity. Qed.
Lemma lw'_end i : lw' 1 i = 0. Proof. destruct i as [|[|[|i]]]; unfold lw'; try field; reflexivity. Qed.
Lemma lw_apart : lw 0 2%nat - lw' 0 2%nat = - (11 / 12). Proof. unfold lw, lw'. field. Qed.

(** any A and b can be sampled *)
Lemma sampled_ex d dt n (A : R -> nat -> nat -> R) (b : R -> nat -> R) : exists x, sampled_n d dt n A b x.
Proof.
  set (N := ((n + 1) * d * (d + 1))%nat). set (M := ((n + 1) * d * d)%nat).
  set (f := fun p : nat => if (p <? M)%nat then A (INR (p / d / d) * dt) (p / d mod d)%nat (p mod d)%nat else b (INR ((p - M) / d) * dt) ((p - M) mod d)%nat).
  exists (map f (seq 0 N)). split; [rewrite map_length, seq_length; reflexivity|].
  assert (E : forall p, (p < N)%nat -> entry (map f (seq 0 N)) p = f p).
  { intros p Hp. unfold entry. rewrite (nth_indep _ 0 (f 0%nat)) by (rewrite map_length, seq_length; exact Hp). rewrite map_nth, seq_nth by exact Hp. reflexivity. }
  intros k Hk. split.
  - intros i j Hi Hj. unfold part_a. assert (L : ((k * d + i) * d + j < M)%nat) by (unfold M; nia).
    rewrite ?Nat.add_assoc. match goal with |- entry _ ?p = _ => replace p with ((k * d + i) * d + j)%nat by nia end.
    rewrite E by (unfold N, M in *; nia). unfold f. destruct (Nat.ltb_spec ((k * d + i) * d + j) M); [|lia].
    rewrite (Nat.add_comm ((k * d + i) * d) j), Nat.div_add, Nat.mod_add, (Nat.div_small j d), (Nat.mod_small j d) by lia. cbn [Nat.add].
    rewrite (Nat.add_comm (k * d) i), Nat.div_add, Nat.mod_add, (Nat.div_small i d), (Nat.mod_small i d) by lia. reflexivity.
  - intros i Hi. unfold part_b. match goal with |- entry _ ?p = _ => replace p with (M + (k * d + i))%nat by (unfold M; nia) end.
    rewrite E by (unfold N, M; nia). unfold f. destruct (Nat.ltb_spec (M + (k * d + i)) M); [lia|].
    replace (M + (k * d + i) - M)%nat with (i + k * d)%nat by lia. rewrite Nat.div_add, Nat.mod_add, (Nat.div_small i d), (Nat.mod_small i d) by lia. reflexivity.
Qed.
