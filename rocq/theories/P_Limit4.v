(** * Perturbed sweeps, and what free_energy and gradient compute for any method (one dimension). *)
From Coq Require Import List Arith Reals Lra Lia Psatz Sorted.
From Coquelicot Require Import Coquelicot.
From Verif Require Import Num Arr ArrFacts M_LinAlg M_Utils M_Ode M_Moments M_Sde1 M_Prior M_Like M_VarGP
  Spec_Utils Spec_Ode Spec_TimeVar Spec_Sde1 Spec_VarGP P_Ode P_OdeR P_OdeRK P_Conv P_Trapz P_Like P_VarGP P_RMat P_Det P_Sde1 P_Adjoint P_Grad1 P_TimeVar P_TimeVar2 P_TimeVar4 P_TimeVar5 P_TimeVar7.
Import ListNotations.
Local Open Scope R_scope.

(** ** one step of a scalar equation, with a perturbed right-hand side *)
Section Stab2.
Notation co := (fun (_ : unit) (u : R) => u).
Notation eu := (co_euler (V := sV) co (fun _ _ _ => eq_refl) (fun _ _ _ => eq_refl) (fun _ => eq_refl)).
Notation he := (co_heun (V := sV) co (fun _ _ _ => eq_refl) (fun _ _ _ => eq_refl) (fun _ => eq_refl)).
Notation mi := (co_mid (V := sV) co (fun _ _ _ => eq_refl) (fun _ _ _ => eq_refl) (fun _ => eq_refl)).
Notation r4 := (co_rk4 (V := sV) co (fun _ _ _ => eq_refl) (fun _ _ _ => eq_refl) (fun _ => eq_refl)).
Notation s0_ := (co_st0 (V := sV) co (fun _ _ _ => eq_refl) (fun _ _ _ => eq_refl) (fun _ => eq_refl)).
Notation s1_ := (co_st1 (V := sV) co (fun _ _ _ => eq_refl) (fun _ _ _ => eq_refl) (fun _ => eq_refl)).
Notation s2_ := (co_st2 (V := sV) co (fun _ _ _ => eq_refl) (fun _ _ _ => eq_refl) (fun _ => eq_refl)).
Notation s3_ := (co_st3 (V := sV) co (fun _ _ _ => eq_refl) (fun _ _ _ => eq_refl) (fun _ => eq_refl)).
Variables (F G : R -> R -> R) (L h q : R).
Hypothesis Lpos : 0 < L.
Hypothesis qpos : 0 <= q.
(** q = c / L, c the size of the perturbation *)
Hypothesis HF : forall th u v e, node th -> Rabs (u - v) <= e -> Rabs (F th u - G th v) <= L * (e + q).
Ltac babs := repeat match goal with H : Rabs _ <= _ |- _ => apply Rabs_le_between in H end; apply Rabs_le_between.
Lemma mulH x b : Rabs x <= b -> Rabs (h * x) <= Rabs h * b.
Proof. intros H. rewrite Rabs_mult. apply Rmult_le_compat_l; [apply Rabs_pos|auto]. Qed.
Lemma stab2 mtd e u v : Rabs (u - v) <= e -> 0 <= e ->
  Rabs (rk_step (V := sV) (tab_of mtd) F h u - rk_step (V := sV) (tab_of mtd) G h v) <= exp (Rabs h * L) * (e + q) - q.
Proof.
  intros H He. set (H' := Rabs h). set (w := e + q). assert (w0 : 0 <= w) by (unfold w; lra).
  assert (H'0 : 0 <= H') by apply Rabs_pos.
  assert (N0 : node 0) by (left; auto). assert (Nh : node (1/2)) by (right; left; auto). assert (N1 : node 1) by (right; right; auto).
  set (K1 := fun F => k1 (V := sV) F h). set (K2h := fun F => k2h (V := sV) F h). set (K2 := fun F => k2 (V := sV) F h).
  set (K3 := fun F => k3 (V := sV) F h). set (K4 := fun F => k4 (V := sV) F h).
  assert (A1 : Rabs (K1 F u - K1 G v) <= L * w).
  { apply HF; auto. rewrite (s0_ h tt u), (s0_ h tt v). exact H. }
  pose proof (mulH _ _ A1) as B1. fold H' in B1.
  assert (A2h : Rabs (K2h F u - K2h G v) <= L * (w + H' * (L * w))).
  { replace (w + H' * (L * w)) with (e + H' * (L * w) + q) by (unfold w; ring). apply HF; auto.
    rewrite (s1_ h tt 1 u (k1 (V := sV) F h u)), (s1_ h tt 1 v (k1 (V := sV) G h v)). fold (K1 F u) (K1 G v). babs. unfold K1 in *. lra. }
  pose proof (mulH _ _ A2h) as B2h. fold H' in B2h.
  assert (A2 : Rabs (K2 F u - K2 G v) <= L * (w + H' * (L * w) / 2)).
  { replace (w + H' * (L * w) / 2) with (e + H' * (L * w) / 2 + q) by (unfold w; ring). apply HF; auto.
    rewrite (s1_ h tt (1/2) u (k1 (V := sV) F h u)), (s1_ h tt (1/2) v (k1 (V := sV) G h v)). babs. unfold K1 in *. lra. }
  pose proof (mulH _ _ A2) as B2. fold H' in B2.
  assert (A3 : Rabs (K3 F u - K3 G v) <= L * (w + H' * (L * (w + H' * (L * w) / 2)) / 2)).
  { replace (w + H' * (L * (w + H' * (L * w) / 2)) / 2) with (e + H' * (L * (w + H' * (L * w) / 2)) / 2 + q) by (unfold w; ring). apply HF; auto.
    rewrite (s2_ h tt 0 (1/2) u (k1 (V := sV) F h u) (k2 (V := sV) F h u)), (s2_ h tt 0 (1/2) v (k1 (V := sV) G h v) (k2 (V := sV) G h v)). babs. unfold K2 in *. lra. }
  pose proof (mulH _ _ A3) as B3. fold H' in B3.
  assert (A4 : Rabs (K4 F u - K4 G v) <= L * (w + H' * (L * (w + H' * (L * (w + H' * (L * w) / 2)) / 2)))).
  { replace (w + H' * (L * (w + H' * (L * (w + H' * (L * w) / 2)) / 2))) with (e + H' * (L * (w + H' * (L * (w + H' * (L * w) / 2)) / 2)) + q) by (unfold w; ring). apply HF; auto.
    rewrite (s3_ h tt 0 0 1 u (k1 (V := sV) F h u) (k2 (V := sV) F h u) (k3 (V := sV) F h u)), (s3_ h tt 0 0 1 v (k1 (V := sV) G h v) (k2 (V := sV) G h v) (k3 (V := sV) G h v)). babs. unfold K3 in *. lra. }
  pose proof (mulH _ _ A4) as B4. fold H' in B4.
  assert (T0 : forall p, texp p (H' * L) * w - q <= exp (H' * L) * w - q).
  { intros p. apply Rplus_le_compat_r, Rmult_le_compat_r; auto. eapply Rle_trans; [apply Rle_abs|]. eapply Rle_trans; [apply texp_abs|].
    rewrite Rabs_pos_eq by (apply Rmult_le_pos; lra). lra. }
  destruct (texp_poly (H' * L)) as (P1 & P2 & P4).
  destruct mtd; cbn [tab_of].
  - rewrite (eu F h tt u), (eu G h tt v). fold (K1 F u) (K1 G v). specialize (T0 1%nat). rewrite P1 in T0. eapply Rle_trans; [|exact T0]. babs. unfold w in *. lra.
  - rewrite (he F h tt u), (he G h tt v). specialize (T0 2%nat). rewrite P2 in T0. eapply Rle_trans; [|exact T0]. babs. unfold K1, K2h, w in *. lra.
  - rewrite (mi F h tt u), (mi G h tt v). specialize (T0 2%nat). rewrite P2 in T0. eapply Rle_trans; [|exact T0]. babs. unfold K2, w in *. lra.
  - rewrite (r4 F h tt u), (r4 G h tt v). specialize (T0 4%nat). rewrite P4 in T0. eapply Rle_trans; [|exact T0]. babs. unfold K1, K2, K3, K4, w in *. lra.
Qed.
End Stab2.

Lemma exp_le_mono_ x y : x <= y -> exp x <= exp y.
Proof. intros [H|H]; [left; apply exp_increasing; exact H|rewrite H; lra]. Qed.
Lemma Rsum_first n (f : nat -> R) : Rsum (S n) f = f 0%nat + Rsum n (fun i => f (S i)).
Proof. induction n as [|n IH]; [cbn; ring|]. cbn [Rsum] in *. rewrite IH. ring. Qed.
Lemma Rsum_rev_ n : forall f : nat -> R, Rsum n (fun i => f (n - 1 - i)%nat) = Rsum n f.
Proof.
  induction n as [|n IH]; intros f; [reflexivity|]. rewrite (Rsum_first n f), <- (IH (fun i => f (S i))). cbn [Rsum].
  replace (S n - 1 - n)%nat with 0%nat by lia. rewrite Rplus_comm. f_equal. apply Rsum_ext. intros i Hi. f_equal. lia.
Qed.

(** ** two backward sweeps *)
Lemma sweep2 mtd dt L q n (u v om om' : nat -> R) (F G : nat -> R -> R -> R) : 0 < dt -> 0 < L -> 0 <= q ->
  (forall k th x y e, (k < n)%nat -> node th -> Rabs (x - y) <= e -> Rabs (F k th x - G k th y) <= L * (e + q)) ->
  u n = v n ->
  (forall k, (k < n)%nat -> u k = rk_step (V := sV) (tab_of mtd) (F k) (- dt) (u (k + 1)%nat) + om k) ->
  (forall k, (k < n)%nat -> v k = rk_step (V := sV) (tab_of mtd) (G k) (- dt) (v (k + 1)%nat) + om' k) ->
  forall k, (k <= n)%nat -> Rabs (u k - v k) <= exp (INR n * dt * L) * (q + Rsum n (fun i => Rabs (om i - om' i))).
Proof.
  intros Hdt HL Hq HF H0 Hu Hv.
  set (J := fun j => Rsum j (fun i => Rabs (om (n - 1 - i)%nat - om' (n - 1 - i)%nat))).
  assert (J0 : forall j, 0 <= J j).
  { induction j; cbn; [lra|]. unfold J in *. cbn [Rsum]. pose proof (Rabs_pos (om (n - 1 - j)%nat - om' (n - 1 - j)%nat)). lra. }
  assert (P : forall j, (j <= n)%nat -> Rabs (u (n - j)%nat - v (n - j)%nat) <= exp (INR j * dt * L) * (q + J j) - q).
  { induction j as [|j IH]; intros Hj.
    - rewrite Nat.sub_0_r, H0. replace (v n - v n) with 0 by ring. rewrite Rabs_R0. cbn [INR]. rewrite !Rmult_0_l, exp_0. unfold J; cbn [Rsum]. lra.
    - specialize (IH ltac:(lia)). set (i := (n - S j)%nat). assert (Ei : (n - j = i + 1)%nat) by (unfold i; lia). rewrite Ei in IH.
      rewrite (Hu i) by (unfold i; lia). rewrite (Hv i) by (unfold i; lia).
      assert (E0 : 0 <= exp (INR j * dt * L) * (q + J j) - q) by (eapply Rle_trans; [apply Rabs_pos|exact IH]).
      pose proof (stab2 (F i) (G i) L (- dt) q HL Hq (fun th x y e => HF i th x y e ltac:(unfold i; lia)) mtd _ _ _ IH E0) as S2.
      rewrite Rabs_Ropp, (Rabs_pos_eq dt) in S2 by lra.
      assert (EJ : J (S j) = J j + Rabs (om i - om' i)) by (unfold J; cbn [Rsum]; replace (n - 1 - j)%nat with i by (unfold i; lia); reflexivity).
      set (x := rk_step (V := sV) (tab_of mtd) (F i) (- dt) (u (i + 1)%nat)) in *. set (y := rk_step (V := sV) (tab_of mtd) (G i) (- dt) (v (i + 1)%nat)) in *.
      assert (T : Rabs (x + om i - (y + om' i)) <= Rabs (x - y) + Rabs (om i - om' i)) by (replace (x + om i - (y + om' i)) with ((x - y) + (om i - om' i)) by ring; apply Rabs_triang).
      assert (EX : exp (INR (S j) * dt * L) = exp (dt * L) * exp (INR j * dt * L)) by (rewrite <- exp_plus; f_equal; rewrite S_INR; ring).
      rewrite EX, EJ.
      assert (X1 : 1 <= exp (dt * L) * exp (INR j * dt * L)).
      { rewrite <- exp_plus. apply Rle_trans with (exp 0); [rewrite exp_0; lra|]. apply exp_le_mono_. pose proof (pos_INR j).
        assert (0 <= dt * L) by (apply Rmult_le_pos; lra). assert (0 <= INR j * dt * L) by (rewrite Rmult_assoc; apply Rmult_le_pos; auto). lra. }
      pose proof (Rabs_pos (om i - om' i)).
      assert (1 * Rabs (om i - om' i) <= exp (dt * L) * exp (INR j * dt * L) * Rabs (om i - om' i)) by (apply Rmult_le_compat_r; auto).
      replace (exp (INR j * dt * L) * (q + J j) - q + q) with (exp (INR j * dt * L) * (q + J j)) in S2 by ring. lra. }
  intros k Hk. specialize (P (n - k)%nat ltac:(lia)). replace (n - (n - k))%nat with k in P by lia.
  assert (JJ : J (n - k)%nat <= Rsum n (fun i => Rabs (om i - om' i))).
  { assert (M : forall i j, (i <= j)%nat -> J i <= J j).
    { intros i j Hij. induction Hij; [lra|]. assert (J (S m) = J m + Rabs (om (n - 1 - m)%nat - om' (n - 1 - m)%nat)) by reflexivity.
      pose proof (Rabs_pos (om (n - 1 - m)%nat - om' (n - 1 - m)%nat)). lra. }
    apply Rle_trans with (J n); [apply M; lia|]. unfold J. right. apply (Rsum_rev_ n (fun i => Rabs (om i - om' i))). }
  eapply Rle_trans; [exact P|].
  assert (EE : exp (INR (n - k) * dt * L) <= exp (INR n * dt * L)).
  { apply exp_le_mono_. apply Rmult_le_compat_r; [lra|]. apply Rmult_le_compat_r; [lra|]. apply le_INR. lia. }
  assert (exp (INR (n - k) * dt * L) * (q + J (n - k)%nat) <= exp (INR n * dt * L) * (q + Rsum n (fun i => Rabs (om i - om' i)))).
  { apply Rmult_le_compat; [left; apply exp_pos|pose proof (J0 (n - k)%nat); lra|exact EE|lra]. }
  lra.
Qed.

(** ** free_energy and gradient, any method *)
Section Whole.
Context (energy : list R -> list R -> list R -> list R -> option (list nat) -> Energy1 RNum)
  (isig : R) (ec ea eb em es : R -> R -> R -> R -> R) (EO : energy_ok energy isig ea eb em es).
Context (mtd : method) (n : nat) (dt sigma m0 s0 mu tau r : R) (y : list R) (t : list nat).
Context (Hn : (0 < n)%nat) (Hr : 0 < r) (Hy : length y = length t) (Ht : List.Forall (fun i => (i < n)%nat) t) (Hnd : NoDup t).
Context (Hsde : forall A B M S, length B = length A -> length M = length A -> length S = length A ->
  e_sde (energy A B M S (Some t)) = trap (length A) (fun k => ec (nth k A 0) (nth k B 0) (nth k M 0) (nth k S 0)) dt).
Notation EE := (vgp1 (K:=RNum) ln PI energy mtd n dt sigma isig m0 s0 mu tau y t r 1).
Context (A B : list R) (LA : length A = n) (LB : length B = n).

Lemma unpack_app : unpack1 (K:=RNum) n (A ++ B) = (A, B).
Proof.
  unfold unpack1. replace (n * 1 * 1)%nat with n by lia. change (car RNum) with R.
  rewrite firstn_app, skipn_app, LA, Nat.sub_diag. rewrite <- LA. rewrite firstn_all, skipn_all. cbn. rewrite app_nil_r. reflexivity.
Qed.

Lemma fe_any : exists (mt st dm ds lam psi gm gs : list R) (o : Out EE),
  length mt = n /\ length st = n /\ length dm = n /\ length ds = n /\ length lam = n /\ length psi = n /\
  solve_fwd S1 mtd dt A B m0 s0 sigma = Ok (mt, st) /\
  (forall k, (k < n)%nat -> nth k dm 0 = em (nth k A 0) (nth k B 0) (nth k mt 0) (nth k st 0) /\
                            nth k ds 0 = es (nth k A 0) (nth k B 0) (nth k mt 0) (nth k st 0)) /\
  (forall k, ~ In k t -> nth k gm 0 = 0 /\ nth k gs 0 = 0) /\
  (forall j, (j < length t)%nat -> nth (nth j t O) gm 0 = - (nth j y 0 - nth (nth j t O) mt 0) / r /\ nth (nth j t O) gs 0 = 1 / 2 / r) /\
  solve_bwd S1 mtd dt A dm ds gm gs = Ok (lam, psi) /\
  (forall s, free_energy EE (A ++ B) s = (Ok (kl0_1d (K:=RNum) ln mu tau m0 s0
    + trap n (fun k => ec (nth k A 0) (nth k B 0) (nth k mt 0) (nth k st 0)) dt
    + Rsum (length t) (fun j => lterm r (nth j y 0) (nth (nth j t O) mt 0) (nth (nth j t O) st 0))), Some o)) /\
  exists g, length g = (n + n)%nat /\ (forall s, gradient EE (A ++ B) true s = (Ok g, Some o)) /\
  forall k, (k < n)%nat ->
    let a := nth k A 0 in let b := nth k B 0 in let m := nth k mt 0 in let s := nth k st 0 in
    nth k g 0 = dt * (ea a b m s - nth k lam 0 * m - 2 * nth k psi 0 * s) /\
    nth (n + k) g 0 = dt * (eb a b m s + nth k lam 0).
Proof.
  destruct (solve_fwd_total (sys1 RNum) mtd dt A B m0 s0 sigma) as (mt & st & Hf).
  { exact (Nat.eq_le_incl _ _ (eq_trans LB (eq_sym LA))). } { exact (eq_ind_r (fun z => (0 < z)%nat) Hn LB). }
  change (list R) in mt. change (list R) in st.
  destruct (solve_fwd_shape _ _ _ _ _ _ _ _ _ _ Hf) as (M1 & M2 & _).
  assert (M1' : length mt = n) by (transitivity (length B); [exact M1|exact LB]).
  assert (M2' : length st = n) by (transitivity (length B); [exact M2|exact LB]). clear M1 M2.
  assert (Ht' : List.Forall (fun i => (i < length mt)%nat) t) by (rewrite M1'; exact Ht).
  assert (Hms : length st = length mt) by congruence.
  pose proof (like_1d_val y t r mt st Hr Hy Hms Ht') as Ev.
  destruct (like_grad_1d_val y t r mt st Hr Hy Hms Ht' 1) as (gm & gs & gr & Eg & G1 & G2 & G3 & Gz & Gv).
  change (list R) in gm. change (list R) in gs. change (list R) in gr.
  assert (G1' : length gm = n) by (transitivity (length mt); [exact G1|exact M1']).
  assert (G2' : length gs = n) by (transitivity (length mt); [exact G2|exact M1']).
  destruct (eo_len _ _ _ _ _ _ EO A B mt st (Some t)) as (F1 & F2 & F3 & F4); [congruence|congruence|congruence|].
  set (en := energy A B mt st (Some t)) in *.
  set (EDM := e_dm en : list R). set (EDS := e_ds en : list R).
  assert (F3' : length EDM = n) by (transitivity (length A); [exact F3|exact LA]).
  assert (F4' : length EDS = n) by (transitivity (length A); [exact F4|exact LA]).
  assert (X1 : (length EDM <= length A)%nat) by lia. assert (X2 : (length EDM <= length EDS)%nat) by lia.
  assert (X3 : (length EDM - 1 <= length gm)%nat) by lia. assert (X4 : (length EDM - 1 <= length gs)%nat) by lia.
  destruct (solve_bwd_total (sys1 RNum) mtd dt A EDM EDS gm gs X1 X2 X3 X4) as (lam & psi & Hb).
  change (list R) in lam. change (list R) in psi.
  destruct (solve_bwd_shape _ _ _ _ _ _ _ _ _ _ Hb) as (B1 & B2 & _).
  assert (B1' : length lam = n) by (transitivity (length EDM); [exact B1|exact F3']).
  assert (B2' : length psi = n) by (transitivity (length EDM); [exact B2|exact F3']). clear B1 B2.
  set (o := mkOut (E:=EE) mt st (e_f en) (e_df en) lam psi).
  assert (EF : fe_core EE (A ++ B) = Ok (kl0_1d (K:=RNum) ln mu tau m0 s0 + e_sde en +
     Rsum (length t) (fun j => lterm r (nth j y 0) (nth (nth j t O) mt 0) (nth (nth j t O) st 0)), o)).
  { apply (fe_core_ok EE (A ++ B) A B mt st (e_f en) EDM lam (e_df en) EDS psi gm gs).
    - exact (f_equal (fun z => Ok z) unpack_app).
    - exact Hf.
    - exact Ev.
    - reflexivity.
    - unfold vgp1. cbn [v_like_grad]. change (car RNum) with R. rewrite Eg. reflexivity.
    - exact Hb.
    - reflexivity. }
  exists mt, st, EDM, EDS, lam, psi, gm, gs, o.
  repeat (split; [assumption|]).
  split.
  { intros k Hk. destruct (eo_val _ _ _ _ _ _ EO A B mt st (Some t) k) as (V1 & V2 & _); [congruence|congruence|congruence|lia|].
    split; [exact V1|exact V2]. }
  split; [intros k Hk; destruct (Gz k Hk) as (Q1 & Q2 & _); split; assumption|].
  split.
  { intros j Hj. destruct (Gv Hnd j Hj) as (Q1 & Q2 & _). split; [|exact Q2]. etransitivity; [exact Q1|]. rewrite Rmult_1_l. reflexivity. }
  split; [exact Hb|]. split.
  { intros s. unfold free_energy. rewrite EF. unfold en. rewrite Hsde by congruence. rewrite LA. reflexivity. }
  set (gs_ := map (grad_at EE A B o) (seq 0 n)).
  set (GA := map (fun g => dt * fst g) gs_ : list R). set (GB := map (fun g => dt * snd g) gs_ : list R).
  assert (LGA : length GA = n) by (unfold GA, gs_; rewrite !map_length, seq_length; reflexivity).
  assert (LGB : length GB = n) by (unfold GB, gs_; rewrite !map_length, seq_length; reflexivity).
  exists (GA ++ GB). split; [rewrite app_length, LGA, LGB; reflexivity|]. split.
  { intros s. unfold gradient, free_energy. rewrite EF. unfold grad_core.
    change (v_unpack EE (A ++ B)) with (@Ok (list R * list R) (unpack1 (K:=RNum) n (A ++ B))). rewrite unpack_app. cbn [bind].
    assert (Hro : grad_reads_ok EE A B o = true).
    { unfold grad_reads_ok. apply forallb_forall. intros z Hz. apply Nat.leb_le. change (v_n EE) with n.
      assert (Hz' : In z [length A; length B; length mt; length st; length (e_f en : list R); length (e_df en : list R); length lam; length psi]) by exact Hz.
      change (length (e_f en : list R) = length A) in F1. change (length (e_df en : list R) = length A) in F2.
      rewrite LA, LB, M1', M2', B1', B2', F1, F2, LA in Hz'. cbn in Hz'. lia. }
    rewrite Hro. reflexivity. }
  intros k Hk. cbn zeta.
  destruct (eo_val _ _ _ _ _ _ EO A B mt st (Some t) k) as (_ & _ & V3 & V4); [congruence|congruence|congruence|lia|].
  fold en in V3, V4. split.
  - rewrite app_nth1 by lia. unfold GA, gs_. rewrite map_map.
    transitivity (dt * fst (grad_at EE A B o k)); [apply (map_seq_nth' n (fun k => dt * fst (grad_at EE A B o k)) k Hk)|].
    f_equal.
    transitivity (dEsde_da1 (K:=RNum) isig (nth k A 0) (nth k mt 0) (nth k st 0) (nth k (e_df en) 0)
        (dEsde_db1 (K:=RNum) isig (nth k (e_f en) 0) (nth k mt 0) (nth k A 0) (nth k B 0)) - nth k lam 0 * nth k mt 0 - 2 * nth k psi 0 * nth k st 0);
      [reflexivity|]. f_equal. f_equal. exact V4.
  - rewrite app_nth2 by lia. rewrite LGA. replace (n + k - n)%nat with k by lia. unfold GB, gs_. rewrite map_map.
    transitivity (dt * snd (grad_at EE A B o k)); [apply (map_seq_nth' n (fun k => dt * snd (grad_at EE A B o k)) k Hk)|].
    f_equal.
    transitivity (dEsde_db1 (K:=RNum) isig (nth k (e_f en) 0) (nth k mt 0) (nth k A 0) (nth k B 0) + nth k lam 0);
      [reflexivity|]. f_equal. exact V3.
Qed.
End Whole.
