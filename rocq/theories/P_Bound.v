(** * Lower bounds of the free energy (one dimension). *)
From Coq Require Import ZArith List Bool Arith Reals Lra Lia Sorted.
From Coquelicot Require Import Coquelicot.
From Verif Require Import Num Arr ArrFacts M_LinAlg M_Utils M_Ode M_Moments M_Sde1 M_Prior M_Like M_VarGP
  Spec_Utils Spec_Gauss Spec_Sde1 Spec_VarGP P_Ode P_Trapz P_Moments P_Sde1 P_RMat P_Det P_Like P_VarGP P_Stein P_Adjoint P_Grad1.
Import ListNotations.
Local Open Scope R_scope.

(** ** nonnegative variances: the energy terms bound the objective from below *)
Section Below.
Context (energy : list R -> list R -> list R -> list R -> option (list nat) -> Energy1 RNum) (mtd : method)
  (n : nat) (dt sigma isig m0 s0 mu tau r : R) (y : list R) (t : list nat) (pos : R -> Prop) (extra : list R -> list R -> R).
Context (Hn : (0 < n)%nat) (Hr : 0 < r) (Hy : length y = length t) (Ht : List.Forall (fun i => (i < n)%nat) t).
Context (Hp : forall s, pos s -> 0 <= s).
Context (Hpos : forall A B M S, length B = length A -> length M = length A -> length S = length A -> length A = n ->
  (forall k, (k < n)%nat -> pos (nth k S 0)) -> 0 <= e_sde (energy A B M S (Some t)) + extra M S).
Notation EE := (vgp1 (K:=RNum) ln PI energy mtd n dt sigma isig m0 s0 mu tau y t r 1).

Lemma below (x : list R) s (v : R) (o : Out EE) : length x = (n * 1 * (1 + 1))%nat -> free_energy EE x s = (Ok v, Some o) ->
  length (o_mt o) = n /\ length (o_st o) = n /\
  ((forall k, (k < n)%nat -> pos (nth k (o_st o : list R) 0)) ->
   kl0_1d (K:=RNum) ln mu tau m0 s0 + INR (length t) * (1 / 2 * (ln (2 * PI) + ln r)) <= v + extra (o_mt o : list R) (o_st o : list R)).
Proof.
  intros Hx H. destruct (unpack_nth n y t Hn Hy x Hx) as (A & B & EU & L1 & L2 & _).
  unfold free_energy in H. destruct (fe_core EE x) as [[v' o']|] eqn:Ef; [|discriminate]. injection H as -> ->.
  unfold fe_core in Ef.
  change (v_unpack EE x) with (Ok (A := list R * list R) (unpack1 (K:=RNum) n x)) in Ef. rewrite EU in Ef. cbn [bind] in Ef.
  destruct (v_fwd EE A B (v_m0 EE) (v_s0 EE) (v_sigma EE)) as [[mt st]|] eqn:E1; [|discriminate]. cbn [bind] in Ef.
  destruct (v_like EE mt st) as [lk|] eqn:E2; [|discriminate]. cbn [bind] in Ef.
  destruct (v_energy EE A B mt st) as [[[es [ef edf]] [dm ds]]|] eqn:E3; [|discriminate]. cbn [bind] in Ef.
  destruct (v_like_grad EE mt st) as [[gm gs]|]; [|discriminate]. cbn [bind] in Ef.
  destruct (v_bwd EE A dm ds gm gs) as [[lam psi]|]; [|discriminate]. cbn [bind] in Ef.
  change (v_kl0 EE (v_m0 EE) (v_s0 EE)) with (Ok (kl0_1d (K:=RNum) ln mu tau m0 s0)) in Ef. cbn [bind] in Ef.
  injection Ef as <- <-. cbn [o_mt o_st]. change (list R) in mt. change (list R) in st.
  destruct (solve_fwd_ok (sys1 RNum) mtd dt A B m0 s0 sigma mt st E1) as (_ & M1 & M2 & _).
  assert (M1' : length mt = n) by (transitivity (length B); [exact M1|exact L2]).
  assert (M2' : length st = n) by (transitivity (length B); [exact M2|exact L2]).
  split; [exact M1'|]. split; [exact M2'|]. intros Hs.
  assert (Ht' : List.Forall (fun i => (i < length mt)%nat) t) by (rewrite M1'; exact Ht).
  assert (Ev : like_1d (K:=RNum) ln PI y t r mt st = Ok lk) by exact E2.
  rewrite (like_1d_val y t r mt st Hr Hy ltac:(congruence) Ht') in Ev. injection Ev as <-.
  injection E3 as <- _ _ _ _.
  pose proof (Hpos A B mt st ltac:(congruence) ltac:(congruence) ltac:(congruence) L1 Hs) as Q.
  assert (INR (length t) * (1 / 2 * (ln (2 * PI) + ln r)) <=
          Rsum (length t) (fun j => lterm r (nth j y 0) (nth (nth j t O) mt 0) (nth (nth j t O) st 0))).
  { rewrite <- Rsum_const. apply Rsum_le. intros j Hj. unfold lterm.
    assert (0 <= ((nth j y 0 - nth (nth j t O) mt 0) ^ 2 + nth (nth j t O) st 0) / r).
    { apply Rmult_le_pos; [|left; apply Rinv_0_lt_compat; exact Hr]. apply Rplus_le_le_0_compat; [apply pow2_ge_0|].
      apply Hp, Hs. rewrite Forall_forall in Ht. apply Ht, nth_In, Hj. }
    lra. }
  unfold kl0_1d. rnum. change (car RNum) with R in *. lra.
Qed.
End Below.

Lemma dw_exact_nonneg theta a b m s : 0 <= s -> 0 <= dw_exact theta a b m s.
Proof.
  intros Hs. set (c := 4 * theta + a).
  replace (dw_exact theta a b m s) with ((4 * (m ^ 3 + 3 * m * s) - c * m + b) ^ 2 + s * (12 * (m ^ 2 + s) - c) ^ 2
    + s ^ 2 * (24 * m) ^ 2 / 2 + s ^ 3 * 96)
    by (unfold dw_exact, mom_elt, c; rnum; match goal with |- ?u = ?v => change (@eq R u v) end; field).
  assert (0 <= s ^ 2) by apply pow2_ge_0. assert (0 <= s ^ 3) by (apply pow_le; exact Hs).
  pose proof (pow2_ge_0 (4 * (m ^ 3 + 3 * m * s) - c * m + b)).
  assert (0 <= s * (12 * (m ^ 2 + s) - c) ^ 2) by (apply Rmult_le_pos; [exact Hs|apply pow2_ge_0]).
  assert (0 <= s ^ 2 * (24 * m) ^ 2) by (apply Rmult_le_pos; [assumption|apply pow2_ge_0]).
  lra.
Qed.

(** ** growth of the objective along a family of arguments *)
Definition grow (g : R -> R) : Prop := exists S, 0 <= S /\ forall m, 1 <= m -> g m <= S * m ^ 4.
Lemma p4 m : 1 <= m -> 1 <= m ^ 4.
Proof. apply pow_R1_Rle. Qed.
Lemma grow_const c : grow (fun _ => c).
Proof. exists (Rabs c). split; [apply Rabs_pos|]. intros m Hm. pose proof (p4 m Hm). pose proof (Rabs_pos c). pose proof (Rle_abs c). nra. Qed.
Lemma grow_plus f g : grow f -> grow g -> grow (fun m => f m + g m).
Proof. intros (S & P & H) (T & Q & I). exists (S + T). split; [lra|]. intros m Hm. specialize (H m Hm). specialize (I m Hm). lra. Qed.
Lemma grow_scal c f : 0 <= c -> grow f -> grow (fun m => c * f m).
Proof.
  intros Hc (S & P & H). exists (c * S). split; [apply Rmult_le_pos; assumption|]. intros m Hm. rewrite Rmult_assoc.
  apply Rmult_le_compat_l; auto.
Qed.
Lemma grow_ext f g : (forall m, f m = g m) -> grow f -> grow g.
Proof. intros E (S & P & H). exists S. split; [exact P|]. intros m Hm. rewrite <- E. auto. Qed.
Lemma grow_sum n (f : nat -> R -> R) : (forall k, (k < n)%nat -> grow (f k)) -> grow (fun m => Rsum n (fun k => f k m)).
Proof.
  induction n as [|n IH]; intros H; [exact (grow_const 0)|].
  apply (grow_plus (fun m => Rsum n (fun k => f k m)) (f n)); [apply IH; auto|apply H; lia].
Qed.
(** a quadratic *)
Lemma grow_quad c0 c1 c2 : grow (fun m => c0 + c1 * m + c2 * m ^ 2).
Proof.
  exists (Rabs c0 + Rabs c1 + Rabs c2). pose proof (Rabs_pos c0). pose proof (Rabs_pos c1). pose proof (Rabs_pos c2).
  split; [lra|]. intros m Hm. pose proof (p4 m Hm). pose proof (Rle_abs c0). pose proof (Rle_abs c1). pose proof (Rle_abs c2).
  assert (HH2 : m ^ 2 <= m ^ 4) by (replace (m ^ 4) with (m ^ 2 * m ^ 2) by ring; assert (1 <= m ^ 2) by (apply pow_R1_Rle; exact Hm); nra).
  assert (HH3 : m <= m ^ 2) by nra.
  assert (c1 * m <= Rabs c1 * m ^ 4) by nra. assert (c2 * m ^ 2 <= Rabs c2 * m ^ 4) by nra.
  assert (c0 <= Rabs c0 * m ^ 4) by nra. lra.
Qed.
Lemma grow_quartic c0 c2 c4 : grow (fun m => c0 + c2 * m ^ 2 + c4 * m ^ 4).
Proof.
  apply (grow_ext (fun m => (c0 + 0 * m + c2 * m ^ 2) + c4 * m ^ 4)); [intros; ring|]. apply grow_plus; [apply grow_quad|].
  exists (Rabs c4). split; [apply Rabs_pos|]. intros m Hm. pose proof (p4 m Hm). pose proof (Rle_abs c4). nra.
Qed.
Lemma grow_sixth g c : grow g -> 0 < c -> forall bound, exists m, 1 <= m /\ g m - c * m ^ 6 < bound.
Proof.
  intros (S & P & H) Hc bound. set (q := (S + Rabs bound + 1) / c).
  assert (Hq : 0 < q) by (apply Rdiv_lt_0_compat; [pose proof (Rabs_pos bound); lra|exact Hc]).
  exists (1 + q). split; [lra|]. set (m := 1 + q). assert (Hm : 1 <= m) by (unfold m; lra).
  specialize (H m Hm). pose proof (p4 m Hm) as H4.
  assert (Hcm : S + Rabs bound + 1 <= c * m ^ 2).
  { assert (c * q = S + Rabs bound + 1) by (unfold q; field; lra). assert (m <= m ^ 2) by nra.
    assert (c * q <= c * m ^ 2) by (apply Rmult_le_compat_l; [lra|unfold m in *; lra]). lra. }
  assert (E : c * m ^ 6 = c * m ^ 2 * m ^ 4) by ring. rewrite E.
  assert ((S + Rabs bound + 1) * m ^ 4 <= c * m ^ 2 * m ^ 4) by (apply Rmult_le_compat_r; lra).
  pose proof (Rabs_pos bound). pose proof (Rle_abs (- bound)). rewrite Rabs_Ropp in *. nra.
Qed.

(** ** the value and the variances for given functions a, b *)
Definition arg (n : nat) (a b : nat -> R) : list R := (map a (seq 0 n) ++ map b (seq 0 n))%list.
Lemma arg_len n a b : length (arg n a b) = (n * 1 * (1 + 1))%nat.
Proof. unfold arg. rewrite app_length, !map_length, seq_length. lia. Qed.
Lemma arg_a n a b k : (k < n)%nat -> xa (arg n a b) k = a k.
Proof. intros Hk. unfold xa, arg. rewrite app_nth1 by (rewrite map_length, seq_length; exact Hk). apply map_seq_nth', Hk. Qed.
Lemma arg_b n a b k : (k < n)%nat -> xb n (arg n a b) k = b k.
Proof.
  intros Hk. unfold xb, arg. rewrite app_nth2 by (rewrite map_length, seq_length; lia).
  rewrite map_length, seq_length. replace (n + k - n)%nat with k by lia. apply map_seq_nth', Hk.
Qed.
Section Value.
Context (energy : list R -> list R -> list R -> list R -> option (list nat) -> Energy1 RNum)
  (isig : R) (ec ea eb em es : R -> R -> R -> R -> R) (EO : energy_ok energy isig ea eb em es).
Context (n : nat) (dt sigma m0 s0 mu tau r : R) (y : list R) (t : list nat).
Context (Hn : (0 < n)%nat) (Hr : 0 < r) (Hy : length y = length t) (Ht : List.Forall (fun i => (i < n)%nat) t).
Context (Hsde : forall A B M S, length B = length A -> length M = length A -> length S = length A ->
  e_sde (energy A B M S (Some t)) = trap (length A) (fun k => ec (nth k A 0) (nth k B 0) (nth k M 0) (nth k S 0)) dt).
Notation EE := (EV energy isig n dt sigma m0 s0 mu tau r y t).
Lemma arg_value a b : exists o : Out EE,
  (forall s, free_energy EE (arg n a b) s = (Ok (kl0_1d (K:=RNum) ln mu tau m0 s0
    + trap n (fun k => ec (a k) (b k) (path_m dt a b m0 k) (path_s dt a sigma s0 k)) dt
    + Rsum (length t) (fun j => lterm r (nth j y 0) (path_m dt a b m0 (nth j t O)) (path_s dt a sigma s0 (nth j t O)))), Some o)) /\
  forall k, (k < n)%nat -> nth k (o_st o : list R) 0 = path_s dt a sigma s0 k.
Proof.
  set (x := arg n a b). pose proof (arg_len n a b : length x = _) as Hx.
  destruct (fe_arrays energy isig ea eb em es EO n dt sigma m0 s0 mu tau r y t Hn Hr Hy Ht x Hx)
    as (A & B & v & mt & st & lam & psi & gm & gs & gr & EU & L1 & L2 & HA & HB & Hrest).
  cbn zeta in Hrest. destruct Hrest as (M1 & M2 & M3 & M4 & Ev & Eg & Efe & P & Z1 & Z2 & Hadj).
  assert (P' : forall k, (k < n)%nat -> nth k mt 0 = path_m dt a b m0 k /\ nth k st 0 = path_s dt a sigma s0 k).
  { intros k Hk. destruct (P k Hk) as [-> ->]. apply path_ext; intros j Hj; [apply arg_a|apply arg_b]; lia. }
  eexists. split; [intros s; unfold free_energy; rewrite Efe; apply f_equal2; [|reflexivity]; f_equal|exact (fun k Hk => proj2 (P' k Hk))].
  rewrite Hsde by congruence. rewrite L1. f_equal.
  - f_equal. apply trap_ext. intros k Hk. destruct (P' k Hk) as [-> ->]. rewrite (HA k Hk), (HB k).
    unfold x. rewrite arg_a, arg_b by exact Hk. reflexivity.
  - assert (Ht' : List.Forall (fun i => (i < length mt)%nat) t) by (rewrite M1; exact Ht).
    rewrite (like_1d_val y t r mt st Hr Hy ltac:(congruence) Ht') in Ev. injection Ev as <-.
    apply Rsum_ext. intros j Hj. destruct (P' (nth j t O)) as [-> ->]; [|reflexivity].
    rewrite Forall_forall in Ht. apply Ht, nth_In, Hj.
Qed.
End Value.

Lemma path_free dt sigma s0 (a : nat -> R) k : (forall j, (j < k)%nat -> a j = 0) -> path_s dt a sigma s0 k = s0 + INR k * (dt * sigma).
Proof.
  induction k as [|k IH]; intros H; [cbn; ring|]. cbn [path_s]. rewrite IH by auto. rewrite (H k) by lia. rewrite S_INR. ring.
Qed.
Lemma path_still dt m0 (a b : nat -> R) k : (forall j, (j < k)%nat -> a j = 0 /\ b j = 0) -> path_m dt a b m0 k = m0.
Proof.
  induction k as [|k IH]; intros H; [reflexivity|]. cbn [path_m]. rewrite IH by auto. destruct (H k) as [-> ->]; [lia|]. ring.
Qed.

(** ** the double well: the last mean runs away *)
Section Dw.
Context (N : nat) (sigma theta dt m0 s0 r : R) (y : list R) (t : list nat).
Context (Hsg : 0 < sigma) (Hdt : 0 < dt) (Hs0 : 0 < s0) (Hr : 0 < r) (Ht : List.Forall (fun i => (i < N + 2)%nat) t).
Definition sN : R := s0 + INR (N + 1) * (dt * sigma).
Definition da (k : nat) : R := if Nat.eqb k (N + 1) then - 4 * theta else 0.
Definition db (m : R) (k : nat) : R :=
  if Nat.eqb k (N + 1) then - 4 * (m ^ 3 + 3 * m * sN) else if Nat.eqb k N then (m - m0) / dt else 0.
Lemma dw_s k : (k <= N + 1)%nat -> path_s dt da sigma s0 k = s0 + INR k * (dt * sigma).
Proof.
  intros Hk. apply (path_free dt sigma s0 da). intros j Hj. unfold da. destruct (Nat.eqb_spec j (N + 1)); [lia|reflexivity].
Qed.
Lemma dw_m m k : (k <= N + 1)%nat -> path_m dt da (db m) m0 k = if Nat.eqb k (N + 1) then m else m0.
Proof.
  assert (H : forall k, (k <= N)%nat -> path_m dt da (db m) m0 k = m0).
  { intros j Hj. apply path_still. intros i Hi. unfold da, db.
    destruct (Nat.eqb_spec i (N + 1)); [lia|]. destruct (Nat.eqb_spec i N); [lia|]. split; reflexivity. }
  intros Hk. destruct (Nat.eqb_spec k (N + 1)) as [->|Hne]; [|apply H; lia].
  rewrite Nat.add_1_r. cbn [path_m]. rewrite H by lia. unfold da, db.
  destruct (Nat.eqb_spec N (N + 1)); [lia|]. rewrite Nat.eqb_refl. field. lra.
Qed.
Definition dw_f (m : R) (k : nat) : R := e_dwc sigma theta (da k) (db m k) (path_m dt da (db m) m0 k) (path_s dt da sigma s0 k).
Lemma dw_f_grow k : (k <= N)%nat -> grow (fun m => dw_f m k).
Proof.
  intros Hk. set (s := s0 + INR k * (dt * sigma)).
  set (ex2 := mom_elt (K:=RNum) 2 m0 s : R). set (ex3 := mom_elt (K:=RNum) 3 m0 s : R).
  set (ex4 := mom_elt (K:=RNum) 4 m0 s : R). set (ex6 := mom_elt (K:=RNum) 6 m0 s : R).
  set (c := 4 * theta). set (P := 8 * (ex6 - c * ex4) + c ^ 2 * ex2). set (Q := 8 * ex3 - 2 * c * m0).
  destruct (Nat.eqb_spec k N) as [->|Hne].
  - eapply grow_ext; [|exact (grow_quad ((P - Q * m0 / dt + m0 ^ 2 / dt ^ 2) / (2 * sigma)) ((Q / dt - 2 * m0 / dt ^ 2) / (2 * sigma)) (1 / dt ^ 2 / (2 * sigma)))].
    intros m. unfold dw_f. rewrite dw_m, dw_s by lia. fold s. unfold da, db.
    destruct (Nat.eqb_spec N (N + 1)); [lia|]. rewrite Nat.eqb_refl.
    unfold e_dwc, dw_q, dw_c. fold ex2 ex3 ex4 ex6. clearbody ex2 ex3 ex4 ex6. unfold P, Q, c. rnum. change (car RNum) with R in *. field. lra.
  - eapply grow_ext; [|exact (grow_const (dw_f 0 k))]. intros m. unfold dw_f. rewrite !dw_m by lia. unfold db.
    destruct (Nat.eqb_spec k (N + 1)); [lia|]. destruct (Nat.eqb_spec k N); [lia|]. reflexivity.
Qed.
Lemma dw_f_last : grow (fun m => dw_f m (N + 1) + 4 / sigma * m ^ 6).
Proof.
  eapply grow_ext; [|exact (grow_quartic (60 * sN ^ 3 / sigma) (108 * sN ^ 2 / sigma) (12 * sN / sigma))].
  intros m. unfold dw_f. rewrite dw_m, dw_s by lia. unfold da, db. rewrite !Nat.eqb_refl. fold sN.
  unfold e_dwc, dw_q, dw_c, mom_elt. generalize sN. intros s. rnum. change (car RNum) with R in *. field. lra.
Qed.
Lemma dw_sink c bound : exists m, c + trap (N + 2) (dw_f m) dt
  + Rsum (length t) (fun j => lterm r (nth j y 0) (path_m dt da (db m) m0 (nth j t O)) (path_s dt da sigma s0 (nth j t O))) < bound.
Proof.
  assert (G : grow (fun m => c + trap (N + 2) (dw_f m) dt + Rsum (length t)
    (fun j => lterm r (nth j y 0) (path_m dt da (db m) m0 (nth j t O)) (path_s dt da sigma s0 (nth j t O))) + 2 * dt / sigma * m ^ 6)).
  { apply (grow_ext (fun m => (c + (Rsum N (fun k => dt / 2 * (dw_f m k + dw_f m (k + 1))) + dt / 2 * (dw_f m N + (dw_f m (N + 1) + 4 / sigma * m ^ 6))))
      + Rsum (length t) (fun j => lterm r (nth j y 0) (path_m dt da (db m) m0 (nth j t O)) (path_s dt da sigma s0 (nth j t O))))).
    { intros m. unfold trap. replace (N + 2 - 1)%nat with (Datatypes.S N) by lia. cbn [Rsum].
      rewrite (Rsum_ext N (fun k => dt * (dw_f m k + dw_f m (k + 1)) / 2) (fun k => dt / 2 * (dw_f m k + dw_f m (k + 1)))) by (intros; field).
      field. lra. }
    apply (grow_plus (fun m => c + (Rsum N (fun k => dt / 2 * (dw_f m k + dw_f m (k + 1))) + dt / 2 * (dw_f m N + (dw_f m (N + 1) + 4 / sigma * m ^ 6))))).
    - apply grow_plus; [apply grow_const|].
      apply (grow_plus (fun m => Rsum N (fun k => dt / 2 * (dw_f m k + dw_f m (k + 1))))).
      + apply (grow_sum N (fun k m => dt / 2 * (dw_f m k + dw_f m (k + 1)))). intros k Hk.
        apply grow_scal; [lra|]. apply grow_plus; apply dw_f_grow; lia.
      + apply grow_scal; [lra|]. apply grow_plus; [apply dw_f_grow; lia|apply dw_f_last].
    - apply (grow_sum (length t) (fun j m => lterm r (nth j y 0) (path_m dt da (db m) m0 (nth j t O)) (path_s dt da sigma s0 (nth j t O)))).
      intros j Hj. assert (Hi : (nth j t O < N + 2)%nat) by (rewrite Forall_forall in Ht; apply Ht, nth_In, Hj).
      set (i := nth j t O) in *. set (yj := nth j y 0). set (si := path_s dt da sigma s0 i).
      destruct (Nat.eqb_spec i (N + 1)) as [Ei|Ei].
      + eapply grow_ext; [|exact (grow_quad ((yj ^ 2 + si) / (2 * r) + 1 / 2 * (ln (2 * PI) + ln r)) (- yj / r) (1 / (2 * r)))].
        intros m. rewrite dw_m by lia. rewrite Ei, Nat.eqb_refl. unfold lterm. field. lra.
      + eapply grow_ext; [|exact (grow_const (lterm r yj m0 si))]. intros m. rewrite dw_m by lia.
        destruct (Nat.eqb_spec i (N + 1)); [lia|]. reflexivity. }
  destruct (grow_sixth _ (2 * dt / sigma) G) with (bound := bound) as (m & _ & H).
  { apply Rdiv_lt_0_compat; lra. }
  exists m. cbn beta in H. lra.
Qed.
End Dw.

(** ** Ornstein-Uhlenbeck: a step with a negative variance *)
Section Ou.
Context (N : nat) (sigma theta dt m0 s0 : R).
Context (Hsg : 0 < sigma) (Hdt : 0 < dt) (Hs0 : 0 < s0).
Definition oga : R := (1 + (dt * sigma + 1) / (s0 + INR N * (dt * sigma))) / (2 * dt).
Definition omN : R := m0 * (1 - dt * oga).
Definition oa (A : R) (k : nat) : R := if Nat.eqb k (N + 1) then A else if Nat.eqb k N then oga else 0.
Definition ob (A : R) (k : nat) : R := if Nat.eqb k (N + 1) then (A - theta) * omN else 0.
Lemma ou_paths A k : (k <= N)%nat -> path_m dt (oa A) (ob A) m0 k = m0 /\ path_s dt (oa A) sigma s0 k = s0 + INR k * (dt * sigma).
Proof.
  intros Hk. assert (forall j, (j < k)%nat -> oa A j = 0 /\ ob A j = 0) as H.
  { intros j Hj. unfold oa, ob. destruct (Nat.eqb_spec j (N + 1)); [lia|]. destruct (Nat.eqb_spec j N); [lia|]. split; reflexivity. }
  split; [apply path_still, H|apply (path_free dt sigma s0 (oa A)); intros; apply H; assumption].
Qed.
Lemma ou_last_path A : path_m dt (oa A) (ob A) m0 (N + 1) = omN /\ path_s dt (oa A) sigma s0 (N + 1) = - 1.
Proof.
  rewrite Nat.add_1_r. cbn [path_m path_s]. destruct (ou_paths A N (le_n N)) as [-> ->]. unfold oa, ob.
  destruct (Nat.eqb_spec N (N + 1)); [lia|]. rewrite Nat.eqb_refl. split; [unfold omN; ring|]. unfold oga.
  assert (0 < s0 + INR N * (dt * sigma)) by (pose proof (pos_INR N); assert (0 <= INR N * (dt * sigma)) by (apply Rmult_le_pos; nra); lra).
  field. lra.
Qed.
Lemma ou_sink e (t : list nat) (l : nat -> R -> R -> R) c bound : List.Forall (fun i => (i < N + 2)%nat) t ->
  (forall A, e A ((A - theta) * omN) omN (- 1) = - ((A - theta) ^ 2) / (2 * sigma)) ->
  exists A, c + trap (N + 2) (fun k => e (oa A k) (ob A k) (path_m dt (oa A) (ob A) m0 k) (path_s dt (oa A) sigma s0 k)) dt
  + Rsum (length t) (fun j => l j (path_m dt (oa A) (ob A) m0 (nth j t O)) (path_s dt (oa A) sigma s0 (nth j t O))) < bound.
Proof.
  intros Ht He.
  set (f := fun A k => e (oa A k) (ob A k) (path_m dt (oa A) (ob A) m0 k) (path_s dt (oa A) sigma s0 k)).
  set (o := fun A => Rsum (length t) (fun j => l j (path_m dt (oa A) (ob A) m0 (nth j t O)) (path_s dt (oa A) sigma s0 (nth j t O)))).
  assert (Hf : forall A k, (k <= N)%nat -> f A k = f 0 k).
  { intros A k Hk. unfold f. destruct (ou_paths A k Hk) as [-> ->], (ou_paths 0 k Hk) as [-> ->]. unfold oa, ob.
    destruct (Nat.eqb_spec k (N + 1)); [lia|]. reflexivity. }
  assert (Ho : forall A, o A = o 0).
  { intros A. apply Rsum_ext. intros j Hj. assert (Hi : (nth j t O < N + 2)%nat) by (rewrite Forall_forall in Ht; apply Ht, nth_In, Hj).
    destruct (Nat.eq_dec (nth j t O) (N + 1)) as [->|Hne].
    - destruct (ou_last_path A) as [-> ->], (ou_last_path 0) as [-> ->]. reflexivity.
    - destruct (ou_paths A (nth j t O) ltac:(lia)) as [-> ->], (ou_paths 0 (nth j t O) ltac:(lia)) as [-> ->]. reflexivity. }
  set (base := c + (Rsum N (fun k => dt * (f 0 k + f 0 (k + 1)%nat) / 2) + dt * f 0 N / 2) + o 0).
  assert (HF : forall A, c + trap (N + 2) (f A) dt + o A = base - dt / (4 * sigma) * (A - theta) ^ 2).
  { intros A. unfold trap. replace (N + 2 - 1)%nat with (Datatypes.S N) by lia. cbn [Rsum]. rewrite Ho.
    rewrite (Rsum_ext N _ (fun k => dt * (f 0 k + f 0 (k + 1)%nat) / 2)) by (intros k Hk; rewrite (Hf A k), (Hf A (k + 1)%nat) by lia; reflexivity).
    rewrite (Hf A N (le_n N)). replace (f A (N + 1)%nat) with (- ((A - theta) ^ 2) / (2 * sigma)).
    - unfold base. field. lra.
    - unfold f. destruct (ou_last_path A) as [-> ->]. unfold oa, ob. rewrite !Nat.eqb_refl. symmetry. apply He. }
  set (K := Rabs (base - bound) * (4 * sigma) / dt).
  assert (0 <= K) by (apply Rmult_le_pos; [apply Rmult_le_pos; [apply Rabs_pos|lra]|left; apply Rinv_0_lt_compat; exact Hdt]).
  exists (theta + 1 + K).
  change (c + trap (N + 2) (f (theta + 1 + K)) dt + o (theta + 1 + K) < bound). rewrite HF.
  assert (E : dt / (4 * sigma) * (1 + K) = dt / (4 * sigma) + Rabs (base - bound)) by (unfold K; field; lra).
  assert (0 < dt / (4 * sigma)) by (apply Rdiv_lt_0_compat; lra).
  assert (dt / (4 * sigma) * (1 + K) <= dt / (4 * sigma) * (theta + 1 + K - theta) ^ 2) by (apply Rmult_le_compat_l; [lra|nra]).
  pose proof (Rle_abs (base - bound)). lra.
Qed.
End Ou.
