(** * Lower bounds of the free energy in several dimensions. *)
From Coq Require Import ZArith List Bool Arith Reals Lra Lia Sorted.
From Coquelicot Require Import Coquelicot.
From Verif Require Import Num Arr ArrFacts M_LinAlg M_Utils M_Ode M_Moments M_Sde1 M_L63 M_L96 M_L96E M_Prior M_Like M_VarGP
  Spec_Utils Spec_Det Spec_Gauss Spec_GaussN Spec_Sde1 Spec_L63 Spec_L96E Spec_Prior Spec_Like Spec_VarGP Spec_GradN
  P_Ode P_Trapz P_Sde1 P_RMat P_Det P_GaussN P_Jensen P_Like P_VarGP P_Prior P_L63 P_Adjoint P_GradN P_GradN2 P_GradN3 P_GradL63 P_GradL63T P_ProblemN2 P_Spectral Spec_Proc P_SimN Props_L63.
From Verif Require Import P_L96I.
Import ListNotations.
Local Open Scope R_scope.

Lemma E_std_nonneg n : forall g e, (forall z, 0 <= g z) -> E_std n g e -> 0 <= e.
Proof.
  induction n as [|n IH]; intros g e Hg H; cbn [E_std] in H; [subst e; apply Hg|].
  destruct H as (h & H1 & H2). apply (IH h e); [|exact H2]. intros z.
  apply (E_normal_nonneg 0 1 _ _ Rlt_0_1 (fun t => Hg (vset n t z)) (H1 z)).
Qed.
Lemma E_mvn_nonneg n m S g e : symm n S -> posdef n S -> (forall x, 0 <= g x) -> E_mvn n m S g e -> 0 <= e.
Proof. intros Hs Hp Hg H. destruct (posdef_root n S Hs Hp) as [L HL]. apply (E_std_nonneg n _ e (fun z => Hg _) (H L HL)). Qed.

Section BelowN.
Context (energy : list (nat -> nat -> R) -> list (nat -> R) -> list (nat -> R) -> list (nat -> nat -> R) -> option (list nat) -> result (EnergyN RNum))
  (mtd : method) (n d : nat) (dt : R) (C P : nat -> nat -> R) (m0 : nat -> R) (s0 : nat -> nat -> R) (mu : nat -> R) (tau Rn : nat -> nat -> R)
  (y : list (nat -> R)) (t : list nat).
Context (Hn : (0 < n)%nat) (Hs0 : symm d s0) (HC : symm d C) (Hrs : symm d Rn) (Hrp : posdef d Rn)
  (Hy : length y = length t) (Ht : List.Forall (fun i => (i < n)%nat) t) (Hnd : NoDup t).
Context (ok : (nat -> nat -> R) -> Prop) (Hok : forall s, ok s -> forall i, (i < d)%nat -> 0 <= s i i).
Context (Hpos : forall A B M S en, length A = n -> length B = n -> length M = n -> length S = n ->
  (forall k, (k < n)%nat -> symm d (nth k S (fun _ _ => 0))) -> (forall k, (k < n)%nat -> ok (nth k S (fun _ _ => 0))) ->
  energy A B M S (Some t) = Ok en -> 0 <= n_sde en).
Notation EE := (vgpn (K:=RNum) ln PI energy mtd n d dt C P m0 s0 mu tau y t Rn (meye (K:=RNum))).

Lemma belown (x : list R) s (v : R) (o : Out EE) : free_energy EE x s = (Ok v, Some o) ->
  length (o_mt o) = n /\ length (o_st o) = n /\
  (forall k, (k < n)%nat -> symm d (nth k (o_st o : list (nat -> nat -> R)) (fun _ _ => 0))) /\
  (exists A B en, length A = n /\ length B = n /\ energy A B (o_mt o) (o_st o) (Some t) = Ok en) /\
  ((forall k, (k < n)%nat -> ok (nth k (o_st o : list (nat -> nat -> R)) (fun _ _ => 0))) ->
   exists k0, kl0_nd (K:=RNum) ln d mu tau m0 s0 = Ok k0 /\
   k0 + INR (length t) * (1 / 2 * (INR d * ln (2 * PI) + ln (detR d Rn))) <= v).
Proof.
  intros H. unfold free_energy in H. destruct (fe_core EE x) as [[v' o']|] eqn:Ef; [|discriminate]. injection H as -> ->.
  unfold fe_core in Ef.
  change (v_unpack EE x) with (unpackn (K:=RNum) n d x) in Ef.
  destruct (unpackn (K:=RNum) n d x) as [[A B]|] eqn:EU; [|discriminate]. cbn [bind] in Ef.
  destruct (unpackn_len (K:=RNum) d x n A B EU) as [L1 L2].
  destruct (v_fwd EE A B (v_m0 EE) (v_s0 EE) (v_sigma EE)) as [[mt st]|] eqn:E1; [|discriminate]. cbn [bind] in Ef.
  destruct (v_like EE mt st) as [lk|] eqn:E2; [|discriminate]. cbn [bind] in Ef.
  destruct (v_energy EE A B mt st) as [[[es [ef edf]] [dm ds]]|] eqn:E3; [|discriminate]. cbn [bind] in Ef.
  destruct (v_like_grad EE mt st) as [[gm gs]|]; [|discriminate]. cbn [bind] in Ef.
  destruct (v_bwd EE A dm ds gm gs) as [[lam psi]|]; [|discriminate]. cbn [bind] in Ef.
  change (v_kl0 EE (v_m0 EE) (v_s0 EE)) with (kl0_nd (K:=RNum) ln d mu tau m0 s0) in Ef.
  destruct (kl0_nd (K:=RNum) ln d mu tau m0 s0) as [k0|]; [|discriminate]. cbn [bind] in Ef.
  injection Ef as <- <-. cbn [o_mt o_st]. change (list (nat -> R)) in mt. change (list (nat -> nat -> R)) in st.
  change (list (nat -> R)) in B. change (list (nat -> nat -> R)) in A.
  destruct (solve_fwd_ok (sysn RNum d) mtd dt A B m0 s0 C mt st E1) as (_ & M1 & M2 & _).
  assert (M1' : length mt = n) by (transitivity (length B); [exact M1|exact L2]).
  assert (M2' : length st = n) by (transitivity (length B); [exact M2|exact L2]).
  assert (Hsy : forall k, (k < n)%nat -> symm d (nth k st (fun _ _ => 0))).
  { intros k Hk. apply (momentsn_symm d mtd dt C m0 s0 A B mt st E1 Hs0 HC). rewrite M2'. exact Hk. }
  split; [exact M1'|]. split; [exact M2'|]. split; [exact Hsy|].
  change (v_energy EE A B mt st) with (let* e := energy A B mt st (Some t) in Ok (n_sde e, (n_f e, n_df e), (n_dm e, n_ds e))) in E3.
  destruct (energy A B mt st (Some t)) as [en|] eqn:E4; [|discriminate]. cbn [bind] in E3. injection E3 as <- _ _ _ _.
  split; [exists A, B, en; auto|]. intros Hs. exists k0. split; [reflexivity|].
  pose proof (Hpos A B mt st en L1 L2 M1' M2' Hsy Hs E4) as Q.
  assert (Ht' : List.Forall (fun i => (i < length mt)%nat) t) by (rewrite M1'; exact Ht).
  assert (Hms : length st = length mt) by congruence.
  destruct (like_nd_val d y t Rn mt st Hrs Hrp Hy Hms Ht' Hnd) as (Ri & HRi & Ev).
  change (v_like EE mt st) with (like_nd (K:=RNum) ln PI d y t Rn (meye (K:=RNum)) mt st) in E2.
  pose proof (eq_trans (eq_sym E2) Ev) as Q2. injection Q2 as ->.
  pose proof (inv_posdef d Rn Ri Hrs Hrp (proj1 HRi) (proj2 HRi)) as Hip.
  assert (INR (length t) * (1 / 2 * (INR d * ln (2 * PI) + ln (detR d Rn))) <=
    Rsum (length t) (fun j => nterm d Rn Ri (nth j y zvec) (nth (nth j t O) mt zvec) (nth (nth j t O) st zmat)
        + 1 / 2 * (Rsum d (fun i => Ri i i * nth j st zmat i i) - frob d Ri (nth (nth j t O) st zmat)))).
  { rewrite <- Rsum_const. apply Rsum_le. intros j Hj. unfold nterm.
    assert (H1 : 0 <= quad d Ri (fun i => nth j y zvec i - nth (nth j t O) mt zvec i)) by exact (proj1 (quad_nonneg d Ri _ Hip)).
    assert (H2 : 0 <= Rsum d (fun i => Ri i i * nth j st zmat i i)).
    { apply Rsum_nonneg. intros i Hi. apply Rmult_le_pos; [left; apply (posdef_diag_pos d Ri i Hip Hi)|].
      apply Hok; [|exact Hi]. apply Hs. pose proof (t_len n y t Hn Hy Ht Hnd). lia. }
    lra. }
  rnum. change (car RNum) with R in *. lra.
Qed.
End BelowN.

(** ** the energies are nonnegative *)
Lemma l63_nonneg th P dt A B M S obs : wf3 A B M S obs -> 0 <= dt -> (forall i, (i < 3)%nat -> 0 <= P i i) ->
  (forall k, (k < length A)%nat -> posdef 3 (nth k S (fun _ _ => 0))) -> 0 <= n_sde (l63_energy (K:=RNum) th P dt A B M S obs).
Proof.
  intros W Hdt HP Hs. destruct (C22_energy th P dt A B M S obs W) as (e & He & ->). destruct W as (_ & _ & _ & _ & Hsy).
  apply trap_nonneg; [exact Hdt|]. intros k Hk. apply (E_mvn_nonneg 3 _ _ _ _ (Hsy k Hk) (Hs k Hk)) with (2 := He k Hk).
  intros x. apply Rmult_le_pos; [lra|]. apply Rsum_nonneg. intros i Hi. apply Rmult_le_pos; [apply HP, Hi|apply pow2_ge_0].
Qed.

(** ** no lower bound for Lorenz-63 *)
(** in the direction that moves the last A_00 and keeps the mean of the linear drift *)
Lemma de63_line th w A b m S : exists c0 c1, forall h,
  de63 th w (fun i j => A i j + h * (if Nat.eqb i 0 && Nat.eqb j 0 then 1 else 0)) (fun i => b i + h * (if Nat.eqb i 0 then m 0%nat else 0)) m S
  = c0 + c1 * h + 1 / 2 * w 0%nat * S 0%nat 0%nat * h ^ 2.
Proof.
  set (e := fun h => de63 th w (fun i j => A i j + h * (if Nat.eqb i 0 && Nat.eqb j 0 then 1 else 0)) (fun i => b i + h * (if Nat.eqb i 0 then m 0%nat else 0)) m S).
  exists (e 0), (1 / 2 * (e 1 - e (-1))). intros k. unfold e, de63, e63. cbn [Rsum]. l63unf. cbn [sumn Nat.eqb andb]. rnum. field.
Qed.

Lemma quad_sink c0 c1 c2 bound : c2 < 0 -> exists h, c0 + c1 * h + c2 * h ^ 2 < bound.
Proof.
  intros Hc. set (a := - c2). assert (Ha : 0 < a) by (unfold a; lra).
  exists (1 + (Rabs c0 + Rabs c1 + Rabs bound) / a). set (q := (Rabs c0 + Rabs c1 + Rabs bound) / a).
  assert (E : a * q = Rabs c0 + Rabs c1 + Rabs bound) by (unfold q; field; lra).
  pose proof (Rabs_pos c0). pose proof (Rabs_pos c1). pose proof (Rabs_pos bound).
  assert (Hq : 0 <= q) by (apply Rmult_le_pos; [lra|left; apply Rinv_0_lt_compat, Ha]).
  pose proof (Rle_abs c0). pose proof (Rle_abs c1). pose proof (Rle_abs (- bound)) as Hb. rewrite Rabs_Ropp in Hb.
  replace c2 with (- a) by (unfold a; ring). set (h := 1 + q) in *. assert (1 <= h) by (unfold h; lra).
  assert (a * h = a + Rabs c0 + Rabs c1 + Rabs bound) by (unfold h; nra).
  replace (- a * h ^ 2) with (- (a * h) * h) by ring. nra.
Qed.

(** the flat vector of given functions *)
Definition flat (n d : nat) (a : nat -> nat -> nat -> R) (b : nat -> nat -> R) : list R :=
  map (fun q => if Nat.ltb q (n * d * d) then a (q / d / d)%nat ((q / d) mod d)%nat (q mod d)%nat
                else b ((q - n * d * d) / d)%nat ((q - n * d * d) mod d)%nat) (seq 0 (n * d * (d + 1))).
Lemma flat_len n d a b : length (flat n d a b) = (n * d * (d + 1))%nat.
Proof. unfold flat. rewrite map_length, seq_length. reflexivity. Qed.
Lemma dm_div d k i : (i < d)%nat -> ((k * d + i) / d = k /\ (k * d + i) mod d = i)%nat.
Proof.
  intros Hi. rewrite Nat.add_comm. split; [rewrite Nat.div_add, Nat.div_small by lia; lia|rewrite Nat.mod_add, Nat.mod_small by lia; lia].
Qed.
Lemma flat_a n d a b k : (k < n)%nat -> eqm d (part_a d (entry (flat n d a b)) k) (a k).
Proof.
  intros Hk i j Hi Hj. unfold part_a, entry, flat. rewrite map_seq_nth' by nia.
  assert (Q : (((k * d + i) * d + j) < n * d * d)%nat).
  { apply Nat.lt_le_trans with (((k * d + i) + 1) * d)%nat; [lia|]. apply Nat.mul_le_mono_r. nia. }
  apply Nat.ltb_lt in Q. rewrite Q. destruct (dm_div d (k * d + i) j Hj) as [-> ->]. destruct (dm_div d k i Hi) as [-> ->]. reflexivity.
Qed.
Lemma flat_b n d a b k : (k < n)%nat -> eqv d (part_b n d (entry (flat n d a b)) k) (b k).
Proof.
  intros Hk i Hi. unfold part_b, entry, flat. rewrite map_seq_nth' by nia.
  destruct (Nat.ltb_spec (n * d * d + k * d + i) (n * d * d)); [lia|].
  replace (n * d * d + k * d + i - n * d * d)%nat with (k * d + i)%nat by lia. destruct (dm_div d k i Hi) as [-> ->]. reflexivity.
Qed.

Section Sink.
Context (N : nat) (dt : R) (th : nat -> R) (P C s0 : nat -> nat -> R) (m0 mu : nat -> R) (tau Rn : nat -> nat -> R)
  (y : list (nat -> R)) (t : list nat).
Notation n := (N + 2)%nat.
Context (HP : diag_only 3 P) (HP0 : 0 < P 0%nat 0%nat) (Hdt : 0 < dt) (HC0 : 0 <= C 0%nat 0%nat).
Context (HC : symm 3 C) (Hs0 : symm 3 s0) (Hs0p : posdef 3 s0) (Htau : symm 3 tau) (Htaup : posdef 3 tau) (Hcm : commute 3 s0 tau)
  (Hrs : symm 3 Rn) (Hrp : posdef 3 Rn) (Hy : length y = length t) (Ht : List.Forall (fun i => (i < n)%nat) t) (Hnd : NoDup t) (Hst : Sorted le t).
Notation EE := (vgpn (K:=RNum) ln PI (fun a b m s o => Ok (l63_energy (K:=RNum) th P dt a b m s o)) Euler n 3 dt C P m0 s0 mu tau y t Rn (meye (K:=RNum))).
Notation w := (fun i => P i i).

Lemma value63 a b : exists k0 Ri, kl0_nd (K:=RNum) ln 3 mu tau m0 s0 = Ok k0 /\ is_inv 3 Rn Ri /\
  forall s, fst (free_energy EE (flat n 3 a b) s) = Ok (k0
    + trap n (fun k => de63 th w (a k) (b k) (path_mn 3 dt a b m0 k) (path_sn 3 dt a C s0 k)) dt
    + Rsum (length t) (fun j => lterm_n 3 Ri Rn (nth j y vz) (path_mn 3 dt a b m0 (nth j t O)) (path_sn 3 dt a C s0 j))).
Proof.
  destruct (kl0_commute 3 mu tau m0 s0 Hs0 Hs0p Htau Htaup Hcm) as [k0 Hk0].
  destruct (P_Prior.inv_ex 3 Rn Hrs Hrp) as (Ri & HRi & _). exists k0, Ri. split; [exact Hk0|]. split; [exact HRi|]. intros s.
  pose proof (l63_okn th P dt HP) as EO.
  etransitivity; [exact (fe_valuen 3 _ P dt _ _ _ _ _ EO n C s0 m0 mu tau Rn y t k0 ltac:(lia) Hs0 HC Hrs Hrp Hy Ht Hnd Hst Hk0 Ri (flat n 3 a b) (flat_len _ _ _ _) s HRi)|].
  assert (Q : forall k, (k < n)%nat -> eqv 3 (path_mn 3 dt (part_a 3 (entry (flat n 3 a b))) (part_b n 3 (entry (flat n 3 a b))) m0 k) (path_mn 3 dt a b m0 k)
     /\ eqm 3 (path_sn 3 dt (part_a 3 (entry (flat n 3 a b))) C s0 k) (path_sn 3 dt a C s0 k)).
  { intros k Hk. apply pathn_ext; intros j Hj; [apply flat_a|apply flat_b]; lia. }
  f_equal. f_equal; [f_equal|].
  - apply trap_ext. intros k Hk. destruct (Q k Hk) as [Q1 Q2].
    apply (eok_ext _ _ _ _ _ _ _ _ _ EO); [apply flat_a; exact Hk|apply flat_b; exact Hk|exact Q1|exact Q2].
  - apply Rsum_ext. intros j Hj. destruct (Q _ (t_in n t Ht j Hj)) as [Q1 _]. pose proof (t_len n y t ltac:(lia) Hy Ht Hnd).
    destruct (Q j ltac:(lia)) as [_ Q2]. unfold lterm_n. f_equal. f_equal. f_equal.
    + unfold quad. apply Rsum_ext. intros i Hi. apply Rsum_ext. intros l Hl. rewrite !Q1 by assumption. reflexivity.
    + apply Rsum_ext. intros i Hi. rewrite Q2 by assumption. reflexivity.
Qed.

Definition ga (al h : R) : nat -> nat -> nat -> R := fun k i j =>
  if Nat.eqb i 0 && Nat.eqb j 0 then (if Nat.eqb k N then al else if Nat.eqb k (N + 1) then h else 0) else 0.
Definition gb (mm h : R) : nat -> nat -> R := fun k i => if Nat.eqb i 0 && Nat.eqb k (N + 1) then h * mm else 0.
Lemma ga_s al k : (k <= N)%nat -> path_sn 3 dt (ga al 0) C s0 k 0%nat 0%nat = s0 0%nat 0%nat + INR k * dt * C 0%nat 0%nat.
Proof.
  induction k as [|k IH]; intros Hk; [cbn; ring|]. cbn [path_sn]. rewrite IH by lia. rewrite S_INR.
  assert (Z : forall i j, ga al 0 k i j = 0).
  { intros i j. unfold ga. destruct (_ && _); [|reflexivity]. destruct (Nat.eqb_spec k N); [lia|]. destruct (Nat.eqb _ _); reflexivity. }
  cbn [Rsum]. rewrite !Z. ring.
Qed.
Lemma ga_last al : path_sn 3 dt (ga al 0) C s0 (N + 1) 0%nat 0%nat =
  (1 - 2 * (dt * al)) * (s0 0%nat 0%nat + INR N * dt * C 0%nat 0%nat) + dt * C 0%nat 0%nat.
Proof.
  replace (N + 1)%nat with (Datatypes.S N) by lia. cbn [path_sn]. rewrite <- (ga_s al N (le_n _)).
  assert (G : forall j, ga al 0 N 0%nat j = if Nat.eqb j 0 then al else 0) by (intros j; unfold ga; rewrite (Nat.eqb_refl N); reflexivity).
  cbn [Rsum]. rewrite !G. cbn [Nat.eqb]. ring.
Qed.
Lemma l63_sink bound : exists x v, length x = (n * 3 * (3 + 1))%nat /\ (forall s, fst (free_energy EE x s) = Ok v) /\ v < bound.
Proof.
  set (sN := s0 0%nat 0%nat + INR N * dt * C 0%nat 0%nat).
  assert (HsN : 0 < sN).
  { unfold sN. pose proof (posdef_diag_pos 3 s0 0 Hs0p ltac:(lia)). pose proof (pos_INR N).
    assert (0 <= INR N * dt * C 0%nat 0%nat) by (apply Rmult_le_pos; [apply Rmult_le_pos; lra|exact HC0]). lra. }
  set (al := (1 + (1 + dt * C 0%nat 0%nat) / sN) / (2 * dt)).
  assert (Hlast : path_sn 3 dt (ga al 0) C s0 (N + 1) 0%nat 0%nat = - 1).
  { rewrite ga_last. fold sN. unfold al. field. lra. }
  set (mm := path_mn 3 dt (ga al 0) (gb 0 0) m0 (N + 1) 0%nat).
  destruct (value63 (ga al 0) (gb 0 0)) as (k0 & Ri & Hk0 & HRi & _).
  assert (Pe : forall h k, (k <= N + 1)%nat -> eqv 3 (path_mn 3 dt (ga al h) (gb mm h) m0 k) (path_mn 3 dt (ga al 0) (gb 0 0) m0 k)
    /\ eqm 3 (path_sn 3 dt (ga al h) C s0 k) (path_sn 3 dt (ga al 0) C s0 k)).
  { intros h k Hk. apply pathn_ext; intros j Hj.
    - intros i l _ _. unfold ga. destruct (Nat.eqb_spec j (N + 1)); [lia|]. reflexivity.
    - intros i _. unfold gb. destruct (Nat.eqb_spec j (N + 1)); [lia|]. rewrite andb_false_r. reflexivity. }
  set (mp := path_mn 3 dt (ga al 0) (gb 0 0) m0) in *. set (sp := path_sn 3 dt (ga al 0) C s0) in *.
  destruct (de63_line th w (fun _ _ => 0) (fun _ => 0) (mp (N + 1)%nat) (sp (N + 1)%nat)) as (c0 & c1 & Hline).
  set (f0 := fun k => de63 th w (ga al 0 k) (gb 0 0 k) (mp k) (sp k)).
  set (ob := Rsum (length t) (fun j => lterm_n 3 Ri Rn (nth j y vz) (mp (nth j t O)) (sp j))).
  destruct (quad_sink (k0 + trap (N + 1) f0 dt + dt * f0 N / 2 + dt / 2 * c0 + ob) (dt / 2 * c1) (dt / 2 * (1 / 2 * P 0%nat 0%nat * (-1))) bound) as (h & Hh).
  { assert (0 < dt / 2 * (1 / 2 * P 0%nat 0%nat)) by (apply Rmult_lt_0_compat; [lra|apply Rmult_lt_0_compat; lra]). lra. }
  destruct (value63 (ga al h) (gb mm h)) as (k0' & Ri' & Hk0' & HRi' & Hv).
  rewrite Hk0 in Hk0'. injection Hk0' as <-.
  exists (flat n 3 (ga al h) (gb mm h)). eexists. split; [apply flat_len|]. split; [exact Hv|].
  eapply Rle_lt_trans; [|exact Hh]. right.
  assert (E1 : trap n (fun k => de63 th w (ga al h k) (gb mm h k) (path_mn 3 dt (ga al h) (gb mm h) m0 k) (path_sn 3 dt (ga al h) C s0 k)) dt
    = trap (N + 1) f0 dt + dt * (f0 N + (c0 + c1 * h + 1 / 2 * P 0%nat 0%nat * (-1) * h ^ 2)) / 2).
  { unfold trap. replace (n - 1)%nat with (Datatypes.S N) by lia. replace (N + 1 - 1)%nat with N by lia. cbn [Rsum].
    pose proof (l63_okn th P dt HP) as EO.
    assert (Hk : forall k, (k <= N)%nat -> de63 th w (ga al h k) (gb mm h k) (path_mn 3 dt (ga al h) (gb mm h) m0 k) (path_sn 3 dt (ga al h) C s0 k) = f0 k).
    { intros k Hk. destruct (Pe h k ltac:(lia)) as [Q1 Q2]. unfold f0.
      apply (eok_ext _ _ _ _ _ _ _ _ _ EO); [| |exact Q1|exact Q2].
      - intros i l _ _. unfold ga. destruct (Nat.eqb_spec k (N + 1)); [lia|]. reflexivity.
      - intros i _. unfold gb. destruct (Nat.eqb_spec k (N + 1)); [lia|]. rewrite andb_false_r. reflexivity. }
    f_equal.
    - apply Rsum_ext. intros k Hkn. rewrite !Hk by lia. reflexivity.
    - rewrite Hk by lia. f_equal. f_equal. f_equal. destruct (Pe h (N + 1)%nat (le_n _)) as [Q1 Q2].
      rewrite <- Hlast, <- (Hline h).
      apply (eok_ext _ _ _ _ _ _ _ _ _ EO); [| |exact Q1|exact Q2].
      + intros i l _ _. unfold ga. rewrite (Nat.eqb_refl (N + 1)). destruct (Nat.eqb_spec (N + 1) N); [lia|].
        destruct (_ && _); ring.
      + intros i _. unfold gb. rewrite (Nat.eqb_refl (N + 1)), andb_true_r. fold mm. destruct (Nat.eqb i 0); ring. }
  rewrite E1.
  assert (E2 : Rsum (length t) (fun j => lterm_n 3 Ri' Rn (nth j y vz) (path_mn 3 dt (ga al h) (gb mm h) m0 (nth j t O)) (path_sn 3 dt (ga al h) C s0 j)) = ob).
  { unfold ob. apply Rsum_ext. intros j Hj. pose proof (t_in n t Ht j Hj). destruct (Pe h (nth j t O) ltac:(lia)) as [Q1 _].
    pose proof (t_len n y t ltac:(lia) Hy Ht Hnd). destruct (Pe h j ltac:(lia)) as [_ Q2].
    pose proof (inv_same 3 Rn Ri' Ri HRi' HRi) as Rr. unfold lterm_n. f_equal. f_equal. f_equal.
    + unfold quad. apply Rsum_ext. intros i Hi. apply Rsum_ext. intros l Hl. rewrite !Q1, Rr by assumption. reflexivity.
    + apply Rsum_ext. intros i Hi. rewrite Q2, Rr by assumption. reflexivity. }
  rewrite E2. change (car RNum) with R in *. field.
Qed.
End Sink.

(** two points, all parameters zero *)
Lemma bound63 th (C P : nat -> nat -> R) : (forall i, 0 <= C i i) -> symm 3 C -> diag_only 3 P ->
  let E := vgpn (K:=RNum) ln PI (fun a b m s o => Ok (l63_energy (K:=RNum) th P 1 a b m s o)) Euler 2 3 1 C P (fun _ => 0) ident (fun _ => 0) ident [(fun _ => 1)] [1%nat] ident (meye (K:=RNum)) in
  diag_only 3 C ->
  exists (v : R) (o : Out E), free_energy E (repeat 0 24) None = (Ok v, Some o) /\
  forall k, (k < 2)%nat -> posdef 3 (nth k (o_st o : list (nat -> nat -> R)) (fun _ _ => 0)).
Proof.
  intros HCp HC HP E HCd.
  assert (Hs : symm 3 ident) by apply ident_symm. assert (Hp : posdef 3 ident) by apply P_Prior.ident_posdef.
  destruct (kl0_commute 3 (fun _ => 0) ident (fun _ => 0) ident Hs Hp Hs Hp ltac:(intros i j _ _; reflexivity)) as [k0 Hk0].
  destruct (fe_arraysn 3 _ P 1 _ _ _ _ _ (l63_okn th P 1 HP) 2 C ident (fun _ => 0) (fun _ => 0) ident ident [(fun _ => 1)] [1%nat] k0 ltac:(lia) Hs HC Hs Hp eq_refl
     ltac:(repeat constructor) ltac:(repeat constructor; auto) ltac:(repeat constructor) Hk0 (repeat 0 24) eq_refl)
    as (A & B & v & mt & lam & gm & st & psi & gs & en & sh & EU & L1 & L2 & HA & HB & Een & M1 & M2 & M3 & M4 & Ev & Eg & Efe & Pt & _).
  eexists. eexists. split.
  - unfold free_energy. change (fe_core E (repeat 0 24)) with (fe_core (EVn 3 (fun a b m s o => Ok (l63_energy (K:=RNum) th P 1 a b m s o)) P 1 2 C ident (fun _ => 0) (fun _ => 0) ident ident [(fun _ => 1)] [1%nat]) (repeat 0 24)).
    rewrite Efe. reflexivity.
  - cbn [o_st]. intros k Hk. destruct (Pt k Hk) as (_ & Pk & _). change (fun _ _ : nat => 0) with mz.
    assert (Z : forall q, entry (repeat 0 24) q = 0).
    { intros q. unfold entry. destruct (Nat.ltb_spec q 24) as [Hq|Hq]; [apply nth_repeat|apply nth_overflow; rewrite repeat_length; exact Hq]. }
    assert (Q : forall i j, (i < 3)%nat -> (j < 3)%nat -> nth k st mz i j = ident i j + INR k * C i j).
    { intros i j Hi Hj. rewrite (Pk i j Hi Hj). destruct k as [|[|k]]; [cbn; ring| |lia]. cbn [path_sn Rsum]. unfold part_a. rewrite !Z. cbn [INR]. ring. }
    assert (Hd : diagonal 3 (nth k st mz)).
    { intros i j Hi Hj Hne. rewrite (Q i j Hi Hj), (HCd i j Hi Hj Hne). unfold ident. apply Nat.eqb_neq in Hne. rewrite Hne. ring. }
    apply (diag_posdef 3 _ Hd). intros i Hi. rewrite (Q i i Hi Hi). unfold ident. rewrite Nat.eqb_refl.
    pose proof (Rmult_le_pos _ _ (pos_INR k) (HCp i)). lra.
Qed.

(** ** what decides whether free_energy returns *)
Section Dich.
Context (energy : list (nat -> nat -> R) -> list (nat -> R) -> list (nat -> R) -> list (nat -> nat -> R) -> option (list nat) -> result (EnergyN RNum))
  (mtd : method) (n d : nat) (dt : R) (C P : nat -> nat -> R) (m0 : nat -> R) (s0 : nat -> nat -> R) (mu : nat -> R) (tau Rn : nat -> nat -> R)
  (y : list (nat -> R)) (t : list nat) (k0 : R).
Context (Hn : (0 < n)%nat) (Hs0 : symm d s0) (HC : symm d C) (Hrs : symm d Rn) (Hrp : posdef d Rn)
  (Hy : length y = length t) (Ht : List.Forall (fun i => (i < n)%nat) t) (Hnd : NoDup t) (Hk0 : kl0_nd (K:=RNum) ln d mu tau m0 s0 = Ok k0).
Notation EE := (vgpn (K:=RNum) ln PI energy mtd n d dt C P m0 s0 mu tau y t Rn (meye (K:=RNum))).

Lemma fe_dich (x : list R) : length x = (n * d * (d + 1))%nat ->
  exists (A : list (nat -> nat -> R)) (B mt : list (nat -> R)) (st : list (nat -> nat -> R)),
  unpackn (K:=RNum) n d x = Ok (A, B) /\ solve_fwd (sysn RNum d) mtd dt A B m0 s0 C = Ok (mt, st) /\
  length A = n /\ length B = n /\ length mt = n /\ length st = n /\ (forall k, (k < n)%nat -> symm d (nth k st (fun _ _ => 0))) /\
  (forall en, energy A B mt st (Some t) = Ok en -> length (n_dm en) = n -> length (n_ds en) = n ->
     exists (v : R) (o : Out EE), (forall s, free_energy EE x s = (Ok v, Some o)) /\ o_st o = st) /\
  (forall e, energy A B mt st (Some t) = Err e -> forall s, free_energy EE x s = (Err e, s)).
Proof.
  intros Hx. destruct (unpackn_entry d n x Hx) as (A & B & EU & L1 & L2 & _ & _).
  destruct (solve_fwd_total (sysn RNum d) mtd dt A B m0 s0 C) as (mt & st & Hf).
  { exact (Nat.eq_le_incl _ _ (eq_trans L2 (eq_sym L1))). } { exact (eq_ind_r (fun z => (0 < z)%nat) Hn L2). }
  change (list (nat -> R)) in mt. change (list (nat -> nat -> R)) in st.
  destruct (solve_fwd_ok (sysn RNum d) mtd dt A B m0 s0 C mt st Hf) as (_ & M1 & M2 & _).
  assert (M1' : length mt = n) by (transitivity (length B); [exact M1|exact L2]).
  assert (M2' : length st = n) by (transitivity (length B); [exact M2|exact L2]).
  exists A, B, mt, st. split; [exact EU|]. split; [exact Hf|]. do 4 (split; [assumption|]). split.
  { intros k Hk. apply (momentsn_symm d mtd dt C m0 s0 A B mt st Hf Hs0 HC). rewrite M2'. exact Hk. }
  assert (Ht' : List.Forall (fun i => (i < length mt)%nat) t) by (rewrite M1'; exact Ht).
  assert (Hms : length st = length mt) by congruence.
  destruct (like_nd_val d y t Rn mt st Hrs Hrp Hy Hms Ht' Hnd) as (Ri0 & _ & Ev).
  destruct (like_grad_nd_val d y t Rn mt st Hrs Hrp Hy Hms Ht' Hnd) as (Ri & gm & gs & HRi & HRis & Eg & G1 & G2 & _ & _).
  assert (F : fe_core EE x = let* e := energy A B mt st (Some t) in
     let* (lam, psi) := solve_bwd (sysn RNum d) mtd dt A (n_dm e) (n_ds e) gm gs in
     Ok (nadd (n:=RNum) (nadd (n:=RNum) k0 (n_sde e)) (Rsum (length t) (fun j => nterm d Rn Ri0 (nth j y zvec) (nth (nth j t O) mt zvec) (nth (nth j t O) st zmat)
        + 1 / 2 * (Rsum d (fun i => Ri0 i i * nth j st zmat i i) - frob d Ri0 (nth (nth j t O) st zmat)))), mkOut (E:=EE) mt st (n_f e) (n_df e) lam psi)).
  { unfold fe_core. change (v_unpack EE x) with (unpackn (K:=RNum) n d x). rewrite EU. cbn [bind].
    change (v_fwd EE A B (v_m0 EE) (v_s0 EE) (v_sigma EE)) with (solve_fwd (sysn RNum d) mtd dt A B m0 s0 C). rewrite Hf. cbn [bind].
    change (v_like EE mt st) with (like_nd (K:=RNum) ln PI d y t Rn (meye (K:=RNum)) mt st). rewrite Ev. cbn [bind].
    change (v_energy EE A B mt st) with (let* e := energy A B mt st (Some t) in Ok (n_sde e, (n_f e, n_df e), (n_dm e, n_ds e))).
    destruct (energy A B mt st (Some t)) as [en|]; [|reflexivity]. cbn [bind].
    change (v_like_grad EE mt st) with (let* (g, _) := like_grad_nd (K:=RNum) d y t Rn (meye (K:=RNum)) mt in Ok g). rewrite Eg. cbn [bind].
    change (v_bwd EE A (n_dm en) (n_ds en) gm gs) with (solve_bwd (sysn RNum d) mtd dt A (n_dm en) (n_ds en) gm gs).
    destruct (solve_bwd (sysn RNum d) mtd dt A (n_dm en) (n_ds en) gm gs) as [[lam psi]|]; [|reflexivity]. cbn [bind].
    change (v_kl0 EE (v_m0 EE) (v_s0 EE)) with (kl0_nd (K:=RNum) ln d mu tau m0 s0). rewrite Hk0. reflexivity. }
  split.
  - intros en Een D1 D2. rewrite Een in F. cbn [bind] in F.
    change (list (nat -> R)) in gm. change (list (nat -> nat -> R)) in gs.
    assert (G1' : length gm = n) by (transitivity (length mt); [exact G1|exact M1']).
    assert (G2' : length gs = n) by (transitivity (length mt); [exact G2|exact M1']).
    set (EDM := n_dm en : list (nat -> R)) in *. set (EDS := n_ds en : list (nat -> nat -> R)) in *.
    assert (X1 : (length EDM <= length A)%nat) by (assert (length EDM = n) by exact D1; lia).
    assert (X2 : (length EDM <= length EDS)%nat) by (assert (length EDM = n) by exact D1; assert (length EDS = n) by exact D2; lia).
    assert (X3 : (length EDM - 1 <= length gm)%nat) by (assert (length EDM = n) by exact D1; lia).
    assert (X4 : (length EDM - 1 <= length gs)%nat) by (assert (length EDM = n) by exact D1; lia).
    destruct (solve_bwd_total (sysn RNum d) mtd dt A EDM EDS gm gs X1 X2 X3 X4) as (lam & psi & Hb).
    rewrite Hb in F. cbn [bind] in F. eexists. eexists. split; [intros s; unfold free_energy; rewrite F; reflexivity|reflexivity].
  - intros e Een s. rewrite Een in F. cbn [bind] in F. unfold free_energy. rewrite F. reflexivity.
Qed.
End Dich.
