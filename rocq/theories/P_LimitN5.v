(** * What gradient computes for the offset, in several dimensions, with any method. *)
From Coq Require Import List Arith Reals Lra Lia Psatz Sorted.
From Coquelicot Require Import Coquelicot.
From Verif Require Import Num Arr ArrFacts M_LinAlg M_Utils M_Ode M_Moments M_Sde1 M_L63 M_Prior M_Like M_VarGP
  Spec_Utils Spec_Det Spec_Ode Spec_Gauss Spec_GaussN Spec_Sde1 Spec_L63 Spec_Prior Spec_Like Spec_VarGP Spec_TimeVar Spec_Limit Spec_GradN Spec_LimitN
  P_Ode P_OdeR P_OdeRK P_Conv P_Trapz P_Sde1 P_Det P_RMat P_Prior P_Like P_L63 P_VarGP P_Adjoint P_GaussN P_Expect P_GradN P_GradN2 P_GradN3 P_GradL63 P_GradL63T
  P_TimeVar P_TimeVar2 P_TimeVar3 P_TimeVar4 P_TimeVar5 P_TimeVar7 P_TimeVar10 P_Limit1 P_Limit3 P_Limit4 P_Limit5 P_LinOde P_LimitN0 P_LimitN1 P_LimitN2 P_LimitN3 P_LimitN4.
Import ListNotations.
Local Open Scope R_scope.

Section AnyG.
Context (d : nat) (energy : list (nat -> nat -> R) -> list (nat -> R) -> list (nat -> R) -> list (nat -> nat -> R) -> option (list nat) -> result (EnergyN RNum))
  (P : nat -> nat -> R) (dt : R) (e : dens R) (ea es : dens (nat -> nat -> R)) (eb em : dens (nat -> R))
  (EO : energy_okn d energy P dt e ea es eb em).
Context (mtd : method) (n : nat) (C s0 : nat -> nat -> R) (m0 mu : nat -> R) (tau Rn : nat -> nat -> R) (y : list (nat -> R)) (t : list nat) (k0 : R).
Context (Hn : (0 < n)%nat) (Hs0 : symm d s0) (HC : symm d C) (Hrs : symm d Rn) (Hrp : posdef d Rn)
  (Hy : length y = length t) (Ht : List.Forall (fun i => (i < n)%nat) t) (Hnd : NoDup t) (Hst : Sorted le t)
  (Hk0 : kl0_nd (K:=RNum) ln d mu tau m0 s0 = Ok k0).
Notation EE := (vgpn (K:=RNum) ln PI energy mtd n d dt C P m0 s0 mu tau y t Rn (meye (K:=RNum))).
Lemma grad_anyn (x : list R) Ri : length x = (n * d * (d + 1))%nat -> is_inv d Rn Ri ->
  exists (A ds gs psi st : list (nat -> nat -> R)) (B mt dm gm lam : list (nat -> R)) (g : list R) (o : Out EE),
  length A = n /\ length B = n /\ length mt = n /\ length st = n /\ length dm = n /\ length ds = n /\ length gm = n /\ length gs = n /\ length lam = n /\
  (forall k, (k < n)%nat -> eqm d (nth k A mz) (part_a d (entry x) k)) /\ (forall k, (k < n)%nat -> eqv d (nth k B vz) (part_b n d (entry x) k)) /\
  solve_fwd (Sn d) mtd dt A B m0 s0 C = Ok (mt, st) /\
  (forall k, (k < n)%nat -> eqv d (nth k dm vz) (em (nth k A mz) (nth k B vz) (nth k mt vz) (nth k st mz))) /\
  (forall k, ~ In k t -> nth k gm vz = vz) /\
  (forall j i, (j < length t)%nat -> (i < d)%nat -> nth (nth j t O) gm vz i = - Rsum d (fun l => Ri i l * (nth j y vz l - nth (nth j t O) mt vz l))) /\
  solve_bwd (Sn d) mtd dt A dm ds gm gs = Ok (lam, psi) /\
  (forall s, gradient EE x true s = (Ok g, Some o)) /\ length g = (n * d * (d + 1))%nat /\
  (forall k i, (k < n)%nat -> (i < d)%nat -> part_b n d (entry g) k i = dt * (eb (nth k A mz) (nth k B vz) (nth k mt vz) (nth k st mz) i + nth k lam vz i)).
Proof.
  intros Hx HRi. destruct (unpackn_entry d n x Hx) as (A & B & EU & L1 & L2 & HA & HB).
  destruct (solve_fwd_total (sysn RNum d) mtd dt A B m0 s0 C) as (mt & st & Hf).
  { exact (Nat.eq_le_incl _ _ (eq_trans L2 (eq_sym L1))). } { exact (eq_ind_r (fun z => (0 < z)%nat) Hn L2). }
  change (list (nat -> R)) in mt. change (list (nat -> nat -> R)) in st.
  destruct (solve_fwd_shape _ _ _ _ _ _ _ _ _ _ Hf) as (M1 & M2 & _).
  assert (M1' : length mt = n) by (transitivity (length B); [exact M1|exact L2]).
  assert (M2' : length st = n) by (transitivity (length B); [exact M2|exact L2]). clear M1 M2.
  assert (Ssym : forall k, (k < length A)%nat -> symm d (nth k st mz)).
  { intros k Hk. apply (fwd_sym d mtd dt A B m0 s0 C mt st Hf Hs0 HC). apply nth_In. rewrite L1 in Hk. exact (eq_ind_r (fun z => (k < z)%nat) Hk M2'). }
  assert (Ht' : List.Forall (fun i => (i < length mt)%nat) t) by (rewrite M1'; exact Ht).
  assert (Hms : length st = length mt) by (rewrite M1', M2'; reflexivity).
  destruct (like_nd_val d y t Rn mt st Hrs Hrp Hy Hms Ht' Hnd) as (Ri0 & _ & Ev).
  destruct (like_grad_nd_val d y t Rn mt st Hrs Hrp Hy Hms Ht' Hnd) as (Ri1 & gm & gs & HRi1 & _ & Eg & G1 & G2 & Gz & Gv).
  change (list (nat -> R)) in gm. change (list (nat -> nat -> R)) in gs.
  assert (G1' : length gm = n) by (transitivity (length mt); [exact G1|exact M1']).
  assert (G2' : length gs = n) by (transitivity (length mt); [exact G2|exact M1']).
  destruct (eok_val _ _ _ _ _ _ _ _ _ EO A B mt st (Some t)) as (en & Een & F1 & F2 & F3 & F4 & Esde & Hpt); [congruence|congruence|congruence|intros o Eo; injection Eo as <-; exact Hst|exact Ssym|].
  set (EDM := n_dm en : list (nat -> R)) in *. set (EDS := n_ds en : list (nat -> nat -> R)) in *.
  assert (F3' : length EDM = n) by (transitivity (length A); [exact F3|exact L1]).
  assert (F4' : length EDS = n) by (transitivity (length A); [exact F4|exact L1]).
  assert (X1 : (length EDM <= length A)%nat) by lia. assert (X2 : (length EDM <= length EDS)%nat) by lia.
  assert (X3 : (length EDM - 1 <= length gm)%nat) by lia. assert (X4 : (length EDM - 1 <= length gs)%nat) by lia.
  destruct (solve_bwd_total (sysn RNum d) mtd dt A EDM EDS gm gs X1 X2 X3 X4) as (lam & psi & Hb).
  change (list (nat -> R)) in lam. change (list (nat -> nat -> R)) in psi.
  destruct (solve_bwd_shape _ _ _ _ _ _ _ _ _ _ Hb) as (B1 & B2 & _).
  assert (M3 : length lam = n) by (transitivity (length EDM); [exact B1|exact F3']).
  assert (M4 : length psi = n) by (transitivity (length EDM); [exact B2|exact F3']). clear B1 B2.
  set (o := mkOut (E:=EE) mt st (n_f en) (n_df en) lam psi).
  match type of Ev with _ = Ok ?z => assert (EF : fe_core EE x = Ok (k0 + n_sde en + z, o)) end.
  { apply (fe_core_ok EE x A B mt st (n_f en) EDM lam (n_df en) EDS psi gm gs).
    - exact EU.
    - exact Hf.
    - exact Ev.
    - unfold vgpn. cbn [v_energy]. change (car RNum) with R. unfold vec, mat. change (car RNum) with R. rewrite Een. reflexivity.
    - unfold vgpn. cbn [v_like_grad]. unfold vec, mat. change (car RNum) with R. etransitivity; [|reflexivity].
      match goal with |- bind ?z _ = _ => replace z with (Ok (gm, gs, (length mt, length y, length y))) by (symmetry; exact Eg) end. reflexivity.
    - exact Hb.
    - exact Hk0. }
  set (gs_ := map (grad_at EE A B o) (seq 0 n)).
  set (GA := map (fun g => vscale (v:=matV RNum) dt (fst g)) gs_ : list (nat -> nat -> R)).
  set (GB := map (fun g => vscale (v:=vecV RNum) dt (snd g)) gs_ : list (nat -> R)).
  assert (LA : length GA = n) by (unfold GA, gs_; rewrite !map_length, seq_length; reflexivity).
  assert (LB : length GB = n) by (unfold GB, gs_; rewrite !map_length, seq_length; reflexivity).
  assert (EG : forall s, gradient EE x true s = (Ok (packn (K:=RNum) d GA GB), Some o)).
  { intros s. unfold gradient, free_energy. rewrite EF. unfold grad_core.
    replace (v_unpack EE x) with (@Ok (list (nat -> nat -> R) * list (nat -> R)) (A, B)) by (symmetry; exact EU).
    cbn [bind].
    assert (Hro : grad_reads_ok EE A B o = true).
    { unfold grad_reads_ok. apply forallb_forall. intros z Hz. apply Nat.leb_le. change (v_n EE) with n.
      assert (Hz' : In z [length A; length B; length mt; length st; length (n_f en : list (nat -> R)); length (n_df en : list (nat -> nat -> R)); length lam; length psi]) by exact Hz.
      change (length (n_f en : list (nat -> R)) = length A) in F1. change (length (n_df en : list (nat -> nat -> R)) = length A) in F2.
      rewrite L1, L2, M1', M2', M3, M4, F1, F2, L1 in Hz'. cbn in Hz'. lia. }
    rewrite Hro. reflexivity. }
  assert (GBk : forall k, (k < n)%nat -> nth k GB vz = vscale (v:=vecV RNum) dt (snd (grad_at EE A B o k))).
  { intros k Hk. unfold GB, gs_. rewrite map_map. set (f := fun q => vscale (v:=vecV RNum) dt (snd (grad_at EE A B o q))).
    etransitivity; [apply (nth_indep (map f (seq 0 n)) vz (f O)); rewrite map_length, seq_length; exact Hk|].
    rewrite map_nth, seq_nth by exact Hk. reflexivity. }
  exists A, EDS, gs, psi, st, B, mt, EDM, gm, lam, (packn (K:=RNum) d GA GB), o.
  do 9 (split; [assumption|]). split; [exact HA|]. split; [exact HB|]. split; [exact Hf|].
  split. { intros k Hk. destruct (Hpt k ltac:(rewrite L1; exact Hk)) as (V1 & _). exact V1. }
  split. { intros k Hk. exact (proj1 (Gz k Hk)). }
  split. { intros j i Hj Hi. destruct (Gv j Hj) as [Q _]. etransitivity; [exact (Q i Hi)|]. unfold rmv. f_equal. apply Rsum_ext. intros l Hl.
    rewrite (inv_same d Rn Ri1 Ri HRi1 HRi i l Hi Hl). reflexivity. }
  split; [exact Hb|]. split; [exact EG|]. split; [exact (packn_len (K:=RNum) d GA GB n LA LB)|].
  intros k i Hk Hi. destruct (Hpt k ltac:(rewrite L1; exact Hk)) as (_ & _ & V3 & _).
  unfold part_b, entry. etransitivity; [apply (packn_nth_b (K:=RNum) d GA GB n k i 0 LA); [exact (eq_ind_r (fun z => (k < z)%nat) Hk LB)|exact Hi]|].
  etransitivity; [exact (f_equal (fun z => z i) (GBk k Hk))|].
  change (dt * (dEsde_dbn (K:=RNum) d P (nth k (n_f en) vz) (nth k mt vz) (nth k A mz) (nth k B vz) i + nth k lam vz i) =
    dt * (eb (nth k A mz) (nth k B vz) (nth k mt vz) (nth k st mz) i + nth k lam vz i)).
  f_equal. f_equal. exact (V3 i Hi).
Qed.
End AnyG.
