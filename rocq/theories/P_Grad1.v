(** * VarGP.gradient against free_energy for the one-dimensional models (Euler). *)
From Coq Require Import ZArith List Bool Arith Reals Lra Lia FunctionalExtensionality Sorted.
From Coquelicot Require Import Coquelicot.
From Verif Require Import Num Arr ArrFacts M_LinAlg M_Utils M_Ode M_Moments M_Sde1 M_Prior M_Like M_VarGP
  Spec_Utils Spec_Gauss Spec_Sde1 Spec_VarGP P_Ode P_Trapz P_Moments P_Sde1 P_RMat P_Det P_Like P_VarGP P_Stein P_Adjoint.
Import ListNotations.
Local Open Scope R_scope.

Lemma nth_map_lt' {A B} (f : A -> B) l k da db : (k < length l)%nat -> nth k (map f l) db = f (nth k l da).
Proof. intros H. rewrite (nth_indep _ db (f da)) by (rewrite map_length; exact H). apply map_nth. Qed.

(** ** the models *)
Definition e_ou (sigma theta a b m s : R) : R := 1 / 2 * ou_q (K:=RNum) theta a b m s / sigma.
Definition e_dw (sigma theta a b m s : R) : R := 1 / 2 * dw_exact theta a b m s / sigma.
Definition e_dwc (sigma theta a b m s : R) : R := 1 / 2 * dw_q (K:=RNum) theta a b m s / sigma.
Definition eb_ou (sigma theta a b m s : R) : R := dEsde_db1 (K:=RNum) (/ sigma) (- theta * m) m a b.
Definition ea_ou (sigma theta a b m s : R) : R :=
  dEsde_da1 (K:=RNum) (/ sigma) a m s (- theta * 1) (eb_ou sigma theta a b m s).
Definition eb_dw (sigma theta a b m s : R) : R := dEsde_db1 (K:=RNum) (/ sigma) (dw_Ef theta m s) m a b.
Definition ea_dw (sigma theta a b m s : R) : R :=
  dEsde_da1 (K:=RNum) (/ sigma) a m s (dw_Edf theta m s) (eb_dw sigma theta a b m s).

Lemma ou_energy_ok sigma theta dt : energy_ok (ou_energy (K:=RNum) sigma theta dt) (/ sigma)
  (ea_ou sigma theta) (eb_ou sigma theta) (ou_dm (K:=RNum) sigma theta) (ou_ds (K:=RNum) sigma theta).
Proof.
  split.
  - intros A B M S o H1 H2 H3. cbn [ou_energy e_f e_df e_dm e_ds].
    rewrite !map_length, !map4_length by assumption. repeat split; exact H2 || reflexivity.
  - intros A B M S o k H1 H2 H3 Hk. cbn [ou_energy e_f e_df e_dm e_ds].
    rewrite !(map4_nth _ A B M S k 0 0 0 0) by assumption.
    rewrite !(nth_map_lt' _ M k 0) by lia. repeat split; reflexivity.
Qed.
Lemma dw_energy_ok sigma theta dt : energy_ok (dw_energy (K:=RNum) sigma theta dt) (/ sigma)
  (ea_dw sigma theta) (eb_dw sigma theta) (dw_dm (K:=RNum) sigma theta) (dw_ds (K:=RNum) sigma theta).
Proof.
  split.
  - intros A B M S o H1 H2 H3. cbn [dw_energy e_f e_df e_dm e_ds].
    rewrite !map2_length, !map4_length by assumption. rty. rewrite H2, H3, Nat.min_id. repeat split; reflexivity.
  - intros A B M S o k H1 H2 H3 Hk. cbn [dw_energy e_f e_df e_dm e_ds].
    rewrite !(map4_nth _ A B M S k 0 0 0 0) by assumption.
    rewrite !(nth_map2 _ M S k 0 0) by lia. repeat split; reflexivity.
Qed.

Ltac g4 :=
  intros a b m s t a' b' m' s' Ha Hb Hm Hs;
  pose proof (is_derive_unique _ _ _ Ha) as Ea; pose proof (is_derive_unique _ _ _ Hb) as Eb;
  pose proof (is_derive_unique _ _ _ Hm) as Em; pose proof (is_derive_unique _ _ _ Hs) as Es;
  auto_derive; [repeat split; eexists; eassumption|];
  change (fun x : R => a x) with a; change (fun x : R => b x) with b;
  change (fun x : R => m x) with m; change (fun x : R => s x) with s;
  rewrite ?Ea, ?Eb, ?Em, ?Es.
Lemma ou_grad4 sigma theta : 0 < sigma -> grad4 (e_ou sigma theta) (ea_ou sigma theta) (eb_ou sigma theta)
  (ou_dm (K:=RNum) sigma theta) (ou_ds (K:=RNum) sigma theta).
Proof.
  intros Hsg. unfold grad4, e_ou, ea_ou, eb_ou, ou_q, ou_dm, ou_ds, mom_elt, dEsde_da1, dEsde_db1. rnum.
  g4. field. lra.
Qed.
Lemma dw_grad4 sigma theta : 0 < sigma -> grad4 (e_dw sigma theta) (ea_dw sigma theta) (eb_dw sigma theta)
  (dw_dm (K:=RNum) sigma theta) (dw_ds (K:=RNum) sigma theta).
Proof.
  intros Hsg. unfold grad4, e_dw, ea_dw, eb_dw, dw_exact, dw_dm, dw_ds, dw_Ef, dw_Edf, dw_c, mom_elt, dm_elt, ds_elt, dEsde_da1, dEsde_db1. rnum.
  g4. field. lra.
Qed.
Lemma e_ou_E sigma theta a b m s : 0 < sigma -> 0 < s ->
  E_normal m s (mismatch (f_ou theta) sigma a b) (e_ou sigma theta a b m s).
Proof. intros H1 H2. apply ou_point_E; assumption. Qed.
Lemma e_dw_E sigma theta a b m s : 0 < sigma -> 0 < s ->
  E_normal m s (mismatch (f_dw theta) sigma a b) (e_dw sigma theta a b m s).
Proof. intros H1 H2. apply dw_point_E; assumption. Qed.

(** ** sums over observation times *)
Lemma Rsum_index n t (c d : nat -> R) : NoDup t -> List.Forall (fun i => (i < n)%nat) t ->
  (forall k, ~ In k t -> c k = 0) ->
  Rsum (length t) (fun j => c (nth j t O) * d (nth j t O)) = Rsum n (fun k => c k * d k).
Proof.
  intros Hnd Hf Hc.
  rewrite (Rsum_ext n _ (fun k => Rsum (length t) (fun j => if Nat.eqb (nth j t O) k then c k * d k else 0))).
  - rewrite Rsum_swap. apply Rsum_ext. intros j Hj. symmetry.
    assert (Hlt : (nth j t O < n)%nat) by (rewrite Forall_forall in Hf; apply Hf, nth_In, Hj).
    rewrite (Rsum_single n _ (nth j t O) Hlt); [rewrite Nat.eqb_refl; reflexivity|].
    intros i Hi Hne. destruct (Nat.eqb_spec (nth j t O) i); [congruence|reflexivity].
  - intros k Hk. destruct (in_dec Nat.eq_dec k t) as [Hin|Hout].
    + destruct (in_index t k Hin) as (j0 & Hj0 & E0).
      rewrite (Rsum_single (length t) _ j0 Hj0); [rewrite E0, Nat.eqb_refl; reflexivity|].
      intros j Hj Hne. destruct (Nat.eqb_spec (nth j t O) k) as [E1|]; [|reflexivity].
      exfalso. apply Hne. apply (proj1 (NoDup_nth t O) Hnd j j0 Hj Hj0). congruence.
    + rewrite (Hc k Hout). symmetry. rewrite Rmult_0_l. apply Rsum_z. intros j Hj.
      destruct (Nat.eqb (nth j t O) k); reflexivity.
Qed.

Lemma line_len n x ua ub h : length (move n x ua ub h) = (n * 1 * (1 + 1))%nat.
Proof. unfold move. rewrite app_length, !map_length, seq_length. lia. Qed.
Lemma line_a n x ua ub h k : (k < n)%nat -> xa (move n x ua ub h) k = xa x k + h * ua k.
Proof.
  intros Hk. unfold xa at 1, move. rewrite app_nth1 by (rewrite map_length, seq_length; exact Hk).
  exact (map_seq_nth' n (fun k => xa x k + h * ua k) k Hk).
Qed.
Lemma line_b n x ua ub h k : (k < n)%nat -> xb n (move n x ua ub h) k = xb n x k + h * ub k.
Proof.
  intros Hk. unfold xb at 1, move. rewrite app_nth2 by (rewrite map_length, seq_length; lia).
  rewrite map_length, seq_length. replace (n + k - n)%nat with k by lia.
  exact (map_seq_nth' n (fun k => xb n x k + h * ub k) k Hk).
Qed.

(** ** the value of the objective and its derivative along a line *)
Section Gap.
Context (energy : list R -> list R -> list R -> list R -> option (list nat) -> Energy1 RNum)
  (isig : R) (e ec ea eb em es : R -> R -> R -> R -> R) (EO : energy_ok energy isig ea eb em es) (G4 : grad4 e ea eb em es).
Context (n : nat) (dt sigma m0 s0 mu tau r : R) (y : list R) (t : list nat).
Context (Hn : (0 < n)%nat) (Hr : 0 < r) (Hy : length y = length t) (Ht : List.Forall (fun i => (i < n)%nat) t).
Context (Hnd : NoDup t).
Context (Hsde : forall A B M S, length B = length A -> length M = length A -> length S = length A ->
  e_sde (energy A B M S (Some t)) = trap (length A) (fun k => ec (nth k A 0) (nth k B 0) (nth k M 0) (nth k S 0)) dt).
Notation EE := (EV energy isig n dt sigma m0 s0 mu tau r y t).

Lemma fe_value (x : list R) (Hx : length x = (n * 1 * (1 + 1))%nat) s :
  fst (free_energy EE x s) = Ok (kl0_1d (K:=RNum) ln mu tau m0 s0
    + trap n (fun k => ec (xa x k) (xb n x k) (path_m dt (xa x) (xb n x) m0 k) (path_s dt (xa x) sigma s0 k)) dt
    + Rsum (length t) (fun j => lterm r (nth j y 0) (path_m dt (xa x) (xb n x) m0 (nth j t O)) (path_s dt (xa x) sigma s0 (nth j t O)))).
Proof.
  destruct (fe_arrays energy isig ea eb em es EO n dt sigma m0 s0 mu tau r y t Hn Hr Hy Ht x Hx)
    as (A & B & v & mt & st & lam & psi & gm & gs & gr & EU & L1 & L2 & HA & HB & Hrest).
  cbn zeta in Hrest. destruct Hrest as (M1 & M2 & M3 & M4 & Ev & Eg & Efe & P & Z1 & Z2 & Hadj).
  unfold free_energy. rewrite Efe. cbn [fst]. f_equal.
  rewrite Hsde by congruence. rewrite L1. f_equal.
  - f_equal. apply trap_ext. intros k Hk. destruct (P k Hk) as [-> ->]. rewrite (HA k Hk), (HB k). reflexivity.
  - assert (Ht' : List.Forall (fun i => (i < length mt)%nat) t) by (rewrite M1; exact Ht).
    assert (Hms : length st = length mt) by congruence.
    rewrite (like_1d_val y t r mt st Hr Hy Hms Ht') in Ev. injection Ev as <-.
    apply Rsum_ext. intros j Hj. destruct (P (nth j t O)) as [-> ->]; [|reflexivity].
    rewrite Forall_forall in Ht. apply Ht, nth_In, Hj.
Qed.

Notation line := (move n).

Lemma gap (x : list R) (Hx : length x = (n * 1 * (1 + 1))%nat) s ua ub (dec : nat -> R) :
  (forall k, (k < n)%nat -> is_derive (fun h => ec (xa x k + h * ua k) (xb n x k + h * ub k)
     (path_m dt (fun j => xa x j + h * ua j) (fun j => xb n x j + h * ub j) m0 k)
     (path_s dt (fun j => xa x j + h * ua j) sigma s0 k)) 0 (dec k)) ->
  exists (g gm gs : list R) (de : nat -> R) (F : R -> R),
  fst (gradient EE x true s) = Ok g /\ length g = (n + n)%nat /\
  (forall h s', fst (free_energy EE (line x ua ub h) s') = Ok (F h)) /\
  (forall j, (j < length t)%nat ->
     nth (nth j t O) gm 0 = - (nth j y 0 - path_m dt (xa x) (xb n x) m0 (nth j t O)) / r /\ nth (nth j t O) gs 0 = 1 / 2 / r) /\
  (forall k, ~ In k t -> nth k gm 0 = 0 /\ nth k gs 0 = 0) /\
  (forall k, (k < n)%nat -> is_derive (fun h => e (xa x k + h * ua k) (xb n x k + h * ub k)
     (path_m dt (fun j => xa x j + h * ua j) (fun j => xb n x j + h * ub j) m0 k)
     (path_s dt (fun j => xa x j + h * ua j) sigma s0 k)) 0 (de k)) /\
  let dm := dm_ dt m0 (xa x) (xb n x) ua ub in let ds := ds_ dt sigma s0 (xa x) ua in
  is_derive F 0 (trap n dec dt + Rsum n (fun k => nth k gm 0 * dm k + nth k gs 0 * ds k)) /\
  Rsum n (fun k => nth k g 0 * ua k + nth (n + k) g 0 * ub k) =
    dt * Rsum n de + Rsum (n - 1) (fun k => nth k gm 0 * dm (k + 1)%nat + nth k gs 0 * ds (k + 1)%nat).
Proof.
  intros Hdec.
  destruct (gradient_rect energy isig e ea eb em es EO G4 n dt sigma m0 s0 mu tau r y t Hn Hr Hy Ht x Hx s)
    as (g & mt & st & gm & gs & gr & s' & EG & LG & M1 & M2 & P & Eg & Hrect).
  pose proof (at_0 (xa x) ua) as A0. pose proof (bt_0 (xb n x) ub) as B0. unfold at_ in A0. unfold bt_ in B0.
  set (a := xa x) in *. set (b := xb n x) in *.
  set (dm := dm_ dt m0 a b ua ub). set (ds := ds_ dt sigma s0 a ua).
  set (pm := fun h => path_m dt (fun j => a j + h * ua j) (fun j => b j + h * ub j) m0).
  set (ps := fun h => path_s dt (fun j => a j + h * ua j) sigma s0).
  assert (Dm : forall k, is_derive (fun h => pm h k) 0 (dm k)) by (intros k; exact (path_m_d dt m0 a b ua ub k)).
  assert (Ds : forall k, is_derive (fun h => ps h k) 0 (ds k)) by (intros k; exact (path_s_d dt sigma s0 a ua k)).
  assert (Pm0 : pm 0 = path_m dt a b m0) by (unfold pm; rewrite A0, B0; reflexivity).
  assert (Ps0 : ps 0 = path_s dt a sigma s0) by (unfold ps; rewrite A0; reflexivity).
  set (de := fun k => let m := path_m dt a b m0 k in let s := path_s dt a sigma s0 k in
     ea (a k) (b k) m s * ua k + eb (a k) (b k) m s * ub k + em (a k) (b k) m s * dm k + es (a k) (b k) m s * ds k).
  assert (De : forall k, is_derive (fun h => e (a k + h * ua k) (b k + h * ub k) (pm h k) (ps h k)) 0 (de k)).
  { intros k.
    pose proof (G4 (fun h => a k + h * ua k) (fun h => b k + h * ub k) (fun h => pm h k) (fun h => ps h k)
        0 (ua k) (ub k) (dm k) (ds k) (at_d a ua k) (bt_d b ub k) (Dm k) (Ds k)) as D.
    cbv beta in D. rewrite Pm0, Ps0 in D. rewrite !Rmult_0_l, !Rplus_0_r in D. exact D. }
  set (F := fun h => kl0_1d (K:=RNum) ln mu tau m0 s0
    + trap n (fun k => ec (a k + h * ua k) (b k + h * ub k) (pm h k) (ps h k)) dt
    + Rsum (length t) (fun j => lterm r (nth j y 0) (pm h (nth j t O)) (ps h (nth j t O)))).
  assert (Hms : length st = length mt) by congruence.
  assert (Ht' : List.Forall (fun i => (i < length mt)%nat) t) by (rewrite M1; exact Ht).
  assert (Htn : forall j, (j < length t)%nat -> (nth j t O < n)%nat) by (intros j Hj; rewrite Forall_forall in Ht; apply Ht, nth_In, Hj).
  destruct (like_grad_1d_val y t r mt st Hr Hy Hms Ht' 1) as (gm' & gs' & gr' & Eg' & _ & _ & _ & Hout & Hin).
  rewrite Eg in Eg'. injection Eg' as <- <- <-. specialize (Hin Hnd).
  assert (Hgm : forall j, (j < length t)%nat ->
     nth (nth j t O) gm 0 = - (nth j y 0 - path_m dt a b m0 (nth j t O)) / r /\ nth (nth j t O) gs 0 = 1 / 2 / r).
  { intros j Hj. destruct (Hin j Hj) as (I1 & I2 & _). destruct (P _ (Htn j Hj)) as [P1 _].
    rewrite P1 in I1. split; [|exact I2]. etransitivity; [exact I1|]. f_equal. ring. }
  exists g, gm, gs, de, F. split; [rewrite EG; reflexivity|]. split; [exact LG|]. split.
  { intros h s1. rewrite (fe_value (line x ua ub h) (line_len n x ua ub h) s1). f_equal. unfold F. f_equal; [f_equal|].
    - apply trap_ext. intros k Hk. rewrite line_a, line_b by exact Hk.
      destruct (path_ext dt sigma m0 s0 (xa (line x ua ub h)) (fun j => a j + h * ua j) (xb n (line x ua ub h)) (fun j => b j + h * ub j) k) as [E1 E2];
        [intros j Hj; apply line_a; lia|intros j Hj; apply line_b; lia|]. rewrite E1, E2. reflexivity.
    - apply Rsum_ext. intros j Hj. pose proof (Htn j Hj).
      destruct (path_ext dt sigma m0 s0 (xa (line x ua ub h)) (fun j => a j + h * ua j) (xb n (line x ua ub h)) (fun j => b j + h * ub j) (nth j t O)) as [E1 E2];
        [intros i Hi; apply line_a; lia|intros i Hi; apply line_b; lia|]. rewrite E1, E2. reflexivity. }
  split; [exact Hgm|]. split; [intros k Hk; destruct (Hout k Hk) as (O1 & O2 & _); split; assumption|].
  split; [intros k Hk; apply De|]. cbn zeta.
  pose proof (Hrect ua ub) as DR.
  assert (DR' : is_derive (fun h => rect_objective e n dt sigma m0 s0 (fun k => nth k gm 0) (fun k => nth k gs 0)
      (fun k => a k + h * ua k) (fun k => b k + h * ub k)) 0
      (dt * Rsum n de + Rsum (n - 1) (fun k => nth k gm 0 * dm (k + 1)%nat + nth k gs 0 * ds (k + 1)%nat))).
  { unfold rect_objective.
    apply (is_derive_plus (fun h => dt * Rsum n (fun k => e (a k + h * ua k) (b k + h * ub k) (pm h k) (ps h k)))
      (fun h => Rsum (n - 1) (fun k => nth k gm 0 * pm h (k + 1)%nat + nth k gs 0 * ps h (k + 1)%nat))).
    - apply is_derive_scal. apply (is_derive_Rsum' n (fun h k => e (a k + h * ua k) (b k + h * ub k) (pm h k) (ps h k))).
      intros k Hk. apply De.
    - apply (is_derive_Rsum' (n - 1) (fun h k => nth k gm 0 * pm h (k + 1)%nat + nth k gs 0 * ps h (k + 1)%nat)).
      intros k Hk. apply (is_derive_plus (fun h => nth k gm 0 * pm h (k + 1)%nat) (fun h => nth k gs 0 * ps h (k + 1)%nat));
        apply is_derive_scal; [apply Dm|apply Ds]. }
  assert (EQ : Rsum n (fun k => nth k g 0 * ua k + nth (n + k) g 0 * ub k) =
     dt * Rsum n de + Rsum (n - 1) (fun k => nth k gm 0 * dm (k + 1)%nat + nth k gs 0 * ds (k + 1)%nat)).
  { transitivity (Derive (fun h => rect_objective e n dt sigma m0 s0 (fun k => nth k gm 0) (fun k => nth k gs 0)
      (fun k => a k + h * ua k) (fun k => b k + h * ub k)) 0); [symmetry|]; apply is_derive_unique; assumption. }
  split; [|exact EQ].
  replace (trap n dec dt + Rsum n (fun k => nth k gm 0 * dm k + nth k gs 0 * ds k))
    with (0 + trap n dec dt + Rsum n (fun k => nth k gm 0 * dm k + nth k gs 0 * ds k)) by ring.
  unfold F.
  apply (is_derive_plus (fun h => kl0_1d (K:=RNum) ln mu tau m0 s0
    + trap n (fun k => ec (a k + h * ua k) (b k + h * ub k) (pm h k) (ps h k)) dt)
    (fun h => Rsum (length t) (fun j => lterm r (nth j y 0) (pm h (nth j t O)) (ps h (nth j t O))))).
  - apply (is_derive_plus (fun h => kl0_1d (K:=RNum) ln mu tau m0 s0)
      (fun h => trap n (fun k => ec (a k + h * ua k) (b k + h * ub k) (pm h k) (ps h k)) dt)); [apply @is_derive_const|].
    apply (is_derive_trap n (fun k h => ec (a k + h * ua k) (b k + h * ub k) (pm h k) (ps h k))). exact Hdec.
  - rewrite Rsum_plus.
    rewrite <- (Rsum_index n t (fun k => nth k gm 0) dm Hnd Ht) by (intros k Hk; apply (Hout k Hk)).
    rewrite <- (Rsum_index n t (fun k => nth k gs 0) ds Hnd Ht) by (intros k Hk; apply (Hout k Hk)).
    rewrite <- Rsum_plus.
    apply (is_derive_Rsum' (length t) (fun h j => lterm r (nth j y 0) (pm h (nth j t O)) (ps h (nth j t O)))).
    intros j Hj. cbv beta. destruct (Hgm j Hj) as [-> ->].
    pose proof (is_derive_unique _ _ _ (Dm (nth j t O))) as EM. pose proof (is_derive_unique _ _ _ (Ds (nth j t O))) as ES.
    rewrite <- Pm0.
    assert (L : forall (M S : R -> R) M' S' (yy : R), is_derive M 0 M' -> is_derive S 0 S' ->
      is_derive (fun h => lterm r yy (M h) (S h)) 0 (- (yy - M 0) / r * M' + 1 / 2 / r * S')).
    { intros M S M' S' yy HM HS. pose proof (is_derive_unique _ _ _ HM) as EM'. pose proof (is_derive_unique _ _ _ HS) as ES'.
      unfold lterm. auto_derive; [repeat split; try (eexists; eassumption)|].
      change (fun x : R => M x) with M. change (fun x : R => S x) with S. rewrite EM', ES'. field. lra. }
    apply (L (fun h => pm h (nth j t O)) (fun h => ps h (nth j t O))); [apply Dm|apply Ds].
Qed.
End Gap.

(** ** Ornstein-Uhlenbeck and double well *)
Notation ou_vgp sigma theta n dt m0 s0 mu tau r y t :=
  (vgp1 (K:=RNum) ln PI (ou_energy (K:=RNum) sigma theta dt) Euler n dt sigma (/ sigma) m0 s0 mu tau y t r 1).
Notation dw_vgp sigma theta n dt m0 s0 mu tau r y t :=
  (vgp1 (K:=RNum) ln PI (dw_energy (K:=RNum) sigma theta dt) Euler n dt sigma (/ sigma) m0 s0 mu tau y t r 1).

Lemma ou_sde sigma theta dt t A B M S : 0 < sigma -> Sorted le t ->
  length B = length A -> length M = length A -> length S = length A ->
  e_sde (ou_energy (K:=RNum) sigma theta dt A B M S (Some t)) =
  trap (length A) (fun k => e_ou sigma theta (nth k A 0) (nth k B 0) (nth k M 0) (nth k S 0)) dt.
Proof.
  intros Hsg Hst H1 H2 H3. cbn [ou_energy e_sde].
  transitivity (esde (ou_q (K:=RNum) theta) sigma dt (Some t) A B M S); [reflexivity|]. unfold esde.
  rewrite (trapz1_trap (ou_q (K:=RNum) theta)) by (try assumption; intros o [= <-]; exact Hst).
  transitivity (1 / 2 / sigma * trap (length A) (fun k => ou_q (K:=RNum) theta (nth k A 0) (nth k B 0) (nth k M 0) (nth k S 0)) dt); [match goal with |- ?u = ?v => change (@eq R u v) end; rnum; field; lra|].
  unfold trap. rewrite <- Rsum_scal. apply Rsum_ext. intros k Hk. unfold e_ou. field. lra.
Qed.
Lemma dw_sde sigma theta dt t A B M S : 0 < sigma -> Sorted le t ->
  length B = length A -> length M = length A -> length S = length A ->
  e_sde (dw_energy (K:=RNum) sigma theta dt A B M S (Some t)) =
  trap (length A) (fun k => e_dwc sigma theta (nth k A 0) (nth k B 0) (nth k M 0) (nth k S 0)) dt.
Proof.
  intros Hsg Hst H1 H2 H3. cbn [dw_energy e_sde].
  transitivity (esde (dw_q (K:=RNum) theta) sigma dt (Some t) A B M S); [reflexivity|]. unfold esde.
  rewrite (trapz1_trap (dw_q (K:=RNum) theta)) by (try assumption; intros o [= <-]; exact Hst).
  transitivity (1 / 2 / sigma * trap (length A) (fun k => dw_q (K:=RNum) theta (nth k A 0) (nth k B 0) (nth k M 0) (nth k S 0)) dt); [match goal with |- ?u = ?v => change (@eq R u v) end; rnum; field; lra|].
  unfold trap. rewrite <- Rsum_scal. apply Rsum_ext. intros k Hk. unfold e_dwc. field. lra.
Qed.

Section Statements.
Context (n : nat) (dt sigma theta m0 s0 mu tau r : R) (y : list R) (t : list nat) (x : list R).
Context (Hsg : 0 < sigma) (Hn : (0 < n)%nat) (Hr : 0 < r) (Hy : length y = length t)
  (Ht : List.Forall (fun i => (i < n)%nat) t) (Hx : length x = (n * 1 * (1 + 1))%nat).
Notation a := (fun k => nth k x 0).
Notation b := (fun k => nth (n + k) x 0).
Notation am ua h := (fun k => nth k x 0 + h * ua k).
Notation bm ub h := (fun k => nth (n + k) x 0 + h * ub k).

Lemma ou_rect s : exists e (g mt st gm gs gr : list R) s',
  (forall a b m s, 0 < s -> E_normal m s (mismatch (f_ou theta) sigma a b) (e a b m s)) /\
  gradient (ou_vgp sigma theta n dt m0 s0 mu tau r y t) x true s = (Ok g, s') /\ length g = (n + n)%nat /\
  length mt = n /\ length st = n /\
  (forall k, (k < n)%nat -> nth k mt 0 = path_m dt a b m0 k /\ nth k st 0 = path_s dt a sigma s0 k) /\
  like_grad_1d (K:=RNum) y t r 1 mt st = Ok (gm, gs, gr) /\
  forall ua ub, is_derive (fun h => rect_objective e n dt sigma m0 s0 (fun k => nth k gm 0) (fun k => nth k gs 0)
      (am ua h) (bm ub h)) 0
    (Rsum n (fun k => nth k g 0 * ua k + nth (n + k) g 0 * ub k)).
Proof.
  exists (e_ou sigma theta).
  destruct (gradient_rect _ _ _ _ _ _ _ (ou_energy_ok sigma theta dt) (ou_grad4 sigma theta Hsg) n dt sigma m0 s0 mu tau r y t Hn Hr Hy Ht x Hx s)
    as (g & mt & st & gm & gs & gr & s' & H).
  exists g, mt, st, gm, gs, gr, s'. split; [intros; apply e_ou_E; assumption|]. exact H.
Qed.
Lemma dw_rect s : exists e (g mt st gm gs gr : list R) s',
  (forall a b m s, 0 < s -> E_normal m s (mismatch (f_dw theta) sigma a b) (e a b m s)) /\
  gradient (dw_vgp sigma theta n dt m0 s0 mu tau r y t) x true s = (Ok g, s') /\ length g = (n + n)%nat /\
  length mt = n /\ length st = n /\
  (forall k, (k < n)%nat -> nth k mt 0 = path_m dt a b m0 k /\ nth k st 0 = path_s dt a sigma s0 k) /\
  like_grad_1d (K:=RNum) y t r 1 mt st = Ok (gm, gs, gr) /\
  forall ua ub, is_derive (fun h => rect_objective e n dt sigma m0 s0 (fun k => nth k gm 0) (fun k => nth k gs 0)
      (am ua h) (bm ub h)) 0
    (Rsum n (fun k => nth k g 0 * ua k + nth (n + k) g 0 * ub k)).
Proof.
  exists (e_dw sigma theta).
  destruct (gradient_rect _ _ _ _ _ _ _ (dw_energy_ok sigma theta dt) (dw_grad4 sigma theta Hsg) n dt sigma m0 s0 mu tau r y t Hn Hr Hy Ht x Hx s)
    as (g & mt & st & gm & gs & gr & s' & H).
  exists g, mt, st, gm, gs, gr, s'. split; [intros; apply e_dw_E; assumption|]. exact H.
Qed.

Context (Hnd : NoDup t) (Hst : Sorted le t).
Lemma ou_gap s ua ub : exists e (g gm gs : list R) (de dm ds : nat -> R) (F : R -> R),
  (forall a b m s, 0 < s -> E_normal m s (mismatch (f_ou theta) sigma a b) (e a b m s)) /\
  fst (gradient (ou_vgp sigma theta n dt m0 s0 mu tau r y t) x true s) = Ok g /\ length g = (n + n)%nat /\
  (forall h s', fst (free_energy (ou_vgp sigma theta n dt m0 s0 mu tau r y t) (move n x ua ub h) s') = Ok (F h)) /\
  (forall j, (j < length t)%nat ->
     nth (nth j t O) gm 0 = - (nth j y 0 - path_m dt a b m0 (nth j t O)) / r /\ nth (nth j t O) gs 0 = 1 / 2 / r) /\
  (forall k, ~ In k t -> nth k gm 0 = 0 /\ nth k gs 0 = 0) /\
  (forall k, is_derive (fun h => path_m dt (am ua h) (bm ub h) m0 k) 0 (dm k)) /\
  (forall k, is_derive (fun h => path_s dt (am ua h) sigma s0 k) 0 (ds k)) /\
  (forall k, (k < n)%nat -> is_derive (fun h => e (am ua h k) (bm ub h k)
     (path_m dt (am ua h) (bm ub h) m0 k) (path_s dt (am ua h) sigma s0 k)) 0 (de k)) /\
  is_derive F 0 (trap n de dt + Rsum n (fun k => nth k gm 0 * dm k + nth k gs 0 * ds k)) /\
  Rsum n (fun k => nth k g 0 * ua k + nth (n + k) g 0 * ub k) =
    dt * Rsum n de + Rsum (n - 1) (fun k => nth k gm 0 * dm (k + 1)%nat + nth k gs 0 * ds (k + 1)%nat).
Proof.
  exists (e_ou sigma theta).
  set (dm := dm_ dt m0 a b ua ub). set (ds := ds_ dt sigma s0 a ua).
  set (de := fun k => Derive (fun h => e_ou sigma theta (am ua h k) (bm ub h k)
     (path_m dt (am ua h) (bm ub h) m0 k) (path_s dt (am ua h) sigma s0 k)) 0).
  assert (Dm : forall k, is_derive (fun h => path_m dt (am ua h) (bm ub h) m0 k) 0 (dm k)) by (intros k; exact (path_m_d dt m0 a b ua ub k)).
  assert (Ds : forall k, is_derive (fun h => path_s dt (am ua h) sigma s0 k) 0 (ds k)) by (intros k; exact (path_s_d dt sigma s0 a ua k)).
  assert (De : forall k, is_derive (fun h => e_ou sigma theta (am ua h k) (bm ub h k)
     (path_m dt (am ua h) (bm ub h) m0 k) (path_s dt (am ua h) sigma s0 k)) 0 (de k)).
  { intros k. apply Derive_correct. eexists. exact (ou_grad4 sigma theta Hsg (fun h => am ua h k) (fun h => bm ub h k) _ _ 0 (ua k) (ub k) (dm k) (ds k)
      (at_d a ua k) (bt_d b ub k) (Dm k) (Ds k)). }
  destruct (gap _ _ _ (e_ou sigma theta) _ _ _ _ (ou_energy_ok sigma theta dt) (ou_grad4 sigma theta Hsg) n dt sigma m0 s0 mu tau r y t Hn Hr Hy Ht Hnd
     (fun A B M S => ou_sde sigma theta dt t A B M S Hsg Hst) x Hx s ua ub de (fun k _ => De k))
    as (g & gm & gs & de' & F & H1 & H2 & H3 & H4 & H5 & H6 & H7 & H8).
  exists g, gm, gs, de, dm, ds, F. repeat (split; [first [assumption|intros; apply e_ou_E; assumption|intros; apply De]|]).
  rewrite (Rsum_ext n de de'); [exact H8|].
  intros k Hk. unfold de. apply is_derive_unique. apply (H6 k Hk).
Qed.
(** free_energy uses half of the sixth-moment term (C21), gradient() the right one *)
Lemma dw_gap s ua ub : exists e (g gm gs : list R) (de d6 dm ds : nat -> R) (F : R -> R),
  (forall a b m s, 0 < s -> E_normal m s (mismatch (f_dw theta) sigma a b) (e a b m s)) /\
  fst (gradient (dw_vgp sigma theta n dt m0 s0 mu tau r y t) x true s) = Ok g /\ length g = (n + n)%nat /\
  (forall h s', fst (free_energy (dw_vgp sigma theta n dt m0 s0 mu tau r y t) (move n x ua ub h) s') = Ok (F h)) /\
  (forall j, (j < length t)%nat ->
     nth (nth j t O) gm 0 = - (nth j y 0 - path_m dt a b m0 (nth j t O)) / r /\ nth (nth j t O) gs 0 = 1 / 2 / r) /\
  (forall k, ~ In k t -> nth k gm 0 = 0 /\ nth k gs 0 = 0) /\
  (forall k, is_derive (fun h => path_m dt (am ua h) (bm ub h) m0 k) 0 (dm k)) /\
  (forall k, is_derive (fun h => path_s dt (am ua h) sigma s0 k) 0 (ds k)) /\
  (forall k, (k < n)%nat -> is_derive (fun h => e (am ua h k) (bm ub h k)
     (path_m dt (am ua h) (bm ub h) m0 k) (path_s dt (am ua h) sigma s0 k)) 0 (de k)) /\
  (forall k, (k < n)%nat -> is_derive (fun h => mom_elt (K:=RNum) 6
     (path_m dt (am ua h) (bm ub h) m0 k) (path_s dt (am ua h) sigma s0 k)) 0 (d6 k)) /\
  is_derive F 0 (trap n (fun k => de k - 4 / sigma * d6 k) dt + Rsum n (fun k => nth k gm 0 * dm k + nth k gs 0 * ds k)) /\
  Rsum n (fun k => nth k g 0 * ua k + nth (n + k) g 0 * ub k) =
    dt * Rsum n de + Rsum (n - 1) (fun k => nth k gm 0 * dm (k + 1)%nat + nth k gs 0 * ds (k + 1)%nat).
Proof.
  exists (e_dw sigma theta).
  set (dm := dm_ dt m0 a b ua ub). set (ds := ds_ dt sigma s0 a ua).
  set (pm := fun h => path_m dt (am ua h) (bm ub h) m0). set (ps := fun h => path_s dt (am ua h) sigma s0).
  set (de := fun k => Derive (fun h => e_dw sigma theta (am ua h k) (bm ub h k) (pm h k) (ps h k)) 0).
  set (d6 := fun k => Derive (fun h => mom_elt (K:=RNum) 6 (pm h k) (ps h k)) 0).
  assert (Dm : forall k, is_derive (fun h => pm h k) 0 (dm k)) by (intros k; exact (path_m_d dt m0 a b ua ub k)).
  assert (Ds : forall k, is_derive (fun h => ps h k) 0 (ds k)) by (intros k; exact (path_s_d dt sigma s0 a ua k)).
  assert (De : forall k, is_derive (fun h => e_dw sigma theta (am ua h k) (bm ub h k) (pm h k) (ps h k)) 0 (de k)).
  { intros k. apply Derive_correct. eexists. exact (dw_grad4 sigma theta Hsg (fun h => am ua h k) (fun h => bm ub h k) _ _ 0 (ua k) (ub k) (dm k) (ds k)
      (at_d a ua k) (bt_d b ub k) (Dm k) (Ds k)). }
  assert (D6 : forall k, is_derive (fun h => mom_elt (K:=RNum) 6 (pm h k) (ps h k)) 0 (d6 k)).
  { intros k. apply Derive_correct.
    assert (L : forall M S : R -> R, ex_derive M 0 -> ex_derive S 0 -> ex_derive (fun h => mom_elt (K:=RNum) 6 (M h) (S h)) 0).
    { intros M S HM HS. unfold mom_elt. rnum. auto_derive. repeat split; assumption. }
    apply (L (fun h => pm h k) (fun h => ps h k)); eexists; [apply Dm|apply Ds]. }
  assert (Dec : forall k, is_derive (fun h => e_dwc sigma theta (am ua h k) (bm ub h k) (pm h k) (ps h k)) 0 (de k - 4 / sigma * d6 k)).
  { intros k. apply (is_derive_ext (fun h => e_dw sigma theta (am ua h k) (bm ub h k) (pm h k) (ps h k) - 4 / sigma * mom_elt (K:=RNum) 6 (pm h k) (ps h k))).
    - intros h. unfold e_dw, e_dwc, dw_exact, dw_q, dw_c. rnum. match goal with |- ?u = ?v => change (@eq R u v) end. field. lra.
    - apply (is_derive_minus (fun h => e_dw sigma theta (am ua h k) (bm ub h k) (pm h k) (ps h k)) (fun h => 4 / sigma * mom_elt (K:=RNum) 6 (pm h k) (ps h k))); [apply De|].
      apply is_derive_scal. apply D6. }
  destruct (gap _ _ _ (e_dwc sigma theta) _ _ _ _ (dw_energy_ok sigma theta dt) (dw_grad4 sigma theta Hsg) n dt sigma m0 s0 mu tau r y t Hn Hr Hy Ht Hnd
     (fun A B M S => dw_sde sigma theta dt t A B M S Hsg Hst) x Hx s ua ub _ (fun k _ => Dec k))
    as (g & gm & gs & de' & F & H1 & H2 & H3 & H4 & H5 & H6 & H7 & H8).
  exists g, gm, gs, de, d6, dm, ds, F. repeat (split; [first [assumption|intros; apply e_dw_E; assumption|intros; apply De|intros; apply D6]|]).
  rewrite (Rsum_ext n de de'); [exact H8|].
  intros k Hk. unfold de. apply is_derive_unique. apply (H6 k Hk).
Qed.
End Statements.

(** ** the last entry of b *)
Section Last.
Context (n : nat) (dt sigma theta m0 s0 mu tau r : R) (y : list R) (t : list nat) (x : list R).
Context (Hsg : 0 < sigma) (Hn : (2 <= n)%nat) (Hr : 0 < r) (Hy : length y = length t)
  (Ht : List.Forall (fun i => (i < n)%nat) t) (Hx : length x = (n * 1 * (1 + 1))%nat).
Context (Hnd : NoDup t) (Hst : Sorted le t).
Notation a := (fun k => nth k x 0).
Notation b := (fun k => nth (n + k) x 0).
Definition last_dir (k : nat) : R := if Nat.eqb k (n - 1) then 1 else 0.
Notation am h := (fun k => nth k x 0 + h * 0).
Notation bm h := (fun k => nth (n + k) x 0 + h * last_dir k).
Lemma last_path h k : (k <= n - 1)%nat -> path_m dt (am h) (bm h) m0 k = path_m dt a b m0 k /\ path_s dt (am h) sigma s0 k = path_s dt a sigma s0 k.
Proof.
  intros Hk. apply path_ext; intros j Hj; [ring|]. unfold last_dir. destruct (Nat.eqb_spec j (n - 1)); [lia|ring].
Qed.
Lemma const_d (f : R -> R) c D : (forall h, f h = c) -> is_derive f 0 D -> D = 0.
Proof.
  intros Hf HD. transitivity (Derive f 0); [symmetry; apply is_derive_unique, HD|]. apply is_derive_unique.
  apply (is_derive_ext (fun _ => c)); [intros h; symmetry; apply Hf|]. apply @is_derive_const.
Qed.
Lemma last_sums (e : R -> R -> R -> R -> R) (g gm gs : list R) (de dm ds : nat -> R) :
  (forall k, is_derive (fun h => path_m dt (am h) (bm h) m0 k) 0 (dm k)) ->
  (forall k, is_derive (fun h => path_s dt (am h) sigma s0 k) 0 (ds k)) ->
  (forall k, (k < n)%nat -> is_derive (fun h => e (am h k) (bm h k) (path_m dt (am h) (bm h) m0 k) (path_s dt (am h) sigma s0 k)) 0 (de k)) ->
  Rsum n (fun k => nth k g 0 * 0 + nth (n + k) g 0 * last_dir k) =
    dt * Rsum n de + Rsum (n - 1) (fun k => nth k gm 0 * dm (k + 1)%nat + nth k gs 0 * ds (k + 1)%nat) ->
  trap n de dt + Rsum n (fun k => nth k gm 0 * dm k + nth k gs 0 * ds k) = nth (n + (n - 1)) g 0 / 2.
Proof.
  intros Hm Hs He Heq.
  assert (M0 : forall k, (k <= n - 1)%nat -> dm k = 0) by (intros k Hk; apply (const_d _ (path_m dt a b m0 k) _ (fun h => proj1 (last_path h k Hk)) (Hm k))).
  assert (S0 : forall k, (k <= n - 1)%nat -> ds k = 0) by (intros k Hk; apply (const_d _ (path_s dt a sigma s0 k) _ (fun h => proj2 (last_path h k Hk)) (Hs k))).
  assert (E0 : forall k, (k < n - 1)%nat -> de k = 0).
  { intros k Hk. refine (const_d _ (e (nth k x 0) (nth (n + k) x 0) (path_m dt a b m0 k) (path_s dt a sigma s0 k)) _ _ (He k ltac:(lia))).
    intros h. cbv beta. destruct (last_path h k ltac:(lia)) as [-> ->]. f_equal; [ring|]. unfold last_dir.
    destruct (Nat.eqb_spec k (n - 1)); [lia|ring]. }
  rewrite (Rsum_z n (fun k => nth k gm 0 * dm k + nth k gs 0 * ds k)) by (intros k Hk; rewrite M0, S0 by lia; ring).
  rewrite (Rsum_z (n - 1) (fun k => nth k gm 0 * dm (k + 1)%nat + nth k gs 0 * ds (k + 1)%nat)) in Heq by (intros k Hk; rewrite M0, S0 by lia; ring).
  rewrite (Rsum_single n _ (n - 1)%nat) in Heq; [|lia|intros j Hj Hne; unfold last_dir; destruct (Nat.eqb_spec j (n - 1)); [lia|ring]].
  rewrite (Rsum_single n de (n - 1)%nat) in Heq; [|lia|intros j Hj Hne; apply E0; lia].
  unfold last_dir in Heq. rewrite Nat.eqb_refl in Heq.
  unfold trap. rewrite (Rsum_single (n - 1) _ (n - 2)%nat); [|lia|intros j Hj Hne; rewrite !E0 by lia; field].
  rewrite (E0 (n - 2)%nat) by lia. replace (n - 2 + 1)%nat with (n - 1)%nat by lia.
  replace (nth (n + (n - 1)) g 0) with (dt * de (n - 1)%nat) by lra. field.
Qed.
Lemma move_last h : move n x (fun _ => 0) last_dir h = firstn (n + (n - 1)) x ++ [nth (n + (n - 1)) x 0 + h].
Proof.
  apply nth_ext with (d := 0) (d' := 0).
  - rewrite (line_len n x). rewrite app_length, firstn_length. cbn [length]. rewrite Hx. lia.
  - intros k Hk. rewrite (line_len n x) in Hk. destruct (Nat.ltb_spec k n) as [Hkn|Hkn].
    + transitivity (xa x k + h * 0); [exact (line_a n x _ _ h k Hkn)|].
      rewrite app_nth1 by (rewrite firstn_length, Hx; lia). unfold xa. rewrite <- (firstn_skipn (n + (n - 1)) x) at 1.
      rewrite app_nth1 by (rewrite firstn_length, Hx; lia). ring.
    + transitivity (xb n x (k - n) + h * last_dir (k - n)).
      { rewrite <- (line_b n x (fun _ => 0) last_dir h (k - n)) by lia. unfold xb. f_equal. lia. }
      unfold xb, last_dir. destruct (Nat.eqb_spec (k - n) (n - 1)) as [E|E].
      * rewrite app_nth2 by (rewrite firstn_length, Hx; lia). rewrite firstn_length, Hx.
        replace (k - Nat.min (n + (n - 1)) (n * 1 * (1 + 1)))%nat with O by lia. cbn [nth].
        replace (n + (k - n))%nat with (n + (n - 1))%nat by lia. ring.
      * rewrite app_nth1 by (rewrite firstn_length, Hx; lia).
        replace (n + (k - n))%nat with k by lia. rewrite <- (firstn_skipn (n + (n - 1)) x) at 1.
        rewrite app_nth1 by (rewrite firstn_length, Hx; lia). ring.
Qed.

Lemma ou_last s : exists (g : list R) (F : R -> R),
  fst (gradient (ou_vgp sigma theta n dt m0 s0 mu tau r y t) x true s) = Ok g /\
  (forall h s', fst (free_energy (ou_vgp sigma theta n dt m0 s0 mu tau r y t) (firstn (n + (n - 1)) x ++ [nth (n + (n - 1)) x 0 + h]) s') = Ok (F h)) /\
  is_derive F 0 (nth (n + (n - 1)) g 0 / 2) /\
  nth (n + (n - 1)) g 0 = dt * ((theta - nth (n - 1) x 0) * path_m dt a b m0 (n - 1) + nth (n + (n - 1)) x 0) / sigma.
Proof.
  assert (Hn0 : (0 < n)%nat) by lia.
  destruct (ou_gap n dt sigma theta m0 s0 mu tau r y t x Hsg Hn0 Hr Hy Ht Hx Hnd Hst s (fun _ => 0) last_dir)
    as (e & g & gm & gs & de & dm & ds & F & _ & H2 & H3 & H4 & H5 & H6 & H7 & H8 & H9 & H10 & H11).
  destruct (gradient_entries _ _ _ _ _ _ (ou_energy_ok sigma theta dt) n dt sigma m0 s0 mu tau r y t Hn0 Hr Hy Ht x Hx s)
    as (g' & mt & st & lam & psi & gm' & gs' & gr & s' & EG & _ & _ & _ & _ & _ & Z1 & _ & _ & Hg).
  assert (Eg : g' = g) by (unfold EV in EG; rewrite EG in H2; injection H2; auto). subst g'.
  exists g, F. split; [exact H2|]. split; [intros h s1; rewrite <- move_last; apply H4|]. split.
  - rewrite <- (last_sums e g gm gs de dm ds H7 H8 H9 H11). exact H10.
  - destruct (Hg (n - 1)%nat ltac:(lia)) as [_ ->]. unfold gb_of. rewrite Z1. unfold eb_ou, dEsde_db1, xa, xb. rnum. field. lra.
Qed.
Lemma dw_last s : exists (g : list R) (F : R -> R),
  fst (gradient (dw_vgp sigma theta n dt m0 s0 mu tau r y t) x true s) = Ok g /\
  (forall h s', fst (free_energy (dw_vgp sigma theta n dt m0 s0 mu tau r y t) (firstn (n + (n - 1)) x ++ [nth (n + (n - 1)) x 0 + h]) s') = Ok (F h)) /\
  is_derive F 0 (nth (n + (n - 1)) g 0 / 2).
Proof.
  assert (Hn0 : (0 < n)%nat) by lia.
  destruct (dw_gap n dt sigma theta m0 s0 mu tau r y t x Hsg Hn0 Hr Hy Ht Hx Hnd Hst s (fun _ => 0) last_dir)
    as (e & g & gm & gs & de & d6 & dm & ds & F & _ & H2 & H3 & H4 & H5 & H6 & H7 & H8 & H9 & H9' & H10 & H11).
  exists g, F. split; [exact H2|]. split; [intros h s1; rewrite <- move_last; apply H4|].
  rewrite <- (last_sums e g gm gs de dm ds H7 H8 H9 H11).
  rewrite (trap_ext n de (fun k => de k - 4 / sigma * d6 k)); [exact H10|].
  intros k Hk. assert (E6 : d6 k = 0); [|rewrite E6; ring].
  refine (const_d _ (mom_elt (K:=RNum) 6 (path_m dt a b m0 k) (path_s dt a sigma s0 k)) _ _ (H9' k Hk)).
  intros h. cbv beta. destruct (last_path h k ltac:(lia)) as [-> ->]. reflexivity.
Qed.
End Last.

Lemma ou_refute : exists (x g : list R) (F : R -> R) D,
  let E := ou_vgp 1 1 2 1 1 1 0 1 1 [] [] in
  fst (gradient E x true None) = Ok g /\ length x = 4%nat /\
  (forall h, fst (free_energy E (firstn 3 x ++ [nth 3 x 0 + h]) None) = Ok (F h)) /\
  is_derive F 0 D /\ nth 3 g 0 <> D.
Proof.
  destruct (ou_last 2 1 1 1 1 1 0 1 1 [] [] [0;0;0;0] ltac:(lra) ltac:(lia) ltac:(lra) eq_refl (Forall_nil _) eq_refl (NoDup_nil _) (Sorted_nil _) None)
    as (g & F & H1 & H2 & H3 & H4).
  exists [0;0;0;0], g, F, (nth 3 g 0 / 2). cbn zeta. split; [exact H1|]. split; [reflexivity|]. split; [intros h; apply H2|]. split; [exact H3|].
  cbn [Nat.add Nat.sub] in H4. rewrite H4. cbn. lra.
Qed.
