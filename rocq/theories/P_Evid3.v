(** * The objective against the evidence: any method, and the size of the gap (one dimension). *)
From Coq Require Import ZArith List Bool Arith Reals Lra Lia Psatz Sorted.
From Coquelicot Require Import Coquelicot.
From Verif Require Import Num Arr ArrFacts M_LinAlg M_Utils M_Ode M_Moments M_Sde1 M_Prior M_Like M_VarGP
  Spec_Utils Spec_Gauss Spec_Prior Spec_Sde1 Spec_VarGP Spec_Evid P_Ode P_Trapz P_Moments P_Sde1 P_RMat P_Det P_Expect P_Prior P_Like P_VarGP
  P_GaussN P_Stein P_Adjoint P_Grad1 P_Bound P_Bound2 P_Jensen P_Evid P_Evid2.
Import ListNotations.
Local Open Scope R_scope.

(** ** any linear chain with the given means and variances *)
Section Any.
Context (f : R -> R) (ex : R -> R -> R -> R -> R) (lq : R -> R -> list R) (sigma : R).
Context (Hsg : 0 < sigma) (Hql : forall a b, (length (lq a b) <= 7)%nat) (Hqe : forall a b x, mismatch f sigma a b x = peval 0 (lq a b) x).
Context (Hqm : forall a b m s, pmom 0 (lq a b) m s = ex a b m s).
Context (n : nat) (dt mu tau r : R) (y : list R) (t : list nat) (m s al be : nat -> R).
Context (Hdt : 0 < dt) (Htau : 0 < tau) (Hs0 : 0 < s O) (Hr : 0 < r) (Hn : (0 < n)%nat) (Ht : List.Forall (fun i => (i < n)%nat) t).
Context (Hch : forall k, (k + 1 < n)%nat -> m (k + 1)%nat = m k + dt * (- al k * m k + be k) /\ s (k + 1)%nat = (1 - dt * al k) ^ 2 * s k + sigma * dt).
Lemma chain_any k : (k < n)%nat -> chain_m dt al be (m O) k = m k /\ chain_s dt al sigma (s O) k = s k.
Proof.
  induction k as [|k IH]; intros Hk; [split; reflexivity|]. destruct (IH ltac:(lia)) as [E1 E2]. cbn [chain_m chain_s]. rewrite E1, E2.
  destruct (Hch k ltac:(lia)) as [C1 C2]. rewrite Nat.add_1_r in C1, C2. rewrite C1, C2. split; ring.
Qed.
Lemma chain_pos k : (k < n)%nat -> 0 < s k.
Proof.
  induction k as [|k IH]; intros Hk; [exact Hs0|]. specialize (IH ltac:(lia)). destruct (Hch k ltac:(lia)) as [_ C2]. rewrite Nat.add_1_r in C2. rewrite C2.
  apply Rplus_le_lt_0_compat; [apply Rmult_le_pos; [apply pow2_ge_0|lra]|apply Rmult_lt_0_compat; assumption].
Qed.
Lemma any_bound Z : evidence f sigma n dt mu tau y t r Z -> 0 < Z /\
  - ln Z <= kl1 (m O) (s O) mu tau + dt * Rsum (n - 1) (fun k => ex (al k) (be k) (m k) (s k))
    + Rsum (length t) (fun j => lterm r (nth j y 0) (m (nth j t O)) (s (nth j t O))).
Proof.
  intros HZ.
  destruct (evid_bound f sigma n dt mu tau (m O) (s O) y t r Hsg Hdt Htau Hs0 Hr Hn Ht al be (fun k => lq (al k) (be k))
    (fun k => Hql _ _) (fun k x => Hqe _ _ x) Z HZ) as [PZ B]. split; [exact PZ|]. apply (Rle_trans _ _ _ B). right.
  rewrite (Rsum_ext (length t) _ (fun j => lterm r (nth j y 0) (m (nth j t O)) (s (nth j t O)))).
  2:{ intros j Hj. destruct (chain_any (nth j t O)) as [-> ->]; [|reflexivity]. rewrite Forall_forall in Ht. apply Ht, nth_In, Hj. }
  rewrite (Rsum_ext (n - 1) _ (fun k => ex (al k) (be k) (m k) (s k))).
  2:{ intros k Hk. destruct (chain_any k ltac:(lia)) as [-> ->]. apply Hqm. }
  reflexivity.
Qed.
End Any.
(** such a chain exists if no variance falls below that of one step of the noise *)
Lemma chain_exists sigma n dt (m s : nat -> R) : 0 < sigma -> 0 < dt -> 0 < s O -> (forall k, (k + 1 < n)%nat -> sigma * dt <= s (k + 1)%nat) ->
  exists al be : nat -> R, forall k, (k + 1 < n)%nat ->
    m (k + 1)%nat = m k + dt * (- al k * m k + be k) /\ s (k + 1)%nat = (1 - dt * al k) ^ 2 * s k + sigma * dt.
Proof.
  intros Hsg Hdt Hs0 Hs. set (al := fun k => (1 - sqrt ((s (k + 1)%nat - sigma * dt) / s k)) / dt).
  exists al, (fun k => (m (k + 1)%nat - m k) / dt + al k * m k). intros k Hk. split; [field; lra|].
  assert (P : 0 < s k). { destruct k as [|k]; [exact Hs0|]. specialize (Hs k ltac:(lia)). rewrite Nat.add_1_r in Hs. pose proof (Rmult_lt_0_compat _ _ Hsg Hdt). lra. }
  unfold al. replace (1 - dt * ((1 - sqrt ((s (k + 1)%nat - sigma * dt) / s k)) / dt)) with (sqrt ((s (k + 1)%nat - sigma * dt) / s k)) by (field; lra).
  replace (sqrt ((s (k + 1)%nat - sigma * dt) / s k) ^ 2) with ((s (k + 1)%nat - sigma * dt) / s k).
  - field. lra.
  - cbn [pow]. rewrite Rmult_1_r, sqrt_sqrt; [reflexivity|]. specialize (Hs k Hk). apply Rmult_le_pos; [lra|]. left. apply Rinv_0_lt_compat, P.
Qed.
(** the two halves of an argument *)
Lemma arg_app n (x : list R) : length x = (n + n)%nat -> exists A B, x = (A ++ B)%list /\ length A = n /\ length B = n /\
  (forall k, (k < n)%nat -> nth k A 0 = nth k x 0 /\ nth k B 0 = nth (n + k) x 0).
Proof.
  intros Hx. exists (firstn n x), (skipn n x). assert (LA : length (firstn n x) = n) by (rewrite firstn_length; lia).
  split; [symmetry; apply firstn_skipn|]. split; [exact LA|]. split; [rewrite skipn_length; lia|]. intros k Hk.
  rewrite <- (firstn_skipn n x) at 2 4. split; [rewrite app_nth1 by lia; reflexivity|].
  rewrite app_nth2 by lia. rewrite LA. f_equal. lia.
Qed.
Section AnyValue.
Context (energy : list R -> list R -> list R -> list R -> option (list nat) -> Energy1 RNum)
  (isig : R) (ec ea eb em es : R -> R -> R -> R -> R) (EO : energy_ok energy isig ea eb em es).
Context (mtd : method) (n : nat) (dt sigma m0 s0 mu tau r : R) (y : list R) (t : list nat).
Context (Hn : (0 < n)%nat) (Hr : 0 < r) (Hy : length y = length t) (Ht : List.Forall (fun i => (i < n)%nat) t).
Context (Hsde : forall A B M S, length B = length A -> length M = length A -> length S = length A ->
  e_sde (energy A B M S (Some t)) = trap (length A) (fun k => ec (nth k A 0) (nth k B 0) (nth k M 0) (nth k S 0)) dt).
Notation EE := (vgp1 (K:=RNum) ln PI energy mtd n dt sigma isig m0 s0 mu tau y t r 1).
Lemma x_value_any x : length x = (n + n)%nat -> exists o : Out EE,
  let m := fun k => nth k (o_mt o : list R) 0 in let s := fun k => nth k (o_st o : list R) 0 in
  (forall st, free_energy EE x st = (Ok (kl0_1d (K:=RNum) ln mu tau m0 s0
    + trap n (fun k => ec (nth k x 0) (nth (n + k) x 0) (m k) (s k)) dt
    + Rsum (length t) (fun j => lterm r (nth j y 0) (m (nth j t O)) (s (nth j t O)))), Some o)) /\ m O = m0 /\ s O = s0.
Proof.
  intros Hx. destruct (arg_app n x Hx) as (A & B & -> & LA & LB & HX).
  destruct (fe_val_out energy isig ec ea eb em es EO mtd n dt sigma m0 s0 mu tau r y t Hn Hr Hy Ht Hsde A B LA LB) as (mt & st & o & Hf & (O1 & O2) & Ef).
  exists o. cbv zeta. rewrite O1, O2.
  destruct (solve_fwd_shape _ _ _ _ _ _ _ _ _ _ Hf) as (_ & _ & M1 & M2).
  split; [|split].
  - intros s. rewrite Ef. apply f_equal2; [|reflexivity]. do 3 f_equal. apply trap_ext. intros k Hk. cbv beta. destruct (HX k Hk) as [E1 E2]. rewrite E1, E2. reflexivity.
  - exact (nth_error_nth _ _ _ M1).
  - exact (nth_error_nth _ _ _ M2).
Qed.
End AnyValue.
Lemma gap_ou (z k b c d l : R) : z <= k + b + c -> z <= k - 1 / 2 * l + d + c + 1 / 2 * l + (b - d).
Proof. lra. Qed.
Lemma gap_dw (z k b c d l w : R) : z <= k + b + c -> z <= k - 1 / 2 * l + d + c + 1 / 2 * l + w + (b - (d + w)).
Proof. lra. Qed.
