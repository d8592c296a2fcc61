(** * Property C26: the prior term. *)
From Coq Require Import Reals Lra Lia Arith Bool List.
From Coquelicot Require Import Coquelicot.
From Verif Require Import Num Arr M_LinAlg M_Prior Spec_Utils Spec_Det Spec_Gauss Spec_GaussN Spec_Prior P_Prior.
Local Open Scope R_scope.

(** ** 1-D: the returned value is the divergence minus ln(s0)/2 (line 60 has -log(s0) where
    -0.5*log(s0) belongs), hence right only when s0 = 1 *)
Theorem C26_1d_partial :
  forall mu tau m s, 0 < s -> 0 < tau ->
  exists k, KL1 m s mu tau k /\ kl0_1d (K:=RNum) ln mu tau m s = k - 1 / 2 * ln s.
Proof. exact kl0_1d_partial. Qed.
Print Assumptions C26_1d_partial.
Theorem C26_1d_right_iff :
  forall mu tau m s k, 0 < s -> 0 < tau -> KL1 m s mu tau k ->
  (kl0_1d (K:=RNum) ln mu tau m s = k <-> s = 1).
Proof. exact kl0_1d_iff. Qed.
Print Assumptions C26_1d_right_iff.
(** it can be negative, even for two equal distributions *)
Theorem C26_1d_refuted :
  exists mu tau m s, 0 < s /\ 0 < tau /\ m = mu /\ s = tau /\ kl0_1d (K:=RNum) ln mu tau m s < 0.
Proof. exact kl0_1d_neg. Qed.
Print Assumptions C26_1d_refuted.
(** the specified divergence is non-negative and zero exactly at equality *)
Theorem C26_kl_1d :
  forall m s mu tau k, 0 < s -> 0 < tau -> KL1 m s mu tau k ->
  0 <= k /\ (k = 0 <-> m = mu /\ s = tau).
Proof. intros m s mu tau k Hs Ht H. rewrite (KL1_unique _ _ _ _ _ Hs Ht H). exact (kl1_nonneg m s mu tau Hs Ht). Qed.
Print Assumptions C26_kl_1d.
(** the gradients are those of the divergence *)
Theorem C26_grad_1d :
  forall mu tau lam psi m s, 0 < s -> 0 < tau ->
  (forall k : R -> R, (forall x, KL1 x s mu tau (k x)) ->
     is_derive k m (fst (kl0_grad_1d (K:=RNum) mu tau m s lam psi) - lam)) /\
  (forall k : R -> R, (forall x, 0 < x -> KL1 m x mu tau (k x)) ->
     is_derive k s (snd (kl0_grad_1d (K:=RNum) mu tau m s lam psi) - psi)).
Proof.
  intros mu tau lam psi m s Hs Ht.
  exact (conj (fun k H => kl0_grad1_m mu tau s lam psi k m Hs Ht H) (fun k H => kl0_grad1_s mu tau lam psi m k s Hs Ht H)).
Qed.
Print Assumptions C26_grad_1d.
Example C26_1d_instance : kl0_1d (K:=RNum) ln 1 2 3 1 = 1 / 2 * ln 2 + 3 / 4.
Proof. unfold kl0_1d. rnum. rewrite ln_1. field. Qed.

(** ** n-D.  Exact value for 1-D arrays of means whenever the product line 87 takes the
    logarithm of is symmetric, i.e. s0 and tau0 commute. *)
Theorem C26_nd_partial :
  forall d (mu : nat -> R) T (m : nat -> R) S,
  symm d S -> posdef d S -> symm d T -> posdef d T -> commute d S T ->
  exists k Ti, KLn d m S mu T k /\ is_inv d T Ti /\
    kl0_nd (K:=RNum) ln d mu T m S =
    Ok (k + 1 / 2 * (Rsum d (fun i => (m i - mu i) ^ 2) * Rsum d (fun i => Rsum d (fun j => Ti i j))
                     - Rsum d (fun i => Rsum d (fun j => (m i - mu i) * Ti i j * (m j - mu j))))).
Proof. exact kl0_nd_partial. Qed.
Print Assumptions C26_nd_partial.
(** despite the wrong quadratic term it is non-negative and zero exactly at equality *)
Theorem C26_nd_sign :
  forall d (mu : nat -> R) T (m : nat -> R) S,
  symm d S -> posdef d S -> symm d T -> posdef d T -> commute d S T ->
  exists v, kl0_nd (K:=RNum) ln d mu T m S = Ok v /\ 0 <= v /\
    (v = 0 <-> (forall i, (i < d)%nat -> m i = mu i) /\
               (forall i j, (i < d)%nat -> (j < d)%nat -> S i j = T i j)).
Proof. exact kl0_nd_nonneg. Qed.
Print Assumptions C26_nd_sign.
(** means given as 1 x d arrays: the divergence *)
Theorem C26_nd_row :
  forall d (mu T m S : nat -> nat -> R),
  symm d S -> posdef d S -> symm d T -> posdef d T -> commute d S T ->
  exists k, KLn d (m 0%nat) S (mu 0%nat) T k /\ kl0_nd_rows (K:=RNum) ln d 1 mu T m S = Ok k.
Proof. exact kl0_rows. Qed.
Print Assumptions C26_nd_row.
Theorem C26_kl_nd :
  forall d m S mu T k, symm d S -> posdef d S -> symm d T -> posdef d T -> KLn d m S mu T k ->
  0 <= k /\ (k = 0 <-> (forall i, (i < d)%nat -> m i = mu i) /\
                       (forall i j, (i < d)%nat -> (j < d)%nat -> S i j = T i j)).
Proof. exact KLn_nonneg. Qed.
Print Assumptions C26_kl_nd.
(** the broadcast of z0.T.dot(z0) doubles the divergence here *)
Theorem C26_nd_mean_refuted :
  exists mu T m S k, symm 2 S /\ posdef 2 S /\ symm 2 T /\ posdef 2 T /\
  KLn 2 m S mu T k /\ kl0_nd (K:=RNum) ln 2 mu T m S = Ok (2 * k) /\ 0 < k.
Proof. exact kl0_nd_bcast_witness. Qed.
Print Assumptions C26_nd_mean_refuted.
(** covariances that do not commute: a wrong value with equal means, or LinAlgError *)
Theorem C26_nd_covariance_refuted :
  exists mu T m S k v, symm 2 S /\ posdef 2 S /\ symm 2 T /\ posdef 2 T /\
  KLn 2 m S mu T k /\ kl0_nd (K:=RNum) ln 2 mu T m S = Ok v /\ v <> k /\ m = mu.
Proof. exact kl0_nd_lower_witness. Qed.
Print Assumptions C26_nd_covariance_refuted.
Theorem C26_nd_error_refuted :
  exists mu T m S, symm 2 S /\ posdef 2 S /\ symm 2 T /\ posdef 2 T /\
  kl0_nd (K:=RNum) ln 2 mu T m S = Err LinAlgError.
Proof. exact kl0_nd_error_witness. Qed.
Print Assumptions C26_nd_error_refuted.
(** gradients, any positive definite covariances *)
Theorem C26_grad_nd_mean :
  forall d (mu : nat -> R) T (m : nat -> R) S (lam : nat -> R) psi,
  symm d S -> posdef d S -> symm d T -> posdef d T ->
  exists gm gs, kl0_grad_nd (K:=RNum) d mu T m S lam psi = Ok (gm, gs) /\
  forall i (k : R -> R), (i < d)%nat -> (forall t, KLn d (vset i t m) S mu T (k t)) ->
    is_derive k (m i) (gm i - lam i).
Proof. exact kl0_grad_nd_m. Qed.
Print Assumptions C26_grad_nd_mean.
(** along every differentiable curve of covariances *)
Theorem C26_grad_nd_covariance :
  forall d (mu : nat -> R) T (m : nat -> R) (Sg : R -> nat -> nat -> R) (Sg' : nat -> nat -> R)
         (t0 : R) (lam : nat -> R) psi (k : R -> R),
  symm d T -> posdef d T ->
  locally t0 (fun t => symm d (Sg t) /\ posdef d (Sg t) /\ KLn d m (Sg t) mu T (k t)) ->
  (forall i j, (i < d)%nat -> (j < d)%nat -> is_derive (fun t => Sg t i j) t0 (Sg' i j)) ->
  exists gm gs, kl0_grad_nd (K:=RNum) d mu T m (Sg t0) lam psi = Ok (gm, gs) /\
    is_derive k t0 (Rsum d (fun i => Rsum d (fun j => (gs i j - psi i j) * Sg' i j))).
Proof. exact kl0_grad_nd_s. Qed.
Print Assumptions C26_grad_nd_covariance.
(** modelling np.linalg.solve by the inverse loses nothing *)
Theorem C26_solve :
  forall d T Ti (z y : nat -> R), is_inv d T Ti ->
  (forall i, (i < d)%nat -> Rsum d (fun k => T i k * y k) = z i) <->
  (forall i, (i < d)%nat -> y i = Rsum d (fun k => Ti i k * z k)).
Proof. exact grad_solve. Qed.
Print Assumptions C26_solve.
Example C26_nd_instance :
  let T := mat2 2 0 0 2 in let S := mat2 (1 / 4) 0 0 (1 / 4) in
  symm 2 S /\ posdef 2 S /\ symm 2 T /\ posdef 2 T /\ commute 2 S T.
Proof.
  intros T S. split; [apply mat2_symm|]. split; [apply mat2_posdef; lra|].
  split; [apply mat2_symm|]. split; [apply mat2_posdef; lra|].
  intros [|[|i]] [|[|j]] Hi Hj; try lia; unfold S, T, mat2; cbn; ring.
Qed.
