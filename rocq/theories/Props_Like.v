(** * Properties C27 and C28: the observation energy. *)
From Coq Require Import Reals Lra Lia Arith Bool List.
From Coquelicot Require Import Coquelicot.
From Verif Require Import Num Arr M_LinAlg M_Like Spec_Utils Spec_Det Spec_Gauss Spec_GaussN Spec_Prior
  Spec_L63 Spec_Like P_Prior P_Like.
Import ListNotations.
Local Open Scope R_scope.

(** ** C27, one dimension *)
(** the energy, with repeated observation times too *)
Theorem C27_energy :
  forall (y : list R) (t : list nat) (r : R) (m s : list R),
  0 < r -> length y = length t -> length s = length m ->
  List.Forall (fun i => (i < length m)%nat) t ->
  (forall j, (j < length t)%nat -> 0 < nth (nth j t O) s 0) ->
  exists e, obs_energy_1d y t r m s e /\ like_1d (K:=RNum) ln PI y t r m s = Ok e.
Proof. exact like_1d_ok. Qed.
Print Assumptions C27_energy.
(** and the specification determines it *)
Theorem C27_energy_unique :
  forall (y : list R) (t : list nat) (r : R) (m s : list R) e e',
  0 < r -> (forall j, (j < length t)%nat -> 0 < nth (nth j t O) s 0) ->
  obs_energy_1d y t r m s e -> obs_energy_1d y t r m s e' -> e = e'.
Proof.
  intros y t r m s e e' Hr Hs H H'.
  exact (eq_trans (obs_1d_unique y t r m s Hr Hs e H) (eq_sym (obs_1d_unique y t r m s Hr Hs e' H'))).
Qed.
Print Assumptions C27_energy_unique.
(** derivatives with respect to means and variances (the default operator is 1);
    zero elsewhere *)
Theorem C27_gradients :
  forall (y : list R) (t : list nat) (r : R) (m s : list R),
  0 < r -> length y = length t -> length s = length m ->
  List.Forall (fun i => (i < length m)%nat) t -> NoDup t -> (forall k, (k < length m)%nat -> 0 < nth k s 0) ->
  exists gm gs gr,
  like_grad_1d (K:=RNum) y t r 1 m s = Ok (gm, gs, gr) /\
  length gm = length m /\ length gs = length m /\ length gr = length m /\
  forall k, (k < length m)%nat ->
  (forall e : R -> R, (forall x, obs_energy_1d y t r (lset k x m) s (e x)) -> is_derive e (nth k m 0) (nth k gm 0)) /\
  (forall e : R -> R, (forall x, 0 < x -> obs_energy_1d y t r m (lset k x s) (e x)) -> is_derive e (nth k s 0) (nth k gs 0)) /\
  (~ In k t -> nth k gm 0 = 0 /\ nth k gs 0 = 0 /\ nth k gr 0 = 0).
Proof. exact like_grad_1d_ok. Qed.
Print Assumptions C27_gradients.
Theorem C27_operator_default :
  forall (y : list R), like_op_1d (K:=RNum) y None = match y with nil => Err IndexError | _ => Ok 1 end.
Proof. intros [|a y]; reflexivity. Qed.
Print Assumptions C27_operator_default.
Theorem C27_operator_given : forall (y : list R) h, like_op_1d (K:=RNum) y (Some h) = Ok h.
Proof. reflexivity. Qed.
Print Assumptions C27_operator_given.
(** as many observations as times, or ValueError (numpy repeats arrays of length one) *)
Theorem C27_lengths :
  forall (y : list R) (t : list nat) (r h : R) (m s : list R),
  List.Forall (fun i => (i < length m)%nat) t -> length s = length m ->
  length y <> length t -> length y <> 1%nat -> length t <> 1%nat ->
  like_1d (K:=RNum) ln PI y t r m s = Err ValueError /\ like_grad_1d (K:=RNum) y t r h m s = Err ValueError.
Proof. exact lengths_1d. Qed.
Print Assumptions C27_lengths.
(** out of range observation times *)
Theorem C27_index_error :
  forall (y : list R) (t : list nat) (r : R) (m s : list R),
  ~ List.Forall (fun i => (i < length m)%nat) t -> like_1d (K:=RNum) ln PI y t r m s = Err IndexError.
Proof. intros y t r m s H. unfold like_1d. rewrite (take_err (A:=RNum) m t H). reflexivity. Qed.
Print Assumptions C27_index_error.
(** the third array returned by gradients() is not the derivative with respect to the noise
    variance: here that derivative is 0 and the array holds -1 (gaussian_like.py:193) *)
Theorem C27_noise_gradient_refuted :
  exists y t r m s gm gs gr D (e : R -> R),
  0 < r /\ (forall x, 0 < x -> obs_energy_1d y t x m s (e x)) /\ is_derive e r D /\ t = [0%nat] /\
  like_grad_1d (K:=RNum) y t r 1 m s = Ok (gm, gs, gr) /\ nth 0 gr 0 <> D.
Proof. exact like_1d_dr_witness. Qed.
Print Assumptions C27_noise_gradient_refuted.
(** two observations at one time: only the last one reaches the gradient *)
Theorem C27_repeated_times_refuted :
  exists y t r m s gm gs gr D (e : R -> R),
  0 < r /\ t = [0%nat; 0%nat] /\ (forall x, obs_energy_1d y t r (lset 0 x m) s (e x)) /\ is_derive e (nth 0 m 0) D /\
  like_grad_1d (K:=RNum) y t r 1 m s = Ok (gm, gs, gr) /\ nth 0 gm 0 <> D.
Proof. exact like_1d_dup_witness. Qed.
Print Assumptions C27_repeated_times_refuted.
(** an operator other than 1: the energy ignores it *)
Theorem C27_operator_refuted :
  exists y t r h m s v e,
  0 < r /\ like_op_1d (K:=RNum) y (Some h) = Ok h /\ obs_energy_1d_op h y t r m s e /\
  like_1d (K:=RNum) ln PI y t r m s = Ok v /\ v <> e.
Proof. exact like_1d_op_witness. Qed.
Print Assumptions C27_operator_refuted.
Example C27_instance :
  like_1d (K:=RNum) ln PI [1; 4] [2%nat; 0%nat] 1 [3; 7; 5] [2; 1; 6] = Ok (25 / 2 + ln (2 * PI)).
Proof.
  rewrite like_1d_val; [|lra|reflexivity|reflexivity|repeat constructor]. f_equal. cbn. unfold lterm. rewrite ln_1. field.
Qed.

(** ** C28, n dimensions, default operator *)
(** The value, exactly: lines 143-145 add the inner product of the diagonals of R^-1 and of
    the j-th covariance where the expectation has the trace of R^-1 S(t_j). *)
Theorem C28_energy_partial :
  forall d (y : list (nat -> R)) t (Rn : nat -> nat -> R) (m : list (nat -> R)) (s : list (nat -> nat -> R)),
  symm d Rn -> posdef d Rn -> length y = length t -> length s = length m ->
  List.Forall (fun i => (i < length m)%nat) t -> NoDup t ->
  exists e Ri, obs_energy_nd d y t Rn m s e /\ is_inv d Rn Ri /\
  like_nd (K:=RNum) ln PI d y t Rn (meye (K:=RNum)) m s =
  Ok (e + 1 / 2 * Rsum (length t) (fun j =>
        Rsum d (fun i => Ri i i * nth j s zmat i i)
        - Rsum d (fun i => Rsum d (fun k => Ri i k * nth (nth j t O) s zmat i k)))).
Proof. exact like_nd_partial. Qed.
Print Assumptions C28_energy_partial.
(** Hence it is right for diagonal noise when the variances at the observation times are
    those of the first grid points (for instance constant in time). *)
Theorem C28_energy_right_partial :
  forall d (y : list (nat -> R)) t (Rn : nat -> nat -> R) (m : list (nat -> R)) (s : list (nat -> nat -> R)),
  symm d Rn -> posdef d Rn -> length y = length t -> length s = length m ->
  List.Forall (fun i => (i < length m)%nat) t -> NoDup t ->
  (forall a b, (a < d)%nat -> (b < d)%nat -> a <> b -> Rn a b = 0) ->
  (forall j a, (j < length t)%nat -> (a < d)%nat -> nth j s zmat a a = nth (nth j t O) s zmat a a) ->
  exists e, obs_energy_nd d y t Rn m s e /\
  like_nd (K:=RNum) ln PI d y t Rn (meye (K:=RNum)) m s = Ok e.
Proof. exact like_nd_right. Qed.
Print Assumptions C28_energy_right_partial.
Theorem C28_energy_unique :
  forall d (y : list (nat -> R)) t (Rn : nat -> nat -> R) (m : list (nat -> R)) (s : list (nat -> nat -> R)) e e',
  symm d Rn -> posdef d Rn ->
  (forall j, (j < length t)%nat -> symm d (nth (nth j t O) s zmat) /\ posdef d (nth (nth j t O) s zmat)) ->
  obs_energy_nd d y t Rn m s e -> obs_energy_nd d y t Rn m s e' -> e = e'.
Proof.
  intros d y t Rn m s e e' H1 H2 Hs He He'.
  destruct (inv_ex d Rn H1 H2) as (Ri & HRi & _).
  exact (eq_trans (obs_nd_unique d y t Rn m s H1 H2 Ri e HRi Hs He) (eq_sym (obs_nd_unique d y t Rn m s H1 H2 Ri e' HRi Hs He'))).
Qed.
Print Assumptions C28_energy_unique.
(** identity noise, one observation at the second grid point: the covariance of the first
    one is used *)
Theorem C28_energy_index_refuted :
  exists y t Rn m s e v,
  symm 2 Rn /\ posdef 2 Rn /\ (forall a b, a <> b -> Rn a b = 0) /\ length y = length t /\ length s = length m /\
  List.Forall (fun i => (i < length m)%nat) t /\ NoDup t /\
  (forall k, (k < length m)%nat -> symm 2 (nth k s zmat) /\ posdef 2 (nth k s zmat)) /\
  obs_energy_nd 2 y t Rn m s e /\
  like_nd (K:=RNum) ln PI 2 y t Rn (meye (K:=RNum)) m s = Ok v /\ v <> e.
Proof. exact like_nd_index_witness. Qed.
Print Assumptions C28_energy_index_refuted.
(** every grid point observed, correlated noise: wrong trace *)
Theorem C28_energy_noise_refuted :
  exists y t Rn m s e v,
  symm 2 Rn /\ posdef 2 Rn /\ length y = length t /\ length s = length m /\ length m = length t /\
  List.Forall (fun i => (i < length m)%nat) t /\ NoDup t /\
  (forall k, (k < length m)%nat -> symm 2 (nth k s zmat) /\ posdef 2 (nth k s zmat)) /\
  obs_energy_nd 2 y t Rn m s e /\
  like_nd (K:=RNum) ln PI 2 y t Rn (meye (K:=RNum)) m s = Ok v /\ v <> e.
Proof. exact like_nd_full_witness. Qed.
Print Assumptions C28_energy_noise_refuted.
(** the gradients are the derivatives of the expected negative log-likelihood (not of the
    energy returned): of each mean component, and along every curve of covariances *)
Theorem C28_gradients :
  forall d (y : list (nat -> R)) t (Rn : nat -> nat -> R) (m : list (nat -> R)) (s : list (nat -> nat -> R)),
  symm d Rn -> posdef d Rn -> length y = length t -> length s = length m ->
  List.Forall (fun i => (i < length m)%nat) t -> NoDup t ->
  (forall k, (k < length m)%nat -> symm d (nth k s zmat) /\ posdef d (nth k s zmat)) ->
  exists gm gs sh,
  like_grad_nd (K:=RNum) d y t Rn (meye (K:=RNum)) m = Ok (gm, gs, sh) /\
  length gm = length m /\ length gs = length m /\
  forall k, (k < length m)%nat ->
  (forall i (e : R -> R), (i < d)%nat ->
     (forall x, obs_energy_nd d y t Rn (lset k (vset i x (nth k m zvec)) m) s (e x)) ->
     is_derive e (nth k m zvec i) (nth k gm zvec i)) /\
  (forall (Sg : R -> nat -> nat -> R) (Sg' : nat -> nat -> R) (x0 : R) (e : R -> R),
     Sg x0 = nth k s zmat ->
     (forall i j, (i < d)%nat -> (j < d)%nat -> is_derive (fun x => Sg x i j) x0 (Sg' i j)) ->
     locally x0 (fun x => symm d (Sg x) /\ posdef d (Sg x) /\ obs_energy_nd d y t Rn m (lset k (Sg x) s) (e x)) ->
     is_derive e x0 (Rsum d (fun i => Rsum d (fun j => nth k gs zmat i j * Sg' i j)))) /\
  (~ In k t -> nth k gm zvec = zvec /\ nth k gs zmat = zmat).
Proof. exact like_grad_nd_ok. Qed.
Print Assumptions C28_gradients.
Theorem C28_operator_default :
  forall (y : list (nat -> R)), like_op_nd (K:=RNum) y None = match y with nil => Err IndexError | _ => Ok ident end.
Proof. intros [|a y]; reflexivity. Qed.
Print Assumptions C28_operator_default.
Theorem C28_operator_given : forall (y : list (nat -> R)) H, like_op_nd (K:=RNum) y (Some H) = Ok H.
Proof. reflexivity. Qed.
Print Assumptions C28_operator_given.
(** wrong times and wrong numbers of observations, for matrix and vector operators *)
Theorem C28_errors :
  forall d (y : list (nat -> R)) (t : list nat) Rn H h (m : list (nat -> R)) (s : list (nat -> nat -> R)) e,
  (~ List.Forall (fun i => (i < length m)%nat) t /\ e = IndexError \/
   List.Forall (fun i => (i < length m)%nat) t /\ length y <> length t /\ length y <> 1%nat /\ length t <> 1%nat /\ e = ValueError) ->
  like_nd (K:=RNum) ln PI d y t Rn H m s = Err e /\ like_grad_nd (K:=RNum) d y t Rn H m = Err e /\
  like_nd_vec (K:=RNum) ln PI d y t Rn h m s = Err e /\ like_grad_nd_vec (K:=RNum) d y t Rn h m = Err e.
Proof. exact errors_nd. Qed.
Print Assumptions C28_errors.
(** a non-trivial instance: one observation of a two-dimensional state *)
Example C28_instance :
  exists e, obs_energy_nd 2 [fun i => INR i] [1%nat] ident [zvec; fun _ => 1] [mat2 1 0 0 2; mat2 1 (1/2) (1/2) 2] e /\
  like_nd (K:=RNum) ln PI 2 [fun i => INR i] [1%nat] ident (meye (K:=RNum)) [zvec; fun _ => 1] [mat2 1 0 0 2; mat2 1 (1/2) (1/2) 2] = Ok e.
Proof.
  apply C28_energy_right_partial; try reflexivity.
  - apply ident_symm.
  - apply ident_posdef.
  - repeat constructor.
  - repeat constructor; auto.
  - intros a b _ _ H. unfold ident. destruct (Nat.eqb_spec a b); [contradiction|reflexivity].
  - intros [|j] a Hj Ha; [|cbn in Hj; lia]. destruct a as [|[|a]]; cbn; try reflexivity; lia.
Qed.
