(** * Model of likelihood.py and gaussian_like.py.  Definitions only. *)
From Coq Require Import ZArith List Bool Arith.
From Verif Require Import Num Arr M_LinAlg.
Import ListNotations.

(** a[ix] for an array of indexes: IndexError when one is out of range.  Observation indexes
    are natural numbers (negative indexes are not modelled). *)
Fixpoint take {A} (l : list A) (ix : list nat) : result (list A) :=
  match ix with
  | [] => Ok []
  | i :: ix' =>
      match nth_error l i with
      | None => Err IndexError
      | Some a => let* r := take l ix' in Ok (a :: r)
      end
  end.
(** a[ix] = vals, one after the other: of two values for the same index the last one stays.
    It is used on arrays as long as one that [take] has accepted the same indexes for. *)
Fixpoint scatter {A} (ix : list nat) (vals : list A) (l : list A) : list A :=
  match ix, vals with
  | i :: ix', v :: vals' => scatter ix' vals' (upd i v l)
  | _, _ => l
  end.

Section Like.
Context {K : Num}.
Local Open Scope num_scope.
Variable nln : K -> K.            (* np.log *)
Variable npi : K.                 (* np.pi *)

(** gaussian_like.py:12 *)
Definition log2pi : K := nln (nZ 2 * npi).

(** likelihood.py:29-48: the operator stored by the constructor for 1-D observations (it is
    read off the first observation, so an empty array raises IndexError) and for rows of d
    observations *)
Definition like_op_1d (obs_y : list K) (op : option K) : result K :=
  match op with
  | Some h => Ok h
  | None => match obs_y with [] => Err IndexError | _ => Ok (nZ 1) end
  end.
Definition like_op_nd (obs_y : list (vec K)) (op : option (mat K)) : result (mat K) :=
  match op with
  | Some h => Ok h
  | None => match obs_y with [] => Err IndexError | _ => Ok meye end
  end.

(** Differences of arrays of different lengths raise ValueError (numpy would broadcast arrays
    of length one; that case is not modelled). *)
Definition same_len {A B} (l : list A) (r : list B) : result unit :=
  if Nat.eqb (length l) (length r) then Ok tt else Err ValueError.

(** gaussian_like.py:69-96 gauss_1d (the operator is not used) *)
Definition like_1d (obs_y : list K) (obs_t : list nat) (noise : K) (m s : list K) : result K :=
  let* mo := take m obs_t in
  let* so := take s obs_t in
  let Ex2 := map2 (fun x v => npow x 2 + v) mo so in
  let* _ := same_len obs_y mo in
  Ok (nlit 1 2 * suml (map3 (fun y x e => npow y 2 - nZ 2 * y * x + e) obs_y mo Ex2) / noise
      + nlit 1 2 * nZ (Z.of_nat (length obs_t)) * (log2pi + nln noise)).

(** gaussian_like.py:155-198 gradients_1d; [H] is the stored operator *)
Definition like_grad_1d (obs_y : list K) (obs_t : list nat) (noise H : K) (m s : list K)
  : result (list K * list K * list K) :=
  let* mo := take m obs_t in
  let* so := take s obs_t in
  let Ex2 := map2 (fun x v => npow x 2 + v) mo so in
  let* _ := same_len obs_y mo in
  let W := map2 (fun y x => y - H * x) obs_y mo in
  let zeros := repeat (nZ 0) (length m) in
  Ok (scatter obs_t (map (fun w => - w / noise) W) zeros,
      scatter obs_t (map (fun _ => nlit 1 2 / noise) obs_t) zeros,
      scatter obs_t
        (map3 (fun y x e => nlit (-1) 2 * (npow y 2 - nZ 2 * y * x + e + nZ 1) / noise) obs_y mo Ex2) zeros).

(** gaussian_like.py:139-146: the loop of gauss_nd.  [n] counts the observations; sn_diag is
    indexed by n (line 145), not by the time tn. *)
Fixpoint like_nd_loop (d : nat) (diag_inv_rn : vec K) (s : list (mat K)) (n : nat) (Z : list (vec K))
  (Eobs : K) : result K :=
  match Z with
  | [] => Ok Eobs
  | z :: Z' =>
      match nth_error s n with
      | None => Err IndexError
      | Some sn =>
          like_nd_loop d diag_inv_rn s (S n) Z' (Eobs + (vdot d z z + vdot d diag_inv_rn (diagv sn)))
      end
  end.
(** gaussian_like.py:98-153 gauss_nd, for rows of d observations and a d x d operator;
    dim_m is the number of rows, dim_o is d *)
Definition like_nd (d : nat) (obs_y : list (vec K)) (obs_t : list nat) (noise H : mat K)
  (m : list (vec K)) (s : list (mat K)) : result K :=
  let* mo := take m obs_t in
  let* _ := same_len obs_y mo in
  let W := map2 (fun y x => vecm d (vsubv y x) H) obs_y mo in
  let* (inv_rn, inv_chol_factor) := chol_inv_fast d noise in
  let Z := map (fun w => vecm d w (mtr inv_chol_factor)) W in
  let* Eobs := like_nd_loop d (diagv inv_rn) s 0 Z (nZ 0) in
  let* ld := log_det_mat nln d noise in
  Ok (nlit 1 2 * (Eobs + nZ (Z.of_nat (length obs_y)) * (nZ (Z.of_nat d) * log2pi + ld))).

(** gaussian_like.py:200-243 gradients_nd.  The third array is all zeros, of the shape given
    (line 214 takes the number of rows of obs_y for its number of columns). *)
Definition like_grad_nd (d : nat) (obs_y : list (vec K)) (obs_t : list nat) (noise H : mat K)
  (m : list (vec K)) : result (list (vec K) * list (mat K) * (nat * nat * nat)) :=
  let* mo := take m obs_t in
  let* _ := same_len obs_y mo in
  let W := map2 (fun y x => vecm d (vsubv y x) H) obs_y mo in
  let* (inv_rn, _) := chol_inv_fast d noise in
  let G := mmul d (mtr H) inv_rn in
  let n := length m in
  Ok (scatter obs_t (map (fun w => voppv (mvec d G w)) W) (repeat (fun _ => nZ 0) n),
      scatter obs_t (map (fun _ => mscale (nlit 1 2) (mmul d G H)) obs_t) (repeat (fun _ _ => nZ 0) n),
      (n, length obs_y, length obs_y)).

(** gauss_nd and gradients_nd for rows of d observations and an operator that is a vector of
    length d.  W then has one number for each row, so W.dot(inv_chol_factor.T) needs as many rows
    as columns; H.T is H, and line 238 assigns one number to all the entries of dEobs_ds[tn]. *)
Fixpoint like_nd_vec_loop (d : nat) (diag_inv_rn : vec K) (s : list (mat K)) (n : nat) (Z : list K) (Eobs : K) : result K :=
  match Z with
  | [] => Ok Eobs
  | z :: Z' =>
      match nth_error s n with
      | None => Err IndexError
      | Some sn => like_nd_vec_loop d diag_inv_rn s (S n) Z' (Eobs + (z * z + vdot d diag_inv_rn (diagv sn)))
      end
  end.
Definition like_nd_vec (d : nat) (obs_y : list (vec K)) (obs_t : list nat) (noise : mat K) (H : vec K)
  (m : list (vec K)) (s : list (mat K)) : result K :=
  let* mo := take m obs_t in
  let* _ := same_len obs_y mo in
  let W := map2 (fun y x => vdot d (vsubv y x) H) obs_y mo in
  let* (inv_rn, inv_chol_factor) := chol_inv_fast d noise in
  let* _ := if Nat.eqb (length W) d then Ok tt else Err ValueError in
  let Z := map (vecm d (fun i => nth i W (nZ 0)) (mtr inv_chol_factor)) (seq 0 d) in
  let* Eobs := like_nd_vec_loop d (diagv inv_rn) s 0 Z (nZ 0) in
  let* ld := log_det_mat nln d noise in
  Ok (nlit 1 2 * (Eobs + nZ (Z.of_nat (length obs_y)) * (nZ (Z.of_nat d) * log2pi + ld))).
Definition like_grad_nd_vec (d : nat) (obs_y : list (vec K)) (obs_t : list nat) (noise : mat K) (H : vec K)
  (m : list (vec K)) : result (list (vec K) * list (mat K) * (nat * nat * nat)) :=
  let* mo := take m obs_t in
  let* _ := same_len obs_y mo in
  let W := map2 (fun y x => vdot d (vsubv y x) H) obs_y mo in
  let* (inv_rn, _) := chol_inv_fast d noise in
  let G := vecm d H inv_rn in
  let n := length m in
  Ok (scatter obs_t (map (fun w => fun i => - (G i * w)) W) (repeat (fun _ => nZ 0) n),
      scatter obs_t (map (fun _ => fun _ _ => nlit 1 2 * vdot d G H) obs_t) (repeat (fun _ _ => nZ 0) n),
      (n, length obs_y, length obs_y)).
End Like.
