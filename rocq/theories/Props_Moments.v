(** * Properties C01 - C03: Gaussian moments. *)
From Coq Require Import ZArith Bool Reals List Lra Lia Arith String.
From Coquelicot Require Import Coquelicot.
From Verif Require Import Num Arr M_LinAlg M_Moments Spec_Gauss Spec_Format P_Moments P_Format.
Import ListNotations.
Local Open Scope R_scope.

(** ** C01 *)
Theorem C01_raw_moments :
  forall show n (m v : nat -> R) (k : nat),
  (k <= 8)%nat -> (forall i, (i < n)%nat -> 0 < v i) ->
  exists g out, gm_init (K:=RNum) show (A1 n m) (A1 n v) = Ok g /\
    gm_call g (Z.of_nat k) = Ok (A1 n out) /\
    forall i, (i < n)%nat -> E_normal (m i) (v i) (fun x => x ^ k) (out i).
Proof. exact moments_exact. Qed.
Print Assumptions C01_raw_moments.
Theorem C01_raw_moments_2d :
  forall show r c (m v : nat -> nat -> R) (k : nat),
  (1 <= k <= 8)%nat -> (forall i j, (i < r)%nat -> (j < c)%nat -> 0 < v i j) ->
  exists g out, gm_init (K:=RNum) show (A2 r c m) (A2 r c v) = Ok g /\
    gm_call g (Z.of_nat k) = Ok (A2 r c out) /\
    forall i j, (i < r)%nat -> (j < c)%nat -> E_normal (m i j) (v i j) (fun x => x ^ k) (out i j).
Proof. exact moments_exact2. Qed.
Print Assumptions C01_raw_moments_2d.
Theorem C01_scalar_input :
  forall (K : Num) show (m v : K),
  gm_init show (A0 m) (A0 v) = gm_init show (A1 1 (fun _ => m)) (A1 1 (fun _ => v)).
Proof. exact (@gm_scalars). Qed.
Print Assumptions C01_scalar_input.
(** the 4th moment of N(2, 3) is 16 + 72 + 27 *)
Example C01_instance : E_normal 2 3 (fun x => x ^ 4) 115.
Proof.
  destruct (C01_raw_moments (fun _ => ""%string) 1 (fun _ => 2) (fun _ => 3) 4) as (g & out & H1 & H2 & H3);
    [lia|intros; lra|].
  rewrite gm_vectors in H1. injection H1 as <-. injection H2 as <-. specialize (H3 0%nat ltac:(lia)).
  replace 115 with (@mom_elt RNum 4 2 3); [exact H3|]. unfold mom_elt. rnum. ring.
Qed.

(** ** C02 *)
(** [call_at i k ma va] is entry i of GaussianMoments(ma, va)(order=k); [put n i x m]
    is the array m with entry i replaced by x. *)
Theorem C02_dm :
  forall show n i (m v : nat -> R) k, (1 <= k <= 8)%nat -> (i < n)%nat ->
  exists d, dm_at show i (Z.of_nat k) (A1 n m) (A1 n v) = Ok d /\
  is_derive (fun x => call_at show i (Z.of_nat k) (put n i x m) (A1 n v)) (m i) d.
Proof. exact dm_correct. Qed.
Print Assumptions C02_dm.
Theorem C02_ds :
  forall show n i (m v : nat -> R) k, (1 <= k <= 8)%nat -> (i < n)%nat ->
  exists d, ds_at show i (Z.of_nat k) (A1 n m) (A1 n v) = Ok d /\
  is_derive (fun x => call_at show i (Z.of_nat k) (A1 n m) (put n i x v)) (v i) d.
Proof. exact ds_correct. Qed.
Print Assumptions C02_ds.
Theorem C02_local :
  forall show n i j (m v : nat -> R) k x, (k <= 8)%nat -> i <> j ->
  call_at show i (Z.of_nat k) (put n j x m) (A1 n v) = call_at show i (Z.of_nat k) (A1 n m) (A1 n v) /\
  call_at show i (Z.of_nat k) (A1 n m) (put n j x v) = call_at show i (Z.of_nat k) (A1 n m) (A1 n v).
Proof. exact call_local. Qed.
Print Assumptions C02_local.
Example C02_instance :
  is_derive (fun x => call_at (fun _ => ""%string) 0 3 (put 1 0 x (fun _ => 2)) (A1 1 (fun _ => 5))) 2 27.
Proof.
  destruct (C02_dm (fun _ => ""%string) 1 0 (fun _ => 2) (fun _ => 5) 3) as (d & H1 & H2); try lia.
  injection H1 as <-. cbn [elt1] in H2.
  replace 27 with (@dm_elt RNum 3 2 5); [exact H2|]. unfold dm_elt. rnum. ring.
Qed.

(** ** C03 *)
Theorem C03_order :
  forall (K : Num) (g : GM K) (k : Z),
  (gm_call g k = Err ValueError <-> ~ (0 <= k <= 8)%Z) /\
  (gm_dm g k = Err ValueError <-> ~ (1 <= k <= 8)%Z) /\
  (gm_ds g k = Err ValueError <-> ~ (1 <= k <= 8)%Z) /\
  ((0 <= k <= 8)%Z -> exists a, gm_call g k = Ok a) /\
  ((1 <= k <= 8)%Z -> (exists a, gm_dm g k = Ok a) /\ exists a, gm_ds g k = Ok a).
Proof. exact order_errors. Qed.
Print Assumptions C03_order.
Theorem C03_shapes_match :
  forall (K : Num) show (m v : arr K),
  shape (atleast_1d m) = shape (atleast_1d v) ->
  exists g, gm_init show m v = Ok g /\ m_arr g = atleast_1d m /\ v_arr g = atleast_1d v.
Proof. exact match_ok. Qed.
Print Assumptions C03_shapes_match.
(** A mismatch never builds an object, but the exception is the wrong one: the format
    string of the message is malformed, so formatting it raises ValueError. *)
Theorem C03_mismatch_partial :
  forall (K : Num) show (m v : arr K),
  shape (atleast_1d m) <> shape (atleast_1d v) -> gm_init show m v = Err ValueError.
Proof. exact mismatch_error. Qed.
Print Assumptions C03_mismatch_partial.
Theorem C03_mismatch_refuted :
  exists (m v : arr RNum), forall show,
  shape (atleast_1d m) <> shape (atleast_1d v) /\ gm_init show m v <> Err RuntimeError.
Proof.
  exists (A1 2 (fun _ => 1)), (A1 3 (fun _ => 1)). intros show. split; [discriminate|].
  rewrite mismatch_error; discriminate.
Qed.
Print Assumptions C03_mismatch_refuted.
(** the model of str.format on which this rests: every format string with numbered and named places and with
    doubled braces *)
Theorem C03_format :
  forall (l : list piece) (args : list string), List.Forall well_formed l -> str_format (template l) args = filled l args.
Proof. exact str_format_filled. Qed.
Print Assumptions C03_format.
(** a brace without partner raises ValueError, unless a place before it fails *)
Theorem C03_format_stray :
  forall (l : list piece) (t : string) (args : list string), List.Forall well_formed l -> stray t ->
  str_format (template l ++ t) args = match filled l args with Ok _ => Err ValueError | Err e => Err e end.
Proof. exact str_format_stray. Qed.
Print Assumptions C03_format_stray.
Example C03_format_strays :
  str_format "{0}}"%string ["a"]%string = Err ValueError /\ str_format "{0}{"%string ["a"]%string = Err ValueError /\
  str_format "{1}}"%string ["a"]%string = Err IndexError /\ str_format "{{{{0"%string ["a"]%string = Ok "{{0"%string /\ str_format "{{{0"%string ["a"]%string = Err ValueError.
Proof. repeat split; reflexivity. Qed.
Example C03_format_places :
  str_format "{{{10}-{2}}}"%string ["a"; "b"; "c"; "d"; "e"; "f"; "g"; "h"; "i"; "j"; "k"]%string = Ok "{k-c}"%string /\
  str_format "{1}{x}"%string ["a"]%string = Err IndexError /\ str_format "{0}{x}"%string ["a"]%string = Err KeyError.
Proof. repeat split; reflexivity. Qed.
(** the parser accepts the message once the brace is repaired *)
Example C03_format_instance :
  str_format " {0}: {1} != {2}"%string ["A"; "B"; "C"]%string = Ok " A: B != C"%string.
Proof. reflexivity. Qed.
