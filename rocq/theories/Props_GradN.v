(** * Property C31 for Lorenz 63: free_energy against gradient() in three dimensions. *)
From Coq Require Import ZArith Reals Lra Lia Arith Bool List Sorted FunctionalExtensionality.
From Coquelicot Require Import Coquelicot.
From Verif Require Import Num Arr M_LinAlg M_Utils M_Ode M_Moments M_Sde1 M_L63 M_Prior M_Like M_VarGP
  Spec_Utils Spec_Gauss Spec_GaussN Spec_Sde1 Spec_L63 Spec_Prior Spec_VarGP Spec_GradN
  P_RMat P_Det P_Oper P_L63 P_SimN P_GradN P_GradN2 P_GradN3 P_GradL63 P_GradL63T.
Import ListNotations.
Local Open Scope R_scope.

(** VarGP with the Lorenz-63 model and the Euler solver; C is the noise matrix, P its inverse,
    all coordinates are observed *)
Notation vgp63 n dt th P C s0 m0 mu tau Rn y t :=
  (vgpn (K:=RNum) ln PI (fun a b m s o => Ok (l63_energy (K:=RNum) th P dt a b m s o)) Euler n 3 dt C P m0 s0 mu tau y t Rn (meye (K:=RNum))).

(** free_energy and gradient() side by side, in any direction u. The derivative of free_energy
    is the trapezoidal sum of the energy derivatives de plus the observation terms (the
    covariance terms of observation j read the covariance at grid point j instead of t_j, C28).
    gradient() gives the rectangle sum, the observation terms one grid point late, the mean
    sensitivities with the transposed A, and the entries of es below the diagonal once more. *)
Theorem C31_l63_comparison_partial :
  forall n dt (th : nat -> R) (P C s0 : nat -> nat -> R) (m0 mu : nat -> R) (tau Rn : nat -> nat -> R) (y : list (nat -> R)) (t : list nat) (x : list R),
  diag_only 3 P -> well_posed n 3 C s0 tau Rn y t x -> forall s u,
  let E := vgp63 n dt th P C s0 m0 mu tau Rn y t in
  let a := part_a 3 (entry x) in let b := part_b n 3 (entry x) in
  let ua := part_a 3 u in let ub := part_b n 3 u in
  let am := fun h k i j => a k i j + h * ua k i j in let bm := fun h k i => b k i + h * ub k i in
  let m := path_mn 3 dt a b m0 in let S := path_sn 3 dt a C s0 in
  let tm := transposed_dm 3 dt a m ua ub in
  exists e em es (g : list R) gm gs (Ri : nat -> nat -> R) (F : R -> R) (de : nat -> R) (dm : nat -> nat -> R) (ds : nat -> nat -> nat -> R),
  energy63 th P e em es /\
  is_inv 3 Rn Ri /\ fst (gradient E x true s) = Ok g /\ length g = length x /\
  (forall h s', fst (free_energy E (moved x u h) s') = Ok (F h)) /\
  obs_slopes 3 Ri y t m gm gs /\
  (forall k i, is_derive (fun h => path_mn 3 dt (am h) (bm h) m0 k i) 0 (dm k i)) /\
  (forall k i j, is_derive (fun h => path_sn 3 dt (am h) C s0 k i j) 0 (ds k i j)) /\
  (forall k, is_derive (fun h => e (am h k) (bm h k) (path_mn 3 dt (am h) (bm h) m0 k) (path_sn 3 dt (am h) C s0 k)) 0 (de k)) /\
  is_derive F 0 (trap n de dt + Rsum (length t) (fun j => dot 3 (gm (nth j t O)) (dm (nth j t O)))
     + 1 / 2 * Rsum (length t) (fun j => Rsum 3 (fun i => Ri i i * ds j i i))) /\
  Rsum (length g) (fun q => entry g q * u q) =
    dt * Rsum n (fun k => de k + dot 3 (em (a k) (b k) (m k) (S k)) (fun i => tm k i - dm k i)
                          + dot_below 3 (es (a k) (b k) (m k) (S k)) (ds k))
    + Rsum (n - 1) (fun k => dot 3 (gm k) (tm (k + 1)%nat) + dots 3 (gs k) (ds (k + 1)%nat)).
Proof.
  intros n dt th P C s0 m0 mu tau Rn y t x HP W s u. cbv zeta.
  exists (de63 th (fun i => P i i)), (em63 th (fun i => P i i)), (es63 th (fun i => P i i)).
  destruct (l63_comparison n dt th P C s0 m0 mu tau Rn y t x HP W s u) as (g & gm & gs & Ri & F & de & dm & ds & H).
  exists g, gm, gs, Ri, F, de, dm, ds. split; [apply energy63_ok; exact HP|exact H].
Qed.
Print Assumptions C31_l63_comparison_partial.

(** When all matrices a are symmetric: gradient() is the gradient of the rectangle objective up
    to the doubled covariance entries, and exactly so in the directions that move only b. *)
Theorem C31_l63_partial :
  forall n dt (th : nat -> R) (P C s0 : nat -> nat -> R) (m0 mu : nat -> R) (tau Rn : nat -> nat -> R) (y : list (nat -> R)) (t : list nat) (x : list R),
  diag_only 3 P -> well_posed n 3 C s0 tau Rn y t x -> forall s,
  let E := vgp63 n dt th P C s0 m0 mu tau Rn y t in
  let a := part_a 3 (entry x) in let b := part_b n 3 (entry x) in
  let m := path_mn 3 dt a b m0 in let S := path_sn 3 dt a C s0 in
  (forall k, (k < n)%nat -> symm 3 (a k)) ->
  exists e em es (g : list R) gm gs (Ri : nat -> nat -> R),
  energy63 th P e em es /\ is_inv 3 Rn Ri /\ fst (gradient E x true s) = Ok g /\ length g = length x /\
  obs_slopes 3 Ri y t m gm gs /\
  forall u,
  let am := fun h k i j => a k i j + h * part_a 3 u k i j in let bm := fun h k i => b k i + h * part_b n 3 u k i in
  let pairing := Rsum (length g) (fun q => entry g q * u q) in
  (exists ds : nat -> nat -> nat -> R,
   (forall k i j, is_derive (fun h => path_sn 3 dt (am h) C s0 k i j) 0 (ds k i j)) /\
   is_derive (fun h => rect_objective_n 3 e n dt C m0 s0 gm gs (am h) (bm h)) 0
    (pairing - dt * Rsum n (fun k => dot_below 3 (es (a k) (b k) (m k) (S k)) (ds k)))) /\
  ((forall k i j, (k < n)%nat -> (i < 3)%nat -> (j < 3)%nat -> part_a 3 u k i j = 0) ->
   is_derive (fun h => rect_objective_n 3 e n dt C m0 s0 gm gs (am h) (bm h)) 0 pairing).
Proof.
  intros n dt th P C s0 m0 mu tau Rn y t x HP W s. cbv zeta. intros Hsy.
  exists (de63 th (fun i => P i i)), (em63 th (fun i => P i i)), (es63 th (fun i => P i i)).
  destruct (l63_rect n dt th P C s0 m0 mu tau Rn y t x HP W s Hsy) as (g & gm & gs & Ri & H1 & H2 & H3 & H4 & H5).
  exists g, gm, gs, Ri. split; [apply energy63_ok; exact HP|]. split; [exact H1|]. split; [exact H2|]. split; [exact H3|]. split; [exact H4|].
  intros u. destruct (H5 u) as (ds & D1 & D2 & D3). split; [exists ds; split; [exact D1|exact D3]|].
  intros Hu. eapply d_eq; [exact D3|]. rewrite (Rsum_zero n); [ring|].
  intros k Hk. apply below_z. apply D2; [|exact Hk]. intros k' Hk' i j Hi Hj. apply Hu; assumption.
Qed.
Print Assumptions C31_l63_partial.

(** consequence: for every Lorenz-63 problem with at least two grid points, every entry of
    gradient() for the last A and the last b is twice the derivative of free_energy *)
Theorem C31_last_entry_l63_refuted :
  forall n dt (th : nat -> R) (P C s0 : nat -> nat -> R) (m0 mu : nat -> R) (tau Rn : nat -> nat -> R) (y : list (nat -> R)) (t : list nat) (x : list R),
  diag_only 3 P -> well_posed n 3 C s0 tau Rn y t x -> (2 <= n)%nat -> forall s q,
  ((n - 1) * 9 <= q /\ q < n * 9 \/ n * 9 + (n - 1) * 3 <= q /\ q < n * 12)%nat ->
  let E := vgp63 n dt th P C s0 m0 mu tau Rn y t in
  exists (g : list R) (F : R -> R), fst (gradient E x true s) = Ok g /\
  (forall h s', fst (free_energy E (moved x (unit_at q) h) s') = Ok (F h)) /\
  is_derive F 0 (entry g q / 2).
Proof.
  intros n dt th P C s0 m0 mu tau Rn y t x HP W H2 s q Hq. cbv zeta.
  destruct (l63_last n dt th P C s0 m0 mu tau Rn y t x HP W s q H2 Hq) as (g & F & E1 & E2 & E3 & _). exists g, F. auto.
Qed.
Print Assumptions C31_last_entry_l63_refuted.


(** and a case where it is not zero *)
Theorem C31_l63_refuted :
  exists (g : list R) (F : R -> R) D,
  let E := vgp63 2 1 (fun _ => 1) ident ident ident (fun _ => 0) (fun _ => 0) ident ident [] [] in
  well_posed 2 3 ident ident ident ident [] [] (x0 1) /\
  fst (gradient E (x0 1) true None) = Ok g /\
  (forall h, fst (free_energy E (moved (x0 1) (unit_at 21) h) None) = Ok (F h)) /\
  is_derive F 0 D /\ entry g 21 <> D.
Proof.
  destruct (x0_last None) as (g & F & H1 & H2 & H3 & H4). exists g, F, (1 / 2). cbv zeta.
  split; [apply x0_ok|]. split; [exact H1|]. split; [intros h; apply H2|]. split; [exact H3|]. rewrite H4. lra.
Qed.
Print Assumptions C31_l63_refuted.

(** the doubled covariance entries: at a = 0, b = 0 without observations the second entry of
    gradient() is not the derivative of the rectangle objective either *)
Theorem C31_l63_covariance_refuted :
  exists e em es (g : list R) D, energy63 th100 ident e em es /\
  let E := vgp63 2 1 th100 ident ident ident (fun _ => 0) (fun _ => 0) ident ident [] [] in
  let a := part_a 3 (entry (x0 0)) in let b := part_b 2 3 (entry (x0 0)) in
  well_posed 2 3 ident ident ident ident [] [] (x0 0) /\
  fst (gradient E (x0 0) true None) = Ok g /\
  is_derive (fun h => rect_objective_n 3 e 2 1 ident (fun _ => 0) ident (fun _ _ => 0) (fun _ _ _ => 0)
    (fun k i j => a k i j + h * part_a 3 (unit_at 1) k i j) (fun k i => b k i + h * part_b 2 3 (unit_at 1) k i)) 0 D /\
  entry g 1 = D + 1.
Proof.
  exists (de63 th100 (fun i => ident i i)), (em63 th100 (fun i => ident i i)), (es63 th100 (fun i => ident i i)).
  destruct (x0_cov None) as (g & D & H1 & H2 & H3). exists g, D. split; [apply energy63_ok, ident_diag|]. cbv zeta.
  split; [apply x0_ok|]. split; [exact H1|]. split; [exact H2|exact H3].
Qed.
Print Assumptions C31_l63_covariance_refuted.
