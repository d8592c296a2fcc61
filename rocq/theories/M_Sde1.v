(** * Model of the one-dimensional energies: ornstein_uhlenbeck.py:165-232 and
    double_well.py:169-260.  Definitions only.

    numpy's element-wise arithmetic on arrays over the time grid is written point by
    point; [mom_elt], [dm_elt], [ds_elt] (M_Moments.v) are the entries of the arrays
    returned by the GaussianMoments object created in the method.  Arrays of different
    lengths are cut to the shortest (numpy raises a broadcasting error). *)
From Coq Require Import ZArith List Bool Arith.
From Verif Require Import Num Arr M_LinAlg M_Utils M_Moments.
Import ListNotations.

Section Sde1.
Context {K : Num}.
Local Open Scope num_scope.

Fixpoint map4 {A B C D E} (f : A -> B -> C -> D -> E) (a : list A) (b : list B)
  (c : list C) (d : list D) : list E :=
  match a, b, c, d with
  | a0 :: a', b0 :: b', c0 :: c', d0 :: d' => f a0 b0 c0 d0 :: map4 f a' b' c' d'
  | _, _, _, _ => []
  end.

(** What energy() returns: Esde, (Ef, Edf), (dEsde_dm, dEsde_ds, dEsde_dtheta, dEsde_dsigma) *)
Record Energy1 := mkEnergy1 {
  e_sde : K; e_f : list K; e_df : list K;
  e_dm : list K; e_ds : list K; e_dth : K; e_dsig : K }.

(** trapezoidal integral of a scalar array *)
Definition trapz1 (fx : list K) (dt : K) (obs : option (list nat)) : K :=
  my_trapz (V := scalV K) fx dt obs.

(** ** Ornstein-Uhlenbeck *)
(** lines 198-205 *)
Definition ou_q (theta a b m s : K) : K :=
  let ex2 := mom_elt 2 m s in
  let q1 := npow (theta - a) 2 in
  ex2 * q1 + nZ 2 * m * (theta - a) * b + npow b 2.
(** lines 217-218 *)
Definition ou_dm (sigma theta a b m s : K) : K :=
  (m * npow (theta - a) 2 + theta * b - a * b) / sigma.
(** line 221 *)
Definition ou_ds (sigma theta a b m s : K) : K :=
  nlit 1 2 * npow (theta - a) 2 / sigma.
(** integrand of lines 224-225 *)
Definition ou_qth (theta a b m s : K) : K :=
  mom_elt 2 m s * (theta - a) + m * b.
Definition ou_energy (sigma theta dt : K) (lin_a off_b m s : list K)
  (obs : option (list nat)) : Energy1 :=
  let esde := nlit 1 2 * trapz1 (map4 (ou_q theta) lin_a off_b m s) dt obs / sigma in
  {| e_sde := esde;
     e_f := map (fun x => - theta * x) m;                                   (* line 211 *)
     e_df := map (fun _ => - theta * nZ 1) m;                               (* line 214 *)
     e_dm := map4 (ou_dm sigma theta) lin_a off_b m s;
     e_ds := map4 (ou_ds sigma theta) lin_a off_b m s;
     e_dth := trapz1 (map4 (ou_qth theta) lin_a off_b m s) dt obs / sigma;
     e_dsig := - esde / sigma |}.                                           (* line 228 *)

(** ** Double well *)
Definition dw_c (theta a : K) : K := nZ 4 * theta + a.                      (* line 199 *)
(** line 214 *)
Definition dw_q (theta a b m s : K) : K :=
  let c := dw_c theta a in
  let c2 := npow c 2 in
  nZ 8 * (mom_elt 6 m s - c * mom_elt 4 m s + b * mom_elt 3 m s)
  + c2 * mom_elt 2 m s - nZ 2 * b * c * m + npow b 2.
(** lines 243-245 *)
Definition dw_dm (sigma theta a b m s : K) : K :=
  let c := dw_c theta a in
  let c2 := npow c 2 in
  nlit 1 2 * (nZ 16 * dm_elt 6 m s - nZ 8 * c * dm_elt 4 m s + nZ 8 * b * dm_elt 3 m s
              + c2 * dm_elt 2 m s - nZ 2 * b * c) / sigma.
(** lines 248-249 *)
Definition dw_ds (sigma theta a b m s : K) : K :=
  let c := dw_c theta a in
  let c2 := npow c 2 in
  nlit 1 2 * (nZ 16 * ds_elt 6 m s - nZ 8 * c * ds_elt 4 m s + nZ 8 * b * ds_elt 3 m s
              + c2 * ds_elt 2 m s) / sigma.
(** integrand of lines 252-253 *)
Definition dw_qth (theta a b m s : K) : K :=
  dw_c theta a * mom_elt 2 m s - nZ 4 * mom_elt 4 m s - b * m.
Definition dw_energy (sigma theta dt : K) (lin_a off_b m s : list K)
  (obs : option (list nat)) : Energy1 :=
  let esde := nlit 1 2 * trapz1 (map4 (dw_q theta) lin_a off_b m s) dt obs / sigma in
  {| e_sde := esde;
     e_f := map2 (fun m s => nZ 4 * (theta * m - mom_elt 3 m s)) m s;       (* line 220 *)
     e_df := map2 (fun m s => nZ 4 * (theta - nZ 3 * mom_elt 2 m s)) m s;   (* line 223 *)
     e_dm := map4 (dw_dm sigma theta) lin_a off_b m s;
     e_ds := map4 (dw_ds sigma theta) lin_a off_b m s;
     e_dth := nZ 4 * trapz1 (map4 (dw_qth theta) lin_a off_b m s) dt obs / sigma;
     e_dsig := - esde / sigma |}.                                           (* line 256 *)
End Sde1.
Arguments Energy1 K : clear implicits.
