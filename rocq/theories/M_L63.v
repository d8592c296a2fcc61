(** * Model of src/dynamics/lorenz_63.py: l63, energy_dm_ds, Efg_drift_theta, energy.
    Definitions only.

    A 3-vector is a function of the index, of which 0, 1, 2 are read; unpacking
    `x, y, z = v` reads these.  Simplification: unpacking an array of another length
    (ValueError in Python) is not modelled. *)
From Coq Require Import ZArith List Bool Arith.
From Verif Require Import Num Arr M_LinAlg M_Utils M_Sde1.
Import ListNotations.

Section L63.
Context {K : Num}.
Local Open Scope num_scope.

Definition vec3 (x y z : K) : vec K :=
  fun i => match i with O => x | 1%nat => y | 2%nat => z | _ => nZ 0 end.
Definition mat3 (r0 r1 r2 : vec K) : mat K :=
  fun i => match i with O => r0 | 1%nat => r1 | 2%nat => r2 | _ => fun _ => nZ 0 end.

(** lines 9-34 *)
Definition l63 (state u : vec K) : vec K :=
  let x := state 0%nat in let y := state 1%nat in let z := state 2%nat in
  let sigma := u 0%nat in let rho := u 1%nat in let beta := u 2%nat in
  vec3 (sigma * (y - x)) ((rho - z) * x - y) (x * y - beta * z).

(** lines 348-570 *)
Definition energy_dm_ds (theta : vec K) (at_ : mat K) (bt mt : vec K) (st : mat K)
  (diag_sig_inv : vec K) : vec K * vec K * mat K :=
  let vS := theta 0%nat in let vR := theta 1%nat in let vB := theta 2%nat in
  let A11 := at_ 0%nat 0%nat in let A12 := at_ 0%nat 1%nat in let A13 := at_ 0%nat 2%nat in
  let A21 := at_ 1%nat 0%nat in let A22 := at_ 1%nat 1%nat in let A23 := at_ 1%nat 2%nat in
  let A31 := at_ 2%nat 0%nat in let A32 := at_ 2%nat 1%nat in let A33 := at_ 2%nat 2%nat in
  let b1 := bt 0%nat in let b2 := bt 1%nat in let b3 := bt 2%nat in
  let mx := mt 0%nat in let my := mt 1%nat in let mz := mt 2%nat in
  let Sxx := st 0%nat 0%nat in let Sxy := st 0%nat 1%nat in let Sxz := st 0%nat 2%nat in
  let Syy := st 1%nat 1%nat in let Syz := st 1%nat 2%nat in
  let Szz := st 2%nat 2%nat in
  (* lines 393-398 *)
  let Exx := Sxx + npow mx 2 in
  let Exy := Sxy + mx * my in
  let Exz := Sxz + mx * mz in
  let Eyy := Syy + npow my 2 in
  let Eyz := Syz + my * mz in
  let Ezz := Szz + npow mz 2 in
  (* lines 401-405 *)
  let Exxy := Sxx * my + nZ 2 * Sxy * mx + npow mx 2 * my in
  let Exxz := Sxx * mz + nZ 2 * Sxz * mx + npow mx 2 * mz in
  let Exyy := Syy * mx + nZ 2 * Sxy * my + npow my 2 * mx in
  let Exzz := Szz * mx + nZ 2 * Sxz * mz + npow mz 2 * mx in
  let Exyz := Sxy * mz + Sxz * my + Syz * mx + mx * my * mz in
  (* lines 408-411 *)
  let Exxyy := Sxx * (npow my 2 + Syy) + Syy * npow mx 2
               + nZ 4 * Sxy * mx * my + npow (mx * my) 2 + nZ 2 * npow Sxy 2 in
  let Exxzz := Sxx * (npow mz 2 + Szz) + Szz * npow mx 2
               + nZ 4 * Sxz * mx * mz + npow (mx * mz) 2 + nZ 2 * npow Sxz 2 in
  (* lines 414-418 *)
  let EX := npow vS 2 * (Eyy + Exx - nZ 2 * Exy) + npow A11 2 * Exx + npow A12 2 * Eyy
            + npow A13 2 * Ezz + npow b1 2
            + nZ 2 * (A11 * A12 * Exy + A11 * A13 * Exz - b1 * A11 * mx
                      + A12 * A13 * Eyz - b1 * A12 * my - b1 * A13 * mz
                      + vS * (A11 * Exy + A12 * Eyy + A13 * Eyz - b1 * my
                              - A11 * Exx - A12 * Exy - A13 * Exz + b1 * mx)) in
  (* lines 420-426 *)
  let EY := npow vR 2 * Exx + Eyy + Exxzz + npow A21 2 * Exx + npow A22 2 * Eyy
            + npow A23 2 * Ezz + npow b2 2
            + nZ 2 * (Exyz - A21 * Exy - A22 * Eyy - A23 * Eyz
                      - A21 * Exxz - A22 * Exyz - A23 * Exzz
                      + A21 * A22 * Exy + A21 * A23 * Exz
                      + A22 * A23 * Eyz
                      - vR * (Exy + Exxz - A21 * Exx - A22 * Exy - A23 * Exz)
                      - b2 * (vR * mx - my - Exz + A21 * mx + A22 * my + A23 * mz)) in
  (* lines 428-432 *)
  let EZ := Exxyy + npow vB 2 * Ezz + npow A31 2 * Exx + npow A32 2 * Eyy + npow A33 2 * Ezz
            + npow b3 2
            + nZ 2 * (A31 * Exxy + A32 * Exyy + A33 * Exyz + A31 * A32 * Exy
                      + A31 * A33 * Exz + A32 * A33 * Eyz
                      - vB * (Exyz + A31 * Exz + A32 * Eyz + A33 * Ezz)
                      - b3 * (Exy - vB * mz + A31 * mx + A32 * my + A33 * mz)) in
  let Efg := vec3 EX EY EZ in
  (* lines 440-442 *)
  let dExx_dmx := nZ 2 * mx in let dExy_dmx := my in let dExz_dmx := mz in
  let dEyy_dmy := nZ 2 * my in let dExy_dmy := mx in let dEyz_dmy := mz in
  let dEzz_dmz := nZ 2 * mz in let dExz_dmz := mx in let dEyz_dmz := my in
  (* lines 446-447 *)
  let dExx_dSxx := nZ 1 in let dEyy_dSyy := nZ 1 in let dEzz_dSzz := nZ 1 in
  let dExy_dSxy := nZ 1 in let dExz_dSxz := nZ 1 in let dEyz_dSyz := nZ 1 in
  (* lines 451-463 *)
  let dExxy_dmx := nZ 2 * Exy in
  let dExxz_dmx := nZ 2 * Exz in
  let dExyy_dmx := Eyy in
  let dExzz_dmx := Ezz in
  let dExyz_dmx := Eyz in
  let dExxy_dmy := Exx in
  let dExyy_dmy := nZ 2 * Exy in
  let dExyz_dmy := Exz in
  let dExxz_dmz := Exx in
  let dExzz_dmz := nZ 2 * Exz in
  let dExyz_dmz := Exy in
  (* lines 467-477 *)
  let dExxy_dSxx := my in
  let dExxz_dSxx := mz in
  let dExxy_dSxy := nZ 2 * mx in
  let dExyy_dSxy := nZ 2 * my in
  let dExyz_dSxy := mz in
  let dExzz_dSxz := nZ 2 * mz in
  let dExyz_dSxz := my in
  let dExxz_dSxz := nZ 2 * mx in
  let dExyy_dSyy := mx in
  let dExyz_dSyz := mx in
  let dExzz_dSzz := mx in
  (* lines 480-487 *)
  let dExxyy_dmx := nZ 2 * Exyy in
  let dExxzz_dmx := nZ 2 * Exzz in
  let dExxyy_dmy := nZ 2 * Exxy in
  let dExxzz_dmz := nZ 2 * Exxz in
  let dExxyy_dSxx := Eyy in let dExxzz_dSxx := Ezz in let dExxyy_dSxy := nZ 4 * Exy in
  let dExxzz_dSxz := nZ 4 * Exz in let dExxyy_dSyy := Exx in let dExxzz_dSzz := Exx in
  (* lines 490-526 *)
  let dmx1 := dExx_dmx * (npow vS 2 + npow A11 2)
              + nZ 2 * (dExy_dmx * (- npow vS 2 + vS * A11 - vS * A12 + A11 * A12)
                        + dExz_dmx * (A11 - vS) * A13
                        - vS * A11 * dExx_dmx + b1 * (vS - A11)) in
  let dmx2 := dExxzz_dmx + dExx_dmx * (npow vR 2 + npow A21 2)
              + nZ 2 * (dExy_dmx * (- vR + vR * A22 - A21 + A21 * A22)
                        + dExz_dmx * (vR * A23 + b2 + A21 * A23) + dExyz_dmx * (nZ 1 - A22) - vR * dExxz_dmx
                        + vR * A21 * dExx_dmx - A21 * dExxz_dmx - A23 * dExzz_dmx - b2 * (vR + A21)) in
  let dmx3 := dExxyy_dmx + npow A31 2 * dExx_dmx
              + nZ 2 * (dExy_dmx * (A31 * A32 - b3) + dExz_dmx * (A33 - vB) * A31
                        + dExyz_dmx * (A33 - vB) + A31 * dExxy_dmx
                        + A32 * dExyy_dmx - A31 * b3) in
  let dmy1 := dEyy_dmy * (npow vS 2 + npow A12 2)
              + nZ 2 * (dExy_dmy * (- npow vS 2 + vS * A11 - vS * A12 + A11 * A12)
                        + dEyz_dmy * (vS + A12) * A13
                        + vS * A12 * dEyy_dmy - b1 * (vS + A12)) in
  let dmy2 := dEyy_dmy * (nZ 1 + npow A22 2)
              + nZ 2 * (dExy_dmy * (- vR + vR * A22 - A21 + A21 * A22)
                        + dExyz_dmy * (nZ 1 - A22) - A22 * dEyy_dmy
                        + dEyz_dmy * (A22 * A23 - A23) + b2 * (nZ 1 - A22)) in
  let dmy3 := dExxyy_dmy + npow A32 2 * dEyy_dmy
              + nZ 2 * (dExyz_dmy * (A33 - vB) + A31 * dExxy_dmy + A32 * dExyy_dmy
                        + dExy_dmy * (A31 * A32 - b3) + dEyz_dmy * (A33 - vB) * A32 - A32 * b3) in
  let dmz1 := npow A13 2 * dEzz_dmz
              + nZ 2 * (dEyz_dmz * (vS + A12) + dExz_dmz * (A11 - vS) - b1) * A13 in
  let dmz2 := dExxzz_dmz + npow A23 2 * dEzz_dmz
              + nZ 2 * (dExxz_dmz * (- vR - A21) + dExz_dmz * (vR * A23 + b2 + A21 * A23)
                        + dExyz_dmz * (nZ 1 - A22) + dEyz_dmz * (A22 * A23 - A23) - A23 * (dExzz_dmz + b2)) in
  let dmz3 := dEzz_dmz * (npow vB 2 + npow A33 2)
              + nZ 2 * ((A33 - vB) * (dExyz_dmz + dExz_dmz * A31 + dEyz_dmz * A32 - b3)
                        - vB * A33 * dEzz_dmz) in
  (* lines 529-531 *)
  let dEsde_dm : vec K := fun i => nlit 1 2 *
        mvec 3 (mat3 (vec3 dmx1 dmx2 dmx3) (vec3 dmy1 dmy2 dmy3) (vec3 dmz1 dmz2 dmz3)) diag_sig_inv i in
  let iSx := diag_sig_inv 0%nat in let iSy := diag_sig_inv 1%nat in let iSz := diag_sig_inv 2%nat in
  (* lines 537-561 *)
  let dSxx := iSx * npow (vS - A11) 2 * dExx_dSxx
              + iSy * (dExxzz_dSxx + dExx_dSxx * npow (vR + A21) 2 - nZ 2 * dExxz_dSxx * (vR + A21))
              + iSz * (dExxyy_dSxx + npow A31 2 * dExx_dSxx + nZ 2 * A31 * dExxy_dSxx) in
  let dSxy := iSx * nZ 2 * (vS * A11 - npow vS 2 - vS * A12 + A11 * A12) * dExy_dSxy
              + iSy * nZ 2 * (dExy_dSxy * (vR * A22 - vR - A21 + A21 * A22) + dExyz_dSxy * (nZ 1 - A22))
              + iSz * (dExxyy_dSxy + nZ 2 * (dExyz_dSxy * (A33 - vB) + A31 * dExxy_dSxy
                                             + A32 * dExyy_dSxy + dExy_dSxy * (A31 * A32 - b3))) in
  let dSxz := iSx * nZ 2 * (A11 - vS) * A13 * dExz_dSxz
              + iSy * (dExxzz_dSxz + nZ 2 * (dExz_dSxz * (vR * A23 + b2 + A21 * A23)
                                             + dExyz_dSxz * (nZ 1 - A22) - dExxz_dSxz * (vR + A21)
                                             - A23 * dExzz_dSxz))
              + iSz * nZ 2 * (dExz_dSxz * (A33 - vB) * A31 + dExyz_dSxz * (A33 - vB)) in
  let dSyy := iSx * npow (vS + A12) 2 * dEyy_dSyy + iSy * npow (nZ 1 - A22) 2 * dEyy_dSyy
              + iSz * (dExxyy_dSyy + npow A32 2 * dEyy_dSyy + nZ 2 * A32 * dExyy_dSyy) in
  let dSyz := iSx * nZ 2 * (vS + A12) * A13 * dEyz_dSyz
              + iSy * nZ 2 * (dExyz_dSyz * (nZ 1 - A22) + dEyz_dSyz * (A22 - nZ 1) * A23)
              + iSz * nZ 2 * (dExyz_dSyz * (A33 - vB) + dEyz_dSyz * (A33 - vB) * A32) in
  let dSzz := iSx * npow A13 2 * dEzz_dSzz
              + iSy * (dExxzz_dSzz + npow A23 2 * dEzz_dSzz - nZ 2 * A23 * dExzz_dSzz)
              + iSz * npow (vB - A33) 2 * dEzz_dSzz in
  (* lines 564-566 *)
  let dEsde_ds : mat K := fun i j => nlit 1 2 *
        mat3 (vec3 dSxx dSxy dSxz) (vec3 dSxy dSyy dSyz) (vec3 dSxz dSyz dSzz) i j in
  (Efg, dEsde_dm, dEsde_ds).

(** lines 572-633 *)
Definition Efg_drift_theta (theta : vec K) (at_ : mat K) (bt mt : vec K) (st : mat K) : vec K :=
  let vS := theta 0%nat in let vR := theta 1%nat in let vB := theta 2%nat in
  let A11 := at_ 0%nat 0%nat in let A12 := at_ 0%nat 1%nat in let A13 := at_ 0%nat 2%nat in
  let A21 := at_ 1%nat 0%nat in let A22 := at_ 1%nat 1%nat in let A23 := at_ 1%nat 2%nat in
  let A31 := at_ 2%nat 0%nat in let A32 := at_ 2%nat 1%nat in let A33 := at_ 2%nat 2%nat in
  let b1 := bt 0%nat in let b2 := bt 1%nat in let b3 := bt 2%nat in
  let mx := mt 0%nat in let my := mt 1%nat in let mz := mt 2%nat in
  let Sxx := st 0%nat 0%nat in let Sxy := st 0%nat 1%nat in let Sxz := st 0%nat 2%nat in
  let Syy := st 1%nat 1%nat in let Syz := st 1%nat 2%nat in
  let Szz := st 2%nat 2%nat in
  let Exx := Sxx + npow mx 2 in
  let Exy := Sxy + mx * my in
  let Eyy := Syy + npow my 2 in
  let Exz := Sxz + mx * mz in
  let Ezz := Szz + npow mz 2 in
  let Eyz := Syz + my * mz in
  let Exxz := Sxx * mz + nZ 2 * Sxz * mx + npow mx 2 * mz in
  let Exyz := Sxy * mz + Sxz * my + Syz * mx + mx * my * mz in
  let V1 := Eyy * (vS + A12) + Exx * (vS - A11) + Exy * (A11 - nZ 2 * vS - A12)
            + A13 * (Eyz - Exz) + b1 * (mx - my) in
  let V2 := vR * Exx - Exy - Exxz + A21 * Exx + A22 * Exy + A23 * Exz - b2 * mx in
  let V3 := - Exyz + vB * Ezz - A31 * Exz - A32 * Eyz - A33 * Ezz + b3 * mz in
  vec3 V1 V2 V3.

(** line 319-321 *)
Definition l63_Ef (theta mt : vec K) (st : mat K) : vec K :=
  let v_sigma := theta 0%nat in let v_rho := theta 1%nat in let v_beta := theta 2%nat in
  vec3 (v_sigma * (mt 1%nat - mt 0%nat))
       (v_rho * mt 0%nat - mt 1%nat - st 2%nat 0%nat - mt 0%nat * mt 2%nat)
       (st 1%nat 0%nat + mt 0%nat * mt 1%nat - v_beta * mt 2%nat).
(** lines 324-326 *)
Definition l63_Edf (theta mt : vec K) : mat K :=
  let v_sigma := theta 0%nat in let v_rho := theta 1%nat in let v_beta := theta 2%nat in
  mat3 (vec3 (- v_sigma) v_sigma (nZ 0))
       (vec3 (v_rho - mt 2%nat) (- nZ 1) (- mt 0%nat))
       (vec3 (mt 1%nat) (mt 0%nat) (- v_beta)).

(** What energy() returns in the multivariate systems. *)
Record EnergyN := mkEnergyN {
  n_sde : K; n_f : list (vec K); n_df : list (mat K);
  n_dm : list (vec K); n_ds : list (mat K); n_dth : vec K; n_dsig : mat K }.

(** lines 237-346.  The arrays over time are lists, read up to the shortest (the code
    reads time_window.size entries). *)
Definition l63_energy (theta : vec K) (inv_sigma : mat K) (dt : K)
  (lin_a : list (mat K)) (off_b m : list (vec K)) (s : list (mat K))
  (obs : option (list nat)) : EnergyN :=
  let dsi := diagv inv_sigma in
  let pts := map4 (fun a b m s => energy_dm_ds theta a b m s dsi) lin_a off_b m s in
  let efg := map (fun p => fst (fst p)) pts in
  let esde := map (fun p => nlit 1 2 * vdot 3 dsi (fst (fst p))) pts in
  let dth := map4 (Efg_drift_theta theta) lin_a off_b m s in
  {| n_sde := my_trapz (V := scalV K) esde dt obs;
     n_f := map2 (l63_Ef theta) m s;
     n_df := map (l63_Edf theta) m;
     n_dm := map (fun p => snd (fst p)) pts;
     n_ds := map (fun p => snd p) pts;
     n_dth := vhad dsi (my_trapz (V := vecV K) dth dt obs);
     n_dsig := mmul 3 (mmul 3 (mscale (- nlit 1 2) inv_sigma)
                              (mdiag (my_trapz (V := vecV K) efg dt obs))) inv_sigma |}.
End L63.
Arguments EnergyN K : clear implicits.
