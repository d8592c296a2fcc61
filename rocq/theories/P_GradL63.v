(** * Lorenz 63 in the comparison of free_energy and gradient. *)
From Coq Require Import ZArith List Bool Arith Reals Lra Lia FunctionalExtensionality Sorted.
From Coquelicot Require Import Coquelicot.
From Verif Require Import Num Arr ArrFacts M_LinAlg M_Utils M_Ode M_Moments M_Sde1 M_L63 M_Prior M_Like M_VarGP
  Spec_Utils Spec_Gauss Spec_Sde1 Spec_L63 Spec_VarGP Spec_GradN P_Det P_Trapz P_Sde1 P_RMat P_L63 P_GradN P_GradN2.
Import ListNotations.
Local Open Scope R_scope.

Definition eb63 (th : nat -> R) (w : nat -> R) : dens (nat -> R) := fun A b m S i =>
   w i * (- l63_Ef (K:=RNum) th m S i - Rsum 3 (fun j => A i j * m j) + b i).
Definition ea63 (th : nat -> R) (w : nat -> R) : dens (nat -> nat -> R) := fun A b m S i j =>
   w i * Rsum 3 (fun l => (l63_Edf (K:=RNum) th m i l + A i l) * S l j) - eb63 th w A b m S i * m j.
Definition es63 (th : nat -> R) (w : nat -> R) : dens (nat -> nat -> R) := fun A b m S => Eds th A b m S w.
Definition em63 (th : nat -> R) (w : nat -> R) : dens (nat -> R) := fun A b m S => Edm th A b m S w.
Definition de63 (th : nat -> R) (w : nat -> R) : dens R := fun A b m S => e63 th A b m S w.

Lemma chain63s th w (fA00 fA01 fA02 fA10 fA11 fA12 fA20 fA21 fA22 fS00 fS01 fS02 fS11 fS12 fS22 fb0 fb1 fb2 fm0 fm1 fm2 : R -> R) (dA00 dA01 dA02 dA10 dA11 dA12 dA20 dA21 dA22 dS00 dS01 dS02 dS11 dS12 dS22 db0 db1 db2 dm0 dm1 dm2 : R) :
  is_derive fA00 0 dA00 ->
  is_derive fA01 0 dA01 ->
  is_derive fA02 0 dA02 ->
  is_derive fA10 0 dA10 ->
  is_derive fA11 0 dA11 ->
  is_derive fA12 0 dA12 ->
  is_derive fA20 0 dA20 ->
  is_derive fA21 0 dA21 ->
  is_derive fA22 0 dA22 ->
  is_derive fS00 0 dS00 ->
  is_derive fS01 0 dS01 ->
  is_derive fS02 0 dS02 ->
  is_derive fS11 0 dS11 ->
  is_derive fS12 0 dS12 ->
  is_derive fS22 0 dS22 ->
  is_derive fb0 0 db0 ->
  is_derive fb1 0 db1 ->
  is_derive fb2 0 db2 ->
  is_derive fm0 0 dm0 ->
  is_derive fm1 0 dm1 ->
  is_derive fm2 0 dm2 ->
  is_derive (fun t => e63 th (mat3 (K:=RNum) (vec3 (K:=RNum) (fA00 t) (fA01 t) (fA02 t)) (vec3 (K:=RNum) (fA10 t) (fA11 t) (fA12 t)) (vec3 (K:=RNum) (fA20 t) (fA21 t) (fA22 t))) (vec3 (K:=RNum) (fb0 t) (fb1 t) (fb2 t)) (vec3 (K:=RNum) (fm0 t) (fm1 t) (fm2 t)) (mat3 (K:=RNum) (vec3 (K:=RNum) (fS00 t) (fS01 t) (fS02 t)) (vec3 (K:=RNum) (fS01 t) (fS11 t) (fS12 t)) (vec3 (K:=RNum) (fS02 t) (fS12 t) (fS22 t))) w) 0
   (ea63 th w (mat3 (K:=RNum) (vec3 (K:=RNum) (fA00 0) (fA01 0) (fA02 0)) (vec3 (K:=RNum) (fA10 0) (fA11 0) (fA12 0)) (vec3 (K:=RNum) (fA20 0) (fA21 0) (fA22 0))) (vec3 (K:=RNum) (fb0 0) (fb1 0) (fb2 0)) (vec3 (K:=RNum) (fm0 0) (fm1 0) (fm2 0)) (mat3 (K:=RNum) (vec3 (K:=RNum) (fS00 0) (fS01 0) (fS02 0)) (vec3 (K:=RNum) (fS01 0) (fS11 0) (fS12 0)) (vec3 (K:=RNum) (fS02 0) (fS12 0) (fS22 0))) 0%nat 0%nat * dA00
    + ea63 th w (mat3 (K:=RNum) (vec3 (K:=RNum) (fA00 0) (fA01 0) (fA02 0)) (vec3 (K:=RNum) (fA10 0) (fA11 0) (fA12 0)) (vec3 (K:=RNum) (fA20 0) (fA21 0) (fA22 0))) (vec3 (K:=RNum) (fb0 0) (fb1 0) (fb2 0)) (vec3 (K:=RNum) (fm0 0) (fm1 0) (fm2 0)) (mat3 (K:=RNum) (vec3 (K:=RNum) (fS00 0) (fS01 0) (fS02 0)) (vec3 (K:=RNum) (fS01 0) (fS11 0) (fS12 0)) (vec3 (K:=RNum) (fS02 0) (fS12 0) (fS22 0))) 0%nat 1%nat * dA01
    + ea63 th w (mat3 (K:=RNum) (vec3 (K:=RNum) (fA00 0) (fA01 0) (fA02 0)) (vec3 (K:=RNum) (fA10 0) (fA11 0) (fA12 0)) (vec3 (K:=RNum) (fA20 0) (fA21 0) (fA22 0))) (vec3 (K:=RNum) (fb0 0) (fb1 0) (fb2 0)) (vec3 (K:=RNum) (fm0 0) (fm1 0) (fm2 0)) (mat3 (K:=RNum) (vec3 (K:=RNum) (fS00 0) (fS01 0) (fS02 0)) (vec3 (K:=RNum) (fS01 0) (fS11 0) (fS12 0)) (vec3 (K:=RNum) (fS02 0) (fS12 0) (fS22 0))) 0%nat 2%nat * dA02
    + ea63 th w (mat3 (K:=RNum) (vec3 (K:=RNum) (fA00 0) (fA01 0) (fA02 0)) (vec3 (K:=RNum) (fA10 0) (fA11 0) (fA12 0)) (vec3 (K:=RNum) (fA20 0) (fA21 0) (fA22 0))) (vec3 (K:=RNum) (fb0 0) (fb1 0) (fb2 0)) (vec3 (K:=RNum) (fm0 0) (fm1 0) (fm2 0)) (mat3 (K:=RNum) (vec3 (K:=RNum) (fS00 0) (fS01 0) (fS02 0)) (vec3 (K:=RNum) (fS01 0) (fS11 0) (fS12 0)) (vec3 (K:=RNum) (fS02 0) (fS12 0) (fS22 0))) 1%nat 0%nat * dA10
    + ea63 th w (mat3 (K:=RNum) (vec3 (K:=RNum) (fA00 0) (fA01 0) (fA02 0)) (vec3 (K:=RNum) (fA10 0) (fA11 0) (fA12 0)) (vec3 (K:=RNum) (fA20 0) (fA21 0) (fA22 0))) (vec3 (K:=RNum) (fb0 0) (fb1 0) (fb2 0)) (vec3 (K:=RNum) (fm0 0) (fm1 0) (fm2 0)) (mat3 (K:=RNum) (vec3 (K:=RNum) (fS00 0) (fS01 0) (fS02 0)) (vec3 (K:=RNum) (fS01 0) (fS11 0) (fS12 0)) (vec3 (K:=RNum) (fS02 0) (fS12 0) (fS22 0))) 1%nat 1%nat * dA11
    + ea63 th w (mat3 (K:=RNum) (vec3 (K:=RNum) (fA00 0) (fA01 0) (fA02 0)) (vec3 (K:=RNum) (fA10 0) (fA11 0) (fA12 0)) (vec3 (K:=RNum) (fA20 0) (fA21 0) (fA22 0))) (vec3 (K:=RNum) (fb0 0) (fb1 0) (fb2 0)) (vec3 (K:=RNum) (fm0 0) (fm1 0) (fm2 0)) (mat3 (K:=RNum) (vec3 (K:=RNum) (fS00 0) (fS01 0) (fS02 0)) (vec3 (K:=RNum) (fS01 0) (fS11 0) (fS12 0)) (vec3 (K:=RNum) (fS02 0) (fS12 0) (fS22 0))) 1%nat 2%nat * dA12
    + ea63 th w (mat3 (K:=RNum) (vec3 (K:=RNum) (fA00 0) (fA01 0) (fA02 0)) (vec3 (K:=RNum) (fA10 0) (fA11 0) (fA12 0)) (vec3 (K:=RNum) (fA20 0) (fA21 0) (fA22 0))) (vec3 (K:=RNum) (fb0 0) (fb1 0) (fb2 0)) (vec3 (K:=RNum) (fm0 0) (fm1 0) (fm2 0)) (mat3 (K:=RNum) (vec3 (K:=RNum) (fS00 0) (fS01 0) (fS02 0)) (vec3 (K:=RNum) (fS01 0) (fS11 0) (fS12 0)) (vec3 (K:=RNum) (fS02 0) (fS12 0) (fS22 0))) 2%nat 0%nat * dA20
    + ea63 th w (mat3 (K:=RNum) (vec3 (K:=RNum) (fA00 0) (fA01 0) (fA02 0)) (vec3 (K:=RNum) (fA10 0) (fA11 0) (fA12 0)) (vec3 (K:=RNum) (fA20 0) (fA21 0) (fA22 0))) (vec3 (K:=RNum) (fb0 0) (fb1 0) (fb2 0)) (vec3 (K:=RNum) (fm0 0) (fm1 0) (fm2 0)) (mat3 (K:=RNum) (vec3 (K:=RNum) (fS00 0) (fS01 0) (fS02 0)) (vec3 (K:=RNum) (fS01 0) (fS11 0) (fS12 0)) (vec3 (K:=RNum) (fS02 0) (fS12 0) (fS22 0))) 2%nat 1%nat * dA21
    + ea63 th w (mat3 (K:=RNum) (vec3 (K:=RNum) (fA00 0) (fA01 0) (fA02 0)) (vec3 (K:=RNum) (fA10 0) (fA11 0) (fA12 0)) (vec3 (K:=RNum) (fA20 0) (fA21 0) (fA22 0))) (vec3 (K:=RNum) (fb0 0) (fb1 0) (fb2 0)) (vec3 (K:=RNum) (fm0 0) (fm1 0) (fm2 0)) (mat3 (K:=RNum) (vec3 (K:=RNum) (fS00 0) (fS01 0) (fS02 0)) (vec3 (K:=RNum) (fS01 0) (fS11 0) (fS12 0)) (vec3 (K:=RNum) (fS02 0) (fS12 0) (fS22 0))) 2%nat 2%nat * dA22
    + eb63 th w (mat3 (K:=RNum) (vec3 (K:=RNum) (fA00 0) (fA01 0) (fA02 0)) (vec3 (K:=RNum) (fA10 0) (fA11 0) (fA12 0)) (vec3 (K:=RNum) (fA20 0) (fA21 0) (fA22 0))) (vec3 (K:=RNum) (fb0 0) (fb1 0) (fb2 0)) (vec3 (K:=RNum) (fm0 0) (fm1 0) (fm2 0)) (mat3 (K:=RNum) (vec3 (K:=RNum) (fS00 0) (fS01 0) (fS02 0)) (vec3 (K:=RNum) (fS01 0) (fS11 0) (fS12 0)) (vec3 (K:=RNum) (fS02 0) (fS12 0) (fS22 0))) 0%nat * db0
    + eb63 th w (mat3 (K:=RNum) (vec3 (K:=RNum) (fA00 0) (fA01 0) (fA02 0)) (vec3 (K:=RNum) (fA10 0) (fA11 0) (fA12 0)) (vec3 (K:=RNum) (fA20 0) (fA21 0) (fA22 0))) (vec3 (K:=RNum) (fb0 0) (fb1 0) (fb2 0)) (vec3 (K:=RNum) (fm0 0) (fm1 0) (fm2 0)) (mat3 (K:=RNum) (vec3 (K:=RNum) (fS00 0) (fS01 0) (fS02 0)) (vec3 (K:=RNum) (fS01 0) (fS11 0) (fS12 0)) (vec3 (K:=RNum) (fS02 0) (fS12 0) (fS22 0))) 1%nat * db1
    + eb63 th w (mat3 (K:=RNum) (vec3 (K:=RNum) (fA00 0) (fA01 0) (fA02 0)) (vec3 (K:=RNum) (fA10 0) (fA11 0) (fA12 0)) (vec3 (K:=RNum) (fA20 0) (fA21 0) (fA22 0))) (vec3 (K:=RNum) (fb0 0) (fb1 0) (fb2 0)) (vec3 (K:=RNum) (fm0 0) (fm1 0) (fm2 0)) (mat3 (K:=RNum) (vec3 (K:=RNum) (fS00 0) (fS01 0) (fS02 0)) (vec3 (K:=RNum) (fS01 0) (fS11 0) (fS12 0)) (vec3 (K:=RNum) (fS02 0) (fS12 0) (fS22 0))) 2%nat * db2
    + Edm th (mat3 (K:=RNum) (vec3 (K:=RNum) (fA00 0) (fA01 0) (fA02 0)) (vec3 (K:=RNum) (fA10 0) (fA11 0) (fA12 0)) (vec3 (K:=RNum) (fA20 0) (fA21 0) (fA22 0))) (vec3 (K:=RNum) (fb0 0) (fb1 0) (fb2 0)) (vec3 (K:=RNum) (fm0 0) (fm1 0) (fm2 0)) (mat3 (K:=RNum) (vec3 (K:=RNum) (fS00 0) (fS01 0) (fS02 0)) (vec3 (K:=RNum) (fS01 0) (fS11 0) (fS12 0)) (vec3 (K:=RNum) (fS02 0) (fS12 0) (fS22 0))) w 0%nat * dm0
    + Edm th (mat3 (K:=RNum) (vec3 (K:=RNum) (fA00 0) (fA01 0) (fA02 0)) (vec3 (K:=RNum) (fA10 0) (fA11 0) (fA12 0)) (vec3 (K:=RNum) (fA20 0) (fA21 0) (fA22 0))) (vec3 (K:=RNum) (fb0 0) (fb1 0) (fb2 0)) (vec3 (K:=RNum) (fm0 0) (fm1 0) (fm2 0)) (mat3 (K:=RNum) (vec3 (K:=RNum) (fS00 0) (fS01 0) (fS02 0)) (vec3 (K:=RNum) (fS01 0) (fS11 0) (fS12 0)) (vec3 (K:=RNum) (fS02 0) (fS12 0) (fS22 0))) w 1%nat * dm1
    + Edm th (mat3 (K:=RNum) (vec3 (K:=RNum) (fA00 0) (fA01 0) (fA02 0)) (vec3 (K:=RNum) (fA10 0) (fA11 0) (fA12 0)) (vec3 (K:=RNum) (fA20 0) (fA21 0) (fA22 0))) (vec3 (K:=RNum) (fb0 0) (fb1 0) (fb2 0)) (vec3 (K:=RNum) (fm0 0) (fm1 0) (fm2 0)) (mat3 (K:=RNum) (vec3 (K:=RNum) (fS00 0) (fS01 0) (fS02 0)) (vec3 (K:=RNum) (fS01 0) (fS11 0) (fS12 0)) (vec3 (K:=RNum) (fS02 0) (fS12 0) (fS22 0))) w 2%nat * dm2
    + Eds th (mat3 (K:=RNum) (vec3 (K:=RNum) (fA00 0) (fA01 0) (fA02 0)) (vec3 (K:=RNum) (fA10 0) (fA11 0) (fA12 0)) (vec3 (K:=RNum) (fA20 0) (fA21 0) (fA22 0))) (vec3 (K:=RNum) (fb0 0) (fb1 0) (fb2 0)) (vec3 (K:=RNum) (fm0 0) (fm1 0) (fm2 0)) (mat3 (K:=RNum) (vec3 (K:=RNum) (fS00 0) (fS01 0) (fS02 0)) (vec3 (K:=RNum) (fS01 0) (fS11 0) (fS12 0)) (vec3 (K:=RNum) (fS02 0) (fS12 0) (fS22 0))) w 0%nat 0%nat * dS00
    + Eds th (mat3 (K:=RNum) (vec3 (K:=RNum) (fA00 0) (fA01 0) (fA02 0)) (vec3 (K:=RNum) (fA10 0) (fA11 0) (fA12 0)) (vec3 (K:=RNum) (fA20 0) (fA21 0) (fA22 0))) (vec3 (K:=RNum) (fb0 0) (fb1 0) (fb2 0)) (vec3 (K:=RNum) (fm0 0) (fm1 0) (fm2 0)) (mat3 (K:=RNum) (vec3 (K:=RNum) (fS00 0) (fS01 0) (fS02 0)) (vec3 (K:=RNum) (fS01 0) (fS11 0) (fS12 0)) (vec3 (K:=RNum) (fS02 0) (fS12 0) (fS22 0))) w 0%nat 1%nat * dS01
    + Eds th (mat3 (K:=RNum) (vec3 (K:=RNum) (fA00 0) (fA01 0) (fA02 0)) (vec3 (K:=RNum) (fA10 0) (fA11 0) (fA12 0)) (vec3 (K:=RNum) (fA20 0) (fA21 0) (fA22 0))) (vec3 (K:=RNum) (fb0 0) (fb1 0) (fb2 0)) (vec3 (K:=RNum) (fm0 0) (fm1 0) (fm2 0)) (mat3 (K:=RNum) (vec3 (K:=RNum) (fS00 0) (fS01 0) (fS02 0)) (vec3 (K:=RNum) (fS01 0) (fS11 0) (fS12 0)) (vec3 (K:=RNum) (fS02 0) (fS12 0) (fS22 0))) w 0%nat 2%nat * dS02
    + Eds th (mat3 (K:=RNum) (vec3 (K:=RNum) (fA00 0) (fA01 0) (fA02 0)) (vec3 (K:=RNum) (fA10 0) (fA11 0) (fA12 0)) (vec3 (K:=RNum) (fA20 0) (fA21 0) (fA22 0))) (vec3 (K:=RNum) (fb0 0) (fb1 0) (fb2 0)) (vec3 (K:=RNum) (fm0 0) (fm1 0) (fm2 0)) (mat3 (K:=RNum) (vec3 (K:=RNum) (fS00 0) (fS01 0) (fS02 0)) (vec3 (K:=RNum) (fS01 0) (fS11 0) (fS12 0)) (vec3 (K:=RNum) (fS02 0) (fS12 0) (fS22 0))) w 1%nat 1%nat * dS11
    + Eds th (mat3 (K:=RNum) (vec3 (K:=RNum) (fA00 0) (fA01 0) (fA02 0)) (vec3 (K:=RNum) (fA10 0) (fA11 0) (fA12 0)) (vec3 (K:=RNum) (fA20 0) (fA21 0) (fA22 0))) (vec3 (K:=RNum) (fb0 0) (fb1 0) (fb2 0)) (vec3 (K:=RNum) (fm0 0) (fm1 0) (fm2 0)) (mat3 (K:=RNum) (vec3 (K:=RNum) (fS00 0) (fS01 0) (fS02 0)) (vec3 (K:=RNum) (fS01 0) (fS11 0) (fS12 0)) (vec3 (K:=RNum) (fS02 0) (fS12 0) (fS22 0))) w 1%nat 2%nat * dS12
    + Eds th (mat3 (K:=RNum) (vec3 (K:=RNum) (fA00 0) (fA01 0) (fA02 0)) (vec3 (K:=RNum) (fA10 0) (fA11 0) (fA12 0)) (vec3 (K:=RNum) (fA20 0) (fA21 0) (fA22 0))) (vec3 (K:=RNum) (fb0 0) (fb1 0) (fb2 0)) (vec3 (K:=RNum) (fm0 0) (fm1 0) (fm2 0)) (mat3 (K:=RNum) (vec3 (K:=RNum) (fS00 0) (fS01 0) (fS02 0)) (vec3 (K:=RNum) (fS01 0) (fS11 0) (fS12 0)) (vec3 (K:=RNum) (fS02 0) (fS12 0) (fS22 0))) w 2%nat 2%nat * dS22).
Proof.
  intros HA00 HA01 HA02 HA10 HA11 HA12 HA20 HA21 HA22 HS00 HS01 HS02 HS11 HS12 HS22 Hb0 Hb1 Hb2 Hm0 Hm1 Hm2.
  unfold eb63, ea63, eb63, e63; cbn [Rsum]; l63unf; cbn [sumn]; rnum.
  eapply d_eq.
  - dd.
  - clear. cbn [INR Nat.pred pow]. field.
Qed.

(** only the entries below 3 matter *)
Definition can (A : nat -> nat -> R) : nat -> nat -> R :=
  mat3 (K:=RNum) (vec3 (K:=RNum) (A 0%nat 0%nat) (A 0%nat 1%nat) (A 0%nat 2%nat))
    (vec3 (K:=RNum) (A 1%nat 0%nat) (A 1%nat 1%nat) (A 1%nat 2%nat)) (vec3 (K:=RNum) (A 2%nat 0%nat) (A 2%nat 1%nat) (A 2%nat 2%nat)).
Definition canv (b : nat -> R) : nat -> R := vec3 (K:=RNum) (b 0%nat) (b 1%nat) (b 2%nat).
Lemma can_eq A A' : eqm 3 A A' -> can A = can A'.
Proof. intros H. unfold can. rewrite !H by lia. reflexivity. Qed.
Lemma canv_eq b b' : eqv 3 b b' -> canv b = canv b'.
Proof. intros H. unfold canv. rewrite !H by lia. reflexivity. Qed.
Ltac case3 i := destruct i as [|[|[|i]]]; [| | |lia].
Lemma can63 th w A b m S :
  de63 th w A b m S = de63 th w (can A) (canv b) (canv m) (can S) /\
  eqm 3 (ea63 th w A b m S) (ea63 th w (can A) (canv b) (canv m) (can S)) /\
  eqm 3 (es63 th w A b m S) (es63 th w (can A) (canv b) (canv m) (can S)) /\
  eqv 3 (eb63 th w A b m S) (eb63 th w (can A) (canv b) (canv m) (can S)) /\
  eqv 3 (em63 th w A b m S) (em63 th w (can A) (canv b) (canv m) (can S)).
Proof.
  split; [reflexivity|]. split; [|split; [|split]].
  - intros i j Hi Hj. case3 i; case3 j; reflexivity.
  - intros i j Hi Hj. case3 i; case3 j; reflexivity.
  - intros i Hi. case3 i; reflexivity.
  - intros i Hi. case3 i; reflexivity.
Qed.
Lemma ext63 th w A A' b b' m m' S S' : eqm 3 A A' -> eqv 3 b b' -> eqv 3 m m' -> eqm 3 S S' ->
  de63 th w A b m S = de63 th w A' b' m' S' /\
  eqm 3 (ea63 th w A b m S) (ea63 th w A' b' m' S') /\ eqm 3 (es63 th w A b m S) (es63 th w A' b' m' S') /\
  eqv 3 (eb63 th w A b m S) (eb63 th w A' b' m' S') /\ eqv 3 (em63 th w A b m S) (em63 th w A' b' m' S').
Proof.
  intros H1 H2 H3 H4. destruct (can63 th w A b m S) as (E1 & E2 & E3 & E4 & E5). destruct (can63 th w A' b' m' S') as (F1 & F2 & F3 & F4 & F5).
  rewrite (can_eq A A' H1), (canv_eq b b' H2), (canv_eq m m' H3), (can_eq S S' H4) in *.
  split; [congruence|]. split; [|split; [|split]].
  - intros i j Hi Hj. rewrite (E2 i j Hi Hj), (F2 i j Hi Hj). reflexivity.
  - intros i j Hi Hj. rewrite (E3 i j Hi Hj), (F3 i j Hi Hj). reflexivity.
  - intros i Hi. rewrite (E4 i Hi), (F4 i Hi). reflexivity.
  - intros i Hi. rewrite (E5 i Hi), (F5 i Hi). reflexivity.
Qed.
Lemma es63_sym th w A b m S i j : (i < 3)%nat -> (j < 3)%nat -> es63 th w A b m S i j = es63 th w A b m S j i.
Proof. intros Hi Hj. case3 i; case3 j; reflexivity. Qed.
Definition cans (S : nat -> nat -> R) : nat -> nat -> R :=
  mat3 (K:=RNum) (vec3 (K:=RNum) (S 0%nat 0%nat) (S 0%nat 1%nat) (S 0%nat 2%nat))
    (vec3 (K:=RNum) (S 0%nat 1%nat) (S 1%nat 1%nat) (S 1%nat 2%nat)) (vec3 (K:=RNum) (S 0%nat 2%nat) (S 1%nat 2%nat) (S 2%nat 2%nat)).
Lemma cans_eq S : sy 3 S -> eqm 3 S (cans S).
Proof. intros H i j Hi Hj. case3 i; case3 j; try reflexivity; apply H; lia. Qed.
Lemma can_id A : eqm 3 A (can A).
Proof. intros i j Hi Hj. case3 i; case3 j; reflexivity. Qed.
Lemma canv_id b : eqv 3 b (canv b).
Proof. intros i Hi. case3 i; reflexivity. Qed.

Lemma chain63 th w (A S : R -> nat -> nat -> R) (b m : R -> nat -> R) (A' S' : nat -> nat -> R) (b' m' : nat -> R) :
  (forall i j, is_derive (fun t => A t i j) 0 (A' i j)) -> (forall i j, is_derive (fun t => S t i j) 0 (S' i j)) ->
  (forall i, is_derive (fun t => b t i) 0 (b' i)) -> (forall i, is_derive (fun t => m t i) 0 (m' i)) ->
  (forall t, sy 3 (S t)) -> sy 3 S' ->
  is_derive (fun t => de63 th w (A t) (b t) (m t) (S t)) 0
    (dots 3 (ea63 th w (A 0) (b 0) (m 0) (S 0)) A' + dot 3 (eb63 th w (A 0) (b 0) (m 0) (S 0)) b' + dot 3 (em63 th w (A 0) (b 0) (m 0) (S 0)) m'
     + (dots 3 (es63 th w (A 0) (b 0) (m 0) (S 0)) S' - dot_below 3 (es63 th w (A 0) (b 0) (m 0) (S 0)) S')).
Proof.
  intros HA HS Hb Hm Sy Sy'.
  apply (is_derive_ext (fun t => e63 th (can (A t)) (canv (b t)) (canv (m t)) (cans (S t)) w)).
  { intros t. symmetry. exact (proj1 (ext63 th w _ _ _ _ _ _ _ _ (can_id (A t)) (canv_id (b t)) (canv_id (m t)) (cans_eq (S t) (Sy t)))). }
  eapply d_eq; [apply (chain63s th w
    (fun t => A t 0%nat 0%nat) (fun t => A t 0%nat 1%nat) (fun t => A t 0%nat 2%nat) (fun t => A t 1%nat 0%nat) (fun t => A t 1%nat 1%nat) (fun t => A t 1%nat 2%nat) (fun t => A t 2%nat 0%nat) (fun t => A t 2%nat 1%nat) (fun t => A t 2%nat 2%nat) (fun t => S t 0%nat 0%nat) (fun t => S t 0%nat 1%nat) (fun t => S t 0%nat 2%nat) (fun t => S t 1%nat 1%nat) (fun t => S t 1%nat 2%nat) (fun t => S t 2%nat 2%nat) (fun t => b t 0%nat) (fun t => b t 1%nat) (fun t => b t 2%nat) (fun t => m t 0%nat) (fun t => m t 1%nat) (fun t => m t 2%nat)
    (A' 0%nat 0%nat) (A' 0%nat 1%nat) (A' 0%nat 2%nat) (A' 1%nat 0%nat) (A' 1%nat 1%nat) (A' 1%nat 2%nat) (A' 2%nat 0%nat) (A' 2%nat 1%nat) (A' 2%nat 2%nat) (S' 0%nat 0%nat) (S' 0%nat 1%nat) (S' 0%nat 2%nat) (S' 1%nat 1%nat) (S' 1%nat 2%nat) (S' 2%nat 2%nat) (b' 0%nat) (b' 1%nat) (b' 2%nat) (m' 0%nat) (m' 1%nat) (m' 2%nat)
    (HA 0%nat 0%nat) (HA 0%nat 1%nat) (HA 0%nat 2%nat) (HA 1%nat 0%nat) (HA 1%nat 1%nat) (HA 1%nat 2%nat) (HA 2%nat 0%nat) (HA 2%nat 1%nat) (HA 2%nat 2%nat) (HS 0%nat 0%nat) (HS 0%nat 1%nat) (HS 0%nat 2%nat) (HS 1%nat 1%nat) (HS 1%nat 2%nat) (HS 2%nat 2%nat) (Hb 0%nat) (Hb 1%nat) (Hb 2%nat) (Hm 0%nat) (Hm 1%nat) (Hm 2%nat))|].
  destruct (ext63 th w _ _ _ _ _ _ _ _ (can_id (A 0)) (canv_id (b 0)) (canv_id (m 0)) (cans_eq (S 0) (Sy 0))) as (_ & E1 & E2 & E3 & E4).
  rewrite (dots_ext 3 (ea63 th w (A 0) (b 0) (m 0) (S 0)) _ A' A' E1) by reflexivity.
  rewrite (dots_ext 3 (es63 th w (A 0) (b 0) (m 0) (S 0)) _ S' S' E2) by reflexivity.
  rewrite (dot_ext 3 (eb63 th w (A 0) (b 0) (m 0) (S 0)) _ b' b' E3) by reflexivity.
  rewrite (dot_ext 3 (em63 th w (A 0) (b 0) (m 0) (S 0)) _ m' m' E4) by reflexivity.
  assert (E5 : dot_below 3 (es63 th w (A 0) (b 0) (m 0) (S 0)) S' = dot_below 3 (es63 th w (can (A 0)) (canv (b 0)) (canv (m 0)) (cans (S 0))) S').
  { apply Rsum_ext. intros i Hi. apply Rsum_ext. intros j Hj. rewrite (E2 i j) by lia. reflexivity. }
  rewrite E5. clear E1 E2 E3 E4 E5 HA HS Hb Hm Sy.
  fold (can (A 0)). fold (canv (b 0)). fold (canv (m 0)). fold (cans (S 0)).
  change (Eds th (can (A 0)) (canv (b 0)) (canv (m 0)) (cans (S 0)) w) with (es63 th w (can (A 0)) (canv (b 0)) (canv (m 0)) (cans (S 0))).
  change (Edm th (can (A 0)) (canv (b 0)) (canv (m 0)) (cans (S 0)) w) with (em63 th w (can (A 0)) (canv (b 0)) (canv (m 0)) (cans (S 0))).
  generalize (ea63 th w (can (A 0)) (canv (b 0)) (canv (m 0)) (cans (S 0))) (es63 th w (can (A 0)) (canv (b 0)) (canv (m 0)) (cans (S 0)))
    (eb63 th w (can (A 0)) (canv (b 0)) (canv (m 0)) (cans (S 0))) (em63 th w (can (A 0)) (canv (b 0)) (canv (m 0)) (cans (S 0))).
  intros za zs zb zm. unfold dots, dot, dot_below. cbn [Rsum]. ring.
Qed.

Lemma l63_okn th (P : nat -> nat -> R) dt : (forall i j, (i < 3)%nat -> (j < 3)%nat -> i <> j -> P i j = 0) ->
  energy_okn 3 (fun a b m s o => Ok (l63_energy (K:=RNum) th P dt a b m s o)) P dt
    (de63 th (fun i => P i i)) (ea63 th (fun i => P i i)) (es63 th (fun i => P i i)) (eb63 th (fun i => P i i)) (em63 th (fun i => P i i)).
Proof.
  intros HP. constructor.
  - intros. apply ext63; assumption.
  - intros. apply es63_sym; assumption.
  - apply chain63.
  - intros A B M S o L1 L2 L3 Ho Hsy. eexists. split; [reflexivity|].
    assert (LP : length (map4 (fun (a : nat -> nat -> R) (b m : nat -> R) (s : nat -> nat -> R) => energy_dm_ds (K:=RNum) th a b m s (diagv P)) A B M S) = length A)
      by (rewrite map4_length; auto).
    split. { unfold l63_energy. cbn [n_f]. rewrite map2_length. etransitivity; [apply (f_equal2 Nat.min L2 L3)|apply Nat.min_id]. }
    split. { unfold l63_energy. cbn [n_df]. rewrite map_length. exact L2. }
    split. { unfold l63_energy. cbn [n_dm]. rewrite map_length. exact LP. }
    split. { unfold l63_energy. cbn [n_ds]. rewrite map_length. exact LP. }
    split. { apply (l63_sde th P dt A B M S o); assumption. }
    intros k Hk. cbv zeta.
    split. { intros i Hi. exact (f_equal (fun z => z i) (l63_dm_nth th P dt A B M S o L1 L2 L3 k Hk)). }
    split. { intros i j Hi Hj. exact (f_equal (fun z => z i j) (l63_ds_nth th P dt A B M S o L1 L2 L3 k Hk)). }
    assert (Eb : eqv 3 (dEsde_dbn (K:=RNum) 3 P (nth k (n_f (l63_energy (K:=RNum) th P dt A B M S o)) vz) (nth k M vz) (nth k A mz) (nth k B vz))
        (eb63 th (fun i => P i i) (nth k A mz) (nth k B vz) (nth k M vz) (nth k S mz))).
    { intros i Hi. unfold dEsde_dbn, mvec, eb63.
      etransitivity; [apply (Rsum_single 3 _ i Hi); intros j Hj Hne; rewrite (HP i j) by auto; apply Rmult_0_l|].
      change (P i i * (- nth k (n_f (l63_energy (K:=RNum) th P dt A B M S o)) vz i - Rsum 3 (fun j => nth k A mz i j * nth k M vz j) + nth k B vz i) =
         P i i * (- l63_Ef (K:=RNum) th (nth k M vz) (nth k S mz) i - Rsum 3 (fun j => nth k A mz i j * nth k M vz j) + nth k B vz i)).
      do 4 f_equal. exact (f_equal (fun z => z i) (l63_f_nth th P dt A B M S o L2 L3 k Hk)). }
    split; [exact Eb|]. intros i j Hi Hj. unfold dEsde_dan, msub, mouter.
    change (Rsum 3 (fun q => mmul (K:=RNum) 3 P (madd (K:=RNum) (nth k (n_df (l63_energy (K:=RNum) th P dt A B M S o)) mz) (nth k A mz)) i q * nth k S mz q j)
       - dEsde_dbn (K:=RNum) 3 P (nth k (n_f (l63_energy (K:=RNum) th P dt A B M S o)) vz) (nth k M vz) (nth k A mz) (nth k B vz) i * nth k M vz j =
       P i i * Rsum 3 (fun l => (l63_Edf (K:=RNum) th (nth k M vz) i l + nth k A mz i l) * nth k S mz l j)
       - eb63 th (fun i => P i i) (nth k A mz) (nth k B vz) (nth k M vz) (nth k S mz) i * nth k M vz j).
    rewrite (Eb i Hi). f_equal. rewrite <- Rsum_scal. apply Rsum_ext. intros q Hq.
    assert (Em : mmul (K:=RNum) 3 P (madd (K:=RNum) (nth k (n_df (l63_energy (K:=RNum) th P dt A B M S o)) mz) (nth k A mz)) i q =
       P i i * (l63_Edf (K:=RNum) th (nth k M vz) i q + nth k A mz i q)).
    { etransitivity; [apply (Rsum_single 3 (fun l => P i l * (nth k (n_df (l63_energy (K:=RNum) th P dt A B M S o)) mz l q + nth k A mz l q)) i Hi);
        intros l Hl Hne; rewrite (HP i l) by auto; ring|]. cbv beta. f_equal. f_equal.
      exact (f_equal (fun z => z i q) (l63_df_nth th P dt A B M S o L2 k Hk)). }
    rewrite Em. ring.
Qed.
