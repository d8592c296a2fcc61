(** * Property C31 for Lorenz 96: free_energy against gradient() at the last grid point. *)
From Coq Require Import ZArith Reals Lra Lia Arith Bool List Sorted.
From Coquelicot Require Import Coquelicot.
From Verif Require Import Num Arr M_LinAlg M_Utils M_Ode M_Moments M_Sde1 M_L63 M_L96 M_L96E M_Prior M_Like M_VarGP
  Spec_Utils Spec_Gauss Spec_GaussN Spec_Sde1 Spec_L96 Spec_L96E Spec_Prior Spec_VarGP Spec_GradN
  P_RMat P_Det P_Oper P_L96 P_L96I P_GradN P_GradN2 P_GradN3 P_GradL63T P_Last96.
Import ListNotations.
Local Open Scope R_scope.

(** VarGP with the Lorenz-96 model and the Euler solver; C is the noise matrix, P its inverse,
    all coordinates are observed, solve is np.linalg.solve *)
Notation vgp96 solve n d dt th P C s0 m0 mu tau Rn y t :=
  (vgpn (K:=RNum) ln PI (l96_energy (K:=RNum) solve d th P dt) Euler n d dt C P m0 s0 mu tau y t Rn (meye (K:=RNum))).

(** For every Lorenz-96 problem with at least two grid points, along whose Euler path the covariances are positive
    definite: every entry of gradient() that belongs to row j of the last A or to entry j of the last b, j away from
    the ends of the state, is twice the derivative of free_energy. *)
Theorem C31_last_entry_l96_refuted :
  forall solve n d dt (th : nat -> R) (P C s0 : nat -> nat -> R) (m0 mu : nat -> R) (tau Rn : nat -> nat -> R) (y : list (nat -> R)) (t : list nat) (x : list R),
  solver_ok solve -> diag_only d P -> well_posed n d C s0 tau Rn y t x -> (2 <= n)%nat ->
  (forall k, (k < n)%nat -> posdef d (path_sn d dt (part_a d (entry x)) C s0 k)) ->
  forall s j q, (2 <= j)%nat -> (j + 1 < d)%nat ->
  (((n - 1) * d + j) * d <= q /\ q < ((n - 1) * d + j) * d + d \/ q = n * d * d + (n - 1) * d + j)%nat ->
  let E := vgp96 solve n d dt th P C s0 m0 mu tau Rn y t in
  exists (g : list R) (F : R -> R), fst (gradient E x true s) = Ok g /\
  (forall h s', fst (free_energy E (moved x (unit_at q) h) s') = Ok (F h)) /\
  is_derive F 0 (entry g q / 2).
Proof.
  intros solve n d dt th P C s0 m0 mu tau Rn y t x Hs HP W H2 Hpd s j q Hj1 Hj2 Hq. cbv zeta.
  set (l := if Nat.ltb q (n * d * d) then (q - ((n - 1) * d + j) * d)%nat else O).
  destruct (l96_last solve Hs n d dt th P C s0 m0 mu tau Rn y t x HP W H2 Hpd s j l Hj1 Hj2) with (q := q) as (g & F & E1 & E2 & E3 & _).
  - unfold l. destruct (Nat.ltb_spec q (n * d * d)); [|lia]. destruct Hq as [Hq|Hq]; lia.
  - unfold l. destruct (Nat.ltb_spec q (n * d * d)) as [Q|Q]; [left|right].
    + destruct Hq as [Hq|Hq]; [lia|]. exfalso. pose proof (Nat.le_0_l ((n - 1) * d)). lia.
    + destruct Hq as [[H3 H4]|Hq]; [exfalso|exact Hq]. assert (Z : ((n - 1) * d + j + 1 <= n * d)%nat) by nia.
      apply (Nat.mul_le_mono_r _ _ d) in Z. lia.
  - exists g, F. split; [exact E1|]. split; [exact E2|exact E3].
Qed.
Print Assumptions C31_last_entry_l96_refuted.
(** what the entry of the last b is: the Gaussian mean of drift minus linear drift, times minus the time step and the inverse noise *)
Theorem C31_last_offset_l96_partial :
  forall solve n d dt (th : nat -> R) (P C s0 : nat -> nat -> R) (m0 mu : nat -> R) (tau Rn : nat -> nat -> R) (y : list (nat -> R)) (t : list nat) (x : list R),
  solver_ok solve -> diag_only d P -> well_posed n d C s0 tau Rn y t x -> (2 <= n)%nat ->
  (forall k, (k < n)%nat -> posdef d (path_sn d dt (part_a d (entry x)) C s0 k)) ->
  forall s j, (2 <= j)%nat -> (j + 1 < d)%nat ->
  let a := part_a d (entry x) in let b := part_b n d (entry x) in
  let m := path_mn d dt a b m0 (n - 1) in let S := path_sn d dt a C s0 (n - 1) in
  exists (g : list R) (e : R), fst (gradient (vgp96 solve n d dt th P C s0 m0 mu tau Rn y t) x true s) = Ok g /\
  E_mvn d m S (fun z => f96 d th z j) e /\
  part_b n d (entry g) (n - 1) j = - dt * P j j * (e + Rsum d (fun k => a (n - 1)%nat j k * m k) - b (n - 1)%nat j).
Proof.
  intros solve n d dt th P C s0 m0 mu tau Rn y t x Hs HP W H2 Hpd s j Hj1 Hj2 a b m S.
  destruct (l96_last solve Hs n d dt th P C s0 m0 mu tau Rn y t x HP W H2 Hpd s j 0 Hj1 Hj2 ltac:(lia) (n * d * d + (n - 1) * d + j)%nat (or_intror eq_refl)) as (g & F & E1 & _ & _ & E4).
  exists g. eexists. split; [exact E1|]. split; [apply E96_mvn; lia|].
  etransitivity; [exact (E4 ltac:(lia))|]. fold a b m S. ring.
Qed.
Print Assumptions C31_last_offset_l96_partial.

(** a case where the entry is not zero: four sites, two points, forcing 8, everything else trivial *)
Example C31_l96_instance : exists solve (g : list R) (F : R -> R), solver_ok solve /\
  let E := vgp96 solve 2 4 1 (fun _ => 8) ident ident ident (fun _ => 0) (fun _ => 0) ident ident [] [] in
  let x := repeat 0 40 in
  well_posed 2 4 ident ident ident ident [] [] x /\
  fst (gradient E x true None) = Ok g /\ (forall h, fst (free_energy E (moved x (unit_at 38) h) None) = Ok (F h)) /\
  is_derive F 0 (-4) /\ entry g 38 = -8.
Proof.
  destruct solver_exists as [solve Hs].
  assert (X0 : forall q, entry (repeat 0 40) q = 0) by (intros q; apply nth_repeat).
  assert (Hy : symm 4 ident) by (intros i j _ _; unfold ident; rewrite Nat.eqb_sym; reflexivity).
  assert (Hp : posdef 4 ident) by apply P_Prior.ident_posdef.
  assert (W : well_posed 2 4 ident ident ident ident [] [] (repeat 0 40)).
  { repeat (split; [first [exact Hy|exact Hp|lia|apply NoDup_nil|apply Sorted_nil|constructor|reflexivity|intros i j _ _; reflexivity]|]). reflexivity. }
  assert (D : diag_only 4 ident) by (intros i j _ _ Hne; unfold ident; apply Nat.eqb_neq in Hne; rewrite Hne; reflexivity).
  assert (A0 : forall k i j, part_a 4 (entry (repeat 0 40)) k i j = 0) by (intros; apply X0).
  assert (B0 : forall k i, part_b 2 4 (entry (repeat 0 40)) k i = 0) by (intros; apply X0).
  assert (S1 : forall i j, path_sn 4 1 (part_a 4 (entry (repeat 0 40))) ident ident 1 i j = 2 * ident i j).
  { intros i j. cbn [path_sn]. rewrite !(Rsum_zero 4) by (intros l Hl; rewrite A0; ring). ring. }
  assert (M1 : forall i, path_mn 4 1 (part_a 4 (entry (repeat 0 40))) (part_b 2 4 (entry (repeat 0 40))) (fun _ => 0) 1 i = 0).
  { intros i. cbn [path_mn]. rewrite (Rsum_zero 4) by (intros l Hl; ring). rewrite B0. ring. }
  assert (Hpd : forall k, (k < 2)%nat -> posdef 4 (path_sn 4 1 (part_a 4 (entry (repeat 0 40))) ident ident k)).
  { intros k Hk v Hv. destruct k as [|[|k]]; [exact (Hp v Hv)| |lia]. specialize (Hp v Hv).
    rewrite (Rsum_ext 4 _ (fun i => 2 * Rsum 4 (fun j => v i * ident i j * v j))).
    2:{ intros i Hi. rewrite <- Rsum_scal. apply Rsum_ext. intros j Hj. rewrite S1. ring. }
    rewrite Rsum_scal. lra. }
  destruct (l96_last solve Hs 2 4 1 (fun _ => 8) ident ident ident (fun _ => 0) (fun _ => 0) ident ident [] [] (repeat 0 40) D W ltac:(lia) Hpd
    None 2 0 ltac:(lia) ltac:(lia) ltac:(lia) 38 ltac:(right; reflexivity)) as (g & F & E1 & E2 & E3 & E4).
  assert (G : entry g 38 = -8).
  { rewrite (E4 ltac:(lia)). change (2 - 1)%nat with 1%nat. rewrite E96_ix by lia. rewrite B0, !S1. unfold f96. rewrite !M1.
    rewrite (Rsum_zero 4) by (intros l Hl; rewrite A0; ring). unfold ident, nxt, prv. cbn [Nat.eqb Nat.add Nat.sub]. ring. }
  exists solve, g, F. split; [exact Hs|]. cbv zeta. split; [exact W|]. split; [exact E1|]. split; [intros h; apply E2|].
  split; [rewrite G in E3; replace (-4) with (-8 / 2) by field; exact E3|exact G].
Qed.
