(** * The multipliers of non-symmetric systems; concrete cases. *)
From Coq Require Import List Reals Lra Lia Psatz.
From Coquelicot Require Import Coquelicot.
From Verif Require Import Num Arr ArrFacts Spec_Ode Spec_TimeVar M_Ode P_Ode P_OdeRK P_OdeR P_Conv P_TimeVar P_TimeVar2 P_TimeVar3 P_TimeVar4 P_TimeVar5 P_TimeVar6 P_TimeVar7.
Import ListNotations.
Local Open Scope R_scope.

Lemma smooth_id k T : 0 <= T -> smooth k T (fun t => t).
Proof.
  intros HT. destruct k; split; auto; try (exists T; intros t Ht; apply Rabs_le_between; lra).
  exists (fun _ => 1). split; [intros t _; apply @is_derive_id|apply smooth_const].
Qed.

Theorem lam_conv_n_sym d T (A : R -> Rmat) (g l : R -> Rvec) ps : 0 <= T ->
  (forall t i j, 0 <= t <= T -> A t i j = A t j i) ->
  (forall i j, (i < d)%nat -> (j < d)%nat -> smooth 2 T (fun t => A t i j)) ->
  (forall i, (i < d)%nat -> smooth 2 T (fun t => g t i)) ->
  (forall i, (i < d)%nat -> l T i = 0) ->
  fits (fun u v y => forall t i, u <= t <= v -> (i < d)%nat -> is_derive (fun s => y s i) t (lam_rhsn d (g t) (A t) (y t) i))
       (fun v u c => forall i, (i < d)%nat -> v i = u i + c i) T l ps ->
  exists K, forall mtd dt n (ds : list Rmat) (om : list Rvec) (os : list Rmat) (lam : list Rvec) (psi : list Rmat),
    0 < dt -> INR n * dt = T -> on_grid dt ps ->
    (forall k i, (k < n)%nat -> (i < d)%nat -> nth k om (fun _ => 0) i = jump_at (fun _ => 0) ps (INR k * dt) i) ->
    solve_bwd (Sn d) mtd dt (grid dt (n + 1) A) (grid dt (n + 1) g) ds om os = Ok (lam, psi) ->
    forall k i, (k <= n)%nat -> (i < d)%nat ->
    Rabs (nth k lam (fun _ => 0) i - with_jumps l ps (INR k * dt) i) <= K * dt ^ ordv mtd.
Proof.
  intros HT Hsym Ha Hg HE Hf. apply (lam_conv_n d T A g l ps HT Ha Hg HE).
  assert (G : forall T2 y0, 0 <= T2 <= T ->
     fits (fun u v y => forall t i, u <= t <= v -> (i < d)%nat -> is_derive (fun s => y s i) t (lam_rhsn d (g t) (A t) (y t) i))
       (fun v u c => forall i, (i < d)%nat -> v i = u i + c i) T2 y0 ps ->
     fits (fun u v y => forall t i, u <= t <= v -> (i < d)%nat -> is_derive (fun s => y s i) t (lam_rhsn d (g t) (mtr (A t)) (y t) i))
       (fun v u c => forall i, (i < d)%nat -> v i = u i + c i) T2 y0 ps).
  { assert (S : forall u v y, 0 <= u -> v <= T ->
      (forall t i, u <= t <= v -> (i < d)%nat -> is_derive (fun s => y s i) t (lam_rhsn d (g t) (A t) (y t) i)) ->
      forall t i, u <= t <= v -> (i < d)%nat -> is_derive (fun s => y s i) t (lam_rhsn d (g t) (mtr (A t)) (y t) i)).
    { intros u v y Hu Hv H t i Ht Hi. specialize (H t i Ht Hi).
      assert (E : lam_rhsn d (g t) (mtr (A t)) (y t) i = lam_rhsn d (g t) (A t) (y t) i).
      { unfold lam_rhsn, mtr. apply f_equal2; auto. apply sumn_ext. intros k Hk. rewrite Hsym by lra. reflexivity. }
      rewrite E. exact H. }
    clear Hf HE. induction ps as [|[[tau c] y] r IH]; intros T2 y0 HT2 Hf; cbn [fits] in *.
    - apply S; auto; lra.
    - destruct Hf as (F1 & F2 & F3 & F4). split; [lra|]. split; [apply S; auto; lra|]. split; [auto|apply IH; auto; lra]. }
  apply G; auto; lra.
Qed.

(** A = ((0,1),(0,0)), dE/dm = (1,0): the second multiplier is -(1-t)^2/2, the code returns 0 *)
Definition cA : R -> Rmat := fun _ i j => if (i =? 0)%nat then (if (j =? 1)%nat then 1 else 0) else 0.
Definition cg : R -> Rvec := fun _ i => if (i =? 0)%nat then 1 else 0.
Definition cl : R -> Rvec := fun t i => if (i =? 0)%nat then 1 - t else - (1 - t) ^ 2 / 2.
Definition cw : R -> Rvec := fun t i => if (i =? 0)%nat then 1 - t else 0.

Lemma cl_solves t i : (i < 2)%nat -> is_derive (fun s => cl s i) t (lam_rhsn 2 (cg t) (cA t) (cl t) i).
Proof.
  intros Hi. destruct i as [|[|i]]; [| |lia]; unfold lam_rhsn, cl, cg, cA; cbn.
  - auto_derive; auto. ring.
  - auto_derive; auto. field.
Qed.
Lemma cw_solves t i : (i < 2)%nat -> is_derive (fun s => cw s i) t (lam_rhsn 2 (cg t) (mtr (cA t)) (cw t) i).
Proof.
  intros Hi. destruct i as [|[|i]]; [| |lia]; unfold lam_rhsn, mtr, cw, cg, cA; cbn.
  - auto_derive; auto. ring.
  - auto_derive; auto. ring.
Qed.

Lemma lam_wrong_limit : exists dt0, 0 < dt0 /\ forall mtd dt n ds om os lam psi,
  0 < dt < dt0 -> INR n * dt = 1 -> (forall k i, nth k om (fun _ => 0) i = 0) ->
  solve_bwd (Sn 2) mtd dt (grid dt (n + 1) cA) (grid dt (n + 1) cg) ds om os = Ok (lam, psi) ->
  1 / 4 <= Rabs (nth 0 lam (fun _ => 0) 1%nat - cl 0 1%nat).
Proof.
  destruct (lam_conv_n 2 1 cA cg cw [] ltac:(lra)) as (K & HK).
  - intros i j _ _. unfold cA. apply smooth_const.
  - intros i _. unfold cg. apply smooth_const.
  - intros [|[|i]] Hi; unfold cw; cbn; lra.
  - intros t i _ Hi. apply cw_solves; auto.
  - exists (Rmin 1 (/ (4 * (Rabs K + 1)))). pose proof (Rabs_pos K) as HK0.
    assert (P : 0 < / (4 * (Rabs K + 1))) by (apply Rinv_0_lt_compat; lra).
    split; [apply Rmin_pos; lra|].
    intros mtd dt n ds om os lam psi Hdt Hn Hom Hs.
    assert (D1 : dt < 1) by (eapply Rlt_le_trans; [apply Hdt|apply Rmin_l]).
    assert (D2 : dt < / (4 * (Rabs K + 1))) by (eapply Rlt_le_trans; [apply Hdt|apply Rmin_r]).
    pose proof (HK mtd dt n ds om os lam psi ltac:(lra) Hn) as B.
    specialize (B ltac:(intros p []) ltac:(intros; apply Hom) Hs 0%nat 1%nat ltac:(lia) ltac:(lia)).
    cbn [with_jumps] in B. unfold cw in B. cbn [Nat.eqb] in B. rewrite Rminus_0_r in B.
    assert (Pw : dt ^ ordv mtd <= dt).
    { destruct mtd; cbn [ordv pow]; nra. }
    assert (Pw0 : 0 <= dt ^ ordv mtd) by (apply pow_le; lra).
    assert (B2 : K * dt ^ ordv mtd <= Rabs K * dt).
    { eapply Rle_trans; [apply Rmult_le_compat_r; [auto|apply Rle_abs]|]. apply Rmult_le_compat_l; auto. }
    assert (B3 : Rabs K * dt <= / 4).
    { assert ((Rabs K + 1) * dt < / 4).
      { apply (Rmult_lt_reg_l 4); [lra|]. replace (4 * / 4) with 1 by field.
        replace (4 * ((Rabs K + 1) * dt)) with ((4 * (Rabs K + 1)) * dt) by ring.
        pose proof (Rinv_r (4 * (Rabs K + 1)) ltac:(lra)) as RI.
        pose proof (Rmult_lt_compat_l (4 * (Rabs K + 1)) _ _ ltac:(lra) D2). lra. }
      assert (0 <= dt) by lra. lra. }
    unfold cl. cbn [Nat.eqb]. apply Rabs_le_between in B.
    
    assert (G : forall x : R, - (K * dt ^ ordv mtd) <= x <= K * dt ^ ordv mtd -> 1 / 4 <= Rabs (x - - (1 - 0) ^ 2 / 2)).
    { intros x Hx. replace (x - - (1 - 0) ^ 2 / 2) with (x + / 2) by field. rewrite Rabs_pos_eq; lra. }
    exact (G _ B).
Qed.

(** ** Concrete cases *)
Lemma mean_case : forall t, is_derive (fun t => 1 + exp (- t ^ 2 / 2)) t (mean_rhs1 t t (1 + exp (- t ^ 2 / 2))).
Proof.
  intros t. unfold mean_rhs1. auto_derive; auto.
  replace (- t ^ 2 / 2) with (- (t * (t * 1)) * / 2) by (unfold Rdiv; ring). field.
Qed.

Lemma jump_case :
  fits (fun u v y => forall t, u <= t <= v -> is_derive y t (lam_rhs1 0 1 (y t))) (fun v u c => v = u + c)
    1 (fun _ => 0) [(1/2, 3, fun t => 3 * exp (t - 1/2))] /\
  with_jumps (fun _ => 0) [(1/2, 3, fun t => 3 * exp (t - 1/2))] 0 = 3 * exp (- (1/2)) /\
  on_grid (1/4) [(1/2, 3, fun t => 3 * exp (t - 1/2))].
Proof.
  split; [|split].
  - cbn. split; [lra|]. split; [|split].
    + intros t _. unfold lam_rhs1. auto_derive; auto. ring.
    + replace (1 / 2 - 1 / 2) with 0 by ring. rewrite exp_0. ring.
    + intros t _. unfold lam_rhs1. auto_derive; auto. unfold Rminus. ring.
  - cbn. destruct (Rle_dec 0 (1/2)); [|lra]. do 2 f_equal. lra.
  - intros p [<- | []]. exists 2%nat. cbn. lra.
Qed.
