(** * Properties C20, C21: Ornstein-Uhlenbeck and double-well energies. *)
From Coq Require Import ZArith Bool Reals List Lra Lia Arith Sorted.
From Coquelicot Require Import Coquelicot.
From Verif Require Import Num Arr M_Utils M_Moments M_Sde1 Spec_Utils Spec_Gauss Spec_Sde1 P_Sde1.
Import ListNotations.
Local Open Scope R_scope.

(** Well-formed input: arrays of one length, sorted observation indexes. *)
Definition wf (A B M S : list R) (obs : option (list nat)) : Prop :=
  length B = length A /\ length M = length A /\ length S = length A /\
  (forall o, obs = Some o -> Sorted le o).

(** ** C20 *)
Theorem C20_energy :
  forall sigma theta dt A B M S obs, wf A B M S obs -> 0 < sigma ->
  (forall k, (k < length A)%nat -> 0 < nth k S 0) ->
  exists e : nat -> R,
    (forall k, (k < length A)%nat ->
       E_normal (nth k M 0) (nth k S 0) (mismatch (f_ou theta) sigma (nth k A 0) (nth k B 0)) (e k)) /\
    e_sde (ou_energy (K:=RNum) sigma theta dt A B M S obs) = trap (length A) e dt.
Proof. intros * (H1 & H2 & H3 & Ho) Hs. exact (ou_energy_exact sigma theta dt A B M S obs Ho Hs H1 H2 H3). Qed.
Print Assumptions C20_energy.
Theorem C20_nonneg :
  forall sigma theta dt A B M S obs, wf A B M S obs -> 0 < sigma -> 0 <= dt ->
  (forall k, (k < length A)%nat -> 0 <= nth k S 0) ->
  0 <= e_sde (ou_energy (K:=RNum) sigma theta dt A B M S obs).
Proof. intros * (H1 & H2 & H3 & Ho) Hs Hd. exact (ou_nonneg sigma theta dt A B M S obs Ho Hs Hd H1 H2 H3). Qed.
Print Assumptions C20_nonneg.
Theorem C20_averages :
  forall sigma theta dt A B M S obs k, (k < length M)%nat -> 0 < nth k S 0 ->
  let r := ou_energy (K:=RNum) sigma theta dt A B M S obs in
  E_normal (nth k M 0) (nth k S 0) (f_ou theta) (nth k (e_f r) 0) /\
  E_normal (nth k M 0) (nth k S 0) (df_ou theta) (nth k (e_df r) 0).
Proof. exact ou_averages. Qed.
Print Assumptions C20_averages.
(** The arrays dEsde_dm, dEsde_dS hold the derivatives per unit of integration weight:
    the derivative of the returned energy with respect to entry k is the trapezoidal
    weight of sample k (dt, or dt/2 at the two ends) times entry k. *)
Theorem C20_dm :
  forall sigma theta dt A B M S obs k, wf A B M S obs -> 0 < sigma -> (k < length A)%nat ->
  is_derive (fun t => e_sde (ou_energy (K:=RNum) sigma theta dt A B (set_nth k t M) S obs)) (nth k M 0)
    (tweight (length A) k dt * nth k (e_dm (ou_energy (K:=RNum) sigma theta dt A B M S obs)) 0).
Proof. intros * (H1 & H2 & H3 & Ho) Hs. exact (ou_dm_correct sigma theta dt A B M S obs Ho Hs H1 H2 H3 k). Qed.
Print Assumptions C20_dm.
Theorem C20_ds :
  forall sigma theta dt A B M S obs k, wf A B M S obs -> 0 < sigma -> (k < length A)%nat ->
  is_derive (fun t => e_sde (ou_energy (K:=RNum) sigma theta dt A B M (set_nth k t S) obs)) (nth k S 0)
    (tweight (length A) k dt * nth k (e_ds (ou_energy (K:=RNum) sigma theta dt A B M S obs)) 0).
Proof. intros * (H1 & H2 & H3 & Ho) Hs. exact (ou_ds_correct sigma theta dt A B M S obs Ho Hs H1 H2 H3 k). Qed.
Print Assumptions C20_ds.
Theorem C20_dtheta :
  forall sigma theta dt A B M S obs, wf A B M S obs -> 0 < sigma ->
  is_derive (fun t => e_sde (ou_energy (K:=RNum) sigma t dt A B M S obs)) theta
            (e_dth (ou_energy (K:=RNum) sigma theta dt A B M S obs)).
Proof. intros * (H1 & H2 & H3 & Ho) Hs. exact (ou_dtheta_correct sigma theta dt A B M S obs Ho Hs H1 H2 H3). Qed.
Print Assumptions C20_dtheta.
Theorem C20_dsigma :
  forall sigma theta dt A B M S obs, 0 < sigma ->
  is_derive (fun t => e_sde (ou_energy (K:=RNum) t theta dt A B M S obs)) sigma
            (e_dsig (ou_energy (K:=RNum) sigma theta dt A B M S obs)).
Proof. exact ou_dsigma_correct. Qed.
Print Assumptions C20_dsigma.
Example C20_instance :
  is_derive (fun t => e_sde (ou_energy (K:=RNum) 2 3 (1/2) [1; 2; 1] [5; 7; 1] (set_nth 1 t [1; 4; 1]) [2; 3; 1] (Some [1%nat])))
    4 (1 / 2 * (11 / 2)).
Proof.
  pose proof (C20_dm 2 3 (1/2) [1; 2; 1] [5; 7; 1] [1; 4; 1] [2; 3; 1] (Some [1%nat]) 1) as H.
  assert (E : tweight (length [1; 2; 1]) 1 (1/2) *
     nth 1 (e_dm (ou_energy (K:=RNum) 2 3 (1/2) [1; 2; 1] [5; 7; 1] [1; 4; 1] [2; 3; 1] (Some [1%nat]))) 0 = 1 / 2 * (11 / 2)).
  { unfold tweight. cbn [length Nat.ltb Nat.leb Nat.add ou_energy e_dm map4 nth]. unfold ou_dm. rnum. field. }
  rewrite E in H. apply H.
  - repeat split. intros o [= <-]. repeat constructor.
  - lra.
  - cbn. lia.
Qed.

(** ** C21 *)
(** Finding: the coefficient of the sixth moment in the energy is 8 instead of 16. *)
Theorem C21_energy_partial :
  forall sigma theta dt A B M S obs, wf A B M S obs -> 0 < sigma ->
  (forall k, (k < length A)%nat -> 0 < nth k S 0) ->
  exists e x6 : nat -> R,
    (forall k, (k < length A)%nat ->
       E_normal (nth k M 0) (nth k S 0) (mismatch (f_dw theta) sigma (nth k A 0) (nth k B 0)) (e k) /\
       E_normal (nth k M 0) (nth k S 0) (fun x => x ^ 6) (x6 k)) /\
    e_sde (dw_energy (K:=RNum) sigma theta dt A B M S obs) =
    trap (length A) (fun k => e k - 4 * x6 k / sigma) dt.
Proof. intros * (H1 & H2 & H3 & Ho) Hs. exact (dw_energy_deficit sigma theta dt A B M S obs Ho Hs H1 H2 H3). Qed.
Print Assumptions C21_energy_partial.
(** the returned energy can be negative *)
Theorem C21_negative_refuted :
  exists sigma theta dt A B M S obs, wf A B M S obs /\ 0 < sigma /\ 0 < dt /\
  (forall k, (k < length A)%nat -> 0 < nth k S 0) /\
  e_sde (dw_energy (K:=RNum) sigma theta dt A B M S obs) < 0.
Proof.
  exists 1, 3, 1, [0; 0], [0; 0], [0; 0], [1; 1], (Some []).
  split; [repeat split; intros o [= <-]; constructor|]. split; [lra|]. split; [lra|]. split.
  - intros [|[|k]] Hk; cbn in *; lra || lia.
  - rewrite dw_negative. lra.
Qed.
Print Assumptions C21_negative_refuted.
Theorem C21_averages :
  forall sigma theta dt A B M S obs k, (k < length M)%nat -> length S = length M -> 0 < nth k S 0 ->
  let r := dw_energy (K:=RNum) sigma theta dt A B M S obs in
  E_normal (nth k M 0) (nth k S 0) (f_dw theta) (nth k (e_f r) 0) /\
  E_normal (nth k M 0) (nth k S 0) (df_dw theta) (nth k (e_df r) 0).
Proof. exact dw_averages. Qed.
Print Assumptions C21_averages.
(** The gradients with respect to the moments are those of the exact energy [Etrue]... *)
Theorem C21_exact_energy_gradients_partial :
  forall sigma theta dt A B M S obs, wf A B M S obs -> 0 < sigma ->
  (forall k, (k < length A)%nat -> 0 < nth k S 0) ->
  exists Etrue : list R -> list R -> R,
    (forall M' S', length M' = length A -> length S' = length A ->
       (forall k, (k < length A)%nat -> 0 < nth k S' 0) ->
       exists e : nat -> R,
       (forall k, (k < length A)%nat ->
          E_normal (nth k M' 0) (nth k S' 0) (mismatch (f_dw theta) sigma (nth k A 0) (nth k B 0)) (e k)) /\
       Etrue M' S' = trap (length A) e dt) /\
    forall k, (k < length A)%nat ->
      is_derive (fun t => Etrue (set_nth k t M) S) (nth k M 0)
        (tweight (length A) k dt * nth k (e_dm (dw_energy (K:=RNum) sigma theta dt A B M S obs)) 0) /\
      is_derive (fun t => Etrue M (set_nth k t S)) (nth k S 0)
        (tweight (length A) k dt * nth k (e_ds (dw_energy (K:=RNum) sigma theta dt A B M S obs)) 0).
Proof.
  intros * (H1 & H2 & H3 & Ho) Hs Hp.
  exists (fun M' S' => dw_true dt sigma theta A B M' S'). split.
  - intros M' S' L1 L2 Hp'. exact (dw_true_E sigma theta dt A B M' S' Hs Hp').
  - intros k Hk. split.
    + exact (dw_dm_correct sigma theta dt A B M S obs Ho Hs H1 H2 H3 k Hk).
    + exact (dw_ds_correct sigma theta dt A B M S obs Ho Hs H1 H2 H3 k Hk).
Qed.
Print Assumptions C21_exact_energy_gradients_partial.
(** ... hence not those of the returned energy. *)
Theorem C21_gradient_refuted :
  exists sigma theta dt A B M S obs k, wf A B M S obs /\ 0 < sigma /\ (k < length A)%nat /\
  (forall k, (k < length A)%nat -> 0 < nth k S 0) /\
  ~ is_derive (fun t => e_sde (dw_energy (K:=RNum) sigma theta dt A B (set_nth k t M) S obs)) (nth k M 0)
    (tweight (length A) k dt * nth k (e_dm (dw_energy (K:=RNum) sigma theta dt A B M S obs)) 0).
Proof.
  exists 1, 0, 1, [0; 0], [0; 0], [1; 1], [1; 1], (Some []), 0%nat.
  split; [repeat split; intros o [= <-]; constructor|]. split; [lra|]. split; [cbn; lia|]. split.
  - intros [|[|k]] Hk; cbn in *; lra || lia.
  - exact dw_grad_wrong.
Qed.
Print Assumptions C21_gradient_refuted.
Theorem C21_dtheta :
  forall sigma theta dt A B M S obs, wf A B M S obs -> 0 < sigma ->
  is_derive (fun t => e_sde (dw_energy (K:=RNum) sigma t dt A B M S obs)) theta
            (e_dth (dw_energy (K:=RNum) sigma theta dt A B M S obs)).
Proof. intros * (H1 & H2 & H3 & Ho) Hs. exact (proj1 (dw_dtheta_correct sigma theta dt A B M S obs Ho Hs H1 H2 H3)). Qed.
Print Assumptions C21_dtheta.
Theorem C21_dsigma :
  forall sigma theta dt A B M S obs, 0 < sigma ->
  is_derive (fun t => e_sde (dw_energy (K:=RNum) t theta dt A B M S obs)) sigma
            (e_dsig (dw_energy (K:=RNum) sigma theta dt A B M S obs)).
Proof. exact dw_dsigma_correct. Qed.
Print Assumptions C21_dsigma.
Example C21_instance :
  e_sde (dw_energy (K:=RNum) 1 3 1 [0; 0] [0; 0] [0; 0] [1; 1] (Some [])) = - 12.
Proof. exact dw_negative. Qed.
