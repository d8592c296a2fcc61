(** * The Lorenz-96 energy: what the method returns. *)
From Coq Require Import ZArith List Bool Arith Reals Lra Lia Sorted FunctionalExtensionality.
From Coquelicot Require Import Coquelicot.
From Verif Require Import Num Arr ArrFacts M_LinAlg M_Utils M_Sde1 M_L63 M_L96 M_L96E Spec_Utils Spec_Sde1 Spec_L63 Spec_L96 Spec_L96E
  Spec_GaussN P_Trapz P_LinAlg P_Utils P_Ut P_Sde1 P_GaussN P_L63 P_L96 P_RMat P_Det P_Expect P_L96E P_L96F P_L96G P_L96H.
Import ListNotations.
Local Open Scope R_scope.

Lemma map4r_len {A B C D E} (f : A -> B -> C -> D -> result E) a : forall b c d l,
  length b = length a -> length c = length a -> length d = length a -> map4r f a b c d = Ok l -> length l = length a.
Proof.
  induction a as [|a0 a IH]; intros [|b0 b] [|c0 c] [|d0 d] l Hb Hc Hd H; cbn in *; try discriminate.
  - injection H as <-. reflexivity.
  - destruct (f a0 b0 c0 d0) as [e|]; cbn in H; [|discriminate].
    destruct (map4r f a b c d) as [l'|] eqn:E0; cbn in H; [|discriminate]. injection H as <-. cbn. f_equal.
    apply (IH b c d); try lia. exact E0.
Qed.
Lemma E_mvn_co n m S i : (i < n)%nat -> E_mvn n m S (fun x => x i) (m i).
Proof.
  intros Hi. apply (E_mvn_q n m S [(1, Some i, None)]).
  - constructor; [cbn; auto|constructor].
  - intros x. cbn. ring.
  - cbn. unfold mon4, wick. cbn. ring.
Qed.
Lemma solver_exists : exists solve, solver_ok solve.
Proof.
  exists (fun d S => match chol_inv_fast (K:=RNum) d S with Ok (y, _) => Ok (fun b i => Rsum d (fun k => y i k * b k)) | Err _ => Err LinAlgError end).
  split.
  - intros d S Hs Hp. destruct (chol_inv_ok d S Hs Hp) as (y & c & E & Hy & _). rewrite E.
    eexists. split; [reflexivity|]. intros b i Hi. cbn beta.
    rewrite (Rsum_ext d _ (fun k => Rsum d (fun a => S i k * y k a * b a))).
    2:{ intros k Hk. rewrite <- Rsum_scal. apply Rsum_ext. intros; ring. }
    rewrite Rsum_swap. rewrite (Rsum_ext d _ (fun a => ident i a * b a)).
    2:{ intros a Ha. rewrite Rsum_scal_r. f_equal. exact (Hy i a Hi Ha). }
    apply ident_sum. exact Hi.
  - intros d S e H. destruct (chol_inv_fast (K:=RNum) d S) as [[y c]|]; congruence.
Qed.
Lemma wf_ident : wf96 4 [ident; ident] [vz; vz] [vz; vz] [ident; ident] (Some [1%nat]).
Proof.
  split; [lia|]. repeat (split; [reflexivity|]). split.
  - intros o Ho. injection Ho as <-. repeat constructor.
  - intros k Hk. rewrite <- dg_ident. destruct k as [|[|k]]; cbn [nth]; [| |cbn in Hk; lia].
    + split; [apply dg_symm|apply dg_posdef; intros; lra].
    + split; [apply dg_symm|apply dg_posdef; intros; lra].
Qed.

Section Ret.
Variable solve : nat -> (nat -> nat -> R) -> result ((nat -> R) -> nat -> R).
Variables (d : nat) (th : nat -> R) (P : nat -> nat -> R) (dt : R)
  (A : list (nat -> nat -> R)) (B M : list (nat -> R)) (S : list (nat -> nat -> R)) (obs : option (list nat)).

Lemma l96_result : solver_ok solve -> wf96 d A B M S obs ->
  exists e, l96_energy (K:=RNum) solve d th P dt A B M S obs = Ok e /\
    length (n_f e) = length A /\ length (n_df e) = length A /\
    length (n_dm e) = length A /\ length (n_ds e) = length A.
Proof.
  intros Hs W. destruct (l96_grid_wf solve Hs d th P dt A B M S obs W) as (e & E & _).
  exists e. split; [exact E|]. destruct W as (_ & H1 & H2 & H3 & _). unfold l96_energy in E.
  destruct (map4r (l96_point (K:=RNum) solve d th (diagv P)) A B M S) as [l|] eqn:E0; cbn [bind] in E; [|discriminate].
  apply map4r_len in E0; [|assumption..]. injection E as <-. cbn. rewrite !map_length. auto.
Qed.
Lemma l96_indef k : solver_ok solve ->
  (0 < d)%nat -> length B = length A -> length M = length A -> length S = length A ->
  (forall k, (k < length A)%nat -> symm d (gm S k)) ->
  (k < length A)%nat -> ~ posdef d (gm S k) ->
  l96_energy (K:=RNum) solve d th P dt A B M S obs = Err LinAlgError.
Proof. intros. eapply l96_grid_err; eassumption. Qed.

Variable e : EnergyN RNum.
Lemma l96_sde (L : nat -> nat -> nat -> R) : solver_ok solve ->
  wf96 d A B M S obs -> l96_energy (K:=RNum) solve d th P dt A B M S obs = Ok e ->
  (forall k, (k < length A)%nat -> scaled_root d (gm S k) (L k)) ->
  n_sde e = trap (length A) (fun k => uavg d (hring d th P (gm A k) (gv B k) (gv M k) (L k))) dt.
Proof.
  intros Hs W E HL. destruct (l96_grid_wf solve Hs d th P dt A B M S obs W) as (e' & E' & G & _).
  rewrite E in E'. injection E' as <-. rewrite G. destruct W as (Hd & _ & _ & _ & _ & Hk).
  unfold trap. apply Rsum_ext. intros k Hkk. rewrite Nat.add_1_r. f_equal. f_equal. f_equal; apply uavg_ext; intros r Hr.
  - destruct (Hk k) as [K1 K2]; [lia|]. apply hpt_root; auto. apply HL; lia.
  - destruct (Hk (Datatypes.S k)) as [K1 K2]; [lia|]. apply hpt_root; auto. apply HL; lia.
Qed.
Lemma uavg_nonneg f : (forall r, (r < 2 * d + 1)%nat -> 0 <= f r) -> 0 <= uavg d f.
Proof.
  intros H. unfold uavg. apply (sumn_nonneg (2 * d + 1) (fun r => sig_w d r * f r)). intros r Hr.
  apply Rmult_le_pos; [|apply H, Hr]. destruct r; cbn [sig_w]; [lra|].
  destruct d as [|d']; [cbn in Hr; lia|]. apply Rlt_le, Rdiv_lt_0_compat; [lra|].
  apply Rmult_lt_0_compat; [lra|]. apply lt_0_INR. lia.
Qed.
Lemma l96_nonneg : solver_ok solve ->
  wf96 d A B M S obs -> l96_energy (K:=RNum) solve d th P dt A B M S obs = Ok e ->
  0 <= dt -> (forall j, (j < d)%nat -> 0 <= P j j) -> 0 <= n_sde e.
Proof.
  intros Hs W E Hdt HP. destruct (l96_grid_wf solve Hs d th P dt A B M S obs W) as (e' & E' & G & _).
  rewrite E in E'. injection E' as <-. rewrite G. apply trap_nonneg; [exact Hdt|]. intros k Hk.
  apply uavg_nonneg. intros r Hr. unfold hpt. apply Rmult_le_pos; [lra|].
  apply (sumn_nonneg d (fun j => P j j * mpt d th (gm A k) (gv B k) (gv M k) (gm S k) r j ^ 2)).
  intros j Hj. apply Rmult_le_pos; [apply HP, Hj|apply pow2_ge_0].
Qed.
Lemma l96_diag P' e' : solver_ok solve ->
  wf96 d A B M S obs -> l96_energy (K:=RNum) solve d th P dt A B M S obs = Ok e ->
  l96_energy (K:=RNum) solve d th P' dt A B M S obs = Ok e' ->
  (forall j, (j < d)%nat -> P j j = P' j j) -> n_sde e = n_sde e'.
Proof.
  intros Hs W E E' HP.
  pose proof (esde_T solve Hs d th P dt A B M S obs W) as Q. pose proof (esde_T solve Hs d th P' dt A B M S obs W) as Q'.
  rewrite E in Q. rewrite E' in Q'. cbn [esde_of] in Q, Q'. rewrite Q, Q'. f_equal. apply Rsum_ext.
  intros j Hj. rewrite HP by exact Hj. reflexivity.
Qed.
Lemma l96_avg k i : solver_ok solve ->
  wf96 d A B M S obs -> l96_energy (K:=RNum) solve d th P dt A B M S obs = Ok e ->
  (k < length A)%nat -> (i < d)%nat ->
  E_mvn d (gv M k) (gm S k) (fun x => f96 d th x i) (nth k (n_f e) vz i) /\
  ((4 <= d)%nat -> forall j, is_derive (fun t => f96 d th (vset j t (gv M k)) i) (gv M k j) (nth k (n_df e) mz i j)).
Proof.
  intros Hs W E Hk Hi. destruct (l96_grid_wf solve Hs d th P dt A B M S obs W) as (e' & E' & _ & G & _).
  rewrite E in E'. injection E' as <-. destruct (G k Hk) as [G1 G2]. split.
  - rewrite G1. apply E96_mvn. exact Hi.
  - intros H4 j. rewrite G2. apply E96_jac; assumption.
Qed.
Lemma l96_dth_mean j : solver_ok solve ->
  wf96 d A B M S obs -> l96_energy (K:=RNum) solve d th P dt A B M S obs = Ok e -> (j < d)%nat ->
  exists g : nat -> R,
    (forall k, (k < length A)%nat ->
       E_mvn d (gv M k) (gm S k) (fun x => f96 d th x j - glin d (gm A k) (gv B k) x j) (g k)) /\
    n_dth e j = P j j * trap (length A) g dt.
Proof.
  intros Hs W E Hj. destruct (l96_grid_wf solve Hs d th P dt A B M S obs W) as (e' & E' & _ & _ & _ & G & _).
  rewrite E in E'. injection E' as <-. eexists. split; [|apply G]. intros k Hk. cbn beta.
  apply (E_mvn_ext d _ _ (fun x => f96 d th x j + (Rsum d (fun l => gm A k j l * x l) + - gv B k j))).
  { intros x. unfold glin. ring. }
  replace (E96_drift (K:=RNum) d th (gv M k) (gm S k) j + Rsum d (fun l => gm A k j l * gv M k l) - gv B k j)
    with (E96_drift (K:=RNum) d th (gv M k) (gm S k) j + (Rsum d (fun l => gm A k j l * gv M k l) + - gv B k j)) by (req; ring).
  apply E_mvn_plus; [apply E96_mvn; exact Hj|]. apply E_mvn_plus.
  - apply (E_mvn_sum d _ _ d (fun l x => gm A k j l * x l)). intros l Hl.
    apply (E_mvn_scal d _ _ (fun x => x l)). apply E_mvn_co. exact Hl.
  - apply E_mvn_const.
Qed.
Lemma l96_score k L Bi : solver_ok solve -> wf96 d A B M S obs ->
  l96_energy (K:=RNum) solve d th P dt A B M S obs = Ok e -> (k < length A)%nat ->
  scaled_root d (gm S k) L -> is_prod d Bi (gm S k) ident ->
  let h := hring d th P (gm A k) (gv B k) (gv M k) L in
  let z := fun r i => Rsum d (fun a => Bi i a * (sig_pt d (gv M k) L r a - gv M k a)) in
  (forall i, (i < d)%nat -> nth k (n_dm e) vz i = uavg d (fun r => h r * z r i)) /\
  (forall i j, (i < d)%nat -> (j < d)%nat -> nth k (n_ds e) mz i j =
     1 / 2 * (uavg d (fun r => h r * (z r i * z r j)) - uavg d h * Bi i j)).
Proof.
  intros Hs W E Hk HL HB h z. destruct (l96_grid_wf solve Hs d th P dt A B M S obs W) as (e' & E' & _ & _ & G & _).
  rewrite E in E'. injection E' as <-. destruct (G k Bi Hk HB) as [G1 G2]. clear G.
  destruct W as (Hd & _ & _ & _ & _ & Hkk). destruct (Hkk k Hk) as [K1 K2].
  assert (Eh : forall r, (r < 2 * d + 1)%nat -> hpt d th (fun j => P j j) (gm A k) (gv B k) (gv M k) (gm S k) r = h r)
    by (intros r Hr; apply hpt_root; assumption).
  assert (Ez : forall r i, (r < 2 * d + 1)%nat -> zpt d (gv M k) (gm S k) Bi r i = z r i)
    by (intros r i Hr; apply zpt_root; assumption).
  split.
  - intros i Hi. rewrite G1 by exact Hi. apply uavg_ext. intros r Hr. rewrite Eh, Ez by exact Hr. reflexivity.
  - intros i j Hi Hj. rewrite G2 by assumption. f_equal. f_equal; [|f_equal]; apply uavg_ext; intros r Hr.
    + rewrite Eh, !Ez by exact Hr. reflexivity.
    + apply Eh, Hr.
Qed.
Lemma inv_ex k : wf96 d A B M S obs -> (k < length A)%nat -> exists Bi, is_prod d Bi (gm S k) ident.
Proof.
  intros (_ & _ & _ & _ & _ & H) Hk. destruct (H k Hk) as [K1 K2].
  destruct (chol_inv_ok d _ K1 K2) as (y & c & _ & _ & Hy & _). exists y. exact Hy.
Qed.
Lemma l96_dm_cols k L c : solver_ok solve -> wf96 d A B M S obs ->
  l96_energy (K:=RNum) solve d th P dt A B M S obs = Ok e -> (k < length A)%nat ->
  scaled_root d (gm S k) L -> (c < d)%nat ->
  let h := hring d th P (gm A k) (gv B k) (gv M k) L in
  Rsum d (fun i => L i c * nth k (n_dm e) vz i) = (h (1 + c)%nat - h (1 + d + c)%nat) / 2.
Proof.
  intros Hs W E Hk HL Hc h. destruct (inv_ex k W Hk) as [Bi HB].
  destruct (l96_score k L Bi Hs W E Hk HL HB) as [G _].
  etransitivity; [|exact (col_dm d (gm S k) L Bi (gv M k) (proj1 W) HL HB h c Hc)].
  apply Rsum_ext. intros i Hi. rewrite G by exact Hi. reflexivity.
Qed.
Lemma l96_ds_cols k L a b : solver_ok solve -> wf96 d A B M S obs ->
  l96_energy (K:=RNum) solve d th P dt A B M S obs = Ok e -> (k < length A)%nat ->
  scaled_root d (gm S k) L -> (a < d)%nat -> (b < d)%nat ->
  let h := hring d th P (gm A k) (gv B k) (gv M k) L in
  Rsum d (fun i => Rsum d (fun j => L i a * nth k (n_ds e) mz i j * L j b)) =
  if Nat.eqb a b then 41 / 40 * INR d * ((h (1 + a)%nat + h (1 + d + a)%nat) / 2 - uavg d h) else 0.
Proof.
  intros Hs W E Hk HL Ha Hb h. destruct (inv_ex k W Hk) as [Bi HB].
  destruct (l96_score k L Bi Hs W E Hk HL HB) as [_ G].
  etransitivity; [|exact (col_ds d (gm S k) L Bi (gv M k) (proj1 W) HL HB h a b Ha Hb)].
  apply Rsum_ext. intros i Hi. apply Rsum_ext. intros j Hj. rewrite G by assumption. reflexivity.
Qed.
End Ret.
Lemma inst96 solve : solver_ok solve -> exists e,
  l96_energy (K:=RNum) solve 4 (fun _ => 8) (dg (fun _ => 2)) 1 [ident; ident] [vz; vz] [vz; vz] [ident; ident] None = Ok e /\
  n_dth e 2%nat = 16.
Proof.
  intros Hs. assert (W : wf96 4 [ident; ident] [vz; vz] [vz; vz] [ident; ident] None).
  { destruct wf_ident as (a & b & c & f & _ & g). repeat (split; [assumption|]). split; [discriminate|exact g]. }
  destruct (l96_grid_wf solve Hs 4 (fun _ => 8) (dg (fun _ => 2)) 1 _ _ _ _ _ W) as (e & E & _ & _ & _ & G & _).
  exists e. split; [exact E|]. rewrite G. cbn [length]. rewrite trap2. cbn [nth].
  rewrite E96_ix by lia. rewrite (Rsum_z 4) by (intros; ring).
  unfold f96, dg, nxt, prv, ident. cbn [Nat.eqb Nat.add Nat.sub]. req. field.
Qed.
