(** * Property C65: where the optimiser goes, when it stops and what it records. *)
From Coq Require Import ZArith Reals Lra Lia Arith Bool List.
From Verif Require Import Num Arr M_Ode M_VarGP M_Scg Spec_Utils Spec_ScgAlg P_Scg P_ScgPure P_ScgR P_ScgVgp P_ScgAlg.
Import ListNotations.
Local Open Scope R_scope.

(** Exact arithmetic, any objective (it may keep state and may raise) whose values and gradients
    are those of F and G, any start point and options.  A run that returns has followed
    [place_at]; it stops at the first of: no direction left, step and change of the objective
    within the tolerances, gradient close to zero, iterations used up.  For the k steps tried it
    has recorded the objective, the damping used and the gradient before the last accepted step;
    the other entries are zero. *)
Theorem C65_algorithm :
  forall (W : Type) (f : list R -> W -> result R * W) (df : list R -> bool -> W -> result (list R) * W)
         (F : list R -> R) (G : list R -> list R) (nit : nat) (xtol ftol : R) (x0 : list R) (w : W) x fx st w',
  let n := length x0 in
  (forall x w v w', f x w = (Ok v, w') -> v = F x) ->
  (forall x e w g w', df x e w = (Ok g, w') -> g = G x) ->
  (forall x, length x = n -> length (G x) = n) ->
  scg_run (K:=RNum) f df (mkOpts (K:=RNum) nit xtol ftol) x0 w = (Ok (x, fx), st, w') ->
  exists k, scg_ends F G n nit xtol ftol x0 x k (s_maxit st) /\ fx = F x /\
    length (s_fx st) = nit /\ length (s_dfx st) = nit /\ length (s_beta st) = nit /\
    forall j, (j < nit)%nat ->
      nth j (s_fx st) 0 = (if Nat.ltb j k then F (here (place_at F G n x0 (S j))) else 0) /\
      nth j (s_dfx st) 0 = (if Nat.ltb j k then norm1 (G (before (place_at F G n x0 (S j)))) else 0) /\
      nth j (s_beta st) 0 = (if Nat.ltb j k then damp_used G (place_at F G n x0 j) else 0).
Proof. intros W f df F G nit xtol ftol x0 w x fx st w' n HF HD HG H. exact (run_alg f df F G HF HD n HG nit xtol ftol x0 w x fx st w' eq_refl H). Qed.
Print Assumptions C65_algorithm.

(** a run of functions that do not raise returns, in any arithmetic *)
Theorem C65_returns :
  forall (K : Num) (W : Type) (f : list K -> W -> result K * W) (df : list K -> bool -> W -> result (list K) * W) (o : Opts K) (x0 : list K) (w : W),
  (forall x w, exists v w', f x w = (Ok v, w')) -> (forall x e w, exists g w', df x e w = (Ok g, w')) ->
  exists x fx st w', scg_run f df o x0 w = (Ok (x, fx), st, w').
Proof. intros. apply run_total; assumption. Qed.
Print Assumptions C65_returns.

(** the variational approximation: although the optimiser asks for most gradients without a
    fresh evaluation, the run is the one of the free energy F and its gradient G *)
Theorem C65_vgp :
  forall (E : Env RNum) (F : list R -> R) (G : list R -> list R) (nit : nat) (xtol ftol : R) (x0 : list R) (w : state E) x fx st w',
  let n := length x0 in
  (forall x v, fst (free_energy E x None) = Ok v -> v = F x) ->
  (forall x g, fst (gradient E x true None) = Ok g -> g = G x) ->
  (forall x, length x = n -> length (G x) = n) ->
  scg_run (free_energy E) (gradient E) (mkOpts (K:=RNum) nit xtol ftol) x0 w = (Ok (x, fx), st, w') ->
  exists k, scg_ends F G n nit xtol ftol x0 x k (s_maxit st) /\ fx = F x /\
    forall j, (j < nit)%nat ->
      nth j (s_fx st) 0 = (if Nat.ltb j k then F (here (place_at F G n x0 (S j))) else 0) /\
      nth j (s_dfx st) 0 = (if Nat.ltb j k then norm1 (G (before (place_at F G n x0 (S j)))) else 0) /\
      nth j (s_beta st) 0 = (if Nat.ltb j k then damp_used G (place_at F G n x0 j) else 0).
Proof.
  intros E F G nit xtol ftol x0 w x fx st w' n HF HD HG H. unfold scg_run in H. rewrite vgp_fresh_gradients in H.
  destruct (run_alg (free_energy E) (fun x _ => gradient E x true) F G) with (n := n) (nit := nit) (xtol := xtol) (ftol := ftol) (x0 := x0) (w := w) (x := x) (fx := fx) (st := st) (w' := w')
    as (k & H1 & H2 & H3 & H4 & H5 & H6); [| |exact HG|reflexivity|exact H|exists k; auto].
  - intros y u v u' Q. apply HF. transitivity (fst (free_energy E y u)); [unfold free_energy; destruct (fe_core E y) as [[v0 o]|e]; reflexivity|rewrite Q; reflexivity].
  - intros y _ u g u' Q. apply HD. transitivity (fst (gradient E y true u)); [unfold gradient, free_energy; destruct (fe_core E y) as [[v0 o]|e]; reflexivity|rewrite Q; reflexivity].
Qed.
Print Assumptions C65_vgp.

(** the options: a missing one takes its default *)
Theorem C65_options :
  scg_options (K:=RNum) None None None = mkOpts (K:=RNum) 150 (/ 10 ^ 6) (/ 10 ^ 8) /\
  forall m x f, scg_options (K:=RNum) (Some m) x f = mkOpts m (o_xtol (scg_options (K:=RNum) None x None)) (o_ftol (scg_options (K:=RNum) None None f)) /\
    (forall v, x = Some v -> o_xtol (scg_options (K:=RNum) None x None) = v) /\ (forall v, f = Some v -> o_ftol (scg_options (K:=RNum) None None f) = v).
Proof.
  split.
  - unfold scg_options, or_default. rnum. apply f_equal2; unfold Rdiv; rewrite Rmult_1_l; apply f_equal; ring.
  - intros m x f. split; [reflexivity|]. split; intros v ->; reflexivity.
Qed.
Print Assumptions C65_options.

(** Minimising x^2 from 1 with one iteration goes to 1/3.  The recorded objective is the one
    there, but the recorded gradient is still the one of the start point. *)
Theorem C65_gradient_of_previous_point :
  exists st, scg_run (K:=RNum) (fun x (w : unit) => (Ok (norm1 x * norm1 x), w)) (fun x _ w => (Ok (map (Rmult 2) x), w)) (scg_options (K:=RNum) (Some 1%nat) None None) [1] tt =
    (Ok ([1 / 3], 1 / 9), st, tt) /\ nth 0 (s_fx st) 0 = 1 / 9 /\ nth 0 (s_dfx st) 0 = 2 /\ nth 0 (s_beta st) 0 = 1.
Proof.
  set (f := fun x (w : unit) => (Ok (norm1 x * norm1 x), w)). set (df := fun (x : list R) (_ : bool) (w : unit) => (Ok (map (Rmult 2) x), w)).
  set (F := fun x : list R => norm1 x * norm1 x). set (G := fun x : list R => map (Rmult 2) x).
  destruct (C65_returns RNum unit f df (scg_options (K:=RNum) (Some 1%nat) None None) [1] tt) as (x & fx & st & w' & H);
    [intros; eexists; eexists; reflexivity|intros; eexists; eexists; reflexivity|].
  destruct (C65_algorithm unit f df F G 1 (nlit (n:=RNum) 1 1000000) (nlit (n:=RNum) 1 100000000) [1] tt x fx st w') with (4 := H) as (k & K1 & K2 & _ & _ & _ & K3);
    [intros y u v u' Q; injection Q as <- _; reflexivity|intros y e u g u' Q; injection Q as <- _; reflexivity|intros y Hy; unfold G; rewrite map_length; exact Hy|].
  cbn [length] in *. assert (D1 : forall a b, dotp [a] [b] = a * b) by (intros; unfold dotp; cbn; ring).
  assert (N1 : forall a, norm1 [a] = Rabs a) by (intros; unfold norm1; cbn; ring).
  set (s := start G [1]). assert (P0 : place_at F G 1 [1] 0 = s) by reflexivity.
  assert (EH : heading G s = [-2]).
  { unfold heading. cbn [s start plan here G map minus]. rewrite D1. destruct (Rle_dec 0 (- (2 * 1) * (2 * 1))); [exfalso; lra|]. apply f_equal2; [ring|reflexivity]. }
  assert (ES : size2 G s = 4) by (unfold size2; rewrite EH, D1; ring).
  assert (NS : ~ stuck G s) by (unfold stuck; rewrite ES; intros A; assert (1 / 2 ^ 52 <= 1) by (apply Rle_trans with (1 / 1); [apply Rmult_le_compat_l; [lra|]; apply Rinv_le_contravar; [lra|apply pow_R1_Rle; lra]|lra]); lra).
  assert (EK : k = 1%nat).
  { destruct K1 as [(-> & _)|[(A & _ & _ & B & _)|(r & A & -> & _)]]; [reflexivity| |lia]. assert (k = 0)%nat by lia. subst k. rewrite P0 in B. contradiction. }
  subst k. assert (EX : x = here (place_at F G 1 [1] 1)).
  { destruct K1 as [(_ & _ & A & _)|[(A & _)|(r & A & B & _ & C & _)]]; [exact A|lia|]. assert (r = 0)%nat by lia. subst r. exact C. }
  assert (EP : probe G s = 1 / 2000). { unfold probe. rewrite ES. replace 4 with (2 * 2) by ring. rewrite sqrt_square by lra. field. }
  assert (EC : curvature G s = 8). { unfold curvature. rewrite EP, EH. cbn [s start here]. unfold comb. cbn [length seq map nth G]. rewrite D1. field. }
  assert (ED : damped G s = 12) by (unfold damped; rewrite EC, ES; cbn [s start damp]; ring).
  assert (EU : damp_used G s = 1) by (unfold damp_used; rewrite ED; destruct (Rle_dec 12 0); [lra|reflexivity]).
  assert (EL : step_length G s = 1 / 3). { unfold step_length. rewrite ED. unfold slope. rewrite EH. cbn [s start here G map]. rewrite D1. destruct (Rle_dec 12 0); [lra|field]. }
  assert (ET : trial G s = [1 / 3]). { unfold trial. rewrite EL, EH. cbn [s start here]. unfold comb. cbn [length seq map nth]. apply f_equal2; [field|reflexivity]. }
  assert (FV : forall a, F [a] = a * a). { intros a. unfold F. rewrite N1. rewrite <- Rabs_mult. apply Rabs_right. nra. }
  assert (EA : place_at F G 1 [1] 1 = mkPlace [1 / 3] (next_plan G 1 s) (next_damp F G s) 1 [1]).
  { change (advance F G 1 s = mkPlace [1 / 3] (next_plan G 1 s) (next_damp F G s) 1 [1]). unfold advance. rewrite ET, FV. cbn [s start here]. rewrite FV. destruct (Rle_dec (1 / 3 * (1 / 3)) (1 * 1)); [reflexivity|lra]. }
  destruct (K3 0%nat ltac:(lia)) as (R1 & R2 & R3). cbn [Nat.ltb Nat.leb] in R1, R2, R3. rewrite EA in *. cbn [here before] in *. rewrite P0, EU in R3.
  rewrite FV in R1. unfold G in R2. cbn [map] in R2. rewrite N1 in R2.
  assert (V : 1 / 3 * (1 / 3) = 1 / 9) by field. exists st. destruct w'. split; [etransitivity; [exact H|]; rewrite K2, EX, FV; rewrite V; reflexivity|]. split; [rewrite R1; exact V|]. split; [rewrite R2; rewrite Rabs_right; lra|exact R3].
Qed.
Print Assumptions C65_gradient_of_previous_point.
