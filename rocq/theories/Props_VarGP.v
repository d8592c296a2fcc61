(** * Properties C29 - C32 and C47: the variational objective. *)
From Coq Require Import ZArith Reals Lra Lia Arith Bool List Sorted.
From Coquelicot Require Import Coquelicot.
From Verif Require Import Num Arr M_LinAlg M_Utils M_Ode M_Moments M_Sde1 M_L63 M_L96 M_Prior M_Like M_VarGP
  Spec_Utils Spec_Gauss Spec_GaussN Spec_Sde1 Spec_L63 Spec_L96 Spec_Prior Spec_VarGP
  P_Ode P_RMat P_GaussN P_Prior P_L63 P_VarGP P_Stein P_Init P_Adjoint P_Grad1.
Import ListNotations.
Local Open Scope R_scope.

(** ** C29: one layout *)
(** one dimension, for arrays over any numbers (binary64 included) *)
Theorem C29_round_trip_1d :
  forall (K : Num) (n : nat) (a b : list K), length a = n -> length b = n ->
  length (pack1 a b) = (n * 1 * (1 + 1))%nat /\ unpack1 n (pack1 a b) = (a, b) /\ sim_unpack1 n (pack1 a b) = (a, b).
Proof.
  intros K n a b Ha Hb. assert (E := unpack1_pack a b n Ha).
  split; [unfold pack1; rewrite app_length; lia|]. split; [exact E|].
  unfold unpack1 in E. unfold sim_unpack1. replace (n * 1 * 1)%nat with n in E by lia. exact E.
Qed.
Print Assumptions C29_round_trip_1d.
Theorem C29_unpack_pack_1d :
  forall (K : Num) (n : nat) (x : list K), length x = (n * 1 * (1 + 1))%nat ->
  pack1 (fst (unpack1 n x)) (snd (unpack1 n x)) = x /\
  length (fst (unpack1 n x)) = n /\ length (snd (unpack1 n x)) = n.
Proof. intros K n x H. exact (pack1_unpack x n H). Qed.
Print Assumptions C29_unpack_pack_1d.
(** n dimensions: unpacking a packed pair returns the same entries; VarGP and Simulation.run
    unpack in the same way *)
Theorem C29_round_trip_nd :
  forall (K : Num) (n d : nat) (a : list (mat K)) (b : list (vec K)), length a = n -> length b = n ->
  length (packn d a b) = (n * d * (d + 1))%nat /\
  exists a' b', unpackn n d (packn d a b) = Ok (a', b') /\ sim_unpackn n d (packn d a b) = Ok (a', b') /\
  length a' = n /\ length b' = n /\
  forall k i, (k < n)%nat -> (i < d)%nat ->
    nth k b' zv i = nth k b zv i /\ (forall j, (j < d)%nat -> nth k a' zm i j = nth k a zm i j).
Proof.
  intros K n d a b Ha Hb. split; [exact (packn_len d a b n Ha Hb)|].
  destruct (unpackn_pack d a b n Ha Hb) as (a' & b' & E & H).
  destruct (unpackn_len d _ n a' b' E) as [L1 L2]. exists a', b'. auto.
Qed.
Print Assumptions C29_round_trip_nd.
Theorem C29_unpack_pack_nd :
  forall (K : Num) (n d : nat) (x : list K), length x = (n * d * (d + 1))%nat ->
  exists a b, unpackn n d x = Ok (a, b) /\ length a = n /\ length b = n /\ packn d a b = x.
Proof.
  intros K n d x H. destruct (packn_unpack d x n H) as (a & b & E & Hp). exists a, b.
  destruct (unpackn_len d x n a b E). auto.
Qed.
Print Assumptions C29_unpack_pack_nd.
(** a vector of another length is rejected *)
Theorem C29_wrong_length :
  forall (K : Num) (n d : nat) (x : list K), length x <> (n * d * (d + 1))%nat -> unpackn n d x = Err ValueError.
Proof. intros K n d x H. exact (unpackn_err d x n H). Qed.
Print Assumptions C29_wrong_length.
(** the positions of the entries *)
Theorem C29_positions :
  forall (K : Num) (n d : nat) (a : list (mat K)) (b : list (vec K)) k i j z, length a = n -> length b = n ->
  (k < n)%nat -> (i < d)%nat -> (j < d)%nat ->
  nth ((k * d + i) * d + j) (packn d a b) z = nth k a zm i j /\
  nth (n * d * d + k * d + i) (packn d a b) z = nth k b zv i.
Proof.
  intros K n d a b k i j z Ha Hb Hk Hi Hj. split.
  - apply packn_nth_a; [rewrite Ha|..]; assumption.
  - apply packn_nth_b; [..|rewrite Hb|]; assumption.
Qed.
Print Assumptions C29_positions.
(** lengths: initialization and gradient *)
Theorem C29_init_length :
  forall (spline : list R -> list R -> R -> R),
  (forall sigma tw obs_t obs_y x, init1 (K:=RNum) spline sigma tw obs_t obs_y = Ok x ->
     length x = (length tw * 1 * (1 + 1))%nat) /\
  (forall d dt sigma tw obs_t obs_y x, initn (K:=RNum) spline d dt sigma tw obs_t obs_y = Ok x ->
     length x = (length tw * d * (d + 1))%nat).
Proof. intros spline. split; [exact (init1_len spline)|exact (initn_len spline)]. Qed.
Print Assumptions C29_init_length.
Theorem C29_gradient_length :
  forall (K : Num) nln npi mtd n dt,
  (forall energy sigma isig m0 s0 mu tau y t r h x e s g,
     fst (gradient (vgp1 (K:=K) nln npi energy mtd n dt sigma isig m0 s0 mu tau y t r h) x e s) = Ok g ->
     length g = (n * 1 * (1 + 1))%nat) /\
  (forall energy d sigma isig m0 s0 mu tau y t r h x e s g,
     fst (gradient (vgpn (K:=K) nln npi energy mtd n d dt sigma isig m0 s0 mu tau y t r h) x e s) = Ok g ->
     length g = (n * d * (d + 1))%nat).
Proof.
  intros K nln npi mtd n dt. split; intros *; intros H.
  - refine (gradient_len _ _ _ x e s g _ (eq_trans (surjective_pairing _) (f_equal2 pair H eq_refl))).
    intros a b Ha Hb. cbn [vgp1 v_pack v_n] in *. unfold pack1.
    transitivity (length a + length b)%nat; [exact (app_length a b)|]. transitivity (n + n)%nat; [exact (f_equal2 Nat.add Ha Hb)|lia].
  - refine (gradient_len _ _ _ x e s g _ (eq_trans (surjective_pairing _) (f_equal2 pair H eq_refl))).
    intros a b Ha Hb. exact (packn_len d a b n Ha Hb).
Qed.
Print Assumptions C29_gradient_length.
Example C29_instance :
  let A := fun k i j => IZR (Z.of_nat (100 * k + 10 * i + j)) in
  nth 6 (packn (K:=RNum) 2 [A 1%nat; A 2%nat] [A 3%nat 0%nat; A 4%nat 0%nat]) 0 = 210 /\
  nth 10 (packn (K:=RNum) 2 [A 1%nat; A 2%nat] [A 3%nat 0%nat; A 4%nat 0%nat]) 0 = 400.
Proof. split; reflexivity. Qed.

(** ** C30: derivatives of the expected mismatch at one time *)
Theorem C30_ou :
  forall sigma theta dt (A B M S : list R) obs k,
  0 < sigma -> length B = length A -> length M = length A -> length S = length A -> (k < length A)%nat -> 0 < nth k S 0 ->
  let en := ou_energy (K:=RNum) sigma theta dt A B M S obs in
  let a := nth k A 0 in let b := nth k B 0 in let m := nth k M 0 in let s := nth k S 0 in
  let db := dEsde_db1 (K:=RNum) (/ sigma) (nth k (e_f en) 0) m a b in
  (exists e : R -> R, (forall t, E_normal m s (mismatch (f_ou theta) sigma a t) (e t)) /\ is_derive e b db) /\
  (exists e : R -> R, (forall t, E_normal m s (mismatch (f_ou theta) sigma t b) (e t)) /\
     is_derive e a (dEsde_da1 (K:=RNum) (/ sigma) a m s (nth k (e_df en) 0) db)).
Proof.
  intros sigma theta dt A B M S obs k Hsg H1 H2 H3 Hk Hs. cbn zeta.
  destruct (eo_val _ _ _ _ _ _ (ou_energy_ok sigma theta dt) A B M S obs k H1 H2 H3 Hk) as (_ & _ & E1 & E2). cbn zeta in E1, E2.
  rewrite E2, E1. split; [apply ou_db|apply ou_da]; assumption.
Qed.
Print Assumptions C30_ou.
Theorem C30_dw :
  forall sigma theta dt (A B M S : list R) obs k,
  0 < sigma -> length B = length A -> length M = length A -> length S = length A -> (k < length A)%nat -> 0 < nth k S 0 ->
  let en := dw_energy (K:=RNum) sigma theta dt A B M S obs in
  let a := nth k A 0 in let b := nth k B 0 in let m := nth k M 0 in let s := nth k S 0 in
  let db := dEsde_db1 (K:=RNum) (/ sigma) (nth k (e_f en) 0) m a b in
  (exists e : R -> R, (forall t, E_normal m s (mismatch (f_dw theta) sigma a t) (e t)) /\ is_derive e b db) /\
  (exists e : R -> R, (forall t, E_normal m s (mismatch (f_dw theta) sigma t b) (e t)) /\
     is_derive e a (dEsde_da1 (K:=RNum) (/ sigma) a m s (nth k (e_df en) 0) db)).
Proof.
  intros sigma theta dt A B M S obs k Hsg H1 H2 H3 Hk Hs. cbn zeta.
  destruct (eo_val _ _ _ _ _ _ (dw_energy_ok sigma theta dt) A B M S obs k H1 H2 H3 Hk) as (_ & _ & E1 & E2). cbn zeta in E1, E2.
  rewrite E2, E1. split; [apply dw_db|apply dw_da]; assumption.
Qed.
Print Assumptions C30_dw.
(** Lorenz 63, every entry of A and b; P is the inverse noise (symmetric), not only its diagonal *)
Theorem C30_l63 :
  forall (th : nat -> R) (P : nat -> nat -> R) dt (A : list (nat -> nat -> R)) (B M : list (nat -> R)) (S : list (nat -> nat -> R)) obs k,
  symm 3 P -> symm 3 (nth k S zmR) ->
  length B = length A -> length M = length A -> length S = length A -> (k < length A)%nat ->
  let en := l63_energy (K:=RNum) th P dt A B M S obs in
  let a := nth k A zmR in let b := nth k B zvR in let m := nth k M zvR in let s := nth k S zmR in
  let f := f63 (th 0%nat) (th 1%nat) (th 2%nat) in
  let db := dEsde_dbn (K:=RNum) 3 P (nth k (n_f en) zvR) m a b in
  (forall i, (i < 3)%nat -> exists e : R -> R,
     (forall t, E_mvn 3 m s (mismatch_n 3 P f (glin 3 a (vset i t b))) (e t)) /\ is_derive e (b i) (db i)) /\
  (forall i j, (i < 3)%nat -> (j < 3)%nat -> exists e : R -> R,
     (forall t, E_mvn 3 m s (mismatch_n 3 P f (glin 3 (mset i j t a) b)) (e t)) /\
     is_derive e (a i j) (dEsde_dan (K:=RNum) 3 P a m s (nth k (n_df en) zmR) db i j)).
Proof.
  intros th P dt A B M S obs k HP HS H1 H2 H3 Hk. cbn zeta.
  pose proof (l63_f_nth th P dt A B M S obs H2 H3 k Hk) as E1.
  pose proof (l63_df_nth th P dt A B M S obs H2 k Hk) as E2.
  split.
  - intros i Hi. destruct (l63_db th (nth k M zvR) (nth k S zmR) P (nth k A zmR) (nth k B zvR) i HP HS Hi) as (e & He & Hd).
    exists e. split; [exact He|]. unfold vec, mat in *. rewrite <- E1 in Hd. exact Hd.
  - intros i j Hi Hj. destruct (l63_da th (nth k M zvR) (nth k S zmR) P (nth k A zmR) (nth k B zvR) i j HP HS Hi Hj) as (e & He & Hd).
    exists e. split; [exact He|]. unfold vec, mat in *. rewrite <- E1, <- E2 in Hd. exact Hd.
Qed.
Print Assumptions C30_l63.
(** Lorenz 96 with at least 4 sites *)
Theorem C30_l96 :
  forall n (u m : nat -> R) (S P A : nat -> nat -> R) b,
  (4 <= n)%nat -> symm n P -> symm n S ->
  let f := f96 n u in
  let db := dEsde_dbn (K:=RNum) n P (E96_drift (K:=RNum) n u m S) m A b in
  (forall i, (i < n)%nat -> exists e : R -> R,
     (forall t, E_mvn n m S (mismatch_n n P f (glin n A (vset i t b))) (e t)) /\ is_derive e (b i) (db i)) /\
  (forall i j, (i < n)%nat -> (j < n)%nat -> exists e : R -> R,
     (forall t, E_mvn n m S (mismatch_n n P f (glin n (mset i j t A) b)) (e t)) /\
     is_derive e (A i j) (dEsde_dan (K:=RNum) n P A m S (E96_drift_dx (K:=RNum) n m) db i j)).
Proof.
  intros n u m S P A b Hn HP HS. cbn zeta. split.
  - intros i Hi. apply l96_db; assumption.
  - intros i j Hi Hj. apply l96_da; assumption.
Qed.
Print Assumptions C30_l96.
(** E_mvn speaks about the roots of the covariance; a positive definite one has a root *)
Theorem C30_root_exists :
  forall n S, symm n S -> posdef n S -> exists L, is_root n L S.
Proof. exact posdef_root. Qed.
Print Assumptions C30_root_exists.
(** what the gradient adds at one time: the Lagrange terms (1-D and n-D) *)
Theorem C30_grad_at :
  (forall da l m p s : R, grad_at1 (K:=RNum) da l m p s = da - l * m - 2 * p * s) /\
  (forall d (da : nat -> nat -> R) (l m : nat -> R) (p s : nat -> nat -> R) i j,
     grad_atn (K:=RNum) d da l m p s i j = da i j - l i * m j - 2 * Rsum d (fun k => p i k * s k j)).
Proof. split; [intros; reflexivity|]. intros d da l m p s i j. unfold grad_atn, msub, mouter, mscale. rewrite (P_Like.mmul_R d p s i j). reflexivity. Qed.
Print Assumptions C30_grad_at.
Example C30_instance :
  dEsde_db1 (K:=RNum) (/ 2) (- 3 * 5) 5 1 7 = 17 / 2 /\ dEsde_da1 (K:=RNum) (/ 2) 1 5 4 (-3) (17 / 2) = - 93 / 2.
Proof. unfold dEsde_db1, dEsde_da1. rnum. split; field. Qed.

(** ** C31: the gradient of the objective (Euler) *)
(** What gradient() returns: the exact gradient of the left rectangle sum of the expected
    mismatch along the Euler paths, plus linear terms with the observation derivatives (frozen
    at x), where the derivative at grid point k acts on mean and variance at point k + 1. *)
Theorem C31_ou_partial :
  forall n dt sigma theta m0 s0 mu tau r (y : list R) (t : list nat) (x : list R),
  0 < sigma -> (0 < n)%nat -> 0 < r -> length y = length t -> List.Forall (fun i => (i < n)%nat) t ->
  length x = (n * 1 * (1 + 1))%nat -> forall s,
  let a := fun k => nth k x 0 in let b := fun k => nth (n + k) x 0 in
  exists e (g mt st gm gs gr : list R) s',
  (forall a b m s, 0 < s -> E_normal m s (mismatch (f_ou theta) sigma a b) (e a b m s)) /\
  gradient (vgp1 (K:=RNum) ln PI (ou_energy (K:=RNum) sigma theta dt) Euler n dt sigma (/ sigma) m0 s0 mu tau y t r 1) x true s = (Ok g, s') /\
  length g = (n + n)%nat /\ length mt = n /\ length st = n /\
  (forall k, (k < n)%nat -> nth k mt 0 = path_m dt a b m0 k /\ nth k st 0 = path_s dt a sigma s0 k) /\
  like_grad_1d (K:=RNum) y t r 1 mt st = Ok (gm, gs, gr) /\
  forall ua ub, is_derive (fun h => rect_objective e n dt sigma m0 s0 (fun k => nth k gm 0) (fun k => nth k gs 0)
      (fun k => a k + h * ua k) (fun k => b k + h * ub k)) 0
    (Rsum n (fun k => nth k g 0 * ua k + nth (n + k) g 0 * ub k)).
Proof. exact ou_rect. Qed.
Print Assumptions C31_ou_partial.
Theorem C31_dw_partial :
  forall n dt sigma theta m0 s0 mu tau r (y : list R) (t : list nat) (x : list R),
  0 < sigma -> (0 < n)%nat -> 0 < r -> length y = length t -> List.Forall (fun i => (i < n)%nat) t ->
  length x = (n * 1 * (1 + 1))%nat -> forall s,
  let a := fun k => nth k x 0 in let b := fun k => nth (n + k) x 0 in
  exists e (g mt st gm gs gr : list R) s',
  (forall a b m s, 0 < s -> E_normal m s (mismatch (f_dw theta) sigma a b) (e a b m s)) /\
  gradient (vgp1 (K:=RNum) ln PI (dw_energy (K:=RNum) sigma theta dt) Euler n dt sigma (/ sigma) m0 s0 mu tau y t r 1) x true s = (Ok g, s') /\
  length g = (n + n)%nat /\ length mt = n /\ length st = n /\
  (forall k, (k < n)%nat -> nth k mt 0 = path_m dt a b m0 k /\ nth k st 0 = path_s dt a sigma s0 k) /\
  like_grad_1d (K:=RNum) y t r 1 mt st = Ok (gm, gs, gr) /\
  forall ua ub, is_derive (fun h => rect_objective e n dt sigma m0 s0 (fun k => nth k gm 0) (fun k => nth k gs 0)
      (fun k => a k + h * ua k) (fun k => b k + h * ub k)) 0
    (Rsum n (fun k => nth k g 0 * ua k + nth (n + k) g 0 * ub k)).
Proof. exact dw_rect. Qed.
Print Assumptions C31_dw_partial.

(** free_energy and gradient() side by side, in any direction (ua, ub): the derivative of the
    objective is the trapezoidal sum of the energy derivatives de plus the observation terms at
    the observation times; gradient() gives the rectangle sum and observation terms shifted by
    one grid point. *)
Theorem C31_ou_comparison_partial :
  forall n dt sigma theta m0 s0 mu tau r (y : list R) (t : list nat) (x : list R),
  0 < sigma -> (0 < n)%nat -> 0 < r -> length y = length t -> List.Forall (fun i => (i < n)%nat) t ->
  length x = (n * 1 * (1 + 1))%nat -> NoDup t -> Sorted le t -> forall s ua ub,
  let E := vgp1 (K:=RNum) ln PI (ou_energy (K:=RNum) sigma theta dt) Euler n dt sigma (/ sigma) m0 s0 mu tau y t r 1 in
  let a := fun k => nth k x 0 in let b := fun k => nth (n + k) x 0 in
  let am := fun h k => a k + h * ua k in let bm := fun h k => b k + h * ub k in
  exists e (g gm gs : list R) (de dm ds : nat -> R) (F : R -> R),
  (forall a b m s, 0 < s -> E_normal m s (mismatch (f_ou theta) sigma a b) (e a b m s)) /\
  fst (gradient E x true s) = Ok g /\ length g = (n + n)%nat /\
  (forall h s', fst (free_energy E (move n x ua ub h) s') = Ok (F h)) /\
  (forall j, (j < length t)%nat ->
     nth (nth j t O) gm 0 = - (nth j y 0 - path_m dt a b m0 (nth j t O)) / r /\ nth (nth j t O) gs 0 = 1 / 2 / r) /\
  (forall k, ~ In k t -> nth k gm 0 = 0 /\ nth k gs 0 = 0) /\
  (forall k, is_derive (fun h => path_m dt (am h) (bm h) m0 k) 0 (dm k)) /\
  (forall k, is_derive (fun h => path_s dt (am h) sigma s0 k) 0 (ds k)) /\
  (forall k, (k < n)%nat -> is_derive (fun h => e (am h k) (bm h k)
     (path_m dt (am h) (bm h) m0 k) (path_s dt (am h) sigma s0 k)) 0 (de k)) /\
  is_derive F 0 (trap n de dt + Rsum n (fun k => nth k gm 0 * dm k + nth k gs 0 * ds k)) /\
  Rsum n (fun k => nth k g 0 * ua k + nth (n + k) g 0 * ub k) =
    dt * Rsum n de + Rsum (n - 1) (fun k => nth k gm 0 * dm (k + 1)%nat + nth k gs 0 * ds (k + 1)%nat).
Proof. exact ou_gap. Qed.
Print Assumptions C31_ou_comparison_partial.
(** the double well: besides, free_energy has half of the sixth moment (C21) *)
Theorem C31_dw_comparison_partial :
  forall n dt sigma theta m0 s0 mu tau r (y : list R) (t : list nat) (x : list R),
  0 < sigma -> (0 < n)%nat -> 0 < r -> length y = length t -> List.Forall (fun i => (i < n)%nat) t ->
  length x = (n * 1 * (1 + 1))%nat -> NoDup t -> Sorted le t -> forall s ua ub,
  let E := vgp1 (K:=RNum) ln PI (dw_energy (K:=RNum) sigma theta dt) Euler n dt sigma (/ sigma) m0 s0 mu tau y t r 1 in
  let a := fun k => nth k x 0 in let b := fun k => nth (n + k) x 0 in
  let am := fun h k => a k + h * ua k in let bm := fun h k => b k + h * ub k in
  exists e (g gm gs : list R) (de d6 dm ds : nat -> R) (F : R -> R),
  (forall a b m s, 0 < s -> E_normal m s (mismatch (f_dw theta) sigma a b) (e a b m s)) /\
  fst (gradient E x true s) = Ok g /\ length g = (n + n)%nat /\
  (forall h s', fst (free_energy E (move n x ua ub h) s') = Ok (F h)) /\
  (forall j, (j < length t)%nat ->
     nth (nth j t O) gm 0 = - (nth j y 0 - path_m dt a b m0 (nth j t O)) / r /\ nth (nth j t O) gs 0 = 1 / 2 / r) /\
  (forall k, ~ In k t -> nth k gm 0 = 0 /\ nth k gs 0 = 0) /\
  (forall k, is_derive (fun h => path_m dt (am h) (bm h) m0 k) 0 (dm k)) /\
  (forall k, is_derive (fun h => path_s dt (am h) sigma s0 k) 0 (ds k)) /\
  (forall k, (k < n)%nat -> is_derive (fun h => e (am h k) (bm h k)
     (path_m dt (am h) (bm h) m0 k) (path_s dt (am h) sigma s0 k)) 0 (de k)) /\
  (forall k, (k < n)%nat -> is_derive (fun h => mom_elt (K:=RNum) 6
     (path_m dt (am h) (bm h) m0 k) (path_s dt (am h) sigma s0 k)) 0 (d6 k)) /\
  is_derive F 0 (trap n (fun k => de k - 4 / sigma * d6 k) dt + Rsum n (fun k => nth k gm 0 * dm k + nth k gs 0 * ds k)) /\
  Rsum n (fun k => nth k g 0 * ua k + nth (n + k) g 0 * ub k) =
    dt * Rsum n de + Rsum (n - 1) (fun k => nth k gm 0 * dm (k + 1)%nat + nth k gs 0 * ds (k + 1)%nat).
Proof. exact dw_gap. Qed.
Print Assumptions C31_dw_comparison_partial.

(** consequence: for every problem with at least two grid points, the entry of gradient() for
    the last b is twice the derivative of free_energy *)
Theorem C31_last_entry_refuted :
  forall n dt sigma theta m0 s0 mu tau r (y : list R) (t : list nat) (x : list R),
  0 < sigma -> (2 <= n)%nat -> 0 < r -> length y = length t -> List.Forall (fun i => (i < n)%nat) t ->
  length x = (n * 1 * (1 + 1))%nat -> NoDup t -> Sorted le t -> forall s,
  let E := vgp1 (K:=RNum) ln PI (ou_energy (K:=RNum) sigma theta dt) Euler n dt sigma (/ sigma) m0 s0 mu tau y t r 1 in
  let last := (n + (n - 1))%nat in
  exists (g : list R) (F : R -> R),
  fst (gradient E x true s) = Ok g /\
  (forall h s', fst (free_energy E (firstn last x ++ [nth last x 0 + h]) s') = Ok (F h)) /\
  is_derive F 0 (nth last g 0 / 2) /\
  nth last g 0 = dt * ((theta - nth (n - 1) x 0) * path_m dt (fun k => nth k x 0) (fun k => nth (n + k) x 0) m0 (n - 1) + nth last x 0) / sigma.
Proof. exact ou_last. Qed.
Print Assumptions C31_last_entry_refuted.
Theorem C31_last_entry_dw_refuted :
  forall n dt sigma theta m0 s0 mu tau r (y : list R) (t : list nat) (x : list R),
  0 < sigma -> (2 <= n)%nat -> 0 < r -> length y = length t -> List.Forall (fun i => (i < n)%nat) t ->
  length x = (n * 1 * (1 + 1))%nat -> NoDup t -> Sorted le t -> forall s,
  let E := vgp1 (K:=RNum) ln PI (dw_energy (K:=RNum) sigma theta dt) Euler n dt sigma (/ sigma) m0 s0 mu tau y t r 1 in
  let last := (n + (n - 1))%nat in
  exists (g : list R) (F : R -> R),
  fst (gradient E x true s) = Ok g /\
  (forall h s', fst (free_energy E (firstn last x ++ [nth last x 0 + h]) s') = Ok (F h)) /\
  is_derive F 0 (nth last g 0 / 2).
Proof. exact dw_last. Qed.
Print Assumptions C31_last_entry_dw_refuted.
(** and a case where it is not zero *)
Theorem C31_refuted :
  exists (x g : list R) (F : R -> R) D,
  let E := vgp1 (K:=RNum) ln PI (ou_energy (K:=RNum) 1 1 1) Euler 2 1 1 (/ 1) 1 1 0 1 [] [] 1 1 in
  fst (gradient E x true None) = Ok g /\ length x = 4%nat /\
  (forall h, fst (free_energy E (firstn 3 x ++ [nth 3 x 0 + h]) None) = Ok (F h)) /\
  is_derive F 0 D /\ nth 3 g 0 <> D.
Proof. exact ou_refute. Qed.
Print Assumptions C31_refuted.

(** ** C32: no dependence on the history of calls *)
(** for any model, solver and arithmetic *)
Theorem C32_free_energy :
  forall (K : Num) (E : Env K) (h h' : list (call (K:=K))) s s' x,
  fst (free_energy E x (run E h s)) = fst (free_energy E x (run E h' s')).
Proof. intros. apply free_energy_pure. Qed.
Print Assumptions C32_free_energy.
Theorem C32_gradient_eval :
  forall (K : Num) (E : Env K) (h h' : list (call (K:=K))) s s' x,
  fst (gradient E x true (run E h s)) = fst (gradient E x true (run E h' s')).
Proof. intros. apply gradient_eval_pure. Qed.
Print Assumptions C32_gradient_eval.
(** gradient(x) right after free_energy(x), when that call succeeds *)
Theorem C32_gradient_after :
  forall (K : Num) (E : Env K) (h h' : list (call (K:=K))) s s' x,
  (exists v, fst (free_energy E x (run E h s)) = Ok v) ->
  fst (gradient E x false (snd (free_energy E x (run E h s)))) = fst (gradient E x true (run E h' s')).
Proof.
  intros K E h h' s s' x Hv. rewrite (proj1 (gradient_after E x _ Hv)). apply gradient_eval_pure.
Qed.
Print Assumptions C32_gradient_after.
(** outside these cases the state matters: without a preceding free_energy(x) the result
    belongs to other calls or raises KeyError *)
Theorem C32_fresh :
  forall (K : Num) (E : Env K) x, (exists ab, v_unpack E x = Ok ab) -> fst (gradient E x false None) = Err KeyError.
Proof. exact @gradient_fresh. Qed.
Print Assumptions C32_fresh.
(** when free_energy(x) raises, gradient(x, eval_fun=True) raises the same exception and the
    stored output stays as it was *)
Theorem C32_failed :
  forall (K : Num) (E : Env K) x s e, fst (free_energy E x s) = Err e ->
  snd (free_energy E x s) = s /\ gradient E x true s = (Err e, s).
Proof.
  intros K E x s e H. unfold gradient. unfold free_energy in *.
  destruct (fe_core E x) as [[v o]|e']; cbn in *; [discriminate|]. injection H as ->. split; reflexivity.
Qed.
Print Assumptions C32_failed.

(** ** C47: the starting point *)
(** 0.25 I makes the right-hand side of the covariance equation the off-diagonal part of the
    noise: zero on the diagonal, and zero altogether for diagonal noise *)
Theorem C47_stationary :
  (forall sigma : R, fun_st_1 RNum (1 / 4) (1 / 2 * (sigma / (1 / 4)) * 1) sigma = 0) /\
  (forall d (sigma : nat -> nat -> R) i j, (i < d)%nat -> (j < d)%nat ->
     fun_st_n RNum d (fun i j => if Nat.eqb i j then 1 / 4 else 0) (init_a (K:=RNum) sigma) sigma i j =
     if Nat.eqb i j then 0 else sigma i j).
Proof. split; [exact st_quarter_1|exact st_quarter]. Qed.
Print Assumptions C47_stationary.
(** and it is the only diagonal matrix that does so for positive noise (one dimension) *)
Theorem C47_stationary_unique :
  forall sigma a : R, fun_st_1 RNum (1 / 4) a sigma = 0 -> a = 1 / 2 * (sigma / (1 / 4)) * 1.
Proof. intros sigma a. unfold fun_st_1. rnum. intros H. lra. Qed.
Print Assumptions C47_stationary_unique.
(** the Euler sweep started at 0.25 I keeps it *)
Theorem C47_variance_stays :
  (forall (dt sigma m0 : R) (a b mt st : list R),
     (forall k, (k < length b)%nat -> nth k a 0 = 1 / 2 * (sigma / (1 / 4)) * 1) ->
     solve_fwd (sys1 RNum) Euler dt a b m0 (1 / 4) sigma = Ok (mt, st) ->
     forall k, (k < length b)%nat -> nth k st 0 = 1 / 4) /\
  (forall d (dt : R) (sigma : nat -> nat -> R) m0 (a : list (nat -> nat -> R)) (b mt : list (nat -> R)) (st : list (nat -> nat -> R)),
     (forall i j, (i < d)%nat -> (j < d)%nat -> i <> j -> sigma i j = 0) ->
     (forall k i j, (k < length b)%nat -> (i < d)%nat -> (j < d)%nat -> nth k a zmR i j = init_a (K:=RNum) sigma i j) ->
     solve_fwd (sysn RNum d) Euler dt a b m0 (fun i j => if Nat.eqb i j then 1 / 4 else 0) sigma = Ok (mt, st) ->
     forall k i j, (k < length b)%nat -> (i < d)%nat -> (j < d)%nat -> nth k st zmR i j = if Nat.eqb i j then 1 / 4 else 0).
Proof. split; [exact euler_quarter_1|exact euler_quarter_n]. Qed.
Print Assumptions C47_variance_stays.
(** the vector returned by initialization (n-D), unpacked and swept forward by the Euler solver
    from the interpolant, stays on the interpolant, whatever curve scipy interpolates *)
Theorem C47_mean_follows :
  forall (spline : list R -> list R -> R -> R) d dt sigma (tw : list R) obs_t obs_y x,
  dt <> 0 -> initn (K:=RNum) spline d dt sigma tw obs_t obs_y = Ok x ->
  exists tx z (a : list (nat -> nat -> R)) (b : list (nat -> R)),
    time_knots (K:=RNum) tw obs_t = Ok tx /\ ends obs_y obs_y = Ok z /\
    unpackn (K:=RNum) (length tw) d x = Ok (a, b) /\
    let curve := fun k => interp (K:=RNum) spline tx z (nth k tw 0) in
    forall s0 sg (mt : list (nat -> R)) (st : list (nat -> nat -> R)),
      solve_fwd (sysn RNum d) Euler dt a b (curve 0%nat) s0 sg = Ok (mt, st) ->
      forall k i, (k < length tw)%nat -> (i < d)%nat -> nth k mt zvR i = curve k i.
Proof. exact initn_sweep. Qed.
Print Assumptions C47_mean_follows.
(** knots: strictly increasing exactly when the observation times are, strictly inside the grid;
    otherwise ValueError, IndexError outside the grid *)
Theorem C47_knots :
  forall (spline : list R -> list R -> R -> R) sigma (tw : list R) obs_t (obs_y : list R),
  LocallySorted Rlt tw -> (1 < length tw)%nat -> obs_y <> [] -> length obs_y = length obs_t ->
  let inside := StronglySorted lt obs_t /\ List.Forall (fun i => (0 < i /\ i + 1 < length tw)%nat) obs_t in
  (List.Forall (fun i => (i < length tw)%nat) obs_t ->
   (inside -> exists x, init1 (K:=RNum) spline sigma tw obs_t obs_y = Ok x) /\
   (~ inside -> init1 (K:=RNum) spline sigma tw obs_t obs_y = Err ValueError)) /\
  (~ List.Forall (fun i => (i < length tw)%nat) obs_t -> init1 (K:=RNum) spline sigma tw obs_t obs_y = Err IndexError).
Proof. exact init1_total. Qed.
Print Assumptions C47_knots.
Theorem C47_knots_nd :
  forall (spline : list R -> list R -> R -> R) d dt sigma (tw : list R) obs_t (obs_y : list (nat -> R)),
  LocallySorted Rlt tw -> (1 < length tw)%nat -> obs_y <> [] -> length obs_y = length obs_t ->
  let inside := StronglySorted lt obs_t /\ List.Forall (fun i => (0 < i /\ i + 1 < length tw)%nat) obs_t in
  (List.Forall (fun i => (i < length tw)%nat) obs_t ->
   (inside -> exists x, initn (K:=RNum) spline d dt sigma tw obs_t obs_y = Ok x) /\
   (~ inside -> initn (K:=RNum) spline d dt sigma tw obs_t obs_y = Err ValueError)) /\
  (~ List.Forall (fun i => (i < length tw)%nat) obs_t -> initn (K:=RNum) spline d dt sigma tw obs_t obs_y = Err IndexError).
Proof. exact initn_total. Qed.
Print Assumptions C47_knots_nd.
(** the knots are grid times *)
Theorem C47_knot_values :
  forall (tw : list R) obs, tw <> [] -> List.Forall (fun i => (i < length tw)%nat) obs ->
  time_knots (K:=RNum) tw obs = Ok (map (fun i => nth i tw 0) (0%nat :: obs ++ [(length tw - 1)%nat])).
Proof. exact time_knots_val. Qed.
Print Assumptions C47_knot_values.
Example C47_instance :
  init_a (K:=RNum) (fun i j => if Nat.eqb i j then 3 else 1) 1%nat 1%nat = 6 /\
  time_knots (K:=RNum) [0; 1; 2; 3] [1%nat] = Ok [0; 1; 3].
Proof. split; [unfold init_a, diag_k, mscale, mdiag; cbn; rnum; field|reflexivity]. Qed.
