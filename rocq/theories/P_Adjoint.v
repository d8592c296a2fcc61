(** * The vector returned by VarGP.gradient (one dimension, Euler). *)
From Coq Require Import ZArith List Bool Arith Reals Lra Lia FunctionalExtensionality Sorted.
From Coquelicot Require Import Coquelicot.
From Verif Require Import Num Arr ArrFacts M_LinAlg M_Utils M_Ode M_Moments M_Sde1 M_Prior M_Like M_VarGP
  Spec_Utils Spec_Gauss Spec_Sde1 Spec_VarGP P_Ode P_Trapz P_Sde1 P_RMat P_Det P_Like P_VarGP.
Import ListNotations.
Local Open Scope R_scope.

(** ** summation by parts *)
Lemma adjoint_sum (dt : R) (c u d lam g o : nat -> R) n :
  d O = 0 -> (forall k, d (S k) = (1 - dt * c k) * d k + dt * u k) ->
  lam (n - 1)%nat = 0 ->
  (forall k, (k + 1 < n)%nat -> lam k = lam (k + 1)%nat * (1 - dt * c (k + 1)%nat) + dt * g (k + 1)%nat + o k) ->
  Rsum n (fun k => dt * (lam k * u k)) =
  Rsum n (fun k => dt * (g k * d k)) + Rsum (n - 1) (fun k => o k * d (k + 1)%nat).
Proof.
  intros H0 Hd Hn Hl. destruct n as [|n]; [cbn; ring|]. replace (S n - 1)%nat with n in * by lia.
  assert (G : forall j, (j <= n)%nat ->
    Rsum (S j) (fun k => dt * (lam k * u k)) =
    lam j * d (S j) + Rsum (S j) (fun k => dt * (g k * d k)) + Rsum j (fun k => o k * d (k + 1)%nat)).
  { induction j as [|j IH]; intros Hj.
    - cbn [Rsum]. rewrite (Hd O), H0. ring.
    - assert (E : Rsum (S (S j)) (fun k => dt * (lam k * u k)) = Rsum (S j) (fun k => dt * (lam k * u k)) + dt * (lam (S j) * u (S j))) by reflexivity.
      rewrite E, IH by lia. clear E.
      assert (E1 : Rsum (S (S j)) (fun k => dt * (g k * d k)) = Rsum (S j) (fun k => dt * (g k * d k)) + dt * (g (S j) * d (S j))) by reflexivity.
      assert (E2 : Rsum (S j) (fun k => o k * d (k + 1)%nat) = Rsum j (fun k => o k * d (k + 1)%nat) + o j * d (j + 1)%nat) by reflexivity.
      rewrite E1, E2. clear E1 E2. rewrite (Hd (S j)). pose proof (Hl j ltac:(lia)) as L. rewrite !Nat.add_1_r in *.
      rewrite L. ring. }
  rewrite (G n (le_n n)), Hn. ring.
Qed.

(** ** derivatives of the paths along a direction *)
Section Line.
Context (dt sigma m0 s0 : R) (a b ua ub : nat -> R).
Definition at_ (t : R) : nat -> R := fun k => a k + t * ua k.
Definition bt_ (t : R) : nat -> R := fun k => b k + t * ub k.
Definition mk_ k := path_m dt a b m0 k.
Definition sk_ k := path_s dt a sigma s0 k.
Fixpoint dm_ k : R := match k with O => 0 | S k' => (1 - dt * a k') * dm_ k' + dt * (ub k' - ua k' * mk_ k') end.
Fixpoint ds_ k : R := match k with O => 0 | S k' => (1 - dt * (2 * a k')) * ds_ k' + dt * (- 2 * ua k' * sk_ k') end.
Lemma at_0 : at_ 0 = a. Proof. apply functional_extensionality. intros k. unfold at_. ring. Qed.
Lemma bt_0 : bt_ 0 = b. Proof. apply functional_extensionality. intros k. unfold bt_. ring. Qed.
Lemma at_d k : is_derive (fun t => at_ t k) 0 (ua k).
Proof. unfold at_. auto_derive; [exact I|ring]. Qed.
Lemma bt_d k : is_derive (fun t => bt_ t k) 0 (ub k).
Proof. unfold bt_. auto_derive; [exact I|ring]. Qed.
Lemma step_m_d (A B M : R -> R) A' B' M' : is_derive A 0 A' -> is_derive B 0 B' -> is_derive M 0 M' ->
  is_derive (fun t => M t + dt * (- A t * M t + B t)) 0 (M' + dt * (- A' * M 0 - A 0 * M' + B')).
Proof.
  intros HA HB HM. pose proof (is_derive_unique _ _ _ HA) as EA. pose proof (is_derive_unique _ _ _ HB) as EB.
  pose proof (is_derive_unique _ _ _ HM) as EM. auto_derive.
  - repeat split; eexists; eassumption.
  - change (fun x : R => A x) with A. change (fun x : R => B x) with B. change (fun x : R => M x) with M. rewrite EA, EB, EM. ring.
Qed.
Lemma step_s_d (A M : R -> R) A' M' : is_derive A 0 A' -> is_derive M 0 M' ->
  is_derive (fun t => M t + dt * (- 2 * A t * M t + sigma)) 0 (M' + dt * (- 2 * A' * M 0 - 2 * A 0 * M')).
Proof.
  intros HA HM. pose proof (is_derive_unique _ _ _ HA) as EA.
  pose proof (is_derive_unique _ _ _ HM) as EM. auto_derive.
  - repeat split; eexists; eassumption.
  - change (fun x : R => A x) with A. change (fun x : R => M x) with M. rewrite EA, EM. ring.
Qed.
Lemma path_m_d k : is_derive (fun t => path_m dt (at_ t) (bt_ t) m0 k) 0 (dm_ k).
Proof.
  induction k as [|k IH]; [cbn; apply @is_derive_const|]. cbn [path_m dm_].
  replace ((1 - dt * a k) * dm_ k + dt * (ub k - ua k * mk_ k))
    with (dm_ k + dt * (- ua k * path_m dt (at_ 0) (bt_ 0) m0 k - at_ 0 k * dm_ k + ub k))
    by (rewrite at_0, bt_0; unfold mk_; ring).
  apply (step_m_d (fun t => at_ t k) (fun t => bt_ t k) (fun t => path_m dt (at_ t) (bt_ t) m0 k)); [apply at_d|apply bt_d|exact IH].
Qed.
Lemma path_s_d k : is_derive (fun t => path_s dt (at_ t) sigma s0 k) 0 (ds_ k).
Proof.
  induction k as [|k IH]; [cbn; apply @is_derive_const|]. cbn [path_s ds_].
  replace ((1 - dt * (2 * a k)) * ds_ k + dt * (-2 * ua k * sk_ k))
    with (ds_ k + dt * (- 2 * ua k * path_s dt (at_ 0) sigma s0 k - 2 * at_ 0 k * ds_ k))
    by (rewrite at_0; unfold sk_; ring).
  apply (step_s_d (fun t => at_ t k) (fun t => path_s dt (at_ t) sigma s0 k)); [apply at_d|exact IH].
Qed.
End Line.

(** partial derivatives of a function of (a, b, m, s), as a chain rule along curves *)
Definition grad4 (e ea eb em es : R -> R -> R -> R -> R) : Prop :=
  forall (a b m s : R -> R) (t a' b' m' s' : R),
  is_derive a t a' -> is_derive b t b' -> is_derive m t m' -> is_derive s t s' ->
  is_derive (fun t => e (a t) (b t) (m t) (s t)) t
    (ea (a t) (b t) (m t) (s t) * a' + eb (a t) (b t) (m t) (s t) * b'
     + em (a t) (b t) (m t) (s t) * m' + es (a t) (b t) (m t) (s t) * s').

Section Rect.
Context (e ea eb em es : R -> R -> R -> R -> R) (G4 : grad4 e ea eb em es).
Context (n : nat) (dt sigma m0 s0 : R) (om os a b lam psi : nat -> R).
Notation m := (path_m dt a b m0).
Notation s := (path_s dt a sigma s0).
Context (Hlam0 : lam (n - 1)%nat = 0) (Hpsi0 : psi (n - 1)%nat = 0).
Context (Hlam : forall k, (k + 1 < n)%nat -> lam k =
  lam (k + 1)%nat * (1 - dt * a (k + 1)%nat) + dt * em (a (k + 1)%nat) (b (k + 1)%nat) (m (k + 1)%nat) (s (k + 1)%nat) + om k).
Context (Hpsi : forall k, (k + 1 < n)%nat -> psi k =
  psi (k + 1)%nat * (1 - dt * (2 * a (k + 1)%nat)) + dt * es (a (k + 1)%nat) (b (k + 1)%nat) (m (k + 1)%nat) (s (k + 1)%nat) + os k).
Definition ga_of k := dt * (ea (a k) (b k) (m k) (s k) - lam k * m k - 2 * psi k * s k).
Definition gb_of k := dt * (eb (a k) (b k) (m k) (s k) + lam k).

Lemma rect_derive ua ub :
  is_derive (fun t => rect_objective e n dt sigma m0 s0 om os (fun k => a k + t * ua k) (fun k => b k + t * ub k)) 0
    (Rsum n (fun k => ga_of k * ua k + gb_of k * ub k)).
Proof.
  set (dm := dm_ dt m0 a b ua ub). set (ds := ds_ dt sigma s0 a ua).
  assert (Adm := adjoint_sum dt a (fun k => ub k - ua k * m k) dm lam
     (fun k => em (a k) (b k) (m k) (s k)) om n eq_refl (fun k => eq_refl) Hlam0 Hlam).
  assert (Ads := adjoint_sum dt (fun k => 2 * a k) (fun k => - 2 * ua k * s k) ds psi
     (fun k => es (a k) (b k) (m k) (s k)) os n eq_refl (fun k => eq_refl) Hpsi0 Hpsi).
  replace (Rsum n (fun k => ga_of k * ua k + gb_of k * ub k)) with
    (dt * Rsum n (fun k => ea (a k) (b k) (m k) (s k) * ua k + eb (a k) (b k) (m k) (s k) * ub k
       + em (a k) (b k) (m k) (s k) * dm k + es (a k) (b k) (m k) (s k) * ds k)
     + Rsum (n - 1) (fun k => om k * dm (k + 1)%nat + os k * ds (k + 1)%nat)).
  - unfold rect_objective.
    pose proof (at_0 a ua) as A0. pose proof (bt_0 b ub) as B0. unfold at_ in A0. unfold bt_ in B0.
    apply (is_derive_plus (fun t => dt * Rsum n (fun k => e (a k + t * ua k) (b k + t * ub k)
        (path_m dt (fun k => a k + t * ua k) (fun k => b k + t * ub k) m0 k) (path_s dt (fun k => a k + t * ua k) sigma s0 k)))
      (fun t => Rsum (n - 1) (fun k => om k * path_m dt (fun k => a k + t * ua k) (fun k => b k + t * ub k) m0 (k + 1)%nat
          + os k * path_s dt (fun k => a k + t * ua k) sigma s0 (k + 1)%nat))).
    + apply is_derive_scal.
      apply (is_derive_Rsum' n (fun t k => e (a k + t * ua k) (b k + t * ub k)
        (path_m dt (fun k => a k + t * ua k) (fun k => b k + t * ub k) m0 k) (path_s dt (fun k => a k + t * ua k) sigma s0 k))).
      intros k Hk.
      pose proof (G4 (fun t => a k + t * ua k) (fun t => b k + t * ub k)
        (fun t => path_m dt (fun k => a k + t * ua k) (fun k => b k + t * ub k) m0 k)
        (fun t => path_s dt (fun k => a k + t * ua k) sigma s0 k) 0 (ua k) (ub k) (dm k) (ds k)
        (at_d a ua k) (bt_d b ub k) (path_m_d dt m0 a b ua ub k) (path_s_d dt sigma s0 a ua k)) as D.
      cbv beta in D. rewrite A0, B0 in D. rewrite !Rmult_0_l, !Rplus_0_r in D. exact D.
    + apply (is_derive_Rsum' (n - 1) (fun t k => om k * path_m dt (fun k => a k + t * ua k) (fun k => b k + t * ub k) m0 (k + 1)%nat
          + os k * path_s dt (fun k => a k + t * ua k) sigma s0 (k + 1)%nat)).
      intros k Hk.
      apply (is_derive_plus (fun t => om k * path_m dt (fun k => a k + t * ua k) (fun k => b k + t * ub k) m0 (k + 1)%nat)
         (fun t => os k * path_s dt (fun k => a k + t * ua k) sigma s0 (k + 1)%nat)); apply is_derive_scal;
        [exact (path_m_d dt m0 a b ua ub (k + 1))|exact (path_s_d dt sigma s0 a ua (k + 1))].
  - rewrite (Rsum_ext n (fun k => ga_of k * ua k + gb_of k * ub k)
      (fun k => dt * (ea (a k) (b k) (m k) (s k) * ua k + eb (a k) (b k) (m k) (s k) * ub k)
        + (dt * (lam k * (ub k - ua k * m k)) + dt * (psi k * (- 2 * ua k * s k))))) by (intros; unfold ga_of, gb_of; ring).
    rewrite (Rsum_plus n (fun k => dt * (ea (a k) (b k) (m k) (s k) * ua k + eb (a k) (b k) (m k) (s k) * ub k))
       (fun k => dt * (lam k * (ub k - ua k * m k)) + dt * (psi k * (- 2 * ua k * s k)))).
    rewrite (Rsum_plus n (fun k => dt * (lam k * (ub k - ua k * m k))) (fun k => dt * (psi k * (- 2 * ua k * s k)))).
    rewrite Adm, Ads. rewrite <- (Rsum_scal n dt).
    rewrite (Rsum_ext n (fun k => dt * (ea (a k) (b k) (m k) (s k) * ua k + eb (a k) (b k) (m k) (s k) * ub k
       + em (a k) (b k) (m k) (s k) * dm k + es (a k) (b k) (m k) (s k) * ds k))
      (fun k => dt * (ea (a k) (b k) (m k) (s k) * ua k + eb (a k) (b k) (m k) (s k) * ub k)
        + (dt * (em (a k) (b k) (m k) (s k) * dm k) + dt * (es (a k) (b k) (m k) (s k) * ds k)))) by (intros; ring).
    rewrite (Rsum_plus n (fun k => dt * (ea (a k) (b k) (m k) (s k) * ua k + eb (a k) (b k) (m k) (s k) * ub k))
       (fun k => dt * (em (a k) (b k) (m k) (s k) * dm k) + dt * (es (a k) (b k) (m k) (s k) * ds k))).
    rewrite (Rsum_plus n (fun k => dt * (em (a k) (b k) (m k) (s k) * dm k)) (fun k => dt * (es (a k) (b k) (m k) (s k) * ds k))).
    rewrite (Rsum_plus (n - 1) (fun k => om k * dm (k + 1)%nat) (fun k => os k * ds (k + 1)%nat)). ring.
Qed.
End Rect.

(** ** the arrays computed by the Euler solvers *)
Lemma euler_fwd_path (dt sigma m0 s0 : R) (A B mt st : list R) :
  solve_fwd (sys1 RNum) Euler dt A B m0 s0 sigma = Ok (mt, st) ->
  length mt = length B /\ length st = length B /\
  forall k, (k < length B)%nat ->
    nth k mt 0 = path_m dt (fun k => nth k A 0) (fun k => nth k B 0) m0 k /\
    nth k st 0 = path_s dt (fun k => nth k A 0) sigma s0 k.
Proof.
  intros H. destruct (solve_fwd_shape _ _ _ _ _ _ _ _ _ _ H) as (L1 & L2 & H1 & H2).
  split; [exact L1|]. split; [exact L2|].
  induction k as [|k IH]; intros Hk.
  - apply nth_error_nth with (d := 0) in H1. apply nth_error_nth with (d := 0) in H2. split; assumption.
  - destruct IH as [I1 I2]; [lia|].
    pose proof (solve_fwd_step (sys1 RNum) _ _ _ _ _ _ _ _ _ k H (eq_ind_r (fun z => (z < length B)%nat) Hk (Nat.add_1_r k))) as E.
    injection E as E1 E2. rewrite Nat.add_1_r in E1, E2. cbn [path_m path_s]. rewrite <- I1, <- I2. split.
    + transitivity (nth k mt 0 + dt * (- (nth k A 0 * nth k mt 0) + nth k B 0)); [exact E1|ring].
    + transitivity (nth k st 0 + dt * (- (2 * nth k A 0 * nth k st 0) + sigma)); [exact E2|ring].
Qed.
Lemma euler_bwd_adj (dt : R) (A gm_ gs om os lam psi : list R) :
  solve_bwd (sys1 RNum) Euler dt A gm_ gs om os = Ok (lam, psi) ->
  length lam = length gm_ /\ length psi = length gm_ /\
  nth (length gm_ - 1) lam 0 = 0 /\ nth (length gm_ - 1) psi 0 = 0 /\
  forall k, (k + 1 < length gm_)%nat ->
    nth k lam 0 = nth (k + 1) lam 0 * (1 - dt * nth (k + 1) A 0) + dt * nth (k + 1) gm_ 0 + nth k om 0 /\
    nth k psi 0 = nth (k + 1) psi 0 * (1 - dt * (2 * nth (k + 1) A 0)) + dt * nth (k + 1) gs 0 + nth k os 0.
Proof.
  intros H. destruct (solve_bwd_shape _ _ _ _ _ _ _ _ _ _ H) as (L1 & L2 & H0).
  split; [exact L1|]. split; [exact L2|].
  assert (HH : forall l : list R, length l = length gm_ ->
     (gm_ <> [] -> nth_error l (length gm_ - 1) = Some 0) -> nth (length gm_ - 1) l 0 = 0).
  { intros l Hl Hne. destruct gm_ as [|g gm_]; [destruct l; [reflexivity|discriminate]|].
    apply nth_error_nth with (d := 0). apply Hne. discriminate. }
  split; [apply HH; [exact L1|intros Hne; apply H0, Hne]|].
  split; [apply HH; [exact L2|intros Hne; apply H0, Hne]|].
  intros k Hk.
  pose proof (solve_bwd_step (sys1 RNum) _ _ _ _ _ _ _ _ _ k H Hk) as E. injection E as E1 E2. split.
  - transitivity (nth (k + 1) lam 0 - dt * (- nth (k + 1) gm_ 0 + nth (k + 1) lam 0 * nth (k + 1) A 0) + nth (k + 1 - 1) om 0); [exact E1|].
    replace (k + 1 - 1)%nat with k by lia. ring.
  - transitivity (nth (k + 1) psi 0 - dt * (- nth (k + 1) gs 0 + 2 * nth (k + 1) psi 0 * nth (k + 1) A 0) + nth (k + 1 - 1) os 0); [exact E2|].
    replace (k + 1 - 1)%nat with k by lia. ring.
Qed.

(** ** the whole method *)
Lemma fe_core_ok {K : Num} (E : Env K) x A B mt st Ef dm lam Edf ds psi om os v Es k0 :
  v_unpack E x = Ok (A, B) -> v_fwd E A B (v_m0 E) (v_s0 E) (v_sigma E) = Ok (mt, st) -> v_like E mt st = Ok v ->
  v_energy E A B mt st = Ok (Es, (Ef, Edf), (dm, ds)) -> v_like_grad E mt st = Ok (om, os) ->
  v_bwd E A dm ds om os = Ok (lam, psi) -> v_kl0 E (v_m0 E) (v_s0 E) = Ok k0 ->
  fe_core E x = Ok ((k0 + Es + v)%num, mkOut mt st Ef Edf lam psi).
Proof.
  intros H1 H2 H3 H4 H5 H6 H7. unfold fe_core. rewrite H1. cbn [bind]. rewrite H2. cbn [bind]. rewrite H3. cbn [bind].
  rewrite H4. cbn [bind]. rewrite H5. cbn [bind]. rewrite H6. cbn [bind]. rewrite H7. reflexivity.
Qed.
(** [energy] integrates e in time, with partial derivatives em, es returned and ea, eb
    obtained through _dEsde_da, _dEsde_db *)
Record energy_ok (energy : list R -> list R -> list R -> list R -> option (list nat) -> Energy1 RNum) (isig : R)
  (ea eb em es : R -> R -> R -> R -> R) : Prop := {
  eo_len : forall A B M S o, length B = length A -> length M = length A -> length S = length A ->
    let r := energy A B M S o in
    length (e_f r) = length A /\ length (e_df r) = length A /\ length (e_dm r) = length A /\ length (e_ds r) = length A;
  eo_val : forall A B M S o k, length B = length A -> length M = length A -> length S = length A -> (k < length A)%nat ->
    let r := energy A B M S o in
    let a := nth k A 0 in let b := nth k B 0 in let m := nth k M 0 in let s := nth k S 0 in
    nth k (e_dm r) 0 = em a b m s /\ nth k (e_ds r) 0 = es a b m s /\
    dEsde_db1 (K:=RNum) isig (nth k (e_f r) 0) m a b = eb a b m s /\
    dEsde_da1 (K:=RNum) isig a m s (nth k (e_df r) 0) (dEsde_db1 (K:=RNum) isig (nth k (e_f r) 0) m a b) = ea a b m s }.

Lemma path_ext (dt sigma m0 s0 : R) (a a' b b' : nat -> R) k : (forall j, (j < k)%nat -> a j = a' j) -> (forall j, (j < k)%nat -> b j = b' j) ->
  path_m dt a b m0 k = path_m dt a' b' m0 k /\ path_s dt a sigma s0 k = path_s dt a' sigma s0 k.
Proof.
  induction k as [|k IH]; intros Ha Hb; [split; reflexivity|].
  destruct IH as [I1 I2]; [intros; apply Ha; lia|intros; apply Hb; lia|]. cbn [path_m path_s].
  rewrite I1, I2, Ha, Hb by lia. split; reflexivity.
Qed.

Lemma map_seq_nth' (n : nat) (f : nat -> R) k : (k < n)%nat -> nth k (map f (seq 0 n)) 0 = f k.
Proof.
  intros Hk. rewrite (nth_indep _ 0 (f O)) by (rewrite map_length, seq_length; exact Hk).
  rewrite map_nth, seq_nth by exact Hk. reflexivity.
Qed.

Section Whole.
Context (energy : list R -> list R -> list R -> list R -> option (list nat) -> Energy1 RNum)
  (isig : R) (e ea eb em es : R -> R -> R -> R -> R) (EO : energy_ok energy isig ea eb em es) (G4 : grad4 e ea eb em es).
Context (n : nat) (dt sigma m0 s0 mu tau r : R) (y : list R) (t : list nat).
Context (Hn : (0 < n)%nat) (Hr : 0 < r) (Hy : length y = length t) (Ht : List.Forall (fun i => (i < n)%nat) t).
Definition EV : Env RNum := vgp1 (K:=RNum) ln PI energy Euler n dt sigma isig m0 s0 mu tau y t r 1.
Context (x : list R) (Hx : length x = (n * 1 * (1 + 1))%nat).
Definition xa (k : nat) : R := nth k x 0.
Definition xb (k : nat) : R := nth (n + k) x 0.

Lemma unpack_nth : exists A B : list R, unpack1 (K:=RNum) n x = (A, B) /\
  length A = n /\ length B = n /\ (forall k, (k < n)%nat -> nth k A 0 = xa k) /\ (forall k, nth k B 0 = xb k).
Proof.
  destruct (pack1_unpack (K:=RNum) x n Hx) as (E & L1 & L2).
  set (A := fst (unpack1 (K:=RNum) n x) : list R) in *. set (B := snd (unpack1 (K:=RNum) n x) : list R) in *.
  assert (L1' : length A = n) by exact L1. assert (L2' : length B = n) by exact L2.
  assert (E' : x = A ++ B) by (symmetry; exact E).
  exists A, B. split; [reflexivity|]. split; [exact L1'|]. split; [exact L2'|]. clearbody A B. clear E L1 L2. split.
  - intros k Hk. unfold xa. rewrite E', app_nth1 by lia. reflexivity.
  - intros k. unfold xb. rewrite E', app_nth2 by lia. f_equal. lia.
Qed.

Lemma fe_arrays : exists (A B : list R) v (mt st lam psi gm gs gr : list R),
  unpack1 (K:=RNum) n x = (A, B) /\ length A = n /\ length B = n /\
  (forall k, (k < n)%nat -> nth k A 0 = xa k) /\ (forall k, nth k B 0 = xb k) /\
  let en := energy A B mt st (Some t) in
  length mt = n /\ length st = n /\ length lam = n /\ length psi = n /\
  like_1d (K:=RNum) ln PI y t r mt st = Ok v /\
  like_grad_1d (K:=RNum) y t r 1 mt st = Ok (gm, gs, gr) /\
  fe_core EV x = Ok (kl0_1d (K:=RNum) ln mu tau m0 s0 + e_sde en + v, mkOut (E:=EV) mt st (e_f en) (e_df en) lam psi) /\
  (forall k, (k < n)%nat -> nth k mt 0 = path_m dt xa xb m0 k /\ nth k st 0 = path_s dt xa sigma s0 k) /\
  nth (n - 1) lam 0 = 0 /\ nth (n - 1) psi 0 = 0 /\
  (forall k, (k + 1 < n)%nat ->
    let m := path_m dt xa xb m0 (k + 1) in let s := path_s dt xa sigma s0 (k + 1) in
    nth k lam 0 = nth (k + 1) lam 0 * (1 - dt * xa (k + 1)) + dt * em (xa (k + 1)) (xb (k + 1)) m s + nth k gm 0 /\
    nth k psi 0 = nth (k + 1) psi 0 * (1 - dt * (2 * xa (k + 1))) + dt * es (xa (k + 1)) (xb (k + 1)) m s + nth k gs 0).
Proof.
  destruct unpack_nth as (A & B & EU & L1 & L2 & HA & HB).
  destruct (solve_fwd_total (sys1 RNum) Euler dt A B m0 s0 sigma) as (mt & st & Hf).
  { exact (Nat.eq_le_incl _ _ (eq_trans L2 (eq_sym L1))). } { exact (eq_ind_r (fun z => (0 < z)%nat) Hn L2). }
  change (list R) in mt. change (list R) in st.
  destruct (euler_fwd_path dt sigma m0 s0 A B mt st Hf) as (M1 & M2 & Hm). rewrite L2 in M1, M2, Hm.
  assert (Ht' : List.Forall (fun i => (i < length mt)%nat) t) by (rewrite M1; exact Ht).
  assert (Hms : length st = length mt) by (rewrite M1, M2; reflexivity).
  pose proof (like_1d_val y t r mt st Hr Hy Hms Ht') as Ev.
  destruct (like_grad_1d_val y t r mt st Hr Hy Hms Ht' 1) as (gm & gs & gr & Eg & G1 & G2 & G3 & _).
  change (list R) in gm. change (list R) in gs. change (list R) in gr.
  assert (G1' : length gm = n) by (transitivity (length mt); [exact G1|exact M1]).
  assert (G2' : length gs = n) by (transitivity (length mt); [exact G2|exact M1]).
  destruct (eo_len _ _ _ _ _ _ EO A B mt st (Some t)) as (F1 & F2 & F3 & F4); [congruence|congruence|congruence|].
  set (en := energy A B mt st (Some t)) in *.
  set (EDM := e_dm en : list R). set (EDS := e_ds en : list R).
  assert (F3' : length EDM = n) by (transitivity (length A); [exact F3|exact L1]).
  assert (F4' : length EDS = n) by (transitivity (length A); [exact F4|exact L1]).
  assert (X1 : (length EDM <= length A)%nat) by lia. assert (X2 : (length EDM <= length EDS)%nat) by lia.
  assert (X3 : (length EDM - 1 <= length gm)%nat) by lia. assert (X4 : (length EDM - 1 <= length gs)%nat) by lia.
  destruct (solve_bwd_total (sys1 RNum) Euler dt A EDM EDS gm gs X1 X2 X3 X4) as (lam & psi & Hb).
  change (list R) in lam. change (list R) in psi.
  destruct (euler_bwd_adj dt A EDM EDS gm gs lam psi Hb) as (B1 & B2 & Z1 & Z2 & Hl).
  rewrite F3' in B1, B2, Z1, Z2, Hl.
  assert (P : forall k, (k < n)%nat -> nth k mt 0 = path_m dt xa xb m0 k /\ nth k st 0 = path_s dt xa sigma s0 k).
  { intros k Hk. destruct (Hm k Hk) as [E1 E2]. rewrite E1, E2. apply path_ext; intros j Hj; [apply HA; lia|apply HB]. }
  exists A, B. eexists. exists mt, st, lam, psi, gm, gs, gr. cbn zeta. fold en.
  repeat (split; [first [exact EU|exact Ev|exact Eg|assumption]|]).
  split.
  { apply (fe_core_ok EV x A B mt st (e_f en) EDM lam (e_df en) EDS psi gm gs).
    - exact (f_equal (fun z => Ok z) EU).
    - exact Hf.
    - exact Ev.
    - reflexivity.
    - unfold EV, vgp1. cbn [v_like_grad]. change (car RNum) with R. rewrite Eg. reflexivity.
    - exact Hb.
    - reflexivity. }
  split; [exact P|]. split; [exact Z1|]. split; [exact Z2|].
  intros k Hk. destruct (Hl k Hk) as [E1 E2].
  destruct (eo_val _ _ _ _ _ _ EO A B mt st (Some t) (k + 1)) as (V1 & V2 & _); [congruence|congruence|congruence|lia|].
  change (nth (k + 1) EDM 0 = em (nth (k + 1) A 0) (nth (k + 1) B 0) (nth (k + 1) mt 0) (nth (k + 1) st 0)) in V1.
  change (nth (k + 1) EDS 0 = es (nth (k + 1) A 0) (nth (k + 1) B 0) (nth (k + 1) mt 0) (nth (k + 1) st 0)) in V2.
  rewrite V1 in E1. rewrite V2 in E2. rewrite (HA (k + 1)%nat) in E1, E2 by lia. rewrite (HB (k + 1)%nat) in E1, E2.
  destruct (P (k + 1)%nat Hk) as [P1 P2]. rewrite P1, P2 in E1, E2. split; assumption.
Qed.

(** the entries of the returned vector *)
Lemma gradient_entries s : exists (g mt st lam psi gm gs gr : list R) s',
  gradient EV x true s = (Ok g, s') /\ length g = (n + n)%nat /\
  length mt = n /\ length st = n /\
  like_grad_1d (K:=RNum) y t r 1 mt st = Ok (gm, gs, gr) /\
  (forall k, (k < n)%nat -> nth k mt 0 = path_m dt xa xb m0 k /\ nth k st 0 = path_s dt xa sigma s0 k) /\
  nth (n - 1) lam 0 = 0 /\ nth (n - 1) psi 0 = 0 /\
  (forall k, (k + 1 < n)%nat ->
    let m := path_m dt xa xb m0 (k + 1) in let s := path_s dt xa sigma s0 (k + 1) in
    nth k lam 0 = nth (k + 1) lam 0 * (1 - dt * xa (k + 1)) + dt * em (xa (k + 1)) (xb (k + 1)) m s + nth k gm 0 /\
    nth k psi 0 = nth (k + 1) psi 0 * (1 - dt * (2 * xa (k + 1))) + dt * es (xa (k + 1)) (xb (k + 1)) m s + nth k gs 0) /\
  forall k, (k < n)%nat ->
    nth k g 0 = ga_of ea dt sigma m0 s0 xa xb (fun k => nth k lam 0) (fun k => nth k psi 0) k /\
    nth (n + k) g 0 = gb_of eb dt sigma m0 s0 xa xb (fun k => nth k lam 0) k.
Proof.
  destruct fe_arrays as (A & B & v & mt & st & lam & psi & gm & gs & gr & EU & L1 & L2 & HA & HB & Hrest).
  cbn zeta in Hrest. destruct Hrest as (M1 & M2 & M3 & M4 & Ev & Eg & Efe & P & Z1 & Z2 & Hadj).
  set (en := energy A B mt st (Some t)) in *.
  set (o := mkOut (E:=EV) mt st (e_f en) (e_df en) lam psi) in *.
  destruct (eo_len _ _ _ _ _ _ EO A B mt st (Some t)) as (F1 & F2 & F3 & F4); [congruence|congruence|congruence|]. fold en in F1, F2, F3, F4.
  set (gs_ := map (grad_at EV A B o) (seq 0 n)).
  set (GA := map (fun g => dt * fst g) gs_ : list R). set (GB := map (fun g => dt * snd g) gs_ : list R).
  assert (LA : length GA = n) by (unfold GA, gs_; rewrite !map_length, seq_length; reflexivity).
  assert (LB : length GB = n) by (unfold GB, gs_; rewrite !map_length, seq_length; reflexivity).
  assert (EG : gradient EV x true s = (Ok (GA ++ GB), Some o)).
  { unfold gradient, free_energy. rewrite Efe. unfold grad_core.
    change (v_unpack EV x) with (@Ok (list R * list R) (unpack1 (K:=RNum) n x)). rewrite EU. cbn [bind].
    assert (Hro : grad_reads_ok EV A B o = true).
    { unfold grad_reads_ok. apply forallb_forall. intros z Hz. apply Nat.leb_le. change (v_n EV) with n.
      assert (Hz' : In z [length A; length B; length mt; length st; length (e_f en : list R); length (e_df en : list R); length lam; length psi]) by exact Hz.
      change (length (e_f en : list R) = length A) in F1. change (length (e_df en : list R) = length A) in F2.
      rewrite L1, L2, M1, M2, M3, M4, F1, F2, L1 in Hz'. cbn in Hz'. lia. }
    rewrite Hro. reflexivity. }
  exists (GA ++ GB), mt, st, lam, psi, gm, gs, gr, (Some o).
  split; [exact EG|]. split; [rewrite app_length, LA, LB; reflexivity|].
  split; [exact M1|]. split; [exact M2|]. split; [exact Eg|]. split; [exact P|]. split; [exact Z1|]. split; [exact Z2|]. split; [exact Hadj|].
  intros k Hk.
  destruct (eo_val _ _ _ _ _ _ EO A B mt st (Some t) k) as (V1 & V2 & V3 & V4); [congruence|congruence|congruence|lia|].
  fold en in V1, V2, V3, V4. destruct (P k Hk) as [P1 P2]. rewrite (HA k Hk), (HB k), P1, P2 in V3. rewrite (HA k Hk), (HB k), P1, P2 in V4.
  split.
  - rewrite app_nth1 by lia. unfold GA, gs_. rewrite map_map.
    transitivity (dt * fst (grad_at EV A B o k)); [apply (map_seq_nth' n (fun k => dt * fst (grad_at EV A B o k)) k Hk)|].
    unfold ga_of. f_equal.
    transitivity (dEsde_da1 (K:=RNum) isig (nth k A 0) (nth k mt 0) (nth k st 0) (nth k (e_df en) 0)
        (dEsde_db1 (K:=RNum) isig (nth k (e_f en) 0) (nth k mt 0) (nth k A 0) (nth k B 0)) - nth k lam 0 * nth k mt 0 - 2 * nth k psi 0 * nth k st 0);
      [reflexivity|]. rewrite (HA k Hk), (HB k), P1, P2.
    f_equal. f_equal. exact V4.
  - rewrite app_nth2 by lia. rewrite LA. replace (n + k - n)%nat with k by lia. unfold GB, gs_. rewrite map_map.
    transitivity (dt * snd (grad_at EV A B o k)); [apply (map_seq_nth' n (fun k => dt * snd (grad_at EV A B o k)) k Hk)|].
    unfold gb_of. f_equal.
    transitivity (dEsde_db1 (K:=RNum) isig (nth k (e_f en) 0) (nth k mt 0) (nth k A 0) (nth k B 0) + nth k lam 0);
      [reflexivity|]. rewrite (HA k Hk), (HB k), P1. f_equal. exact V3.
Qed.

Lemma gradient_rect s : exists (g mt st gm gs gr : list R) s',
  gradient EV x true s = (Ok g, s') /\ length g = (n + n)%nat /\
  length mt = n /\ length st = n /\
  (forall k, (k < n)%nat -> nth k mt 0 = path_m dt xa xb m0 k /\ nth k st 0 = path_s dt xa sigma s0 k) /\
  like_grad_1d (K:=RNum) y t r 1 mt st = Ok (gm, gs, gr) /\
  forall ua ub, is_derive (fun h => rect_objective e n dt sigma m0 s0 (fun k => nth k gm 0) (fun k => nth k gs 0)
      (fun k => xa k + h * ua k) (fun k => xb k + h * ub k)) 0
    (Rsum n (fun k => nth k g 0 * ua k + nth (n + k) g 0 * ub k)).
Proof.
  destruct (gradient_entries s) as (g & mt & st & lam & psi & gm & gs & gr & s' & EG & LG & M1 & M2 & Eg & P & Z1 & Z2 & Hadj & Hg).
  exists g, mt, st, gm, gs, gr, s'. repeat (split; [assumption|]). intros ua ub.
  rewrite (Rsum_ext n _ (fun k => ga_of ea dt sigma m0 s0 xa xb (fun k => nth k lam 0) (fun k => nth k psi 0) k * ua k
       + gb_of eb dt sigma m0 s0 xa xb (fun k => nth k lam 0) k * ub k)).
  2:{ intros k Hk. destruct (Hg k Hk) as [-> ->]. reflexivity. }
  apply (rect_derive e ea eb em es G4 n dt sigma m0 s0 (fun k => nth k gm 0) (fun k => nth k gs 0) xa xb); [exact Z1|exact Z2| |].
  - intros k Hk. exact (proj1 (Hadj k Hk)).
  - intros k Hk. exact (proj2 (Hadj k Hk)).
Qed.
End Whole.
