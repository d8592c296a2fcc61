(** * The vector returned by VarGP.gradient in d dimensions (Euler). *)
From Coq Require Import ZArith List Bool Arith Reals Lra Lia FunctionalExtensionality Sorted.
From Coquelicot Require Import Coquelicot.
From Verif Require Import Num Arr ArrFacts M_LinAlg M_Utils M_Ode M_Moments M_Sde1 M_L63 M_Prior M_Like M_VarGP
  Spec_Utils Spec_Gauss Spec_Sde1 Spec_VarGP Spec_GradN P_Ode P_Trapz P_Sde1 P_RMat P_Det P_Like P_VarGP P_Adjoint.
Import ListNotations.
Local Open Scope R_scope.

(** ** derivatives *)
Lemma d_eq (f : R -> R) (x a b : R) : is_derive f x a -> a = b -> is_derive f x b.
Proof. intros H <-. exact H. Qed.
Lemma d_plus (f g : R -> R) (x a b : R) : is_derive f x a -> is_derive g x b -> is_derive (fun t => f t + g t) x (a + b).
Proof. intros H1 H2. exact (is_derive_plus f g x a b H1 H2). Qed.
Lemma d_minus (f g : R -> R) (x a b : R) : is_derive f x a -> is_derive g x b -> is_derive (fun t => f t - g t) x (a - b).
Proof. intros H1 H2. exact (is_derive_minus f g x a b H1 H2). Qed.
Lemma d_opp (f : R -> R) (x a : R) : is_derive f x a -> is_derive (fun t => - f t) x (- a).
Proof. intros H1. exact (is_derive_opp f x a H1). Qed.
Lemma d_mult (f g : R -> R) (x a b : R) : is_derive f x a -> is_derive g x b -> is_derive (fun t => f t * g t) x (a * g x + f x * b).
Proof. intros H1 H2. apply (is_derive_mult f g x a b H1 H2). intros; apply Rmult_comm. Qed.
Lemma d_scal (c : R) (f : R -> R) (x a : R) : is_derive f x a -> is_derive (fun t => c * f t) x (c * a).
Proof. intros H. exact (is_derive_scal f x c a H). Qed.
Lemma d_pow (f : R -> R) (x a : R) n : is_derive f x a -> is_derive (fun t => f t ^ n) x (INR n * a * f x ^ (Nat.pred n)).
Proof. intros H. exact (is_derive_pow f n x a H). Qed.
Lemma d_const (c x : R) : is_derive (fun _ => c) x 0.
Proof. apply @is_derive_const. Qed.
Lemma d_sum n (f : R -> nat -> R) (f' : nat -> R) (x : R) :
  (forall k, (k < n)%nat -> is_derive (fun t => f t k) x (f' k)) -> is_derive (fun t => Rsum n (f t)) x (Rsum n f').
Proof. intros H. exact (is_derive_Rsum' n f f' x H). Qed.
(** structural differentiation; the leaves are assumptions *)
Ltac dd := lazymatch goal with
  | |- is_derive (fun _ => ?c) _ _ => apply d_const
  | |- is_derive (fun t => @?f t + @?g t) _ _ => eapply (d_plus f g); [dd|dd]
  | |- is_derive (fun t => @?f t - @?g t) _ _ => eapply (d_minus f g); [dd|dd]
  | |- is_derive (fun t => - @?f t) _ _ => eapply (d_opp f); dd
  | |- is_derive (fun t => @?f t * @?g t) _ _ =>
      lazymatch f with (fun _ => ?c) => eapply (d_scal c g); dd | _ => eapply (d_mult f g); [dd|dd] end
  | |- is_derive (fun t => @?f t ^ 2) _ _ => eapply (d_pow f); dd
  | |- _ => eassumption
  end.

Lemma line_d (a u : R) : is_derive (fun h => a + h * u) 0 u.
Proof. auto_derive; [exact I|ring]. Qed.

(** ** sums *)
Lemma Rsum_split n d (f : nat -> R) : Rsum (n * d) f = Rsum n (fun k => Rsum d (fun i => f (k * d + i)%nat)).
Proof.
  induction n as [|n IH]; [reflexivity|]. cbn [Rsum]. rewrite <- IH.
  assert (E : forall p q, Rsum (p + q) f = Rsum p f + Rsum q (fun i => f (p + i)%nat)).
  { intros p q. induction q as [|q I]; [rewrite Nat.add_0_r; cbn; ring|]. rewrite Nat.add_succ_r. cbn [Rsum]. rewrite I. ring. }
  replace (S n * d)%nat with (n * d + d)%nat by lia. apply E.
Qed.
Lemma Rsum_app p q (f : nat -> R) : Rsum (p + q) f = Rsum p f + Rsum q (fun i => f (p + i)%nat).
Proof. induction q as [|q I]; [rewrite Nat.add_0_r; cbn; ring|]. rewrite Nat.add_succ_r. cbn [Rsum]. rewrite I. ring. Qed.
Lemma flat_sum n d (f : nat -> R) :
  Rsum (n * d * (d + 1)) f =
  Rsum n (fun k => Rsum d (fun i => Rsum d (fun j => part_a d f k i j)) + Rsum d (fun i => part_b n d f k i)).
Proof.
  replace (n * d * (d + 1))%nat with (n * d * d + n * d)%nat by lia. rewrite Rsum_app.
  rewrite (Rsum_split (n * d) d f), (Rsum_split n d (fun i => Rsum d (fun j => f (i * d + j)%nat))).
  rewrite (Rsum_split n d (fun i => f (n * d * d + i)%nat)).
  rewrite (Rsum_plus n (fun k => Rsum d (fun i => Rsum d (fun j => part_a d f k i j))) (fun k => Rsum d (fun i => part_b n d f k i))).
  f_equal; apply Rsum_ext; intros k _; apply Rsum_ext; intros i _.
  unfold part_b. f_equal. lia.
Qed.
Lemma dot_ext d u u' v v' : (forall i, (i < d)%nat -> u i = u' i) -> (forall i, (i < d)%nat -> v i = v' i) -> dot d u v = dot d u' v'.
Proof. intros H1 H2. apply Rsum_ext. intros i Hi. rewrite H1, H2 by exact Hi. reflexivity. Qed.
Lemma dots_ext d A A' B B' : (forall i j, (i < d)%nat -> (j < d)%nat -> A i j = A' i j) ->
  (forall i j, (i < d)%nat -> (j < d)%nat -> B i j = B' i j) -> dots d A B = dots d A' B'.
Proof. intros H1 H2. apply Rsum_ext. intros i Hi. apply Rsum_ext. intros j Hj. rewrite H1, H2 by assumption. reflexivity. Qed.
Lemma dot_lin d u v w (p q : R) : dot d u (fun i => p * v i + q * w i) = p * dot d u v + q * dot d u w.
Proof. unfold dot. rewrite <- !Rsum_scal, <- Rsum_plus. apply Rsum_ext. intros; ring. Qed.
Lemma dots_lin d A B C (p q : R) : dots d A (fun i j => p * B i j + q * C i j) = p * dots d A B + q * dots d A C.
Proof.
  unfold dots. rewrite <- !Rsum_scal, <- Rsum_plus. apply Rsum_ext. intros i _.
  rewrite <- !Rsum_scal, <- Rsum_plus. apply Rsum_ext. intros; ring.
Qed.
Lemma dot_sym d u v : dot d u v = dot d v u.
Proof. apply Rsum_ext. intros; ring. Qed.
Lemma dots_sym d A B : dots d A B = dots d B A.
Proof. apply Rsum_ext; intros; apply Rsum_ext; intros; ring. Qed.
Lemma dot_zero d u v : (forall i, (i < d)%nat -> v i = 0) -> dot d u v = 0.
Proof. intros H. unfold dot. rewrite (Rsum_ext d _ (fun _ => 0)) by (intros i Hi; rewrite H by exact Hi; ring). rewrite Rsum_const. ring. Qed.
Lemma dots_zero d A B : (forall i j, (i < d)%nat -> (j < d)%nat -> B i j = 0) -> dots d A B = 0.
Proof.
  intros H. unfold dots. rewrite (Rsum_ext d _ (fun _ => 0)). { rewrite Rsum_const. ring. }
  intros i Hi. rewrite (Rsum_ext d _ (fun _ => 0)). { rewrite Rsum_const. ring. } intros j Hj. rewrite H by assumption. ring.
Qed.
(** <l, A u> = <A' l, u> *)
Lemma dot_mv d l A u : dot d l (fun i => Rsum d (fun j => A j i * u j)) = dot d (fun j => Rsum d (fun i => A j i * l i)) u.
Proof.
  unfold dot. rewrite (Rsum_ext d _ (fun i => Rsum d (fun j => l i * (A j i * u j)))) by (intros; rewrite Rsum_scal; reflexivity).
  rewrite Rsum_swap. apply Rsum_ext. intros j _. rewrite <- Rsum_scal_r. apply Rsum_ext. intros; ring.
Qed.
(** <p, A D> = <A' p, D>, <p, D A'> = <p A, D> *)
Lemma dots_left d p A D : dots d p (fun i j => Rsum d (fun l => A i l * D l j)) = dots d (fun l j => Rsum d (fun i => A i l * p i j)) D.
Proof.
  unfold dots.
  transitivity (Rsum d (fun i => Rsum d (fun j => Rsum d (fun l => p i j * (A i l * D l j))))).
  { apply Rsum_ext; intros i _; apply Rsum_ext; intros j _. rewrite Rsum_scal. reflexivity. }
  transitivity (Rsum d (fun j => Rsum d (fun i => Rsum d (fun l => p i j * (A i l * D l j))))); [apply Rsum_swap|].
  rewrite (Rsum_swap d d (fun l j => Rsum d (fun i => A i l * p i j) * D l j)).
  apply Rsum_ext; intros j _. rewrite Rsum_swap. apply Rsum_ext; intros l _. rewrite <- Rsum_scal_r. apply Rsum_ext; intros; ring.
Qed.
Lemma dots_right d p A D : dots d p (fun i j => Rsum d (fun l => D i l * A j l)) = dots d (fun i l => Rsum d (fun j => p i j * A j l)) D.
Proof.
  unfold dots. apply Rsum_ext; intros i _.
  transitivity (Rsum d (fun j => Rsum d (fun l => p i j * (D i l * A j l)))).
  { apply Rsum_ext; intros j _. rewrite Rsum_scal. reflexivity. }
  rewrite Rsum_swap. apply Rsum_ext; intros l _. rewrite <- Rsum_scal_r. apply Rsum_ext; intros; ring.
Qed.

(** ** summation by parts *)
Lemma tele_sum (U Q G O : nat -> R) n :
  U 0%nat = Q 0%nat -> G 0%nat = 0 -> Q (n - 1)%nat = 0 ->
  (forall k, (k + 1 < n)%nat -> U (k + 1)%nat = Q (k + 1)%nat - Q k + G (k + 1)%nat + O k) ->
  Rsum n U = Rsum n G + Rsum (n - 1) O.
Proof.
  intros H0 HG Hn H. destruct n as [|n]; [cbn; ring|]. replace (S n - 1)%nat with n in * by lia.
  assert (T : forall j, (j <= n)%nat -> Rsum (S j) U = Q j + Rsum (S j) G + Rsum j O).
  { induction j as [|j IH]; intros Hj; [cbn [Rsum]; rewrite H0, HG; ring|].
    assert (E1 : Rsum (S (S j)) U = Rsum (S j) U + U (S j)) by reflexivity.
    assert (E2 : Rsum (S (S j)) G = Rsum (S j) G + G (S j)) by reflexivity.
    assert (E3 : Rsum (S j) O = Rsum j O + O j) by reflexivity.
    rewrite E1, E2, E3, IH by lia. pose proof (H j ltac:(lia)) as L. rewrite Nat.add_1_r in L. rewrite L. ring. }
  rewrite T, Hn by lia. ring.
Qed.

Section Dir.
Context (d n : nat) (dt : R) (C s0 : nat -> nat -> R) (m0 : nat -> R) (a ua : nat -> nat -> nat -> R) (b ub : nat -> nat -> R).
Definition an (h : R) k i j : R := a k i j + h * ua k i j.
Definition bn (h : R) k i : R := b k i + h * ub k i.
Definition mn k := path_mn d dt a b m0 k.
Definition sn k := path_sn d dt a C s0 k.
Fixpoint dmn (k : nat) : nat -> R := match k with O => fun _ => 0 | S k' =>
  fun i => dmn k' i + dt * (- Rsum d (fun j => ua k' i j * mn k' j + a k' i j * dmn k' j) + ub k' i) end.
Fixpoint dsn (k : nat) : nat -> nat -> R := match k with O => fun _ _ => 0 | S k' =>
  fun i j => dsn k' i j + dt * (- Rsum d (fun l => ua k' i l * sn k' l j + a k' i l * dsn k' l j)
     - Rsum d (fun l => dsn k' i l * a k' j l + sn k' i l * ua k' j l)) end.
Definition dtm k := transposed_dm d dt a mn ua ub k.

Lemma an_0 : an 0 = a.
Proof. apply functional_extensionality; intros k; apply functional_extensionality; intros i; apply functional_extensionality; intros j. unfold an. ring. Qed.
Lemma bn_0 : bn 0 = b.
Proof. apply functional_extensionality; intros k; apply functional_extensionality; intros i. unfold bn. ring. Qed.
Lemma an_d k i j : is_derive (fun h => an h k i j) 0 (ua k i j).
Proof. apply line_d. Qed.
Lemma bn_d k i : is_derive (fun h => bn h k i) 0 (ub k i).
Proof. apply line_d. Qed.
Lemma mn_0 k : path_mn d dt (an 0) (bn 0) m0 k = mn k.
Proof. rewrite an_0, bn_0. reflexivity. Qed.
Lemma sn_0 k : path_sn d dt (an 0) C s0 k = sn k.
Proof. rewrite an_0. reflexivity. Qed.
Lemma mn_d k i : is_derive (fun h => path_mn d dt (an h) (bn h) m0 k i) 0 (dmn k i).
Proof.
  revert i. induction k as [|k IH]; intros i; [exact (d_const (m0 i) 0)|]. cbn [path_mn dmn].
  apply (d_plus (fun h => path_mn d dt (an h) (bn h) m0 k i)); [apply IH|].
  apply d_scal. apply d_plus; [|apply bn_d]. apply d_opp.
  apply (d_sum d (fun h j => an h k i j * path_mn d dt (an h) (bn h) m0 k j)). intros j Hj.
  eapply d_eq; [apply d_mult; [apply an_d|apply IH]|]. cbv beta. rewrite mn_0, an_0. reflexivity.
Qed.
Lemma sn_d k i j : is_derive (fun h => path_sn d dt (an h) C s0 k i j) 0 (dsn k i j).
Proof.
  revert i j. induction k as [|k IH]; intros i j; [exact (d_const (s0 i j) 0)|]. cbn [path_sn dsn].
  apply (d_plus (fun h => path_sn d dt (an h) C s0 k i j)); [apply IH|].
  apply d_scal. eapply d_eq; [apply d_plus; [|apply d_const]|apply Rplus_0_r]. apply d_minus; [apply d_opp|].
  - apply (d_sum d (fun h l => an h k i l * path_sn d dt (an h) C s0 k l j)). intros l Hl.
    eapply d_eq; [apply d_mult; [apply an_d|apply IH]|]. cbv beta. rewrite sn_0, an_0. reflexivity.
  - apply (d_sum d (fun h l => path_sn d dt (an h) C s0 k i l * an h k j l)). intros l Hl.
    eapply d_eq; [apply d_mult; [apply IH|apply an_d]|]. cbv beta. rewrite sn_0, an_0. reflexivity.
Qed.

(** symmetry *)
Definition sy (A : nat -> nat -> R) := forall i j, (i < d)%nat -> (j < d)%nat -> A i j = A j i.
Lemma sn_sym k : sy s0 -> sy C -> sy (sn k).
Proof.
  intros H0 HC. induction k as [|k IH]; [exact H0|]. intros i j Hi Hj. unfold sn. cbn [path_sn]. fold (sn k).
  rewrite (IH i j Hi Hj), (HC i j Hi Hj).
  rewrite (Rsum_ext d (fun l => a k i l * sn k l j) (fun l => sn k j l * a k i l)) by (intros l Hl; rewrite (IH l j Hl Hj); ring).
  rewrite (Rsum_ext d (fun l => sn k i l * a k j l) (fun l => a k j l * sn k l i)) by (intros l Hl; rewrite (IH i l Hi Hl); ring).
  ring.
Qed.
Lemma dsn_sym k : sy s0 -> sy C -> sy (dsn k).
Proof.
  intros H0 HC. induction k as [|k IH]; [intros i j _ _; reflexivity|]. intros i j Hi Hj. cbn [dsn].
  pose proof (sn_sym k H0 HC) as Hs. rewrite (IH i j Hi Hj).
  rewrite (Rsum_ext d (fun l => ua k i l * sn k l j + a k i l * dsn k l j) (fun l => dsn k j l * a k i l + sn k j l * ua k i l))
    by (intros l Hl; rewrite (Hs l j Hl Hj), (IH l j Hl Hj); ring).
  rewrite (Rsum_ext d (fun l => dsn k i l * a k j l + sn k i l * ua k j l) (fun l => ua k j l * sn k l i + a k j l * dsn k l i))
    by (intros l Hl; rewrite (Hs i l Hi Hl), (IH i l Hi Hl); ring).
  ring.
Qed.

(** the multipliers of the discrete equations *)
Context (lam em om : nat -> nat -> R) (psi es os : nat -> nat -> nat -> R).
Context (Hlam0 : forall i, (i < d)%nat -> lam (n - 1)%nat i = 0).
Context (Hlam : forall k i, (k + 1 < n)%nat -> (i < d)%nat -> lam k i =
  lam (k + 1)%nat i - dt * Rsum d (fun j => a (k + 1)%nat i j * lam (k + 1)%nat j) + dt * em (k + 1)%nat i + om k i).
Context (Hpsi0 : forall i j, (i < d)%nat -> (j < d)%nat -> psi (n - 1)%nat i j = 0).
Context (Hpsi : forall k i j, (k + 1 < n)%nat -> (i < d)%nat -> (j < d)%nat -> psi k i j =
  psi (k + 1)%nat i j - dt * (Rsum d (fun l => psi (k + 1)%nat i l * a (k + 1)%nat l j)
     + Rsum d (fun l => a (k + 1)%nat l i * psi (k + 1)%nat l j)) + dt * es (k + 1)%nat i j + os k i j).

Lemma lam_sum : Rsum n (fun k => dt * dot d (lam k) (fun i => ub k i - Rsum d (fun j => ua k i j * mn k j))) =
  Rsum n (fun k => dt * dot d (em k) (dtm k)) + Rsum (n - 1) (fun k => dot d (om k) (dtm (k + 1)%nat)).
Proof.
  set (v := fun k i => ub k i - Rsum d (fun j => ua k i j * mn k j)).
  assert (St : forall k i, dtm (S k) i = dtm k i + dt * (- Rsum d (fun j => a k j i * dtm k j) + v k i)).
  { intros k i. unfold dtm, v. cbn [transposed_dm]. ring. }
  assert (Q1 : forall k, dt * dot d (lam k) (v k) =
     dot d (lam k) (dtm (S k)) - (dot d (lam k) (dtm k) - dt * dot d (fun i => Rsum d (fun j => a k i j * lam k j)) (dtm k))).
  { intros k.
    rewrite (dot_ext d (lam k) (lam k) (dtm (S k)) (fun i => 1 * (1 * dtm k i + (- dt) * Rsum d (fun j => a k j i * dtm k j)) + dt * v k i))
      by (intros; rewrite ?St; ring).
    rewrite (dot_lin d (lam k) (fun i => 1 * dtm k i + (- dt) * Rsum d (fun j => a k j i * dtm k j)) (v k)).
    rewrite (dot_lin d (lam k) (dtm k) (fun i => Rsum d (fun j => a k j i * dtm k j))), dot_mv. ring. }
  apply (tele_sum _ (fun k => dot d (lam k) (dtm (S k)))).
  - change (dt * dot d (lam 0%nat) (v 0%nat) = dot d (lam 0%nat) (dtm 1)). rewrite Q1.
    rewrite (dot_zero d (lam 0%nat) (dtm 0)), (dot_zero d _ (dtm 0)) by reflexivity. ring.
  - rewrite dot_zero by reflexivity. ring.
  - rewrite dot_sym. apply dot_zero. exact Hlam0.
  - intros k Hk. change (fun i => ub (k + 1)%nat i - Rsum d (fun j => ua (k + 1)%nat i j * mn (k + 1) j)) with (v (k + 1)%nat).
    rewrite Q1. assert (ES : S k = (k + 1)%nat) by lia. rewrite ES. clear ES.
    assert (E : dot d (lam k) (dtm (k + 1)) = dot d (lam (k + 1)%nat) (dtm (k + 1))
       - dt * dot d (fun i => Rsum d (fun j => a (k + 1)%nat i j * lam (k + 1)%nat j)) (dtm (k + 1))
       + dt * dot d (em (k + 1)%nat) (dtm (k + 1)) + dot d (om k) (dtm (k + 1))).
    { rewrite (dot_sym d (lam k)).
      rewrite (dot_ext d (dtm (k + 1)) (dtm (k + 1)) (lam k) (fun i => 1 * (1 * lam (k + 1)%nat i + (- dt) * Rsum d (fun j => a (k + 1)%nat i j * lam (k + 1)%nat j))
         + 1 * (dt * em (k + 1)%nat i + 1 * om k i))) by (intros; rewrite ?Hlam by assumption; ring).
      rewrite (dot_lin d (dtm (k + 1)) (fun i => 1 * lam (k + 1)%nat i + (- dt) * Rsum d (fun j => a (k + 1)%nat i j * lam (k + 1)%nat j))
         (fun i => dt * em (k + 1)%nat i + 1 * om k i)).
      rewrite (dot_lin d (dtm (k + 1)) (lam (k + 1)%nat) (fun i => Rsum d (fun j => a (k + 1)%nat i j * lam (k + 1)%nat j))).
      rewrite (dot_lin d (dtm (k + 1)) (em (k + 1)%nat) (om k)).
      rewrite !(dot_sym d (dtm (k + 1))). ring. }
    rewrite E. ring.
Qed.

Lemma psi_sum : Rsum n (fun k => dt * dots d (psi k) (fun i j =>
      - Rsum d (fun l => ua k i l * sn k l j) - Rsum d (fun l => sn k i l * ua k j l))) =
  Rsum n (fun k => dt * dots d (es k) (dsn k)) + Rsum (n - 1) (fun k => dots d (os k) (dsn (k + 1)%nat)).
Proof.
  set (v := fun k i j => - Rsum d (fun l => ua k i l * sn k l j) - Rsum d (fun l => sn k i l * ua k j l)).
  set (la := fun k i j => Rsum d (fun l => a k i l * dsn k l j)). set (ra := fun k i j => Rsum d (fun l => dsn k i l * a k j l)).
  assert (St : forall k i j, dsn (S k) i j = dsn k i j + dt * (- la k i j - ra k i j + v k i j)).
  { intros k i j. cbn [dsn]. unfold v, la, ra.
    rewrite (Rsum_plus d (fun l => ua k i l * sn k l j) (fun l => a k i l * dsn k l j)).
    rewrite (Rsum_plus d (fun l => dsn k i l * a k j l) (fun l => sn k i l * ua k j l)). ring. }
  set (pl := fun k i j => Rsum d (fun l => a k l i * psi k l j)). set (pr := fun k i j => Rsum d (fun l => psi k i l * a k l j)).
  assert (Q1 : forall k, dt * dots d (psi k) (v k) =
     dots d (psi k) (dsn (S k)) - (dots d (psi k) (dsn k) - dt * (dots d (pl k) (dsn k) + dots d (pr k) (dsn k)))).
  { intros k.
    rewrite (dots_ext d (psi k) (psi k) (dsn (S k)) (fun i j => 1 * (1 * dsn k i j + (- dt) * la k i j) + 1 * (dt * v k i j + (- dt) * ra k i j)))
      by (intros; rewrite ?St; ring).
    rewrite (dots_lin d (psi k) (fun i j => 1 * dsn k i j + (- dt) * la k i j) (fun i j => dt * v k i j + (- dt) * ra k i j)).
    rewrite (dots_lin d (psi k) (dsn k) (la k)), (dots_lin d (psi k) (v k) (ra k)).
    assert (E1 : dots d (psi k) (la k) = dots d (pl k) (dsn k)) by (unfold la; rewrite dots_left; reflexivity).
    assert (E2 : dots d (psi k) (ra k) = dots d (pr k) (dsn k)) by (unfold ra; rewrite dots_right; reflexivity).
    rewrite E1, E2. ring. }
  apply (tele_sum _ (fun k => dots d (psi k) (dsn (S k)))).
  - change (dt * dots d (psi 0%nat) (v 0%nat) = dots d (psi 0%nat) (dsn 1)). rewrite Q1.
    rewrite (dots_zero d (psi 0%nat) (dsn 0)), (dots_zero d (pl 0%nat) (dsn 0)), (dots_zero d (pr 0%nat) (dsn 0)) by reflexivity. ring.
  - rewrite dots_zero by reflexivity. ring.
  - rewrite dots_sym. apply dots_zero. exact Hpsi0.
  - intros k Hk. change (fun i j => - Rsum d (fun l => ua (k + 1)%nat i l * sn (k + 1) l j) - Rsum d (fun l => sn (k + 1) i l * ua (k + 1)%nat j l)) with (v (k + 1)%nat).
    rewrite Q1. assert (ES : S k = (k + 1)%nat) by lia. rewrite ES. clear ES.
    assert (E : dots d (psi k) (dsn (k + 1)) = dots d (psi (k + 1)%nat) (dsn (k + 1))
       - dt * (dots d (pl (k + 1)%nat) (dsn (k + 1)) + dots d (pr (k + 1)%nat) (dsn (k + 1)))
       + dt * dots d (es (k + 1)%nat) (dsn (k + 1)) + dots d (os k) (dsn (k + 1))).
    { rewrite (dots_sym d (psi k)).
      rewrite (dots_ext d (dsn (k + 1)) (dsn (k + 1)) (psi k)
         (fun i j => 1 * (1 * psi (k + 1)%nat i j + (- dt) * (1 * pl (k + 1)%nat i j + 1 * pr (k + 1)%nat i j)) + 1 * (dt * es (k + 1)%nat i j + 1 * os k i j)))
        by (intros; try rewrite Hpsi by assumption; unfold pl, pr; ring).
      rewrite (dots_lin d (dsn (k + 1)) (fun i j => 1 * psi (k + 1)%nat i j + (- dt) * (1 * pl (k + 1)%nat i j + 1 * pr (k + 1)%nat i j))
         (fun i j => dt * es (k + 1)%nat i j + 1 * os k i j)).
      rewrite (dots_lin d (dsn (k + 1)) (psi (k + 1)%nat) (fun i j => 1 * pl (k + 1)%nat i j + 1 * pr (k + 1)%nat i j)).
      rewrite (dots_lin d (dsn (k + 1)) (pl (k + 1)%nat) (pr (k + 1)%nat)), (dots_lin d (dsn (k + 1)) (es (k + 1)%nat) (os k)).
      rewrite !(dots_sym d (dsn (k + 1))). ring. }
    rewrite E. ring.
Qed.
(** with symmetric psi and s, the pairing of psi with the change of the covariance equation *)
Lemma psi_pair k : sy (psi k) -> sy (sn k) ->
  dots d (psi k) (fun i j => - Rsum d (fun l => ua k i l * sn k l j) - Rsum d (fun l => sn k i l * ua k j l)) =
  - 2 * dots d (fun i j => Rsum d (fun l => psi k i l * sn k l j)) (ua k).
Proof.
  intros Hp Hs.
  rewrite (dots_ext d (psi k) (psi k) _ (fun i j => (-1) * Rsum d (fun l => ua k i l * sn k l j) + (-1) * Rsum d (fun l => sn k i l * ua k j l)))
    by (intros; ring).
  rewrite (dots_lin d (psi k) (fun i j => Rsum d (fun l => ua k i l * sn k l j)) (fun i j => Rsum d (fun l => sn k i l * ua k j l))).
  assert (E1 : dots d (psi k) (fun i j => Rsum d (fun l => ua k i l * sn k l j)) = dots d (fun i j => Rsum d (fun l => psi k i l * sn k l j)) (ua k)).
  { rewrite (dots_ext d (psi k) (psi k) _ (fun i j => Rsum d (fun l => ua k i l * sn k j l)))
      by (intros; try (apply Rsum_ext; intros; rewrite Hs by assumption); reflexivity).
    rewrite dots_right. apply dots_ext; intros; reflexivity. }
  assert (E2 : dots d (psi k) (fun i j => Rsum d (fun l => sn k i l * ua k j l)) = dots d (fun i j => Rsum d (fun l => psi k i l * sn k l j)) (ua k)).
  { transitivity (Rsum d (fun i => Rsum d (fun j => psi k j i * Rsum d (fun l => ua k j l * sn k l i)))).
    { apply Rsum_ext; intros i Hi. apply Rsum_ext; intros j Hj. rewrite Hp by assumption. f_equal.
      apply Rsum_ext; intros l Hl. rewrite (Hs i l) by assumption. ring. }
    rewrite Rsum_swap. exact E1. }
  rewrite E1, E2. ring.
Qed.
End Dir.
