(** * The functional derivative of the continuous-time free energy. *)
From Coq Require Import List Reals Lra Lia Psatz.
From Coquelicot Require Import Coquelicot.
From Verif Require Import Num Arr ArrFacts Spec_Utils Spec_TimeVar Spec_Limit P_TimeVar P_Limit1 P_Limit2 P_Adjoint P_Like.
Import ListNotations.
Local Open Scope R_scope.

(** ** the moment equations *)
Lemma lin_unique T (p q y z : R -> R) : (exists M, forall t, 0 <= t <= T -> Rabs (p t) <= M) ->
  (forall t, 0 <= t <= T -> is_derive y t (p t * y t + q t)) -> (forall t, 0 <= t <= T -> is_derive z t (p t * z t + q t)) ->
  y 0 = z 0 -> forall t, 0 <= t <= T -> y t = z t.
Proof.
  intros (M & HM) Hy Hz H0 t Ht.
  assert (M0 : 0 <= M) by (eapply Rle_trans; [apply Rabs_pos|apply (HM t Ht)]).
  assert (Q : Rabs (y t - z t) <= 0 * gro M T).
  { apply (gronwall (fun t => y t - z t) p (fun _ => 0) M T 0); auto; try lra.
    - intros u Hu. specialize (Hy u Hu). specialize (Hz u Hu). auto_derive; [split; [eexists; exact Hy|split; [eexists; exact Hz|auto]]|].
      rewrite (drv y _ _ Hy), (drv z _ _ Hz). ring.
    - intros. rewrite Rabs_R0. lra. }
  pose proof (Rabs_pos (y t - z t)). assert (Z : Rabs (y t - z t) = 0) by lra.
  destruct (Req_dec (y t - z t) 0) as [|N]; [lra|]. apply Rabs_no_R0 in N. lra.
Qed.
Lemma lin_smooth T (p q y : R -> R) k : 0 <= T -> smooth k T p -> smooth k T q ->
  (forall t, 0 <= t <= T -> is_derive y t (p t * y t + q t)) -> smooth (S k) T y.
Proof.
  intros HT Hp Hq Hy. revert Hp Hq.
  assert (B : exists M, forall t, 0 <= t <= T -> Rabs (y t) <= M) by exact (derive_bdd T y (fun t => p t * y t + q t) HT Hy).
  induction k as [|k IH]; intros Hp Hq.
  - split; [exact B|]. exists (fun t => p t * y t + q t). split; [exact Hy|].
    apply smooth_plus; auto. apply smooth_mult; auto. split; [exact B|exact I].
  - split; [exact B|]. exists (fun t => p t * y t + q t). split; [exact Hy|].
    apply smooth_plus; auto. apply smooth_mult; auto. apply IH; apply smooth_pred; auto.
Qed.
Definition lin_sol (T : R) (p q : R -> R) (t0 y0 : R) : R -> R := ode_sol (fun t => p (clamp T t)) (fun t => q (clamp T t)) t0 y0.
Lemma lin_sol_d T (p q : R -> R) t0 y0 t : 0 <= T -> (forall u, 0 <= u <= T -> continuous p u) -> (forall u, 0 <= u <= T -> continuous q u) ->
  0 <= t <= T -> is_derive (lin_sol T p q t0 y0) t (p t * lin_sol T p q t0 y0 t + q t).
Proof.
  intros HT Hp Hq Ht. pose proof (ode_sol_d (fun t => p (clamp T t)) (fun t => q (clamp T t)) t0 y0 t) as D. cbv beta in D.
  rewrite (clamp_id T t Ht) in D. apply D; intros u; apply clamp_comp; auto.
Qed.
Lemma lin_sol_0 T p q t0 y0 : lin_sol T p q t0 y0 t0 = y0.
Proof. apply ode_sol_0. Qed.
Lemma lin_sol_pos T (p q : R -> R) y0 t : 0 <= T -> (forall u, 0 <= u <= T -> continuous p u) -> (forall u, 0 <= u <= T -> continuous q u) ->
  (forall u, 0 <= u <= T -> 0 <= q u) -> 0 < y0 -> 0 <= t -> 0 < lin_sol T p q 0 y0 t.
Proof.
  intros HT Hp Hq Hpos Hy Ht. unfold lin_sol, ode_sol. apply Rmult_lt_0_compat; [apply exp_pos|].
  set (P := fun t => p (clamp T t)). set (Q := fun t => q (clamp T t)).
  assert (CP : forall u, continuous P u) by (intros u; apply clamp_comp; auto).
  assert (CQ : forall u, continuous Q u) by (intros u; apply clamp_comp; auto).
  assert (0 <= RInt (fun u => exp (- RInt P 0 u) * Q u) 0 t); [|apply Rplus_lt_le_0_compat; assumption].
  apply RInt_ge_0; [exact Ht| |].
  - apply ex_RInt_on; [exact Ht|]. intros u _. apply (continuous_mult (fun u => exp (- RInt P 0 u)) Q); [|apply CQ].
    assert (D : is_derive (fun u => exp (- RInt P 0 u)) u (- P u * exp (- RInt P 0 u))).
    { pose proof (der_RInt P 0 u CP) as D. set (A := RInt P 0) in *. change (is_derive (fun u => exp (- A u)) u (- P u * exp (- A u))). clearbody A.
      auto_derive; [eexists; exact D|]. rewrite (drv A _ _ D). ring. }
    eapply der_cont, D.
  - intros u _. apply Rmult_le_pos; [left; apply exp_pos|]. apply Hpos. apply clamp_in; exact HT.
Qed.

Section Mom.
Context (T sigma m0 s0 : R) (HT : 0 <= T) (a b : R -> R) (Ha : smooth 1 T a) (Hb : smooth 1 T b).
Lemma moments_ex : exists m s, moments T sigma m0 s0 a b m s.
Proof.
  pose proof (smooth_cont T a Ha) as Ca. pose proof (smooth_cont T b Hb) as Cb.
  exists (lin_sol T (fun t => - a t) b 0 m0), (lin_sol T (fun t => - 2 * a t) (fun _ => sigma) 0 s0).
  split; [apply lin_sol_0|]. split; [apply lin_sol_0|]. intros t Ht.
  split; [apply (lin_sol_d T (fun t => - a t) b 0 m0 t)|apply (lin_sol_d T (fun t => - 2 * a t) (fun _ => sigma) 0 s0 t)]; auto.
  - intros u Hu. apply (continuous_opp a); auto.
  - intros u Hu. apply (continuous_mult (fun _ => -2) a); auto using continuous_const.
  - intros u Hu. apply continuous_const.
Qed.
Lemma moments_unique m s m' s' : moments T sigma m0 s0 a b m s -> moments T sigma m0 s0 a b m' s' ->
  forall t, 0 <= t <= T -> m t = m' t /\ s t = s' t.
Proof.
  intros (M0 & S0 & D) (M0' & S0' & D') t Ht. destruct (smooth_bdd _ _ _ Ha) as (M & HM). split.
  - apply (lin_unique T (fun t => - a t) b); auto; try congruence; try (intros u Hu; apply D || apply D'; exact Hu).
    exists M. intros u Hu. rewrite Rabs_Ropp. auto.
  - apply (lin_unique T (fun t => - 2 * a t) (fun _ => sigma)); auto; try congruence; try (intros u Hu; apply D || apply D'; exact Hu).
    exists (2 * M). intros u Hu. rewrite Rabs_mult. replace (Rabs (-2)) with 2 by (rewrite Rabs_left; lra). specialize (HM u Hu). lra.
Qed.
Lemma moments_pos m s : 0 < sigma -> 0 < s0 -> moments T sigma m0 s0 a b m s -> forall t, 0 <= t <= T -> 0 < s t.
Proof.
  intros Hsg Hs0 H t Ht. pose proof (smooth_cont T a Ha) as Ca.
  set (s' := lin_sol T (fun t => - 2 * a t) (fun _ => sigma) 0 s0).
  assert (C2 : forall u, 0 <= u <= T -> continuous (fun t => - 2 * a t) u)
    by (intros u Hu; apply (continuous_mult (fun _ => -2) a); auto using continuous_const).
  assert (H' : moments T sigma m0 s0 a b m s').
  { destruct H as (M0 & S0 & D). split; [exact M0|]. split; [apply lin_sol_0|]. intros u Hu. split; [apply D, Hu|].
    apply (lin_sol_d T (fun t => - 2 * a t) (fun _ => sigma) 0 s0 u); auto. intros; apply continuous_const. }
  destruct (moments_unique m s m s' H H' t Ht) as [_ ->]. apply lin_sol_pos; auto; try lra.
  - intros; apply continuous_const.
  - intros; lra.
Qed.
End Mom.
Lemma moments_smooth T sigma m0 s0 k a b m s : 0 <= T -> smooth k T a -> smooth k T b -> moments T sigma m0 s0 a b m s ->
  smooth (S k) T m /\ smooth (S k) T s.
Proof.
  intros HT Ha Hb (_ & _ & D). split.
  - apply (lin_smooth T (fun t => - a t) b); auto; [apply smooth_opp; exact Ha|]. intros t Ht. apply D, Ht.
  - apply (lin_smooth T (fun t => - 2 * a t) (fun _ => sigma)); auto; [apply smooth_mult; auto using smooth_const|apply smooth_const|].
    intros t Ht. apply D, Ht.
Qed.

(** ** the adjoint solutions, one piece after another *)
Section Build.
Context (T : R) (HT : 0 <= T) (p g : R -> R) (c : R * R -> R).
Context (Cp : forall u, 0 <= u <= T -> continuous p u) (Cg : forall u, 0 <= u <= T -> continuous g u).
(** solution of y' = -g - p y with value v at time t *)
Definition bsol (t v : R) : R -> R := lin_sol T (fun t => - p t) (fun t => - g t) t v.
Fixpoint build (y0 : R -> R) (obs : list (R * R)) : list (piece R) :=
  match obs with
  | [] => []
  | o :: r => let y := bsol (fst o) (y0 (fst o) + c o) in (fst o, c o, y) :: build y r
  end.
(** strictly decreasing times in [0,T2) *)
Fixpoint dec (T2 : R) (obs : list (R * R)) : Prop :=
  match obs with [] => True | o :: r => 0 <= fst o < T2 /\ dec (fst o) r end.
Lemma bsol_ok t v u w : 0 <= u -> w <= T -> asol p g u w (bsol t v).
Proof.
  intros Hu Hw x Hx. pose proof (lin_sol_d T (fun t => - p t) (fun t => - g t) t v x HT) as D.
  replace (- g x - p x * bsol t v x) with (- p x * bsol t v x + - g x) by ring. apply D; [| |lra].
  - intros z Hz. apply (continuous_opp p); auto.
  - intros z Hz. apply (continuous_opp g); auto.
Qed.
Lemma build_fits obs : forall T2 t v, 0 <= T2 <= T -> dec T2 obs -> fits (asol p g) aglue T2 (bsol t v) (build (bsol t v) obs).
Proof.
  induction obs as [|o r IH]; intros T2 t v H2 Hd.
  - cbn [fits build]. apply bsol_ok; lra.
  - cbn [fits build dec] in *. destruct Hd as [H1 Hd]. split; [exact H1|]. split; [apply bsol_ok; lra|].
    split; [unfold aglue, bsol; apply lin_sol_0|]. apply IH; [lra|exact Hd].
Qed.
Lemma build_jsum mu obs : forall y0, jsum mu (build y0 obs) = total (map (fun o => c o * mu (fst o)) obs).
Proof. induction obs as [|o r IH]; intros y0; cbn; [reflexivity|]. rewrite IH. reflexivity. Qed.
Lemma build_jump_out obs t : (forall o, In o obs -> fst o <> t) -> forall y0, jump_at 0 (build y0 obs) t = 0.
Proof.
  induction obs as [|o r IH]; intros H y0; cbn; [reflexivity|].
  destruct (Req_EM_T t (fst o)) as [E|E]; [exfalso; apply (H o); [left; reflexivity|auto]|]. apply IH. intros o' Ho. apply H. right; exact Ho.
Qed.
Lemma dec_lt obs : forall T2 o, dec T2 obs -> In o obs -> 0 <= fst o < T2.
Proof.
  induction obs as [|o' r IH]; intros T2 o Hd Ho; [destruct Ho|]. destruct Hd as [H1 Hd]. destruct Ho as [<-|Ho]; [exact H1|].
  specialize (IH _ _ Hd Ho). lra.
Qed.
Lemma build_jump_in obs : forall T2 o y0, dec T2 obs -> In o obs -> jump_at 0 (build y0 obs) (fst o) = c o.
Proof.
  induction obs as [|o' r IH]; intros T2 o y0 Hd Ho; [destruct Ho|]. destruct Hd as [H1 Hd]. cbn [build jump_at].
  destruct Ho as [<-|Ho].
  - destruct (Req_EM_T (fst o') (fst o')); [reflexivity|congruence].
  - pose proof (dec_lt _ _ _ Hd Ho) as L. destruct (Req_EM_T (fst o) (fst o')); [lra|]. eapply IH; eauto.
Qed.
Lemma build_in y0 obs q : In q (build y0 obs) -> exists o, In o obs /\ fst (fst q) = fst o.
Proof.
  revert y0. induction obs as [|o r IH]; intros y0 H; [destruct H|]. cbn [build] in H. destruct H as [<-|H].
  - exists o. split; [left; reflexivity|reflexivity].
  - destruct (IH _ H) as (o' & Ho & E). exists o'. split; [right; exact Ho|exact E].
Qed.
End Build.

(** ** the derivative *)
Definition env4 (a b m s : R) : nat -> R := fun i => match i with 0%nat => a | 1%nat => b | 2%nat => m | _ => s end.
Lemma env4_all (P : R -> Prop) a b m s : P a -> P b -> P m -> P s -> forall i, P (env4 a b m s i).
Proof. intros Ha Hb Hm Hs [|[|[|i]]]; assumption. Qed.
Definition repr (p : pe) (e : R -> R -> R -> R -> R) : Prop := forall a b m s, e a b m s = pev p (env4 a b m s).

Lemma repr_dir p e ea eb em es : repr p e -> grad4 e ea eb em es -> forall a b m s a' b' m' s',
  pdir p (env4 a b m s) (env4 a' b' m' s') = ea a b m s * a' + eb a b m s * b' + em a b m s * m' + es a b m s * s'.
Proof.
  intros He G a b m s a' b' m' s'.
  assert (L : forall u u', is_derive (fun h => u + h * u') 0 u') by (intros; auto_derive; auto; ring).
  pose proof (G (fun h => a + h * a') (fun h => b + h * b') (fun h => m + h * m') (fun h => s + h * s') 0 a' b' m' s' (L _ _) (L _ _) (L _ _) (L _ _)) as D1.
  cbv beta in D1. rewrite !Rmult_0_l, !Rplus_0_r in D1.
  pose proof (pe_dir p (env4 a b m s) (env4 a' b' m' s')) as D2.
  rewrite <- (is_derive_unique _ _ _ D1), <- (is_derive_unique _ _ _ D2). apply Derive_ext. intros h. rewrite (He (a + h * a')).
  assert (E : forall q x y, (forall i, x i = y i) -> pev q x = pev q y).
  { induction q; intros x y Hxy; cbn; auto; rewrite (IHq1 x y Hxy), (IHq2 x y Hxy); reflexivity. }
  apply E. intros [|[|[|i]]]; reflexivity.
Qed.

(** the likelihood term as a polynomial *)
Definition plik (r y : R) : pe :=
  Padd (Pmul (Pc (1 / 2 / r)) (Padd (Pmul (Padd (Pc y) (Pmul (Pc (-1)) (Pv 2))) (Padd (Pc y) (Pmul (Pc (-1)) (Pv 2)))) (Pv 3)))
       (Pc (1 / 2 * (ln (2 * PI) + ln r))).
Lemma plik_repr r y : 0 < r -> repr (plik r y) (fun _ _ m s => lterm r y m s).
Proof. intros Hr a b m s. unfold lterm. cbn. field. lra. Qed.
Lemma plik_dir r y a b m s a' b' m' s' : 0 < r -> pdir (plik r y) (env4 a b m s) (env4 a' b' m' s') = - (y - m) / r * m' + 1 / 2 / r * s'.
Proof. intros Hr. cbn. field. lra. Qed.

Lemma total_bound (f : R * R -> R -> R) (C : R * R -> R) obs e : (forall o, In o obs -> Rabs (f o e) <= C o * e ^ 2) ->
  Rabs (total (map (fun o => f o e) obs)) <= total (map C obs) * e ^ 2.
Proof.
  induction obs as [|o r IH]; intros H; cbn [map total fold_right].
  - rewrite Rabs_R0. lra.
  - eapply Rle_trans; [apply Rabs_triang|]. rewrite Rmult_plus_distr_r. apply Rplus_le_compat; [apply H; left; reflexivity|].
    apply IH. intros o' Ho. apply H. right; exact Ho.
Qed.
Lemma total_plus {A} (f g : A -> R) l : total (map (fun o => f o + g o) l) = total (map f l) + total (map g l).
Proof. induction l as [|x l IH]; cbn; [ring|]. unfold total in IH. rewrite IH. ring. Qed.
Lemma total_scal {A} c (f : A -> R) l : total (map (fun o => c * f o) l) = c * total (map f l).
Proof. induction l as [|x l IH]; cbn; [ring|]. unfold total in IH. rewrite IH. ring. Qed.
Lemma total_ext {A} (f g : A -> R) l : (forall x, In x l -> f x = g x) -> total (map f l) = total (map g l).
Proof.
  induction l as [|x l IH]; intros H; cbn; [reflexivity|]. rewrite (H x) by (left; reflexivity). f_equal. apply IH. intros z Hz. apply H. right; exact Hz.
Qed.
Lemma total_app l l' : total (l ++ l') = total l + total l'.
Proof. unfold total. induction l as [|x l IH]; cbn [app fold_right]; [ring|]. rewrite IH. ring. Qed.
Lemma total_rev {A} (f : A -> R) l : total (map f (rev l)) = total (map f l).
Proof. induction l as [|x l IH]; cbn [rev map]; [reflexivity|]. rewrite map_app, total_app, IH. unfold total; cbn [map fold_right]. ring. Qed.

Section Fun.
Context (e ea eb em es : R -> R -> R -> R -> R) (pE pM pS : pe).
Context (RE : repr pE e) (RM : repr pM em) (RS : repr pS es) (G4 : grad4 e ea eb em es).
Context (T sigma m0 s0 r kl : R) (HT : 0 <= T) (Hr : 0 < r) (obs : list (R * R)) (Hobs : dec T obs).
Context (a b m s : R -> R) (Ha : smooth 1 T a) (Hb : smooth 1 T b) (Hms : moments T sigma m0 s0 a b m s).

Definition Fval (a b m s : R -> R) : R :=
  kl + RInt (fun t => e (a t) (b t) (m t) (s t)) 0 T + total (map (fun o => lterm r (snd o) (m (fst o)) (s (fst o))) obs).
Definition gM t := em (a t) (b t) (m t) (s t).
Definition gS t := es (a t) (b t) (m t) (s t).
Definition cM (o : R * R) := - (snd o - m (fst o)) / r.
Definition cS (o : R * R) := 1 / 2 / r.
Definition lam0 := bsol T (fun t => - a t) gM T 0.
Definition psi0 := bsol T (fun t => - 2 * a t) gS T 0.
Definition lps := build T (fun t => - a t) gM cM lam0 obs.
Definition pps := build T (fun t => - 2 * a t) gS cS psi0 obs.
Definition Lam t := with_jumps lam0 lps t.
Definition Psi t := with_jumps psi0 pps t.
Definition gradA t := ea (a t) (b t) (m t) (s t) - Lam t * m t - 2 * Psi t * s t.
Definition gradB t := eb (a t) (b t) (m t) (s t) + Lam t.

Lemma Sm : smooth 2 T m /\ smooth 2 T s.
Proof. exact (moments_smooth T sigma m0 s0 1 a b m s HT Ha Hb Hms). Qed.
Lemma Cof f : smooth 1 T f -> forall t, 0 <= t <= T -> continuous f t.
Proof. apply smooth_cont. Qed.
Lemma env_cont (u v w x : R -> R) t : continuous u t -> continuous v t -> continuous w t -> continuous x t ->
  forall i, continuous (fun t => env4 (u t) (v t) (w t) (x t) i) t.
Proof. intros Hu Hv Hw Hx [|[|[|i]]]; assumption. Qed.
Lemma repr_cont p f (u v w x : R -> R) t : repr p f -> continuous u t -> continuous v t -> continuous w t -> continuous x t ->
  continuous (fun t => f (u t) (v t) (w t) (x t)) t.
Proof.
  intros Hp Hu Hv Hw Hx. apply (continuous_ext (fun t => pev p (env4 (u t) (v t) (w t) (x t)))).
  - intros z. symmetry. apply Hp.
  - apply (pe_cont p (fun t => env4 (u t) (v t) (w t) (x t))). apply env_cont; assumption.
Qed.
Lemma Ca t : 0 <= t <= T -> continuous a t. Proof. apply Cof, Ha. Qed.
Lemma Cb t : 0 <= t <= T -> continuous b t. Proof. apply Cof, Hb. Qed.
Lemma Cm t : 0 <= t <= T -> continuous m t. Proof. apply Cof, smooth_pred, Sm. Qed.
Lemma Cs t : 0 <= t <= T -> continuous s t. Proof. apply Cof, smooth_pred, Sm. Qed.
Lemma CgM t : 0 <= t <= T -> continuous gM t.
Proof. intros Ht. apply (repr_cont pM em); auto using Ca, Cb, Cm, Cs. Qed.
Lemma CgS t : 0 <= t <= T -> continuous gS t.
Proof. intros Ht. apply (repr_cont pS es); auto using Ca, Cb, Cm, Cs. Qed.
Lemma Cna t : 0 <= t <= T -> continuous (fun t => - a t) t.
Proof. intros Ht. apply (continuous_opp a), Ca, Ht. Qed.
Lemma Cn2a t : 0 <= t <= T -> continuous (fun t => - 2 * a t) t.
Proof. intros Ht. apply (continuous_mult (fun _ => -2) a); [apply continuous_const|apply Ca, Ht]. Qed.
Lemma lam_fits : fits (asol (fun t => - a t) gM) aglue T lam0 lps.
Proof. apply build_fits; auto using Cna, CgM; lra. Qed.
Lemma psi_fits : fits (asol (fun t => - 2 * a t) gS) aglue T psi0 pps.
Proof. apply build_fits; auto using Cn2a, CgS; lra. Qed.

Section Direction.
Context (h k : R -> R) (Hh : smooth 1 T h) (Hk : smooth 1 T k) (M S : R -> R -> R).
Context (HMS : forall x, moments T sigma m0 s0 (fun t => a t + x * h t) (fun t => b t + x * k t) (M x) (S x)).
Definition wm t := k t - h t * m t.
Definition ws t := - 2 * h t * s t.
Definition mu := lin_sol T (fun t => - a t) wm 0 0.
Definition nu := lin_sol T (fun t => - 2 * a t) ws 0 0.
Lemma Cwm t : 0 <= t <= T -> continuous wm t.
Proof. intros Ht. apply (continuous_minus k (fun t => h t * m t)); [apply (Cof k); auto|]. apply (continuous_mult h m); [apply (Cof h); auto|apply Cm, Ht]. Qed.
Lemma Cws t : 0 <= t <= T -> continuous ws t.
Proof. intros Ht. apply (continuous_mult (fun t => -2 * h t) s); [|apply Cs, Ht]. apply (continuous_mult (fun _ => -2) h); [apply continuous_const|apply (Cof h); auto]. Qed.
Lemma mu_d t : 0 <= t <= T -> is_derive mu t (- a t * mu t + wm t).
Proof. intros Ht. apply (lin_sol_d T (fun t => - a t) wm 0 0 t); auto using Cna, Cwm. Qed.
Lemma nu_d t : 0 <= t <= T -> is_derive nu t (- 2 * a t * nu t + ws t).
Proof. intros Ht. apply (lin_sol_d T (fun t => - 2 * a t) ws 0 0 t); auto using Cn2a, Cws. Qed.
Lemma neg_bdd f c : smooth 1 T f -> exists B, forall t, 0 <= t <= T -> Rabs (c * f t) <= B.
Proof. intros Hf. destruct (smooth_bdd _ _ _ Hf) as (B & HB). exists (Rabs c * B). intros t Ht. rewrite Rabs_mult. apply Rmult_le_compat_l; [apply Rabs_pos|auto]. Qed.
Lemma expM : exists C, 0 <= C /\ forall x t, Rabs x <= 1 -> 0 <= t <= T -> Rabs (M x t - m t - x * mu t) <= C * x ^ 2.
Proof.
  apply (lin_exp T HT (fun t => - 1 * a t) (fun t => - 1 * h t) b k m mu M).
  - intros t Ht. destruct Hms as (_ & _ & D). replace (-1 * a t * m t + b t) with (- a t * m t + b t) by ring. apply D, Ht.
  - intros x t Ht. destruct (HMS x) as (_ & _ & D). replace ((-1 * a t + x * (-1 * h t)) * M x t + (b t + x * k t)) with (- (a t + x * h t) * M x t + (b t + x * k t)) by ring. apply D, Ht.
  - intros t Ht. replace (_ + _) with (- a t * mu t + wm t) by (unfold wm; ring). apply mu_d, Ht.
  - intros x. destruct (HMS x) as (-> & _). symmetry. apply Hms.
  - apply lin_sol_0.
  - apply neg_bdd, Ha.
  - apply neg_bdd, Hh.
  - eapply smooth_bdd, Hk.
Qed.
Lemma expS : exists C, 0 <= C /\ forall x t, Rabs x <= 1 -> 0 <= t <= T -> Rabs (S x t - s t - x * nu t) <= C * x ^ 2.
Proof.
  apply (lin_exp T HT (fun t => - 2 * a t) (fun t => - 2 * h t) (fun _ => sigma) (fun _ => 0) s nu S).
  - intros t Ht. destruct Hms as (_ & _ & D). apply D, Ht.
  - intros x t Ht. destruct (HMS x) as (_ & _ & D). replace (_ + _) with (- 2 * (a t + x * h t) * S x t + sigma) by ring. apply D, Ht.
  - intros t Ht. replace (_ + _) with (- 2 * a t * nu t + ws t) by (unfold ws; ring). apply nu_d, Ht.
  - intros x. destruct (HMS x) as (_ & -> & _). symmetry. apply Hms.
  - apply lin_sol_0.
  - apply neg_bdd, Ha.
  - apply neg_bdd, Hh.
  - exists 0. intros. rewrite Rabs_R0. lra.
Qed.
Definition Dval : R :=
  RInt (fun t => pdir pE (env4 (a t) (b t) (m t) (s t)) (env4 (h t) (k t) (mu t) (nu t))) 0 T
  + total (map (fun o => cM o * mu (fst o) + cS o * nu (fst o)) obs).
Lemma Cmu t : 0 <= t <= T -> continuous mu t. Proof. intros Ht. eapply der_cont, mu_d, Ht. Qed.
Lemma Cnu t : 0 <= t <= T -> continuous nu t. Proof. intros Ht. eapply der_cont, nu_d, Ht. Qed.
Lemma pdir_cont p (x d : R -> nat -> R) t : (forall i, continuous (fun t => x t i) t) -> (forall i, continuous (fun t => d t i) t) ->
  continuous (fun t => pdir p (x t) (d t)) t.
Proof.
  intros Hx Hd. induction p; cbn.
  - apply continuous_const.
  - apply Hd.
  - apply (continuous_plus (fun t => pdir p1 (x t) (d t)) (fun t => pdir p2 (x t) (d t))); auto.
  - apply (continuous_plus (fun t => pdir p1 (x t) (d t) * pev p2 (x t)) (fun t => pev p1 (x t) * pdir p2 (x t) (d t))).
    + apply (continuous_mult (fun t => pdir p1 (x t) (d t)) (fun t => pev p2 (x t))); [auto|apply pe_cont; auto].
    + apply (continuous_mult (fun t => pev p1 (x t)) (fun t => pdir p2 (x t) (d t))); [apply pe_cont; auto|auto].
Qed.

Lemma F_quad : exists C, forall x, Rabs x <= 1 ->
  Rabs (Fval (fun t => a t + x * h t) (fun t => b t + x * k t) (M x) (S x) - Fval a b m s - x * Dval) <= C * x ^ 2.
Proof.
  destruct expM as (Q1 & Q10 & HQ1). destruct expS as (Q2 & Q20 & HQ2).
  destruct (smooth_bdd _ _ _ Ha) as (B1 & HB1). destruct (smooth_bdd _ _ _ Hb) as (B2 & HB2).
  destruct (smooth_bdd _ _ _ (proj1 Sm)) as (B3 & HB3). destruct (smooth_bdd _ _ _ (proj2 Sm)) as (B4 & HB4).
  destruct (smooth_bdd _ _ _ Hh) as (D1 & HD1). destruct (smooth_bdd _ _ _ Hk) as (D2 & HD2).
  destruct (derive_bdd T mu _ HT mu_d) as (D3 & HD3). destruct (derive_bdd T nu _ HT nu_d) as (D4 & HD4).
  assert (P : forall (f : R -> R) B, (forall t, 0 <= t <= T -> Rabs (f t) <= B) -> 0 <= B) by (intros f B H; eapply Rle_trans; [apply Rabs_pos|apply (H 0); lra]).
  pose proof (P _ _ HB1). pose proof (P _ _ HB2). pose proof (P _ _ HB3). pose proof (P _ _ HB4).
  pose proof (P _ _ HD1). pose proof (P _ _ HD2). pose proof (P _ _ HD3). pose proof (P _ _ HD4).
  set (B := B1 + B2 + B3 + B4). set (D := D1 + D2 + D3 + D4). set (Q := Q1 + Q2).
  assert (BX : forall t, 0 <= t <= T -> forall i, Rabs (env4 (a t) (b t) (m t) (s t) i) <= B).
  { intros t Ht. specialize (HB1 t Ht). specialize (HB2 t Ht). specialize (HB3 t Ht). specialize (HB4 t Ht).
    apply (env4_all (fun z => Rabs z <= B)); unfold B; lra. }
  assert (DX : forall t, 0 <= t <= T -> forall i, Rabs (env4 (h t) (k t) (mu t) (nu t) i) <= D).
  { intros t Ht. specialize (HD1 t Ht). specialize (HD2 t Ht). specialize (HD3 t Ht). specialize (HD4 t Ht).
    apply (env4_all (fun z => Rabs z <= D)); unfold D; lra. }
  assert (QX : forall x t, Rabs x <= 1 -> 0 <= t <= T -> forall i,
    Rabs (env4 (a t + x * h t) (b t + x * k t) (M x t) (S x t) i - env4 (a t) (b t) (m t) (s t) i - x * env4 (h t) (k t) (mu t) (nu t) i) <= Q * x ^ 2).
  { intros x t Hx Ht. specialize (HQ1 x t Hx Ht). specialize (HQ2 x t Hx Ht). pose proof (pow2_ge_0 x).
    assert (Z : 0 <= Q * x ^ 2) by (apply Rmult_le_pos; unfold Q; lra).
    assert (0 <= Q1 * x ^ 2) by (apply Rmult_le_pos; lra). assert (0 <= Q2 * x ^ 2) by (apply Rmult_le_pos; lra).
    intros [|[|[|i]]]; cbn [env4].
    - replace (_ - _ - _) with 0 by ring. rewrite Rabs_R0. exact Z.
    - replace (_ - _ - _) with 0 by ring. rewrite Rabs_R0. exact Z.
    - unfold Q. lra.
    - unfold Q. lra. }
  assert (Q0 : 0 <= Q) by (unfold Q; lra). assert (B0 : 0 <= B) by (unfold B; lra). assert (D0 : 0 <= D) by (unfold D; lra).
  destruct (pe_quad pE B D Q B0 D0 Q0) as (C & C0 & HC).
  assert (HO : exists CO : R * R -> R, forall o, In o obs -> forall x, Rabs x <= 1 ->
    Rabs (lterm r (snd o) (M x (fst o)) (S x (fst o)) - lterm r (snd o) (m (fst o)) (s (fst o)) - x * (cM o * mu (fst o) + cS o * nu (fst o))) <= CO o * x ^ 2).
  { exists (fun o => (Q * (2 * (Rabs (snd o) + B) + 1) + (D + Q) ^ 2) / r * 1 + 0).
    intros o Ho x Hx. set (t := fst o). assert (Ht : 0 <= t <= T) by (pose proof (dec_lt _ _ _ Hobs Ho); unfold t; lra).
    specialize (HQ1 x t Hx Ht). specialize (HQ2 x t Hx Ht). specialize (HB3 t Ht). specialize (HD3 t Ht).
    set (r1 := M x t - m t - x * mu t) in *. set (r2 := S x t - s t - x * nu t) in *.
    assert (E : lterm r (snd o) (M x t) (S x t) - lterm r (snd o) (m t) (s t) - x * (cM o * mu t + cS o * nu t)
       = (- (2 * (snd o - m t)) * r1 + r2 + (x * mu t + r1) ^ 2) / r * (1 / 2)).
    { unfold lterm, cM, cS. fold t. replace (M x t) with (m t + x * mu t + r1) by (unfold r1; ring). replace (S x t) with (s t + x * nu t + r2) by (unfold r2; ring). field. lra. }
    rewrite E. pose proof (pow2_ge_0 x) as X0.
    assert (X1 : x ^ 2 <= 1). { rewrite <- pow2_abs. replace 1 with (1 ^ 2) by ring. apply pow_incr. split; [apply Rabs_pos|exact Hx]. }
    assert (R1 : Rabs r1 <= Q * x ^ 2) by (unfold Q; assert (0 <= Q2 * x ^ 2) by (apply Rmult_le_pos; lra); lra).
    assert (R2 : Rabs r2 <= Q * x ^ 2) by (unfold Q; assert (0 <= Q1 * x ^ 2) by (apply Rmult_le_pos; lra); lra).
    assert (Y : Rabs (- (2 * (snd o - m t))) <= 2 * (Rabs (snd o) + B)).
    { rewrite Rabs_Ropp, Rabs_mult, (Rabs_pos_eq 2) by lra. apply Rmult_le_compat_l; [lra|]. unfold Rminus. eapply Rle_trans; [apply Rabs_triang|]. rewrite Rabs_Ropp. unfold B. lra. }
    assert (W : (x * mu t + r1) ^ 2 <= (D + Q) ^ 2 * x ^ 2).
    { rewrite <- Rpow_mult_distr, <- (pow2_abs (x * mu t + r1)), <- (pow2_abs ((D + Q) * x)). apply pow_incr. split; [apply Rabs_pos|].
      eapply Rle_trans; [apply Rabs_triang|]. rewrite !Rabs_mult. rewrite (Rabs_pos_eq (D + Q)) by lra.
      assert (Rabs x * Rabs (mu t) <= Rabs x * D) by (apply Rmult_le_compat_l; [apply Rabs_pos|unfold D; lra]).
      assert (Q * x ^ 2 <= Q * Rabs x). { apply Rmult_le_compat_l; auto. rewrite <- pow2_abs. pose proof (Rabs_pos x). nra. } lra. }
    assert (N : Rabs (- (2 * (snd o - m t)) * r1 + r2 + (x * mu t + r1) ^ 2) <= (Q * (2 * (Rabs (snd o) + B) + 1) + (D + Q) ^ 2) * x ^ 2).
    { eapply Rle_trans; [apply Rabs_triang|]. rewrite (Rabs_pos_eq ((x * mu t + r1) ^ 2)) by apply pow2_ge_0.
      assert (Rabs (- (2 * (snd o - m t)) * r1 + r2) <= 2 * (Rabs (snd o) + B) * (Q * x ^ 2) + Q * x ^ 2).
      { eapply Rle_trans; [apply Rabs_triang|]. rewrite Rabs_mult. apply Rplus_le_compat; auto. apply Rmult_le_compat; auto using Rabs_pos. }
      lra. }
    unfold Rdiv. rewrite !Rabs_mult, Rabs_inv, (Rabs_pos_eq r), (Rabs_pos_eq 1), (Rabs_pos_eq (/ 2)) by lra.
    assert (I0 : 0 < / r) by (apply Rinv_0_lt_compat; exact Hr).
    set (NN := Rabs (- (2 * (snd o - m t)) * r1 + r2 + (x * mu t + r1) ^ 2)) in *. pose proof (Rabs_pos (- (2 * (snd o - m t)) * r1 + r2 + (x * mu t + r1) ^ 2)) as N0. fold NN in N0.
    assert (A1 : NN * / r <= (Q * (2 * (Rabs (snd o) + B) + 1) + (D + Q) ^ 2) * x ^ 2 * / r) by (apply Rmult_le_compat_r; lra).
    assert (A0 : 0 <= NN * / r) by (apply Rmult_le_pos; lra). lra. }
  destruct HO as (CO & HCO).
  exists (C * T + total (map CO obs)). intros x Hx.
  set (f0 := fun t => e (a t) (b t) (m t) (s t)). set (f1 := fun t => e (a t + x * h t) (b t + x * k t) (M x t) (S x t)).
  set (f2 := fun t => pdir pE (env4 (a t) (b t) (m t) (s t)) (env4 (h t) (k t) (mu t) (nu t))).
  assert (C0' : forall t, 0 <= t <= T -> continuous f0 t) by (intros t Ht; apply (repr_cont pE e); auto using Ca, Cb, Cm, Cs).
  assert (C1' : forall t, 0 <= t <= T -> continuous f1 t).
  { intros t Ht. destruct (HMS x) as (_ & _ & DD). apply (repr_cont pE e (fun t => a t + x * h t) (fun t => b t + x * k t) (M x) (S x)); auto.
    - apply (continuous_plus a (fun t => x * h t)); [apply Ca, Ht|]. apply (continuous_mult (fun _ => x) h); [apply continuous_const|apply (Cof h); auto].
    - apply (continuous_plus b (fun t => x * k t)); [apply Cb, Ht|]. apply (continuous_mult (fun _ => x) k); [apply continuous_const|apply (Cof k); auto].
    - eapply der_cont, DD, Ht.
    - eapply der_cont, DD, Ht. }
  assert (C2' : forall t, 0 <= t <= T -> continuous f2 t).
  { intros t Ht. apply (pdir_cont pE (fun t => env4 (a t) (b t) (m t) (s t)) (fun t => env4 (h t) (k t) (mu t) (nu t))); apply env_cont; auto using Ca, Cb, Cm, Cs, Cmu, Cnu.
    - apply (Cof h); auto.
    - apply (Cof k); auto. }
  pose proof (ex_RInt_on f0 0 T HT C0') as E0. pose proof (ex_RInt_on f1 0 T HT C1') as E1. pose proof (ex_RInt_on f2 0 T HT C2') as E2.
  assert (I1 : RInt f1 0 T - RInt f0 0 T - x * RInt f2 0 T = RInt (fun t => f1 t - f0 t - x * f2 t) 0 T).
  { symmetry. apply is_RInt_unique.
    apply (is_RInt_minus (fun t => f1 t - f0 t) (fun t => x * f2 t) 0 T (RInt f1 0 T - RInt f0 0 T) (x * RInt f2 0 T)).
    - apply (is_RInt_minus f1 f0); apply (@RInt_correct R_CompleteNormedModule); assumption.
    - apply (is_RInt_scal f2 0 T x). apply (@RInt_correct R_CompleteNormedModule); assumption. }
  assert (I2 : Rabs (RInt (fun t => f1 t - f0 t - x * f2 t) 0 T) <= C * x ^ 2 * (T - 0)).
  { apply RInt_bound; [exact HT| |].
    - apply ex_RInt_on; [exact HT|]. intros t Ht. apply (continuous_minus (fun t => f1 t - f0 t) (fun t => x * f2 t)).
      + apply (continuous_minus f1 f0); auto.
      + apply (continuous_mult (fun _ => x) f2); [apply continuous_const|auto].
    - intros t Ht. unfold f1, f0, f2. rewrite !RE. apply HC; auto. }
  unfold Fval, Dval. fold f2. change (RInt (fun t => e (a t) (b t) (m t) (s t)) 0 T) with (RInt f0 0 T).
  change (RInt (fun t => e (a t + x * h t) (b t + x * k t) (M x t) (S x t)) 0 T) with (RInt f1 0 T).
  set (U1 := total (map (fun o => lterm r (snd o) (M x (fst o)) (S x (fst o))) obs)). set (U0 := total (map (fun o => lterm r (snd o) (m (fst o)) (s (fst o))) obs)).
  set (U2 := total (map (fun o => cM o * mu (fst o) + cS o * nu (fst o)) obs)).
  replace (_ - _ - _) with ((RInt f1 0 T - RInt f0 0 T - x * RInt f2 0 T) + (U1 - U0 - x * U2)) by ring.
  assert (UU : U1 - U0 - x * U2 = total (map (fun o => lterm r (snd o) (M x (fst o)) (S x (fst o)) - lterm r (snd o) (m (fst o)) (s (fst o)) - x * (cM o * mu (fst o) + cS o * nu (fst o))) obs)).
  { unfold U1, U0, U2. rewrite <- (total_scal x). clear. induction obs as [|o l IH]; cbn; [ring|]. unfold total in IH. rewrite <- IH. ring. }
  rewrite I1, UU. eapply Rle_trans; [apply Rabs_triang|].
  pose proof (total_bound (fun o x => lterm r (snd o) (M x (fst o)) (S x (fst o)) - lterm r (snd o) (m (fst o)) (s (fst o)) - x * (cM o * mu (fst o) + cS o * nu (fst o))) CO obs x (fun o Ho => HCO o Ho x Hx)) as TB.
  cbv beta in TB. lra.
Qed.

(** the derivative through the adjoint solutions *)
Lemma Dval_adj : is_RInt (fun t => gradA t * h t + gradB t * k t) 0 T Dval.
Proof.
  pose proof (adjoint T (fun t => - a t) gM wm mu (fun t Ht => mu_d t Ht) (lin_sol_0 _ _ _ _ _) CgM Cwm lps T lam0 (conj HT (Rle_refl T)) lam_fits) as A1.
  pose proof (adjoint T (fun t => - 2 * a t) gS ws nu (fun t Ht => nu_d t Ht) (lin_sol_0 _ _ _ _ _) CgS Cws pps T psi0 (conj HT (Rle_refl T)) psi_fits) as A2.
  unfold lps in A1 at 2. unfold pps in A2 at 2. rewrite build_jsum in A1, A2.
  replace (lam0 T) with 0 in A1 by (unfold lam0, bsol; symmetry; apply lin_sol_0).
  replace (psi0 T) with 0 in A2 by (unfold psi0, bsol; symmetry; apply lin_sol_0).
  set (f3 := fun t => ea (a t) (b t) (m t) (s t) * h t + eb (a t) (b t) (m t) (s t) * k t).
  set (f2 := fun t => pdir pE (env4 (a t) (b t) (m t) (s t)) (env4 (h t) (k t) (mu t) (nu t))).
  assert (Cf2 : forall t, 0 <= t <= T -> continuous f2 t).
  { intros t Ht. apply (pdir_cont pE (fun t => env4 (a t) (b t) (m t) (s t)) (fun t => env4 (h t) (k t) (mu t) (nu t))); apply env_cont; auto using Ca, Cb, Cm, Cs, Cmu, Cnu.
    - apply (Cof h); auto.
    - apply (Cof k); auto. }
  assert (Egm : ex_RInt (fun t => gM t * mu t) 0 T) by (apply ex_RInt_on; auto; intros t Ht; apply (continuous_mult gM mu); auto using CgM, Cmu).
  assert (Egs : ex_RInt (fun t => gS t * nu t) 0 T) by (apply ex_RInt_on; auto; intros t Ht; apply (continuous_mult gS nu); auto using CgS, Cnu).
  pose proof (ex_RInt_on f2 0 T HT Cf2) as E2.
  assert (F32 : forall t, f3 t = f2 t - gM t * mu t - gS t * nu t).
  { intros t. unfold f2. rewrite (repr_dir pE e ea eb em es RE G4). unfold f3, gM, gS. ring. }
  assert (I3 : is_RInt f3 0 T (RInt f2 0 T - RInt (fun t => gM t * mu t) 0 T - RInt (fun t => gS t * nu t) 0 T)).
  { eapply is_RInt_ext; [intros t _; symmetry; apply F32|].
    apply (is_RInt_minus (fun t => f2 t - gM t * mu t) (fun t => gS t * nu t)); [apply (is_RInt_minus f2 (fun t => gM t * mu t))|];
      apply (@RInt_correct R_CompleteNormedModule); assumption. }
  pose proof (is_RInt_plus _ _ _ _ _ _ I3 (is_RInt_plus _ _ _ _ _ _ A1 A2)) as I4.
  eapply is_RInt_val; [|eapply is_RInt_ext; [|exact I4]].
  - unfold Dval. fold f2. rewrite (total_plus (fun o => cM o * mu (fst o)) (fun o => cS o * nu (fst o))). unfold plus; cbn. ring.
  - intros t _. unfold gradA, gradB, f3, Lam, Psi, wm, ws, plus; cbn. ring.
Qed.

Theorem F_derive : is_derive (fun x => Fval (fun t => a t + x * h t) (fun t => b t + x * k t) (M x) (S x)) 0 (RInt (fun t => gradA t * h t + gradB t * k t) 0 T)
  /\ Fval (fun t => a t + 0 * h t) (fun t => b t + 0 * k t) (M 0) (S 0) = Fval a b m s
  /\ ex_RInt (fun t => gradA t * h t + gradB t * k t) 0 T.
Proof.
  destruct F_quad as (C & HC).
  assert (Z : Fval (fun t => a t + 0 * h t) (fun t => b t + 0 * k t) (M 0) (S 0) = Fval a b m s).
  { specialize (HC 0 ltac:(rewrite Rabs_R0; lra)). match type of HC with Rabs ?u <= _ => pose proof (Rabs_pos u); destruct (Req_dec u 0) as [E|N]; [|apply Rabs_no_R0 in N; exfalso] end; lra. }
  split; [|split; [exact Z|eexists; exact Dval_adj]].
  rewrite (is_RInt_unique _ _ _ _ Dval_adj). apply (derive_quad _ _ C). intros x Hx. cbv beta. rewrite Z. apply HC, Hx.
Qed.
End Direction.
End Fun.
