(** * Proofs about the optimiser *)
From Coq Require Import List Bool Arith ZArith Reals Lra Lia.
From Verif Require Import Num Arr M_Scg Spec_Scg.
Import ListNotations.

(** ** Weakest preconditions of the model's computations *)
Section Wp.
Context {K : Num} {W : Type}.
Definition wp {A} (m : @M K W A) (Q : A -> Stats K -> W -> Prop) (E : Stats K -> W -> Prop) st w : Prop :=
  match m st w with
  | (Ok a, st', w') => Q a st' w'
  | (Err _, st', w') => E st' w'
  end.
Lemma wp_bind {A B} (m : @M K W A) (k : A -> @M K W B) Q E st w :
  wp m (fun a => wp (k a) Q E) E st w -> wp (mbind m k) Q E st w.
Proof. unfold wp, mbind. destruct (m st w) as [[[a|e] s'] w']; auto. Qed.
Lemma wp_ret {A} (a : A) (Q : A -> Stats K -> W -> Prop) E st (w : W) : Q a st w -> wp (ret a) Q E st w.
Proof. exact (fun H => H). Qed.
Lemma wp_set u (Q : unit -> Stats K -> W -> Prop) E st (w : W) : Q tt (u st) w -> wp (set_stats u) Q E st w.
Proof. exact (fun H => H). Qed.
Lemma wp_mono {A} (m : @M K W A) (Q Q' : A -> Stats K -> W -> Prop) (E E' : Stats K -> W -> Prop) st w :
  wp m Q E st w -> (forall a s' w', Q a s' w' -> Q' a s' w') -> (forall s' w', E s' w' -> E' s' w') ->
  wp m Q' E' st w.
Proof. unfold wp. destruct (m st w) as [[[a|e] s'] w']; auto. Qed.
Lemma wp_and {A} (m : @M K W A) (Q : A -> Stats K -> W -> Prop) E st w a st' w' :
  wp m Q E st w -> m st w = (Ok a, st', w') -> Q a st' w'.
Proof. unfold wp. intros H E1. rewrite E1 in H. exact H. Qed.
Variable f : list K -> W -> result K * W.
Variable df : list K -> bool -> W -> result (list K) * W.
Lemma wp_f x (Q : K -> Stats K -> W -> Prop) (E : Stats K -> W -> Prop) st w :
  (forall v w', f x w = (Ok v, w') -> Q v st w') ->
  (forall e w', f x w = (Err e, w') -> E st w') -> wp (call_f f x) Q E st w.
Proof. unfold wp, call_f. intros H1 H2. destruct (f x w) as [[v|e] w'] eqn:Ef; eauto. Qed.
Lemma wp_df x b (Q : list K -> Stats K -> W -> Prop) (E : Stats K -> W -> Prop) st w :
  (forall v w', df x b w = (Ok v, w') -> Q v st w') ->
  (forall e w', df x b w = (Err e, w') -> E st w') -> wp (call_df df x b) Q E st w.
Proof. unfold wp, call_df. intros H1 H2. destruct (df x b w) as [[v|e] w'] eqn:Ef; eauto. Qed.

(** loop rule *)
Lemma wp_loop o n (Inv : nat -> Loc K -> Stats K -> W -> Prop) (Q : list K * K -> Stats K -> W -> Prop) E :
  (forall j s st w, j < o_nit o -> Inv j s st w ->
     wp (scg_body f df o n j s)
        (fun r st' w' => match r with inl s' => Inv (S j) s' st' w' | inr out => Q out st' w' end) E st w) ->
  (forall s st w, Inv (o_nit o) s st w -> Q (l_x s, l_fold s) st w) ->
  forall k j s st w, k + j = o_nit o -> Inv j s st w -> wp (scg_loop f df o n k j s) Q E st w.
Proof.
  intros Hb Hend. induction k as [|k IH]; intros j s st w Hk HI; cbn [scg_loop].
  - apply wp_ret. cbn in Hk. subst j. auto.
  - apply wp_bind. eapply wp_mono; [apply Hb; [lia|exact HI] | | auto].
    intros [s'|out] st' w' H; cbn beta iota in *; [apply IH; [lia|exact H] | apply wp_ret; exact H].
Qed.
Lemma wp_call o x0 (Inv : nat -> Loc K -> Stats K -> W -> Prop) (Q : list K * K -> Stats K -> W -> Prop) E st w :
  wp (scg_start f df x0) (Inv 0) E st w ->
  (forall j s st w, j < o_nit o -> Inv j s st w ->
     wp (scg_body f df o (length x0) j s)
        (fun r st' w' => match r with inl s' => Inv (S j) s' st' w' | inr out => Q out st' w' end) E st w) ->
  (forall s st w, Inv (o_nit o) s st w -> Q (l_x s, l_fold s) st w) ->
  wp (scg_call f df o x0) Q E st w.
Proof.
  intros Hs Hb He. unfold scg_call. apply wp_bind. eapply wp_mono; [exact Hs | | auto].
  intros s st' w' H. eapply wp_loop; eauto.
Qed.
(** invariants of reachable states *)
Lemma reach_inv o x0 st0 w0 (Inv : nat -> Loc K -> Stats K -> W -> Prop) E :
  wp (scg_start f df x0) (Inv 0) E st0 w0 ->
  (forall j s st w, j < o_nit o -> Inv j s st w ->
     wp (scg_body f df o (length x0) j s)
        (fun r st' w' => match r with inl s' => Inv (S j) s' st' w' | inr out => True end) E st w) ->
  forall j s st w, reach f df o x0 st0 w0 j s st w -> Inv j s st w.
Proof.
  intros Hs Hb j s st w H. induction H as [s st w H | j s st w s' st' w' _ IH Hj H].
  - exact (wp_and _ _ _ _ _ _ _ _ Hs H).
  - exact (wp_and _ _ _ _ _ _ _ _ (Hb j s st w Hj IH) H).
Qed.
(** a completed run is a chain of iterations *)
Lemma run_returns o x0 st0 w0 out st' w' :
  scg_call f df o x0 st0 w0 = (Ok out, st', w') ->
  exists n, returns f df o x0 st0 w0 n out st' w'.
Proof.
  unfold scg_call, mbind. destruct (scg_start f df x0 st0 w0) as [[[s|e] st] w] eqn:Es; [|discriminate].
  assert (R : reach f df o x0 st0 w0 0 s st w) by (constructor; exact Es).
  assert (G : forall k j s st w, k + j = o_nit o -> reach f df o x0 st0 w0 j s st w ->
     scg_loop f df o (length x0) k j s st w = (Ok out, st', w') ->
     exists n, returns f df o x0 st0 w0 n out st' w').
  { clear. induction k as [|k IH]; intros j s st w Hk R H; cbn [scg_loop] in H.
    - inversion H; subst. cbn in Hk. subst j. eexists. eapply returns_budget; exact R.
    - unfold mbind in H. destruct (scg_body f df o (length x0) j s st w) as [[[[s1|o1]|e] st1] w1] eqn:Eb;
        [ | | discriminate].
      + apply (IH (S j) s1 st1 w1); [lia | | exact H]. eapply reach_next; eauto. lia.
      + inversion H; subst. eexists. eapply returns_in; eauto. lia. }
  intros H. apply (G (o_nit o) 0 s st w); auto.
Qed.
End Wp.

Ltac wpstep :=
  match goal with
  | |- wp (mbind _ _) _ _ _ _ => apply wp_bind
  | |- wp (ret _) _ _ _ _ => apply wp_ret; cbn beta iota
  | |- wp (add_evals _ _) _ _ _ _ => apply wp_set; cbn beta iota
  | |- wp (set_maxit _) _ _ _ _ => apply wp_set; cbn beta iota
  | |- wp (record _ _ _ _) _ _ _ _ => apply wp_set; cbn beta iota
  | |- wp (set_stats _) _ _ _ _ => apply wp_set; cbn beta iota
  | |- wp (call_f _ _) _ _ _ _ => apply wp_f; intros
  | |- wp (call_df _ _ _) _ _ _ _ => apply wp_df; intros
  end.
Ltac wpbody s :=
  unfold scg_body, scg_directions, scg_step; cbv zeta;
  destruct (l_success s) eqn:?; repeat wpstep;
  repeat first
    [ match goal with |- wp (if ?c then _ else _) _ _ _ _ => destruct c eqn:? end
    | wpstep
    | progress cbn beta iota delta [l_x l_fnow l_fold l_gnew l_gold l_d l_success l_count l_beta l_kappa l_theta l_mu fst snd] ].

(** ** Logs *)
Lemma stale_nil {X} : @no_stale_gradient X [].
Proof. intros [|a l1] x e l2 H; discriminate. Qed.
Lemma snoc_split {X} (l1 l2 l : list X) a b :
  l ++ [a] = l1 ++ b :: l2 -> (l2 = [] /\ l = l1 /\ a = b) \/ exists l3, l2 = l3 ++ [a] /\ l = l1 ++ b :: l3.
Proof.
  intros H. destruct (exists_last (l := b :: l2)) as [l3 [c E]]; [discriminate|].
  rewrite E, app_assoc in H. apply app_inj_tail in H. destruct H as [H1 H2]. subst a.
  destruct l3 as [|d l3]; cbn in E; inversion E; subst.
  - left. rewrite app_nil_r in *. auto.
  - right. exists l3. auto.
Qed.
Lemma stale_f {X} l (x : X) : no_stale_gradient l -> no_stale_gradient (l ++ [CallF x]).
Proof.
  intros H l1 y e l2 E. apply snoc_split in E. destruct E as [(_ & _ & E)|(l3 & E1 & E2)]; [discriminate|].
  exact (H _ _ _ _ E2).
Qed.
Lemma stale_g {X} l (x : X) : no_stale_gradient l -> no_stale_gradient (l ++ [CallDF x true]).
Proof.
  intros H l1 y e l2 E. apply snoc_split in E. destruct E as [(_ & _ & E)|(l3 & E1 & E2)].
  - inversion E; auto.
  - exact (H _ _ _ _ E2).
Qed.
Lemma stale_fg {X} l (x : X) : no_stale_gradient (l ++ [CallF x]) -> no_stale_gradient ((l ++ [CallF x]) ++ [CallDF x false]).
Proof.
  intros H l1 y e l2 E. apply snoc_split in E. destruct E as [(_ & E1 & E)|(l3 & E1 & E2)].
  - inversion E; subst. right. exists l. reflexivity.
  - exact (H _ _ _ _ E2).
Qed.
#[export] Hint Resolve stale_nil stale_f stale_g stale_fg : stale.

Section Logs.
Context {K : Num} {W : Type}.
Variable f : list K -> W -> result K * W.
Variable df : list K -> bool -> W -> result (list K) * W.
Notation LW := (W * list (event (list K)))%type.

Lemma logf_eq x (wl wl' : LW) r : logged_f f x wl = (r, wl') -> f x (fst wl) = (r, fst wl') /\ snd wl' = snd wl ++ [CallF x].
Proof. unfold logged_f. destruct (f x (fst wl)) eqn:E. cbn. intros H; inversion H; subst; auto. Qed.
Lemma logdf_eq x e (wl wl' : LW) r :
  logged_df df x e wl = (r, wl') -> df x e (fst wl) = (r, fst wl') /\ snd wl' = snd wl ++ [CallDF x e].
Proof. unfold logged_df. destruct (df x e (fst wl)) eqn:E. cbn. intros H; inversion H; subst; auto. Qed.
End Logs.
Ltac logeqs :=
  repeat match goal with
  | H : logged_f _ _ _ = _ |- _ => apply logf_eq in H; destruct H as [? H]; cbn [fst snd] in H
  | H : logged_df _ _ _ _ = _ |- _ => apply logdf_eq in H; destruct H as [? H]; cbn [fst snd] in H
  end.

Section Stale.
Context {K : Num} {W : Type}.
Variable f : list K -> W -> result K * W.
Variable df : list K -> bool -> W -> result (list K) * W.
Notation LW := (W * list (event (list K)))%type.
Notation F := (logged_f f). Notation G := (logged_df df).

Lemma stale_body o n j s st (w : LW) :
  no_stale_gradient (snd w) ->
  wp (scg_body F G o n j s) (fun _ _ w' => no_stale_gradient (snd w')) (fun _ w' => no_stale_gradient (snd w')) st w.
Proof.
  intros H. wpbody s; logeqs.
  all: repeat match goal with E : snd ?a = _ |- _ => rewrite E in *; clear E end; auto 8 with stale.
Qed.
Lemma stale_run o x0 st (w : W) : no_stale_gradient (snd (snd (scg_call F G o x0 st (w, [])))).
Proof.
  assert (A : wp (scg_call F G o x0) (fun _ _ w' => no_stale_gradient (snd w')) (fun _ w' => no_stale_gradient (snd w'))
                 st (w, [])).
  { apply wp_call with (Inv := fun _ _ _ w' => no_stale_gradient (snd w')).
    - unfold scg_start. cbv zeta. repeat wpstep; logeqs.
      all: repeat match goal with E : snd ?a = _ |- _ => rewrite E in *; clear E end.
      all: auto using (@stale_f (list K) []), (@stale_fg (list K) []) with stale.
    - intros j s st' w' _ H. eapply wp_mono; [apply stale_body; exact H | | auto]. intros [?|?]; auto.
    - auto. }
  unfold wp in A. destruct (scg_call F G o x0 st (w, [])) as [[[a|e] st'] w']; exact A.
Qed.
End Stale.
