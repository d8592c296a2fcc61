(** * Runs of the optimiser in any arithmetic: returned value, counters, last evaluation *)
From Coq Require Import List Bool Arith ZArith Lia.
From Verif Require Import Num Arr M_Ode M_VarGP M_Scg Spec_Scg P_Scg.
Import ListNotations.

(** ** The returned value *)
Section Value.
Context {K : Num} {W : Type}.
Variable f : list K -> W -> result K * W.
Variable df : list K -> bool -> W -> result (list K) * W.
Variable F : list K -> result K.
Hypothesis HF : forall x w, fst (f x w) = F x.

Lemma HF' x w v w' : f x w = (v, w') -> F x = v.
Proof. intros H. rewrite <- (HF x w), H. reflexivity. Qed.
Definition val_inv (s : Loc K) : Prop := F (l_x s) = Ok (l_fold s) /\ F (l_x s) = Ok (l_fnow s).
Lemma value_body o n j s st (w : W) : val_inv s ->
  wp (scg_body f df o n j s)
     (fun r _ _ => match r with inl s' => val_inv s' | inr out => F (fst out) = Ok (snd out) end) (fun _ _ => True) st w.
Proof.
  intros [H1 H2]. unfold val_inv. wpbody s; auto.
  all: repeat match goal with E : f _ _ = _ |- _ => apply HF' in E end.
  all: cbn [l_x l_fold l_fnow fst snd] in *; auto.
Qed.
Lemma value_start x0 st (w : W) : wp (scg_start f df x0) (fun s _ _ => val_inv s /\ l_x s = x0) (fun _ _ => True) st w.
Proof.
  unfold scg_start, val_inv. cbv zeta. repeat wpstep; auto.
  repeat match goal with E : f _ _ = _ |- _ => apply HF' in E end. cbn. auto.
Qed.
Lemma value_run o x0 st w x fx st' w' :
  scg_call f df o x0 st w = (Ok (x, fx), st', w') -> F x = Ok fx.
Proof.
  intros H.
  assert (A : wp (scg_call f df o x0) (fun out _ _ => F (fst out) = Ok (snd out)) (fun _ _ => True) st w).
  { apply wp_call with (Inv := fun _ s _ _ => val_inv s).
    - eapply wp_mono; [apply value_start | cbn; tauto | auto].
    - intros j s st1 w1 _ HI. exact (value_body o (length x0) j s st1 w1 HI).
    - intros s st1 w1 [HI _]. exact HI. }
  exact (wp_and _ _ _ _ _ _ _ _ A H).
Qed.
End Value.

(** ** Logging does not change a run *)
Section Transparent.
Context {K : Num} {W : Type}.
Variable f : list K -> W -> result K * W.
Variable df : list K -> bool -> W -> result (list K) * W.
Notation LW := (W * list (event (list K)))%type.
Definition erases {A} (m : @M K LW A) (m0 : @M K W A) : Prop :=
  forall st wl, fst (m st wl) = fst (m0 st (fst wl)) /\ fst (snd (m st wl)) = snd (m0 st (fst wl)).
Lemma er_bind {A B} m m0 (k : A -> @M K LW B) k0 :
  erases m m0 -> (forall a, erases (k a) (k0 a)) -> erases (mbind m k) (mbind m0 k0).
Proof.
  intros Hm Hk st wl. unfold mbind. destruct (Hm st wl) as [E1 E2].
  destruct (m st wl) as [[r1 s1] w1], (m0 st (fst wl)) as [[r2 s2] w2]; cbn [fst snd] in *.
  inversion E1; subst. destruct r2 as [a|e]; [apply Hk | auto].
Qed.
Lemma er_ret {A} (a : A) : erases (ret a) (ret a).
Proof. intros st wl. split; reflexivity. Qed.
Lemma er_set u : erases (set_stats u) (set_stats u).
Proof. intros st wl. split; reflexivity. Qed.
Lemma er_f x : erases (call_f (logged_f f) x) (call_f f x).
Proof. intros st wl. unfold call_f, logged_f. destruct (f x (fst wl)); split; reflexivity. Qed.
Lemma er_df x e : erases (call_df (logged_df df) x e) (call_df df x e).
Proof. intros st wl. unfold call_df, logged_df. destruct (df x e (fst wl)); split; reflexivity. Qed.
Ltac er := repeat first
  [ apply er_bind; [|intro] | apply er_ret | apply er_f | apply er_df | apply er_set
  | match goal with |- erases (if ?c then _ else _) _ => destruct c end
  | match goal with |- erases (match ?c with inl _ => _ | inr _ => _ end) _ => destruct c end ].
Lemma er_start x0 : erases (scg_start (logged_f f) (logged_df df) x0) (scg_start f df x0).
Proof. unfold scg_start, add_evals. cbv zeta. er. Qed.
Lemma er_directions j s : erases (scg_directions (logged_df df) j s) (scg_directions df j s).
Proof. unfold scg_directions, add_evals, set_maxit. cbv zeta. er. Qed.
Lemma er_step o n j s : erases (scg_step (logged_f f) (logged_df df) o n j s) (scg_step f df o n j s).
Proof. unfold scg_step, add_evals, set_maxit, record. cbv zeta. er. Qed.
Lemma er_body o n j s : erases (scg_body (logged_f f) (logged_df df) o n j s) (scg_body f df o n j s).
Proof. unfold scg_body. apply er_bind; [apply er_directions|]. intros [s1|out]; [apply er_step|apply er_ret]. Qed.
Lemma er_loop o n k : forall j s, erases (scg_loop (logged_f f) (logged_df df) o n k j s) (scg_loop f df o n k j s).
Proof.
  induction k as [|k IH]; intros j s; cbn [scg_loop]; [apply er_ret|].
  apply er_bind; [apply er_body|]. intros [s1|out]; [apply IH|apply er_ret].
Qed.
Lemma er_call o x0 : erases (scg_call (logged_f f) (logged_df df) o x0) (scg_call f df o x0).
Proof. unfold scg_call. apply er_bind; [apply er_start|]. intros s. apply er_loop. Qed.
End Transparent.

(** ** Counters *)
Section Count.
Context {K : Num} {W : Type}.
Variable f : list K -> W -> result K * W.
Variable df : list K -> bool -> W -> result (list K) * W.
Notation LW := (W * list (event (list K)))%type.
Notation F := (logged_f f). Notation G := (logged_df df).
Variables a b : nat.   (* the counts before the run *)
Definition cnt_inv (st : Stats K) (w : LW) : Prop :=
  s_feval st = a + n_evals evaluates_f (snd w) /\ s_dfeval st = b + n_evals evaluates_df (snd w).
Lemma n_evals_app {X} p (l r : list (event X)) : n_evals p (l ++ r) = n_evals p l + n_evals p r.
Proof. unfold n_evals. rewrite filter_app, app_length. reflexivity. Qed.
Ltac cnt :=
  logeqs; repeat match goal with E : snd ?a = _ |- _ => rewrite E in *; clear E end;
  cbn [s_feval s_dfeval s_maxit s_fx s_dfx s_beta] in *; rewrite ?n_evals_app;
  cbn [n_evals filter evaluates_f evaluates_df length] in *; unfold n_evals in *;
  cbn [n_evals filter evaluates_f evaluates_df length] in *; try lia; auto.
Lemma count_body o n j s st (w : LW) : cnt_inv st w ->
  wp (scg_body F G o n j s) (fun _ st' w' => cnt_inv st' w') (fun _ _ => True) st w.
Proof. intros [H1 H2]. unfold cnt_inv. wpbody s; auto; cnt. Qed.
Lemma count_start x0 st (w : LW) : cnt_inv st w ->
  wp (scg_start F G x0) (fun _ st' w' => cnt_inv st' w') (fun _ _ => True) st w.
Proof. intros [H1 H2]. unfold cnt_inv, scg_start. cbv zeta. repeat wpstep; auto; cnt. Qed.
Lemma count_call o x0 st (w : LW) out st' w' : cnt_inv st w ->
  scg_call F G o x0 st w = (Ok out, st', w') -> cnt_inv st' w'.
Proof.
  intros HI H.
  assert (A : wp (scg_call F G o x0) (fun _ st' w' => cnt_inv st' w') (fun _ _ => True) st w).
  { apply wp_call with (Inv := fun _ _ st w => cnt_inv st w); auto.
    - apply count_start; exact HI.
    - intros j s st1 w1 _ H1. eapply wp_mono; [exact (count_body o (length x0) j s st1 w1 H1) | | auto].
      intros [?|?]; auto. }
  exact (wp_and _ _ _ _ _ _ _ _ A H).
Qed.
End Count.

(** ** Iteration counter and recorded statistics *)
Section Iter.
Context {K : Num} {W : Type}.
Variable f : list K -> W -> result K * W.
Variable df : list K -> bool -> W -> result (list K) * W.
Lemma maxit_body o n j s st (w : W) :
  wp (scg_body f df o n j s)
     (fun r st' _ => match r with inl _ => s_maxit st' = s_maxit st | inr _ => s_maxit st' = S j end)
     (fun _ _ => True) st w.
Proof. wpbody s; auto; cbn; auto; lia. Qed.
Lemma maxit_start x0 st (w : W) :
  wp (scg_start f df x0) (fun _ st' _ => s_maxit st' = s_maxit st) (fun _ _ => True) st w.
Proof. unfold scg_start. cbv zeta. repeat wpstep; auto. Qed.
Lemma maxit_reach o x0 st0 w0 j s st w : reach f df o x0 st0 w0 j s st w -> s_maxit st = s_maxit st0 /\ j <= o_nit o.
Proof.
  apply (reach_inv f df o x0 st0 w0 (fun j s st w => s_maxit st = s_maxit st0 /\ j <= o_nit o) (fun _ _ => True)).
  - eapply wp_mono; [apply maxit_start | cbn; intros; split; [assumption|lia] | auto].
  - intros j' s' st' w' Hj [H _]. eapply wp_mono; [apply maxit_body | | auto].
    intros [?|?]; cbn; intros; auto. split; [congruence|lia].
Qed.
Lemma maxit_returns o x0 st0 w0 n out st w : returns f df o x0 st0 w0 n out st w ->
  n <= o_nit o /\ (s_maxit st = n \/ n = o_nit o /\ s_maxit st = s_maxit st0).
Proof.
  intros H. destruct H as [j s st w out st' w' R Hj H | s st w R].
  - split; [lia|]. left. exact (wp_and _ _ _ _ _ _ _ _ (maxit_body o (length x0) j s st w) H).
  - split; [lia|]. right. split; [reflexivity|]. apply (maxit_reach _ _ _ _ _ _ _ _ R).
Qed.
End Iter.

(** ** The last evaluation of the objective *)
Section Last.
Context {K : Num} {W : Type}.
Variable f : list K -> W -> result K * W.
Variable df : list K -> bool -> W -> result (list K) * W.
Notation LW := (W * list (event (list K)))%type.
Notation F := (logged_f f). Notation G := (logged_df df).
Lemma last_snoc {X} (l : list (event X)) v : last_point (l ++ [v]) = if evaluates_f v then Some (event_pt v) else last_point l.
Proof.
  unfold last_point. rewrite filter_app, rev_app_distr. cbn [filter]. destruct (evaluates_f v); reflexivity.
Qed.
Definition last_inv (s : Loc K) (w : LW) : Prop := l_success s = true -> last_point (snd w) = Some (l_x s).
Ltac lst :=
  logeqs; repeat match goal with E : snd ?a = _ |- _ => rewrite E in *; clear E end;
  rewrite ?last_snoc; cbn [evaluates_f event_pt l_x l_success fst snd] in *; try discriminate; auto.
Lemma last_body o n j s st (w : LW) : last_inv s w ->
  wp (scg_body F G o n j s)
     (fun r _ w' => match r with inl s' => last_inv s' w' | inr out => last_point (snd w') = Some (fst out) end)
     (fun _ _ => True) st w.
Proof. intros H. unfold last_inv in *. wpbody s; auto; lst. Qed.
Lemma last_start x0 st (w : LW) :
  wp (scg_start F G x0) (fun s _ w' => last_inv s w') (fun _ _ => True) st w.
Proof. unfold scg_start, last_inv. cbv zeta. repeat wpstep; auto; lst. Qed.
Lemma last_reach o x0 st0 w0 j s st w : reach F G o x0 st0 w0 j s st w -> last_inv s w.
Proof.
  apply (reach_inv F G o x0 st0 w0 (fun _ s _ w => last_inv s w) (fun _ _ => True)).
  - apply last_start.
  - intros j' s' st' w' _ H. eapply wp_mono; [exact (last_body o (length x0) j' s' st' w' H) | | auto].
    intros [?|?]; auto.
Qed.
Lemma last_returns o x0 st0 w0 n out st w : returns F G o x0 st0 w0 n out st w ->
  last_point (snd w) = Some (fst out) \/
  exists s, reach F G o x0 st0 w0 (o_nit o) s st w /\ l_success s = false /\ fst out = l_x s.
Proof.
  intros H. destruct H as [j s st w out st' w' R Hj H | s st w R].
  - left. exact (wp_and _ _ _ _ _ _ _ _ (last_body o (length x0) j s st w (last_reach _ _ _ _ _ _ _ _ R)) H).
  - destruct (l_success s) eqn:E; [left; apply (last_reach _ _ _ _ _ _ _ _ R E) | right; eauto].
Qed.
End Last.

(** ** The state left behind in VarGP *)
Section Vgp.
Context {K : Num} (E : Env K).
Definition holds_at (x : list K) (v : K) (w : state E) : Prop :=
  exists out, w = Some out /\ fe_core E x = Ok (v, out).
Definition vgp_inv (s : Loc K) (w : state E) : Prop :=
  if l_success s then holds_at (l_x s) (l_fold s) w /\ l_fnow s = l_fold s
  else exists xt v, holds_at xt v w.
Lemma fe_holds x w v w' : free_energy E x w = (Ok v, w') -> holds_at x v w'.
Proof.
  unfold free_energy, holds_at. destruct (fe_core E x) as [[v' out]|e]; intros H; inversion H; subst. eauto.
Qed.
Lemma fe_holds_inj x w v w' v1 w1 : free_energy E x w = (Ok v, w') -> holds_at x v1 w1 -> v1 = v /\ w1 = w'.
Proof.
  unfold free_energy, holds_at. intros H (out & -> & E1). rewrite E1 in H. inversion H; auto.
Qed.
Lemma grad_state x w v w' : gradient E x false w = (v, w') -> w' = w.
Proof. unfold gradient. intros H; inversion H; auto. Qed.
Ltac vg :=
  repeat match goal with
  | H : gradient _ _ false _ = _ |- _ => apply grad_state in H; subst
  end.
Lemma vgp_body o n j s st w : vgp_inv s w ->
  wp (scg_body (free_energy E) (gradient E) o n j s)
     (fun r _ w' => match r with inl s' => vgp_inv s' w' | inr out => holds_at (fst out) (snd out) w' end)
     (fun _ _ => True) st w.
Proof.
  intros H. unfold vgp_inv in *. wpbody s; auto; vg; cbn [l_x l_fold l_fnow l_success fst snd] in *.
  all: rewrite ?Heqb in *.
  all: try match goal with
  | H1 : free_energy E ?x ?w1 = (Ok ?v1, ?w2), H2 : free_energy E ?x ?w2 = (Ok ?v2, ?w3) |- _ =>
      destruct (fe_holds_inj _ _ _ _ _ _ H2 (fe_holds _ _ _ _ H1)); subst
  end.
  all: try solve [destruct H as [H ->]; exact H | eauto using fe_holds].
Qed.
Lemma vgp_start x0 st w :
  wp (scg_start (free_energy E) (gradient E) x0) (fun s _ w' => vgp_inv s w' /\ l_x s = x0) (fun _ _ => True) st w.
Proof.
  unfold scg_start, vgp_inv. cbv zeta. repeat wpstep; auto; vg. cbn. split; [|reflexivity].
  split; [|reflexivity]. eapply fe_holds; eauto.
Qed.
Lemma vgp_reach o x0 st0 w0 j s st w :
  reach (free_energy E) (gradient E) o x0 st0 w0 j s st w -> vgp_inv s w.
Proof.
  apply (reach_inv (free_energy E) (gradient E) o x0 st0 w0 (fun _ s _ w => vgp_inv s w) (fun _ _ => True)).
  - eapply wp_mono; [apply vgp_start | cbn; tauto | auto].
  - intros j' s' st' w' _ H. eapply wp_mono; [exact (vgp_body o (length x0) j' s' st' w' H) | | auto].
    intros [?|?]; auto.
Qed.
Lemma vgp_returns o x0 st0 w0 n x fx st w :
  returns (free_energy E) (gradient E) o x0 st0 w0 n (x, fx) st w ->
  holds_at x fx w \/
  exists s, reach (free_energy E) (gradient E) o x0 st0 w0 (o_nit o) s st w /\
            l_success s = false /\ x = l_x s /\ exists xt v, holds_at xt v w.
Proof.
  intros H. inversion H as [j s st1 w1 out st' w' R Hj Hb | s st1 w1 R]; subst.
  - left. exact (wp_and _ _ _ _ _ _ _ _ (vgp_body o (length x0) j s st1 w1 (vgp_reach _ _ _ _ _ _ _ _ R)) Hb).
  - pose proof (vgp_reach _ _ _ _ _ _ _ _ R) as I. unfold vgp_inv in I.
    destruct (l_success s) eqn:Es; [left; tauto | right]. exists s. auto.
Qed.
End Vgp.
