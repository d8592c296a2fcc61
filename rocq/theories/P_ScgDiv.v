(** * No run of the optimiser depends on the value of x / 0 or of the square root of a negative
    number. *)
From Coq Require Import List Bool Arith ZArith Reals Lra Lia.
From Verif Require Import Num Arr M_Scg Spec_Scg P_Scg P_ScgPure P_ScgR.
Import ListNotations.
Local Open Scope R_scope.

Section Div.
Variables z q : R -> R.
Notation Z := (RzNum z q).
Definition cst (s : Stats RNum) : Stats Z :=
  mkStats (K:=Z) (s_maxit s) (s_fx s) (s_dfx s) (s_beta s) (s_feval s) (s_dfeval s).
Definition clo (s : Loc RNum) : Loc Z :=
  mkLoc (K:=Z) (l_x s) (l_fnow s) (l_fold s) (l_gnew s) (l_gold s) (l_d s) (l_success s) (l_count s)
        (l_beta s) (l_kappa s) (l_theta s) (l_mu s).
Definition cop (o : Opts RNum) : Opts Z := mkOpts (K:=Z) (o_nit o) (o_xtol o) (o_ftol o).
Definition cres (r : Loc RNum + list RNum * RNum) : Loc Z + list Z * Z :=
  match r with inl s => inl (clo s) | inr out => inr out end.
Definition cid {A} (a : A) : A := a.
Definition rmap {A B} (c : A -> B) (r : result A) : result B := match r with Ok a => Ok (c a) | Err e => Err e end.

Context {W : Type}.
Variable f : list R -> W -> result R * W.
Variable df : list R -> bool -> W -> result (list R) * W.
Notation f0 := (f : list RNum -> W -> result RNum * W).
Notation df0 := (df : list RNum -> bool -> W -> result (list RNum) * W).
Notation fz := (f : list Z -> W -> result Z * W).
Notation dfz := (df : list Z -> bool -> W -> result (list Z) * W).

Definition agree {A B} (c : A -> B) (m : @M RNum W A) (mz : @M Z W B) st w : Prop :=
  mz (cst st) w = (rmap c (fst (fst (m st w))), cst (snd (fst (m st w))), snd (m st w)).
Lemma ag_bind {A A' B B'} (c : A -> A') (c' : B -> B') m mz k kz st w :
  agree c m mz st w ->
  (forall a st' w', m st w = (Ok a, st', w') -> agree c' (k a) (kz (c a)) st' w') ->
  agree c' (mbind m k) (mbind mz kz) st w.
Proof.
  unfold agree, mbind. intros H Hk. rewrite H. destruct (m st w) as [[[a|e] st'] w'] eqn:E; cbn [fst snd rmap].
  - apply Hk. reflexivity.
  - reflexivity.
Qed.
Lemma ag_ret {A B} (c : A -> B) a b st w : c a = b -> agree c (ret a) (ret b) st w.
Proof. intros <-. reflexivity. Qed.
Lemma ag_set u uz st w : uz (cst st) = cst (u st) -> agree cid (set_stats u) (set_stats uz) st w.
Proof. unfold agree, set_stats. cbn. intros ->. reflexivity. Qed.
Lemma ag_f (x : list R) st w : agree cid (call_f f0 x) (call_f fz x) st w.
Proof. unfold agree, call_f. destruct (f x w) as [[v|e] w']; reflexivity. Qed.
Lemma ag_df (x : list R) e st w : agree cid (call_df df0 x e) (call_df dfz x e) st w.
Proof. unfold agree, call_df. destruct (df x e w) as [[v|e'] w']; reflexivity. Qed.

Lemma div_z (x y : R) : y <> 0 -> ndiv (n:=Z) x y = x / y.
Proof. intros H. cbn. destruct (Req_EM_T y 0); [contradiction|reflexivity]. Qed.
Lemma sqrt_z (x : R) : 0 <= x -> nsqrt (n:=Z) x = sqrt x.
Proof. intros H. cbn. destruct (Rlt_dec x 0); [lra|reflexivity]. Qed.
Lemma rlit_R : forall a p, nlit (n:=Z) a p = rlit a p. Proof. reflexivity. Qed.

Lemma ag_start (x0 : list R) st w : agree clo (scg_start f0 df0 x0) (scg_start fz dfz x0) st w.
Proof.
  unfold scg_start. cbv zeta.
  eapply ag_bind; [apply ag_f|]. intros v st1 w1 _.
  eapply ag_bind; [apply ag_df|]. intros g st2 w2 _.
  eapply ag_bind; [apply ag_set; reflexivity|]. intros [] st3 w3 _.
  apply ag_ret. reflexivity.
Qed.
Lemma ag_dir n j s st w : inv n s -> agree cres (scg_directions df0 j s) (scg_directions dfz j (clo s)) st w.
Proof.
  intros I. unfold scg_directions. cbv zeta. change (l_success (clo s)) with (l_success s).
  destruct (l_success s) eqn:Es; [|apply ag_ret; reflexivity].
  cbn [clo l_d l_gnew l_x l_fnow l_fold l_gold l_count l_beta].
  set (d := if nle (n:=RNum) (nZ (K:=RNum) 0) (ldot (K:=RNum) (l_d s) (l_gnew s)) then lopp (K:=RNum) (l_gnew s) else l_d s).
  match goal with |- agree _ (if ?c then _ else _) (if ?c' then _ else _) _ _ =>
    change c' with c; destruct c eqn:Ec end.
  - eapply ag_bind; [apply ag_set; reflexivity|]. intros [] st1 w1 _. apply ag_ret. reflexivity.
  - pose proof eps_pos as He. pose proof sigma0_pos as Hs0.
    assert (H : ~ (ldot (K:=RNum) d d : R) < eps_float (K:=RNum)).
    { intros Hc. change (Rltb (ldot (K:=RNum) d d) (eps_float (K:=RNum)) = false) in Ec.
      destruct (Rltb_spec (ldot (K:=RNum) d d) (eps_float (K:=RNum))); [discriminate|contradiction]. }
    assert (Hk : 0 < ldot (K:=RNum) d d) by (apply Rlt_le_trans with (eps_float (K:=RNum)); [exact He | apply Rnot_lt_le; exact H]).
    assert (Hq : 0 < sqrt (ldot (K:=RNum) d d)) by (apply sqrt_lt_R0; exact Hk).
    set (sg := ndiv (n:=RNum) (sigma0 (K:=RNum)) (nsqrt (n:=RNum) (ldot (K:=RNum) d d))).
    assert (Hsg : (sg : R) <> 0).
    { apply Rgt_not_eq. apply Rdiv_lt_0_compat; assumption. }
    match goal with |- agree _ _ (mbind (call_df _ (ladd _ (lscale ?sz _)) _) _) _ _ =>
      assert (Esg : sz = sg); [|rewrite Esg] end.
    { change (ndiv (n:=Z) (sigma0 (K:=RNum)) (nsqrt (n:=Z) (ldot (K:=RNum) d d : R)) = sg).
      rewrite sqrt_z by (apply Rlt_le; exact Hk). rewrite div_z by (apply Rgt_not_eq; exact Hq). reflexivity. }
    eapply ag_bind; [apply (ag_df (ladd (K:=RNum) (l_x s) (lscale (K:=RNum) sg d)))|]. intros g st1 w1 _.
    eapply ag_bind; [apply ag_set; reflexivity|]. intros [] st2 w2 _.
    apply ag_ret. unfold cres, clo, cid. cbn [l_d l_gnew l_x l_fnow l_fold l_gold l_count l_beta l_success l_kappa l_theta l_mu].
    rewrite div_z by exact Hsg. reflexivity.
Qed.
Lemma curv_z s : good s -> scg_curvature (clo s) = scg_curvature s.
Proof.
  intros G. pose proof eps_pos as He. destruct G as [Hk _ _].
  unfold scg_curvature. cbn [clo l_theta l_beta l_kappa].
  rewrite div_z; [reflexivity|]. apply Rgt_not_eq. eapply Rlt_le_trans; eauto.
Qed.
Lemma alpha_z s : good s -> scg_alpha (clo s) = scg_alpha s.
Proof.
  intros G. unfold scg_alpha. rewrite (curv_z s G). cbn [clo l_mu].
  rewrite div_z; [reflexivity|]. apply Rgt_not_eq. apply (good_curv s G).
Qed.
Lemma ag_step o n j s st w : good s ->
  agree cres (scg_step f0 df0 o n j s) (scg_step fz dfz (cop o) n j (clo s)) st w.
Proof.
  intros G. destruct (good_alpha s G) as [Ha Ham].
  assert (Hmu : (l_mu s : R) <> 0) by (apply Rlt_not_eq; apply G).
  unfold scg_step. cbv zeta. rewrite (curv_z s G), (alpha_z s G).
  cbn [clo l_d l_gnew l_x l_fnow l_fold l_gold l_count l_beta l_mu l_kappa l_theta].
  set (al := scg_alpha s : R) in *. set (be := snd (scg_curvature s) : R).
  eapply ag_bind; [apply (ag_f (ladd (K:=RNum) (l_x s) (lscale (K:=RNum) al (l_d s))))|]. intros fn st1 w1 _.
  eapply ag_bind; [apply ag_set; reflexivity|]. intros [] st2 w2 _.
  unfold cid.
  assert (Ede : ndiv (n:=Z) (nmul (n:=Z) (nZ (K:=Z) 2) (nsub (n:=Z) fn (l_fold s))) (nmul (n:=Z) al (l_mu s)) =
                ndiv (n:=RNum) (nmul (n:=RNum) (nZ (K:=RNum) 2) (nsub (n:=RNum) fn (l_fold s))) (nmul (n:=RNum) al (l_mu s))).
  { rewrite div_z; [reflexivity|]. apply Rlt_not_eq. exact Ham. }
  rewrite Ede. clear Ede.
  set (de := ndiv (n:=RNum) (nmul (n:=RNum) (nZ (K:=RNum) 2) (nsub (n:=RNum) fn (l_fold s))) (nmul (n:=RNum) al (l_mu s)) : R).
  change (nle (n:=Z) (nZ (K:=Z) 0) de) with (nle (n:=RNum) (nZ (K:=RNum) 0) de).
  destruct (nle (n:=RNum) (nZ (K:=RNum) 0) de).
  - eapply ag_bind; [apply ag_set; reflexivity|]. intros [] st3 w3 _.
    match goal with |- agree _ (if ?c then _ else _) (if ?c' then _ else _) _ _ =>
      change c' with c; destruct c end.
    + eapply ag_bind; [apply ag_set; reflexivity|]. intros [] st4 w4 _. apply ag_ret. reflexivity.
    + eapply ag_bind; [apply (ag_f (ladd (K:=RNum) (l_x s) (lscale (K:=RNum) al (l_d s))))|]. intros fn2 st4 w4 _.
      eapply ag_bind; [apply (ag_df (ladd (K:=RNum) (l_x s) (lscale (K:=RNum) al (l_d s))))|]. intros gn st5 w5 _.
      eapply ag_bind; [apply ag_set; reflexivity|]. intros [] st6 w6 _. unfold cid.
      match goal with |- agree _ (if ?c then _ else _) (if ?c' then _ else _) _ _ =>
        change c' with c; destruct c end.
      * eapply ag_bind; [apply ag_set; reflexivity|]. intros [] st7 w7 _. apply ag_ret. reflexivity.
      * apply ag_ret. unfold cres, clo. cbn [l_d l_gnew l_x l_fnow l_fold l_gold l_count l_beta l_success l_kappa l_theta l_mu].
        rewrite div_z by exact Hmu. reflexivity.
  - eapply ag_bind; [apply ag_set; reflexivity|]. intros [] st3 w3 _.
    apply ag_ret. reflexivity.
Qed.
Lemma ag_body o n j s st w : inv n s ->
  agree cres (scg_body f0 df0 o n j s) (scg_body fz dfz (cop o) n j (clo s)) st w.
Proof.
  intros I. unfold scg_body. eapply ag_bind; [exact (ag_dir n j s st w I)|].
  intros r st1 w1 E. pose proof (wp_and _ _ _ _ _ _ _ _ (dir_R df n j s st w I) E) as P.
  destruct r as [s1|out]; cbn [cres].
  - apply ag_step. tauto.
  - apply ag_ret. reflexivity.
Qed.
Lemma ag_loop o n k : forall j s st w, inv n s ->
  agree cid (scg_loop f0 df0 o n k j s) (scg_loop fz dfz (cop o) n k j (clo s)) st w.
Proof.
  induction k as [|k IH]; intros j s st w I; cbn [scg_loop].
  - apply ag_ret. reflexivity.
  - eapply ag_bind; [exact (ag_body o n j s st w I)|].
    intros r st1 w1 E. pose proof (wp_and _ _ _ _ _ _ _ _ (body_inv f df o n j s st w I) E) as P.
    destruct r as [s1|out]; cbn [cres].
    + apply IH. exact P.
    + apply ag_ret. reflexivity.
Qed.
Lemma ag_call o (x0 : list R) st w : agree cid (scg_call f0 df0 o x0) (scg_call fz dfz (cop o) x0) st w.
Proof.
  unfold scg_call. eapply ag_bind; [exact (ag_start x0 st w)|].
  intros s st1 w1 E. pose proof (wp_and _ _ _ _ _ _ _ _ (start_inv f df (length x0) x0 st w) E) as P.
  apply ag_loop. exact P.
Qed.
End Div.
