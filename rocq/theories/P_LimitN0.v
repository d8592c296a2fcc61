(** * solve_fwd depends only on the entries with indexes below d; convergence for coefficients
    given by lists whose entries below d are the sampled functions. *)
From Coq Require Import ZArith List Bool Arith Reals Lra Lia.
From Coquelicot Require Import Coquelicot.
From Verif Require Import Num Arr ArrFacts M_LinAlg M_Ode Spec_Utils Spec_Ode Spec_TimeVar
  P_Ode P_OdeR P_OdeRK P_Conv P_TimeVar P_TimeVar2 P_TimeVar3 P_TimeVar4 P_TimeVar5 P_TimeVar10.
Import ListNotations.
Local Open Scope R_scope.

(** ** relational reading of the solvers *)
Section Rel.
Context {K : Num} (P : Sys K) (RM : VM P -> VM P -> Prop) (RS : VS P -> VS P -> Prop).
Local Open Scope val_scope.
Context (Ma : forall u u' v v', RM u u' -> RM v v' -> RM (u +v v) (u' +v v')) (Ms : forall c u u', RM u u' -> RM (c *v u) (c *v u'))
  (Md : forall c u u', RM u u' -> RM (u /v c) (u' /v c)) (Mz : RM (vzero (VM P)) (vzero (VM P))).
Context (Sa : forall u u' v v', RS u u' -> RS v v' -> RS (u +v v) (u' +v v')) (Ss : forall c u u', RS u u' -> RS (c *v u) (c *v u'))
  (Sd : forall c u u', RS u u' -> RS (u /v c) (u' /v c)) (Sz : RS (vzero (VS P)) (vzero (VS P))).
Context (Fm : forall m m' a a' b b', RM m m' -> RS a a' -> RM b b' -> RM (f_mt P m a b) (f_mt P m' a' b')).
Context (Fs : forall s s' a a' c c', RS s s' -> RS a a' -> RS c c' -> RS (f_st P s a c) (f_st P s' a' c')).

Definition lrel {V : Val K} (R_ : V -> V -> Prop) (l l' : list V) : Prop :=
  length l = length l' /\ forall k, R_ (nth k l (vzero V)) (nth k l' (vzero V)).

Lemma lrel_cons {V : Val K} (R_ : V -> V -> Prop) x x' l l' : lrel R_ (x :: l) (x' :: l') <-> R_ x x' /\ lrel R_ l l'.
Proof.
  unfold lrel. cbn [length]. split.
  - intros [L H]. split; [exact (H O)|]. split; [lia|]. intros k. exact (H (S k)).
  - intros [H [L H']]. split; [lia|]. intros [|k]; [exact H|exact (H' k)].
Qed.
Lemma lrel_upd {V : Val K} (R_ : V -> V -> Prop) k : forall x x' l l', R_ x x' -> lrel R_ l l' -> lrel R_ (upd k x l) (upd k x' l').
Proof.
  induction k; intros x x' l l' H HL; destruct l as [|y l], l' as [|y' l']; try (destruct HL as [L _]; discriminate L); cbn [upd]; auto.
  - apply lrel_cons in HL. apply lrel_cons. tauto.
  - apply lrel_cons in HL. apply lrel_cons. split; [tauto|]. apply IHk; tauto.
Qed.
Lemma lrel_rep {V : Val K} (R_ : V -> V -> Prop) n : R_ (vzero V) (vzero V) -> lrel R_ (repeat (vzero V) n) (repeat (vzero V) n).
Proof. intros Z. split; [reflexivity|]. intros k. assert (E : nth k (repeat (vzero V) n) (vzero V) = vzero V) by (revert k; induction n; intros [|k]; cbn; auto). rewrite E. exact Z. Qed.
Lemma lrel_mids {V : Val K} (R_ : V -> V -> Prop) l l' : R_ (vzero V) (vzero V) ->
  (forall u u' v v', R_ u u' -> R_ v v' -> R_ (u +v v) (u' +v v')) -> (forall c u u', R_ u u' -> R_ (c *v u) (c *v u')) ->
  lrel R_ l l' -> lrel R_ (mids l) (mids l').
Proof.
  intros Z A_ S_. revert l'. induction l as [|x l IH]; intros [|x' l'] HL; try (destruct HL as [L _]; discriminate L); [exact HL|].
  apply lrel_cons in HL. destruct HL as [Hx HL]. destruct l as [|y l], l' as [|y' l']; try (destruct HL as [L _]; discriminate L).
  - split; [reflexivity|]. intros [|[|k]]; exact Z.
  - specialize (IH (y' :: l') HL). apply lrel_cons in HL. change (mids (x :: y :: l)) with (half *v (x +v y) :: mids (y :: l)).
    change (mids (x' :: y' :: l')) with (half *v (x' +v y') :: mids (y' :: l')). apply lrel_cons. split; [|exact IH]. apply S_, A_; tauto.
Qed.
Ltac rl := repeat first [assumption|apply Ma|apply Ms|apply Md|apply Sa|apply Ss|apply Sd|apply Fm|apply Fs].

Lemma body_rel mtd dt al al' bl bl' sg sg' : lrel RS al al' -> lrel RM bl bl' -> RS sg sg' -> forall k m m' s s', RM m m' -> RS s s' ->
  RM (fst (fwd_body P mtd dt al bl sg k m s)) (fst (fwd_body P mtd dt al' bl' sg' k m' s')) /\
  RS (snd (fwd_body P mtd dt al bl sg k m s)) (snd (fwd_body P mtd dt al' bl' sg' k m' s')).
Proof.
  intros Ha Hb Hg k m m' s s' Hm Hs.
  pose proof (lrel_mids RS al al' Sz Sa Ss Ha) as Ha2. pose proof (lrel_mids RM bl bl' Mz Ma Ms Hb) as Hb2.
  destruct Ha as [_ Ha], Hb as [_ Hb], Ha2 as [_ Ha2], Hb2 as [_ Hb2].
  destruct mtd; cbn [fwd_body]; unfold euler_fwd_body, heun_fwd_body, rk2_fwd_body, rk4_fwd_body, ga, gm; cbn [fst snd]; split; rl; first [apply Ha|apply Hb|apply Ha2|apply Hb2].
Qed.
Lemma loop_rel body body' n m m' s s' : (forall k m m' s s', RM m m' -> RS s s' -> RM (fst (body k m s)) (fst (body' k m' s')) /\ RS (snd (body k m s)) (snd (body' k m' s'))) ->
  RM m m' -> RS s s' ->
  lrel RM (fst (fwd_loop P body n m s)) (fst (fwd_loop P body' n m' s')) /\ lrel RS (snd (fwd_loop P body n m s)) (snd (fwd_loop P body' n m' s')).
Proof.
  intros HB Hm Hs. unfold fwd_loop.
  assert (G : forall q ml ml' sl sl', lrel RM ml ml' -> lrel RS sl sl' -> 
    lrel RM (fst (fold_left (fun '(mt, st) k => let '(m, s) := body k (gm P mt k) (ga P st k) in (upd (k + 1) m mt, upd (k + 1) s st)) q (ml, sl)))
            (fst (fold_left (fun '(mt, st) k => let '(m, s) := body' k (gm P mt k) (ga P st k) in (upd (k + 1) m mt, upd (k + 1) s st)) q (ml', sl'))) /\
    lrel RS (snd (fold_left (fun '(mt, st) k => let '(m, s) := body k (gm P mt k) (ga P st k) in (upd (k + 1) m mt, upd (k + 1) s st)) q (ml, sl)))
            (snd (fold_left (fun '(mt, st) k => let '(m, s) := body' k (gm P mt k) (ga P st k) in (upd (k + 1) m mt, upd (k + 1) s st)) q (ml', sl')))).
  { induction q as [|k q IH]; intros ml ml' sl sl' H1 H2; [split; assumption|]. cbn [fold_left].
    destruct (HB k (gm P ml k) (gm P ml' k) (ga P sl k) (ga P sl' k) (proj2 H1 k) (proj2 H2 k)) as [B1 B2].
    destruct (body k (gm P ml k) (ga P sl k)) as [x y], (body' k (gm P ml' k) (ga P sl' k)) as [x' y'].
    apply IH; apply lrel_upd; assumption. }
  apply G; apply lrel_upd; auto using lrel_rep.
Qed.
Lemma solve_rel mtd dt al al' bl bl' m m' s s' sg sg' mt st : lrel RS al al' -> lrel RM bl bl' -> RM m m' -> RS s s' -> RS sg sg' ->
  solve_fwd P mtd dt al bl m s sg = Ok (mt, st) -> exists mt' st', solve_fwd P mtd dt al' bl' m' s' sg' = Ok (mt', st') /\ lrel RM mt mt' /\ lrel RS st st'.
Proof.
  intros Ha Hb Hm Hs Hg. unfold solve_fwd. rewrite (proj1 Ha), (proj1 Hb). destruct fwd_reads_ok; [|discriminate].
  intros E. injection E as E.
  destruct (loop_rel (fwd_body P mtd dt al bl sg) (fwd_body P mtd dt al' bl' sg') (length bl') m m' s s' (body_rel mtd dt al al' bl bl' sg sg' Ha Hb Hg) Hm Hs) as [L1 L2].
  rewrite E in L1, L2. do 2 eexists. split; [apply f_equal, surjective_pairing|]. split; [exact L1|exact L2].
Qed.
End Rel.

(** ** n dimensions *)
Definition relv (d : nat) (u v : vV) : Prop := forall i, (i < d)%nat -> u i = v i.
Definition relm (d : nat) (u v : mV) : Prop := forall i j, (i < d)%nat -> (j < d)%nat -> u i j = v i j.
Lemma solve_n d mtd dt al al' bl bl' m m' s s' sg sg' mt st : lrel (relm d) al al' -> lrel (relv d) bl bl' -> relv d m m' -> relm d s s' -> relm d sg sg' ->
  solve_fwd (Sn d) mtd dt al bl m s sg = Ok (mt, st) -> exists mt' st', solve_fwd (Sn d) mtd dt al' bl' m' s' sg' = Ok (mt', st') /\ lrel (relv d) mt mt' /\ lrel (relm d) st st'.
Proof.
  apply (solve_rel (Sn d) (relv d) (relm d)).
  - intros u u' v v' H1 H2 i Hi. cbn. rewrite H1, H2 by exact Hi. reflexivity.
  - intros c u u' H1 i Hi. cbn. rewrite H1 by exact Hi. reflexivity.
  - intros c u u' H1 i Hi. cbn. rewrite H1 by exact Hi. reflexivity.
  - intros i Hi. reflexivity.
  - intros u u' v v' H1 H2 i j Hi Hj. cbn. rewrite H1, H2 by assumption. reflexivity.
  - intros c u u' H1 i j Hi Hj. cbn. rewrite H1 by assumption. reflexivity.
  - intros c u u' H1 i j Hi Hj. cbn. rewrite H1 by assumption. reflexivity.
  - intros i j Hi Hj. reflexivity.
  - intros m1 m1' a a' b b' H1 H2 H3 i Hi. cbn. unfold fun_mt_n, mvec. rewrite (H3 i Hi). do 2 f_equal.
    apply sumn_ext. intros k Hk. rewrite (H1 k Hk), (H2 i k Hi Hk). reflexivity.
  - intros s1 s1' a a' c c' H1 H2 H3 i j Hi Hj. cbn. unfold fun_st_n, mmul, mtr. rewrite (H3 i j Hi Hj). f_equal. f_equal; [f_equal|].
    + apply sumn_ext. intros k Hk. rewrite (H1 k j Hk Hj), (H2 i k Hi Hk). reflexivity.
    + apply sumn_ext. intros k Hk. rewrite (H1 i k Hi Hk), (H2 j k Hj Hk). reflexivity.
Qed.
