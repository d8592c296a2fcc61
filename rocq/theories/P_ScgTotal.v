(** * The optimiser completes when the objective and its gradient do, and raises nothing else than they do *)
From Coq Require Import List Bool Arith ZArith Lia.
From Verif Require Import Num Arr ArrFacts M_Scg.
Import ListNotations.

(** weakest preconditions that also see the exception *)
Section Wpe.
Context {K : Num} {W : Type}.
Definition wpe {A} (m : @M K W A) (Q : A -> Stats K -> W -> Prop) (E : exn -> Prop) st w : Prop :=
  match m st w with
  | (Ok a, st', w') => Q a st' w'
  | (Err e, _, _) => E e
  end.
Lemma wpe_bind {A B} (m : @M K W A) (k : A -> @M K W B) Q E st w :
  wpe m (fun a => wpe (k a) Q E) E st w -> wpe (mbind m k) Q E st w.
Proof. unfold wpe, mbind. destruct (m st w) as [[[a|e] s'] w']; auto. Qed.
Lemma wpe_ret {A} (a : A) (Q : A -> Stats K -> W -> Prop) E st (w : W) : Q a st w -> wpe (ret a) Q E st w.
Proof. exact (fun H => H). Qed.
Lemma wpe_set u (Q : unit -> Stats K -> W -> Prop) E st (w : W) : Q tt (u st) w -> wpe (set_stats u) Q E st w.
Proof. exact (fun H => H). Qed.
Lemma wpe_mono {A} (m : @M K W A) (Q Q' : A -> Stats K -> W -> Prop) (E : exn -> Prop) st w :
  wpe m Q E st w -> (forall a s' w', Q a s' w' -> Q' a s' w') -> wpe m Q' E st w.
Proof. unfold wpe. destruct (m st w) as [[[a|e] s'] w']; auto. Qed.
Variable f : list K -> W -> result K * W.
Variable df : list K -> bool -> W -> result (list K) * W.
Lemma wpe_loop o n (Inv : Loc K -> Stats K -> W -> Prop) (Q : list K * K -> Stats K -> W -> Prop) E :
  (forall j s st w, Inv s st w ->
     wpe (scg_body f df o n j s)
        (fun r st' w' => match r with inl s' => Inv s' st' w' | inr out => Q out st' w' end) E st w) ->
  (forall s st w, Inv s st w -> Q (l_x s, l_fold s) st w) ->
  forall k j s st w, Inv s st w -> wpe (scg_loop f df o n k j s) Q E st w.
Proof.
  intros Hb Hend. induction k as [|k IH]; intros j s st w HI; cbn [scg_loop].
  - apply wpe_ret. auto.
  - apply wpe_bind. eapply wpe_mono; [apply Hb; exact HI|].
    intros [s'|out] st' w' H; cbn beta iota in *; [apply IH; exact H | apply wpe_ret; exact H].
Qed.
Lemma wpe_call o x0 (Inv : Loc K -> Stats K -> W -> Prop) (Q : list K * K -> Stats K -> W -> Prop) E st w :
  wpe (scg_start f df x0) Inv E st w ->
  (forall j s st w, Inv s st w ->
     wpe (scg_body f df o (length x0) j s)
        (fun r st' w' => match r with inl s' => Inv s' st' w' | inr out => Q out st' w' end) E st w) ->
  (forall s st w, Inv s st w -> Q (l_x s, l_fold s) st w) ->
  wpe (scg_call f df o x0) Q E st w.
Proof.
  intros Hs Hb He. unfold scg_call. apply wpe_bind. eapply wpe_mono; [exact Hs|].
  intros s st' w' H. eapply wpe_loop; eauto.
Qed.
End Wpe.

Section Total.
Context {K : Num} {W : Type}.
Variable f : list K -> W -> result K * W.
Variable df : list K -> bool -> W -> result (list K) * W.
Variable L : nat.
Variable Good : W -> Prop.
(** the exceptions that may occur *)
Variable Allowed : exn -> Prop.
Hypothesis Hf : forall x w, length x = L ->
  (exists v w', f x w = (Ok v, w') /\ Good w') \/ exists e w', f x w = (Err e, w') /\ Allowed e.
Hypothesis Hdf : forall x b w, length x = L -> (b = true \/ Good w) ->
  (exists g w', df x b w = (Ok g, w') /\ length g = L /\ Good w') \/ exists e w', df x b w = (Err e, w') /\ Allowed e.

Definition sized (s : Loc K) : Prop :=
  length (l_x s) = L /\ length (l_gnew s) = L /\ length (l_gold s) = L /\ length (l_d s) = L.
Lemma ladd_len (u v : list K) : length u = L -> length v = L -> length (ladd u v) = L.
Proof. intros A B. unfold ladd. rewrite map2_length, A, B. lia. Qed.
Lemma lsub_len (u v : list K) : length u = L -> length v = L -> length (lsub u v) = L.
Proof. intros A B. unfold lsub. rewrite map2_length, A, B. lia. Qed.
Lemma lscale_len c (v : list K) : length v = L -> length (lscale c v) = L.
Proof. intros A. unfold lscale. rewrite map_length. exact A. Qed.
Lemma lopp_len (v : list K) : length v = L -> length (lopp v) = L.
Proof. intros A. unfold lopp. rewrite map_length. exact A. Qed.
Lemma wpe_f_total x (Q : K -> Stats K -> W -> Prop) st w : length x = L ->
  (forall v w', Good w' -> Q v st w') -> wpe (call_f f x) Q Allowed st w.
Proof.
  intros Hx HQ. unfold wpe, call_f. destruct (Hf x w Hx) as [(v & w' & -> & G)|(e & w' & -> & G)]; auto.
Qed.
Lemma wpe_df_total x b (Q : list K -> Stats K -> W -> Prop) st w : length x = L -> (b = true \/ Good w) ->
  (forall g w', length g = L -> Good w' -> Q g st w') -> wpe (call_df df x b) Q Allowed st w.
Proof.
  intros Hx Hb HQ. unfold wpe, call_df. destruct (Hdf x b w Hx Hb) as [(g & w' & -> & Hg & G)|(e & w' & -> & G)]; auto.
Qed.
Lemma scg_total o x0 st w : length x0 = L ->
  wpe (scg_call f df o x0) (fun out _ w' => length (fst out) = L /\ Good w') Allowed st w.
Proof.
  intros Hx. apply (wpe_call f df o x0 (fun s _ w => sized s /\ Good w)).
  - unfold scg_start. cbv zeta. apply wpe_bind, wpe_f_total; [exact Hx|]. intros v w1 G1.
    apply wpe_bind, wpe_df_total; [exact Hx|auto|]. intros g w2 Hg G2. apply wpe_bind, wpe_set, wpe_ret.
    split; [|exact G2]. unfold sized; cbn. repeat split; auto using lopp_len.
  - intros j s st1 w1 [(S1 & S2 & S3 & S4) G1]. unfold scg_body. apply wpe_bind.
    assert (Hstep : forall s st w, sized s -> Good w ->
      wpe (scg_step f df o (length x0) j s)
        (fun r _ w' => match r with inl s' => sized s' /\ Good w' | inr out => length (fst out) = L /\ Good w' end) Allowed st w).
    { clear - Hx Hf Hdf. intros s st w (S1 & S2 & S3 & S4) G. unfold scg_step. cbv zeta.
      assert (Hn : forall c, length (ladd (l_x s) (lscale c (l_d s))) = L) by (intros; auto using ladd_len, lscale_len).
      apply wpe_bind, wpe_f_total; [apply Hn|]. intros fn w1 G1.
      apply wpe_bind, wpe_set, wpe_bind, wpe_set.
      match goal with |- context [if ?b then (if _ && _ then _ else _) else _] => destruct b end.
      - match goal with |- context [if ?b then _ else _] => destruct b end.
        + apply wpe_bind, wpe_set, wpe_ret. cbn [fst]. auto.
        + apply wpe_bind, wpe_f_total; [apply Hn|]. intros v w2 G2.
          apply wpe_bind, wpe_df_total; [apply Hn|auto|]. intros g w3 Hg G3.
          apply wpe_bind, wpe_set.
          match goal with |- context [if isclose0 ?b then _ else _] => destruct (isclose0 b) end.
          * apply wpe_bind, wpe_set, wpe_ret. cbn [fst]. auto.
          * apply wpe_ret. split; [|exact G3]. unfold sized; cbn. repeat split; auto.
            match goal with |- context [if ?b then _ else _] => destruct b end; auto using lopp_len, lsub_len, lscale_len.
      - apply wpe_ret. split; [|exact G1]. unfold sized; cbn. repeat split; auto.
        match goal with |- context [if ?b then _ else _] => destruct b end; auto using lopp_len. }
    unfold scg_directions. cbv zeta. destruct (l_success s).
    + set (d := if nle _ _ then lopp (l_gnew s) else l_d s).
      assert (Hd : length d = L) by (unfold d; match goal with |- context [if ?b then _ else _] => destruct b end; auto using lopp_len).
      match goal with |- context [if nlt ?a ?b then _ else _] => destruct (nlt a b) end.
      * apply wpe_bind, wpe_set, wpe_ret. cbv beta iota. apply wpe_ret. cbn [fst]. auto.
      * apply wpe_bind, wpe_df_total; [auto using ladd_len, lscale_len|auto|]. intros g w2 Hg G2.
        apply wpe_bind, wpe_set, wpe_ret. cbv beta iota. apply Hstep; [|exact G2]. unfold sized; cbn. auto.
    + apply wpe_ret. cbv beta iota. apply Hstep; [|exact G1]. unfold sized. auto.
  - intros s st1 w1 [(S1 & _) G]. cbn [fst]. auto.
Qed.
Lemma scg_run_outcome o x0 w : length x0 = L ->
  (exists x fx st w', scg_run f df o x0 w = (Ok (x, fx), st, w') /\ length x = L /\ Good w') \/
  (exists e st w', scg_run f df o x0 w = (Err e, st, w') /\ Allowed e).
Proof.
  intros Hx. pose proof (scg_total o x0 (fresh_stats (o_nit o)) w Hx) as H. unfold wpe in H. unfold scg_run.
  destruct (scg_call f df o x0 (fresh_stats (o_nit o)) w) as [[[[x fx]|e] st] w'].
  - left. destruct H. exists x, fx, st, w'. auto.
  - right. exists e, st, w'. auto.
Qed.
End Total.

Lemma scg_run_total {K : Num} {W : Type} (f : list K -> W -> result K * W) (df : list K -> bool -> W -> result (list K) * W)
  (L : nat) (Good : W -> Prop) :
  (forall x w, length x = L -> exists v w', f x w = (Ok v, w') /\ Good w') ->
  (forall x b w, length x = L -> (b = true \/ Good w) -> exists g w', df x b w = (Ok g, w') /\ length g = L /\ Good w') ->
  forall o x0 w, length x0 = L ->
  exists x fx st w', scg_run f df o x0 w = (Ok (x, fx), st, w') /\ length x = L /\ Good w'.
Proof.
  intros Hf Hdf o x0 w Hx.
  destruct (scg_run_outcome f df L Good (fun _ => False) (fun x w H => or_introl (Hf x w H))
    (fun x b w H Hb => or_introl (Hdf x b w H Hb)) o x0 w Hx) as [H|(e & st & w' & _ & [])]. exact H.
Qed.
