(** * Solver selection *)
From Coq Require Import ZArith Bool String Ascii Lia Reals Lra.
From Coq Require Import List.
From Coq.Floats Require Import SpecFloat.
From Verif Require Import Num Arr M_Ode Spec_Ode P_Ode.
Import ListNotations.

Definition not_upper (c : ascii) : Prop := ~ (65 <= nat_of_ascii c <= 90).

Lemma nat_of_ascii_inj c c' : nat_of_ascii c = nat_of_ascii c' -> c = c'.
Proof. intros H. rewrite <- (ascii_nat_embedding c), <- (ascii_nat_embedding c'). now rewrite H. Qed.

Lemma lower_ascii_spec c c' : not_upper c' -> (lower_ascii c = c' <-> letter_variant c c').
Proof.
  intros Hn. unfold not_upper in Hn. unfold lower_ascii.
  pose proof (nat_ascii_bounded c) as Hb. pose proof (nat_ascii_bounded c') as Hb'.
  destruct (Nat.leb_spec 65 (nat_of_ascii c)), (Nat.leb_spec (nat_of_ascii c) 90); cbn [andb].
  - split.
    + intros <-. right. exists (nat_of_ascii c - 65).
      rewrite nat_ascii_embedding in * by lia. lia.
    + intros [->|(k & Hk & [[E1 E2]|[E1 E2]])]; try lia.
      apply nat_of_ascii_inj. rewrite nat_ascii_embedding by lia. lia.
  - split; [intros ->; now left|]. intros [->|(k & Hk & [[E1 E2]|[E1 E2]])]; auto; lia.
  - split; [intros ->; now left|]. intros [->|(k & Hk & [[E1 E2]|[E1 E2]])]; auto; lia.
  - split; [intros ->; now left|]. intros [->|(k & Hk & [[E1 E2]|[E1 E2]])]; auto; lia.
Qed.

Fixpoint no_upper (s : string) : Prop :=
  match s with EmptyString => True | String c t => not_upper c /\ no_upper t end.

Lemma lower_spec s s' : no_upper s' -> (lower s = s' <-> same_up_to_case s s').
Proof.
  revert s'; induction s as [|c s IH]; intros [|c' s'] Hn; cbn in *; try (split; [discriminate|tauto]).
  - tauto.
  - destruct Hn as [Hc Hs]. rewrite <- (IH s' Hs), <- (lower_ascii_spec c c' Hc).
    split; [intros H; injection H; auto|intros [-> ->]; reflexivity].
Qed.

Definition method_name (m : method) : string :=
  match m with Euler => "euler" | Heun => "heun" | RK2 => "rk2" | RK4 => "rk4" end%string.

Lemma method_name_lower m : no_upper (method_name m).
Proof. destruct m; cbn; unfold not_upper; cbn; repeat split; lia. Qed.

Lemma lookup_lower name m :
  lookup (lower name) num_integration = Some m <-> same_up_to_case name (method_name m).
Proof.
  rewrite <- (lower_spec _ _ (method_name_lower m)), lookup_num_integration.
  split.
  - intros [[-> ->]|[[-> ->]|[[-> ->]|[-> ->]]]]; reflexivity.
  - destruct m; cbn; tauto.
Qed.

Lemma fwd_ode_init_iff {K : Num} (dt : K) name single s :
  fwd_ode_init dt name single = Ok s <->
  (nle dt (nZ 0) = false /\
   exists m, same_up_to_case name (method_name m) /\ s = mkSolver m dt single).
Proof.
  unfold fwd_ode_init, ode_solver_init. destruct (nle dt (nZ 0)) eqn:E.
  - split; [discriminate|]. intros [? _]; congruence.
  - split.
    + destruct (lookup _ _) as [m|] eqn:El; [|discriminate]. intros H; injection H as <-.
      split; auto. exists m. split; auto. now apply lookup_lower.
    + intros [_ (m & Hm & ->)]. apply lookup_lower in Hm. now rewrite Hm.
Qed.

Lemma fwd_ode_init_err {K : Num} (dt : K) name single :
  (exists s, fwd_ode_init dt name single = Ok s) \/ fwd_ode_init dt name single = Err ValueError.
Proof.
  unfold fwd_ode_init, ode_solver_init. destruct (nle dt (nZ 0)); auto.
  destruct (lookup _ _); eauto.
Qed.

Lemma nle_R_pos (dt : R) : nle (n:=RNum) dt (nZ 0) = false <-> (0 < dt)%R.
Proof. rnum. destruct (Rleb_spec dt 0); split; intros; try lra; try discriminate; auto. Qed.

Lemma sel_R (dt : R) name single :
  let ok := (0 < dt)%R /\ exists m, same_up_to_case name (method_name m) in
  ((exists s, fwd_ode_init (K:=RNum) dt name single = Ok s) <-> ok) /\
  ((exists s, bwd_ode_init (K:=RNum) dt name single = Ok s) <-> ok) /\
  (~ ok -> fwd_ode_init (K:=RNum) dt name single = Err ValueError /\
           bwd_ode_init (K:=RNum) dt name single = Err ValueError) /\
  (forall m, (0 < dt)%R -> same_up_to_case name (method_name m) ->
     fwd_ode_init (K:=RNum) dt name single = Ok (mkSolver m dt single) /\
     bwd_ode_init (K:=RNum) dt name single = Ok (mkSolver m dt single)).
Proof.
  intros ok. change (@bwd_ode_init) with (@fwd_ode_init).
  assert (E : (exists s, fwd_ode_init (K:=RNum) dt name single = Ok s) <-> ok).
  { unfold ok. split.
    - intros [s Hs]. apply fwd_ode_init_iff in Hs. destruct Hs as [H1 (m & H2 & _)].
      split; [now apply nle_R_pos|eauto].
    - intros [H1 [m H2]]. exists (mkSolver m dt single). apply fwd_ode_init_iff.
      split; [now apply nle_R_pos|eauto]. }
  split; [exact E|]. split; [exact E|]. split.
  - intros Hn. destruct (fwd_ode_init_err (K:=RNum) dt name single) as [H|H]; tauto.
  - intros m H1 H2. split; apply fwd_ode_init_iff; (split; [now apply nle_R_pos|eauto]).
Qed.

(** In binary64 the check dt <= 0 lets a not-a-number through. *)
Lemma sel_nan :
  SFltb (S754_zero false) S754_nan = false /\
  fwd_ode_init (K:=FNum) S754_nan "euler" true = Ok (mkSolver (K:=FNum) Euler S754_nan true) /\
  bwd_ode_init (K:=FNum) S754_nan "euler" true = Ok (mkSolver (K:=FNum) Euler S754_nan true).
Proof. repeat split. Qed.
