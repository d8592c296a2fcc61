(** * Proofs about VarGP: layout, call histories, initialization. *)
From Coq Require Import ZArith List Bool Arith Reals Lra Lia Sorted.
From Verif Require Import Num Arr ArrFacts M_LinAlg M_Utils M_Ode M_Sde1 M_L63 M_Prior M_Like M_VarGP
  P_Trapz.
Import ListNotations.

(** ** layout *)
Lemma flat_map_len {A B} (f : A -> list B) c l : (forall a, length (f a) = c) ->
  length (flat_map f l) = length l * c.
Proof. intros H. induction l as [|a l IH]; [reflexivity|]. cbn [flat_map length]. rewrite app_length, H, IH. lia. Qed.
Lemma flat_map_nth {A B} (f : A -> list B) c l k i za zb : (forall a, length (f a) = c) ->
  k < length l -> i < c -> nth (k * c + i) (flat_map f l) zb = nth i (f (nth k l za)) zb.
Proof.
  intros H. revert k. induction l as [|a l IH]; intros k Hk Hi; [cbn in Hk; lia|]. cbn [flat_map].
  destruct k as [|k].
  - cbn [Nat.mul Nat.add nth]. rewrite app_nth1 by (rewrite H; exact Hi). reflexivity.
  - cbn [length] in Hk. rewrite app_nth2 by (rewrite H; lia). rewrite H.
    replace (S k * c + i - c) with (k * c + i) by lia. cbn [nth]. apply IH; lia.
Qed.
Lemma map_seq_nth {B} (f : nat -> B) d i z : i < d -> nth i (map f (seq 0 d)) z = f i.
Proof.
  intros H. rewrite (nth_indep _ z (f 0)) by (rewrite map_length, seq_length; exact H).
  rewrite map_nth, seq_nth by exact H. reflexivity.
Qed.

Section Layout.
Context {K : Num}.
Definition zv : vec K := fun _ => nZ 0.
Definition zm : mat K := fun _ _ => nZ 0.
Variable d : nat.
Lemma row_len (v : vec K) : length (map v (seq 0 d)) = d.
Proof. rewrite map_length, seq_length. reflexivity. Qed.
Lemma mat_len (A : mat K) : length (flat_map (fun i => map (A i) (seq 0 d)) (seq 0 d)) = d * d.
Proof. rewrite (flat_map_len _ d); [rewrite seq_length; reflexivity|intros; apply row_len]. Qed.
Lemma ravel2_len (b : list (vec K)) : length (ravel2 d b) = length b * d.
Proof. apply flat_map_len, row_len. Qed.
Lemma ravel3_len (a : list (mat K)) : length (ravel3 d a) = length a * (d * d).
Proof. apply flat_map_len, mat_len. Qed.
Lemma ravel2_nth (b : list (vec K)) k i z : k < length b -> i < d -> nth (k * d + i) (ravel2 d b) z = nth k b zv i.
Proof.
  intros Hk Hi. unfold ravel2. rewrite (flat_map_nth _ d b k i zv) by (auto using row_len). apply map_seq_nth, Hi.
Qed.
Lemma ravel3_nth (a : list (mat K)) k i j z : k < length a -> i < d -> j < d ->
  nth ((k * d + i) * d + j) (ravel3 d a) z = nth k a zm i j.
Proof.
  intros Hk Hi Hj. unfold ravel3.
  replace ((k * d + i) * d + j) with (k * (d * d) + (i * d + j)) by nia.
  rewrite (flat_map_nth _ (d * d) a k (i * d + j) zm) by (auto using mat_len; nia).
  rewrite (flat_map_nth _ d (seq 0 d) i j 0) by (rewrite ?seq_length; auto using row_len).
  rewrite seq_nth by exact Hi. apply map_seq_nth, Hj.
Qed.
Lemma packn_len (a : list (mat K)) (b : list (vec K)) n : length a = n -> length b = n ->
  length (packn d a b) = n * d * (d + 1).
Proof. intros Ha Hb. unfold packn. rewrite app_length, ravel3_len, ravel2_len, Ha, Hb. nia. Qed.
Lemma packn_nth_a (a : list (mat K)) (b : list (vec K)) k i j z : k < length a -> i < d -> j < d ->
  nth ((k * d + i) * d + j) (packn d a b) z = nth k a zm i j.
Proof.
  intros Hk Hi Hj. unfold packn. rewrite app_nth1 by (rewrite ravel3_len; nia). apply ravel3_nth; assumption.
Qed.
Lemma packn_nth_b (a : list (mat K)) (b : list (vec K)) n k i z : length a = n -> k < length b -> i < d ->
  nth (n * d * d + k * d + i) (packn d a b) z = nth k b zv i.
Proof.
  intros Ha Hk Hi. unfold packn. rewrite app_nth2 by (rewrite ravel3_len, Ha; nia).
  rewrite ravel3_len, Ha. replace (n * d * d + k * d + i - n * (d * d)) with (k * d + i) by nia.
  apply ravel2_nth; assumption.
Qed.

Lemma unpackn_pack (a : list (mat K)) (b : list (vec K)) n : length a = n -> length b = n ->
  exists a' b', unpackn n d (packn d a b) = Ok (a', b') /\ length a' = n /\ length b' = n /\
  forall k i, k < n -> i < d ->
    nth k b' zv i = nth k b zv i /\ (forall j, j < d -> nth k a' zm i j = nth k a zm i j).
Proof.
  intros Ha Hb. unfold unpackn, packn.
  replace (n * d * d) with (length (ravel3 d a)) by (rewrite ravel3_len, Ha; nia).
  rewrite firstn_app, firstn_all, Nat.sub_diag, app_nil_r.
  rewrite skipn_app, skipn_all, Nat.sub_diag. cbn [skipn app].
  unfold reshape3, reshape2. rewrite ravel3_len, Ha, Nat.mul_assoc, Nat.eqb_refl. cbn [bind].
  rewrite ravel2_len, Hb, Nat.eqb_refl. cbn [bind].
  eexists. eexists. split; [reflexivity|]. rewrite !map_length, !seq_length. do 2 (split; [reflexivity|]).
  intros k i Hk Hi. split.
  - rewrite map_seq_nth by exact Hk. apply ravel2_nth; [lia|exact Hi].
  - intros j Hj. rewrite map_seq_nth by exact Hk. apply ravel3_nth; [lia|exact Hi|exact Hj].
Qed.

Lemma divmod_ix n p : p < n * d -> p = (p / d) * d + p mod d /\ p / d < n /\ p mod d < d.
Proof.
  intros H. assert (d <> 0) by nia. pose proof (Nat.div_mod p d H0) as E.
  pose proof (Nat.mod_upper_bound p d H0) as Hm. repeat split; [rewrite E at 1; ring| |exact Hm].
  apply Nat.div_lt_upper_bound; [exact H0|nia].
Qed.
Lemma packn_unpack (x : list K) n : length x = n * d * (d + 1) ->
  exists a b, unpackn n d x = Ok (a, b) /\ length a = n /\ length b = n /\ packn d a b = x.
Proof.
  intros Hx. unfold unpackn, reshape3, reshape2.
  assert (H1 : length (firstn (n * d * d) x) = n * d * d) by (rewrite firstn_length, Hx; nia).
  assert (H2 : length (skipn (n * d * d) x) = n * d) by (rewrite skipn_length, Hx; nia).
  rewrite H1, Nat.eqb_refl. cbn [bind]. rewrite H2, Nat.eqb_refl. cbn [bind].
  eexists. eexists. split; [reflexivity|]. rewrite !map_length, !seq_length. do 2 (split; [reflexivity|]).
  transitivity (firstn (n * d * d) x ++ skipn (n * d * d) x); [|apply firstn_skipn]. unfold packn. f_equal.
  - apply (nth_ext _ _ (nZ 0) (nZ 0)).
    + rewrite ravel3_len, map_length, seq_length, H1. nia.
    + intros p Hp. rewrite ravel3_len, map_length, seq_length in Hp.
      destruct (divmod_ix (n * d) p ltac:(nia)) as (E & Hq & Hj).
      destruct (divmod_ix n (p / d) Hq) as (E' & Hk & Hi).
      rewrite E, E'. rewrite ravel3_nth by (rewrite ?map_length, ?seq_length; assumption).
      rewrite map_seq_nth by exact Hk. reflexivity.
  - apply (nth_ext _ _ (nZ 0) (nZ 0)).
    + rewrite ravel2_len, map_length, seq_length, H2. reflexivity.
    + intros p Hp. rewrite ravel2_len, map_length, seq_length in Hp.
      destruct (divmod_ix n p Hp) as (E & Hk & Hi).
      rewrite E. rewrite ravel2_nth by (rewrite ?map_length, ?seq_length; assumption).
      rewrite map_seq_nth by exact Hk. reflexivity.
Qed.
Lemma unpackn_err (x : list K) n : length x <> n * d * (d + 1) -> unpackn n d x = Err ValueError.
Proof.
  intros Hx. unfold unpackn, reshape3, reshape2.
  destruct (Nat.eqb_spec (length (firstn (n * d * d) x)) (n * d * d)) as [H1|]; [|reflexivity]. cbn [bind].
  destruct (Nat.eqb_spec (length (skipn (n * d * d) x)) (n * d)) as [H2|]; [|reflexivity].
  exfalso. apply Hx. rewrite <- (firstn_skipn (n * d * d) x), app_length, H1, H2. nia.
Qed.
Lemma unpackn_len (x : list K) n a b : unpackn n d x = Ok (a, b) -> length a = n /\ length b = n.
Proof.
  unfold unpackn, reshape3, reshape2. destruct (Nat.eqb _ _); [|discriminate]. cbn [bind].
  destruct (Nat.eqb _ _); [|discriminate]. cbn [bind]. intros [= <- <-]. rewrite !map_length, !seq_length. auto.
Qed.
End Layout.

Lemma unpack1_pack {K : Num} (a b : list K) n : length a = n -> unpack1 n (pack1 a b) = (a, b).
Proof.
  intros <-. unfold unpack1, pack1. rewrite !Nat.mul_1_r.
  rewrite firstn_app, firstn_all, Nat.sub_diag, app_nil_r.
  rewrite skipn_app, skipn_all, Nat.sub_diag. reflexivity.
Qed.
Lemma pack1_unpack {K : Num} (x : list K) n : length x = n * 1 * (1 + 1) ->
  pack1 (fst (unpack1 n x)) (snd (unpack1 n x)) = x /\
  length (fst (unpack1 n x)) = n /\ length (snd (unpack1 n x)) = n.
Proof.
  intros Hx. unfold unpack1, pack1. cbn [fst snd]. split; [apply firstn_skipn|].
  rewrite firstn_length, skipn_length. lia.
Qed.

(** length of the gradient *)
Lemma gradient_len {K : Num} (E : Env K) len :
  (forall a b, length a = v_n E -> length b = v_n E -> length (v_pack E a b) = len) ->
  forall x ev s g s', gradient E x ev s = (Ok g, s') -> length g = len.
Proof.
  intros Hp x ev s g s' H.
  assert (G : forall s, grad_core E x s = Ok g -> length g = len).
  { intros s0 H0. unfold grad_core in H0. destruct (v_unpack E x) as [[a b]|e]; [|discriminate]. cbn [bind] in H0.
    destruct s0 as [o|]; [|discriminate]. destruct (grad_reads_ok E a b o); [|discriminate].
    injection H0 as <-. apply Hp; rewrite !map_length, seq_length; reflexivity. }
  unfold gradient in H. destruct ev.
  - destruct (free_energy E x s) as [[v|e] s1]; [|discriminate]. injection H as H _. eauto.
  - injection H as H _. eauto.
Qed.

(** ** call histories *)
Section Hist.
Context {K : Num} (E : Env K).
Inductive call := CallF (x : list K) | CallG (x : list K) (eval_fun : bool).
Definition run1 (c : call) (s : state E) : state E :=
  match c with CallF x => snd (free_energy E x s) | CallG x ev => snd (gradient E x ev s) end.
Definition run (h : list call) (s : state E) : state E := fold_left (fun s c => run1 c s) h s.

Lemma free_energy_pure x s s' : fst (free_energy E x s) = fst (free_energy E x s').
Proof. unfold free_energy. destruct (fe_core E x) as [[v o]|e]; reflexivity. Qed.
Lemma gradient_eval_pure x s s' : fst (gradient E x true s) = fst (gradient E x true s').
Proof. unfold gradient, free_energy. destruct (fe_core E x) as [[v o]|e]; reflexivity. Qed.
Lemma gradient_after x s : (exists v, fst (free_energy E x s) = Ok v) ->
  fst (gradient E x false (snd (free_energy E x s))) = fst (gradient E x true s) /\
  snd (gradient E x false (snd (free_energy E x s))) = snd (free_energy E x s) /\
  snd (gradient E x true s) = snd (free_energy E x s).
Proof.
  intros [v Hv]. unfold gradient. unfold free_energy in *. destruct (fe_core E x) as [[v' o]|e]; [|discriminate].
  repeat split.
Qed.
Lemma gradient_fresh x : (exists ab, v_unpack E x = Ok ab) -> fst (gradient E x false None) = Err KeyError.
Proof. intros [[a b] H]. unfold gradient, grad_core. rewrite H. reflexivity. Qed.
End Hist.
