(** * Histories of calls, validation of the parameters, main *)
From Coq Require Import List String Ascii ZArith Bool Lia Permutation.
From Verif Require Import Num M_Proc M_Sim M_Sim1 Spec_Sim P_Sim P_Save.
Import ListNotations.
Local Open Scope string_scope.

Section Hist.
Context (W : World).
Lemma sim_run_data (s : Sim W) : s_data (snd (sim_run W s)) = s_data s.
Proof. unfold sim_run. destruct (fst (run_core W (s_data s))); reflexivity. Qed.
Lemma only_user_noise cs (s : Sim W) : only_user cs -> dget "obs_noise" (s_data (after cs s)) = dget "obs_noise" (s_data s).
Proof.
  revert s. induction cs as [|[params data h|] cs IH]; intros s Hu; cbn [after]; [reflexivity| |].
  - rewrite IH by (intros p d h' Hi; apply (Hu p d h'); right; exact Hi).
    unfold sim_setup. pose proof (keeps_noise W params data h (Hu _ _ _ (or_introl eq_refl)) (s_data s)) as Hk.
    destruct (setup W params data h (s_data s)) as [r d]. exact Hk.
  - rewrite IH by (intros p d h' Hi; apply (Hu p d h'); right; exact Hi). rewrite sim_run_data. reflexivity.
Qed.
Lemma only_user_run cs name : only_user cs -> forall u s', sim_run W (after cs (sim_init W name)) <> (Ok u, s').
Proof.
  intros Hu u s' H. pose proof (only_user_noise cs (sim_init W name) Hu) as Hn.
  assert (Hn' : dget "obs_noise" (s_data (after cs (sim_init W name))) = None) by (rewrite Hn; reflexivity).
  unfold sim_run in H. destruct (fst (run_core W (s_data (after cs (sim_init W name))))) as [r|e] eqn:E; [|discriminate].
  exact (run_no_noise W _ Hn' r E).
Qed.
End Hist.

Section Valid.
Context (W : World).
Lemma contains_obj (d : dict (pv (w_leaf W))) k : (contains W (PObj d) k = Ok true <-> In k (keys d)) /\
  (contains W (PObj d) k = Ok false <-> ~ In k (keys d)).
Proof.
  unfold contains. rewrite <- dget_none. destruct (dget k d) as [v|] eqn:E.
  - split; split; try congruence. intros _. apply dget_has in E. exact (has_in _ _ _ E).
  - split; split; try congruence. apply dget_none in E. tauto.
Qed.
Lemma check_obj order (d : dict (pv (w_leaf W))) :
  (check_keys W order (PObj d) = Ok tt <-> forall k, In k order -> In k (keys d)) /\
  (check_keys W order (PObj d) = Ok tt \/ check_keys W order (PObj d) = Err ValueError).
Proof.
  induction order as [|k order [IH1 IH2]].
  - cbn. split; [tauto|auto].
  - cbn [check_keys]. destruct (contains_obj d k) as [C1 C2]. destruct (in_dec string_dec k (keys d)) as [Hi|Hi].
    + apply C1 in Hi as Hc. rewrite Hc. cbn [bind]. split; [|exact IH2]. rewrite IH1. split.
      * intros H k' [<-|Hk]; auto.
      * intros H k' Hk. apply H. right. exact Hk.
    + apply C2 in Hi as Hc. rewrite Hc. cbn [bind]. split; [|auto]. split; [discriminate|]. intros H. exfalso. apply Hi, H. left. reflexivity.
Qed.
Lemma validate_obj order (d : dict (pv (w_leaf W))) : Permutation order required_keys ->
  ((forall k, In k required_keys -> In k (keys d)) -> validate W order (Ok (PObj d)) = Ok (PObj d)) /\
  (~ (forall k, In k required_keys -> In k (keys d)) -> validate W order (Ok (PObj d)) = Err ValueError).
Proof.
  intros Hp. destruct (check_obj order d) as [H1 H2]. unfold validate. cbn [bind].
  assert (E : (forall k, In k order -> In k (keys d)) <-> (forall k, In k required_keys -> In k (keys d))).
  { split; intros H k Hk; apply H; [apply (Permutation_in _ (Permutation_sym Hp))|apply (Permutation_in _ Hp)]; exact Hk. }
  rewrite E in H1. split; intros H.
  - apply H1 in H. rewrite H. reflexivity.
  - destruct H2 as [H2|H2]; [tauto|]. rewrite H2. reflexivity.
Qed.
Lemma validate_same order x y : validate W order (Ok x) = Ok y -> y = x.
Proof. unfold validate. cbn [bind]. destruct (check_keys W order x); cbn [bind]; congruence. Qed.
End Valid.

Section MainP.
Context (W : World) {Path : Type} (path : string -> Path) (path_eqb : Path -> Path -> bool).
Variable read_json : string -> result (pv (w_leaf W)).
Variable read_csv : string -> result unit.
Notation disk := (Disk Path (dict (node (oval (w_num W))))).
(** the three stages *)
Lemma stages_ok name params data h (k k' : disk) : stages W path path_eqb name params data h k = (Ok tt, k') ->
  exists s1 s2 out, sim_setup W params data h (sim_init W name) = (Ok tt, s1) /\ sim_run W s1 = (Ok tt, s2) /\
    save_out path path_eqb (s_name s2) (s_out s2) k = (Ok tt, k', out).
Proof.
  unfold stages. destruct (sim_setup W params data h (sim_init W name)) as [[[]|e] s1]; [|discriminate].
  destruct (sim_run W s1) as [[[]|e] s2] eqn:E2; [|discriminate].
  destruct (save_out path path_eqb (s_name s2) (s_out s2) k) as [[r kk] out] eqn:E3. intros H; inversion H; subst. eauto 10.
Qed.
Lemma stages_disk name params data h (k : disk) r k' : stages W path path_eqb name params data h k = (r, k') -> k' <> k ->
  exists s1 s2, sim_setup W params data h (sim_init W name) = (Ok tt, s1) /\ sim_run W s1 = (Ok tt, s2).
Proof.
  unfold stages. destruct (sim_setup W params data h (sim_init W name)) as [[[]|e] s1]; [|intros H; inversion H; congruence].
  destruct (sim_run W s1) as [[[]|e] s2] eqn:E2; [|intros H; inversion H; congruence]. eauto.
Qed.
End MainP.

(** ** what a run stores can be saved *)
Fixpoint has_slash (s : string) : bool :=
  match s with EmptyString => false | String c s' => Ascii.eqb c "/"%char || has_slash s' end.
Lemma has_slash_app a b : has_slash (a ++ "/" ++ b) = true.
Proof. induction a as [|c a IH]; cbn; [reflexivity|]. cbn in IH. rewrite IH. apply orb_true_r. Qed.
Lemma plain_dec k : has_slash k = false -> k <> "" -> k <> "." -> plain_key k.
Proof. intros H H1 H2. split; [|auto]. intros a b ->. rewrite has_slash_app in H. discriminate. Qed.
Definition saveable {N} (out : dict (oval N)) : Prop :=
  NoDup (keys out) /\ Forall (fun kv => plain_key (fst kv) /\ storable (snd kv)) out.
Lemma dset_forall {V} (P : string * V -> Prop) k v (d : dict V) : P (k, v) -> Forall P d -> Forall P (dset k v d).
Proof.
  intros Hp H. induction H as [|[k' v'] d Hx Hd IH]; cbn; [auto|]. destruct (String.eqb_spec k k') as [->|]; constructor; auto.
Qed.
Lemma saveable_dset {N} k (v : oval N) out : saveable out -> has_slash k = false -> k <> "" -> k <> "." -> storable v -> saveable (dset k v out).
Proof.
  intros [H1 H2] A B C D. split; [apply dset_nodup; exact H1|]. apply dset_forall; [|exact H2]. split; [apply plain_dec; auto|exact D].
Qed.
Lemma saveable_nil {N} : saveable (N:=N) [].
Proof. split; constructor. Qed.

Section World1.
Context (K : Num) (G : Rng K) (nln : K -> K) (npi : K) (spline : list K -> list K -> K -> K) (show : pv (leaf K) -> string).
Notation W := (world1 K G nln npi spline show).
Lemma optimise1_shape m m0 s0 fwd bwd l pr y t r : optimise1 K G nln npi spline m m0 s0 fwd bwd l pr y t = Ok r ->
  exists a b fx v0 w0 mt st Efx Edf lamt psit, r = (arr1 K a, arr1 K b, OScal fx, arg_out1 K v0 w0 mt st Efx Edf lamt psit).
Proof.
  unfold optimise1. destruct m0; try discriminate. destruct s0; try discriminate. destruct y; try discriminate; destruct t; try discriminate.
  all: intros H; repeat match type of H with
  | bind ?e _ = Ok _ => destruct e; cbn [bind] in H; [|discriminate]
  | match ?e with _ => _ end = Ok _ => destruct e; [|discriminate]
  end; try discriminate.
  inversion H. do 11 eexists. reflexivity.
Qed.
Lemma sim_run1_saveable (s s' : Sim W) : saveable (s_out s) -> sim_run W s = (Ok tt, s') -> saveable (s_out s') /\ s_out s' <> [] /\ s_name s' = s_name s.
Proof.
  intros Hs H. unfold sim_run in H. destruct (run_core W (s_data s)) as [[r|e] d] eqn:E; cbn [fst] in H; [|discriminate].
  injection H as <-. cbn [s_out s_name]. split; [|split; [|reflexivity]].
  2:{ destruct r as [[[a b] fx] arg]. unfold store, dupdate.
      assert (Hne : forall k v (d : dict (oval (w_num W))), dset k v d <> []) by (intros k v [|[k' v'] dd]; cbn; [|destruct (String.eqb k k')]; discriminate).
      revert arg E. intros arg _. assert (Hf : forall l d, d <> [] -> fold_left (fun d kv => dset (fst kv) (snd kv) d) l d <> ([] : dict (oval (w_num W)))).
      { induction l as [|kv l IH]; cbn; auto. }
      apply Hf, Hne. }
  unfold run_core in E.
  repeat (apply sbind_ok in E; let H1 := fresh in destruct E as (? & ? & H1 & E)). apply lift_ok in E. destruct E as [E _].
  apply optimise1_shape in E. destruct E as (a & b & fx & v0 & w0 & mt & st & Efx & Edf & lamt & psit & ->).
  unfold store, dupdate, arg_out1. cbn [fold_left fst snd].
  repeat (apply saveable_dset; [|reflexivity|discriminate|discriminate|first [exact I | discriminate]]). exact Hs.
Qed.
(** every history of calls *)
Lemma after_saveable cs (s : Sim W) : saveable (s_out s) -> saveable (s_out (after cs s)).
Proof.
  revert s. induction cs as [|[params data h|] cs IH]; intros s Hs; cbn [after]; [exact Hs| |]; apply IH.
  - unfold sim_setup. destruct (setup W params data h (s_data s)). exact Hs.
  - destruct (sim_run W s) as [[[]|e] s'] eqn:E; cbn [snd].
    + apply (sim_run1_saveable s s' Hs E).
    + unfold sim_run in E. destruct (fst (run_core W (s_data s))); inversion E; subst; exact Hs.
Qed.
End World1.
