(** * Proofs about save and load *)
From Coq Require Import List String Ascii ZArith Bool Lia.
From Verif Require Import Num M_Sim Spec_Sim P_Sim.
Import ListNotations.
Local Open Scope string_scope.

Lemma app_assoc_s (a b c : string) : (a ++ b) ++ c = a ++ (b ++ c).
Proof. induction a; cbn; [reflexivity|]. f_equal. assumption. Qed.
Lemma app_nil_s (a : string) : a ++ "" = a.
Proof. induction a; cbn; [reflexivity|]. f_equal. assumption. Qed.
Lemma split_no_slash s : (forall a b, s <> a ++ "/" ++ b) -> forall acc, split_slash s acc = [acc ++ s].
Proof.
  induction s as [|c s IH]; intros H acc; cbn [split_slash]; [rewrite app_nil_s; reflexivity|].
  destruct (Ascii.eqb_spec c "/") as [->|Hc].
  - exfalso. apply (H ""%string s). reflexivity.
  - rewrite IH.
    + rewrite app_assoc_s. reflexivity.
    + intros a b E. apply (H (String c a) b). rewrite E. reflexivity.
Qed.
Lemma components_plain k : plain_key k -> components k = [k].
Proof.
  intros (H & H1 & H2). unfold components. rewrite (split_no_slash k H ""). cbn [append filter].
  destruct (String.eqb_spec k ""); [contradiction|]. destruct (String.eqb_spec k "."); [contradiction|]. reflexivity.
Qed.

Section Save.
Context {N Path : Type} (path : string -> Path) (path_eqb : Path -> Path -> bool).
Hypothesis path_eqb_spec : forall p q, path_eqb p q = true <-> p = q.
Notation out_t := (dict (oval N)).

Lemma unscalar_array (v : oval N) : unscalar v = as_array v.
Proof. destruct v; reflexivity. Qed.
Lemma as_array_idem (v : oval N) : as_array (as_array v) = as_array v.
Proof. destruct v; reflexivity. Qed.
Lemma dset_mid (pre rest : out_t) k v v' : ~ In k (keys pre) -> dset k v' (pre ++ (k, v) :: rest)%list = (pre ++ (k, v') :: rest)%list.
Proof.
  unfold keys. induction pre as [|[k1 v1] pre IH]; cbn.
  - rewrite String.eqb_refl. reflexivity.
  - intros H. destruct (String.eqb_spec k k1) as [->|]; [tauto|]. f_equal. apply IH. tauto.
Qed.
Definition arrays (out : out_t) : out_t := map (fun kv => (fst kv, as_array (snd kv))) out.
Definition dsets (out : out_t) : dict (node (oval N)) := map (fun kv => (fst kv, Dset (as_array (snd kv)))) out.
Lemma keys_arrays out : keys (arrays out) = keys out.
Proof. unfold keys, arrays. rewrite map_map. reflexivity. Qed.
Lemma keys_dsets out : keys (dsets out) = keys out.
Proof. unfold keys, dsets. rewrite map_map. reflexivity. Qed.

Lemma save_loop_ok todo : forall (g : dict (node (oval N))) pre,
  NoDup (keys (pre ++ todo)%list) -> (forall k, In k (keys todo) -> ~ In k (keys g)) ->
  Forall (fun kv => plain_key (fst kv) /\ storable (snd kv)) todo ->
  save_loop todo g (pre ++ todo)%list = (Ok tt, (g ++ dsets todo)%list, (pre ++ arrays todo)%list).
Proof.
  induction todo as [|[k v] todo IH]; intros g pre Hd Hg Hs; cbn [save_loop].
  - cbn. rewrite !app_nil_r. reflexivity.
  - inversion Hs as [|? ? [Hk Hv] Hs']; subst. cbn [fst snd] in *.
    assert (Hpre : ~ In k (keys pre)).
    { unfold keys in Hd. rewrite map_app in Hd. cbn in Hd. apply NoDup_remove_2 in Hd. rewrite in_app_iff in Hd. tauto. }
    assert (Hc : create_dataset k (unscalar v) g = Ok (g ++ [(k, Dset (as_array v))])%list).
    { unfold create_dataset. rewrite unscalar_array. rewrite components_plain by exact Hk.
      assert (Hn : dget k g = None) by (apply dget_none, Hg; left; reflexivity).
      destruct v as [x|[|n0 sh] l]; cbn [as_array]; [| destruct Hv; congruence |];
        unfold h5_create; rewrite Hn; rewrite dset_new by (apply dget_none, Hn); reflexivity. }
    rewrite Hc. rewrite dset_mid by exact Hpre.
    replace (pre ++ (k, unscalar v) :: todo)%list with ((pre ++ [(k, as_array v)]) ++ todo)%list
      by (rewrite <- app_assoc, unscalar_array; reflexivity).
    rewrite IH.
    + cbn [dsets arrays map fst snd]. rewrite <- !app_assoc. reflexivity.
    + unfold keys in *. rewrite !map_app in *. cbn in *. rewrite <- app_assoc. exact Hd.
    + intros k' Hi Hi'. unfold keys in Hi'. rewrite map_app, in_app_iff in Hi'. cbn in Hi'.
      destruct Hi' as [Hi'|[<-|[]]]; [apply (Hg k'); [right; exact Hi|exact Hi']|].
      unfold keys in Hd. rewrite map_app in Hd. cbn in Hd. apply NoDup_remove_2 in Hd. apply Hd. rewrite in_app_iff. right. exact Hi.
    + exact Hs'.
Qed.
Lemma save_ok name out k : out <> [] -> NoDup (keys out) ->
  Forall (fun kv => plain_key (fst kv) /\ storable (snd kv)) out ->
  d_can_write k (path (file_name name)) = true ->
  save_out path path_eqb name out k =
  (Ok tt, write path_eqb (path (file_name name)) (dsets out) k, arrays out).
Proof.
  intros Hne Hd Hs Hw. unfold save_out. destruct out as [|kv out]; [congruence|]. rewrite Hw.
  pose proof (save_loop_ok (kv :: out) [] [] Hd (fun _ _ H => H) Hs) as E. cbn [app] in E. rewrite E. reflexivity.
Qed.
Lemma load_dsets of_group (out : out_t) : load_all of_group (dsets out) = Ok (arrays out).
Proof. induction out as [|[k v] out IH]; cbn; [reflexivity|]. fold (dsets out). rewrite IH. reflexivity. Qed.
Lemma read_write p f (k : Disk Path (dict (node (oval N)))) q :
  d_read (write path_eqb p f k) q = (if path_eqb p q then Some f else d_read k q).
Proof. reflexivity. Qed.
Lemma path_refl p : path_eqb p p = true.
Proof. apply path_eqb_spec. reflexivity. Qed.
Lemma has_arrays (out : out_t) k v : has (arrays out) k v <-> exists u, has out k u /\ v = as_array u.
Proof.
  rewrite <- dget_has. split.
  - intros H. induction out as [|[k' u] out IH]; cbn in H; [discriminate|].
    destruct (String.eqb_spec k k') as [->|Hk].
    + injection H as <-. exists u. split; [|reflexivity]. apply dget_has. cbn. rewrite String.eqb_refl. reflexivity.
    + destruct (IH H) as (u' & Hu & E). exists u'. split; [|exact E]. apply dget_has in Hu. apply dget_has. cbn.
      destruct (String.eqb_spec k k'); [contradiction|exact Hu].
  - intros (u & Hu & ->). apply dget_has in Hu. induction out as [|[k' u'] out IH]; cbn in *; [discriminate|].
    destruct (String.eqb k k'); [congruence|auto].
Qed.
Lemma arrays_storable out : Forall (fun kv => plain_key (fst kv) /\ storable (snd kv)) out ->
  Forall (fun kv => plain_key (fst kv) /\ storable (snd kv)) (arrays out).
Proof.
  intros H. unfold arrays. apply Forall_forall. intros [k v] Hi. apply in_map_iff in Hi. destruct Hi as ([k' u] & E & Hi).
  inversion E; subst. cbn [fst snd]. rewrite Forall_forall in H. specialize (H _ Hi). cbn in H. destruct H as [H1 H2].
  split; [exact H1|]. destruct u; cbn; [discriminate|exact H2].
Qed.
Lemma arrays_twice out : arrays (arrays out) = arrays out.
Proof. unfold arrays. rewrite map_map. apply map_ext. intros [k v]. cbn. rewrite as_array_idem. reflexivity. Qed.
Lemma dsets_arrays out : dsets (arrays out) = dsets out.
Proof. unfold dsets, arrays. rewrite map_map. apply map_ext. intros [k v]. cbn. rewrite as_array_idem. reflexivity. Qed.
End Save.
