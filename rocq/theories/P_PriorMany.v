(** * PriorKL0 with means of several rows *)
From Coq Require Import Reals Lra Lia Arith Bool List FunctionalExtensionality.
From Verif Require Import Num Arr ArrFacts M_LinAlg M_Prior Spec_Utils Spec_Det Spec_Gauss Spec_GaussN Spec_Prior
  P_LinAlg P_Det P_Gauss P_Moments P_Sde1 P_GaussN P_L63 P_RMat P_Expect P_Prior.
Import ListNotations.
Local Open Scope R_scope.

(** several rows: each one after the first adds its distance *)
Lemma kl0_many d r (mu T m S : nat -> nat -> R) : symm d S -> posdef d S -> symm d T -> posdef d T -> commute d S T ->
  exists k Ti, KLn d (m 0%nat) S (mu 0%nat) T k /\ is_inv d T Ti /\
    kl0_nd_rows (K:=RNum) ln d (Datatypes.S r) mu T m S =
    Ok (k + 1 / 2 * Rsum r (fun q => Rsum d (fun i => Rsum d (fun j =>
          (m (Datatypes.S q) i - mu (Datatypes.S q) i) * Ti i j * (m (Datatypes.S q) j - mu (Datatypes.S q) j))))).
Proof.
  intros Hs Hsp Ht Htp Hc. unfold kl0_nd_rows.
  destruct (kl0_nd_zz_val d T (zz_rows (K:=RNum) (Datatypes.S r) (msub m mu)) S Hs Hsp Ht Htp) as (Si & Ti & HSi & HTi & HTis & HTip & E).
  exists (kln d (m 0%nat) S (mu 0%nat) T Ti), Ti. split; [apply KLn_val; assumption|]. split; [exact HTi|].
  rewrite E by (apply commute_symm with (S := S); assumption). f_equal. unfold kln.
  assert (Eq : Rsum d (fun i => Rsum d (fun j => Ti i j * zz_rows (K:=RNum) (Datatypes.S r) (msub m mu) j i)) =
               Rsum d (fun i => Rsum d (fun j => (m 0%nat i - mu 0%nat i) * Ti i j * (m 0%nat j - mu 0%nat j))) +
               Rsum r (fun q => Rsum d (fun i => Rsum d (fun j =>
          (m (Datatypes.S q) i - mu (Datatypes.S q) i) * Ti i j * (m (Datatypes.S q) j - mu (Datatypes.S q) j))))).
  { clear E. induction r as [|r IH].
    - cbn [Rsum]. rewrite Rplus_0_r. apply Rsum_ext; intros; apply Rsum_ext; intros. unfold zz_rows, msub. cbn [sumn]. rnum. ring.
    - rewrite (Rsum_S r), <- Rplus_assoc, <- IH, <- Rsum_plus. apply Rsum_ext; intros i Hi. rewrite <- Rsum_plus. apply Rsum_ext; intros j Hj.
      unfold zz_rows, msub. cbn [sumn]. rnum. ring. }
  rewrite Eq. req. ring.
Qed.
