(** Facts about value trees (proofs). *)
From Coq Require Import ssreflect ZArith Lia.
From stdpp Require Import base gmap list numbers.
From Verif Require Import Base Types Variant Values.

Lemma uval_ind' (P : uval -> Prop) :
  (forall z ks, Forall (fun k => P k.2) ks -> P (UV z ks)) -> forall v, P v.
Proof.
  intros H. fix IH 1. intros [z ks]. apply H.
  induction ks as [|[[b i] v] ks IHks]; constructor; [apply IH|apply IHks].
Qed.

Lemma clean_erase_id v : clean v = true -> erase v = v.
Proof.
  induction v as [z ks IH] using uval_ind'. simpl. intros Hc. f_equal.
  induction IH as [|[[b i] v] ks Hv _ IHks]; [done|]. simpl in *.
  apply andb_true_iff in Hc as [[Hb Hv']%andb_true_iff Hk]. rewrite Hv // IHks //.
  destruct b; done.
Qed.

Lemma clean_erase v : clean (erase v) = true.
Proof.
  induction v as [z ks IH] using uval_ind'. simpl.
  induction IH as [|[[b i] v] ks Hv _ IHks]; [done|]. simpl in *. rewrite Hv //.
Qed.

Lemma depth_erase v : depth (erase v) = depth v.
Proof.
  induction v as [z ks IH] using uval_ind'. simpl. f_equal.
  induction IH as [|[[b i] v] ks Hv _ IHks]; [done|]. simpl in *. rewrite Hv IHks //.
Qed.

Lemma erase_erase v : erase (erase v) = erase v.
Proof. apply clean_erase_id, clean_erase. Qed.

Lemma depth_skel v : depth (skel v) = depth v.
Proof.
  induction v as [z ks IH] using uval_ind'. simpl. f_equal.
  induction IH as [|[[b i] v] ks Hv _ IHks]; [done|]. simpl in *. rewrite Hv IHks //.
Qed.

Lemma clean_skel v : clean (skel v) = clean v.
Proof.
  induction v as [z ks IH] using uval_ind'. simpl.
  induction IH as [|[[b i] v] ks Hv _ IHks]; [done|]. simpl in *. rewrite Hv IHks //.
Qed.

Lemma skel_depth v v' : skel v = skel v' -> depth v = depth v'.
Proof. intros H. rewrite -(depth_skel v) H depth_skel //. Qed.
Lemma skel_clean v v' : skel v = skel v' -> clean v = clean v'.
Proof. intros H. rewrite -(clean_skel v) H clean_skel //. Qed.

Lemma depth_pos v : 0 < depth v.
Proof. destruct v; simpl; lia. Qed.

Lemma depth_cons z k ks n :
  depth (UV z (k :: ks)) <= S n <-> depth k.2 <= n /\ depth (UV z ks) <= S n.
Proof. simpl. lia. Qed.

Lemma depth_nil z n : depth (UV z []) <= S n.
Proof. simpl. lia. Qed.

Lemma depth_z z z' ks : depth (UV z ks) = depth (UV z' ks).
Proof. done. Qed.

Lemma clean_cons z k ks :
  clean (UV z (k :: ks)) = true <-> k.1.1 = false /\ clean k.2 = true /\ clean (UV z ks) = true.
Proof.
  simpl. rewrite !andb_true_iff negb_true_iff. tauto.
Qed.
