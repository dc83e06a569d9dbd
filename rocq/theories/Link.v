(** The vocabulary of the specification against that of the model (proofs). *)
From Coq Require Import ssreflect ZArith Lia.
From stdpp Require Import base gmap list numbers.
From Verif Require Import Base Types TypesFacts Variant Values ValuesFacts Client Observe Spec Heap Wp Rep SpecInt SpecVar SpecAssign SpecConv.

Section link.
Context (C : cfg).

Lemma nothrow_default_it t : nothrow_default C t <-> it_default C t = true.
Proof. destruct t as [u|u]; simpl; split; [by intros (?&[= <-]&?)|by exists u|by intros (?&?&?)|done]. Qed.
Lemma nothrow_copy_it t : nothrow_copy C t <-> it_copy C t = true.
Proof. destruct t as [u|u]; simpl; split; [by intros (?&[= <-]&?)|by exists u|by intros (?&?&?)|done]. Qed.
Lemma nothrow_move_it t : nothrow_move C t <-> it_move C t = true.
Proof. destruct t as [u|u]; simpl; split; [by intros (?&[= <-]&?)|by exists u|by intros (?&?&?)|done]. Qed.
Lemma nothrow_massign_it t : nothrow_massign C t <-> it_massign C t = true.
Proof. destruct t; simpl; done. Qed.
Lemma nothrow_cassign_it t : nothrow_cassign C t <-> it_cassign C t = true.
Proof. destruct t; done. Qed.

Lemma not_true b : b <> true <-> b = false.
Proof. by destruct b. Qed.

Lemma not_nothrow_default t : ~ nothrow_default C t <-> it_default C t = false.
Proof. rewrite nothrow_default_it. apply not_true. Qed.
Lemma not_nothrow_copy t : ~ nothrow_copy C t <-> it_copy C t = false.
Proof. rewrite nothrow_copy_it. apply not_true. Qed.
Lemma not_nothrow_move t : ~ nothrow_move C t <-> it_move C t = false.
Proof. rewrite nothrow_move_it. apply not_true. Qed.
Lemma not_nothrow_massign t : ~ nothrow_massign C t <-> it_massign C t = false.
Proof. rewrite nothrow_massign_it. apply not_true. Qed.
Lemma not_nothrow_cassign t : ~ nothrow_cassign C t <-> it_cassign C t = false.
Proof. rewrite nothrow_cassign_it. apply not_true. Qed.

Lemma doubly_throwing_it t : doubly_throwing C t <-> dthrow C t = true.
Proof.
  unfold doubly_throwing, dthrow. rewrite not_nothrow_copy not_nothrow_move andb_true_iff !negb_true_iff //.
Qed.

Lemma exists_doubly tys : (exists t, t ∈ tys /\ doubly_throwing C t) <-> existsb (dthrow C) tys = true.
Proof.
  rewrite existsb_exists. split; intros (t&Hin&Ht); exists t.
  - split; [by apply elem_of_list_In|by apply doubly_throwing_it].
  - split; [by apply elem_of_list_In|by apply doubly_throwing_it].
Qed.

Lemma no_fallback_it tys : no_fallback C tys <-> has_fallback C tys = false.
Proof.
  rewrite has_fallback_false. unfold no_fallback. split; intros H t Hin.
  - by apply not_nothrow_default, H.
  - by apply not_nothrow_default, H.
Qed.

Lemma fallback_it tys j u :
  fallback C tys j u <-> find_fallback C tys = Some (j, MIter j) /\ tys !! j = Some (IPlain u).
Proof.
  rewrite find_fallback_Some. unfold fallback. split.
  - intros (Hj&Hd&Hmin). split; [|done]. split; [done|]. split; [by exists (IPlain u)|].
    intros i t Hi Ht. apply not_nothrow_default. by eapply Hmin.
  - intros ((_&(t&Ht&Hd)&Hmin)&Hj). rewrite Hj in Ht. injection Ht as <-. split; [done|]. split; [done|].
    intros i t Hi Ht. apply not_nothrow_default. by eapply Hmin.
Qed.

(** With a fallback type, there is its position. *)
Lemma has_fallback_true tys : has_fallback C tys = true -> exists j u, fallback C tys j u.
Proof.
  unfold has_fallback. destruct (find_fallback C tys) as [[j m]|] eqn:E; [|done]. intros _.
  pose proof E as E'. apply find_fallback_Some in E' as (->&(t&Ht&Hd)&_).
  destruct t as [u|u]; [|done]. exists j, u. by apply fallback_it.
Qed.

(** ** Overload resolution *)
Lemma best_match_unique tys u i j : best_match C tys u i -> best_match C tys u j -> i = j.
Proof.
  intros (t&r&Ht&Hr&Hmax&Hbest) (t'&r'&Ht'&Hr'&Hmax'&Hbest').
  destruct (decide (ity_uid t = ity_uid t')) as [E|E].
  - destruct (decide (i < j)) as [H|H]; [by destruct (Hmax _ _ H Ht')|].
    destruct (decide (j < i)) as [H'|H']; [by destruct (Hmax' _ _ H' Ht)|lia].
  - assert (r < r') by (by eapply (Hbest j)). assert (r' < r) by (by eapply (Hbest' i)). lia.
Qed.

Lemma best_match_resolve tys u i : best_match C tys u i <-> resolve C tys u = Some i.
Proof.
  split; [|apply resolve_Some].
  intros Hb. pose proof Hb as (t&r&Ht&Hr&Hmax&Hbest).
  destruct (resolve C tys u) as [j|] eqn:E.
  { f_equal. eapply best_match_unique; [|exact Hb]. by apply resolve_Some. }
  exfalso. unfold resolve in E.
  assert (Hin : (i, r) ∈ candidates C tys u).
  { unfold candidates. apply elem_of_list_omap. exists (i, ity_uid t). split; [|by rewrite /= Hr].
    apply visible_from_spec. by exists i, t. }
  set (cs := candidates C tys u) in *.
  assert (Hf : (i, r) ∈ filter (fun c => Forall (fun c' => c'.1 = c.1 \/ (c.2 < c'.2)%nat) cs) cs).
  { apply elem_of_list_filter. split; [|done]. apply list.Forall_forall. intros [n r'] Hn. simpl.
    unfold cs, candidates in Hn. apply elem_of_list_omap in Hn as ([n' u']&Hv&Hn). simpl in Hn.
    destruct (rank C u u') as [r0|] eqn:Er; [|done]. injection Hn as -> ->.
    apply visible_from_spec in Hv as (j&t'&->&Hj&<-&Hmax').
    destruct (decide (ity_uid t' = ity_uid t)) as [Eq|Hne].
    - left. simpl. destruct (decide (i < j)) as [H|H]; [by destruct (Hmax _ _ H Hj)|].
      destruct (decide (j < i)) as [H'|H']; [|lia]. by destruct (Hmax' _ _ H' Ht).
    - right. by eapply Hbest. }
  destruct (filter _ cs); [by apply elem_of_nil in Hf|done].
Qed.

(** ** Conditions *)
Lemma good_tys_wf st nb tys : good_tys C st nb tys -> wf_tys C (WPar st nb) tys.
Proof.
  intros ((Hs1&Hs2)&Hst&Hnb). split.
  - intros Hnf Hd t Hin Hc. apply nothrow_move_it. apply Hs1; [by apply no_fallback_it|by apply exists_doubly|done|].
    by apply nothrow_copy_it.
  - intros Hd j m t Hf Ht. pose proof Hf as Hf'. apply find_fallback_Some in Hf' as (->&(t'&Ht'&Hdef)&_).
    simpl in Ht. rewrite Ht in Ht'. injection Ht' as <-. destruct t as [u|u]; [|done].
    assert (Hfb : fallback C tys j u) by by apply fallback_it.
    apply exists_doubly in Hd. destruct (Hs2 Hd _ _ Hfb) as [H1 H2].
    exists u. split; [done|]. split; [done|]. split; [done|]. intros E. by apply (Hst E Hd j u).
  - intros E. destruct (Hnb E) as [(t&Hin&Ht)|Hall].
    + left. destruct (has_fallback C tys) eqn:F; [done|]. apply no_fallback_it in F. by destruct (F t Hin).
    + right. apply not_true. intros Hd. apply exists_doubly in Hd as (t&Hin&Ht). by destruct (Hall t Hin).
Qed.

Lemma forallb_all {A} (f : A -> bool) l : (forall x, x ∈ l -> f x = true) -> forallb f l = true.
Proof. intros H. apply forallb_forall. intros x Hx. by apply H, elem_of_list_In. Qed.

Lemma good_env_wf st nb : good_env C st nb -> wf_env C (WPar st nb).
Proof.
  intros [H1 H2 H3 H4 H5 H6 H10 H7 H8 H9]. split.
  - done.
  - intros u tys Hin. by eapply good_tys_wf, H2.
  - done.
  - done.
  - intros u tys Hm Hin. apply forallb_all. intros t Ht. apply nothrow_move_it. by eapply H5.
  - intros u tys Hm Hin. split; apply forallb_all; intros t Ht.
    + apply nothrow_move_it. by eapply H6.
    + apply nothrow_massign_it. by eapply H6.
  - intros u tys t Hm Hin Ht. destruct (H10 _ _ _ Hm Hin Ht) as (Ha&Hb&Hc).
    split; [by apply nothrow_move_it|]. split; [by apply nothrow_massign_it|done].
  - intros u tys t Hm Hin Hh. apply nothrow_default_it. by eapply H7.
  - done.
  - done.
Qed.

(** ** Failures *)
Lemma afail_failed tys k1 t2 k' : afail C tys k1 t2 k' -> failed C tys k1 t2 k'.
Proof.
  intros (Hc&Hm&Hf&Hn). destruct (it_move C t2) eqn:E.
  { rewrite Hm //. apply failed_strong; [by apply nothrow_move_it|by apply not_nothrow_copy]. }
  assert (Hd : doubly_throwing C t2).
  { apply doubly_throwing_it. unfold dthrow. by rewrite Hc E. }
  destruct (has_fallback C tys) eqn:F.
  - destruct Hf as (j&u&H1&H2&->); [done..|]. apply failed_fallback; [done|]. by apply fallback_it.
  - destruct Hn as [[H1 H2] H3]; [done..|]. apply failed_kept; [done|by apply no_fallback_it|done..].
Qed.

Lemma assign_fail_spec n tys k1 k2 k' : assign_fail C n tys k1 k2 k' -> copy_failed C tys k1 k2 k'.
Proof.
  intros (t&Ht&H). destruct (decide (same k1 k2)) as [Hs|Hs].
  - destruct H as (H1&H2&_). eapply copy_failed_in_place; [done..| |done]. by apply not_nothrow_cassign.
  - eapply copy_failed_other; [done|done|]. by apply afail_failed.
Qed.

Lemma massign_fail_spec n tys k1 k2 k' : massign_fail C n tys k1 k2 k' -> move_failed C tys k1 k2 k'.
Proof.
  intros (t&Ht&H). destruct (decide (same k1 k2)) as [Hs|Hs].
  - destruct H as (H1&H2&_). eapply move_failed_in_place; [done..| |done]. by apply not_nothrow_massign.
  - destruct H as [Hm H]. eapply move_failed_other; [done|done| |by apply afail_failed].
    apply doubly_throwing_it. destruct H as [Hc _]. unfold dthrow. by rewrite Hc Hm.
Qed.

Lemma massign_src_spec n k1 k2 k2' : massign_src n k1 k2 k2' -> move_source k1 k2 k2'.
Proof. intros (H1&_&H3&H4). done. Qed.

Lemma from_ok_spec tys k1 u v2 k' : from_ok C tys k1 u v2 k' -> assigned_from C tys k1 u v2 k'.
Proof.
  intros (t1&Ht1&H). exists t1. split; [done|]. case_decide as E; split; try done.
  intros _. destruct H as (i&t&Hr&Ht&->). exists i, t. split; [by apply best_match_resolve|]. done.
Qed.

Lemma init_fail_spec u mv t : init_fail C u mv t -> (ity_uid t = u -> if mv then ~ nothrow_move C t else ~ nothrow_copy C t).
Proof. intros H E. specialize (H E). destruct mv; [by apply not_nothrow_move|by apply not_nothrow_copy]. Qed.

Lemma from_fail_spec n tys k1 u mv v2 k' : from_fail C n tys k1 u mv v2 k' -> from_failed C tys k1 u mv v2 k'.
Proof.
  intros (t1&Ht1&H). case_decide as E.
  - destruct H as (H1&H2&_). by eapply from_failed_in_place.
  - destruct H as (i&t&Hr&Ht&[[-> Hf]|Hf]).
    + eapply from_failed_early; [done..|by apply best_match_resolve|done|]. by apply init_fail_spec.
    + eapply from_failed_late; [done..|by apply best_match_resolve|done|]. by eapply massign_fail_spec.
Qed.

Lemma from_src_spec n mv k1 v2 v2' : from_src n mv (k1 : vval).2 v2 v2' -> from_source mv k1 v2 v2'.
Proof. unfold from_src, from_source. destruct mv; [|done]. by intros [_ H]. Qed.

Lemma convert_ok_spec tys tys2 k2 k' : convert_ok C tys tys2 k2 k' -> foreign C tys tys2 k2 k'.
Proof.
  intros (t2&i&t&Ht2&Hr&Ht&->). exists t2, i, t. split; [done|]. split; [by apply best_match_resolve|]. done.
Qed.
End link.
