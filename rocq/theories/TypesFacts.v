(** Facts about the fallback search and overload resolution (proofs). *)
From Coq Require Import ssreflect ZArith Lia.
From stdpp Require Import base gmap list numbers.
From Verif Require Import Base Types.

Section facts.
Context (C : cfg).

Lemma iter_fold_if_spec pred n i st :
  exists d, d <= n /\ iter_fold_if pred n i st = (st + d, MIter (i + d)) /\
    (forall j, j < d -> pred (MIter (i + j)) = true) /\
    (d < n -> pred (MIter (i + d)) = false).
Proof.
  revert i st. induction n as [|n IH]; intros i st; simpl.
  { exists 0. rewrite !Nat.add_0_r. repeat split; try lia. }
  destruct (pred (MIter i)) eqn:E.
  - destruct (IH (S i) (S st)) as (d&Hd&He&Hlt&Hend). exists (S d). split; [lia|].
    split; [rewrite He; f_equal; [|f_equal]; lia|]. split.
    + intros [|j] Hj; [by rewrite Nat.add_0_r|].
      replace (i + S j) with (S i + j) by lia. apply Hlt. lia.
    + intros Hn. replace (i + S d) with (S i + d) by lia. apply Hend. lia.
  - exists 0. rewrite !Nat.add_0_r. repeat split; try lia; done.
Qed.

(** The fallback type is the first nothrow default constructible one; the preference for
    boost::blank never takes effect. *)
Lemma find_fallback_Some tys j m :
  find_fallback C tys = Some (j, m) <->
  m = MIter j /\ (exists t, tys !! j = Some t /\ it_default C t = true) /\
  forall i t, i < j -> tys !! i = Some t -> it_default C t = false.
Proof.
  unfold find_fallback.
  destruct (iter_fold_if_spec (find_fallback_pred C tys) (length tys) 0 0) as (d&Hd&He&Hlt&Hend).
  rewrite He. simpl in *.
  destruct (iter_fold_if_spec (not_same_as_blank C) (length tys - d) d d) as (d'&Hd'&He'&Hlt'&Hend').
  assert (d' = length tys - d).
  { destruct (decide (d' < length tys - d)) as [H|H]; [|lia]. by apply Hend' in H. }
  subst d'. rewrite He' /=. rewrite decide_True; [lia|].
  assert (Hpred : forall i t, tys !! i = Some t -> find_fallback_pred C tys (MIter i) = negb (it_default C t)).
  { intros i t Hi. rewrite /find_fallback_pred /= Hi //. }
  case_decide as Hde.
  - split; [done|]. intros (-> & (t&Ht&Hdef) & _). exfalso.
    assert (j < d) as Hj by (apply lookup_lt_Some in Ht; lia).
    apply Hlt in Hj. rewrite (Hpred _ _ Ht) Hdef in Hj. done.
  - assert (Hdl : d < length tys) by lia. specialize (Hend Hdl).
    destruct (lookup_lt_is_Some_2 tys d Hdl) as [t Ht].
    rewrite (Hpred _ _ Ht) in Hend. apply negb_false_iff in Hend.
    split.
    + intros [= <- <-]. split; [done|]. split; [by exists t|].
      intros i t' Hi Ht'. apply Hlt in Hi. rewrite (Hpred _ _ Ht') in Hi. by apply negb_true_iff in Hi.
    + intros (-> & (t'&Ht'&Hdef') & Hmin). do 2 f_equal.
      * destruct (decide (d < j)) as [Hl|Hg].
        { rewrite (Hmin _ _ Hl Ht) in Hend. done. }
        destruct (decide (j < d)) as [Hl|Hg']; [|lia].
        apply Hlt in Hl. rewrite (Hpred _ _ Ht') Hdef' in Hl. done.
      * destruct (decide (d < j)) as [Hl|Hg].
        { rewrite (Hmin _ _ Hl Ht) in Hend. done. }
        destruct (decide (j < d)) as [Hl|Hg']; [|f_equal; lia].
        apply Hlt in Hl. rewrite (Hpred _ _ Ht') Hdef' in Hl. done.
Qed.

Lemma find_fallback_None tys :
  find_fallback C tys = None <-> forall t, t ∈ tys -> it_default C t = false.
Proof.
  split.
  - intros Hf t Hin. destruct (it_default C t) eqn:E; [|done]. exfalso.
    destruct (list_find (fun t => it_default C t = true) tys) as [[j t']|] eqn:Hl.
    + apply list_find_Some in Hl as (Hj&Ht'&Hmin).
      assert (find_fallback C tys = Some (j, MIter j)); [|congruence].
      apply find_fallback_Some. split; [done|]. split; [by exists t'|].
      intros i t0 Hi Ht0. destruct (it_default C t0) eqn:E0; [|done].
      exfalso. by apply (Hmin i t0).
    + apply list_find_None in Hl. rewrite list.Forall_forall in Hl. exact (Hl t Hin E).
  - intros H. destruct (find_fallback C tys) as [[j m]|] eqn:E; [|done].
    apply find_fallback_Some in E as (_&(t&Ht&Hd)&_).
    rewrite H in Hd; [|done]. by eapply elem_of_list_lookup_2.
Qed.

Lemma has_fallback_false tys :
  has_fallback C tys = false <-> forall t, t ∈ tys -> it_default C t = false.
Proof.
  rewrite -find_fallback_None /has_fallback. by destruct (find_fallback C tys).
Qed.

(** Overload resolution. *)
Lemma visible_from_spec i tys n u :
  (n, u) ∈ visible_from i tys <->
  exists j t, n = i + j /\ tys !! j = Some t /\ ity_uid t = u /\
    forall j' t', j < j' -> tys !! j' = Some t' -> ity_uid t' <> u.
Proof.
  revert i. induction tys as [|t tys IH]; intros i; simpl.
  { rewrite elem_of_nil. split; [done|]. intros (j&t&_&Hj&_). done. }
  assert (Hgo : (exists j t0, n = S i + j /\ tys !! j = Some t0 /\ ity_uid t0 = u /\
             forall j' t', j < j' -> tys !! j' = Some t' -> ity_uid t' <> u) <->
          (exists j t0, j <> 0 /\ n = i + j /\ (t :: tys) !! j = Some t0 /\ ity_uid t0 = u /\
             forall j' t', j < j' -> (t :: tys) !! j' = Some t' -> ity_uid t' <> u)).
  { split.
    - intros (j&t0&->&Hj&Hu&Hmax). exists (S j), t0. split; [lia|]. split; [lia|]. split; [done|]. split; [done|].
      intros [|j'] t' Hlt Hl; [lia|]. apply (Hmax j'); [lia|done].
    - intros ([|j]&t0&Hn0&->&Hj&Hu&Hmax); [done|]. exists j, t0. split; [lia|]. split; [done|]. split; [done|].
      intros j' t' Hlt Hl. apply (Hmax (S j')); [lia|done]. }
  destruct (existsb _ tys) eqn:E.
  - rewrite IH Hgo. split.
    + intros (j&t0&_&H). by exists j, t0.
    + intros (j&t0&->&Hj&Hu&Hmax). exists j, t0. split; [|done]. intros ->. simpl in Hj.
      injection Hj as ->. apply existsb_exists in E as (t'&Hin&Heq).
      apply bool_decide_eq_true in Heq. apply elem_of_list_In, elem_of_list_lookup in Hin as [j' Hj'].
      apply (Hmax (S j') t'); [lia|done|congruence].
  - rewrite elem_of_cons IH Hgo. split.
    + intros [[= -> ->]|(j&t0&_&H)]; [|by exists j, t0].
      exists 0, t. split; [lia|]. split; [done|]. split; [done|].
      intros [|j'] t' Hlt Hl Heq; [lia|]. simpl in Hl.
      assert (existsb (fun t' => bool_decide (ity_uid t' = ity_uid t)) tys = true); [|congruence].
      apply existsb_exists. exists t'. split; [|by apply bool_decide_eq_true].
      by eapply elem_of_list_In, elem_of_list_lookup_2.
    + intros ([|j]&t0&->&Hj&Hu&Hmax).
      * left. simpl in Hj. injection Hj as ->. rewrite Nat.add_0_r. congruence.
      * right. by exists (S j), t0.
Qed.

(** [resolve] finds the best viable bounded type: for an argument of type [u], the last
    occurrence of a type, of strictly better rank than every other type. *)
Lemma resolve_Some tys u i :
  resolve C tys u = Some i ->
  exists t r, tys !! i = Some t /\ rank C u (ity_uid t) = Some r /\
    (forall j t', i < j -> tys !! j = Some t' -> ity_uid t' <> ity_uid t) /\
    (forall j t' r', tys !! j = Some t' -> ity_uid t' <> ity_uid t ->
       rank C u (ity_uid t') = Some r' -> r < r').
Proof.
  unfold resolve. intros H.
  destruct (filter _ _) as [|c l] eqn:E; [done|]. injection H as <-.
  assert (Hin : c ∈ c :: l) by left. rewrite -E in Hin.
  apply elem_of_list_filter in Hin as [Hall Hin].
  unfold candidates in Hin. apply elem_of_list_omap in Hin as ([n v]&Hv&Hc). simpl in Hc.
  destruct (rank C u v) as [r|] eqn:Er; [|done]. injection Hc as <-. simpl.
  pose proof Hv as Hv0.
  apply visible_from_spec in Hv as (j&t&->&Hj&<-&Hmax). exists t, r. simpl.
  split; [done|]. split; [done|]. split; [exact Hmax|].
  intros j' t' r' Hj' Hne Hr'.
  (* the last occurrence of t' is a candidate *)
  assert (exists n0, (n0, ity_uid t') ∈ visible_from 0 tys) as [n0 Hn0].
  { clear -Hj'. revert j' t' Hj'. generalize 0. induction tys as [|t tys IH]; intros n j' t' Hj'; [done|].
    simpl. destruct (existsb _ tys) eqn:E.
    - destruct j' as [|j']; simpl in Hj'; [|by eapply IH].
      injection Hj' as ->. apply existsb_exists in E as (t''&Hin&Heq).
      apply bool_decide_eq_true in Heq. rewrite -Heq.
      apply elem_of_list_In, elem_of_list_lookup in Hin as [j'' Hj'']. by eapply IH.
    - destruct j' as [|j']; simpl in Hj'.
      + injection Hj' as ->. exists n. left.
      + destruct (IH (S n) j' t' Hj') as [n0 Hn0]. exists n0. by right. }
  rewrite list.Forall_forall in Hall. specialize (Hall (n0, r')). simpl in Hall.
  destruct Hall as [Heq|Hlt]; [| |done].
  { apply elem_of_list_omap. exists (n0, ity_uid t'). split; [done|]. simpl. rewrite Hr' //. }
  subst n0. apply visible_from_spec in Hn0 as (j0&t0&->&Hj0&Hu0&_). simpl in *.
  rewrite Hj in Hj0. injection Hj0 as ->. congruence.
Qed.

End facts.
