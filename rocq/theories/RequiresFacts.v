(** What operations of a variant instantiate (proofs). *)
From Coq.ssr Require Import ssreflect.
From Coq Require Import ZArith Lia.
From iris.prelude Require Import prelude.
From stdpp Require Import gmap list numbers.
From Verif Require Import Base Types TypesFacts Dispatch Values Client Observe Spec Link Variant Requires RequiresSpec.
From Verif Require Rep.

Section facts.
Context (C : cfg).
Implicit Types (av : uop -> uid -> bool) (tys : list ity) (t : ity).

Lemma visits_in tys x : x ∈ visits C tys <->
  match x with SInt t => t ∈ tys | SBk t => t ∈ tys /\ never_uses_backup C tys t = false end.
Proof.
  unfold visits. rewrite elem_of_list_bind. split.
  - intros (t&Hx&Ht). apply elem_of_cons in Hx as [->|Hx]; [done|].
    destruct (never_uses_backup C tys t) eqn:E; [by apply elem_of_nil in Hx|]. by apply elem_of_list_singleton in Hx as ->.
  - destruct x as [t|t].
    + intros Ht. exists t. split; [by left|done].
    + intros [Ht E]. exists t. rewrite E. split; [|done]. right. by left.
Qed.
Lemma compiles_spec av o tys : compiles C av o tys = true <-> forall k u, (k, u) ∈ inst C o tys -> av k u = true.
Proof.
  unfold compiles. rewrite forallb_forall. split.
  - intros H k u Hi. apply (H (k, u)). by apply elem_of_list_In.
  - intros H [k u] Hi. apply H. by apply elem_of_list_In.
Qed.
(** All of a list of requirements. *)
Definition sat av (rs : list (uop * uid)) : Prop := forall k u, (k, u) ∈ rs -> av k u = true.
Lemma sat_app av r1 r2 : sat av (r1 ++ r2) <-> sat av r1 /\ sat av r2.
Proof.
  unfold sat. split.
  - intros H. split; intros; apply H, elem_of_app; auto.
  - intros [H1 H2] k u [?|?]%elem_of_app; auto.
Qed.
Lemma sat_cons av k u rs : sat av ((k, u) :: rs) <-> av k u = true /\ sat av rs.
Proof.
  unfold sat. split.
  - intros H. split; [apply H; by left|intros; apply H; by right].
  - intros [H1 H2] k' u' [[= -> ->]|?]%elem_of_cons; auto.
Qed.
Lemma sat_nil av : sat av []. Proof. intros k u H. by apply elem_of_nil in H. Qed.
Lemma sat_one av k u : sat av [(k, u)] <-> av k u = true.
Proof. rewrite sat_cons. split; [by intros []|]. intros. split; [done|apply sat_nil]. Qed.
Lemma sat_bind {A} av (f : A -> list (uop * uid)) (l : list A) : sat av (l ≫= f) <-> forall x, x ∈ l -> sat av (f x).
Proof.
  unfold sat. split.
  - intros H x Hx k u Hi. apply H, elem_of_list_bind. eauto.
  - intros H k u (x&Hi&Hx)%elem_of_list_bind. by eapply H.
Qed.
(** A requirement that is the same for T and backup_holder<T>. *)
Lemma sat_visits av (f : ity -> list (uop * uid)) (g : sty -> list (uop * uid)) tys :
  (forall t, g (SInt t) = f t /\ g (SBk t) = f t) -> sat av (visits C tys ≫= g) <-> forall t, t ∈ tys -> sat av (f t).
Proof.
  intros Hg. rewrite sat_bind. split.
  - intros H t Ht. rewrite -(proj1 (Hg t)). apply H. by apply visits_in.
  - intros H x Hx%visits_in. destruct x as [t|t]; [rewrite (proj1 (Hg t))|rewrite (proj2 (Hg t))]; apply H; [done|apply Hx].
Qed.

Lemma default_iff av tys : compiles C av VDefault tys = true <-> forall t, head tys = Some t -> av OpDefault (ity_uid t) = true.
Proof.
  rewrite compiles_spec. fold (sat av (inst C VDefault tys)). destruct tys as [|t r]; simpl.
  - split; [done|intros _; apply sat_nil].
  - rewrite /r_default sat_one. split; [by intros ? ? [= <-]|auto].
Qed.
Lemma copy_iff av tys : compiles C av VCopy tys = true <-> forall t, t ∈ tys -> copy_constructible av t.
Proof.
  rewrite compiles_spec. fold (sat av (inst C VCopy tys)). rewrite /= (sat_visits av r_copy); last done.
  unfold r_copy, copy_constructible. by setoid_rewrite sat_one.
Qed.
Lemma move_iff av tys : compiles C av VMove tys = true <-> forall t, t ∈ tys -> move_constructible av t.
Proof.
  rewrite compiles_spec. fold (sat av (inst C VMove tys)). rewrite /= (sat_visits av r_move); last done.
  unfold r_move, move_constructible. by setoid_rewrite sat_one.
Qed.

Section truthful.
Context av (Hav : truthful C av).
Lemma av_copy t : it_copy C t = true -> av OpCopy (ity_uid t) = true.
Proof. destruct t; [|done]. simpl. apply Hav. Qed.
Lemma av_move t : it_move C t = true -> av OpMove (ity_uid t) = true.
Proof. destruct t; [|done]. simpl. apply Hav. Qed.
Lemma sat_fallback tys : sat av (r_fallback C tys).
Proof.
  unfold r_fallback. destruct (find_fallback C tys) as [[i m]|] eqn:E; [|apply sat_nil]. destruct (fb_deref C); [|apply sat_nil].
  destruct (mpl_deref tys m) as [t|] eqn:Hm; [|apply sat_nil]. apply find_fallback_Some in E as (->&(t'&Hi&Hd)&_).
  simpl in Hm. rewrite Hm in Hi. injection Hi as <-. apply sat_one. destruct t; [|done]. simpl in *. by apply Hav.
Qed.
Lemma sat_assign_4 tys t : it_copy C t = false -> it_move C t = false -> has_fallback C tys = false -> t ∈ tys ->
  sat av (r_copy t) -> (forall t', t' ∈ tys -> it_copy C t' = false -> it_move C t' = false -> sat av (r_copy t')) ->
  forall x, (x = SInt t \/ x = SBk t) -> sat av (r_assign_4 C tys x).
Proof.
  intros Hc Hm Hf Ht H1 H2 x Hx. unfold r_assign_4. apply sat_app. split.
  - destruct Hx as [-> | ->]; [done|apply sat_nil].
  - apply sat_bind. intros y Hy%visits_in. destruct y as [t'|t']; [|apply sat_nil]. simpl.
    destruct (it_move C t') eqn:Hm'; [by apply sat_one, av_move|]. destruct (it_copy C t') eqn:Hc'; [by apply sat_one, av_copy|].
    by apply H2.
Qed.

Lemma assign_iff tys : compiles C av VAssign tys = true <-> forall t, t ∈ tys -> assignable av t.
Proof.
  rewrite compiles_spec. fold (sat av (inst C VAssign tys)). rewrite /= /r_var_assign sat_app.
  rewrite (sat_visits av r_cassign); last done. unfold r_cassign at 1. setoid_rewrite sat_one. rewrite sat_bind.
  unfold assignable, copy_constructible. split.
  - intros [H1 H2] t Ht. split; [by apply H1|]. specialize (H2 (SInt t) ltac:(by apply visits_in)).
    apply H2. unfold r_assigner, r_assign_4, r_rhs_copy, r_copy. repeat case_match; try apply elem_of_app; try left; by left.
  - intros H. split; [intros; by apply H|]. intros x Hx%visits_in. unfold r_assigner. destruct x as [t|t]; cbn [s_nt_copy s_nt_move r_rhs_copy r_rhs_move].
    + destruct (H t Hx) as [_ Hc].
      destruct (it_copy C t) eqn:E1; [by apply sat_one|]. destruct (it_move C t) eqn:E2.
      { apply sat_app. split; apply sat_one; [done|by apply av_move]. }
      destruct (has_fallback C tys) eqn:E3. { apply sat_app. split; [by apply sat_one|apply sat_fallback]. }
      eapply sat_assign_4; eauto; [by apply sat_one|]. intros t' Ht' _ _. apply sat_one. by apply H.
    + destruct Hx as [Ht Hn]. unfold never_uses_backup in Hn. apply orb_false_iff in Hn as [[E3 E2]%orb_false_iff E1].
      rewrite E3. eapply (sat_assign_4 tys t); eauto; [apply sat_one; by apply H|]. intros t' Ht' _ _. apply sat_one. by apply H.
Qed.

Lemma replaceable_it tys t : replaceable C av tys t <-> (it_copy C t = false -> it_move C t = false ->
  if has_fallback C tys then av OpMove (ity_uid t) = true else av OpCopy (ity_uid t) = true).
Proof.
  unfold replaceable, copy_constructible, move_constructible. rewrite doubly_throwing_it no_fallback_it. unfold Rep.dthrow.
  destruct (it_copy C t), (it_move C t), (has_fallback C tys); simpl; split; intros H; try (intros; done);
    try (intros; apply H; done); intros; split; intros; try done; try tauto.
Qed.
Lemma massign_iff tys : sat av (r_var_massign C tys) <-> forall t, t ∈ tys -> move_assignable av t /\ replaceable C av tys t.
Proof.
  rewrite /r_var_massign sat_app (sat_visits av r_massign); last done. rewrite sat_bind.
  assert (Hm : forall t, sat av (r_massign t) <-> move_assignable av t).
  { intros [u|u]; simpl; [apply sat_one|split; [done|intros; apply sat_nil]]. }
  setoid_rewrite Hm. setoid_rewrite replaceable_it. split.
  - intros [H1 H2] t Ht. split; [by apply H1|]. intros E1 E2. specialize (H2 (SInt t) ltac:(by apply visits_in)).
    unfold r_move_assigner, r_assign_4 in H2. cbn [s_nt_copy s_nt_move r_rhs_copy r_rhs_move] in H2. rewrite E1 E2 in H2.
    destruct (has_fallback C tys); rewrite sat_app in H2; destruct H2 as [H2 _]; by apply sat_one in H2.
  - intros H. split; [intros; by apply H|].
    assert (Hr : has_fallback C tys = false -> forall t, t ∈ tys -> it_copy C t = false -> it_move C t = false -> sat av (r_copy t)).
    { intros E3 t Ht E1 E2. apply sat_one. destruct (H t Ht) as [_ H2]. rewrite E3 in H2. by apply H2. }
    intros x Hx%visits_in. unfold r_move_assigner. destruct x as [t|t]; cbn [s_nt_copy s_nt_move r_rhs_copy r_rhs_move].
    + destruct (H t Hx) as [_ Hc]. destruct (it_move C t) eqn:E2; [by apply sat_one, av_move|].
      destruct (it_copy C t) eqn:E1; [by apply sat_one, av_copy|]. destruct (has_fallback C tys) eqn:E3.
      { apply sat_app. split; [apply sat_one; by apply Hc|apply sat_fallback]. }
      eapply sat_assign_4; eauto.
    + destruct Hx as [Ht Hn]. unfold never_uses_backup in Hn. apply orb_false_iff in Hn as [[E3 E2]%orb_false_iff E1].
      rewrite E3. eapply (sat_assign_4 tys t); eauto.
Qed.
Lemma move_assign_iff tys : compiles C av VMoveAssign tys = true <->
  forall t, t ∈ tys -> move_assignable av t /\ replaceable C av tys t.
Proof. rewrite compiles_spec. apply massign_iff. Qed.
Lemma swap_iff tys : compiles C av VSwap tys = true <->
  forall t, t ∈ tys -> move_constructible av t /\ move_assignable av t /\ replaceable C av tys t /\ swappable C av (ity_uid t).
Proof.
  rewrite compiles_spec. fold (sat av (inst C VSwap tys)). cbn [inst]. rewrite sat_app sat_app massign_iff.
  rewrite (sat_visits av (fun t => r_swap_with C (SInt t))); last done. rewrite (sat_visits av r_move); last done.
  assert (Hs : forall t, sat av (r_swap_with C (SInt t)) <-> swappable C av (ity_uid t)).
  { intros t. unfold r_swap_with, swappable. simpl. pose proof (Hav (ity_uid t)) as (_&_&_&Hw). destruct (ut_swap _); simpl.
    - rewrite sat_one. split; [by left|]. intros _. by apply Hw.
    - rewrite sat_cons sat_one. split; [by right|]. intros [[? ?]|?]; done. }
  setoid_rewrite Hs. unfold r_move. setoid_rewrite sat_one. unfold move_constructible. clear. firstorder.
Qed.
Lemma initialize_iff tys u (mv : bool) i t : best_match C tys u i -> tys !! i = Some t ->
  sat av (r_initialize C tys u mv) <->
  if decide (ity_uid t = u) then if mv then move_constructible av t else copy_constructible av t
  else av OpConvert (ity_uid t) = true /\ move_constructible av t.
Proof.
  intros Hb Ht. unfold r_initialize. apply best_match_resolve in Hb. rewrite Hb /= Ht.
  destruct (decide _); [destruct mv; apply sat_one|]. rewrite sat_cons. unfold r_move. by rewrite sat_one.
Qed.
Lemma from_iff tys u (mv : bool) i t : best_match C tys u i -> tys !! i = Some t ->
  compiles C av (VFrom u mv) tys = true <->
  if decide (ity_uid t = u) then if mv then move_constructible av t else copy_constructible av t
  else av OpConvert (ity_uid t) = true /\ move_constructible av t.
Proof. intros. rewrite compiles_spec. by eapply initialize_iff. Qed.
Lemma assign_from_iff tys u (mv : bool) : compiles C av (VAssignFrom u mv) tys = true <->
  compiles C av (VFrom u mv) tys = true /\ compiles C av VMoveAssign tys = true /\
  ((exists t, t ∈ tys /\ ity_uid t = u) -> av (if mv then OpMoveAssign else OpCopyAssign) u = true).
Proof.
  rewrite !compiles_spec. fold (sat av (inst C (VAssignFrom u mv) tys)) (sat av (inst C VMoveAssign tys)) (sat av (inst C (VFrom u mv) tys)).
  cbn [inst]. rewrite sat_app sat_app.
  assert (Hd : sat av (r_direct tys u mv) <-> ((exists t, t ∈ tys /\ ity_uid t = u) -> av (if mv then OpMoveAssign else OpCopyAssign) u = true)).
  { unfold r_direct. destruct (existsb _ tys) eqn:E.
    - rewrite sat_one. apply existsb_exists in E as (t&Ht&Hu%bool_decide_eq_true). apply elem_of_list_In in Ht. split; [done|]. eauto.
    - split; [|intros; apply sat_nil]. intros _ (t&Ht&Hu). exfalso. apply not_true_iff_false in E. apply E, existsb_exists. exists t.
      split; [by apply elem_of_list_In|]. by apply bool_decide_eq_true. }
  rewrite Hd. tauto.
Qed.
End truthful.
End facts.
