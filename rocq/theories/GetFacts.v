(** Proofs about GetTypes.v. *)
From stdpp Require Import base list numbers.
From Verif Require Import Base Types GetTypes GetSpec.


Lemma functor_iff e t : variant_element_functor e t = true <-> value_type e = t.
Proof.
  unfold variant_element_functor. rewrite !orb_true_iff, !bool_decide_eq_true.
  destruct e; simpl; split; intros H; repeat destruct H as [H|H]; try congruence; subst; auto.
Qed.

Lemma unwrap_value e : value_type (unwrap_recursive e) = value_type e.
Proof. by destruct e. Qed.

Lemma holds_iff tys u : holds_element tys u = true <->
  exists e, e ∈ tys /\ (value_type e = remove_reference u \/ value_type e = remove_cv (remove_reference u)).
Proof.
  unfold holds_element. rewrite existsb_exists. split.
  - intros (e' & He & H). apply elem_of_list_In, elem_of_list_fmap in He as (e & -> & He).
    exists e. split; [done|]. rewrite orb_true_iff, !functor_iff, unwrap_value in H. done.
  - intros (e & He & H). exists (unwrap_recursive e).
    split; [by apply elem_of_list_In, elem_of_list_fmap_1|].
    rewrite orb_true_iff, !functor_iff, unwrap_value. done.
Qed.


Lemma relaxed_iff cvar t e :
  no_volatile t -> no_volatile (value_type e) ->
  relaxed_get cvar (UObj t) e = true <->
  named t = named (value_type e) /\ (content_const cvar e = true -> is_const t = true \/ cvar = true).
Proof.
  unfold no_volatile, relaxed_get, get_visitor, less_qualified, binds_to.
  destruct t as [c v n], e as [[c' v' n']|[c' v' n']|[c' v' n']]; simpl; intros -> ->;
    (destruct (decide (n = n')) as [<-|Hn];
      [|rewrite ?(bool_decide_false (n = n')) by done; destruct cvar; simpl;
        rewrite ?(bool_decide_false (n = n')) by done; simpl; (split; [done|intros [? _]; done])]);
    destruct cvar, c, c'; simpl; rewrite ?(bool_decide_true (n = n)) by done; simpl;
    rewrite ?bool_decide_true by (done || congruence);
    rewrite ?bool_decide_false by (intros HH; apply HH; reflexivity); simpl;
    (split; [intros H; try done; (split; [done|intros; tauto])|intros [_ H]; try done; by destruct (H eq_refl)]).
Qed.

(** A reference as template argument: [const U] is [U], the variant's constness is not added. *)
Lemma relaxed_ref_iff cvar u t e :
  u = ULRef t \/ u = URRef t -> no_volatile t -> no_volatile (value_type e) ->
  relaxed_get cvar u e = true <->
  named t = named (value_type e) /\ (content_const cvar e = true -> is_const t = true).
Proof.
  intros Hu. assert (relaxed_get cvar u e = get_visitor (ULRef t) (operand cvar e)) as ->.
  { unfold relaxed_get. destruct Hu as [-> | ->]; by destruct cvar. }
  unfold no_volatile, get_visitor, less_qualified, binds_to.
  destruct t as [c v n], e as [[c' v' n']|[c' v' n']|[c' v' n']]; simpl; intros -> ->;
    (destruct (decide (n = n')) as [<-|Hn];
      [|rewrite ?(bool_decide_false (n = n')) by done; destruct cvar; simpl;
        rewrite ?(bool_decide_false (n = n')) by done; simpl; (split; [done|intros [? _]; done])]);
    destruct cvar, c, c'; simpl; rewrite ?(bool_decide_true (n = n)) by done; simpl;
    rewrite ?bool_decide_true by (done || congruence);
    rewrite ?bool_decide_false by (intros HH; apply HH; reflexivity); simpl;
    (split; [intros H; try done; (split; [done|intros; tauto])|intros [_ H]; try done; by specialize (H eq_refl)]).
Qed.

(** The static assertion holds iff some content can be got. *)
Lemma strict_exact cvar t tys :
  no_volatile t -> Forall (fun e => no_volatile (value_type e)) tys ->
  strict_get_compiles cvar tys (UObj t) = true <->
  exists e, e ∈ tys /\ relaxed_get cvar (UObj t) e = true.
Proof.
  intros Ht Hl. unfold strict_get_compiles. rewrite holds_iff.
  rewrite Forall_forall in Hl.
  split; intros (e & He & H); exists e; (split; [done|]); specialize (Hl e (proj1 (elem_of_list_In _ _) He)).
  - apply relaxed_iff; [done..|].
    unfold no_volatile in *. destruct t as [c v n], e as [[c' v' n']|[c' v' n']|[c' v' n']], cvar, c, c'; simpl in *;
      unfold add_const, remove_cv in H; simpl in H;
      (split; [destruct H; congruence|]); intros; try tauto; try done; destruct H; congruence.
  - apply relaxed_iff in H as [Hn Hc]; [|done..]. unfold no_volatile in *.
    destruct t as [c v n], e as [[c' v' n']|[c' v' n']|[c' v' n']], cvar, c, c'; simpl in *; subst;
      unfold add_const, remove_cv; simpl; auto; exfalso; destruct (Hc eq_refl); done.
Qed.


Lemma relaxed_plain cvar u t :
  relaxed_get cvar (UObj (plain u)) (of_ity t) = bool_decide (value_type (of_ity t) = plain u).
Proof.
  apply eq_bool_prop_intro. rewrite !Is_true_true, bool_decide_eq_true.
  rewrite relaxed_iff; [|done|by destruct t].
  destruct t, cvar; simpl; unfold plain; (split; [intros [-> _]; done|intros [= ->]; split; [done|tauto]]).
Qed.

Lemma relaxed_ity cvar u t :
  relaxed_get cvar (UObj (plain u)) (of_ity t) = bool_decide (ity_uid t = u).
Proof.
  rewrite relaxed_plain. apply bool_decide_ext. destruct t; simpl; unfold plain; split; congruence.
Qed.

(** ** polymorphic_get *)
Section poly.
Context (base : uid -> uid -> bool).


Lemma poly_iff cvar t e :
  no_volatile t -> no_volatile (value_type e) ->
  exists r, polymorphic_relaxed_get base cvar (UObj t) e = Some r /\
  (r = true <-> same_or_derived base (named t) (named (value_type e)) /\
                (content_const cvar e = true -> is_const t = true \/ cvar = true)).
Proof.
  unfold no_volatile, polymorphic_relaxed_get, get_polymorphic_visitor, is_base_of, same_or_derived.
  destruct t as [c v n], e as [[c' v' n']|[c' v' n']|[c' v' n']]; simpl; intros -> ->;
    destruct cvar, c, c'; simpl; destruct (base n n') eqn:Hb; simpl;
    unfold add_const, remove_cv; simpl;
    repeat case_bool_decide; simplify_eq; simpl; eexists; (split; [reflexivity|]);
    (split; [intros; split; try tauto|intros [Hx Hy]; try done]); try done;
    try (destruct Hx as [->|Hx]; [|congruence]; congruence);
    try (by destruct (Hy eq_refl)).
Qed.


Lemma poly_strict_exact (cvar : bool) u tys :
  Forall unqualified tys ->
  polymorphic_strict_get_compiles base tys (UObj (plain u)) = true <->
  exists e, e ∈ tys /\ polymorphic_relaxed_get base cvar (UObj (plain u)) e = Some true.
Proof.
  intros Hl. rewrite Forall_forall in Hl. unfold polymorphic_strict_get_compiles. rewrite existsb_exists.
  assert (forall e d, (e = BPlain (plain d) \/ e = BWrap (plain d)) ->
            polymorphic_relaxed_get base cvar (UObj (plain u)) e = Some true <-> same_or_derived base u d) as Hp.
  { intros e d He.
    assert (value_type e = plain d) as Hv by (by destruct He as [-> | ->]).
    destruct (poly_iff cvar (plain u) e eq_refl ltac:(by rewrite Hv)) as (r & -> & Hr).
    rewrite Hv in Hr. simpl in Hr. split; [intros [= ->]; by apply Hr|intros H; f_equal; apply Hr; split; [done|]].
    destruct cvar; [by right|]. by destruct He as [-> | ->]. }
  split.
  - intros (e' & He & H). apply elem_of_list_In, elem_of_list_fmap in He as (e & -> & He). exists e. split; [done|].
    destruct (Hl e (proj1 (elem_of_list_In _ _) He)) as [d Hd]. apply (Hp e d Hd).
    rewrite !orb_true_iff, !functor_iff in H.
    destruct Hd as [-> | ->]; simpl in H;
      (destruct H as [[H|H]|H]; [left; by injection H as ->|left; by injection H as ->|by right]).
  - intros (e & He & H). exists (unwrap_recursive e).
    split; [by apply elem_of_list_In, elem_of_list_fmap_1|].
    destruct (Hl e (proj1 (elem_of_list_In _ _) He)) as [d Hd]. apply (Hp e d Hd) in H.
    rewrite !orb_true_iff, !functor_iff.
    destruct Hd as [-> | ->]; simpl; (destruct H as [->|H]; [left; by left|by right]).
Qed.
End poly.
