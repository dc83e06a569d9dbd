(** Where exceptions come from (C61): the documented Throws clauses (doc/reference/variant.xml). The
    statements use OriginSpec.v and the vocabulary of Spec.v; the proofs are in OriginFacts.v. *)
From stdpp Require Import base gmap list numbers.
From Coq Require Import ZArith.
From Verif Require Import Base Types Variant Values Client Observe Spec History Reach OriginSpec.
From Verif Require Import Check Samples Runs Scenes.
From Verif Require Raises OriginFacts.

Section props.
Context (C : cfg) (st nb : bool) (eqf ltf : uid -> uval -> uval -> bool).
Context (HC : good_env C st nb).
Notation step := (step C st nb eqf ltf).
Notation sees := (sees C).
Notation sees_obj := (sees_obj C).
Notation from := (from C).

(** *** C61. What a command throws is bad_alloc, or bad_get by get, or comes from one of the
    operations listed in [operations], not declared noexcept, of a type the command is about or of a
    part of it. *)
Theorem C61_origin : forall c E s E' e s', step c E s E' (OThrew e) s' ->
  e = XBadGet /\ Raises.uses_get c = true \/ from (operations c) (subject E c) e.
Proof. exact (OriginFacts.threw_from C st nb eqf ltf HC). Qed.
(** Construction: from the copy or move constructor of what the source contains; from the default
    constructor of the first type; from the conversion or the constructor of the selected type. *)
Theorem C61_copy_move : forall (mv : bool) x y E s E' e s' tys k t,
  step (if mv then CMove x y else CCopy x y) E s E' (OThrew e) s' ->
  sees E s y tys k -> tys !! k.1.2 = Some t -> from [if mv then OpMove else OpCopy] [t] e.
Proof. exact (OriginFacts.construct_ops C st nb eqf ltf HC). Qed.
Theorem C61_default : forall x tys E s E' e s', step (CDefault x tys) E s E' (OThrew e) s' ->
  exists t, head tys = Some t /\ ~ nothrow_default C t /\ from [OpDefault] [t] e.
Proof. exact (OriginFacts.default_ops C st nb eqf ltf HC). Qed.
Theorem C61_from : forall x tys y (mv : bool) E s E' e s' u v i t, step (CFrom x tys y mv) E s E' (OThrew e) s' ->
  sees_obj E s y u v -> best_match C tys u i -> tys !! i = Some t ->
  from (if decide (ity_uid t = u) then [if mv then OpMove else OpCopy] else [OpConvert; OpMove]) [t] e.
Proof. exact (OriginFacts.from_ops C st nb eqf ltf HC). Qed.
(** Copy assignment: in place, from the copy assignment of the content (with member variants, also
    the copying of parts); otherwise from the copy constructor of what the source contains, or, where
    the library makes a backup, of what the target contains. *)
Theorem C61_assign : forall x y E s E' e s' tys k1 k2 t1 t2, step (CAssign x y) E s E' (OThrew e) s' ->
  sees E s x tys k1 -> sees E s y tys k2 -> tys !! k1.1.2 = Some t1 -> tys !! k2.1.2 = Some t2 ->
  if decide (k1.1 = k2.1) then
    from [OpCopyAssign; OpCopy] [t2] e /\ (ut_members (te C (ity_uid t2)) = [] -> from [OpCopyAssign] [t2] e)
  else from [OpCopy] [t2] e \/ backs_up C tys t1 t2 /\ k1.1.1 = false /\ from [OpCopy] [t1] e.
Proof. exact (OriginFacts.assign_ops C st nb eqf ltf HC). Qed.
(** Move assignment: in place, from the move assignment of the content; otherwise, with a fallback
    type from the move constructor, without one from copy constructors only. *)
Theorem C61_move_assign : forall x y E s E' e s' tys k1 k2 t1 t2, step (CMoveAssign x y) E s E' (OThrew e) s' ->
  sees E s x tys k1 -> sees E s y tys k2 -> tys !! k1.1.2 = Some t1 -> tys !! k2.1.2 = Some t2 ->
  if decide (k1.1 = k2.1) then
    exists u, t2 = IPlain u /\ from [OpMoveAssign; OpMove; OpCopy] [t2] e /\
              (ut_members (te C u) = [] -> from [OpMoveAssign] [t2] e)
  else doubly_throwing C t2 /\
    (~ no_fallback C tys /\ from [OpMove] [t2] e \/
     no_fallback C tys /\ (from [OpCopy] [t2] e \/ backs_up C tys t1 t2 /\ k1.1.1 = false /\ from [OpCopy] [t1] e)).
Proof. exact (OriginFacts.move_assign_ops C st nb eqf ltf HC). Qed.
End props.

(** ** What is documented but not so *)
Notation stepX := (step C0 true false eq0 lt0).
(** The types in a node: node and string. *)
Lemma node_parts u : part C0 [IPlain 4] u -> u = 4 \/ u = 2.
Proof.
  induction 1 as [t Ht|u tys t Hu IH Hm Ht].
  - apply elem_of_list_singleton in Ht. subst t. by left.
  - destruct IH as [->| ->]; simpl in Hm.
    + apply elem_of_list_singleton in Hm. subst tys. rewrite !elem_of_cons, elem_of_nil in Ht.
      destruct Ht as [->|[->|[]]]; auto.
    + by apply elem_of_nil in Hm.
Qed.
(** "may fail with any exceptions arising from the copy constructor of the contained type of rhs":
    assigning a node over a loud, the copy constructor of loud throws. *)
Theorem C61_assign_refuted : exists x y E s E' s' e tys k1 k2 t2, stepX (CAssign x y) E s E' (OThrew e) s' /\
  sees C0 E s x tys k1 /\ sees C0 E s y tys k2 /\ tys !! k2.1.2 = Some t2 /\ k1.1.2 <> k2.1.2 /\
  ~ from C0 [OpCopy] [t2] e.
Proof.
  exists 1, 2. run_step C0 true false (throws_at [9]) (two VA) (CAssign 1 2).
  exists (XUser OpCopy 3 9). exists VA, (false, 0, loud5), (false, 1, node9), (IPlain 4).
  split; [by_run|]. split; [by_run|]. split; [by_run|]. split; [done|]. split; [done|].
  intros (_&_&Hp). apply node_parts in Hp. by destruct Hp.
Qed.
(** "if the contained types are the same, may fail with any exceptions arising from the assignment":
    not if the target's content is parked; then the copy constructor throws. *)
Definition reparked : list cmd := two VA ++ [CAssign 1 2; CFrom 5 VA 13 false].
Theorem C61_same_refuted : exists x y E s E' s' e tys k1 k2 t2, stepX (CAssign x y) E s E' (OThrew e) s' /\
  sees C0 E s x tys k1 /\ sees C0 E s y tys k2 /\ tys !! k2.1.2 = Some t2 /\ k1.1.2 = k2.1.2 /\
  ut_members (te C0 (ity_uid t2)) = [] /\ ~ from C0 [OpCopyAssign] [t2] e.
Proof.
  exists 1, 5. run_step C0 true false (throws_at [11; 13]) reparked (CAssign 1 5).
  exists (XUser OpCopy 3 13). exists VA, (true, 0, loud5), (false, 0, loud5), (IPlain 3).
  split; [by_run|]. split; [by_run|]. split; [by_run|]. split; [done|]. split; [done|]. split; [done|].
  intros (Hk&_). apply elem_of_list_singleton in Hk. done.
Qed.
(** "may fail with any exceptions arising from the move constructor of the contained type of rhs":
    move assignment throws from a copy constructor. *)
Theorem C61_move_refuted : exists x y E s E' s' e tys k1 k2 t2, stepX (CMoveAssign x y) E s E' (OThrew e) s' /\
  sees C0 E s x tys k1 /\ sees C0 E s y tys k2 /\ tys !! k2.1.2 = Some t2 /\ k1.1.2 <> k2.1.2 /\
  ~ from C0 [OpMove] [t2] e.
Proof.
  exists 1, 2. run_step C0 true false (throws_at [10]) (two VA) (CMoveAssign 1 2).
  exists (XUser OpCopy 4 10). exists VA, (false, 0, loud5), (false, 1, node9), (IPlain 4).
  split; [by_run|]. split; [by_run|]. split; [by_run|]. split; [done|]. split; [done|].
  intros (Hk&_). apply elem_of_list_singleton in Hk. done.
Qed.
(** "may fail with any exceptions arising from the conversion of rhs": assignment of an rvalue of a
    bounded type throws from its copy constructor. *)
Theorem C61_value_refuted : exists x y E s E' s' e tys k u v, stepX (CAssignFrom x y true) E s E' (OThrew e) s' /\
  sees C0 E s x tys k /\ sees_obj C0 E s y u v /\ tys !! k.1.2 <> Some (IPlain u) /\ IPlain u ∈ tys /\
  ~ from C0 [OpConvert; OpMove] [IPlain u] e.
Proof.
  exists 1, 12. run_step C0 true false (throws_at [13]) (two VA) (CAssignFrom 1 12 true).
  exists (XUser OpCopy 4 13). exists VA, (false, 0, loud5), 4, node9.
  split; [by_run|]. split; [by_run|]. split; [by_run|]. split; [done|]. split; [by apply (bool_decide_unpack _)|].
  intros (Hk&_). rewrite !elem_of_cons, elem_of_nil in Hk. by destruct Hk as [?|[?|?]].
Qed.

(** ** Examples *)
(** From a part of the content: the string in the node. *)
Example C61_origin_ex : exists E s E' s', stepX (CSwap 1 2) E s E' (OThrew (XUser OpCopy 2 13)) s' /\
  sees C0 E s 1 VA (false, 0, loud5) /\ sees C0 E s 2 VA (false, 1, node9).
Proof. run_step C0 true false (throws_at [13]) (two VA) (CSwap 1 2). by_runs. Qed.
Example C61_copy_ex : exists E s E' s', stepX (CCopy 5 2) E s E' (OThrew (XUser OpCopy 2 9)) s' /\ sees C0 E s 2 VA (false, 1, node9) /\
  VA !! 1 = Some (IPlain 4) /\ part C0 [IPlain 4] 2.
Proof.
  run_step C0 true false (throws_at [9]) (two VA) (CCopy 5 2). do 3 (split; [by_run|]).
  apply (part_member C0 [IPlain 4] 4 [IPlain 2; IWrap 4] (IPlain 2)); [apply (part_top C0 _ (IPlain 4)); by apply (bool_decide_unpack _)|..];
    by apply (bool_decide_unpack _).
Qed.
Example C61_move_ex : exists E s E' s', stepX (CMove 5 2) E s E' (OThrew (XUser OpMove 4 8)) s' /\ sees C0 E s 2 VA (false, 1, node9).
Proof. run_step C0 true false (throws_at [8]) (two VA) (CMove 5 2). by_runs. Qed.
Example C61_default_ex : exists E s E' s', stepX (CDefault 5 VA) E s E' (OThrew (XUser OpDefault 3 8)) s'.
Proof. run_step C0 true false (throws_at [8]) (two VA) (CDefault 5 VA). by_runs. Qed.
(** An int converted to a string; a node copied. *)
Example C61_from_ex : exists E s E' s', stepX (CFrom 5 [IPlain 2; IPlain 4] 15 false) E s E' (OThrew (XUser OpConvert 2 9)) s' /\
  sees_obj C0 E s 15 0 (UV (Some 3%Z) []).
Proof. run_step C0 true false (throws_at [9]) (two VA ++ [CMake 15 0 3 []]) (CFrom 5 [IPlain 2; IPlain 4] 15 false). by_runs. Qed.
Example C61_from_same_ex : exists E s E' s', stepX (CFrom 5 VA 12 false) E s E' (OThrew (XUser OpCopy 2 9)) s' /\ sees_obj C0 E s 12 4 node9.
Proof. run_step C0 true false (throws_at [9]) (two VA) (CFrom 5 VA 12 false). by_runs. Qed.
(** In place; across, from the source's type. *)
Example C61_assign_ex : exists E s E' s', stepX (CAssign 1 1) E s E' (OThrew (XUser OpCopyAssign 3 8)) s' /\ sees C0 E s 1 VA (false, 0, loud5).
Proof. run_step C0 true false (throws_at [8]) (two VA) (CAssign 1 1). by_runs. Qed.
Example C61_assign_across_ex : exists E s E' s', stepX (CAssign 1 2) E s E' (OThrew (XUser OpCopy 4 10)) s' /\
  sees C0 E s 1 VA (false, 0, loud5) /\ sees C0 E s 2 VA (false, 1, node9).
Proof. run_step C0 true false (throws_at [10]) (two VA) (CAssign 1 2). by_runs. Qed.
(** In place; across with a fallback type. *)
Example C61_move_assign_ex : exists E s E' s', stepX (CMoveAssign 1 2) E s E' (OThrew (XUser OpMoveAssign 4 12)) s' /\
  sees C0 E s 1 VA (false, 1, node9) /\ sees C0 E s 2 VA (false, 1, node9).
Proof. run_step C0 true false (throws_at [12]) (two_assign VA) (CMoveAssign 1 2). by_runs. Qed.
Example C61_move_assign_across_ex : exists E s E' s', stepX (CMoveAssign 1 2) E s E' (OThrew (XUser OpMove 4 8)) s' /\
  sees C0 E s 1 VF (false, 0, loud5) /\ sees C0 E s 2 VF (false, 1, node9).
Proof. run_step C0 true false (throws_at [8]) (two VF) (CMoveAssign 1 2). by_runs. Qed.

Definition PropsOrigin_all := (C61_origin, C61_copy_move, C61_default, C61_from, C61_assign, C61_move_assign,
  C61_assign_refuted, C61_same_refuted, C61_move_refuted, C61_value_refuted).
Print Assumptions PropsOrigin_all.
