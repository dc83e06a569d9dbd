(** Which operations of a variant compile (C62): the documented concepts of a variant and of its
    bounded types (doc/reference/concepts.xml, doc/reference/variant.xml). The statements use
    RequiresSpec.v and the vocabulary of Spec.v and OriginSpec.v; the proofs are in RequiresFacts.v
    and NeedsFacts.v. *)
From stdpp Require Import base gmap list numbers.
From Coq Require Import ZArith.
From Verif Require Import Base Types Variant Values Client Observe Spec History Reach OriginSpec Requires RequiresSpec.
From Verif Require Import Check Samples Runs Scenes.
From Verif Require RequiresFacts NeedsFacts Link.

Section props.
Context (C : cfg) (av : uop -> uid -> bool).
Notation compiles := (compiles C av).

(** *** C62. Default construction compiles iff the first type has a default constructor; copy and move
    construction iff every bounded type has the constructor. *)
Theorem C62_default : forall tys, compiles VDefault tys = true <->
  forall t, head tys = Some t -> av OpDefault (ity_uid t) = true.
Proof. exact (RequiresFacts.default_iff C av). Qed.
Theorem C62_copy : forall tys, compiles VCopy tys = true <-> forall t, t ∈ tys -> copy_constructible av t.
Proof. exact (RequiresFacts.copy_iff C av). Qed.
Theorem C62_move : forall tys, compiles VMove tys = true <-> forall t, t ∈ tys -> move_constructible av t.
Proof. exact (RequiresFacts.move_iff C av). Qed.

(** Assignment compiles iff every bounded type is Assignable, as documented. *)
Theorem C62_assign : truthful C av -> forall tys,
  compiles VAssign tys = true <-> forall t, t ∈ tys -> assignable av t.
Proof. exact (RequiresFacts.assign_iff C av). Qed.
(** Move assignment asks for more than that every bounded type be MoveAssignable: of a type that throws
    on copy and on move, the copy constructor if there is no fallback type, else the move
    constructor. Swap asks for that, for the move constructors and for swappable contents. *)
Theorem C62_move_assign : truthful C av -> forall tys,
  compiles VMoveAssign tys = true <-> forall t, t ∈ tys -> move_assignable av t /\ replaceable C av tys t.
Proof. exact (RequiresFacts.move_assign_iff C av). Qed.
Theorem C62_swap : truthful C av -> forall tys,
  compiles VSwap tys = true <-> forall t, t ∈ tys ->
    move_constructible av t /\ move_assignable av t /\ replaceable C av tys t /\ swappable C av (ity_uid t).
Proof. exact (RequiresFacts.swap_iff C av). Qed.
(** Construction from a value asks something of the selected type only; assignment of a value asks that,
    move assignment, and the assignment of the value's type if the variant may contain it. *)
Theorem C62_from : forall tys u (mv : bool) i t, best_match C tys u i -> tys !! i = Some t ->
  compiles (VFrom u mv) tys = true <->
  if decide (ity_uid t = u) then if mv then move_constructible av t else copy_constructible av t
  else av OpConvert (ity_uid t) = true /\ move_constructible av t.
Proof. exact (RequiresFacts.from_iff C av). Qed.
Theorem C62_assign_from : forall tys u (mv : bool),
  compiles (VAssignFrom u mv) tys = true <->
  compiles (VFrom u mv) tys = true /\ compiles VMoveAssign tys = true /\
  ((exists t, t ∈ tys /\ ity_uid t = u) -> av (if mv then OpMoveAssign else OpCopyAssign) u = true).
Proof. exact (RequiresFacts.assign_from_iff C av). Qed.

End props.

Section props.
Context (C : cfg) (st nb : bool) (eqf ltf : uid -> uval -> uval -> bool).
Context (HC : good_env C st nb).
Notation step := (step C st nb eqf ltf).

(** Every operation that a command is seen to execute, because it throws, is among those it
    instantiates, or a class needs it for its member variants. *)
Theorem C62_executed : forall c E s E' k u n s',
  step c E s E' (OThrew (XUser k u n)) s' -> needs C (required C E c) k u.
Proof. exact (NeedsFacts.threw_needs C st nb eqf ltf HC). Qed.
(** Where all variants involved have fallback types, move assignment and swap throw from no copy
    operation. *)
Theorem C62_moves : forall x y c E s E' k u n s', c = CMoveAssign x y \/ c = CSwap x y ->
  step c E s E' (OThrew (XUser k u n)) s' ->
  (forall tys', tys' = types_at E x \/ (exists u', part C (types_at E x) u' /\ tys' ∈ ut_members (te C u')) ->
    ~ no_fallback C tys') ->
  k ∈ [OpDefault; OpMove; OpMoveAssign; OpSwap].
Proof. exact (NeedsFacts.moves_only C st nb eqf ltf HC). Qed.

End props.

(** *** The documented clauses that are false *)

(** All types as far as they are declared nothrow, all operations but the throwing copies. *)
Definition move_only (k : uop) (u : uid) : bool :=
  match k with OpCopy => nt_copy (te C0 u) | OpCopyAssign => false | _ => true end.
Lemma move_only_truthful : truthful C0 move_only.
Proof. intros u. by repeat split. Qed.

(** "variant is itself MoveAssignable if and only if every one of its bounded types is": not if the
    moves may throw and there is no fallback type, even for a variant of one type. *)
Theorem C62_move_assign_refuted : exists C av tys t, good_env C true false /\ truthful C av /\ tys = [t] /\
  move_constructible av t /\ move_assignable av t /\ compiles C av VMove tys = true /\
  compiles C av VMoveAssign tys = false.
Proof. exists C0, move_only, [IPlain 3], (IPlain 3). split; [apply C0_good|]. split; [apply move_only_truthful|]. by vm_compute. Qed.
(** swap: "Every bounded type must fulfill the requirements of the MoveAssignable concept". *)
Theorem C62_swap_refuted : exists C av tys, good_env C true false /\ truthful C av /\ length tys = 2 /\
  (forall t, t ∈ tys -> move_constructible av t /\ move_assignable av t /\ swappable C av (ity_uid t)) /\
  compiles C av VSwap tys = false.
Proof.
  exists C0, move_only, VA. split; [apply C0_good|]. split; [apply move_only_truthful|]. split; [done|]. split; [|done].
  intros t Ht. split; [by vm_compute|]. split; [by destruct t|]. right. by vm_compute.
Qed.
(** Assignment of an rvalue T: the same, although the variant's constructor from it compiles. *)
Theorem C62_assign_from_refuted : exists C av tys u, good_env C true false /\ truthful C av /\
  (forall t, t ∈ tys -> move_constructible av t /\ move_assignable av t) /\ IPlain u ∈ tys /\
  compiles C av (VFrom u true) tys = true /\ compiles C av (VAssignFrom u true) tys = false.
Proof.
  exists C0, move_only, VA, 3. split; [apply C0_good|]. split; [apply move_only_truthful|].
  split; [by intros [|]; vm_compute|]. split; [by apply (bool_decide_unpack _)|]. by vm_compute.
Qed.

(** *** Examples *)
Example C62_default_ex : compiles C0 move_only VDefault VA = true /\ compiles C0 (fun _ u => negb (u =? 3)) VDefault VA = false.
Proof. done. Qed.
Example C62_copy_ex : compiles C0 move_only VCopy VA = false /\ compiles C0 move_only VCopy [IPlain 0; IPlain 5] = true.
Proof. done. Qed.
Example C62_move_ex : compiles C0 move_only VMove VA = true /\ compiles C0 (fun k u => negb (bool_decide (k = OpMove) && (u =? 4))) VMove VL = false.
Proof. done. Qed.
(** Assignable types; the same types without the copy assignment of one. *)
Example C62_assign_ex : truthful C0 (fun k u => negb (bool_decide (k = OpCopyAssign) && (u =? 4))) /\
  compiles C0 (fun _ _ => true) VAssign VA = true /\
  compiles C0 (fun k u => negb (bool_decide (k = OpCopyAssign) && (u =? 4))) VAssign VA = false.
Proof. split; [|done]. intros u. by repeat split. Qed.
(** Move-only types: with a fallback type; with nothrow moves. *)
Example C62_move_assign_ex : truthful C0 move_only /\ doubly_throwing C0 (IPlain 3) /\
  compiles C0 move_only VMoveAssign VF = true /\ compiles C0 move_only VMoveAssign VN = true.
Proof. split; [apply move_only_truthful|]. split; [|done]. apply Link.doubly_throwing_it. by vm_compute. Qed.
Example C62_swap_ex : truthful C0 move_only /\ compiles C0 move_only VSwap VF = true /\ compiles C0 move_only VSwap VL = false.
Proof. split; [apply move_only_truthful|done]. Qed.
(** From a node, and from an int converted to a string. *)
Example C62_from_ex : best_match C0 [IPlain 2; IPlain 4] 0 0 /\ compiles C0 move_only (VFrom 0 false) [IPlain 2; IPlain 4] = true /\
  best_match C0 [IPlain 2; IPlain 4] 4 1 /\ compiles C0 move_only (VFrom 4 false) [IPlain 2; IPlain 4] = false /\
  compiles C0 move_only (VFrom 4 true) [IPlain 2; IPlain 4] = true.
Proof.
  split; [by apply Link.best_match_resolve|]. split; [done|]. split; [by apply Link.best_match_resolve|]. done.
Qed.
Example C62_assign_from_ex : compiles C0 move_only (VAssignFrom 3 true) VF = true /\ compiles C0 move_only (VAssignFrom 3 false) VF = false /\
  compiles C0 move_only (VAssignFrom 0 false) VN = false /\ compiles C0 move_only (VAssignFrom 0 true) VN = true.
Proof. done. Qed.

Notation stepX := (step C0 true false eq0 lt0).
(** The copy constructor of a string, in swap, needed by a node for its member. *)
Example C62_executed_ex : exists E s E' s', stepX (CSwap 1 2) E s E' (OThrew (XUser OpCopy 2 13)) s' /\
  sees C0 E s 1 VA (false, 0, loud5) /\ sees C0 E s 2 VA (false, 1, node9) /\
  (OpCopy, 2) ∉ required C0 E (CSwap 1 2) /\ (OpCopy, 4) ∈ required C0 E (CSwap 1 2).
Proof.
  run_step C0 true false (throws_at [13]) (two VA) (CSwap 1 2). do 3 (split; [by_run|]).
  split; apply (bool_decide_unpack _); by vm_compute.
Qed.
(** Trees have fallback types everywhere. *)
Lemma tree_parts u : part C0 VT u -> u = 1 \/ u = 3 \/ u = 7.
Proof.
  induction 1 as [t Ht|u tys t _ IH Hm Ht].
  - unfold VT in Ht. rewrite !elem_of_cons in Ht. destruct Ht as [->|[->|[->|Ht]]]; [..|by inversion Ht]; vm_compute; auto.
  - assert (tys = VT) as ->.
    { destruct IH as [->|[->| ->]]; [by inversion Hm..|].
      change (ut_members (te C0 7)) with [VT; VT] in Hm. rewrite !elem_of_cons in Hm. destruct Hm as [->|[->|Hm]]; [done..|by inversion Hm]. }
    unfold VT in Ht. rewrite !elem_of_cons in Ht. destruct Ht as [->|[->|[->|Ht]]]; [..|by inversion Ht]; vm_compute; auto.
Qed.
Example C62_moves_ex : exists E s E' s', stepX (CMoveAssign 20 3) E s E' (OThrew (XUser OpMove 3 20)) s' /\
  forall tys', tys' = types_at E 20 \/ (exists u', part C0 (types_at E 20) u' /\ tys' ∈ ut_members (te C0 u')) ->
    ~ no_fallback C0 tys'.
Proof.
  run_step C0 true false (throws_at [20]) trees (CMoveAssign 20 3). split; [by_run|].
  match goal with |- context [types_at ?E 20] => replace (types_at E 20) with VT by by vm_compute end.
  intros tys' H. assert (tys' = VT) as ->.
  { destruct H as [->|(u&Hu&Hm)]; [done|]. apply tree_parts in Hu.
    destruct Hu as [->|[->| ->]]; [by inversion Hm..|].
    change (ut_members (te C0 7)) with [VT; VT] in Hm. rewrite !elem_of_cons in Hm. destruct Hm as [->|[->|Hm]]; [done..|by inversion Hm]. }
  rewrite Link.no_fallback_it. by vm_compute.
Qed.

Definition PropsRequires_all := (C62_default, C62_copy, C62_move, C62_assign, C62_move_assign, C62_swap, C62_from, C62_assign_from,
  C62_executed, C62_moves, C62_move_assign_refuted, C62_swap_refuted, C62_assign_from_refuted).
Print Assumptions PropsRequires_all.
