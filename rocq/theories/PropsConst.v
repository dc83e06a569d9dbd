(** Properties of operands taken by reference to const. [step c E s E' o s']: in a reachable
    state [s] with variables [E] the permitted command [c] has outcome [o] and leads to [s'],
    [E']. The statements use Spec.v, Observe.v, Owned.v, PlaceSpec.v and ConstSpec.v; the proofs
    are in Keeps.v and ConstFacts.v. *)
From stdpp Require Import base gmap list numbers.
From Coq Require Import ZArith.
From Verif Require Import Base Types Variant Values Client Observe Spec History Reach Owned Check PlaceSpec ConstSpec.
From Verif Require Import Samples Runs Scenes PropsPlace.
From Verif Require ConstFacts.

Section props.
Context (C : cfg) (st nb : bool) (eqf ltf : uid -> uval -> uval -> bool).
Context (HC : good_env C st nb).
Notation step := (step C st nb eqf ltf).
Notation reading := (reading C st nb eqf ltf).

(** *** C58: operands taken by reference to const are not written to, whatever throws: the storage
    of such a variable and all it owns on the heap, its members and their members, is at the same
    addresses with the same contents, bit for bit, and nothing is added or removed. So operations
    that share no other operand than const ones do not race. *)
Theorem C58_const : forall c E s E' o s' z b, step c E s E' o s' -> z ∉ modifies c -> E !! z = Some b ->
  E' !! z = Some b /\ forall l, (owns C (mem s') b l <-> owns C (mem s) b l) /\
    (owns C (mem s) b l -> mem s' !! l = mem s !! l).
Proof. exact (ConstFacts.const_owned C st nb eqf ltf HC). Qed.
(** The same for any number of operations. *)
Theorem C58_reading : forall z E s E' s' b, reading z E s E' s' -> E !! z = Some b ->
  E' !! z = Some b /\ forall l, (owns C (mem s') b l <-> owns C (mem s) b l) /\
    (owns C (mem s) b l -> mem s' !! l = mem s !! l).
Proof. exact (ConstFacts.reading_owned C st nb eqf ltf HC). Qed.
(** Pointers to the content of a variant stay valid while it is only read and copied from. *)
Theorem C58_pointer : forall z E s E' s' l, reading z E s E' s' -> content_at E s z l -> content_at E' s' z l.
Proof. exact (ConstFacts.reading_content C st nb eqf ltf HC). Qed.
(** Commands with const operands only, such as queries, comparisons and copy construction, write
    to nothing that was there before, also when they throw. *)
Theorem C58_readers : forall c E s E' o s' l, step c E s E' o s' -> modifies c = [] -> is_Some (mem s !! l) ->
  mem s' !! l = mem s !! l.
Proof. exact (ConstFacts.const_all C st nb eqf ltf HC). Qed.
End props.

(** ** Examples *)

Lemma reading_one z c E s E' o s' : step0 c E s E' o s' -> bool_decide (z ∉ modifies c) = true ->
  reading C0 true false eq0 lt0 z E s E' s'.
Proof. intros H Hz%bool_decide_eq_true. by eapply reading_step; [..|apply reading_none]. Qed.
Lemma reading_two z c E s E' o s' c' E'' o' s'' : step0 c E s E' o s' -> step0 c' E' s' E'' o' s'' ->
  bool_decide (z ∉ modifies c) = true -> bool_decide (z ∉ modifies c') = true ->
  reading C0 true false eq0 lt0 z E s E'' s''.
Proof. intros H H' Hz%bool_decide_eq_true Hz'. eapply reading_step; [done..|]. by eapply reading_one. Qed.

(** The source of a copy assignment, a wrapped node with a member on the heap. *)
Example C58_const_ex : exists E s E' s', step0 (CAssign 3 1) E s E' ODone s' /\ 1 ∉ modifies (CAssign 3 1) /\
  E !! 1 = Some (BVar VL 9%positive) /\ owns C0 (mem s) (BVar VL 9%positive) 10%positive /\
  owns C0 (mem s) (BVar VL 9%positive) 11%positive /\ sees C0 E s 3 VL (false, 0, str7) /\
  sees C0 E' s' 3 VL (false, 1, node9).
Proof.
  run_step C0 true false calm places (CAssign 3 1). split; [by_run|]. split; [by apply (bool_decide_unpack _)|].
  split; [by_run|]. split; [|split; [|split; by_run]].
  - exists 8, [9%positive; 10%positive; 11%positive]. split; [by vm_compute|]. right. left.
  - exists 8, [9%positive; 10%positive; 11%positive]. split; [by vm_compute|]. right. right. left.
Qed.
(** The same with the copy of the node throwing. *)
Example C58_const_throw_ex : exists E s E' s', step0 (CAssign 3 1) E s E' (OThrew (XUser OpCopy 2 (3 + asked))) s' /\
  1 ∉ modifies (CAssign 3 1) /\ E !! 1 = Some (BVar VL 9%positive) /\ sees C0 E s 1 VL (false, 1, node9) /\
  sees C0 E' s' 1 VL (false, 1, node9).
Proof.
  run_step C0 true false (throws_at [3 + asked]) places (CAssign 3 1). split; [by_run|]. split; [by apply (bool_decide_unpack _)|].
  split; [by_run|]. split; by_run.
Qed.
(** 1 is copied into 3 and compared with it. *)
Example C58_reading_ex : exists E s E' s', reading C0 true false eq0 lt0 1 E s E' s' /\
  E !! 1 = Some (BVar VL 9%positive) /\ sees C0 E s 3 VL (false, 0, str7) /\ sees C0 E' s' 3 VL (false, 1, node9).
Proof.
  exists (env_of C0 true false 8 8 eq0 lt0 calm places), (state_of C0 true false 8 8 eq0 lt0 calm places),
    (next2_env C0 true false 8 8 eq0 lt0 calm places (CAssign 3 1) (CEq 1 3)),
    (next2_state C0 true false 8 8 eq0 lt0 calm places (CAssign 3 1) (CEq 1 3)).
  split.
  - apply (reading_two 1 (CAssign 3 1) _ _
      (next_env C0 true false 8 8 eq0 lt0 calm places (CAssign 3 1)) ODone
      (next_state C0 true false 8 8 eq0 lt0 calm places (CAssign 3 1)) (CEq 1 3) _ (OBool true));
      [by_run|apply next2_step; by vm_compute|by vm_compute..].
  - split; [by_run|]. split; by_run.
Qed.
Example C58_pointer_ex : exists E s E' s', reading C0 true false eq0 lt0 1 E s E' s' /\
  content_at E s 1 10%positive /\ content_at E' s' 1 10%positive.
Proof.
  run_step C0 true false calm places (CAssign 3 1). split; [|by_places].
  apply (reading_one 1 (CAssign 3 1) _ _ _ ODone); by_run.
Qed.
(** Copy construction from a wrapped node, and the same with its last step throwing: what it had
    allocated is gone, and nothing else has changed. *)
Example C58_readers_ex : exists E s E' s', step0 (CCopy 5 1) E s E' ODone s' /\ modifies (CCopy 5 1) = [] /\
  is_Some (mem s !! 10%positive) /\ sees C0 E' s' 5 VL (false, 1, node9).
Proof. run_step C0 true false calm places (CCopy 5 1). split; [by_run|]. split; [done|]. split; [by eexists; vm_compute|by_run]. Qed.
Example C58_readers_throw_ex : exists E s E' s', step0 (CCopy 5 1) E s E' (OThrew (XUser OpCopy 2 (2 + asked))) s' /\
  modifies (CCopy 5 1) = [] /\ is_Some (mem s !! 10%positive) /\ nxt s <> nxt s' /\ size (mem s') = size (mem s).
Proof.
  run_step C0 true false (throws_at [2 + asked]) places (CCopy 5 1). split; [by_run|]. split; [done|]. split; [by eexists; vm_compute|].
  split; by vm_compute.
Qed.

Definition PropsConst_all := (C58_const, C58_reading, C58_pointer, C58_readers).
Print Assumptions PropsConst_all.
