(** Properties of recursive_wrapper (C35). The statements use Spec.v, History.v, Reach.v and
    WrapSpec.v only; the proofs are in WrapFacts.v. *)
From stdpp Require Import base gmap list numbers.
From Coq Require Import ZArith.
From Verif Require Import Base Types Variant Values Client Observe Spec Trace History Reach WrapSpec.
From Verif Require Import Check Samples Runs Scenes.
From Verif Require WrapFacts.

Section props.
Context (C : cfg) (st nb : bool) (eqf ltf : uid -> uval -> uval -> bool).
Context (HC : good_env C st nb).

(** Every recursive_wrapper, wherever it is stored (in a variant, a member variant at any
    depth, a heap backup), points to a live heap object of its type. No other object points
    there, and it is no variable. *)
Theorem C35_owns : forall E s l u p,
  reached C st nb eqf ltf E s -> wrapper_at s l u p ->
  (exists z ls, mem s !! p = Some (Cell KHeap (Some (OUser u z ls)) None)) /\
  (forall l' c, mem s !! l' = Some c -> p ∈ pointers (cc c) -> l' = l) /\
  (forall x b, E !! x = Some b -> root b <> p).
Proof. exact (WrapFacts.wrapper_owns C st nb eqf ltf HC). Qed.

(** A variant whose alternative is a recursive_wrapper has one, and the value seen by visitors
    is that of the object it points to. *)
Theorem C35_content : forall E s x tys k u,
  reached C st nb eqf ltf E s -> sees C E s x tys k -> tys !! k.1.2 = Some (IWrap u) ->
  exists p, wraps E s x u p /\ value_at C s p u k.2.
Proof. exact (WrapFacts.wrapper_content C st nb eqf ltf). Qed.

(** Copies are deep. *)
Theorem C35_copy_deep : forall x y E s E' s' tys k u,
  step C st nb eqf ltf (CCopy x y) E s E' ODone s' -> sees C E s y tys k -> tys !! k.1.2 = Some (IWrap u) ->
  exists p p', wraps E' s' y u p /\ value_at C s' p u k.2 /\
               wraps E' s' x u p' /\ value_at C s' p' u (erase k.2) /\ p <> p'.
Proof. exact (WrapFacts.copy_deep C st nb eqf ltf HC). Qed.
Theorem C35_assign_deep : forall x y E s E' s' tys k u,
  x <> y -> step C st nb eqf ltf (CAssign x y) E s E' ODone s' -> sees C E s y tys k -> tys !! k.1.2 = Some (IWrap u) ->
  exists p p', wraps E' s' y u p /\ value_at C s' p u k.2 /\
               wraps E' s' x u p' /\ value_at C s' p' u k.2 /\ p <> p'.
Proof. exact (WrapFacts.assign_deep C st nb eqf ltf HC). Qed.

(** Move construction leaves the source with a live object of the same shape. *)
Theorem C35_moved_from : forall x y E s E' s' tys k u,
  step C st nb eqf ltf (CMove x y) E s E' ODone s' -> sees C E s y tys k -> tys !! k.1.2 = Some (IWrap u) ->
  exists p p' v', wraps E' s' y u p /\ value_at C s' p u v' /\ skel v' = skel k.2 /\
    wraps E' s' x u p' /\ value_at C s' p' u (erase k.2) /\ p <> p'.
Proof. exact (WrapFacts.move_keeps C st nb eqf ltf HC). Qed.

(** Move assignment between wrappers exchanges the two pointers and does nothing else: no
    user operation, no allocation, no exception (whatever the oracle says). *)
Theorem C35_move_assign : forall x y E s tys i v1 v2 u,
  reached C st nb eqf ltf E s -> x <> y ->
  sees C E s x tys (false, i, v1) -> sees C E s y tys (false, i, v2) -> tys !! i = Some (IWrap u) ->
  exists a b ca cb p q s', E !! x = Some (BVar tys a) /\ E !! y = Some (BVar tys b) /\
    mem s !! a = Some ca /\ cc ca = Some (OWrap u p) /\ mem s !! b = Some cb /\ cc cb = Some (OWrap u q) /\
    (forall n, exec C n eqf ltf (CMoveAssign x y) E s = Done E ODone s') /\
    s' = set_mem (<[a := repoint u q ca]> (<[b := repoint u p cb]> (mem s))) s.
Proof. exact (WrapFacts.massign_swaps C st nb eqf ltf HC). Qed.

End props.

(** ** Examples *)

(** A tree in variant 3: its wrapper, and the wrapper inside the object that it points to. *)
Example C35_ex : exists E s l l' p p', good_env C0 true false /\ reached C0 true false eq0 lt0 E s /\
  sees C0 E s 3 VT (false, 2, tree1) /\ VT !! 2 = Some (IWrap 7) /\
  E !! 3 = Some (BVar VT l) /\ wrapper_at s l 7 p /\ wrapper_at s l' 7 p' /\ l <> l' /\ mem s !! p <> None /\ mem s !! p' <> None.
Proof.
  run_state C0 true false calm trees. eexists _, 19%positive, _, _. split; [apply C0_good|]. split; [by_run|].
  split; [by_run|]. split; [done|]. split; [by vm_compute|]. split; [eexists _, _; by vm_compute|].
  split; [eexists _, _; by vm_compute|]. by_runs.
Qed.
Example C35_copy_deep_ex : exists E s E' s', step C0 true false eq0 lt0 (CCopy 4 3) E s E' ODone s' /\
  sees C0 E s 3 VT (false, 2, tree1) /\ VT !! 2 = Some (IWrap 7).
Proof. run_step C0 true false calm trees (CCopy 4 3). by_runs. Qed.
Example C35_assign_deep_ex : exists E s E' s', step C0 true false eq0 lt0 (CAssign 21 3) E s E' ODone s' /\
  sees C0 E s 3 VT (false, 2, tree1) /\ VT !! 2 = Some (IWrap 7).
Proof. run_step C0 true false calm trees (CAssign 21 3). by_runs. Qed.
Example C35_moved_from_ex : exists E s E' s', step C0 true false eq0 lt0 (CMove 4 3) E s E' ODone s' /\
  sees C0 E s 3 VT (false, 2, tree1) /\ VT !! 2 = Some (IWrap 7).
Proof. run_step C0 true false calm trees (CMove 4 3). by_runs. Qed.
(** 3 has a tree of two levels, 23 one of one level. *)
Example C35_move_assign_ex : exists E s, reached C0 true false eq0 lt0 E s /\
  sees C0 E s 3 VT (false, 2, tree1) /\ sees C0 E s 23 VT (false, 2, tree2) /\ VT !! 2 = Some (IWrap 7).
Proof. run_state C0 true false calm trees. by_runs. Qed.

Definition PropsWrap_all := (C35_owns, C35_content, C35_copy_deep, C35_assign_deep, C35_moved_from, C35_move_assign).
Print Assumptions PropsWrap_all.
