(** C67: how many calls of operations of user types are in progress at once. *)
From Coq.ssr Require Import ssreflect.
From stdpp Require Import base gmap list numbers.
From Coq Require Import ZArith Lia.
From Verif Require Import Base Types Variant Sem Values Client Observe Spec History Reach CostSpec Samples Scenes Runs.
From Verif Require Import HistoryProof DepthSpec DepthFacts AlikeFacts.

Section depth.
Context (C : cfg) (st nb : bool) (eqf ltf : uid -> uval -> uval -> bool).
Notation reached := (reached C st nb eqf ltf).
Notation admissible := (admissible C st nb).
Notation does := (does C st nb eqf ltf).
Notation too_deep n := (too_deep C n eqf ltf).

(** ** Enough: the nesting of the operands alone *)
Theorem C67_enough (HC : good_env C st nb) n c E s : reached E s -> admissible E s c ->
  shallow C n (names c) E s -> shallow_default C n c ->
  exists E' o s', exec C n eqf ltf c E s = Done E' o s' /\ does c E s E' o s'.
Proof. exact (enough C st nb eqf ltf HC n c E s). Qed.

(** ** Needed *)
Theorem C67_destruction (HC : good_env C st nb) n x E s α : reached E s -> admissible E s (CDrop x) ->
  stands C E s x α -> too_deep n (CDrop x) E s <-> S n < nesting α.
Proof. exact (exact_depth C st nb eqf ltf HC n x false E s α). Qed.

Theorem C67_visitation (HC : good_env C st nb) n x E s α : reached E s -> admissible E s (CRead x) ->
  stands C E s x α -> too_deep n (CRead x) E s <-> S n < nesting α.
Proof. exact (exact_depth C st nb eqf ltf HC n x true E s α). Qed.

Theorem C67_construction (HC : good_env C st nb) n x y (mv : bool) E s tys k E' s' : reached E s ->
  does (if mv then CMove x y else CCopy x y) E s E' ODone s' -> sees C E s y tys k ->
  too_deep n (if mv then CMove x y else CCopy x y) E s <-> S n < depth k.2.
Proof. exact (exact_construction C st nb eqf ltf HC n x y mv E s tys k E' s'). Qed.

(** ** Whatever the nesting *)
Theorem C67_wrapped_move (HC : good_env C st nb) x y E s tys k1 k2 u : reached E s -> admissible E s (CMoveAssign x y) ->
  sees C E s x tys k1 -> sees C E s y tys k2 -> k1.1 = k2.1 -> tys !! k1.1.2 = Some (IWrap u) ->
  exists E' o s', forall n, exec C n eqf ltf (CMoveAssign x y) E s = Done E' o s'.
Proof. exact (wrapped_done C st nb eqf ltf HC x y E s tys k1 k2 u). Qed.
End depth.

(** ** No bound *)
Theorem C67_bound_refuted : exists C eqf ltf, good_env C true false /\ forall n, exists E s tys k,
  Reach.reached C true false eqf ltf E s /\ sees C E s 1 tys k /\ depth k.2 = S (S n) /\
  History.admissible C true false E s (CDrop 1) /\ DepthSpec.too_deep C n eqf ltf (CDrop 1) E s.
Proof. exact no_bound. Qed.

(** ** Examples *)
(** 1 holds a node over a string, 2 a node over such a node. *)
Definition nest : list cmd := objects ++ [CFrom 1 VL 12 false; CMake 14 4 8 [1]; CFrom 2 VL 14 false].
Definition node8 : uval := UV (Some 8%Z) [(false, 1, node9)].
Notation En := (env_of C0 true false 8 8 eq0 lt0 calm nest).
Notation Sn := (state_of C0 true false 8 8 eq0 lt0 calm nest).
Notation En' c := (next_env C0 true false 8 8 eq0 lt0 calm nest c).
Notation Sn' c := (next_state C0 true false 8 8 eq0 lt0 calm nest c).

Example C67_situation : good_env C0 true false /\ Reach.reached C0 true false eq0 lt0 En Sn /\
  sees C0 En Sn 1 VL (false, 1, node9) /\ sees C0 En Sn 2 VL (false, 1, node8) /\ depth node9 = 2 /\ depth node8 = 3.
Proof. split; [apply C0_good|]. by_runs. Qed.
Lemma nest_step c o : next_ok C0 true false 8 8 eq0 lt0 calm nest c = true -> next_out C0 true false 8 8 eq0 lt0 calm nest c = o ->
  Reach.does C0 true false eq0 lt0 c En Sn (En' c) o (Sn' c).
Proof. intros H1 H2. destruct (next_step C0 true false 8 8 eq0 lt0 calm nest c o H1 H2) as [_ H]. exact H. Qed.
(** Two nested calls are too few for 2 and enough for 1, beside it. *)
Example C67_destruction_ex : History.admissible C0 true false En Sn (CDrop 2) /\ stands C0 En Sn 2 (AVar VL (false, 1, node8)) /\
  DepthSpec.too_deep C0 1 eq0 lt0 (CDrop 2) En Sn /\ ~ DepthSpec.too_deep C0 2 eq0 lt0 (CDrop 2) En Sn /\
  ~ DepthSpec.too_deep C0 1 eq0 lt0 (CDrop 1) En Sn.
Proof.
  split; [|split; [|split; [|split]]].
  - by apply (nest_step (CDrop 2) ODone); vm_compute.
  - simpl. by_run.
  - by vm_compute.
  - unfold DepthSpec.too_deep. by vm_compute.
  - unfold DepthSpec.too_deep. by vm_compute.
Qed.
Example C67_visitation_ex : History.admissible C0 true false En Sn (CRead 2) /\
  DepthSpec.too_deep C0 1 eq0 lt0 (CRead 2) En Sn /\ ~ DepthSpec.too_deep C0 2 eq0 lt0 (CRead 2) En Sn.
Proof.
  split; [|split].
  - by apply (nest_step (CRead 2) (OVal 4 node8)); vm_compute.
  - by vm_compute.
  - unfold DepthSpec.too_deep. by vm_compute.
Qed.
Example C67_construction_ex : Reach.does C0 true false eq0 lt0 (CMove 3 2) En Sn (En' (CMove 3 2)) ODone (Sn' (CMove 3 2)) /\
  DepthSpec.too_deep C0 1 eq0 lt0 (CMove 3 2) En Sn.
Proof. split; [by apply nest_step; vm_compute|by vm_compute]. Qed.
Example C67_enough_ex : History.admissible C0 true false En Sn (CAssign 1 2) /\
  shallow C0 2 (names (CAssign 1 2)) En Sn /\ shallow_default C0 2 (CAssign 1 2).
Proof.
  split; [by apply (nest_step (CAssign 1 2) ODone); vm_compute|]. split; [|done].
  destruct C67_situation as (Hg&Hr&H1&H2&_). apply (shallow_by C0 true false eq0 lt0 Hg 2 _ En Sn Hr).
  apply Forall_cons_2; [|apply Forall_cons_2; [|by apply Forall_nil_2]].
  - exists (AVar VL (false, 1, node9)). split; [exact H1|]. simpl. lia.
  - exists (AVar VL (false, 1, node8)). split; [exact H2|]. simpl. lia.
Qed.
(** Move assignment of 2 to 1 makes no such call; copy assignment does. *)
Example C67_wrapped_move_ex : History.admissible C0 true false En Sn (CMoveAssign 1 2) /\
  ~ DepthSpec.too_deep C0 0 eq0 lt0 (CMoveAssign 1 2) En Sn /\ DepthSpec.too_deep C0 1 eq0 lt0 (CAssign 1 2) En Sn.
Proof.
  split; [|split].
  - by apply (nest_step (CMoveAssign 1 2) ODone); vm_compute.
  - unfold DepthSpec.too_deep. by vm_compute.
  - by vm_compute.
Qed.

Definition PropsDepth_all := (@C67_enough, @C67_destruction, @C67_visitation, @C67_construction, @C67_wrapped_move, @C67_bound_refuted).
Print Assumptions PropsDepth_all.
