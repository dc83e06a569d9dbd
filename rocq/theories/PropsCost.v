(** Properties of what operations cost: objects constructed and destroyed, heap blocks allocated and
    released. [step c E s E' o s']: in a reachable state [s] with variables [E] the permitted command
    [c] has outcome [o] and leads to [s'], [E']. The statements use Spec.v, Observe.v and CostSpec.v;
    the proofs are in Cost.v and CostFacts.v. *)
From stdpp Require Import base gmap list numbers.
From Coq Require Import ZArith.
From Verif Require Import Base Types Variant Values Client Observe Spec History Reach Check.
From Verif Require Import Samples Runs Scenes CostSpec.
From Verif Require Link CostFacts.

Section props.
Context (C : cfg) (st nb : bool) (eqf ltf : uid -> uval -> uval -> bool).
Context (HC : good_env C st nb).
Notation reached := (reached C st nb eqf ltf).
Notation step := (step C st nb eqf ltf).
Notation sees := (sees C).

(** *** C59: in every reachable state, the objects constructed and not destroyed are those that the
    variables' values consist of, type by type, and the blocks allocated and not released those
    that recursive_wrappers and backups in these values need. *)
Theorem C59_balance : forall E s σ, reached E s -> shows C (mem s) E σ ->
  (forall k, made k (tr s) = gone k (tr s) + all_parts C (of_type k) σ) /\
  news (tr s) = dels (tr s) + all_parts C in_block σ.
Proof. exact (CostFacts.balance C st nb eqf ltf HC). Qed.

(** Construction of a variable, when it succeeds, constructs exactly the parts of its value, once
    each, and allocates exactly the blocks for them: no temporary objects, nothing destroyed. *)
Theorem C59_build : forall c x E s E' s', maker c = Some x -> step c E s E' ODone s' ->
  exists α, stands C E' s' x α /\ builds C s s' α.
Proof. exact (CostFacts.build C st nb eqf ltf HC). Qed.
(** When it fails, all that was constructed is destroyed again and all blocks are released. *)
Theorem C59_failed : forall c x E s E' e s', maker c = Some x -> step c E s E' (OThrew e) s' ->
  (forall k, made k (tr s') + gone k (tr s) = gone k (tr s') + made k (tr s)) /\
  news (tr s') + dels (tr s) = dels (tr s') + news (tr s).
Proof. exact (CostFacts.build_failed C st nb eqf ltf HC). Qed.
(** Copying and moving cost the same: one object for each object in the value, and one block for
    each recursive_wrapper, at every depth. ([erasev k]: what a copy of [k] is, nothing parked.) *)
Theorem C59_copy : forall x y E s E' s' tys k, step (CCopy x y) E s E' ODone s' -> sees E s y tys k ->
  builds C s s' (AVar tys (erasev k)).
Proof. exact (CostFacts.copy_cost C st nb eqf ltf HC). Qed.
Theorem C59_move : forall x y E s E' s' tys k, step (CMove x y) E s E' ODone s' -> sees E s y tys k ->
  builds C s s' (AVar tys (erasev k)).
Proof. exact (CostFacts.move_cost C st nb eqf ltf HC). Qed.
Theorem C59_from : forall x tys y mv E s E' s' u v i t, step (CFrom x tys y mv) E s E' ODone s' ->
  sees_obj C E s y u v -> best_match C tys u i -> tys !! i = Some t -> ity_uid t = u ->
  builds C s s' (AVar tys (false, i, erase v)).
Proof. exact (CostFacts.from_cost C st nb eqf ltf HC). Qed.
(** Destruction of a variable destroys and releases its parts, once each, and nothing else. *)
Theorem C59_drop : forall x E s E' o s' α, step (CDrop x) E s E' o s' -> stands C E s x α -> ruins C s s' α.
Proof. exact (CostFacts.drop_cost C st nb eqf ltf HC). Qed.

(** Move assignment between variants in the same recursive_wrapper alternative constructs,
    destroys, allocates and releases nothing, whatever the depth. *)
Theorem C59_move_wrapped : forall x y E s E' s' tys k1 k2 u, step (CMoveAssign x y) E s E' ODone s' ->
  sees E s x tys k1 -> sees E s y tys k2 -> k1.1 = k2.1 -> tys !! k1.1.2 = Some (IWrap u) -> tr s' = tr s.
Proof. exact (CostFacts.wrapped_move C st nb eqf ltf HC). Qed.
(** So does assignment in the same alternative if the user type has no member variants. *)
Theorem C59_assign_simple : forall x y (mv : bool) E s E' s' tys k1 k2 t,
  step (if mv then CMoveAssign x y else CAssign x y) E s E' ODone s' ->
  sees E s x tys k1 -> sees E s y tys k2 -> k1.1 = k2.1 -> tys !! k1.1.2 = Some t ->
  ut_members (te C (ity_uid t)) = [] -> tr s' = tr s.
Proof. exact (CostFacts.simple_assign C st nb eqf ltf HC). Qed.
End props.

(** ** Examples and refutations *)
Notation reached0 := (reached C0 true false eq0 lt0).
Notation step0 := (step C0 true false eq0 lt0).

(** Constructed, destroyed: trees, their recursive_wrappers, louds; blocks allocated, released. *)
Definition tally (s : state) : list nat := [made (TUser 7) (tr s); gone (TUser 7) (tr s); made (TWrap 7) (tr s);
  gone (TWrap 7) (tr s); made (TUser 3) (tr s); gone (TUser 3) (tr s); news (tr s); dels (tr s)].
Definition asked : nat := Eval vm_compute in opos (state_of C0 true false 8 8 eq0 lt0 calm trees).
(** A variant holding a two level tree consists of two trees in two blocks, and a loud. *)
Definition AT : aval := AVar VT (false, 2, tree1).
Example parts_ex : objects C0 (TUser 7) AT = 2 /\ objects C0 (TWrap 7) AT = 2 /\ objects C0 (TUser 3) AT = 1 /\
  objects C0 (TUser 1) AT = 2 /\ blocks C0 AT = 2.
Proof. by vm_compute. Qed.

(** A failed assignment leaves loud 5 parked in a heap block, and a backup_holder. *)
Example C59_balance_ex : exists E s σ, reached0 E s /\ shows C0 (mem s) E σ /\
  sees C0 E s 1 VA (true, 0, loud5) /\ all_parts C0 in_block σ = 1 /\ news (tr s) = 1 /\ dels (tr s) = 0 /\
  all_parts C0 (of_type (TUser 3)) σ = 2 /\ made (TUser 3) (tr s) = 3 /\ gone (TUser 3) (tr s) = 1 /\
  all_parts C0 (of_type (TBackup (IPlain 3))) σ = 1.
Proof.
  run_state C0 true false (throws_at [10]) (two_assign VA).
  exists (decode C0 8 (mem (state_of C0 true false 8 8 eq0 lt0 (throws_at [10]) (two_assign VA)))
    (env_of C0 true false 8 8 eq0 lt0 (throws_at [10]) (two_assign VA))).
  split; [by_run|]. split; [apply decode_shows; by vm_compute|]. by_runs.
Qed.
Example C59_build_ex : exists E s E' s', maker (CMake 25 7 3 [23; 21]) = Some 25 /\
  step0 (CMake 25 7 3 [23; 21]) E s E' ODone s' /\ tally s = [6; 0; 4; 0; 6; 0; 4; 0] /\ tally s' = [8; 0; 5; 0; 8; 0; 5; 0].
Proof. run_step C0 true false calm trees (CMake 25 7 3 [23; 21]). by_runs. Qed.
(** The second member's copy throws: the first is destroyed again. *)
Example C59_failed_ex : exists E s E' s', maker (CMake 25 7 3 [23; 21]) = Some 25 /\
  step0 (CMake 25 7 3 [23; 21]) E s E' (OThrew (XUser OpCopy 3 (4 + asked))) s' /\
  tally s = [6; 0; 4; 0; 6; 0; 4; 0] /\ tally s' = [7; 1; 5; 1; 7; 1; 5; 1].
Proof. run_step C0 true false (throws_at [4 + asked]) trees (CMake 25 7 3 [23; 21]). by_runs. Qed.
Example C59_copy_ex : exists E s E' s', step0 (CCopy 1 3) E s E' ODone s' /\ sees C0 E s 3 VT (false, 2, tree1) /\
  tally s = [6; 0; 4; 0; 6; 0; 4; 0] /\ tally s' = [8; 0; 6; 0; 7; 0; 6; 0].
Proof. run_step C0 true false calm trees (CCopy 1 3). by_runs. Qed.
Example C59_move_ex : exists E s E' s', step0 (CMove 1 3) E s E' ODone s' /\ sees C0 E s 3 VT (false, 2, tree1) /\
  tally s = [6; 0; 4; 0; 6; 0; 4; 0] /\ tally s' = [8; 0; 6; 0; 7; 0; 6; 0].
Proof. run_step C0 true false calm trees (CMove 1 3). by_runs. Qed.
Example C59_from_ex : exists E s E' s', step0 (CFrom 30 VT 24 true) E s E' ODone s' /\ sees_obj C0 E s 24 7 tree1 /\
  best_match C0 VT 7 2 /\ VT !! 2 = Some (IWrap 7) /\
  tally s = [6; 0; 4; 0; 6; 0; 4; 0] /\ tally s' = [8; 0; 6; 0; 7; 0; 6; 0].
Proof.
  run_step C0 true false calm trees (CFrom 30 VT 24 true). split; [by_run|]. split; [by_run|].
  split; [by apply Link.best_match_resolve|]. by_runs.
Qed.
Example C59_drop_ex : exists E s E' s', step0 (CDrop 3) E s E' ODone s' /\ stands C0 E s 3 AT /\
  tally s = [6; 0; 4; 0; 6; 0; 4; 0] /\ tally s' = [6; 2; 4; 2; 6; 1; 4; 2].
Proof. run_step C0 true false calm trees (CDrop 3). split; [by_run|]. split; [by_run|]. by_runs. Qed.
Example C59_move_wrapped_ex : exists E s E' s', step0 (CMoveAssign 23 3) E s E' ODone s' /\
  sees C0 E s 23 VT (false, 2, tree2) /\ sees C0 E s 3 VT (false, 2, tree1) /\ VT !! 2 = Some (IWrap 7) /\
  sees C0 E' s' 23 VT (false, 2, tree1) /\ tally s' = tally s.
Proof. run_step C0 true false calm trees (CMoveAssign 23 3). by_runs. Qed.
Example C59_assign_simple_ex : exists E s E' s', step0 (CAssign 3 1) E s E' ODone s' /\
  sees C0 E s 3 VS (false, 0, UV (Some 6%Z) []) /\ sees C0 E s 1 VS (false, 0, loud5) /\ VS !! 0 = Some (IPlain 3) /\
  ut_members (te C0 3) = [] /\ sees C0 E' s' 3 VS (false, 0, loud5) /\ news (tr s') = news (tr s).
Proof.
  run_step C0 true false calm [CMake 13 3 5 []; CMake 14 3 6 []; CFrom 1 VS 13 false; CFrom 3 VS 14 false] (CAssign 3 1). by_runs.
Qed.

(** Not so: moving a variant costs less than copying it, at most one construction and no
    allocation. Moving one that holds a recursive_wrapper allocates a block for every
    recursive_wrapper in its value, at every depth, as copying does: the wrapper's move constructor
    makes a new object instead of taking the pointer. *)
Theorem C59_move_refuted : exists E s E1 s1 E2 s2, step0 (CMove 1 3) E s E1 ODone s1 /\ step0 (CCopy 1 3) E s E2 ODone s2 /\
  sees C0 E s 3 VT (false, 2, tree1) /\ news (tr s1) = 2 + news (tr s) /\ made (TUser 7) (tr s1) = 2 + made (TUser 7) (tr s) /\
  tally s1 = tally s2.
Proof.
  exists (env_of C0 true false 8 8 eq0 lt0 calm trees), (state_of C0 true false 8 8 eq0 lt0 calm trees),
    (next_env C0 true false 8 8 eq0 lt0 calm trees (CMove 1 3)), (next_state C0 true false 8 8 eq0 lt0 calm trees (CMove 1 3)),
    (next_env C0 true false 8 8 eq0 lt0 calm trees (CCopy 1 3)), (next_state C0 true false 8 8 eq0 lt0 calm trees (CCopy 1 3)).
  by_runs.
Qed.
(** Not so: assignment of an object moves it into the variant once. When the variant holds another
    alternative, a temporary variant is made of it, which is then moved: two objects are constructed
    and, for a recursive_wrapper, two blocks allocated. *)
Theorem C59_assign_from_refuted : exists E s E' s', step0 (CAssignFrom 20 22 true) E s E' ODone s' /\
  sees C0 E s 20 VT (false, 0, UV (Some 1%Z) []) /\ sees_obj C0 E s 22 7 tree2 /\ sees C0 E' s' 20 VT (false, 2, tree2) /\
  made (TUser 7) (tr s') = 2 + made (TUser 7) (tr s) /\ gone (TUser 7) (tr s') = 1 + gone (TUser 7) (tr s) /\
  news (tr s') = 2 + news (tr s) /\ dels (tr s') = 1 + dels (tr s).
Proof. run_step C0 true false calm trees (CAssignFrom 20 22 true). by_runs. Qed.

Definition PropsCost_all := (C59_balance, C59_build, C59_failed, C59_copy, C59_move, C59_from, C59_drop, C59_move_wrapped,
  C59_assign_simple, C59_move_refuted, C59_assign_from_refuted).
Print Assumptions PropsCost_all.
