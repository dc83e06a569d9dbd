(** Properties of whole histories. The statements use Spec.v, History.v, Reach.v, Trace.v and
    Owned.v only; the proofs are elsewhere. Every theorem is followed by an Example: a
    concrete program that meets its hypotheses. *)
From stdpp Require Import base gmap list numbers.
From Coq Require Import ZArith.
From Verif Require Import Base Types Variant Values Client Observe Spec Trace History Owned Reach Raises ReadOnly.
From Verif Require Import Check Samples Runs Scenes.
From Verif Require CoreFacts LifeFacts.

Section props.
(** Any types and conversions that satisfy the conditions in Spec.v ([good_env]), with
    ([st], [nb] = true) or without the stronger conditions; any comparisons. *)
Context (C : cfg) (st nb : bool) (eqf ltf : uid -> uval -> uval -> bool).
Context (HC : good_env C st nb).

(** *** C01: a variant always holds a value of one of its types; which() and visitation show
    it. *)
Theorem C01_never_empty : forall E s x tys a,
  reached C st nb eqf ltf E s -> E !! x = Some (BVar tys a) ->
  exists k t, sees C E s x tys k /\ tys !! k.1.2 = Some t /\
    yields C eqf ltf (CWhich x) E s (Done E (OWhich (Z.of_nat k.1.2)) s) /\
    exists s', yields C eqf ltf (CRead x) E s (Done E (OVal (ity_uid t) (erase k.2)) s') /\ quiet s s'.
Proof. exact (LifeFacts.never_empty C st nb eqf ltf HC). Qed.

(** Every permitted command has an outcome that is not a fault, and leads to such a state
    again. *)
Theorem C01_no_undefined_behaviour : forall E s c,
  reached C st nb eqf ltf E s -> admissible C st nb E s c ->
  exists E' o s', yields C eqf ltf c E s (Done E' o s') /\ reached C st nb eqf ltf E' s'.
Proof. exact (LifeFacts.no_undefined C st nb eqf ltf HC). Qed.

(** The same for variants inside objects, at any depth: the index is in range, the content
    has the members its type declares, and it is parked only where the specification says
    that this may happen. *)
Theorem C01_nested : forall E s tys k,
  reached C st nb eqf ltf E s -> present C E s tys k ->
  exists t, tys !! k.1.2 = Some t /\
    (exists z ks, k.2 = UV z ks /\ length ks = length (ut_members (te C (ity_uid t))) /\ (st = true -> z <> None)) /\
    (k.1.1 = true -> nb = false /\ no_fallback C tys /\ doubly_throwing C t).
Proof. exact (CoreFacts.present_ok C st nb eqf ltf HC). Qed.

(** With the documented type conditions ([nb]) the guard about parked content is void: every
    command that compiles is permitted. *)
Theorem C01_guard_void : forall E s σ D c,
  nb = true -> reached C st nb eqf ltf E s -> shows C (mem s) E σ -> typed C st nb D σ c ->
  admissible C st nb E s c.
Proof. exact (LifeFacts.never_parked_admissible C st nb eqf ltf HC). Qed.

(** *** C02: replaying the constructions and destructions at an address never fails (nothing
    is constructed over a live object or destroyed when not alive) and ends with exactly the
    object that memory has there. *)
Theorem C02_lifetimes : forall E s l,
  reached C st nb eqf ltf E s ->
  occupant l (tr s) = Some (tag_at (mem s) l) /\
  forall k, cnt (EvC k l) (tr s) = cnt (EvD k l) (tr s) + if decide (tag_at (mem s) l = Some k) then 1 else 0.
Proof. exact (LifeFacts.lifetimes C st nb eqf ltf HC). Qed.

(** When all variables are gone, everything has been destroyed as often as constructed. *)
Theorem C02_all_destroyed : forall s l k,
  reached C st nb eqf ltf ∅ s -> cnt (EvC k l) (tr s) = cnt (EvD k l) (tr s).
Proof. exact (LifeFacts.all_destroyed C st nb eqf ltf HC). Qed.

(** *** C03: every heap block is allocated once, freed at most once and then empty; the
    blocks alive are those in memory... *)
Theorem C03_blocks : forall E s l,
  reached C st nb eqf ltf E s ->
  exists b, block l (tr s) = Some b /\ (b = BLive <-> is_block (mem s) l).
Proof. exact (LifeFacts.blocks C st nb eqf ltf HC). Qed.

(** ... and all memory is owned by the program's variables, nothing twice. *)
Theorem C03_no_leak : forall E s, reached C st nb eqf ltf E s -> forest C (mem s) E.
Proof. exact (LifeFacts.ownership C st nb eqf ltf HC). Qed.
Theorem C03_nothing_left : forall s, reached C st nb eqf ltf ∅ s -> mem s = ∅.
Proof. exact (LifeFacts.nothing_left C st nb eqf ltf HC). Qed.

(** *** C45: pointers. Every address is that of one variable or stored in exactly one object;
    every stored object points to objects of the right types, none is null. *)
Theorem C45_pointers : forall E s, reached C st nb eqf ltf E s -> linked E (mem s).
Proof. exact (LifeFacts.reached_linked C st nb eqf ltf HC). Qed.
Theorem C45_cells : forall E s l c,
  reached C st nb eqf ltf E s -> mem s !! l = Some c -> cell_ok C (mem s) c.
Proof. exact (LifeFacts.reached_cells C st nb eqf ltf HC). Qed.

(** *** C11: under the documented conditions no backup is ever allocated, nothing is ever
    parked. *)
Theorem C11_no_backup_allocation : forall E s l,
  nb = true -> reached C st nb eqf ltf E s -> EvNew APBackup l ∉ tr s.
Proof. exact (LifeFacts.no_backup_news C st nb eqf ltf HC). Qed.
Theorem C11_never_parked : forall E s tys k,
  nb = true -> reached C st nb eqf ltf E s -> present C E s tys k -> cleanv k = true.
Proof. exact (LifeFacts.no_parked C st nb eqf ltf HC). Qed.

(** *** C12: a command fails with the one exception that was thrown during it, by a user
    operation or operator new, or with bad_get from get; if it does not fail, none was
    thrown. *)
Theorem C12_exceptions : forall c E s E' o s',
  step C st nb eqf ltf c E s E' o s' ->
  match o with
  | OThrew e => thrown s' = e :: thrown s /\ E' = E /\ (foreign_exn e \/ e = XBadGet /\ uses_get c = true)
  | _ => thrown s' = thrown s
  end.
Proof. exact (LifeFacts.exceptions C st nb eqf ltf HC). Qed.

(** *** C13: names a command does not mention stay as they are. *)
Theorem C13_others : forall c E s E' o s' z,
  step C st nb eqf ltf c E s E' o s' -> z ∉ names c -> same_at C E s E' s' z.
Proof. exact (LifeFacts.others C st nb eqf ltf HC). Qed.

(** *** C17, positive part: if fallback types are not left indeterminate ([st]), no
    indeterminate value is ever read, or held by a variant. *)
Theorem C17_never_read_indeterminate : forall E s,
  st = true -> reached C st nb eqf ltf E s -> ind s = false.
Proof. exact (LifeFacts.no_indeterminate C st nb eqf ltf HC). Qed.
Theorem C17_determinate : forall E s tys k,
  st = true -> reached C st nb eqf ltf E s -> present C E s tys k -> determinate k.2 = true.
Proof. exact (LifeFacts.values_determinate C st nb eqf ltf HC). Qed.

(** *** C24: applying a visitor to a variant is applying it to the content, where it is
    stored, at its type. *)
Theorem C24_visits_content : forall E s x tys a,
  reached C st nb eqf ltf E s -> E !! x = Some (BVar tys a) ->
  exists k t l, sees C E s x tys k /\ tys !! k.1.2 = Some t /\ value_at C s l (ity_uid t) k.2 /\ stored_at (mem s) a l /\
    (forall A (f : uid -> loc -> M A), visit_user C tys a f s = f (ity_uid t) l s) /\
    which a s = Ok (Z.of_nat k.1.2) s.
Proof. exact (CoreFacts.reached_locates C st nb eqf ltf HC). Qed.

(** *** C46: queries change nothing. *)
Theorem C46_queries : forall c E s E' o s',
  query c = true -> step C st nb eqf ltf c E s E' o s' ->
  E' = E /\ quiet s s' /\ forall z, same_at C E s E' s' z.
Proof. exact (LifeFacts.queries C st nb eqf ltf). Qed.

End props.

(** ** Examples: the hypotheses can be met *)

(** For the theorems about a reachable state and a variant in it: after a failed assignment
    (the copy of node's member throws) variant 1 has its old value parked on the heap; 2 has a
    node with a member variant. *)
Example C01_ex : exists E s a, good_env C0 true false /\ reached C0 true false eq0 lt0 E s /\
  E !! 1 = Some (BVar VA a) /\ sees C0 E s 1 VA (true, 0, loud5) /\ sees C0 E s 2 VA (false, 1, node9).
Proof.
  run_state C0 true false (throws_at [11]) (two_assign VA). eexists. split; [apply C0_good|].
  split; [by_run|]. split; [by vm_compute|]. by_runs.
Qed.
Example C01_no_undefined_behaviour_ex : exists E s, reached C0 true false eq0 lt0 E s /\
  sees C0 E s 1 VA (true, 0, loud5) /\ admissible C0 true false E s (CAssign 1 2).
Proof.
  run_state C0 true false (throws_at [11]) (two_assign VA). split; [by_run|]. split; [by_run|].
  apply (nextb_ok C0 true false 8 8). by vm_compute.
Qed.
(** A variant two levels inside another. *)
Example C01_nested_ex : exists E s, reached C0 true false eq0 lt0 E s /\ present C0 E s VT (false, 1, loud5) /\
  sees C0 E s 3 VT (false, 2, tree1).
Proof.
  run_state C0 true false calm trees. split; [by_run|]. split; [|by_run].
  eapply (present_in_var _ _ _ 3); [by_run|done|]. eapply within_deep; [by apply (within_member _ 7 (Some 1%Z) _ 0)|done|].
  by apply (within_member _ 7 (Some 2%Z) _ 0).
Qed.
Example C01_guard_void_ex : exists E s σ, good_env C1 true true /\ reached C1 true true eq0 lt0 E s /\
  shows C1 (mem s) E σ /\ typed C1 true true 8 σ (CMoveAssign 3 4) /\ sees C1 E s 4 VT (false, 2, tree1).
Proof.
  run_state C1 true true calm (trees ++ [CMove 4 3]).
  eexists. split; [apply C1_good|]. split; [by_run|]. split; [apply (decode_shows _ 8); by vm_compute|].
  split; [apply typedb_ok; by vm_compute|by_run].
Qed.

(** The trace of that failed assignment: the backup block is alive and has an object. *)
Example C02_ex : exists E s l, reached C0 true false eq0 lt0 E s /\
  block l (tr s) = Some BLive /\ occupant l (tr s) = Some (Some (TUser 3)) /\ mem s !! l <> None.
Proof.
  run_state C0 true false (throws_at [11]) (two_assign VA). exists 9%positive. by_runs.
Qed.

(** All variables of the program dropped again. *)
Example C02_all_destroyed_ex : exists s, reached C0 true false eq0 lt0 ∅ s /\
  cnt (EvC (TUser 3) 9%positive) (tr s) = 1 /\ length (tr s) = 22.
Proof.
  set (h := two_assign VA ++ [CDrop 1; CDrop 2; CDrop 10; CDrop 11; CDrop 12; CDrop 13]).
  exists (state_of C0 true false 8 8 eq0 lt0 (throws_at [11]) h). split; [|by_runs].
  assert (H : env_of C0 true false 8 8 eq0 lt0 (throws_at [11]) h = ∅) by (apply map_to_list_empty_iff; by vm_compute).
  rewrite <- H. by_run.
Qed.

Example C11_ex : exists E s, good_env C1 true true /\ reached C1 true true eq0 lt0 E s /\
  sees C1 E s 1 [IPlain 3; IPlain 1] (false, 1, UV (Some 1%Z) []) /\ thrown s <> [].
Proof.
  run_state C1 true true (throws_at [3]) [CMake 0 3 5 []; CFrom 2 [IPlain 3; IPlain 1] 0 false; CMake 3 1 8 [];
    CFrom 1 [IPlain 3; IPlain 1] 3 false; CAssign 1 2].
  split; [apply C1_good|]. by_runs.
Qed.

(** The step that fails. *)
Example C12_ex : exists E s E' s', step C0 true false eq0 lt0 (CAssign 1 2) E s E' (OThrew (XUser OpCopy 2 11)) s' /\
  sees C0 E s 1 VA (false, 0, loud5) /\ sees C0 E' s' 1 VA (true, 0, loud5).
Proof. run_step C0 true false (throws_at [11]) (two VA) (CAssign 1 2). by_runs. Qed.
Example C13_ex : exists E s E' s', step C0 true false eq0 lt0 (CAssign 1 2) E s E' (OThrew (XUser OpCopy 2 11)) s' /\
  11 ∉ names (CAssign 1 2) /\ sees C0 E s 11 VL (false, 0, str7).
Proof.
  run_step C0 true false (throws_at [11]) (two VA) (CAssign 1 2).
  split; [by_run|]. split; [by apply (bool_decide_unpack _)|by_run].
Qed.
Example C46_ex : exists E s E' s', query (CRead 1) = true /\
  step C0 true false eq0 lt0 (CRead 1) E s E' (OVal 3 loud5) s' /\ sees C0 E s 1 VA (true, 0, loud5).
Proof. run_step C0 true false (throws_at [11]) (two_assign VA) (CRead 1). by_runs. Qed.

(** All of them at once: "Closed under the global context" means that each is. *)
Definition PropsLife_all :=
  (C01_never_empty, C01_no_undefined_behaviour, C01_nested, C01_guard_void, C02_lifetimes, C02_all_destroyed, C03_blocks, C03_no_leak, C03_nothing_left, C45_pointers, C45_cells, C11_no_backup_allocation, C11_never_parked, C12_exceptions, C13_others, C17_never_read_indeterminate, C17_determinate, C24_visits_content, C46_queries).
Print Assumptions PropsLife_all.
