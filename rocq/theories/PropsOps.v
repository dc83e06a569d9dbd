(** Properties of single operations in reachable states. [step c E s E' o s']: in a reachable
    state [s] with variables [E] the permitted command [c] has outcome [o] and leads to [s'],
    [E']. The statements use Spec.v, History.v and Reach.v only; the proofs are in OpFacts.v.
    The Examples at the end are concrete programs that meet the hypotheses. *)
From stdpp Require Import base gmap list numbers.
From Coq Require Import ZArith.
From Verif Require Import Base Types Variant Values Client Observe Spec History Reach Raises.
From Verif Require Import Check Samples Runs Scenes.
From Verif Require OpFacts.

Section props.
(** Any types and conversions that satisfy the conditions in Spec.v ([good_env]), with
    ([st], [nb] = true) or without the stronger conditions; any comparisons. *)
Context (C : cfg) (st nb : bool) (eqf ltf : uid -> uval -> uval -> bool).
Context (HC : good_env C st nb).
Notation reached := (reached C st nb eqf ltf).
Notation step := (step C st nb eqf ltf).
Notation admissible := (admissible C st nb).
Notation sees := (sees C).
Notation sees_obj := (sees_obj C).
Notation same_at := (same_at C).
Notation fallback_value := (fallback_value C).

(** *** C04: copy construction. The copy has the index and value of the source, parked or not; a
    failed one changes nothing. *)
Theorem C04_copy : forall x y E s E' s' tys k,
  step (CCopy x y) E s E' ODone s' -> sees E s y tys k ->
  sees E' s' x tys (erasev k) /\ sees E' s' y tys k.
Proof. exact (OpFacts.copy_done C st nb eqf ltf HC). Qed.
Theorem C04_copy_throws : forall x y E s E' e s' tys k,
  step (CCopy x y) E s E' (OThrew e) s' -> sees E s y tys k ->
  E' = E /\ (forall z, same_at E s E' s' z) /\ exists t, tys !! k.1.2 = Some t /\ ~ nothrow_copy C t.
Proof. exact (OpFacts.copy_threw C st nb eqf ltf HC). Qed.

(** *** C05: move construction. The source keeps its alternatives at every depth, with any data. *)
Theorem C05_move : forall x y E s E' s' tys k,
  step (CMove x y) E s E' ODone s' -> sees E s y tys k ->
  sees E' s' x tys (erasev k) /\ exists v', sees E' s' y tys (k.1, v') /\ skel v' = skel k.2.
Proof. exact (OpFacts.move_done C st nb eqf ltf HC). Qed.
Theorem C05_move_throws : forall x y E s E' e s' tys k,
  step (CMove x y) E s E' (OThrew e) s' -> sees E s y tys k ->
  E' = E /\ (exists v', sees E' s' y tys (k.1, v') /\ skel v' = skel k.2) /\
  exists t, tys !! k.1.2 = Some t /\ ~ nothrow_move C t.
Proof. exact (OpFacts.move_threw C st nb eqf ltf HC). Qed.

(** *** C06: successful assignment. *)
Theorem C06_assign : forall x y E s E' s' tys k,
  step (CAssign x y) E s E' ODone s' -> sees E s y tys k ->
  sees E' s' x tys k /\ sees E' s' y tys k.
Proof. exact (OpFacts.assign_done C st nb eqf ltf HC). Qed.
Theorem C06_move_assign : forall x y E s E' s' tys k,
  x <> y -> step (CMoveAssign x y) E s E' ODone s' -> sees E s y tys k ->
  sees E' s' x tys k /\ exists k', sees E' s' y tys k' /\ k'.1 = k.1.
Proof. exact (OpFacts.massign_done C st nb eqf ltf HC). Qed.
Theorem C06_self_move : forall x E s E' o s' tys k,
  step (CMoveAssign x x) E s E' o s' -> sees E s x tys k ->
  exists v', sees E' s' x tys (k.1, v') /\ skel v' = skel k.2.
Proof. exact (OpFacts.massign_self C st nb eqf ltf HC). Qed.

(** *** C07: failed assignment: what the target may be left with. *)
Theorem C07_assign_throws : forall x y E s E' e s' tys k1 k2,
  x <> y -> step (CAssign x y) E s E' (OThrew e) s' ->
  sees E s x tys k1 -> sees E s y tys k2 ->
  E' = E /\ sees E' s' y tys k2 /\ exists k', sees E' s' x tys k' /\ copy_failed C tys k1 k2 k'.
Proof. exact (OpFacts.assign_threw C st nb eqf ltf HC). Qed.
Theorem C07_move_assign_throws : forall x y E s E' e s' tys k1 k2,
  x <> y -> step (CMoveAssign x y) E s E' (OThrew e) s' ->
  sees E s x tys k1 -> sees E s y tys k2 ->
  E' = E /\ (exists k2', sees E' s' y tys k2' /\ k2'.1 = k2.1) /\
  exists k', sees E' s' x tys k' /\ move_failed C tys k1 k2 k'.
Proof. exact (OpFacts.massign_threw C st nb eqf ltf HC). Qed.
Theorem C07_assign_leaves : forall x y E s E' e s' tys k1 k2,
  x <> y -> step (CAssign x y) E s E' (OThrew e) s' ->
  sees E s x tys k1 -> sees E s y tys k2 ->
  sees E' s' y tys k2 /\ exists k', sees E' s' x tys k' /\
    (old_value k1 k' \/ (k1.1.2 = k2.1.2 /\ k'.1 = k1.1) \/ fallback_value tys k').
Proof. exact (OpFacts.assign_left C st nb eqf ltf HC). Qed.
Theorem C07_move_assign_leaves : forall x y E s E' e s' tys k1 k2,
  x <> y -> step (CMoveAssign x y) E s E' (OThrew e) s' ->
  sees E s x tys k1 -> sees E s y tys k2 ->
  (exists k2', sees E' s' y tys k2' /\ k2'.1 = k2.1) /\ exists k', sees E' s' x tys k' /\
    (old_value k1 k' \/ (k1.1.2 = k2.1.2 /\ k'.1 = k1.1) \/ fallback_value tys k').
Proof. exact (OpFacts.massign_left C st nb eqf ltf HC). Qed.
Theorem C07_self_assign_throws : forall x E s E' e s' tys k,
  step (CAssign x x) E s E' (OThrew e) s' -> sees E s x tys k ->
  E' = E /\ exists v' t, sees E' s' x tys (k.1, v') /\ skel v' = skel k.2 /\ tys !! k.1.2 = Some t /\ ~ nothrow_cassign C t.
Proof. exact (OpFacts.assign_self_threw C st nb eqf ltf HC). Qed.

(** *** C08: the strong guarantee. *)
Theorem C08_assign_strong : forall x y E s E' e s' tys k1 k2 t,
  step (CAssign x y) E s E' (OThrew e) s' ->
  sees E s x tys k1 -> sees E s y tys k2 -> k1.1.2 <> k2.1.2 -> tys !! k2.1.2 = Some t ->
  nothrow_copy C t \/ nothrow_move C t -> sees E' s' x tys k1 /\ ~ nothrow_copy C t.
Proof. exact (OpFacts.assign_strong C st nb eqf ltf HC). Qed.
Theorem C08_move_assign_succeeds : forall x y E s E' o s' tys k1 k2 t,
  step (CMoveAssign x y) E s E' o s' ->
  sees E s x tys k1 -> sees E s y tys k2 -> k1.1.2 <> k2.1.2 -> tys !! k2.1.2 = Some t ->
  nothrow_copy C t \/ nothrow_move C t -> o = ODone.
Proof. exact (OpFacts.massign_strong C st nb eqf ltf HC). Qed.

(** *** C09: with a fallback type. *)
Theorem C09_assign_fallback : forall x y E s E' e s' tys k1 k2 t,
  step (CAssign x y) E s E' (OThrew e) s' ->
  sees E s x tys k1 -> sees E s y tys k2 -> k1.1.2 <> k2.1.2 -> tys !! k2.1.2 = Some t ->
  doubly_throwing C t -> (exists t, t ∈ tys /\ nothrow_default C t) ->
  exists j u, fallback C tys j u /\ sees E' s' x tys (false, j, default_init C u).
Proof. exact (OpFacts.assign_fallback C st nb eqf ltf HC). Qed.
Theorem C09_move_assign_fallback : forall x y E s E' e s' tys k1 k2,
  step (CMoveAssign x y) E s E' (OThrew e) s' ->
  sees E s x tys k1 -> sees E s y tys k2 -> k1.1.2 <> k2.1.2 ->
  (exists t, t ∈ tys /\ nothrow_default C t) ->
  exists j u, fallback C tys j u /\ sees E' s' x tys (false, j, default_init C u).
Proof. exact (OpFacts.massign_fallback C st nb eqf ltf HC). Qed.

(** *** C10: without a fallback type. *)
Theorem C10_assign_kept : forall x y E s E' e s' tys k1 k2,
  step (CAssign x y) E s E' (OThrew e) s' ->
  sees E s x tys k1 -> sees E s y tys k2 -> k1.1.2 <> k2.1.2 -> no_fallback C tys ->
  exists k', sees E' s' x tys k' /\ old_value k1 k'.
Proof. exact (OpFacts.assign_kept C st nb eqf ltf HC). Qed.
Theorem C10_move_assign_kept : forall x y E s E' e s' tys k1 k2,
  step (CMoveAssign x y) E s E' (OThrew e) s' ->
  sees E s x tys k1 -> sees E s y tys k2 -> k1.1.2 <> k2.1.2 -> no_fallback C tys ->
  exists k', sees E' s' x tys k' /\ old_value k1 k'.
Proof. exact (OpFacts.massign_kept C st nb eqf ltf HC). Qed.

(** *** C19: operations that are declared noexcept do not throw. (That no noexcept function
    inside the library is left by an exception, that is, std::terminate is not reached, is
    part of C01_no_undefined_behaviour: it would be a fault.) *)
Theorem C19_destructor : forall x E s E' o s',
  step (CDrop x) E s E' o s' -> o = ODone.
Proof. exact (OpFacts.drop_nothrow C st nb eqf ltf HC). Qed.
Theorem C19_move : forall x y E s E' o s' tys k t,
  step (CMove x y) E s E' o s' -> sees E s y tys k -> tys !! k.1.2 = Some t ->
  nothrow_move C t -> o = ODone.
Proof. exact (OpFacts.move_nothrow C st nb eqf ltf HC). Qed.
Theorem C19_move_assign : forall x y E s E' o s' tys k,
  step (CMoveAssign x y) E s E' o s' -> sees E s y tys k ->
  (forall t, t ∈ tys -> nothrow_move C t /\ nothrow_massign C t) -> o = ODone.
Proof. exact (OpFacts.massign_nothrow C st nb eqf ltf HC). Qed.
Theorem C19_default : forall x t r E s E' o s',
  step (CDefault x (t :: r)) E s E' o s' -> nothrow_default C t -> o = ODone.
Proof. exact (OpFacts.default_nothrow C st nb eqf ltf HC). Qed.
Theorem C19_copy : forall x y E s E' o s' tys k t,
  step (CCopy x y) E s E' o s' -> sees E s y tys k -> tys !! k.1.2 = Some t ->
  nothrow_copy C t -> o = ODone.
Proof. exact (OpFacts.copy_nothrow C st nb eqf ltf HC). Qed.
Theorem C19_queries : forall c E s E' o s',
  query c = true -> step c E s E' o s' -> forall e, o = OThrew e -> e = XBadGet.
Proof. exact (OpFacts.query_nothrow C st nb eqf ltf HC). Qed.

(** *** C20: default construction. *)
Theorem C20_default : forall x tys E s E' s',
  step (CDefault x tys) E s E' ODone s' ->
  exists t r d v, tys = t :: r /\ idefval C d t = Some v /\ sees E' s' x tys (false, 0, v).
Proof. exact (OpFacts.default_done C st nb eqf ltf HC). Qed.
Theorem C20_default_value : forall x u r E s E' s',
  step (CDefault x (IPlain u :: r)) E s E' ODone s' ->
  ut_members (te C u) = [] -> sees E' s' x (IPlain u :: r) (false, 0, UV (Some (dv C u)) []).
Proof. exact (OpFacts.default_plain C st nb eqf ltf HC). Qed.
Theorem C20_default_throws : forall x tys E s E' e s',
  step (CDefault x tys) E s E' (OThrew e) s' ->
  E' = E /\ (forall z, same_at E s E' s' z) /\ exists t r, tys = t :: r /\ ~ nothrow_default C t.
Proof. exact (OpFacts.default_threw C st nb eqf ltf HC). Qed.

(** *** C21: construction and assignment from a value. *)
Theorem C21_from : forall x tys y mv E s E' s' u v,
  step (CFrom x tys y mv) E s E' ODone s' -> sees_obj E s y u v ->
  exists i t v', best_match C tys u i /\ tys !! i = Some t /\
    sees E' s' x tys (false, i, converted C u (ity_uid t) v) /\
    sees_obj E' s' y u v' /\ operand_after mv v v'.
Proof. exact (OpFacts.from_done C st nb eqf ltf HC). Qed.
Theorem C21_from_throws : forall x tys y mv E s E' e s' u v,
  step (CFrom x tys y mv) E s E' (OThrew e) s' -> sees_obj E s y u v ->
  E' = E /\ (exists v', sees_obj E' s' y u v' /\ operand_after mv v v') /\
  exists i t, best_match C tys u i /\ tys !! i = Some t /\
    (ity_uid t = u -> if mv then ~ nothrow_move C t else ~ nothrow_copy C t).
Proof. exact (OpFacts.from_threw C st nb eqf ltf HC). Qed.
Theorem C21_assign_from : forall x y mv E s E' s' tys k1 u v,
  step (CAssignFrom x y mv) E s E' ODone s' ->
  sees E s x tys k1 -> sees_obj E s y u v ->
  exists t1 k', tys !! k1.1.2 = Some t1 /\ sees E' s' x tys k' /\
    (ity_uid t1 = u -> k' = (k1.1, v)) /\
    (ity_uid t1 <> u -> exists i t, best_match C tys u i /\ tys !! i = Some t /\
                                    k' = (false, i, converted C u (ity_uid t) v)) /\
    (mv = false -> sees_obj E' s' y u v).
Proof. exact (OpFacts.assign_from_done C st nb eqf ltf HC). Qed.
Theorem C21_assign_from_throws : forall x y mv E s E' e s' tys k1 u v,
  step (CAssignFrom x y mv) E s E' (OThrew e) s' ->
  sees E s x tys k1 -> sees_obj E s y u v ->
  E' = E /\ (mv = false -> sees_obj E' s' y u v) /\ exists k' t1, sees E' s' x tys k' /\ tys !! k1.1.2 = Some t1 /\
    (ity_uid t1 = u -> k'.1 = k1.1) /\
    (ity_uid t1 <> u -> old_value k1 k' \/ fallback_value tys k' \/ k'.1 = k1.1).
Proof. exact (OpFacts.assign_from_threw C st nb eqf ltf HC). Qed.

(** *** C22: conversion between variants. *)
Theorem C22_convert : forall x tys y mv E s E' s' tys2 k2,
  step (CConvert x tys y mv) E s E' ODone s' -> sees E s y tys2 k2 ->
  exists t2 i t v', tys2 !! k2.1.2 = Some t2 /\ best_match C tys (ity_uid t2) i /\ tys !! i = Some t /\
    sees E' s' x tys (false, i, converted C (ity_uid t2) (ity_uid t) k2.2) /\
    sees E' s' y tys2 (k2.1, v') /\ operand_after mv k2.2 v'.
Proof. exact (OpFacts.convert_done C st nb eqf ltf HC). Qed.
Theorem C22_convert_throws : forall x tys y mv E s E' e s' tys2 k2,
  step (CConvert x tys y mv) E s E' (OThrew e) s' -> sees E s y tys2 k2 ->
  E' = E /\ (exists v', sees E' s' y tys2 (k2.1, v') /\ operand_after mv k2.2 v') /\ foreign_may_throw C tys tys2 k2 mv.
Proof. exact (OpFacts.convert_threw C st nb eqf ltf HC). Qed.
Theorem C22_assign_convert : forall x y mv E s E' s' tys k1 tys2 k2,
  step (CAssignConvert x y mv) E s E' ODone s' ->
  sees E s x tys k1 -> sees E s y tys2 k2 ->
  exists t2 i t v', tys2 !! k2.1.2 = Some t2 /\ best_match C tys (ity_uid t2) i /\ tys !! i = Some t /\
    sees E' s' x tys (false, i, converted C (ity_uid t2) (ity_uid t) k2.2) /\
    sees E' s' y tys2 (k2.1, v') /\ operand_after mv k2.2 v'.
Proof. exact (OpFacts.assign_convert_done C st nb eqf ltf HC). Qed.
Theorem C22_assign_convert_throws : forall x y mv E s E' e s' tys k1 tys2 k2,
  step (CAssignConvert x y mv) E s E' (OThrew e) s' ->
  sees E s x tys k1 -> sees E s y tys2 k2 ->
  E' = E /\ (exists v', sees E' s' y tys2 (k2.1, v') /\ operand_after mv k2.2 v') /\
  exists k', sees E' s' x tys k' /\ (old_value k1 k' \/ fallback_value tys k' \/ k'.1 = k1.1).
Proof. exact (OpFacts.assign_convert_threw C st nb eqf ltf HC). Qed.

(** *** C23: swap. *)
Theorem C23_swap : forall x y E s E' s' tys k1 k2,
  x <> y -> step (CSwap x y) E s E' ODone s' ->
  sees E s x tys k1 -> sees E s y tys k2 ->
  exists ka kb, sees E' s' x tys ka /\ sees E' s' y tys kb /\ erasev ka = erasev k2 /\ erasev kb = erasev k1.
Proof. exact (OpFacts.swap_done C st nb eqf ltf HC). Qed.
Theorem C23_swap_self : forall x E s E' s' tys k,
  step (CSwap x x) E s E' ODone s' -> sees E s x tys k ->
  exists k', sees E' s' x tys k' /\ erasev k' = erasev k /\ (clean k.2 = true -> k' = k).
Proof. exact (OpFacts.swap_self C st nb eqf ltf HC). Qed.
Theorem C23_swap_twice : forall x y E s E' s' E'' s'' tys k1 k2,
  x <> y ->
  step (CSwap x y) E s E' ODone s' -> step (CSwap x y) E' s' E'' ODone s'' ->
  sees E s x tys k1 -> sees E s y tys k2 ->
  exists ka kb, sees E'' s'' x tys ka /\ sees E'' s'' y tys kb /\ erasev ka = erasev k1 /\ erasev kb = erasev k2.
Proof. exact (OpFacts.swap_twice C st nb eqf ltf HC). Qed.
Theorem C23_swap_throws : forall x y E s E' e s' tys k1 k2,
  x <> y -> step (CSwap x y) E s E' (OThrew e) s' ->
  sees E s x tys k1 -> sees E s y tys k2 ->
  E' = E /\ exists ka kb, sees E' s' x tys ka /\ sees E' s' y tys kb /\
    (ka.1.2 = k1.1.2 \/ fallback_value tys ka) /\
    (kb.1.2 = k2.1.2 \/ fallback_value tys kb \/ kb = k1).
Proof. exact (OpFacts.swap_threw C st nb eqf ltf HC). Qed.

(** *** C25: no query distinguishes a parked value from an equal one that is not, in any two
    states. *)
Theorem C25_unary : forall q x1 x2 E1 s1 E2 s2 E1' o1 s1' E2' o2 s2' tys k1 k2,
  unary q ->
  step (q x1) E1 s1 E1' o1 s1' -> step (q x2) E2 s2 E2' o2 s2' ->
  sees E1 s1 x1 tys k1 -> sees E2 s2 x2 tys k2 -> erasev k1 = erasev k2 -> o1 = o2.
Proof. exact (OpFacts.transparent1 C st nb eqf ltf HC). Qed.
Theorem C25_binary : forall q x1 x2 y1 y2 E1 s1 E2 s2 E1' o1 s1' E2' o2 s2' tys k1 k2 l1 l2,
  q = CEq \/ q = CLt ->
  step (q x1 y1) E1 s1 E1' o1 s1' -> step (q x2 y2) E2 s2 E2' o2 s2' ->
  sees E1 s1 x1 tys k1 -> sees E2 s2 x2 tys k2 -> erasev k1 = erasev k2 ->
  sees E1 s1 y1 tys l1 -> sees E2 s2 y2 tys l2 -> erasev l1 = erasev l2 -> o1 = o2.
Proof. exact (OpFacts.transparent2 C st nb eqf ltf HC). Qed.

(** *** C27: get. *)
Theorem C27_get : forall x u E s E' o s' tys k t,
  step (CGet x u) E s E' o s' -> sees E s x tys k -> tys !! k.1.2 = Some t ->
  o = OGet (if decide (ity_uid t = u) then Some (erase k.2) else None).
Proof. exact (OpFacts.get_spec C st nb eqf ltf HC). Qed.
Theorem C27_get_reference : forall x u E s E' o s' tys k t,
  step (CGetRef x u) E s E' o s' -> sees E s x tys k -> tys !! k.1.2 = Some t ->
  o = if decide (ity_uid t = u) then OVal u (erase k.2) else OThrew XBadGet.
Proof. exact (OpFacts.get_ref_spec C st nb eqf ltf HC). Qed.
Theorem C27_write_through : forall x u y E s E' o s' tys k t v,
  step (CPoke x u y) E s E' o s' -> sees E s x tys k -> sees_obj E s y u v ->
  tys !! k.1.2 = Some t ->
  if decide (ity_uid t = u) then
    match o with
    | ODone => sees E' s' x tys (k.1, v) /\ sees_obj E' s' y u v
    | OThrew e => foreign_exn e /\ nt_cassign (te C u) = false /\ exists v', sees E' s' x tys (k.1, v')
    | _ => False
    end
  else o = OThrew XBadGet /\ forall z, same_at E s E' s' z.
Proof. exact (OpFacts.poke_spec C st nb eqf ltf HC). Qed.

(** *** C30, C31: comparison. *)
Theorem C30_equal : forall x y E s E' o s' tys k1 k2 t,
  step (CEq x y) E s E' o s' ->
  sees E s x tys k1 -> sees E s y tys k2 -> tys !! k1.1.2 = Some t ->
  exists b, o = OBool b /\
    (b = true <-> k1.1.2 = k2.1.2 /\ eqf (ity_uid t) (erase k1.2) (erase k2.2) = true).
Proof. exact (OpFacts.eq_spec C st nb eqf ltf HC). Qed.
Theorem C31_less : forall x y E s E' o s' tys k1 k2 t,
  step (CLt x y) E s E' o s' ->
  sees E s x tys k1 -> sees E s y tys k2 -> tys !! k1.1.2 = Some t ->
  exists b, o = OBool b /\
    (b = true <-> k1.1.2 < k2.1.2 \/ k1.1.2 = k2.1.2 /\ ltf (ity_uid t) (erase k1.2) (erase k2.2) = true).
Proof. exact (OpFacts.lt_spec C st nb eqf ltf HC). Qed.

(** *** C36: members of the content: copying one out and assigning to one, at any depth. *)
Theorem C36_child : forall z x u j E s E' s' tys k t d ks,
  step (CChild z x u j) E s E' ODone s' ->
  sees E s x tys k -> tys !! k.1.2 = Some t -> k.2 = UV d ks ->
  ity_uid t = u /\ exists tys' k', ut_members (te C u) !! j = Some tys' /\ ks !! j = Some k' /\
    sees E' s' z tys' (erasev k') /\ sees E' s' x tys k.
Proof. exact (OpFacts.child_done C st nb eqf ltf HC). Qed.
Theorem C36_set_child : forall x u j y E s E' s' tys k d ks tys' ky,
  step (CSetChild x u j y) E s E' ODone s' ->
  sees E s x tys k -> k.2 = UV d ks -> sees E s y tys' ky ->
  j < length ks /\ sees E' s' x tys (k.1, UV d (<[j := ky]> ks)) /\ sees E' s' y tys' ky.
Proof. exact (OpFacts.set_child_done C st nb eqf ltf HC). Qed.

(** *** C40: which() and type(). *)
Theorem C40_which : forall x E s E' o s' tys k,
  step (CWhich x) E s E' o s' -> sees E s x tys k -> o = OWhich (Z.of_nat k.1.2).
Proof. exact (OpFacts.which_spec C st nb eqf ltf HC). Qed.
Theorem C40_type : forall x E s E' o s' tys k t,
  step (CType x) E s E' o s' -> sees E s x tys k -> tys !! k.1.2 = Some t ->
  o = OType (ity_uid t).
Proof. exact (OpFacts.type_spec C st nb eqf ltf HC). Qed.
Theorem C40_visit : forall x E s E' o s' tys k t,
  step (CRead x) E s E' o s' -> sees E s x tys k -> tys !! k.1.2 = Some t ->
  o = OVal (ity_uid t) (erase k.2).
Proof. exact (OpFacts.read_spec C st nb eqf ltf HC). Qed.

(** *** C41: nothing a variant went through makes it unusable; what is permitted depends only on
    the types and on the source not being parked, unless the target is, with the same index. *)
Theorem C41_reuse : forall E s x tys k,
  reached E s -> sees E s x tys k ->
  admissible E s (CRead x) /\ admissible E s (CWhich x) /\ admissible E s (CDrop x) /\
  (forall z, E !! z = None -> admissible E s (CCopy z x) /\ admissible E s (CMove z x)) /\
  (forall y k2, sees E s y tys k2 ->
     admissible E s (CEq x y) /\ admissible E s (CLt x y) /\
     (clean k2.2 = true -> (k2.1.1 = true -> k.1 = k2.1) ->
        admissible E s (CAssign x y) /\ admissible E s (CMoveAssign x y))) /\
  (forall y u v mv i, sees_obj E s y u v -> clean v = true -> best_match C tys u i ->
     admissible E s (CAssignFrom x y mv)).
Proof. exact (OpFacts.reuse C st nb eqf ltf HC). Qed.

(** *** C42: a parked value survives further failures and is released by success (of assignment
    from anything but another parked value of the same index); why it is parked. *)
Theorem C42_kept_again : forall x y E s E' e s' tys i v k2,
  x <> y -> step (CAssign x y) E s E' (OThrew e) s' ->
  sees E s x tys (true, i, v) -> sees E s y tys k2 -> k2.1 <> (true, i) -> sees E' s' x tys (true, i, v).
Proof. exact (OpFacts.parked_threw C st nb eqf ltf HC). Qed.
Theorem C42_released : forall x y E s E' s' tys k1 k,
  x <> y -> step (CAssign x y) E s E' ODone s' -> sees E s x tys k1 -> sees E s y tys k -> k1.1 <> k.1 ->
  sees E' s' x tys k /\ cleanv k = true.
Proof. exact (OpFacts.assign_unparks C st nb eqf ltf HC). Qed.
Theorem C42_why : forall E s x tys i v,
  reached E s -> sees E s x tys (true, i, v) ->
  no_fallback C tys /\ exists t, tys !! i = Some t /\ doubly_throwing C t.
Proof. exact (OpFacts.parked_why C st nb eqf ltf HC). Qed.

End props.

(** ** Examples: the hypotheses can be met

    The sample types satisfy the conditions: [Samples.C0_good : good_env C0 true false]. *)
Notation stepX := (step C0 true false eq0 lt0).

(** Copy of a variant whose value is parked, and of one with a member. *)
Example C04_ex : exists E s E' s', stepX (CCopy 3 1) E s E' ODone s' /\
  sees C0 E s 1 VA (true, 0, loud5) /\ sees C0 E' s' 3 VA (false, 0, loud5).
Proof. run_step C0 true false (throws_at [11]) (two_assign VA) (CCopy 3 1). by_runs. Qed.
Example C04_throws_ex : exists E s E' s', stepX (CCopy 3 2) E s E' (OThrew (XUser OpCopy 2 9)) s' /\
  sees C0 E s 2 VA (false, 1, node9).
Proof. run_step C0 true false (throws_at [9]) (two VA) (CCopy 3 2). by_runs. Qed.
Example C05_ex : exists E s E' s', stepX (CMove 3 2) E s E' ODone s' /\ sees C0 E s 2 VA (false, 1, node9) /\
  sees C0 E' s' 2 VA (false, 1, UV (Some 0%Z) [(false, 0, UV (Some 0%Z) [])]).
Proof. run_step C0 true false calm (two VA) (CMove 3 2). by_runs. Qed.
Example C05_throws_ex : exists E s E' s', stepX (CMove 3 2) E s E' (OThrew (XUser OpMove 4 8)) s' /\ sees C0 E s 2 VA (false, 1, node9).
Proof. run_step C0 true false (throws_at [8]) (two VA) (CMove 3 2). by_runs. Qed.
(** Assignment over a parked value. *)
Example C06_assign_ex : exists E s E' s', stepX (CAssign 1 2) E s E' ODone s' /\
  sees C0 E s 1 VA (true, 0, loud5) /\ sees C0 E s 2 VA (false, 1, node9) /\ sees C0 E' s' 1 VA (false, 1, node9).
Proof. run_step C0 true false (throws_at [11]) (two_assign VA) (CAssign 1 2). by_runs. Qed.
(** Both parked with the same index: in place. *)
Example C06_parked_ex : exists E s E' s', stepX (CAssign 1 3) E s E' ODone s' /\ sees C0 E s 1 VA (true, 0, loud5) /\
  sees C0 E s 3 VA (true, 0, UV (Some 6%Z) []) /\ sees C0 E' s' 1 VA (true, 0, UV (Some 6%Z) []).
Proof. run_step C0 true false (throws_at [12; 15]) (two_parked VA) (CAssign 1 3). by_runs. Qed.
Example C06_move_assign_ex : exists E s E' s', 1 <> 2 /\ stepX (CMoveAssign 1 2) E s E' ODone s' /\
  sees C0 E s 1 VA (false, 0, loud5) /\ sees C0 E s 2 VA (false, 1, node9).
Proof. run_step C0 true false calm (two VA) (CMoveAssign 1 2). split; [done|]. by_runs. Qed.
Example C06_self_move_ex : exists E s E' s', stepX (CMoveAssign 1 1) E s E' ODone s' /\
  sees C0 E s 1 VA (false, 0, loud5) /\ sees C0 E' s' 1 VA (false, 0, UV (Some 0%Z) []).
Proof. run_step C0 true false calm (two VA) (CMoveAssign 1 1). by_runs. Qed.
(** Failed assignments: the allocation of the backup, of the copy of the old value, of the
    new one. *)
Example C07_assign_ex : exists E s E' s', 1 <> 2 /\ stepX (CAssign 1 2) E s E' (OThrew (XAlloc 8)) s' /\
  sees C0 E s 1 VA (false, 0, loud5) /\ sees C0 E s 2 VA (false, 1, node9).
Proof. run_step C0 true false (throws_at [8]) (two VA) (CAssign 1 2). split; [done|]. by_runs. Qed.
Example C07_in_place_ex : exists E s E' s', 1 <> 2 /\ stepX (CAssign 1 2) E s E' (OThrew (XUser OpCopyAssign 4 12)) s' /\
  sees C0 E s 1 VA (false, 1, node9) /\ sees C0 E s 2 VA (false, 1, node9) /\
  sees C0 E' s' 1 VA (false, 1, UV (Some 0%Z) [(false, 0, UV (Some 7%Z) [])]).
Proof. run_step C0 true false (throws_at [12]) (two_assign VA) (CAssign 1 2). split; [done|]. by_runs. Qed.
Example C07_move_assign_ex : exists E s E' s', 1 <> 2 /\ stepX (CMoveAssign 1 2) E s E' (OThrew (XUser OpCopy 4 10)) s' /\
  sees C0 E s 1 VA (false, 0, loud5) /\ sees C0 E s 2 VA (false, 1, node9) /\ sees C0 E' s' 1 VA (true, 0, loud5).
Proof. run_step C0 true false (throws_at [10]) (two VA) (CMoveAssign 1 2). split; [done|]. by_runs. Qed.
Example C07_self_ex : exists E s E' s', stepX (CAssign 1 1) E s E' (OThrew (XUser OpCopyAssign 3 8)) s' /\ sees C0 E s 1 VA (false, 0, loud5).
Proof. run_step C0 true false (throws_at [8]) (two VA) (CAssign 1 1). by_runs. Qed.
(** loud to string: nothrow move, throwing copy. *)
Definition strings : list cmd := objects ++ [CFrom 1 VS 13 false; CFrom 2 VS 10 false].
Example C08_assign_ex : exists E s E' s', stepX (CAssign 1 2) E s E' (OThrew (XUser OpCopy 2 7)) s' /\
  sees C0 E s 1 VS (false, 0, loud5) /\ sees C0 E s 2 VS (false, 1, str7) /\
  VS !! 1 = Some (IPlain 2) /\ nothrow_move C0 (IPlain 2).
Proof.
  run_step C0 true false (throws_at [7]) strings (CAssign 1 2). split; [by_run|]. split; [by_run|]. split; [by_run|].
  split; [done|]. by exists 2.
Qed.
Example C08_move_assign_ex : exists E s E' s', stepX (CMoveAssign 1 2) E s E' ODone s' /\
  sees C0 E s 1 VS (false, 0, loud5) /\ sees C0 E s 2 VS (false, 1, str7) /\ nothrow_move C0 (IPlain 2).
Proof.
  run_step C0 true false (throws_at [7]) strings (CMoveAssign 1 2). split; [by_run|]. split; [by_run|]. split; [by_run|].
  by exists 2.
Qed.
Lemma doubly_throwing_node : doubly_throwing C0 (IPlain 4).
Proof. by split; intros (u&[= <-]&?). Qed.
Lemma nothrow_default_blank : nothrow_default C0 (IPlain 1).
Proof. by exists 1. Qed.
Example C09_assign_ex : exists E s E' s', stepX (CAssign 1 2) E s E' (OThrew (XUser OpCopy 2 9)) s' /\
  sees C0 E s 1 VF (false, 0, loud5) /\ sees C0 E s 2 VF (false, 1, node9) /\ VF !! 1 = Some (IPlain 4) /\
  sees C0 E' s' 1 VF (false, 2, UV (Some 1%Z) []) /\ exists t, t ∈ VF /\ nothrow_default C0 t.
Proof.
  run_step C0 true false (throws_at [9]) (two VF) (CAssign 1 2). do 5 (split; [by_run|]).
  exists (IPlain 1). split; [by apply (bool_decide_unpack _)|apply nothrow_default_blank].
Qed.
Example C09_move_assign_ex : exists E s E' s', stepX (CMoveAssign 1 2) E s E' (OThrew (XUser OpMove 4 8)) s' /\
  sees C0 E s 1 VF (false, 0, loud5) /\ sees C0 E s 2 VF (false, 1, node9) /\
  sees C0 E' s' 1 VF (false, 2, UV (Some 1%Z) []).
Proof. run_step C0 true false (throws_at [8]) (two VF) (CMoveAssign 1 2). by_runs. Qed.
Lemma no_fallback_VA : no_fallback C0 VA.
Proof. intros t Ht. unfold VA in Ht. rewrite !elem_of_cons, elem_of_nil in Ht. by intros (u&->&?); destruct Ht as [[= ->]|[[= ->]|[]]]. Qed.
Example C10_ex : exists E s E' s', stepX (CAssign 1 2) E s E' (OThrew (XUser OpCopy 2 11)) s' /\
  sees C0 E s 1 VA (false, 0, loud5) /\ sees C0 E s 2 VA (false, 1, node9) /\ no_fallback C0 VA /\
  sees C0 E' s' 1 VA (true, 0, loud5).
Proof.
  run_step C0 true false (throws_at [11]) (two VA) (CAssign 1 2). do 3 (split; [by_run|]).
  split; [apply no_fallback_VA|by_run].
Qed.
(** Destruction of a variant with a parked value while the oracle would throw. *)
Example C19_destructor_ex : exists E s E' s', stepX (CDrop 1) E s E' ODone s' /\ sees C0 E s 1 VA (true, 0, loud5).
Proof. run_step C0 true false (fun i => if decide (i = 10) then 0%Z else if decide (10 < i) then 1%Z else 0%Z) (two_assign VA) (CDrop 1). by_runs. Qed.
Example C19_move_ex : exists E s E' s', stepX (CMove 3 2) E s E' ODone s' /\ sees C0 E s 2 VS (false, 1, str7) /\
  nothrow_move C0 (IPlain 2).
Proof.
  run_step C0 true false (fun i => if decide (i < 7) then 0%Z else 1%Z) strings (CMove 3 2). split; [by_run|]. split; [by_run|].
  by exists 2.
Qed.
Example C19_move_assign_ex : exists E s E' s',
  stepX (CMoveAssign 1 2) E s E' ODone s' /\ sees C0 E s 2 VN (false, 0, str7) /\
  forall t, t ∈ VN -> nothrow_move C0 t /\ nothrow_massign C0 t.
Proof.
  run_step C0 true false (fun i => if decide (i < 8) then 0%Z else 1%Z)
    (objects ++ [CMake 14 0 6 []; CFrom 1 VN 14 false; CFrom 2 VN 10 false]) (CMoveAssign 1 2).
  split; [by_run|]. split; [by_run|].
  intros t Ht. unfold VN in Ht. rewrite !elem_of_cons, elem_of_nil in Ht.
  destruct Ht as [->|[->|[]]]; (split; [by eexists|done]).
Qed.
Example C19_default_ex : exists E s E' s', stepX (CDefault 3 VT) E s E' ODone s' /\ nothrow_default C0 (IPlain 1).
Proof.
  run_step C0 true false (fun i => if decide (i < 5) then 0%Z else 1%Z) objects (CDefault 3 VT). split; [by_run|by exists 1].
Qed.
Example C19_copy_ex : exists E s E' s', stepX (CCopy 3 2) E s E' ODone s' /\ sees C0 E s 2 VN (false, 1, UV (Some 6%Z) []) /\
  nothrow_copy C0 (IPlain 0).
Proof.
  run_step C0 true false (fun i => if decide (i < 6) then 0%Z else 1%Z)
    (objects ++ [CMake 14 0 6 []; CFrom 2 VN 14 false]) (CCopy 3 2).
  split; [by_run|]. split; [by_run|by exists 0].
Qed.
Example C20_ex : exists E s E' s', stepX (CDefault 3 [IPlain 3]) E s E' ODone s' /\ ut_members (te C0 3) = [] /\
  sees C0 E' s' 3 [IPlain 3] (false, 0, UV (Some 3%Z) []).
Proof. run_step C0 true false calm objects (CDefault 3 [IPlain 3]). by_runs. Qed.
Example C20_throws_ex : exists E s E' s', stepX (CDefault 3 [IPlain 3]) E s E' (OThrew (XUser OpDefault 3 5)) s'.
Proof. run_step C0 true false (throws_at [5]) objects (CDefault 3 [IPlain 3]). by_runs. Qed.
(** int to variant<loud, string>: converted to string. *)
Example C21_from_ex : exists E s E' s', stepX (CFrom 3 VS 14 false) E s E' ODone s' /\ sees_obj C0 E s 14 0 (UV (Some 6%Z) []) /\
  sees C0 E' s' 3 VS (false, 1, UV (Some 1006%Z) []).
Proof. run_step C0 true false calm (objects ++ [CMake 14 0 6 []]) (CFrom 3 VS 14 false). by_runs. Qed.
(** A type that occurs twice: the last one is taken. *)
Example C21_last_ex : exists E s E' s', stepX (CFrom 3 VD 10 true) E s E' ODone s' /\ sees_obj C0 E s 10 2 str7 /\
  sees C0 E' s' 3 VD (false, 1, str7).
Proof. run_step C0 true false calm objects (CFrom 3 VD 10 true). by_runs. Qed.
Example C21_from_throws_ex : exists E s E' s', stepX (CFrom 3 VA 12 true) E s E' (OThrew (XUser OpMove 4 5)) s' /\ sees_obj C0 E s 12 4 node9.
Proof. run_step C0 true false (throws_at [5]) objects (CFrom 3 VA 12 true). by_runs. Qed.
Example C21_assign_ex : exists E s E' s', stepX (CAssignFrom 1 12 false) E s E' ODone s' /\
  sees C0 E s 1 VA (false, 0, loud5) /\ sees_obj C0 E s 12 4 node9.
Proof. run_step C0 true false calm (two VA) (CAssignFrom 1 12 false). by_runs. Qed.
(** In place, over a parked value. *)
Example C21_assign_in_place_ex : exists E s E' s', stepX (CAssignFrom 1 13 false) E s E' ODone s' /\
  sees C0 E s 1 VA (true, 0, loud5) /\ sees_obj C0 E s 13 3 loud5 /\ sees C0 E' s' 1 VA (true, 0, loud5).
Proof. run_step C0 true false (throws_at [11]) (two_assign VA) (CAssignFrom 1 13 false). by_runs. Qed.
Example C21_assign_throws_ex : exists E s E' s', stepX (CAssignFrom 1 12 false) E s E' (OThrew (XUser OpCopy 4 12)) s' /\
  sees C0 E s 1 VA (false, 0, loud5) /\ sees_obj C0 E s 12 4 node9 /\ sees C0 E' s' 1 VA (true, 0, loud5).
Proof. run_step C0 true false (throws_at [12]) (two VA) (CAssignFrom 1 12 false). by_runs. Qed.
Definition ints : list cmd := [CMake 0 0 5 []; CFrom 1 [IPlain 0; IPlain 2] 0 false].
Example C22_ex : exists E s E' s', stepX (CConvert 3 [IPlain 2; IPlain 4] 1 false) E s E' ODone s' /\
  sees C0 E s 1 [IPlain 0; IPlain 2] (false, 0, loud5) /\ sees C0 E' s' 3 [IPlain 2; IPlain 4] (false, 0, UV (Some 1005%Z) []).
Proof. run_step C0 true false calm ints (CConvert 3 [IPlain 2; IPlain 4] 1 false). by_runs. Qed.
Example C22_throws_ex : exists E s E' s', stepX (CConvert 3 [IPlain 2; IPlain 4] 1 false) E s E' (OThrew (XUser OpConvert 2 1)) s' /\
  sees C0 E s 1 [IPlain 0; IPlain 2] (false, 0, loud5).
Proof. run_step C0 true false (throws_at [1]) ints (CConvert 3 [IPlain 2; IPlain 4] 1 false). by_runs. Qed.
(** From a parked source. *)
Example C22_parked_ex : exists E s E' s', stepX (CConvert 3 [IPlain 4; IPlain 3] 1 true) E s E' ODone s' /\
  sees C0 E s 1 VA (true, 0, loud5) /\ sees C0 E' s' 3 [IPlain 4; IPlain 3] (false, 1, loud5).
Proof. run_step C0 true false (throws_at [11]) (two_assign VA) (CConvert 3 [IPlain 4; IPlain 3] 1 true). by_runs. Qed.
Definition ints2 : list cmd := ints ++ [CMake 13 3 5 []; CFrom 3 [IPlain 2; IPlain 3] 13 false].
Example C22_assign_ex : exists E s E' s', stepX (CAssignConvert 3 1 false) E s E' ODone s' /\
  sees C0 E s 3 [IPlain 2; IPlain 3] (false, 1, loud5) /\ sees C0 E s 1 [IPlain 0; IPlain 2] (false, 0, loud5) /\
  sees C0 E' s' 3 [IPlain 2; IPlain 3] (false, 0, UV (Some 1005%Z) []).
Proof. run_step C0 true false calm ints2 (CAssignConvert 3 1 false). by_runs. Qed.
Example C22_assign_throws_ex : exists E s E' s', stepX (CAssignConvert 3 1 false) E s E' (OThrew (XUser OpConvert 2 3)) s' /\
  sees C0 E s 3 [IPlain 2; IPlain 3] (false, 1, loud5) /\ sees C0 E s 1 [IPlain 0; IPlain 2] (false, 0, loud5).
Proof. run_step C0 true false (throws_at [3]) ints2 (CAssignConvert 3 1 false). by_runs. Qed.
Example C23_ex : exists E s E' s' E'' s'', 1 <> 2 /\
  stepX (CSwap 1 2) E s E' ODone s' /\ stepX (CSwap 1 2) E' s' E'' ODone s'' /\
  sees C0 E s 1 VA (false, 0, loud5) /\ sees C0 E s 2 VA (false, 1, node9).
Proof.
  run_step C0 true false calm (two VA) (CSwap 1 2).
  exists (next2_env C0 true false 8 8 eq0 lt0 calm (two VA) (CSwap 1 2) (CSwap 1 2)),
         (next2_state C0 true false 8 8 eq0 lt0 calm (two VA) (CSwap 1 2) (CSwap 1 2)).
  split; [done|]. split; [by_run|]. split; [apply next2_step; by vm_compute|]. by_runs.
Qed.
Example C23_self_ex : exists E s E' s', stepX (CSwap 2 2) E s E' ODone s' /\ sees C0 E s 2 VA (false, 1, node9).
Proof. run_step C0 true false calm (two VA) (CSwap 2 2). by_runs. Qed.
(** The third move fails: the value of 2 is lost. *)
Example C23_throws_ex : exists E s E' s', 1 <> 2 /\ stepX (CSwap 1 2) E s E' (OThrew (XAlloc 15)) s' /\
  sees C0 E s 1 VA (false, 0, loud5) /\ sees C0 E s 2 VA (false, 1, node9) /\
  sees C0 E' s' 1 VA (false, 0, loud5) /\ sees C0 E' s' 2 VA (false, 0, loud5).
Proof. run_step C0 true false (throws_at [15]) (two VA) (CSwap 1 2). split; [done|]. by_runs. Qed.
(** The same variant before and after its value was parked. *)
Example C25_ex : exists E1 s1 E1' s1' E2 s2 E2' s2',
  stepX (CGet 1 3) E1 s1 E1' (OGet (Some loud5)) s1' /\ stepX (CGet 1 3) E2 s2 E2' (OGet (Some loud5)) s2' /\
  sees C0 E1 s1 1 VA (false, 0, loud5) /\ sees C0 E2 s2 1 VA (true, 0, loud5).
Proof.
  run_step C0 true false (throws_at [11]) (two VA) (CGet 1 3).
  run_step C0 true false (throws_at [11]) (two_assign VA) (CGet 1 3). by_runs.
Qed.
Example C25_binary_ex : exists E1 s1 E1' s1' E2 s2 E2' s2',
  stepX (CLt 1 2) E1 s1 E1' (OBool true) s1' /\ stepX (CLt 1 2) E2 s2 E2' (OBool true) s2' /\
  sees C0 E1 s1 1 VA (false, 0, loud5) /\ sees C0 E2 s2 1 VA (true, 0, loud5) /\
  sees C0 E1 s1 2 VA (false, 1, node9) /\ sees C0 E2 s2 2 VA (false, 1, node9).
Proof.
  run_step C0 true false (throws_at [11]) (two VA) (CLt 1 2).
  run_step C0 true false (throws_at [11]) (two_assign VA) (CLt 1 2). by_runs.
Qed.
Example C27_ex : exists E s E' s', stepX (CGet 1 4) E s E' (OGet None) s' /\ sees C0 E s 1 VA (true, 0, loud5) /\
  VA !! 0 = Some (IPlain 3).
Proof. run_step C0 true false (throws_at [11]) (two_assign VA) (CGet 1 4). by_runs. Qed.
(** Through a recursive_wrapper. *)
Example C27_reference_ex : exists E s E' s', stepX (CGetRef 3 7) E s E' (OVal 7 tree1) s' /\ sees C0 E s 3 VT (false, 2, tree1) /\
  VT !! 2 = Some (IWrap 7).
Proof. run_step C0 true false calm trees (CGetRef 3 7). by_runs. Qed.
Example C27_write_ex : exists E s E' s', stepX (CPoke 1 3 14) E s E' ODone s' /\ sees C0 E s 1 VA (true, 0, loud5) /\
  sees_obj C0 E s 14 3 (UV (Some 6%Z) []) /\ sees C0 E' s' 1 VA (true, 0, UV (Some 6%Z) []).
Proof. run_step C0 true false (throws_at [11]) (two_assign VA ++ [CMake 14 3 6 []]) (CPoke 1 3 14). by_runs. Qed.
Example C27_write_throws_ex : exists E s E' s', stepX (CPoke 1 3 13) E s E' (OThrew (XUser OpCopyAssign 3 8)) s' /\
  sees C0 E s 1 VA (false, 0, loud5) /\ sees_obj C0 E s 13 3 loud5.
Proof. run_step C0 true false (throws_at [8]) (two VA) (CPoke 1 3 13). by_runs. Qed.
Example C30_ex : exists E s E' s', stepX (CEq 1 3) E s E' (OBool true) s' /\ sees C0 E s 1 VA (true, 0, loud5) /\
  sees C0 E s 3 VA (false, 0, loud5).
Proof. run_step C0 true false (throws_at [11]) (two_assign VA ++ [CCopy 3 1]) (CEq 1 3). by_runs. Qed.
Example C31_ex : exists E s E' s', stepX (CLt 2 1) E s E' (OBool false) s' /\ sees C0 E s 2 VA (false, 1, node9) /\
  sees C0 E s 1 VA (true, 0, loud5).
Proof. run_step C0 true false (throws_at [11]) (two_assign VA) (CLt 2 1). by_runs. Qed.
Example C36_child_ex : exists E s E' s', stepX (CChild 4 3 7 0) E s E' ODone s' /\ sees C0 E s 3 VT (false, 2, tree1) /\
  sees C0 E' s' 4 VT (false, 2, tree2).
Proof. run_step C0 true false calm trees (CChild 4 3 7 0). by_runs. Qed.
Example C36_set_child_ex : exists E s E' s', stepX (CSetChild 3 7 0 21) E s E' ODone s' /\ sees C0 E s 3 VT (false, 2, tree1) /\
  sees C0 E s 21 VT (false, 1, loud5) /\
  sees C0 E' s' 3 VT (false, 2, UV (Some 1%Z) [(false, 1, loud5); (false, 0, UV (Some 1%Z) [])]).
Proof. run_step C0 true false calm trees (CSetChild 3 7 0 21). by_runs. Qed.
Example C40_ex : exists E s E' s', stepX (CType 3) E s E' (OType 7) s' /\ sees C0 E s 3 VT (false, 2, tree1) /\
  VT !! 2 = Some (IWrap 7).
Proof. run_step C0 true false calm trees (CType 3). by_runs. Qed.
Example C41_ex : exists E s, reached C0 true false eq0 lt0 E s /\ sees C0 E s 1 VA (true, 0, loud5) /\
  sees C0 E s 2 VA (false, 1, node9) /\ cleanv (false, 1, node9) = true.
Proof. run_state C0 true false (throws_at [11]) (two_assign VA). by_runs. Qed.
Example C42_ex : exists E s E' s', 1 <> 2 /\ stepX (CAssign 1 2) E s E' (OThrew (XUser OpCopy 4 12)) s' /\
  sees C0 E s 1 VA (true, 0, loud5) /\ sees C0 E' s' 1 VA (true, 0, loud5).
Proof. run_step C0 true false (throws_at [11; 12]) (two_assign VA) (CAssign 1 2). split; [done|]. by_runs. Qed.

(** All of them at once: "Closed under the global context" means that each is. *)
Definition PropsOps_all :=
  (C04_copy, C04_copy_throws, C05_move, C05_move_throws, C06_assign, C06_move_assign, C06_self_move, C07_assign_throws, C07_move_assign_throws, C07_assign_leaves, C07_move_assign_leaves, C07_self_assign_throws, C08_assign_strong, C08_move_assign_succeeds, C09_assign_fallback, C09_move_assign_fallback, C10_assign_kept, C10_move_assign_kept, C19_destructor, C19_move, C19_move_assign, C19_default, C19_copy, C19_queries, C20_default, C20_default_value, C20_default_throws, C21_from, C21_from_throws, C21_assign_from, C21_assign_from_throws, C22_convert, C22_convert_throws, C22_assign_convert, C22_assign_convert_throws, C23_swap, C23_swap_self, C23_swap_twice, C23_swap_throws, C25_unary, C25_binary, C27_get, C27_get_reference, C27_write_through, C30_equal, C31_less, C36_child, C36_set_child, C40_which, C40_type, C40_visit, C41_reuse, C42_kept_again, C42_released, C42_why).
Print Assumptions PropsOps_all.
