(** Exceptions come from outside (C12). The statements use AnswerSpec.v; the proofs are in Asks.v and
    AnswerFacts.v. *)
From stdpp Require Import base gmap list numbers.
From Coq Require Import ZArith.
From Verif Require Import Base Types Variant Values Client Observe Spec History Reach Raises AnswerSpec.
From Verif Require Import Check Samples Runs Scenes.
From Verif Require AnswerFacts.

Section props.
Context (C : cfg) (st nb : bool) (eqf ltf : uid -> uval -> uval -> bool) (HC : good_env C st nb).

(** *** C12: the exception with which a command fails was decided during it, by the user operation or the
    operator new that it names. *)
Theorem C12_answered : forall c E s E' o s',
  step C st nb eqf ltf c E s E' o s' ->
  orc s' = orc s /\ opos s <= opos s' /\ match o with OThrew e => answered s s' e | _ => True end.
Proof. exact (AnswerFacts.step_answered C st nb eqf ltf). Qed.
(** Where no user operation and no allocation fails, no command does, but for get. *)
Theorem C12_calm : forall c E s E' o s',
  step C st nb eqf ltf c E s E' o s' -> (forall i, opos s <= i -> orc s i = 0%Z) ->
  forall e, o = OThrew e -> e = XBadGet /\ uses_get c = true.
Proof. exact (AnswerFacts.step_calm C st nb eqf ltf HC). Qed.
(** Over a history, no exception is thrown twice. *)
Theorem C12_once : forall E s, reached C st nb eqf ltf E s ->
  NoDup (omap exn_at (thrown s)) /\ (forall e i, e ∈ thrown s -> exn_at e = Some i -> i < opos s /\ orc s i <> 0%Z).
Proof. exact (AnswerFacts.thrown_answers C st nb eqf ltf HC). Qed.
End props.

Example C12_answered_ex : exists E s E' s', step C0 true false eq0 lt0 (CAssign 1 2) E s E' (OThrew (XUser OpCopy 2 11)) s' /\
  opos s <= 11 < opos s' /\ orc s 11 = 1%Z.
Proof.
  run_step C0 true false (throws_at [11]) (two VA) (CAssign 1 2). split; [by_run|].
  split; [split; apply (bool_decide_unpack _); by vm_compute|by vm_compute].
Qed.
Example C12_calm_ex : exists E s E' s', step C0 true false eq0 lt0 (CAssign 1 2) E s E' ODone s' /\
  (forall i, orc s i = 0%Z) /\ opos s < opos s'.
Proof.
  run_step C0 true false calm (two VA) (CAssign 1 2). split; [by_run|]. split; [by vm_compute|].
  apply (bool_decide_unpack _). by vm_compute.
Qed.
Example C12_once_ex : exists E s, reached C0 true false eq0 lt0 E s /\ omap exn_at (thrown s) = [13; 11].
Proof.
  run_state C0 true false (throws_at [11; 13]) (two VA ++ [CAssign 1 2; CCopy 3 2]). by_runs.
Qed.

Definition PropsAnswer_all := (C12_answered, C12_calm, C12_once).
Print Assumptions PropsAnswer_all.
