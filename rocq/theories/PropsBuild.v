(** Build settings (C63): BOOST_VARIANT_VISITATION_UNROLLING_LIMIT (detail/visitation_impl.hpp:44-60)
    and NDEBUG (detail/backup_holder.hpp:78-84). The proofs are in BuildFacts.v and BuildProof.v. *)
From stdpp Require Import base gmap list numbers.
From Coq Require Import ZArith.
From Verif Require Import Base Types Variant Sem Values Client Queries Observe Spec History Reach BuildSpec.
From Verif Require Import Check Samples Runs Scenes.
From Verif Require BuildProof.
From Verif Require Import PropsDefects.

Section props.
Context (C : cfg) (st nb : bool) (eqf ltf : uid -> uval -> uval -> bool).
Context (L : nat) (nd : bool) (HL : 0 < L).
Notation C' := (with_build C L nd).

(** *** C63. Programs do the same whatever the unrolling limit, with assertions or without: the same
    histories lead to the same states, every command has the same outcome and leaves the same memory,
    trace and exceptions. *)
Theorem C63_histories : good_env C st nb -> forall orc h E s,
  history C' st nb eqf ltf orc h E s <-> history C st nb eqf ltf orc h E s.
Proof. exact (fun HC orc h E s => BuildProof.history_same st nb eqf ltf C L nd orc h E s HC HL). Qed.
Theorem C63_commands : good_env C st nb -> forall c E s E' o s',
  step C' st nb eqf ltf c E s E' o s' <-> step C st nb eqf ltf c E s E' o s'.
Proof. exact (fun HC c E s E' o s' => BuildProof.step_same st nb eqf ltf C L nd c E s E' o s' HC HL). Qed.

(** Visitation of any number of variants in any state, by any visitor; hashing; output. *)
Theorem C63_visitation : 0 < lim C -> (ndebug C = true -> nd = true) -> forall n A (f : list arg -> M A) vs s,
  (forall x, visit_many C (sem C n) f vs s <> Fault x) ->
  visit_many C' (sem C' n) f vs s = visit_many C (sem C n) f vs s.
Proof. exact (fun H1 H2 n A f vs s => BuildProof.visit_same C L nd n A f vs s H1 HL H2). Qed.
Theorem C63_hash : 0 < lim C -> (ndebug C = true -> nd = true) -> forall n tys hashf combine a s,
  (forall x, var_hash C (sem C n) tys hashf combine a s <> Fault x) ->
  var_hash C' (sem C' n) tys hashf combine a s = var_hash C (sem C n) tys hashf combine a s.
Proof. exact (fun H1 H2 n tys hashf combine a s => BuildProof.hash_same C L nd n tys hashf combine a s H1 HL H2). Qed.
Theorem C63_output : 0 < lim C -> (ndebug C = true -> nd = true) -> forall n tys pr o a s,
  (forall x, var_print C (sem C n) tys pr o a s <> Fault x) ->
  var_print C' (sem C' n) tys pr o a s = var_print C (sem C n) tys pr o a s.
Proof. exact (fun H1 H2 n tys pr o a s => BuildProof.print_same C L nd n tys pr o a s H1 HL H2). Qed.

End props.

(** Not so without the guard that C15 is about: a command that compiles fails an assertion with one
    setting and succeeds with the other. *)
Theorem C63_assertion_refuted : exists C E s σ c E' s',
  good_env C true false /\ reached C true false eq0 lt0 E s /\ shows C (mem s) E σ /\ typed C true false 8 σ c /\
  yields C eq0 lt0 c E s (Faulted FAssert) /\
  yields (with_build C (lim C) true) eq0 lt0 c E s (Done E' ODone s').
Proof.
  exists C0. run_state C0 true false (throws_at [11]) (two_assign VA). eexists. exists (CAssign 2 1). do 2 eexists.
  split; [apply C0_good|]. split; [by_run|]. split; [apply (decode_shows _ 8); by vm_compute|].
  split; [apply typedb_ok; by vm_compute|]. split; [by_fault|].
  apply next_done. by vm_compute.
Qed.

(** The settings differ in what the generated code does: with limit 1 every type has a switch of its
    own. A failed assignment, a parked variant, a tree. *)
Example C63_histories_ex : good_env C0 true false /\ exists E s,
  history C0 true false eq0 lt0 (throws_at [11]) (two_assign VA) E s /\ sees C0 E s 1 VA (true, 0, loud5).
Proof.
  split; [apply C0_good|]. run_state C0 true false (throws_at [11]) (two_assign VA). split; [|by_run].
  eapply (checked_start C0 true false 8 8). by vm_compute.
Qed.
Example C63_commands_ex : good_env C0 true false /\ exists E s E' s',
  step C0 true false eq0 lt0 (CSwap 1 2) E s E' (OThrew (XUser OpCopy 2 13)) s' /\
  step (with_build C0 1 true) true false eq0 lt0 (CSwap 1 2) E s E' (OThrew (XUser OpCopy 2 13)) s'.
Proof.
  split; [apply C0_good|]. run_step C0 true false (throws_at [13]) (two VA) (CSwap 1 2). split; [by_run|].
  apply C63_commands; [lia|apply C0_good|by_run].
Qed.

(** A hash, a text and a visitation of two variants, one of them in a backup. *)
Example C63_visitation_ex : exists E s a b, reached C0 true false eq0 lt0 E s /\ E !! 1 = Some (BVar VA a) /\ E !! 2 = Some (BVar VA b) /\
  sees C0 E s 1 VA (true, 0, loud5) /\ sees C0 E s 2 VA (false, 1, node9) /\ 0 < lim C0 /\ (ndebug C0 = true -> true = true) /\
  (forall x, visit_many C0 (sem C0 8) (fun args => ret (length args)) [(VA, a, false); (VA, b, true)] s <> Fault x) /\
  (forall x, var_hash C0 (sem C0 8) VA (fun u _ => Z.of_nat u) Z.add a s <> Fault x) /\
  (forall x, var_print C0 (sem C0 8) VA (fun u _ => [Z.of_nat u]) [7%Z] b s <> Fault x).
Proof.
  run_state C0 true false (throws_at [11]) (two_assign VA). do 2 eexists. split; [by_run|].
  do 2 (split; [vm_compute; reflexivity|]). do 2 (split; [by_run|]). split; [apply (bool_decide_unpack _); by vm_compute|].
  split; [done|]. repeat split; intros x; vm_compute; discriminate.
Qed.

Definition PropsBuild_all := (C63_histories, C63_commands, C63_visitation, C63_hash, C63_output, C63_assertion_refuted).
Print Assumptions PropsBuild_all.
