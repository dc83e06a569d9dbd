(** C66: what a program does depends on the values of the variables it names, and on nothing else
    in memory. *)
From Coq.ssr Require Import ssreflect.
From stdpp Require Import base gmap list numbers.
From Coq Require Import ZArith Lia.
From Verif Require Import Base Types Variant Sem Values Client Observe Spec History Reach CostSpec Samples Scenes Runs.
From Verif Require Import AlikeSpec AlikeFacts.

Section props.
Context (C : cfg) (st nb : bool) (eqf ltf : uid -> uval -> uval -> bool).
Context (HC : good_env C st nb).
Notation reached := (reached C st nb eqf ltf).

(** Two programs have come to states in which the names [N] stand for the same values, and the
    same operations will fail. Whatever they now do with these names, permitted or not, at any
    level of the semantics: they are told the same, the same happens, in the same order, at
    corresponding addresses, the same values result, or the same fault. *)
Theorem C66_runs n (N : list name) h E1 s1 E2 s2 :
  reached E1 s1 -> reached E2 s2 -> same_values C N E1 s1 E2 s2 -> same_luck s1 s2 ->
  (forall c x, c ∈ h -> x ∈ names c -> x ∈ N) ->
  map (told (opos s1)) (run C n eqf ltf h E1 s1).2 = map (told (opos s2)) (run C n eqf ltf h E2 s2).2 /\
  match (run C n eqf ltf h E1 s1).1, (run C n eqf ltf h E2 s2).1 with
  | Done E1' _ s1', Done E2' _ s2' => alike C N E1 s1 E1' s1' E2 s2 E2' s2'
  | Faulted f1, Faulted f2 => f1 = f2
  | _, _ => False
  end.
Proof. exact (runs_alike C st nb eqf ltf HC n N h E1 s1 E2 s2). Qed.

(** A command that one of them may issue, the other may, with the same result. *)
Theorem C66_commands c E1 s1 E2 s2 E1' o1 s1' :
  reached E1 s1 -> reached E2 s2 -> same_values C (names c) E1 s1 E2 s2 -> same_luck s1 s2 ->
  does C st nb eqf ltf c E1 s1 E1' o1 s1' ->
  exists E2' o2 s2', does C st nb eqf ltf c E2 s2 E2' o2 s2' /\ told (opos s1) o1 = told (opos s2) o2 /\
    alike C (names c) E1 s1 E1' s1' E2 s2 E2' s2'.
Proof. exact (step_alike C st nb eqf ltf HC c E1 s1 E2 s2 E1' o1 s1'). Qed.

(** Commands, permitted or not, that do not name a variable leave it alone. *)
Theorem C66_others n (N : list name) h E s E' o s' y : reached E s -> (forall c x, c ∈ h -> x ∈ names c -> x ∈ N) ->
  (run C n eqf ltf h E s).1 = Done E' o s' -> y ∉ N -> kept C E s E' s' y.
Proof. exact (run_keeps C st nb eqf ltf HC n N h E s E' o s' y). Qed.

End props.

(** What a client can see of the values is not enough: a variant that keeps its content in a heap
    backup reads like any other. Two programs hold the same loud object and the same node, as far
    as they can see; the same operation of each will be the first to fail; they issue the same
    permitted assignment; one is told that memory is exhausted, the other that a copy threw. *)
Theorem C66_visible_refuted : exists C E1 s1 E2 s2 c E1' o1 s1' E2' o2 s2',
  good_env C true false /\ reached C true false eq0 lt0 E1 s1 /\ reached C true false eq0 lt0 E2 s2 /\
  same_luck s1 s2 /\
  (forall x, x ∈ names c -> exists α1 α2, stands C E1 s1 x α1 /\ stands C E2 s2 x α2 /\ visible α1 = visible α2) /\
  does C true false eq0 lt0 c E1 s1 E1' o1 s1' /\ does C true false eq0 lt0 c E2 s2 E2' o2 s2' /\
  o1 = OThrew (XUser OpCopy 4 12) /\ o2 = OThrew (XAlloc 8).
Proof.
  exists C0. run_state C0 true false (throws_at [11; 12]) (two_assign VA). run_state C0 true false (throws_at [8]) (two VA).
  exists (CAssign 1 2). exists (next_env C0 true false 8 8 eq0 lt0 (throws_at [11; 12]) (two_assign VA) (CAssign 1 2)), (OThrew (XUser OpCopy 4 12)),
    (next_state C0 true false 8 8 eq0 lt0 (throws_at [11; 12]) (two_assign VA) (CAssign 1 2)).
  exists (next_env C0 true false 8 8 eq0 lt0 (throws_at [8]) (two VA) (CAssign 1 2)), (OThrew (XAlloc 8)),
    (next_state C0 true false 8 8 eq0 lt0 (throws_at [8]) (two VA) (CAssign 1 2)).
  split; [apply C0_good|]. split; [by_run|]. split; [by_run|].
  split.
  { apply (luck_by _ _ [11; 12] [8]); [by vm_compute..|].
    assert (opos (state_of C0 true false 8 8 eq0 lt0 (throws_at [11; 12]) (two_assign VA)) = 12) as -> by by vm_compute.
    assert (opos (state_of C0 true false 8 8 eq0 lt0 (throws_at [8]) (two VA)) = 8) as -> by by vm_compute.
    intros k. rewrite !elem_of_cons !elem_of_nil. lia. }
  split.
  { intros x Hx. cbn [names] in Hx. apply elem_of_cons in Hx as [->|Hx]; [|apply elem_of_list_singleton in Hx as ->].
    - exists (AVar VA (true, 0, loud5)), (AVar VA (false, 0, loud5)). split; [simpl; by_run|]. split; [simpl; by_run|]. done.
    - exists (AVar VA (false, 1, node9)), (AVar VA (false, 1, node9)). split; [simpl; by_run|]. split; [simpl; by_run|]. done. }
  split; [|split; [|done]].
  - assert (H : step C0 true false eq0 lt0 (CAssign 1 2) (env_of C0 true false 8 8 eq0 lt0 (throws_at [11; 12]) (two_assign VA))
      (state_of C0 true false 8 8 eq0 lt0 (throws_at [11; 12]) (two_assign VA))
      (next_env C0 true false 8 8 eq0 lt0 (throws_at [11; 12]) (two_assign VA) (CAssign 1 2)) (OThrew (XUser OpCopy 4 12))
      (next_state C0 true false 8 8 eq0 lt0 (throws_at [11; 12]) (two_assign VA) (CAssign 1 2))) by by_run. apply H.
  - assert (H : step C0 true false eq0 lt0 (CAssign 1 2) (env_of C0 true false 8 8 eq0 lt0 (throws_at [8]) (two VA))
      (state_of C0 true false 8 8 eq0 lt0 (throws_at [8]) (two VA))
      (next_env C0 true false 8 8 eq0 lt0 (throws_at [8]) (two VA) (CAssign 1 2)) (OThrew (XAlloc 8))
      (next_state C0 true false 8 8 eq0 lt0 (throws_at [8]) (two VA) (CAssign 1 2))) by by_run. apply H.
Qed.

(** ** Examples *)
(** Another program with the same variables 1 and 2: it has had other variables, and has some
    still; its objects are at other addresses. *)
Definition roundabout : list cmd :=
  trees ++ [CDrop 3; CMake 40 2 7 []; CFrom 41 VL 40 true; CDrop 40;
   CMake 10 2 7 []; CFrom 11 VL 10 false; CMake 12 4 9 [11]; CFrom 2 VA 12 false; CFrom 1 VA 13 false; CCopy 30 1].
Notation s1 := (state_of C0 true false 8 8 eq0 lt0 (throws_at [11]) (two VA)).
Notation E1 := (env_of C0 true false 8 8 eq0 lt0 (throws_at [11]) (two VA)).
Notation s2 := (state_of C0 true false 8 8 eq0 lt0 (throws_at [29]) roundabout).
Notation E2 := (env_of C0 true false 8 8 eq0 lt0 (throws_at [29]) roundabout).

Example C66_situation : good_env C0 true false /\ reached C0 true false eq0 lt0 E1 s1 /\ reached C0 true false eq0 lt0 E2 s2 /\
  same_values C0 [1; 2; 5] E1 s1 E2 s2 /\ same_luck s1 s2 /\ E1 !! 1 = Some (BVar VA 6%positive) /\ E2 !! 1 = Some (BVar VA 32%positive).
Proof.
  split; [apply C0_good|]. split; [by_run|]. split; [by_run|]. split.
  { apply same_values_by. apply Forall_cons_2; [|apply Forall_cons_2; [|apply Forall_cons_2; [|by apply Forall_nil_2]]].
    - right. exists (AVar VA (false, 0, loud5)). split; simpl; by_run.
    - right. exists (AVar VA (false, 1, node9)). split; simpl; by_run.
    - left. split; by vm_compute. }
  split; [|split; by vm_compute].
  apply (luck_by _ _ [11] [29]); [by vm_compute..|].
  assert (opos s1 = 8) as -> by by vm_compute. assert (opos s2 = 26) as -> by by vm_compute.
  intros k. rewrite !elem_of_cons !elem_of_nil. lia.
Qed.
(** 1 = 2 fails at the same operation and leaves 1 in a backup in both; then 5 is made of it. *)
Example C66_runs_ex :
  (forall c x, c ∈ [CAssign 1 2; CMove 5 1; CRead 5] -> x ∈ names c -> x ∈ [1; 2; 5]) /\
  (run C0 8 eq0 lt0 [CAssign 1 2; CMove 5 1; CRead 5] E1 s1).2 = [OThrew (XUser OpCopy 2 11); ODone; OVal 3 loud5] /\
  (run C0 8 eq0 lt0 [CAssign 1 2; CMove 5 1; CRead 5] E2 s2).2 = [OThrew (XUser OpCopy 2 29); ODone; OVal 3 loud5] /\
  exists E1' o1 s1' E2' o2 s2',
    (run C0 8 eq0 lt0 [CAssign 1 2; CMove 5 1; CRead 5] E1 s1).1 = Done E1' o1 s1' /\
    (run C0 8 eq0 lt0 [CAssign 1 2; CMove 5 1; CRead 5] E2 s2).1 = Done E2' o2 s2' /\
    alike C0 [1; 2; 5] E1 s1 E1' s1' E2 s2 E2' s2'.
Proof.
  assert (Hn : forall c x, c ∈ [CAssign 1 2; CMove 5 1; CRead 5] -> x ∈ names c -> x ∈ [1; 2; 5]).
  { intros c x. rewrite !elem_of_cons elem_of_nil. intros [->|[->|[->|[]]]]; cbn [names]; rewrite ?elem_of_cons ?elem_of_nil; tauto. }
  split; [exact Hn|]. split; [by vm_compute|]. split; [by vm_compute|].
  destruct C66_situation as (Hg&Hr1&Hr2&Hv&Hl&_).
  destruct (C66_runs C0 true false eq0 lt0 Hg 8 _ _ _ _ _ _ Hr1 Hr2 Hv Hl Hn) as [_ H].
  destruct (done_by (run C0 8 eq0 lt0 [CAssign 1 2; CMove 5 1; CRead 5] E1 s1).1) as (E1'&o1&s1'&H1); [by vm_compute|].
  destruct (done_by (run C0 8 eq0 lt0 [CAssign 1 2; CMove 5 1; CRead 5] E2 s2).1) as (E2'&o2&s2'&H2); [by vm_compute|].
  rewrite H1 H2 in H. exists E1', o1, s1', E2', o2, s2'. split; [exact H1|]. split; [exact H2|]. exact H.
Qed.
(** Assignment from the parked variant is not permitted; it goes wrong in the same way. *)
Example C66_faults_ex :
  (run C0 8 eq0 lt0 [CAssign 1 2; CAssign 2 1] E1 s1).1 = Faulted FAssert /\
  (run C0 8 eq0 lt0 [CAssign 1 2; CAssign 2 1] E2 s2).1 = Faulted FAssert.
Proof. split; by vm_compute. Qed.
Example C66_commands_ex : same_values C0 (names (CAssign 1 2)) E1 s1 E2 s2 /\
  does C0 true false eq0 lt0 (CAssign 1 2) E1 s1 (next_env C0 true false 8 8 eq0 lt0 (throws_at [11]) (two VA) (CAssign 1 2))
    (OThrew (XUser OpCopy 2 11)) (next_state C0 true false 8 8 eq0 lt0 (throws_at [11]) (two VA) (CAssign 1 2)).
Proof.
  split.
  - destruct C66_situation as (_&_&_&Hv&_). intros x α Hx. apply Hv. revert Hx. cbn [names].
    rewrite !elem_of_cons !elem_of_nil. tauto.
  - assert (H : step C0 true false eq0 lt0 (CAssign 1 2) E1 s1 (next_env C0 true false 8 8 eq0 lt0 (throws_at [11]) (two VA) (CAssign 1 2))
      (OThrew (XUser OpCopy 2 11)) (next_state C0 true false 8 8 eq0 lt0 (throws_at [11]) (two VA) (CAssign 1 2))) by by_run. apply H.
Qed.
Example C66_others_ex : 30 ∉ [1; 2; 5] /\ stands C0 E2 s2 30 (AVar VA (false, 0, loud5)) /\
  exists E' o s', (run C0 8 eq0 lt0 [CAssign 1 2; CMove 5 1; CDrop 1] E2 s2).1 = Done E' o s'.
Proof.
  split; [apply (bool_decide_unpack _); by vm_compute|]. split; [simpl; by_run|].
  apply done_by. by vm_compute.
Qed.

Definition PropsAlike_all := (C66_runs, C66_commands, C66_others, C66_visible_refuted).
Print Assumptions PropsAlike_all.
