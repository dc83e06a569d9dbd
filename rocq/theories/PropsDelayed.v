(** Delayed visitation (C78). The statements use DelayedSpec.v, Reach.v, Ask.v and the model's functions only; the
    proofs are in DelayedFacts.v. *)
From Coq.ssr Require Import ssreflect.
From stdpp Require Import base gmap list numbers.
From Coq Require Import ZArith Lia.
From Verif Require Import Base Types Variant Sem Values Client Observe Spec History Reach Queries Ask Compile CompileSpec Delayed DelayedSpec.
From Verif Require Import Check Samples Runs Scenes.
From Verif Require DelayedFacts.

(** *** C78: which visitors apply_visitor(visitor) takes: all but non-const rvalues; the function object's visitor is
    const if the argument is. Visitors without [result_type] need C++14. *)
Theorem C78_visitors : forall cxx14 b c k, delay cxx14 b c = Some k <->
  c <> DRVal /\ (b = true \/ cxx14 = true) /\ (k = true <-> c = DCLVal \/ c = DCRVal).
Proof. exact DelayedFacts.delay_iff. Qed.
(** Which calls of the function object compile: any number of variants for a visitor with [result_type], one to
    three for others, none of them a non-const rvalue. *)
Theorem C78_calls : forall cxx14 b k args, args <> [] ->
  delayed_compiles cxx14 b k args = true <-> DRVal ∉ args /\ (b = true \/ cxx14 = true /\ length args <= 3).
Proof. exact DelayedFacts.delayed_iff. Qed.
(** The overload that is called then calls the visitor as const iff the function object's visitor is const. *)
Theorem C78_const : forall cxx14 b k args, delayed_compiles cxx14 b k args = true ->
  exists o, selected cxx14 (delayed_visitor b k) (length args) = Some o /\ (seen_const (v_cat (delayed_visitor b k)) o <-> k = true).
Proof. exact DelayedFacts.delayed_const. Qed.

Section props.
Context (C : cfg) (st nb : bool) (eqf ltf : uid -> uval -> uval -> bool) (HC : good_env C st nb).
Notation reached := (reached C st nb eqf ltf).
Notation does := (does C st nb eqf ltf).
Notation meanwhile := (meanwhile C st nb eqf ltf).
Notation afterwards := (afterwards C st nb eqf ltf).

(** A function object made for the visitor in variable [x]: whatever happens then, as long as [x] is in scope, calling
    it calls that visitor, with the contents that the variants have at the time of the call, in their order; before that
    nothing happens. *)
Theorem C78_later : forall E s x u l k E' s' xs vs, reached E s -> E !! x = Some (BObj u l) -> meanwhile x E s E' s' ->
  Forall2 (fun y (v : list ity * loc) => E' !! y = Some (BVar v.1 v.2)) xs vs ->
  exists args, Forall2 (fun y (g : arg) => content_of C E' s' y g.1.1 g.1.2 /\ g.2 = false) xs args /\
    forall A n (f : bool -> loc -> list arg -> M A), call_delayed C (sem C n) (Delayed l k) f vs s' = f k l args s'.
Proof. exact (DelayedFacts.called_later C st nb eqf ltf HC). Qed.
(** When [x] is gone, it has undefined behaviour, whatever happens then: no later object takes the visitor's place. *)
Theorem C78_after : forall E s x u l E1 s1 E' s' k xs vs, reached E s -> E !! x = Some (BObj u l) ->
  does (CDrop x) E s E1 ODone s1 -> afterwards E1 s1 E' s' ->
  Forall2 (fun y (v : list ity * loc) => E' !! y = Some (BVar v.1 v.2)) xs vs ->
  forall A n (f : bool -> loc -> list arg -> M A), call_delayed C (sem C n) (Delayed l k) f vs s' = Fault FDeadObject.
Proof. exact (DelayedFacts.dropped_dead C st nb eqf ltf HC). Qed.
End props.
(** Likewise for any temporary, after the full-expression. *)
Theorem C78_temporary : forall C S u init s d s' vs args, delay_temporary S u init s = Ok d s' ->
  (forall A (g : list arg -> M A), visit_delayed C S g vs s' = g args s') ->
  forall A (f : bool -> loc -> list arg -> M A), call_delayed C S d f vs s' = Fault FDeadObject.
Proof. exact DelayedFacts.temporary_dead. Qed.

(** ** Samples: object 10, a string, is the visitor; variable 11 is a variant<string, recursive_wrapper<node>>. *)
Definition S8 : usem := sem C0 8.
Definition s_obj : state := state_of C0 true false 8 8 eq0 lt0 calm objects.
Definition e_obj : env := env_of C0 true false 8 8 eq0 lt0 calm objects.
Definition l_str : loc := match e_obj !! 10 with Some (BObj _ l) => l | _ => xH end.
Definition a_var : loc := match e_obj !! 11 with Some (BVar _ a) => a | _ => xH end.
Definition copied (l : loc) : M unit := us_copy S8 2 l l_str.
Definition count (k : bool) (l : loc) (args : list arg) : M nat := ret (length args).

(** Not so: that no temporary is taken, as the comment in the code says (apply_visitor_delayed.hpp:36-38). A const one
    is; calling the function object then has undefined behaviour. In the same full-expression it can be called. *)
Theorem C78_temporary_refuted : exists d, delay true true DCRVal = Some (d_const d) /\ delay true false DCRVal = Some (d_const d) /\
  delayed_compiles true true (d_const d) [DLVal] = true /\
  (exists s', delay_temporary S8 2 copied s_obj = Ok d s' /\ call_delayed C0 S8 d count [(VL, a_var)] s' = Fault FDeadObject) /\
  exists s', delay_and_call C0 S8 2 copied count [(VL, a_var)] s_obj = Ok 1 s'.
Proof.
  eexists (Delayed _ true). do 3 (split; [by vm_compute|]). split; eexists; [split|]; by vm_compute.
Qed.

(** ** Examples *)
Example C78_visitors_ex : delay false true DCLVal = Some true /\ delay true false DLVal = Some false /\ delay true true DRVal = None /\
  delay false false DLVal = None.
Proof. done. Qed.
Example C78_calls_ex : delayed_compiles true true false [DLVal; DCLVal; DCRVal; DLVal] = true /\
  delayed_compiles true false false [DLVal; DCLVal; DCRVal; DLVal] = false /\ delayed_compiles true true false [DLVal; DRVal] = false.
Proof. done. Qed.
(** Between the making and the call, the variant gets another content. *)
Example C78_later_ex : exists E s E' s' l a, reached C0 true false eq0 lt0 E s /\ E !! 10 = Some (BObj 2 l) /\
  meanwhile C0 true false eq0 lt0 10 E s E' s' /\ E' !! 11 = Some (BVar VL a) /\
  sees C0 E s 11 VL (false, 0, str7) /\ sees C0 E' s' 11 VL (false, 1, node9) /\
  call_delayed C0 S8 (Delayed l false) (fun k l args => ret (map (fun g : arg => g.1.1) args)) [(VL, a); (VL, a)] s' = Ok [4; 4] s'.
Proof.
  run_step C0 true false calm objects (CAssignFrom 11 12 false). do 2 eexists. split; [by_run|]. split; [by vm_compute|]. split.
  { assert (H : step C0 true false eq0 lt0 (CAssignFrom 11 12 false) (env_of C0 true false 8 8 eq0 lt0 calm objects) (state_of C0 true false 8 8 eq0 lt0 calm objects)
      (next_env C0 true false 8 8 eq0 lt0 calm objects (CAssignFrom 11 12 false)) ODone (next_state C0 true false 8 8 eq0 lt0 calm objects (CAssignFrom 11 12 false))) by by_run.
    refine (commands_more _ _ _ _ _ _ _ _ _ _ _ _ _ _ (commands_none _ _ _ _ _ _ _ _) (proj2 H) _). done. }
  split; [by vm_compute|]. split; [by_run|]. split; [by_run|]. by vm_compute.
Qed.
(** After the visitor is gone, the variant gets another content. *)
Definition dropped : list cmd := objects ++ [CDrop 10].
Definition change : cmd := CAssignFrom 11 12 false.
Example C78_after_ex : exists E s E1 s1 E' s' l a, reached C0 true false eq0 lt0 E s /\ E !! 10 = Some (BObj 2 l) /\
  does C0 true false eq0 lt0 (CDrop 10) E s E1 ODone s1 /\ afterwards C0 true false eq0 lt0 E1 s1 E' s' /\
  E' !! 11 = Some (BVar VL a) /\ sees C0 E' s' 11 VL (false, 1, node9).
Proof.
  exists e_obj, s_obj. exists (env_of C0 true false 8 8 eq0 lt0 calm dropped), (state_of C0 true false 8 8 eq0 lt0 calm dropped).
  exists (next_env C0 true false 8 8 eq0 lt0 calm dropped change), (next_state C0 true false 8 8 eq0 lt0 calm dropped change), l_str, a_var.
  split; [by_run|]. split; [by vm_compute|]. split.
  { assert (H : step C0 true false eq0 lt0 (CDrop 10) (env_of C0 true false 8 8 eq0 lt0 calm objects) (state_of C0 true false 8 8 eq0 lt0 calm objects)
      (next_env C0 true false 8 8 eq0 lt0 calm objects (CDrop 10)) ODone (next_state C0 true false 8 8 eq0 lt0 calm objects (CDrop 10))) by by_run.
    assert (He : env_of C0 true false 8 8 eq0 lt0 calm dropped = next_env C0 true false 8 8 eq0 lt0 calm objects (CDrop 10)) by by vm_compute.
    assert (Hs : state_of C0 true false 8 8 eq0 lt0 calm dropped = next_state C0 true false 8 8 eq0 lt0 calm objects (CDrop 10)) by by vm_compute.
    rewrite He Hs. exact (proj2 H). }
  split.
  { assert (H : step C0 true false eq0 lt0 change (env_of C0 true false 8 8 eq0 lt0 calm dropped) (state_of C0 true false 8 8 eq0 lt0 calm dropped)
      (next_env C0 true false 8 8 eq0 lt0 calm dropped change) ODone (next_state C0 true false 8 8 eq0 lt0 calm dropped change)) by by_run.
    by refine (commands_more _ _ _ _ _ _ _ _ _ _ _ _ _ _ (commands_none _ _ _ _ _ _ _ _) (proj2 H) _). }
  split; [by vm_compute|by_run].
Qed.
Example C78_temporary_ex : exists d s', delay_temporary S8 2 copied s_obj = Ok d s' /\
  visit_delayed C0 S8 (fun args => ret (map (fun g : arg => g.1.1) args)) [(VL, a_var)] s' = Ok [2] s'.
Proof. do 2 eexists. split; by vm_compute. Qed.

Definition PropsDelayed_all := (C78_visitors, C78_calls, C78_const, C78_later, C78_after, C78_temporary, C78_temporary_refuted).
Print Assumptions PropsDelayed_all.
