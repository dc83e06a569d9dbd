(** Visitation of any number of variants, lvalues or rvalues (C26). The statement uses Reach.v,
    Owned.v and VisitSpec.v and the model's functions only; the proofs are in VisitFacts.v. *)
From stdpp Require Import base gmap list numbers.
From Coq Require Import ZArith Lia.
From Verif Require Import Base Types Variant Sem Values Client Observe Spec History Reach Queries Ask VisitSpec.
From Verif Require Import Check Samples Runs Scenes Lax.
From Verif Require QueryFacts VisitFacts.

(** The variables [xs] are visited in any reachable state, those marked [true] as rvalues. Either
    moving an rvalue's content throws before the visitor is called, or the visitor is called
    once, with what it should get for each variable, in order. Its result or exception is that
    of the visitation. Either way no object is left behind, variables passed as lvalues and all
    others are as before, and those passed as rvalues have their alternative still. (The visitor
    is one that does not change memory.) *)
Theorem C26_many : forall (C : cfg) st nb eqf ltf E s xs vs,
  good_env C st nb -> reached C st nb eqf ltf E s -> rvalues_once xs -> Forall2 (visited E) xs vs ->
  exists n0, forall n, n0 <= n ->
    (exists e s', (forall A (f : list arg -> M A), visit_many C (sem C n) f vs s = Exn e s') /\
       after_visit C E s s' xs /\ Exists (fun x => x.2 = true /\ move_may_throw C E s x.1) xs) \/
    (exists args s1, Forall2 (passes C E s s1) xs args /\
       forall A (f : list arg -> M A),
         match f args s1 with
         | Ok a s2 => same_memory s1 s2 -> exists s3, visit_many C (sem C n) f vs s = Ok a s3 /\ after_visit C E s s3 xs
         | Exn e s2 => same_memory s1 s2 -> exists s3, visit_many C (sem C n) f vs s = Exn e s3 /\ after_visit C E s s3 xs
         | Fault x => visit_many C (sem C n) f vs s = Fault x
         end).
Proof. exact (fun C st nb eqf ltf E s xs vs HC => VisitFacts.visit_every C st nb eqf ltf HC E s xs vs). Qed.

(** ** Examples *)

(** 1 holds loud 5, 2 node 9, 3 a copy of 2; visited as lvalue, rvalue, rvalue, lvalue. *)
Definition visitees : list (name * bool) := [(1, false); (2, true); (3, true); (1, false)].
Lemma visitees_once : rvalues_once visitees.
Proof. intros [|[|[|[|i]]]] [|[|[|[|j]]]] x b Hi Hj; simplify_eq/=; done. Qed.
Definition visitee (E : env) (x : name * bool) : visitable :=
  match E !! x.1 with Some (BVar tys a) => (tys, a, x.2) | _ => ([], xH, x.2) end.
Definition shape (args : list arg) : list (uid * bool) := map (fun g : arg => (g.1.1, g.2)) args.

(** The visitor gets a loud, two nodes and a loud; it returns, or throws. *)
Example C26_many_ex : exists (C : cfg) E s vs, good_env C true false /\ reached C true false eq0 lt0 E s /\
  rvalues_once visitees /\ Forall2 (visited E) visitees vs /\
  (exists s', visit_many C (sem C 8) (fun args => ret (shape args)) vs s = Ok [(3, false); (4, true); (4, true); (3, false)] s' /\
     sees C E s 2 VA (false, 1, node9) /\ sees C E s' 2 VA (false, 1, UV (Some 0%Z) [(false, 0, UV (Some 0%Z) [])])) /\
  (exists s', visit_many C (sem C 8) (fun args => @throw unit XBadVisit) vs s = Exn XBadVisit s').
Proof.
  exists C0. run_state C0 true false calm (two VA ++ [CCopy 3 2]).
  exists (map (visitee (env_of C0 true false 8 8 eq0 lt0 calm (two VA ++ [CCopy 3 2]))) visitees).
  split; [apply C0_good|]. split; [by_run|]. split; [apply visitees_once|].
  split. { unfold visitees. cbn [map]. do 4 (constructor; [split; vm_compute; reflexivity|]). constructor. }
  split.
  - eexists. split; [vm_compute; reflexivity|]. split; [by_run|]. apply (look_sees _ 8). vm_compute. reflexivity.
  - eexists. vm_compute. reflexivity.
Qed.

Definition PropsVisit_all := (C26_many).
Print Assumptions PropsVisit_all.
