(** Where the exceptions of programs come from (C74). The statements use BlameSpec.v; the proofs are in
    Blame.v and BlameFacts.v. *)
From stdpp Require Import base gmap list numbers.
From Coq Require Import ZArith Lia.
From Verif Require Import Base Types Variant Sem Values Client Observe Spec Trace History Reach Places PlacesSpec Programs ProgramsSpec PlacesAlikeSpec MeaningSpec Calls CallsSpec CallsMeaningSpec BlameSpec.
From Verif Require Import Check Samples Runs Scenes Link.
From Verif Require PlacesFacts BlameFacts.
From Verif Require Import PropsPrograms PropsMeaning PropsCalls PropsCallsMeaning.

Section props.
Context (C : cfg) (st : bool) (eqf ltf : uid -> uval -> uval -> bool) (HC : good_env C st true).
Notation rreached := (rreached C st true eqf ltf).
Notation types := (fmap bnd_ty).

(** *** C74: all exceptions in the run of a program, those that it ends by and those that are caught in it,
    are thrown by operations of user types or by operator new that failed in this run, or are
    boost::bad_get. *)
Theorem C74_blamed : forall p (E : env) (K : kenv) s n m,
  compiles C st true (types E) (dom K) p -> rreached E K s ->
  match prun C n m eqf ltf p E K s with
  | PRet _ _ s' => span true s s'
  | PExn e _ _ s' => span true s s' /\ blamed true (orc s) (opos s) (opos s') e
  | _ => True
  end.
Proof. exact (BlameFacts.program_blamed C st eqf ltf HC). Qed.
(** And only programs that use get<U>(x) or references to contents got by it see boost::bad_get; none
    sees boost::bad_visit. *)
Theorem C74_getless : forall p (E : env) (K : kenv) s n m,
  getless p -> compiles C st true (types E) (dom K) p -> rreached E K s ->
  match prun C n m eqf ltf p E K s with
  | PRet _ _ s' => span false s s'
  | PExn e _ _ s' => span false s s' /\ blamed false (orc s) (opos s) (opos s') e
  | _ => True
  end.
Proof. exact (BlameFacts.program_getless C st eqf ltf HC). Qed.
(** So if nothing fails, nothing is thrown. *)
Theorem C74_calm : forall p (E : env) (K : kenv) s n m,
  getless p -> compiles C st true (types E) (dom K) p -> rreached E K s -> calm_from s ->
  match prun C n m eqf ltf p E K s with
  | PRet _ _ s' => calm_from s' /\ thrown s' = thrown s
  | PExn _ _ _ _ => False
  | _ => True
  end.
Proof. exact (BlameFacts.program_calm C st eqf ltf HC). Qed.
(** With recursive functions as well. *)
Theorem C74_functions : forall (Φ : list func) (sigs : list (list vty)) (N : nat), funcs_compile C st true sigs N Φ ->
  Forall (fun F => fgetless (fn_body F)) Φ -> forall p (E : env) (K : kenv) s d n m,
  (forall x, is_Some (E !! x) \/ is_Some (K !! x) \/ fmentions p x -> x < N) -> fgetless p ->
  fcompiles C st true sigs (types E) (dom K) p -> rreached E K s -> calm_from s ->
  match prun C n m eqf ltf (unroll Φ N d p) E K s with
  | PRet _ _ s' => calm_from s' /\ thrown s' = thrown s
  | PExn _ _ _ _ => False
  | _ => True
  end.
Proof. exact (BlameFacts.functions_calm C st eqf ltf HC). Qed.
End props.

(** Together with C73: if nothing fails, mirroring a tree of any depth ends normally, and the variable has
    the mirror image as its value. *)
Theorem C74_mirror : forall C eqf ltf u tys, ut_members (te C u) = [tys; tys] ->
  (forall t, t ∈ tys -> ity_uid t <> u -> ut_members (te C (ity_uid t)) = []) -> forall st, good_env C st true ->
  forall N (E : env) (K : kenv) s x k d m, 32 <= N ->
  (forall y, is_Some (E !! y) \/ is_Some (K !! y) -> y < N) -> rreached C st true eqf ltf E K s -> calm_from s ->
  sees C E s x tys k -> udepth k.2 < d ->
  exists s', proceeds C eqf ltf (unroll [mirror_func u] N d (FCall 0 [x])) m E K s (PRet E K s') /\
    sees C E s' x tys (k.1, mirror_image k.2) /\ calm_from s' /\
    (forall y tys' k', y <> x -> sees C E s y tys' k' -> sees C E s' y tys' k') /\
    (forall y u' v', sees_obj C E s y u' v' -> sees_obj C E s' y u' v').
Proof. exact BlameFacts.mirror_calm. Qed.

(** *** Examples *)
(** The program of C68: with one failure, an exception that is caught, or one that it ends by. *)
Definition thrown_in (r : presult) : list exn := match r with PRet _ _ s | PExn _ _ _ s => thrown s | _ => [] end.
Example C74_example_blamed : good_env C1 true true /\ getless tree_prog /\ compiles C1 true true ∅ ∅ tree_prog /\
  rreached C1 true true eq0 lt0 ∅ ∅ (init (throws_at [7])) /\
  thrown_in (prun C1 12 5 eq0 lt0 tree_prog ∅ ∅ (init (throws_at [7]))) = [XUser OpCopy 3 7] /\
  (exists E K s, prun C1 12 5 eq0 lt0 tree_prog ∅ ∅ (init (throws_at [6])) = PExn (XUser OpCopy 3 6) E K s) /\
  ~ calm_from (init (throws_at [7])) /\ calm_from (init (throws_at [])).
Proof.
  split; [exact C1_good|]. split.
  { unfold tree_prog. cbn [getless]. do 5 (split; [done|]). split; [split|]; [|done..]. intros u. destruct (decide (u = 7)); [|done].
    split; [done|]. intros u'. by destruct (decide (u' = 3)). }
  split; [apply tree_prog_compiles|]. split; [exists (throws_at [7]), []; constructor|]. split; [by vm_compute|].
  split; [do 3 eexists; vm_compute; reflexivity|]. split; [|done].
  intros H. specialize (H 7 ltac:(vm_compute; lia)). by vm_compute in H.
Qed.
(** get<U>(x) for another type than that of the content throws boost::bad_get although nothing fails. *)
Definition get_prog : prog := PLet (RMain (CDefault 20 VT)) (PDo (RMain (CGetRef 20 3))).
Example C74_example_get : compiles C1 true true ∅ ∅ get_prog /\ calm_from (init calm) /\ ~ getless get_prog /\
  thrown_in (prun C1 12 5 eq0 lt0 get_prog ∅ ∅ (init calm)) = [XBadGet].
Proof.
  split; [|split; [done|split; [|by vm_compute]]].
  - cbn. exists 20, (TVar VT).
    assert (Hg : good_tys C1 true true VT) by (apply good_tysb_ok; by vm_compute).
    split. { split; [done|]. split; [done|]. split; [done|]. exists 8. do 3 eexists. split; [reflexivity|]. split; [by vm_compute|done]. }
    split; [done|]. split; [set_solver|]. by exists VT.
  - cbn. intros [_ H]. done.
Qed.
(** The tree of the scenes, with functions. *)
Example C74_example_mirror : exists E s, rreached C1 true true eq0 lt0 E ∅ s /\ calm_from s /\
  (forall x, is_Some (E !! x) \/ is_Some ((∅ : kenv) !! x) \/ fmentions (FCall 0 [3]) x -> x < 50) /\
  funcs_compile C1 true true [[TVar VT]] 50 [mirror] /\ Forall (fun F => fgetless (fn_body F)) [mirror] /\ fgetless (FCall 0 [3]) /\
  fcompiles C1 true true [[TVar VT]] (bnd_ty <$> E) (dom (∅ : kenv)) (FCall 0 [3]) /\
  ut_members (te C1 7) = [VT; VT] /\ mirror_func 7 = mirror /\
  (forall t, t ∈ VT -> ity_uid t <> 7 -> ut_members (te C1 (ity_uid t)) = []) /\
  sees C1 E s 3 VT (false, 2, tree1) /\ udepth tree1 < 4 /\ mirror_image tree1 <> tree1.
Proof.
  assert (H : exists E s, reached C1 true true eq0 lt0 E s /\ (forall x, is_Some (E !! x) -> x < 50) /\ calm_from s /\
    fcompiles C1 true true [[TVar VT]] (bnd_ty <$> E) (dom (∅ : kenv)) (FCall 0 [3]) /\
    sees C1 E s 3 VT (false, 2, tree1)).
  { run_state C1 true true calm trees. split; [by_run|]. split; [|split; [|split; [|by_run]]].
    - intros x Hx. apply elem_of_dom in Hx. revert x Hx. apply (bool_decide_unpack _). by vm_compute.
    - intros i _. by vm_compute.
    - exists [TVar VT]. split; [done|]. split; [apply NoDup_singleton|]. constructor; [by vm_compute|constructor]. }
  destruct H as (E&s&Hr&HN&Hq&Hc&H3). exists E, s. split; [by apply to_rreached|]. split; [done|]. split.
  { intros x [Hx|[Hx|Hx]]; [by apply HN|by destruct Hx|apply elem_of_list_singleton in Hx; lia]. }
  split; [exact mirror_compiles|]. split. { constructor; [|constructor]. intros u. by destruct (decide (u = 7)). }
  split; [done|]. split; [done|]. split; [by vm_compute|]. split; [done|].
  split. { intros t Ht. destruct (VT_cases t Ht) as [->|[->| ->]]; by vm_compute. } split; [done|]. split; [by vm_compute; lia|]. done.
Qed.

Definition PropsBlame_all := (C74_blamed, C74_getless, C74_calm, C74_functions, C74_mirror).
Print Assumptions PropsBlame_all.
