(** Functions that call themselves and each other (C72). The statements use CallsSpec.v; the proofs are
    in CallsFacts.v. *)
From stdpp Require Import base gmap list numbers.
From Coq Require Import ZArith Lia.
From Verif Require Import Base Types Variant Sem Values Client Observe Spec Trace History Reach Places PlacesSpec Programs ProgramsSpec PlacesAlikeSpec MeaningSpec Calls CallsSpec.
From Verif Require Import Check Samples Runs Scenes Link.
From Verif Require ObserveFacts PlacesFacts ProgramsFacts MeaningFacts CallsFacts.
From Verif Require Import PropsPrograms PropsMeaning.

Section props.
Context (C : cfg) (st : bool) (eqf ltf : uid -> uval -> uval -> bool) (HC : good_env C st true).
Context (Φ : list func) (sigs : list (list vty)) (N : nat) (HΦ : funcs_compile C st true sigs N Φ).
Notation rreached := (rreached C st true eqf ltf).
Notation types := (fmap bnd_ty).

(** *** C72: programs with recursive functions that compile, each function by itself, do not go wrong.
    Whatever throws, and however many nested calls of functions [d] there may be. *)
Theorem C72_sound : forall p (E : env) (K : kenv) s d m,
  (forall x, is_Some (E !! x) \/ is_Some (K !! x) \/ fmentions p x -> x < N) ->
  fcompiles C st true sigs (types E) (dom K) p -> rreached E K s ->
  exists r, proceeds C eqf ltf (unroll Φ N d p) m E K s r /\
    match r with
    | PRet E' K' s' | PExn _ E' K' s' => E' = E /\ K' = K /\ rreached E K s'
    | PMore => True
    | PWrong _ => False
    end.
Proof. exact (CallsFacts.program_sound C st eqf ltf HC Φ sigs N HΦ). Qed.
(** A program that ends with fewer nested calls ends in the same way if given more. *)
Theorem C72_depth : forall n m d d' p E K s,
  d <= d' -> prun C n m eqf ltf (unroll Φ N d p) E K s <> PMore ->
  prun C n m eqf ltf (unroll Φ N d' p) E K s = prun C n m eqf ltf (unroll Φ N d p) E K s.
Proof. exact (CallsFacts.unroll_grow C eqf ltf Φ N). Qed.
(** Structural recursion: if every function calls others only for members of the content of its first
    argument, or for members of these, then a program that calls them terminates, whatever the values
    are, whatever else the functions do to them, and whatever throws. *)
Theorem C72_terminates : Forall structural_func Φ -> forall p (E : env) (K : kenv) s,
  (forall x, is_Some (E !! x) \/ is_Some (K !! x) \/ fmentions p x -> x < N) ->
  fcompiles C st true sigs (types E) (dom K) p -> loopless p -> rreached E K s ->
  exists d0 n0 s', rreached E K s' /\
    ((forall d n m, d0 <= d -> n0 <= n -> prun C n m eqf ltf (unroll Φ N d p) E K s = PRet E K s') \/
     exists e, forall d n m, d0 <= d -> n0 <= n -> prun C n m eqf ltf (unroll Φ N d p) E K s = PExn e E K s').
Proof. intros HS. exact (CallsFacts.program_ends C st eqf ltf HC Φ sigs N HΦ HS). Qed.
(** One call: more nested calls than variants are nested in the first argument are not needed. *)
Theorem C72_bound : Forall structural_func Φ -> forall f x xs (E : env) (K : kenv) s tys k d n m,
  (forall z, is_Some (E !! z) \/ is_Some (K !! z) \/ z ∈ x :: xs -> z < N) ->
  fcompiles C st true sigs (types E) (dom K) (FCall f (x :: xs)) -> rreached E K s ->
  sees C E s x tys k -> udepth k.2 < d ->
  prun C n m eqf ltf (unroll Φ N d (FCall f (x :: xs))) E K s <> PMore.
Proof. intros HS. exact (CallsFacts.call_ends C st eqf ltf HC Φ sigs N HΦ HS). Qed.
(** When a whole program has ended, nothing is left. *)
Theorem C72_nothing_left : forall p orc d n m,
  (forall x, fmentions p x -> x < N) -> fcompiles C st true sigs ∅ ∅ p ->
  match prun C n m eqf ltf (unroll Φ N d p) ∅ ∅ (init orc) with
  | PRet E' K' s' | PExn _ E' K' s' => mem s' = ∅ /\ forall l,
      (forall k, cnt (EvC k l) (tr s') = cnt (EvD k l) (tr s')) /\ block l (tr s') <> Some BLive
  | _ => True
  end.
Proof. exact (CallsFacts.program_clean C st eqf ltf HC Φ sigs N HΦ). Qed.
End props.

(** *** Examples *)
(** void mirror(T& x): in a tree, mirrors both members and swaps them; anything else stays as it is. *)
Definition mirror : func := Func [1]
  (FVisit 1 (fun u => if decide (u = 7) then [30; 31] else []) (fun u => if decide (u = 7) then
     FSeq (FCall 0 [30]) (FSeq (FCall 0 [31]) (FDo (RMain (CSwap 30 31)))) else FSkip)).
Lemma in_pair (r a b : name) : r ∈ [a; b] -> r = a \/ r = b.
Proof. rewrite !elem_of_cons, elem_of_nil. tauto. Qed.
Lemma mirror_mentions x : fmentions (fn_body mirror) x -> x = 1 \/ x = 30 \/ x = 31.
Proof.
  simpl. intros [->|(u&H)]; [by left|]. destruct (decide (u = 7)).
  - destruct H as [H|[H|[H|H]]]; [apply in_pair in H; tauto|apply elem_of_list_singleton in H; tauto|apply elem_of_list_singleton in H; tauto|apply in_pair in H; tauto].
  - by destruct H as [H|H]; [inversion H|].
Qed.
Lemma mirror_compiles : funcs_compile C1 true true [[TVar VT]] 50 [mirror].
Proof.
  constructor; [|constructor]. split; [apply (bool_decide_unpack _); by vm_compute|]. split; [done|]. split.
  { intros x [H|H]; [apply elem_of_list_singleton in H; lia|]. apply mirror_mentions in H. lia. }
  exists VT. split; [by vm_compute|]. intros t Ht. destruct (VT_cases t Ht) as [->|[->| ->]].
  - split; [constructor|]. split; [done|]. split; [by inversion 1|done].
  - split; [constructor|]. split; [done|]. split; [by inversion 1|done].
  - split; [apply (bool_decide_unpack _); by vm_compute|]. split; [done|]. split.
    { intros r Hr. apply in_pair in Hr as [->| ->]; (split; [by vm_compute|apply (bool_decide_unpack _); by vm_compute]). }
    split; [|split].
    + exists [TVar VT]. split; [done|]. split; [apply NoDup_singleton|]. constructor; [by vm_compute|constructor].
    + exists [TVar VT]. split; [done|]. split; [apply NoDup_singleton|]. constructor; [by vm_compute|constructor].
    + exists VT. split; by vm_compute.
Qed.
Lemma mirror_structural : Forall structural_func [mirror].
Proof.
  constructor; [|constructor]. intros u. cbv zeta. destruct (decide (u = 7)) as [->|]; [|done].
  rewrite decide_True by set_solver. split.
  - exists 30, []. split; [done|]. set_solver.
  - exists {[30]}. split; [intros x H; apply elem_of_list_singleton in H; set_solver|]. split.
    + exists 31, []. split; [done|]. set_solver.
    + exists {[31]}. split; [|done]. intros x H; apply elem_of_list_singleton in H; set_solver.
Qed.
(** The tree of the scenes is mirrored, at both levels, with three nested calls. *)
Definition mirrored : uval :=
  UV (Some 1%Z) [(false, 0, UV (Some 1%Z) []); (false, 2, UV (Some 2%Z) [(false, 0, UV (Some 1%Z) []); (false, 1, loud5)])].
Example C72_example_mirror : exists E s E' K' s', rreached C1 true true eq0 lt0 E ∅ s /\
  (forall x, is_Some (E !! x) \/ is_Some ((∅ : kenv) !! x) \/ fmentions (FCall 0 [3]) x -> x < 50) /\
  fcompiles C1 true true [[TVar VT]] (bnd_ty <$> E) (dom (∅ : kenv)) (FCall 0 [3]) /\ loopless (FCall 0 [3]) /\
  sees C1 E s 3 VT (false, 2, tree1) /\ udepth tree1 < 4 /\
  prun C1 8 0 eq0 lt0 (unroll [mirror] 50 4 (FCall 0 [3])) E ∅ s = PRet E' K' s' /\
  sees C1 E' s' 3 VT (false, 2, mirrored) /\
  prun C1 8 0 eq0 lt0 (unroll [mirror] 50 2 (FCall 0 [3])) E ∅ s = PMore.
Proof.
  assert (H : exists E s, reached C1 true true eq0 lt0 E s /\ (forall x, is_Some (E !! x) -> x < 50) /\
    fcompiles C1 true true [[TVar VT]] (bnd_ty <$> E) (dom (∅ : kenv)) (FCall 0 [3]) /\
    sees C1 E s 3 VT (false, 2, tree1) /\
    prun C1 8 0 eq0 lt0 (unroll [mirror] 50 2 (FCall 0 [3])) E ∅ s = PMore /\
    exists E' K' s', prun C1 8 0 eq0 lt0 (unroll [mirror] 50 4 (FCall 0 [3])) E ∅ s = PRet E' K' s' /\
      sees C1 E' s' 3 VT (false, 2, mirrored)).
  { run_state C1 true true calm trees. split; [by_run|]. split; [|split; [|split; [by_run|split; [by vm_compute|]]]].
    - intros x Hx. apply elem_of_dom in Hx. revert x Hx. apply (bool_decide_unpack _). by vm_compute.
    - exists [TVar VT]. split; [done|]. split; [apply NoDup_singleton|]. constructor; [by vm_compute|constructor].
    - match goal with |- exists E1 K1 s1, ?r = _ /\ _ => destruct (after_ret r) as (KK&Hr) end; [by vm_compute|].
      eexists. exists KK. eexists. split; [exact Hr|]. clear Hr. by_run. }
  destruct H as (E&s&Hr&HN&Hc&H3&H2&E'&K'&s'&Hrun&H3'). exists E, s, E', K', s'. split; [by apply to_rreached|]. split.
  { intros x [Hx|[Hx|Hx]]; [by apply HN|by destruct Hx|apply elem_of_list_singleton in Hx; lia]. }
  split; [done|]. split; [done|]. split; [done|]. split; [by vm_compute; lia|]. done.
Qed.
(** A whole program; when the move in the swap throws, in the recursion, nothing is left either. *)
Definition mirror_prog : fprog :=
  FLet (RMain (CMake 13 3 5 [])) (FLet (RMain (CDefault 20 VT)) (FLet (RMain (CFrom 21 VT 13 false))
  (FLet (RMain (CMake 22 7 2 [21; 20])) (FLet (RMain (CFrom 23 VT 22 false)) (FCall 0 [23]))))).
Example C72_example_whole : (forall x, fmentions mirror_prog x -> x < 50) /\ fcompiles C1 true true [[TVar VT]] ∅ ∅ mirror_prog /\
  loopless mirror_prog /\
  ends (prun C1 8 0 eq0 lt0 (unroll [mirror] 50 3 mirror_prog) ∅ ∅ (init calm)) = Some (None, true, 0) /\
  (exists i e, ends (prun C1 8 0 eq0 lt0 (unroll [mirror] 50 3 mirror_prog) ∅ ∅ (init (throws_at [i]))) = Some (Some e, true, 1)).
Proof.
  split; [|split; [|split; [done|split; [by vm_compute|]]]].
  - intros x H. simpl in H. rewrite ?elem_of_cons, ?elem_of_nil in H. lia.
  - assert (Hm3 : best_match C1 VT 3 1) by (apply best_match_resolve; by vm_compute).
    assert (Hm7 : best_match C1 VT 7 2) by (apply best_match_resolve; by vm_compute).
    assert (Hg : good_tys C1 true true VT) by (apply good_tysb_ok; by vm_compute).
    unfold mirror_prog. cbn [fcompiles].
    exists 13, (TObj 3). split; [by repeat constructor|]. split; [done|]. split; [set_solver|].
    exists 20, (TVar VT). split. { split; [done|]. split; [done|]. split; [done|]. exists 8. do 3 eexists. split; [reflexivity|]. split; [by vm_compute|done]. }
    split; [done|]. split; [set_solver|].
    exists 21, (TVar VT). split. { split; [done|]. split; [done|]. split; [done|]. by exists 3, 1. } split; [done|]. split; [set_solver|].
    exists 22, (TObj 7). split. { split; [done|]. split; [done|]. by repeat constructor. } split; [done|]. split; [set_solver|].
    exists 23, (TVar VT). split. { split; [done|]. split; [done|]. split; [done|]. by exists 7, 2. } split; [done|]. split; [set_solver|].
    exists [TVar VT]. split; [done|]. split; [apply NoDup_singleton|]. constructor; [done|constructor].
  - exists 8. eexists. by vm_compute.
Qed.

(** Recursion that is not structural need not end: void f(T& x) { f(x); } compiles. *)
Definition endless : func := Func [1] (FCall 0 [1]).
Theorem C72_endless_refuted : exists E s,
  rreached C1 true true eq0 lt0 E ∅ s /\ funcs_compile C1 true true [[TVar VT]] 50 [endless] /\
  fcompiles C1 true true [[TVar VT]] (bnd_ty <$> E) (dom (∅ : kenv)) (FCall 0 [3]) /\ loopless (FCall 0 [3]) /\
  forall d n m, prun C1 n m eq0 lt0 (unroll [endless] 50 d (FCall 0 [3])) E ∅ s = PMore.
Proof.
  assert (H : exists E s, reached C1 true true eq0 lt0 E s /\ (bnd_ty <$> E : ctx) !! 3 = Some (TVar VT)).
  { run_state C1 true true calm trees. split; [by_run|by vm_compute]. }
  destruct H as (E&s&Hr&H3). exists E, s. split; [by apply to_rreached|]. split; [|split; [|split; [done|]]].
  - constructor; [|constructor]. split; [apply (bool_decide_unpack _); by vm_compute|]. split; [done|]. split.
    { intros x [H|H]; apply elem_of_list_singleton in H; lia. }
    exists [TVar VT]. split; [done|]. split; [apply NoDup_singleton|]. constructor; [by vm_compute|constructor].
  - exists [TVar VT]. split; [done|]. split; [apply NoDup_singleton|]. by constructor.
  - assert (Hd : forall d lev xs, call [endless] 50 d lev 0 xs = PHang).
    { induction d as [|d IH]; intros lev xs; [done|]. cbn [call]. simpl lookup. apply IH. }
    intros d n m. unfold unroll. simpl expand. by rewrite Hd.
Qed.

Definition PropsCalls_all := (C72_sound, C72_depth, C72_terminates, C72_bound, C72_nothing_left, C72_endless_refuted).
Print Assumptions PropsCalls_all.
