(** What programs do to the values of their variables (C71). The statements use MeaningSpec.v; the
    proofs are in MeaningFacts.v. *)
From stdpp Require Import base gmap list numbers.
From Coq Require Import ZArith Lia.
From Verif Require Import Base Types Variant Sem Values Client Observe Spec Trace History Reach Places PlacesSpec Programs ProgramsSpec PlacesAlikeSpec MeaningSpec.
From Verif Require Import Check Samples Runs Scenes Link.
From Verif Require ObserveFacts PlacesFacts ProgramsFacts MeaningFacts.
From Verif Require Import PropsPrograms.

Section props.
Context (C : cfg) (st : bool) (eqf ltf : uid -> uval -> uval -> bool) (HC : good_env C st true).
Notation rreached := (rreached C st true eqf ltf).
Notation types := (fmap bnd_ty).

(** *** C71: a program does to values what it says. [means] knows variables and their values, and
    that a visitor works on the members of the content; it does not know memory. *)
Theorem C71_meaning : forall p (E : env) (K : kenv) s n m σ κ,
  compiles C st true (types E) (dom K) p -> rreached E K s ->
  shows C (mem s) E σ -> kshows (mem s) K κ ->
  match prun C n m eqf ltf p E K s with
  | PRet E' K' s' => E' = E /\ K' = K /\
      exists σ', shows C (mem s') E σ' /\ kshows (mem s') K κ /\ means C eqf ltf p σ None σ'
  | PExn e E' K' s' => E' = E /\ K' = K /\
      exists σ', shows C (mem s') E σ' /\ kshows (mem s') K κ /\ means C eqf ltf p σ (Some e) σ'
  | _ => True
  end.
Proof. exact (MeaningFacts.runs C st true eqf ltf HC eq_refl). Qed.
(** Variables that a program does not mention keep their values: also references, and the variables
    that contain what they refer to when the visitors end. *)
Theorem C71_keeps : forall p (E : env) (K : kenv) s n m σ E' s' σ' z,
  compiles C st true (types E) (dom K) p -> rreached E K s ->
  shows C (mem s) E σ -> ended (prun C n m eqf ltf p E K s) E' s' -> shows C (mem s') E' σ' ->
  ~ mentions p z -> σ' !! z = σ !! z.
Proof. exact (MeaningFacts.keeps C st true eqf ltf HC eq_refl). Qed.
(** What every round preserves holds at the end of the loop, and then the operands differ. *)
Theorem C71_loops : forall x y p (E : env) (K : kenv) s n m σ E' K' s' σ' (I : astate -> Prop),
  compiles C st true (types E) (dom K) (PWhile x y p) -> rreached E K s ->
  shows C (mem s) E σ -> prun C n m eqf ltf (PWhile x y p) E K s = PRet E' K' s' -> shows C (mem s') E' σ' ->
  I σ -> (forall σ1 σ2, I σ1 -> equal C eqf ltf σ1 x y true -> means C eqf ltf p σ1 None σ2 -> I σ2) ->
  I σ' /\ equal C eqf ltf σ' x y false.
Proof. exact (MeaningFacts.loops C st true eqf ltf HC eq_refl). Qed.
End props.
(** For variants that may need a backup also, if no operand is parked. *)
Theorem C71_unparked : forall C st nb eqf ltf, good_env C st nb -> forall p (E : env) (K : kenv) s n m σ κ,
  compiles C st nb (bnd_ty <$> E) (dom K) p -> rreached C st nb eqf ltf E K s ->
  (forall c E' K' s', issues C n m eqf ltf p E K s c E' K' s' -> rreached C st nb eqf ltf E' K' s' -> sources_unparked C E' s' c) ->
  shows C (mem s) E σ -> kshows (mem s) K κ ->
  match prun C n m eqf ltf p E K s with
  | PRet E' K' s' => E' = E /\ K' = K /\
      exists σ', shows C (mem s') E σ' /\ kshows (mem s') K κ /\ means C eqf ltf p σ None σ'
  | PExn e E' K' s' => E' = E /\ K' = K /\
      exists σ', shows C (mem s') E σ' /\ kshows (mem s') K κ /\ means C eqf ltf p σ (Some e) σ'
  | _ => True
  end.
Proof. exact MeaningFacts.runs_parked. Qed.

(** *** Swapping by moves: { T t(move(x)); x = move(y); y = move(t); } swaps the values, whatever they
    are, if nothing throws. *)
Definition move_swap (x y t : name) : prog :=
  PLet (RMain (CMove t x)) (PSeq (PDo (RMain (CMoveAssign x y))) (PDo (RMain (CMoveAssign y t)))).
Theorem C71_move_swap : forall C st eqf ltf, good_env C st true -> forall (E : env) (K : kenv) s n m x y t tys k1 k2 E' K' s',
  rreached C st true eqf ltf E K s -> NoDup [x; y; t] -> E !! t = None -> K !! t = None ->
  sees C E s x tys k1 -> sees C E s y tys k2 ->
  prun C n m eqf ltf (move_swap x y t) E K s = PRet E' K' s' ->
  sees C E' s' x tys k2 /\ sees C E' s' y tys k1.
Proof. exact MeaningFacts.move_swap_ok. Qed.

(** *** Examples *)
Lemma to_rreached C st nb eqf ltf E s : reached C st nb eqf ltf E s -> rreached C st nb eqf ltf E ∅ s.
Proof. intros (orc&h&Hh). exists orc, (RMain <$> h). by apply PlacesFacts.main_history. Qed.
Lemma after_ret r : match r with PRet _ _ _ => true | _ => false end = true -> exists K, r = PRet (after r).1 K (after r).2.
Proof. destruct r; try done. intros _. eexists. reflexivity. Qed.
Lemma seen C E s x tys k σ : sees C E s x tys k -> shows C (mem s) E σ -> is_var σ x tys k.
Proof.
  intros (a&Ha&Hk) Hs. specialize (Hs x). unfold is_var. rewrite Ha in Hs. destruct (σ !! x) as [[tys' k'|]|]; try done.
  destruct Hs as [-> Hk']. do 2 f_equal. by eapply ObserveFacts.var_holds_unique.
Qed.

(** A visitor that makes the second member of a tree like the first. *)
Example C71_example_visit : exists E s σ κ E' K' s', rreached C1 true true eq0 lt0 E ∅ s /\
  compiles C1 true true (bnd_ty <$> E) (dom (∅ : kenv)) member_prog /\
  shows C1 (mem s) E σ /\ kshows (mem s) (∅ : kenv) κ /\ is_var σ 3 VT (false, 2, tree1) /\
  prun C1 8 0 eq0 lt0 member_prog E ∅ s = PRet E' K' s' /\
  sees C1 E' s' 3 VT (false, 2, UV (Some 1%Z) [(false, 2, tree2); (false, 2, tree2)]) /\
  ~ mentions member_prog 23 /\ is_var σ 23 VT (false, 2, tree2).
Proof.
  assert (H : exists E s, reached C1 true true eq0 lt0 E s /\ compiles C1 true true (bnd_ty <$> E) (dom (∅ : kenv)) member_prog /\
    sees C1 E s 3 VT (false, 2, tree1) /\ sees C1 E s 23 VT (false, 2, tree2) /\
    exists E' K' s', prun C1 8 0 eq0 lt0 member_prog E ∅ s = PRet E' K' s' /\
      sees C1 E' s' 3 VT (false, 2, UV (Some 1%Z) [(false, 2, tree2); (false, 2, tree2)])).
  { run_state C1 true true calm trees. split; [by_run|]. split; [|split; [by_run|split; [by_run|]]].
    - exists VT. split; [by vm_compute|]. intros t Ht. destruct (VT_cases t Ht) as [->|[->| ->]].
      + split; [constructor|]. split; [done|]. split; [by inversion 1|done].
      + split; [constructor|]. split; [done|]. split; [by inversion 1|done].
      + split; [apply (bool_decide_unpack _); by vm_compute|]. split; [done|]. split.
        { intros r Hr'. change (r ∈ [30; 31]) in Hr'. rewrite !elem_of_cons, elem_of_nil in Hr'.
          destruct Hr' as [->|[->|[]]]; (split; [by vm_compute|apply (bool_decide_unpack _); by vm_compute]). }
        exists VT. split; by vm_compute.
    - match goal with |- exists E1 K1 s1, ?r = _ /\ _ => destruct (after_ret r) as (KK&Hr) end; [by vm_compute|].
      eexists. exists KK. eexists. split; [exact Hr|]. clear Hr. by_run. }
  destruct H as (E&s&Hr&Hc&H3&H23&E'&K'&s'&Hrun&H3'). apply to_rreached in Hr.
  destruct (ProgramsFacts.looks C1 true true eq0 lt0 C1_good _ _ _ Hr) as (σ&κ&Hs&Hk&_).
  exists E, s, σ, κ, E', K', s'. split; [done|]. split; [done|]. split; [done|]. split; [done|]. split; [by eapply seen|]. split; [done|].
  split; [done|]. split; [|by eapply seen].
  intros [H|(u&[H|H])]; [done|..].
  - destruct (decide (u = 7)); [|by inversion H]. rewrite !elem_of_cons, elem_of_nil in H. by destruct H as [|[|]].
  - destruct (decide (u = 7)); simpl in H; [|done]. rewrite !elem_of_cons, elem_of_nil in H. by destruct H as [|[|]].
Qed.

(** while (21 == 4) 21 = 20; where 21 and 4 are equal at first. Preserved: the value of 4. *)
Definition drain : prog := PWhile 21 4 (PDo (RMain (CAssign 21 20))).
Example C71_example_loops : exists E s σ E' K' s' σ' I, rreached C1 true true eq0 lt0 E ∅ s /\
  compiles C1 true true (bnd_ty <$> E) (dom (∅ : kenv)) drain /\
  shows C1 (mem s) E σ /\ prun C1 8 2 eq0 lt0 drain E ∅ s = PRet E' K' s' /\ shows C1 (mem s') E' σ' /\
  equal C1 eq0 lt0 σ 21 4 true /\ I σ /\
  (forall σ1 σ2, I σ1 -> equal C1 eq0 lt0 σ1 21 4 true -> means C1 eq0 lt0 (PDo (RMain (CAssign 21 20))) σ1 None σ2 -> I σ2) /\
  ~ I ∅.
Proof.
  assert (H : exists E s, reached C1 true true eq0 lt0 E s /\ compiles C1 true true (bnd_ty <$> E) (dom (∅ : kenv)) drain /\
    sees C1 E s 4 VT (false, 1, loud5) /\ sees C1 E s 21 VT (false, 1, loud5) /\
    exists E' K' s', prun C1 8 2 eq0 lt0 drain E ∅ s = PRet E' K' s').
  { run_state C1 true true calm (trees ++ [CCopy 4 21]). split; [by_run|]. split; [|split; [by_run|split; [by_run|]]].
    - split; exists VT; split; by vm_compute.
    - match goal with |- exists E1 K1 s1, ?r = _ => destruct (after_ret r) as (KK&Hr) end; [by vm_compute|]. eexists. exists KK. eexists. exact Hr. }
  destruct H as (E&s&Hr&Hc&H4&H21&E'&K'&s'&Hrun). apply to_rreached in Hr.
  destruct (ProgramsFacts.looks C1 true true eq0 lt0 C1_good _ _ _ Hr) as (σ&κ&Hs&Hk&_).
  pose proof (C71_meaning C1 true eq0 lt0 C1_good _ _ _ _ 8 2 _ _ Hc Hr Hs Hk) as Hm. rewrite Hrun in Hm.
  destruct Hm as (->&->&σ'&Hs'&_).
  exists E, s, σ, E, ∅, s', σ', (fun σ => is_var σ 4 VT (false, 1, loud5)). split; [done|]. split; [done|]. split; [done|]. split; [done|].
  split; [done|]. split; [|split; [by eapply seen|split; [|done]]].
  - eapply s_eq; [by eapply seen|by eapply seen|done|]. split; [|done]. intros _. split; [done|]. by vm_compute.
  - intros σ1 σ2 H1 _ H2. unfold is_var in *. erewrite MeaningFacts.means_other; [exact H1|apply C1_good|exact H2|].
    simpl. intros H. rewrite !elem_of_cons, elem_of_nil in H. by destruct H as [|[|]].
Qed.

(** The assignment that is tried again (C68): 1 is parked when the handler runs. *)
Example C71_example_unparked : exists E s σ κ, good_env C0 true false /\ rreached C0 true false eq0 lt0 E ∅ s /\
  compiles C0 true false (bnd_ty <$> E) (dom (∅ : kenv)) again_prog /\
  (forall c E' K' s', issues C0 12 0 eq0 lt0 again_prog E ∅ s c E' K' s' -> rreached C0 true false eq0 lt0 E' K' s' -> sources_unparked C0 E' s' c) /\
  shows C0 (mem s) E σ /\ kshows (mem s) (∅ : kenv) κ.
Proof.
  destruct C68_only_parked_example as (E&s&tys&k&Hr&Hc&Hi&_). destruct (ProgramsFacts.looks C0 true false eq0 lt0 C0_good _ _ _ Hr) as (σ&κ&Hs&Hk&_).
  exists E, s, σ, κ. split; [apply C0_good|]. split; [done|]. split; [done|]. split; [apply Hi|]. done.
Qed.

(** A tree and loud 5 are swapped by moves. *)
Example C71_example_move_swap : exists E s E' K' s', rreached C1 true true eq0 lt0 E ∅ s /\ NoDup [3; 21; 40] /\
  E !! 40 = None /\ sees C1 E s 3 VT (false, 2, tree1) /\ sees C1 E s 21 VT (false, 1, loud5) /\
  prun C1 8 0 eq0 lt0 (move_swap 3 21 40) E ∅ s = PRet E' K' s'.
Proof.
  assert (H : exists E s, reached C1 true true eq0 lt0 E s /\ E !! 40 = None /\
    sees C1 E s 3 VT (false, 2, tree1) /\ sees C1 E s 21 VT (false, 1, loud5) /\
    exists E' K' s', prun C1 8 0 eq0 lt0 (move_swap 3 21 40) E ∅ s = PRet E' K' s').
  { run_state C1 true true calm trees. split; [by_run|]. split; [by vm_compute|]. split; [by_run|]. split; [by_run|].
    match goal with |- exists E1 K1 s1, ?r = _ => destruct (after_ret r) as (KK&Hr) end; [by vm_compute|]. eexists. exists KK. eexists. exact Hr. }
  destruct H as (E&s&Hr&HE&H3&H21&E'&K'&s'&Hrun). exists E, s, E', K', s'. split; [by apply to_rreached|].
  split; [apply (bool_decide_unpack _); by vm_compute|]. done.
Qed.

Definition PropsMeaning_all := (C71_meaning, C71_keeps, C71_loops, C71_unparked, C71_move_swap).
Print Assumptions PropsMeaning_all.
