(** C70: what a program with blocks, handlers, loops and visitors does depends on the values of the
    variables it names, and on nothing else in memory. *)
From Coq.ssr Require Import ssreflect.
From stdpp Require Import base gmap list numbers.
From Coq Require Import ZArith Lia.
From Verif Require Import Base Types Variant Sem Values Client Observe Spec History Reach CostSpec.
From Verif Require Import Check Samples Scenes Runs Link AlikeSpec Places PlacesSpec Programs ProgramsSpec PlacesAlikeSpec.
From Verif Require Import AlikeFacts AlikePlacesFacts.
From Verif Require PlacesFacts ProgramsFacts PropsPrograms.

Section props.
Context (C : cfg) (st nb : bool) (eqf ltf : uid -> uval -> uval -> bool).
Context (HC : good_env C st nb).
Notation rreached := (rreached C st nb eqf ltf).

(** Two programs have come to states in which the names [N] stand for the same values, and the same
    operations will fail. If they continue in the same way, with any program that names no others,
    whether it compiles or not: both end normally, or by the same exception, or with the same fault,
    or are still in a loop; the same has happened, in the same order, at corresponding addresses; the
    same values result. *)
Theorem C70_programs n m N p E1 s1 E2 s2 :
  rreached E1 ∅ s1 -> rreached E2 ∅ s2 -> same_values C N E1 s1 E2 s2 -> same_luck s1 s2 ->
  (forall x, mentions p x -> x ∈ N) ->
  ends_alike C N E1 s1 E2 s2 (prun C n m eqf ltf p E1 ∅ s1) (prun C n m eqf ltf p E2 ∅ s2).
Proof. exact (programs_alike C st nb eqf ltf HC n m N p E1 s1 E2 s2). Qed.
(** The same of complete runs. *)
Theorem C70_proceeds m N p E1 s1 E2 s2 r1 :
  rreached E1 ∅ s1 -> rreached E2 ∅ s2 -> same_values C N E1 s1 E2 s2 -> same_luck s1 s2 ->
  (forall x, mentions p x -> x ∈ N) -> r1 <> PWrong FFuel ->
  proceeds C eqf ltf p m E1 ∅ s1 r1 -> exists r2, proceeds C eqf ltf p m E2 ∅ s2 r2 /\ ends_alike C N E1 s1 E2 s2 r1 r2.
Proof. exact (proceeds_alike C st nb eqf ltf HC m N p E1 s1 E2 s2 r1). Qed.
(** On the way both issue the same commands, and each is told the same. *)
Theorem C70_commands n m N p E1 s1 E2 s2 c E1' K1' s1' :
  rreached E1 ∅ s1 -> rreached E2 ∅ s2 -> same_values C N E1 s1 E2 s2 -> same_luck s1 s2 ->
  (forall x, mentions p x -> x ∈ N) -> issues C n m eqf ltf p E1 ∅ s1 c E1' K1' s1' ->
  exists E2' K2' s2', issues C n m eqf ltf p E2 ∅ s2 c E2' K2' s2' /\ same_open K1' K2' /\
    alike C N E1 s1 E1' s1' E2 s2 E2' s2' /\
    told_alike C N E1 s1 E2 s2 (rexec C n eqf ltf c E1' K1' s1') (rexec C n eqf ltf c E2' K2' s2').
Proof. exact (issues_alike C st nb eqf ltf HC n m N p E1 s1 E2 s2 c E1' K1' s1'). Qed.
(** Variables that it does not name, a program leaves alone. *)
Theorem C70_others n m (N : list name) p E s E' s' y : rreached E ∅ s -> (forall x, mentions p x -> x ∈ N) ->
  ended (prun C n m eqf ltf p E ∅ s) E' s' -> y ∉ N -> kept C E s E' s' y.
Proof. exact (prun_keeps C st nb eqf ltf HC n m N p E s E' s' y). Qed.
End props.

(** Programs that have no name in common may be run in either order, if nothing fails: both orders ask
    the same number of questions and leave all variables with the same values. *)
Theorem C70_commute C st eqf ltf (N1 N2 : list name) p q m E s E' K' s' : good_env C st true ->
  rreached C st true eqf ltf E ∅ s -> compiles C st true (bnd_ty <$> E) ∅ p -> compiles C st true (bnd_ty <$> E) ∅ q ->
  (forall x, mentions p x -> x ∈ N1) -> (forall x, mentions q x -> x ∈ N2) -> (forall x, x ∈ N1 -> x ∉ N2) ->
  steady s -> proceeds C eqf ltf (PSeq p q) m E ∅ s (PRet E' K' s') ->
  exists t', proceeds C eqf ltf (PSeq q p) m E ∅ s (PRet E' K' t') /\
    E' = E /\ K' = ∅ /\ opos t' = opos s' /\ forall y α, stands C E s' y α <-> stands C E t' y α.
Proof. intros HC. exact (commute_seq C st eqf ltf HC N1 N2 p q m E s E' K' s'). Qed.

Definition after (r : presult) : env * kenv * state := match r with PRet E K s | PExn _ E K s => (E, K, s) | _ => (∅, ∅, init calm) end.
Lemma after_ret r : match r with PRet _ _ _ => true | _ => false end = true -> r = PRet (after r).1.1 (after r).1.2 (after r).2.
Proof. by destruct r. Qed.
Lemma after_exn r : match r with PExn _ _ _ _ => true | _ => false end = true -> exists e, r = PExn e (after r).1.1 (after r).1.2 (after r).2.
Proof. destruct r; try done. intros _. eexists. reflexivity. Qed.
Lemma main_reached C st nb E s : reached C st nb eq0 lt0 E s -> rreached C st nb eq0 lt0 E ∅ s.
Proof. intros (orc&h&Hh). exists orc, (RMain <$> h). by apply PlacesFacts.main_history. Qed.

(** Not if something fails: two assignments whose exceptions are caught; an operation fails, in the one
    that comes first. *)
Definition tries (x y : name) : prog := PTry (PDo (RMain (CAssign x y))) PSkip.
Lemma tries_compile E x y tys : (bnd_ty <$> E) !! x = Some (TVar tys) -> (bnd_ty <$> E) !! y = Some (TVar tys) ->
  compiles C1 true true (bnd_ty <$> E) ∅ (tries x y).
Proof. intros Hx Hy. split; [|done]. by exists tys. Qed.
Lemma tries_mentions x y z : mentions (tries x y) z -> z ∈ [x; y].
Proof. intros [H|H]; [exact H|destruct H]. Qed.

Theorem C70_unsteady_refuted : exists C p q (N1 N2 : list name) E s E1 K1 s' E2 K2 t' y α, good_env C true true /\
  rreached C true true eq0 lt0 E ∅ s /\ compiles C true true (bnd_ty <$> E) ∅ p /\ compiles C true true (bnd_ty <$> E) ∅ q /\
  (forall x, mentions p x -> x ∈ N1) /\ (forall x, mentions q x -> x ∈ N2) /\ (forall x, x ∈ N1 -> x ∉ N2) /\
  proceeds C eq0 lt0 (PSeq p q) 0 E ∅ s (PRet E1 K1 s') /\ proceeds C eq0 lt0 (PSeq q p) 0 E ∅ s (PRet E2 K2 t') /\
  stands C E1 s' y α /\ ~ stands C E2 t' y α.
Proof.
  assert (H : exists E s E1 K1 s' E2 K2 t', reached C1 true true eq0 lt0 E s /\
    (bnd_ty <$> E) !! 20 = Some (TVar VT) /\ (bnd_ty <$> E) !! 21 = Some (TVar VT) /\
    (bnd_ty <$> E) !! 3 = Some (TVar VT) /\ (bnd_ty <$> E) !! 23 = Some (TVar VT) /\
    prun C1 12 0 eq0 lt0 (PSeq (tries 20 21) (tries 3 23)) E ∅ s = PRet E1 K1 s' /\
    prun C1 12 0 eq0 lt0 (PSeq (tries 3 23) (tries 20 21)) E ∅ s = PRet E2 K2 t' /\
    sees C1 E1 s' 20 VT (false, 0, UV (Some 1%Z) []) /\ sees C1 E2 t' 20 VT (false, 1, loud5)).
  { run_state C1 true true (throws_at [16]) trees. do 6 eexists. split; [by_run|].
    do 4 (split; [by vm_compute|]).
    split; [apply after_ret; by vm_compute|]. split; [apply after_ret; by vm_compute|]. split; by_run. }
  destruct H as (E&s&E1&K1&s'&E2&K2&t'&Hr&H20&H21&H3&H23&P1&P2&S1&S2).
  exists C1, (tries 20 21), (tries 3 23), [20; 21], [3; 23], E, s, E1, K1, s', E2, K2, t', 20, (AVar VT (false, 0, UV (Some 1%Z) [])).
  split; [apply C1_good|]. split; [by apply main_reached|]. split; [by eapply tries_compile|]. split; [by eapply tries_compile|].
  split; [apply tries_mentions|]. split; [apply tries_mentions|]. split.
  { intros x. rewrite !elem_of_cons !elem_of_nil. lia. }
  split; [|split; [|split; [done|]]].
  - exists 12. intros n Hn. rewrite (ProgramsFacts.prun_mono C1 eq0 lt0 12 n) //. by rewrite P1.
  - exists 12. intros n Hn. rewrite (ProgramsFacts.prun_mono C1 eq0 lt0 12 n) //. by rewrite P2.
  - intros Hx. by apply (stands_is C1 E2 t' 20 (AVar VT (false, 1, loud5)) _ S2) in Hx.
Qed.

(** ** Examples *)
(** In two programs 3 is a tree, at different addresses. They visit it, naming its members 30 and 31,
    assign one to the other, and copy the tree. An exception is caught: then 3 becomes what 20 is. *)
Definition visit_prog : prog :=
  PSeq (PTry PropsPrograms.member_prog (PDo (RMain (CAssign 3 20)))) (PLet (RMain (CCopy 32 3)) (PDo (RMain (CRead 32)))).
Lemma visit_mentions x : mentions visit_prog x -> x ∈ [3; 20; 30; 31; 32].
Proof.
  rewrite !elem_of_cons elem_of_nil. cbn. intros [[[->|(u&H)]|H]|[H|H]].
  - lia.
  - revert H. case_decide; cbn; rewrite ?elem_of_cons ?elem_of_nil; intros; lia.
  - rewrite !elem_of_cons elem_of_nil in H. lia.
  - rewrite !elem_of_cons elem_of_nil in H. lia.
  - rewrite !elem_of_cons elem_of_nil in H. lia.
Qed.
Notation Es k h := (env_of C1 true true 8 8 eq0 lt0 (throws_at k) h).
Notation ss k h := (state_of C1 true true 8 8 eq0 lt0 (throws_at k) h).
Definition detour : list cmd := [CMake 40 3 6 []; CDefault 41 VT; CFrom 42 VT 40 false; CAssign 41 42] ++ trees ++ [CDrop 24; CDrop 41].
(** The copy of the tree fails: the exception is nobody's, and leaves the block. *)
Example C70_situation : good_env C1 true true /\
  rreached C1 true true eq0 lt0 (Es [19] trees) ∅ (ss [19] trees) /\ rreached C1 true true eq0 lt0 (Es [22] detour) ∅ (ss [22] detour) /\
  same_values C1 [3; 20; 30; 31; 32] (Es [19] trees) (ss [19] trees) (Es [22] detour) (ss [22] detour) /\
  same_luck (ss [19] trees) (ss [22] detour) /\ (forall x, mentions visit_prog x -> x ∈ [3; 20; 30; 31; 32]) /\
  Es [19] trees !! 3 <> Es [22] detour !! 3.
Proof.
  split; [apply C1_good|]. split; [apply main_reached; by_run|]. split; [apply main_reached; by_run|]. split.
  { apply same_values_by. apply Forall_cons_2; [|apply Forall_cons_2; [|repeat (apply Forall_cons_2; [left; split; by vm_compute|]); by apply Forall_nil_2]].
    - right. exists (AVar VT (false, 2, tree1)). split; simpl; by_run.
    - right. exists (AVar VT (false, 0, UV (Some 1%Z) [])). split; simpl; by_run. }
  split; [|split; [apply visit_mentions|intros H; by vm_compute in H]].
  apply (luck_by _ _ [19] [22]); [by vm_compute..|].
  assert (opos (ss [19] trees) = 16) as -> by by vm_compute. assert (opos (ss [22] detour) = 19) as -> by by vm_compute.
  intros k. rewrite !elem_of_cons !elem_of_nil. lia.
Qed.
Definition ending (r : presult) : option (option exn * nat * nat) :=
  match r with PRet _ _ s => Some (None, opos s, length (tr s)) | PExn e _ _ s => Some (Some e, opos s, length (tr s)) | _ => None end.
Example C70_programs_ex :
  ending (prun C1 12 0 eq0 lt0 visit_prog (Es [19] trees) ∅ (ss [19] trees)) = Some (Some (XAlloc 19), 20, 33) /\
  ending (prun C1 12 0 eq0 lt0 visit_prog (Es [22] detour) ∅ (ss [22] detour)) = Some (Some (XAlloc 22), 23, 46) /\
  exists r1 r2, proceeds C1 eq0 lt0 visit_prog 0 (Es [19] trees) ∅ (ss [19] trees) r1 /\ r1 <> PWrong FFuel /\
    proceeds C1 eq0 lt0 visit_prog 0 (Es [22] detour) ∅ (ss [22] detour) r2 /\
    ends_alike C1 [3; 20; 30; 31; 32] (Es [19] trees) (ss [19] trees) (Es [22] detour) (ss [22] detour) r1 r2.
Proof.
  split; [by vm_compute|]. split; [by vm_compute|].
  destruct C70_situation as (Hg&Hr1&Hr2&Hv&Hl&Hn&_). revert Hr1 Hr2 Hv Hl.
  assert (Hp : exists e E K s, prun C1 12 0 eq0 lt0 visit_prog (Es [19] trees) ∅ (ss [19] trees) = PExn e E K s).
  { match goal with |- exists e E K s, ?r = _ => destruct (after_exn r) as (e&Hr); [by vm_compute|] end.
    exists e. eexists _, _, _. exact Hr. }
  revert Hp. generalize (Es [19] trees) as E1, (Es [22] detour) as E2, (ss [19] trees) as s1, (ss [22] detour) as s2.
  intros E1 E2 s1 s2 (e&E&K&s&Hp) Hr1 Hr2 Hv Hl. exists (PExn e E K s).
  assert (P1 : proceeds C1 eq0 lt0 visit_prog 0 E1 ∅ s1 (PExn e E K s)).
  { exists 12. intros n Hle. rewrite (ProgramsFacts.prun_mono C1 eq0 lt0 12 n) //. by rewrite Hp. }
  destruct (C70_proceeds C1 true true eq0 lt0 Hg 0 _ visit_prog E1 s1 E2 s2 (PExn e E K s) Hr1 Hr2 Hv Hl Hn) as (r2&P2&Ha); [done|exact P1|].
  exists r2. done.
Qed.
(** A handler is run: the first assignment fails in the visitor, which leaves both scopes. *)
Example C70_commands_ex : exists E1 K1 s1,
  issues C1 12 0 eq0 lt0 visit_prog (Es [16] trees) ∅ (ss [16] trees) (RMain (CAssign 3 20)) E1 K1 s1 /\ thrown s1 <> [].
Proof.
  match goal with |- exists E1 K1 s1, issues _ _ _ _ _ _ ?E _ ?s _ _ _ _ /\ _ =>
    destruct (after_exn (prun C1 12 0 eq0 lt0 PropsPrograms.member_prog E ∅ s)) as (e&Hr); [by vm_compute|] end.
  eexists _, _, _. split; [apply i_seq_l; eapply i_catch; [exact Hr|apply i_do]|]. intros H. by vm_compute in H.
Qed.
Example C70_others_ex : 23 ∉ [3; 20; 30; 31; 32] /\ stands C1 (Es [16] trees) (ss [16] trees) 23 (AVar VT (false, 2, tree2)) /\
  exists E' s', ended (prun C1 12 0 eq0 lt0 visit_prog (Es [16] trees) ∅ (ss [16] trees)) E' s'.
Proof.
  split; [apply (bool_decide_unpack _); by vm_compute|]. split; [simpl; by_run|].
  match goal with |- exists E' s', ended ?r _ _ => pose proof (after_ret r) as Hr end.
  eexists _, _. eexists. left. apply Hr. by vm_compute.
Qed.
(** Visiting and copying the tree, and assigning 21 to 23. *)
Example C70_commute_ex : exists E s E' K' s', good_env C1 true true /\ rreached C1 true true eq0 lt0 E ∅ s /\
  compiles C1 true true (bnd_ty <$> E) ∅ visit_prog /\ compiles C1 true true (bnd_ty <$> E) ∅ (tries 23 21) /\
  (forall x, x ∈ [3; 20; 30; 31; 32] -> x ∉ [23; 21]) /\ steady s /\
  proceeds C1 eq0 lt0 (PSeq visit_prog (tries 23 21)) 0 E ∅ s (PRet E' K' s') /\
  stands C1 E s 23 (AVar VT (false, 2, tree2)) /\ stands C1 E' s' 23 (AVar VT (false, 1, loud5)).
Proof.
  assert (H : exists E s E' K' s', reached C1 true true eq0 lt0 E s /\
  (bnd_ty <$> E) !! 20 = Some (TVar VT) /\ (bnd_ty <$> E) !! 21 = Some (TVar VT) /\
  (bnd_ty <$> E) !! 3 = Some (TVar VT) /\ (bnd_ty <$> E) !! 23 = Some (TVar VT) /\
  (bnd_ty <$> E) !! 30 = None /\ (bnd_ty <$> E) !! 31 = None /\ (bnd_ty <$> E) !! 32 = None /\
  prun C1 12 0 eq0 lt0 (PSeq visit_prog (tries 23 21)) E ∅ s = PRet E' K' s' /\ steady s /\
  sees C1 E s 23 VT (false, 2, tree2) /\ sees C1 E' s' 23 VT (false, 1, loud5)).
  { run_state C1 true true calm trees. do 3 eexists. split; [by_run|]. do 7 (split; [by vm_compute|]).
    split; [apply after_ret; by vm_compute|]. split; [|split; by_run].
    assert (Ho : orc (state_of C1 true true 8 8 eq0 lt0 calm trees) = calm) by by vm_compute. intros i j. by rewrite Ho. }
  destruct H as (E&s&E'&K'&s'&Hr&H20&H21&H3&H23&H30&H31&H32&P&Hst&S1&S2).
  exists E, s, E', K', s'. split; [apply C1_good|]. split; [by apply main_reached|]. split; [|split; [by eapply tries_compile|]].
  - split; [split|].
    + exists VT. split; [exact H3|]. intros t Ht. destruct (PropsPrograms.VT_cases t Ht) as [->|[->| ->]].
      * split; [constructor|]. split; [done|]. split; [by inversion 1|done].
      * split; [constructor|]. split; [done|]. split; [by inversion 1|done].
      * split; [apply (bool_decide_unpack _); by vm_compute|]. split; [done|]. split.
        { intros r Hr'. change (r ∈ [30; 31]) in Hr'. rewrite !elem_of_cons elem_of_nil in Hr'.
          destruct Hr' as [->|[->|[]]]; (split; [eassumption|apply not_elem_of_empty]). }
        exists VT. split; apply lookup_union_Some_raw; left; by vm_compute.
    + by exists VT.
    + exists 32, (TVar VT). split; [split; [done|]; by exists VT|]. split; [done|]. split; [apply not_elem_of_empty|].
      exists VT. by rewrite lookup_insert.
  - split; [intros x; rewrite !elem_of_cons !elem_of_nil; lia|]. split; [done|]. split; [|done].
    exists 12. intros n Hn. rewrite (ProgramsFacts.prun_mono C1 eq0 lt0 12 n) //. by rewrite P.
Qed.

Definition PropsPlacesAlike_all := (C70_programs, C70_proceeds, C70_commands, C70_others, C70_commute, C70_unsteady_refuted).
Print Assumptions PropsPlacesAlike_all.
