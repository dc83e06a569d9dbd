(** Programs that compile (C68). The statements use ProgramsSpec.v; the proofs are in
    ProgramsFacts.v. *)
From stdpp Require Import base gmap list numbers.
From Coq Require Import ZArith Lia.
From Verif Require Import Base Types Variant Sem Values Client Observe Spec Trace History Reach Places PlacesSpec Programs ProgramsSpec.
From Verif Require Import Check Samples Runs Scenes Link.
From Verif Require ObserveFacts PlacesFacts ProgramsFacts.

Section props.
Context (C : cfg) (st : bool) (eqf ltf : uid -> uval -> uval -> bool) (HC : good_env C st true).
Notation rreached := (rreached C st true eqf ltf).
Notation types := (fmap bnd_ty).

(** *** C68: programs that compile do not go wrong. Whatever throws, and whatever number of rounds
    loops are given: with enough nested calls the program ends, normally or by an exception, with
    the names it had at the start; or it is in a loop. *)
Theorem C68_sound : forall p (E : env) (K : kenv) s m,
  compiles C st true (types E) (dom K) p -> rreached E K s ->
  exists r, proceeds C eqf ltf p m E K s r /\
    match r with
    | PRet E' K' s' | PExn _ E' K' s' => E' = E /\ K' = K /\ rreached E K s'
    | PMore => ~ loop_free p
    | PWrong _ => False
    end.
Proof. exact (ProgramsFacts.sound C st true eqf ltf HC eq_refl). Qed.
(** With any number of nested calls: nothing else happens before they run out. *)
Theorem C68_always : forall p (E : env) (K : kenv) s n m,
  compiles C st true (types E) (dom K) p -> rreached E K s ->
  match prun C n m eqf ltf p E K s with
  | PRet E' K' s' | PExn _ E' K' s' => E' = E /\ K' = K /\ rreached E K s'
  | PMore => ~ loop_free p
  | PWrong f => f = FFuel
  end.
Proof. exact (ProgramsFacts.always C st true eqf ltf HC eq_refl). Qed.
(** A program without loops terminates. *)
Theorem C68_terminates : forall p (E : env) (K : kenv) s,
  compiles C st true (types E) (dom K) p -> loop_free p -> rreached E K s ->
  exists n0 s', rreached E K s' /\ ((forall n m, n0 <= n -> prun C n m eqf ltf p E K s = PRet E K s') \/
    exists e, forall n m, n0 <= n -> prun C n m eqf ltf p E K s = PExn e E K s').
Proof. exact (ProgramsFacts.terminates C st true eqf ltf HC eq_refl). Qed.
(** A program that ends in fewer rounds ends in the same way if given more. *)
Theorem C68_rounds : forall n m m' p E K s,
  m <= m' -> prun C n m eqf ltf p E K s <> PMore -> prun C n m' eqf ltf p E K s = prun C n m eqf ltf p E K s.
Proof. exact (ProgramsFacts.prun_rounds C eqf ltf). Qed.

(** When a whole program has ended, also by an exception that nobody caught, nothing is left: every
    object that was constructed has been destroyed and every block has been released. *)
Theorem C68_nothing_left : forall p orc n m,
  compiles C st true ∅ ∅ p ->
  match prun C n m eqf ltf p ∅ ∅ (init orc) with
  | PRet E' K' s' | PExn _ E' K' s' => mem s' = ∅ /\ forall l,
      (forall k, cnt (EvC k l) (tr s') = cnt (EvD k l) (tr s')) /\ block l (tr s') <> Some BLive
  | _ => True
  end.
Proof. exact (ProgramsFacts.nothing_left C st true eqf ltf HC eq_refl). Qed.

(** Visitation runs the branch for the type of the content. A visitor that does not use its argument
    may do anything to the variant... *)
Theorem C68_switch : forall p x ps E K s tys a k t n m,
  p = PSwitch x ps -> rreached E K s -> E !! x = Some (BVar tys a) ->
  var_holds C (mem s) tys a k -> tys !! k.1.2 = Some t ->
  prun C n m eqf ltf p E K s = prun C n m eqf ltf (ps (ity_uid t)) E K s.
Proof. exact (ProgramsFacts.switch_is C st true eqf ltf HC). Qed.
(** ... one that uses it has references to the member variants of the content. *)
Theorem C68_visit : forall x rs ps E K s tys a k t n m,
  rreached E K s -> E !! x = Some (BVar tys a) ->
  var_holds C (mem s) tys a k -> tys !! k.1.2 = Some t ->
  compiles C st true (types E) (dom K) (PVisit x rs ps) ->
  exists l refs, points C (mem s) (BVar tys a) (ity_uid t) l refs.*2 /\ refs.*1 = rs (ity_uid t) /\
    prun C n m eqf ltf (PVisit x rs ps) E K s =
    match prun C n m eqf ltf (ps (ity_uid t)) (list_to_map refs ∪ delete x E) (<[x := (BVar tys a, refs)]> K) s with
    | PRet _ _ s' => PRet E K s'
    | PExn e _ _ s' => PExn e E K s'
    | r => r
    end.
Proof. exact (ProgramsFacts.visit_is C st true eqf ltf HC eq_refl). Qed.
End props.

(** Nothing but C15 makes a program go wrong: for variants that may need a backup also, a program that
    compiles does not go wrong if no command is issued with an operand that is parked. *)
Theorem C68_only_parked : forall C st nb eqf ltf, good_env C st nb -> forall p (E : env) (K : kenv) s m,
  compiles C st nb (bnd_ty <$> E) (dom K) p -> rreached C st nb eqf ltf E K s ->
  (forall n c E' K' s', issues C n m eqf ltf p E K s c E' K' s' -> rreached C st nb eqf ltf E' K' s' ->
    sources_unparked C E' s' c) ->
  exists r, proceeds C eqf ltf p m E K s r /\
    match r with
    | PRet E' K' s' | PExn _ E' K' s' => E' = E /\ K' = K /\ rreached C st nb eqf ltf E K s'
    | PMore => ~ loop_free p
    | PWrong _ => False
    end.
Proof. exact ProgramsFacts.only_parked. Qed.

(** *** Examples *)
(** A tree whose first member is visited and replaced, within a visit to the tree, in a try block;
    the handler makes the variant blank; then rounds that end when it is no longer blank. *)
Definition tree_prog : prog :=
  PLet (RMain (CMake 13 3 5 [])) (PLet (RMain (CDefault 20 VT)) (PLet (RMain (CFrom 21 VT 13 false))
  (PLet (RMain (CMake 22 7 2 [21; 20])) (PLet (RMain (CFrom 23 VT 22 false)) (PSeq
    (PTry
      (PVisit 23 (fun u => if decide (u = 7) then [30; 31] else []) (fun u => if decide (u = 7) then
        PSeq (PDo (RMain (CAssign 31 30)))
             (PSwitch 30 (fun u => if decide (u = 3) then PLet (RMain (CCopy 32 31)) (PDo (RMain (CMoveAssign 30 20)))
                                   else PDo (RMain (CAssign 30 21))))
      else PSkip))
      (PDo (RMain (CAssign 23 20))))
    (PWhile 20 23 (PDo (RMain (CAssign 23 21))))))))).

Lemma VT_cases t : t ∈ VT -> t = IPlain 1 \/ t = IPlain 3 \/ t = IWrap 7.
Proof. unfold VT. rewrite !elem_of_cons, elem_of_nil. tauto. Qed.
Lemma tree_prog_compiles : compiles C1 true true ∅ ∅ tree_prog.
Proof.
  assert (Hm3 : best_match C1 VT 3 1) by (apply best_match_resolve; by vm_compute).
  assert (Hm7 : best_match C1 VT 7 2) by (apply best_match_resolve; by vm_compute).
  assert (Hg : good_tys C1 true true VT) by (apply good_tysb_ok; by vm_compute).
  unfold tree_prog. cbn [compiles].
  exists 13, (TObj 3). split; [by repeat constructor|]. split; [done|]. split; [set_solver|].
  exists 20, (TVar VT). split. { split; [done|]. split; [done|]. split; [done|]. exists 8. do 3 eexists. split; [reflexivity|]. split; [by vm_compute|done]. }
  split; [done|]. split; [set_solver|].
  exists 21, (TVar VT). split. { split; [done|]. split; [done|]. split; [done|]. by exists 3, 1. } split; [done|]. split; [set_solver|].
  exists 22, (TObj 7). split. { split; [done|]. split; [done|]. by repeat constructor. } split; [done|]. split; [set_solver|].
  exists 23, (TVar VT). split. { split; [done|]. split; [done|]. split; [done|]. by exists 7, 2. } split; [done|]. split; [set_solver|].
  split; [split|].
  - exists VT. split; [done|]. intros t Ht. destruct (VT_cases t Ht) as [->|[->| ->]]; cbn.
    + split; [constructor|]. split; [done|]. split; [by inversion 1|done].
    + split; [constructor|]. split; [done|]. split; [by inversion 1|done].
    + split; [apply (bool_decide_unpack _); by vm_compute|]. split; [done|]. split.
      { intros r Hr. change (r ∈ [30; 31]) in Hr. rewrite !elem_of_cons, elem_of_nil in Hr. destruct Hr as [->|[->|[]]]; (split; [done|set_solver]). }
      split; [by exists VT|]. exists VT. split; [done|]. intros t' Ht'. destruct (VT_cases t' Ht') as [->|[->| ->]]; cbn.
      * by exists VT.
      * exists 32, (TVar VT). split; [split; [done|]; by exists VT|]. split; [done|]. split; [set_solver|]. by exists VT.
      * by exists VT.
  - by exists VT.
  - split; [by exists VT|]. by exists VT.
Qed.
Definition ends (r : presult) : option (option exn * bool * nat) :=
  match r with
  | PRet E K s => Some (None, bool_decide (mem s = ∅), length (thrown s))
  | PExn e E K s => Some (Some e, bool_decide (mem s = ∅), length (thrown s))
  | _ => None
  end.
(** It compiles and runs, from the start; with exceptions in the visitor, which are caught... *)
Example C68_example_runs : good_env C1 true true /\ compiles C1 true true ∅ ∅ tree_prog /\
  rreached C1 true true eq0 lt0 ∅ ∅ (init calm) /\ ~ loop_free tree_prog /\
  ends (prun C1 12 5 eq0 lt0 tree_prog ∅ ∅ (init calm)) = Some (None, true, 0).
Proof.
  split; [apply C1_good|]. split; [apply tree_prog_compiles|]. split; [exists calm, []; constructor|].
  split; [cbn; tauto|]. by vm_compute.
Qed.
(** ... with one in a construction, which nobody catches... *)
Example C68_example_throws :
  ends (prun C1 12 5 eq0 lt0 tree_prog ∅ ∅ (init (throws_at [7]))) = Some (None, true, 1) /\
  ends (prun C1 12 5 eq0 lt0 tree_prog ∅ ∅ (init (throws_at [6]))) = Some (Some (XUser OpCopy 3 6), true, 1).
Proof. split; by vm_compute. Qed.
(** ... and with fewer rounds than it needs. *)
Example C68_example_more :
  prun C1 12 1 eq0 lt0 tree_prog ∅ ∅ (init (throws_at [7])) = PMore /\
  prun C1 12 2 eq0 lt0 tree_prog ∅ ∅ (init (throws_at [7])) <> PMore.
Proof. split; [by vm_compute|]. intros H. by vm_compute in H. Qed.

(** A program without loops, from a state where 3 is a tree: visiting 3 and replacing a member; the
    state meets the hypotheses of the theorems on visitation. *)
Definition member_prog : prog :=
  PVisit 3 (fun u => if decide (u = 7) then [30; 31] else []) (fun u => if decide (u = 7) then PDo (RMain (CAssign 31 30)) else PSkip).
Example C68_example_member : exists E s a k, reached C1 true true eq0 lt0 E s /\ rreached C1 true true eq0 lt0 E ∅ s /\
  E !! 3 = Some (BVar VT a) /\ var_holds C1 (mem s) VT a k /\ VT !! k.1.2 = Some (IWrap 7) /\
  compiles C1 true true (bnd_ty <$> E) (dom (∅ : kenv)) member_prog /\ loop_free member_prog.
Proof.
  run_state C1 true true calm trees. do 2 eexists.
  assert (Hr : reached C1 true true eq0 lt0 (env_of C1 true true 8 8 eq0 lt0 calm trees) (state_of C1 true true 8 8 eq0 lt0 calm trees)) by by_run.
  split; [done|]. split.
  { destruct Hr as (orc&h&Hh). exists orc, (RMain <$> h). by apply PlacesFacts.main_history. }
  split; [vm_compute; reflexivity|]. split; [exists 8; vm_compute; reflexivity|]. split; [by vm_compute|]. split.
  - exists VT. split; [by vm_compute|]. intros t Ht. destruct (VT_cases t Ht) as [->|[->| ->]].
    + split; [constructor|]. split; [done|]. split; [by inversion 1|done].
    + split; [constructor|]. split; [done|]. split; [by inversion 1|done].
    + split; [apply (bool_decide_unpack _); by vm_compute|]. split; [done|]. split.
      { intros r Hr'. change (r ∈ [30; 31]) in Hr'. rewrite !elem_of_cons, elem_of_nil in Hr'.
        destruct Hr' as [->|[->|[]]]; (split; [by vm_compute|apply (bool_decide_unpack _); by vm_compute]). }
      exists VT. split; by vm_compute.
  - intros u. cbn. by destruct (decide (u = 7)).
Qed.

(** *** Not so for variants that may need a backup: a program that compiles fails an assertion. Its
    assignment fails, which it catches; 1 is parked; the other assignment is 2 = 1 (C15). *)
Definition parked_prog : prog :=
  PLet (RMain (CMake 10 2 7 [])) (PLet (RMain (CFrom 11 VL 10 false)) (PLet (RMain (CMake 12 4 9 [11])) (PLet (RMain (CMake 13 3 5 []))
  (PLet (RMain (CFrom 1 VA 13 false)) (PLet (RMain (CFrom 2 VA 12 false))
    (PSeq (PTry (PDo (RMain (CAssign 1 2))) PSkip) (PDo (RMain (CAssign 2 1))))))))).
Theorem C68_backup_refuted : exists C p orc,
  good_env C true false /\ compiles C true false ∅ ∅ p /\ loop_free p /\
  proceeds C eq0 lt0 p 0 ∅ ∅ (init orc) (PWrong FAssert).
Proof.
  exists C0, parked_prog, (throws_at [11]). split; [apply C0_good|]. split; [|split; [cbn; tauto|]].
  - assert (HgL : good_tys C0 true false VL) by (apply good_tysb_ok; by vm_compute).
    assert (HgA : good_tys C0 true false VA) by (apply good_tysb_ok; by vm_compute).
    unfold parked_prog. cbn [compiles].
    exists 10, (TObj 2). split; [by repeat constructor|]. split; [done|]. split; [set_solver|].
    exists 11, (TVar VL). split. { split; [done|]. split; [done|]. split; [done|]. exists 2, 0. split; [done|]. apply best_match_resolve. by vm_compute. }
    split; [done|]. split; [set_solver|].
    exists 12, (TObj 4). split. { split; [done|]. split; [done|]. by repeat constructor. } split; [done|]. split; [set_solver|].
    exists 13, (TObj 3). split; [by repeat constructor|]. split; [done|]. split; [set_solver|].
    exists 1, (TVar VA). split. { split; [done|]. split; [done|]. split; [done|]. exists 3, 0. split; [done|]. apply best_match_resolve. by vm_compute. }
    split; [done|]. split; [set_solver|].
    exists 2, (TVar VA). split. { split; [done|]. split; [done|]. split; [done|]. exists 4, 1. split; [done|]. apply best_match_resolve. by vm_compute. }
    split; [done|]. split; [set_solver|].
    split; [split; [by exists VA|done]|by exists VA].
  - exists 12. intros n Hn. rewrite (ProgramsFacts.prun_mono C0 eq0 lt0 12 n); [by vm_compute|done|]. intros H. by vm_compute in H.
Qed.

(** The same assignment, tried again when it has failed: it goes to a variant that is parked but does
    not come from one. *)
Definition again_prog : prog := PTry (PDo (RMain (CAssign 1 2))) (PDo (RMain (CAssign 1 2))).
Lemma assign_unparked E s tys k : sees C0 E s 2 tys k -> cleanv k = true -> sources_unparked C0 E s (RMain (CAssign 1 2)).
Proof.
  intros Hs Hc σ Hsh _ tys' k1 k2 _ Hv. destruct Hs as (a&Ha&Hk).
  specialize (Hsh 2). unfold is_var in Hv. rewrite Ha, Hv in Hsh. destruct Hsh as [-> Hk'].
  rewrite (ObserveFacts.var_holds_unique C0 _ _ _ _ _ Hk' Hk).
  apply andb_true_iff in Hc as [H1 H2]. split; [done|]. intros H3. rewrite H3 in H1. done.
Qed.
Definition after (r : presult) : env * state := match r with PRet E _ s | PExn _ E _ s => (E, s) | _ => (∅, init calm) end.
Lemma after_exn r : match r with PExn _ _ _ _ => true | _ => false end = true -> exists e K, r = PExn e (after r).1 K (after r).2.
Proof. destruct r; try done. intros _. do 2 eexists. reflexivity. Qed.
Example C68_only_parked_example : exists E s tys k, rreached C0 true false eq0 lt0 E ∅ s /\
  compiles C0 true false (bnd_ty <$> E) (dom (∅ : kenv)) again_prog /\
  (forall n c E' K' s', issues C0 n 0 eq0 lt0 again_prog E ∅ s c E' K' s' -> rreached C0 true false eq0 lt0 E' K' s' ->
    sources_unparked C0 E' s' c) /\
  exists e E1 K1 s1, prun C0 12 0 eq0 lt0 (PDo (RMain (CAssign 1 2))) E ∅ s = PExn e E1 K1 s1 /\
    sees C0 E1 s1 1 tys k /\ k.1.1 = true.
Proof.
  assert (H : exists E s, reached C0 true false eq0 lt0 E s /\ sees C0 E s 2 VA (false, 1, node9) /\
    compiles C0 true false (bnd_ty <$> E) (dom (∅ : kenv)) again_prog /\
    exists e E1 K1 s1, prun C0 12 0 eq0 lt0 (PDo (RMain (CAssign 1 2))) E ∅ s = PExn e E1 K1 s1 /\
      sees C0 E1 s1 1 VA (true, 0, loud5) /\ sees C0 E1 s1 2 VA (false, 1, node9)).
  { run_state C0 true false (throws_at [11]) (two VA). split; [by_run|]. split; [by_run|].
    split. { split; exists VA; split; by vm_compute. }
    match goal with |- exists e E1 K1 s1, ?r = _ /\ _ => destruct (after_exn r) as (e&K1&Hr) end; [by vm_compute|].
    exists e. eexists. exists K1. eexists. split; [exact Hr|]. clear Hr. split; by_run. }
  destruct H as (E&s&Hr&Hs&Hc&e&E1&K1&s1&H12&Hp1&Hp2). exists E, s, VA, (true, 0, loud5).
  split. { destruct Hr as (orc&h&Hh). exists orc, (RMain <$> h). by apply PlacesFacts.main_history. }
  split; [exact Hc|].
  split; [|exists e, E1, K1, s1; split; [exact H12|]; split; [exact Hp1|reflexivity]].
  intros n c E' K' s' Hi _. inversion Hi; subst.
  - match goal with H : issues _ _ _ _ _ (PDo _) _ _ _ _ _ _ _ |- _ => inversion H; subst end. by eapply assign_unparked.
  - match goal with H : issues _ _ _ _ _ (PDo _) _ _ _ _ _ _ _ |- _ => inversion H; subst end.
    match goal with H : prun _ n _ _ _ _ _ _ _ = PExn _ _ _ _ |- _ => rename H into He end.
    assert (Hn : prun C0 (n `max` 12) 0 eq0 lt0 (PDo (RMain (CAssign 1 2))) E ∅ s = PExn e E1 K1 s1).
    { rewrite (ProgramsFacts.prun_mono C0 eq0 lt0 12); [exact H12|lia|]. rewrite H12. discriminate. }
    rewrite (ProgramsFacts.prun_mono C0 eq0 lt0 n) in Hn; [|lia|rewrite He; discriminate].
    rewrite He in Hn. injection Hn as -> -> -> ->. by eapply assign_unparked.
Qed.

Definition PropsPrograms_all :=
  (C68_sound, C68_always, C68_terminates, C68_rounds, C68_nothing_left, C68_switch, C68_visit, C68_only_parked, C68_backup_refuted).
Print Assumptions PropsPrograms_all.
