(** Heap backups and failures: a check by names (C76). The statements use GuardsSpec.v; the proofs are in
    GuardsFacts.v. *)
From stdpp Require Import base gmap list numbers.
From Coq Require Import ZArith Lia.
From Verif Require Import Base Types Variant Sem Values Client Observe Spec Trace History Reach Places PlacesSpec Programs ProgramsSpec PlacesAlikeSpec MeaningSpec Calls CallsSpec CallsMeaningSpec TidySpec GuardsSpec.
From Verif Require Import Check Samples Runs Scenes Link.
From Verif Require ObserveFacts PlacesFacts ProgramsFacts GuardsFacts.
From Verif Require Import PropsPrograms PropsMeaning PropsCalls PropsTidy.

(** [nb] = false: also for variants that may need a backup; and operations may fail at any time. *)
Section props.
Context (C : cfg) (st nb : bool) (eqf ltf : uid -> uval -> uval -> bool) (HC : good_env C st nb).
Notation rreached := (rreached C st nb eqf ltf).
Notation types := (fmap bnd_ty).

(** *** C76: a program that compiles and passes the check does not go wrong, whatever fails; when it has ended,
    only variables that the check allows for are in backups. *)
Theorem C76_sound : forall p (E : env) (K : kenv) s m B N X,
  compiles C st nb (types E) (dom K) p -> careful p B N X -> rreached E K s -> all_but C B E s ->
  exists r, proceeds C eqf ltf p m E K s r /\
    match r with
    | PRet E' K' s' => E' = E /\ K' = K /\ rreached E K s' /\ all_but C N E s'
    | PExn e E' K' s' => E' = E /\ K' = K /\ rreached E K s' /\ all_but C X E s'
    | PMore => ~ loop_free p
    | PWrong _ => False
    end.
Proof. exact (GuardsFacts.careful_sound C st nb eqf ltf HC). Qed.
(** It does to values what it says. *)
Theorem C76_meaning : forall p (E : env) (K : kenv) s n m B N X σ κ,
  compiles C st nb (types E) (dom K) p -> careful p B N X -> rreached E K s -> all_but C B E s ->
  shows C (mem s) E σ -> kshows (mem s) K κ ->
  match prun C n m eqf ltf p E K s with
  | PRet E' K' s' => E' = E /\ K' = K /\
      exists σ', shows C (mem s') E σ' /\ kshows (mem s') K κ /\ means C eqf ltf p σ None σ'
  | PExn e E' K' s' => E' = E /\ K' = K /\
      exists σ', shows C (mem s') E σ' /\ kshows (mem s') K κ /\ means C eqf ltf p σ (Some e) σ'
  | _ => True
  end.
Proof. exact (GuardsFacts.careful_meaning C st nb eqf ltf HC). Qed.
(** A whole program leaves nothing. *)
Theorem C76_whole : forall p orc m N X, compiles C st nb ∅ ∅ p -> careful p nobody N X ->
  exists r, proceeds C eqf ltf p m ∅ ∅ (init orc) r /\
    match r with
    | PRet _ _ s' => mem s' = ∅
    | PExn e _ _ s' => mem s' = ∅
    | PMore => ~ loop_free p
    | PWrong _ => False
    end.
Proof. exact (GuardsFacts.careful_whole C st nb eqf ltf HC). Qed.
(** Programs without try blocks pass: no failure is survived within them. *)
Theorem C76_tryless : forall p (E : env) (K : kenv) s m,
  compiles C st nb (types E) (dom K) p -> tryless p -> rreached E K s -> all_but C nobody E s ->
  exists r, proceeds C eqf ltf p m E K s r /\
    match r with
    | PRet E' K' s' => E' = E /\ K' = K /\ rreached E K s' /\ all_but C nobody E s'
    | PExn e E' K' s' => E' = E /\ K' = K /\ rreached E K s'
    | PMore => ~ loop_free p
    | PWrong _ => False
    end.
Proof. exact (GuardsFacts.tryless_sound C st nb eqf ltf HC). Qed.
(** Recursive functions without try blocks as well. *)
Theorem C76_functions : forall (Φ : list func) (sigs : list (list vty)) (N : nat), funcs_compile C st nb sigs N Φ ->
  Forall (fun F => ftryless (fn_body F)) Φ ->
  forall p (E : env) (K : kenv) s d m σ κ,
  (forall x, is_Some (E !! x) \/ is_Some (K !! x) \/ fmentions p x -> x < N) -> ftryless p ->
  fcompiles C st nb sigs (types E) (dom K) p -> rreached E K s -> all_but C nobody E s ->
  shows C (mem s) E σ -> kshows (mem s) K κ ->
  exists r, proceeds C eqf ltf (unroll Φ N d p) m E K s r /\
    match r with
    | PRet E' K' s' => E' = E /\ K' = K /\ rreached E K s' /\ all_but C nobody E s' /\
        exists σ', shows C (mem s') E σ' /\ kshows (mem s') K κ /\ fmeans C eqf ltf Φ p σ None σ'
    | PExn e E' K' s' => E' = E /\ K' = K /\ rreached E K s' /\
        exists σ', shows C (mem s') E σ' /\ kshows (mem s') K κ /\ fmeans C eqf ltf Φ p σ (Some e) σ'
    | PMore => True
    | PWrong _ => False
    end.
Proof. exact (GuardsFacts.tryless_functions C st nb eqf ltf HC). Qed.
End props.

(** *** Examples *)
(** The program of C68_backup_refuted does not pass. *)
Example C76_example_parked : compiles C0 true false ∅ ∅ parked_prog /\ forall N X, ~ careful parked_prog nobody N X.
Proof.
  split; [exact parked_compiles|]. intros N X Hg.
  destruct (C76_whole C0 true false eq0 lt0 C0_good parked_prog (throws_at [11]) 0 N X parked_compiles Hg) as (r&[n0 Hn]&Hf).
  specialize (Hn (n0 + 12) ltac:(lia)). rewrite (ProgramsFacts.prun_mono C0 eq0 lt0 12 (n0 + 12)) in Hn; [|lia|intros H; by vm_compute in H].
  assert (Hw : prun C0 12 0 eq0 lt0 parked_prog ∅ ∅ (init (throws_at [11])) = PWrong FAssert) by by vm_compute.
  rewrite Hw in Hn. by subst r.
Qed.
(** With a second attempt in the handler it passes: after the first has failed, variable 1 is in a backup; after the
    second has succeeded it is not, and may be assigned from. *)
Definition retry_prog : prog :=
  PLet (RMain (CMake 10 2 7 [])) (PLet (RMain (CFrom 11 VL 10 false)) (PLet (RMain (CMake 12 4 9 [11])) (PLet (RMain (CMake 13 3 5 []))
  (PLet (RMain (CFrom 1 VA 13 false)) (PLet (RMain (CFrom 2 VA 12 false))
    (PSeq again_prog (PDo (RMain (CAssign 2 1))))))))).
Lemma retry_compiles : compiles C0 true false ∅ ∅ retry_prog.
Proof.
  assert (HgL : good_tys C0 true false VL) by (apply good_tysb_ok; by vm_compute).
  assert (HgA : good_tys C0 true false VA) by (apply good_tysb_ok; by vm_compute).
  unfold retry_prog, again_prog. cbn [compiles].
  exists 10, (TObj 2). split; [by repeat constructor|]. split; [done|]. split; [set_solver|].
  exists 11, (TVar VL). split. { split; [done|]. split; [done|]. split; [done|]. exists 2, 0. split; [done|]. apply best_match_resolve. by vm_compute. }
  split; [done|]. split; [set_solver|].
  exists 12, (TObj 4). split. { split; [done|]. split; [done|]. by repeat constructor. } split; [done|]. split; [set_solver|].
  exists 13, (TObj 3). split; [by repeat constructor|]. split; [done|]. split; [set_solver|].
  exists 1, (TVar VA). split. { split; [done|]. split; [done|]. split; [done|]. exists 3, 0. split; [done|]. apply best_match_resolve. by vm_compute. }
  split; [done|]. split; [set_solver|].
  exists 2, (TVar VA). split. { split; [done|]. split; [done|]. split; [done|]. exists 4, 1. split; [done|]. apply best_match_resolve. by vm_compute. }
  split; [done|]. split; [set_solver|].
  split; [split; by exists VA|by exists VA].
Qed.
Lemma retry_careful : careful retry_prog nobody (fun _ => True) (fun _ => True).
Proof.
  unfold retry_prog, again_prog. cbn [careful].
  do 6 (split; [by intros z _|]; intros ? [= <-]; exists (fun _ => True), (fun _ => True); (split; [|split; by intros z _])).
  exists nobody. split.
  - exists (fun z => z = 1). split.
    + split; [intros _; tauto|]. split; intros z; simpl; unfold nobody; tauto.
    + split; [by intros _|]. split; intros z; simpl; unfold nobody; [intros [-> H]; specialize (H eq_refl); lia|done].
  - split; [by intros _ Hz|]. by split; intros z _.
Qed.
Example C76_example_retry : good_env C0 true false /\ compiles C0 true false ∅ ∅ retry_prog /\
  careful retry_prog nobody (fun _ => True) (fun _ => True) /\
  ends (prun C0 12 0 eq0 lt0 retry_prog ∅ ∅ (init (throws_at [11]))) = Some (None, true, 1) /\
  exists e, ends (prun C0 12 0 eq0 lt0 retry_prog ∅ ∅ (init (throws_at [11; 12]))) = Some (Some e, true, 2).
Proof.
  split; [exact C0_good|]. split; [exact retry_compiles|]. split; [exact retry_careful|]. split; [by vm_compute|]. eexists. by vm_compute.
Qed.

(** The function of C75, with a failure: it ends by exception, with variable 1 in a backup. *)
Lemma tidyb_all C E s : tidyb C E s = true -> all_but C nobody E s.
Proof.
  intros H σ Hs x α Hx _. assert (Hk : kshows (mem s) ∅ ∅) by (intros y; by vm_compute).
  destruct (tidyb_ok C E s H σ ∅ Hs Hk) as [Hσ _]. exact (Hσ x α Hx).
Qed.
Example C76_example_settle : exists E s e E' K' s', rreached C0 true false eq0 lt0 E ∅ s /\ all_but C0 nobody E s /\
  ftryless (FCall 0 [1; 2]) /\ Forall (fun F => ftryless (fn_body F)) [settle] /\
  (forall x, is_Some (E !! x) \/ is_Some ((∅ : kenv) !! x) \/ fmentions (FCall 0 [1; 2]) x -> x < 50) /\
  fcompiles C0 true false [[TVar VA; TVar VA]] (bnd_ty <$> E) (dom (∅ : kenv)) (FCall 0 [1; 2]) /\
  prun C0 12 0 eq0 lt0 (unroll [settle] 50 2 (FCall 0 [1; 2])) E ∅ s = PExn e E' K' s' /\
  sees C0 E' s' 1 VA (true, 0, loud5).
Proof.
  assert (H : exists E s, reached C0 true false eq0 lt0 E s /\ all_but C0 nobody E s /\ (forall x, is_Some (E !! x) -> x < 50) /\
    fcompiles C0 true false [[TVar VA; TVar VA]] (bnd_ty <$> E) (dom (∅ : kenv)) (FCall 0 [1; 2]) /\
    exists e E' K' s', prun C0 12 0 eq0 lt0 (unroll [settle] 50 2 (FCall 0 [1; 2])) E ∅ s = PExn e E' K' s' /\
      sees C0 E' s' 1 VA (true, 0, loud5)).
  { run_state C0 true false (throws_at [11]) (two VA). split; [by_run|]. split; [apply tidyb_all; by vm_compute|].
    split. { intros x Hx. apply elem_of_dom in Hx. revert x Hx. apply (bool_decide_unpack _). by vm_compute. }
    split. { exists [TVar VA; TVar VA]. split; [done|]. split; [apply (bool_decide_unpack _); by vm_compute|].
             constructor; [by vm_compute|constructor; [by vm_compute|constructor]]. }
    match goal with |- exists e E1 K1 s1, ?r = _ /\ _ => destruct (after_exn r) as (e&KK&Hr) end; [by vm_compute|].
    exists e. eexists. exists KK. eexists. split; [exact Hr|]. clear Hr. by_run. }
  destruct H as (E&s&Hr&Ht&HN&Hc&e&E'&K'&s'&Hrun&H1'). exists E, s, e, E', K', s'. split; [by apply to_rreached|].
  split; [done|]. split; [done|]. split. { constructor; [|done]. intros u. cbv beta. destruct (decide (u = 3)); [by split|done]. }
  split. { intros x [Hx|[Hx|Hx]]; [by apply HN|by destruct Hx|]. apply in_pair in Hx. lia. }
  done.
Qed.

Definition PropsGuards_all := (C76_sound, C76_meaning, C76_whole, C76_tryless, C76_functions).
Print Assumptions PropsGuards_all.
