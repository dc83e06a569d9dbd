(** Heap backups, while nothing fails (C75). The statements use TidySpec.v and BlameSpec.v; the proofs are in
    TidyFacts.v. *)
From stdpp Require Import base gmap list numbers.
From Coq Require Import ZArith Lia.
From Verif Require Import Base Types Variant Sem Values Client Observe Spec Trace History Reach Places PlacesSpec Programs ProgramsSpec PlacesAlikeSpec MeaningSpec Calls CallsSpec CallsMeaningSpec BlameSpec TidySpec.
From Verif Require Import Check Samples Runs Scenes Link.
From Verif Require ObserveFacts PlacesFacts ProgramsFacts TidyFacts.
From Verif Require Import PropsPrograms PropsMeaning PropsCalls.

(** [nb] = false: also for variants that may need a backup (bounded types whose moves may throw, and none
    with a default constructor that may not). *)
Section props.
Context (C : cfg) (st nb : bool) (eqf ltf : uid -> uval -> uval -> bool) (HC : good_env C st nb).
Notation rreached := (rreached C st nb eqf ltf).
Notation types := (fmap bnd_ty).

(** *** C75: while no operation of a user type and no operator new fails, a program that compiles does not
    go wrong, whatever backups its assignments make; when it has ended, no content is in a backup. It may
    end by boost::bad_get, and if it does not use get by no exception. *)
Theorem C75_sound : forall p (E : env) (K : kenv) s m,
  compiles C st nb (types E) (dom K) p -> rreached E K s -> calm_from s -> tidy C E K s ->
  exists r, proceeds C eqf ltf p m E K s r /\
    match r with
    | PRet E' K' s' => E' = E /\ K' = K /\ rreached E K s' /\ calm_from s' /\ tidy C E K s'
    | PExn e E' K' s' => E' = E /\ K' = K /\ rreached E K s' /\ calm_from s' /\ tidy C E K s' /\ e = XBadGet /\ ~ getless p
    | PMore => ~ loop_free p
    | PWrong _ => False
    end.
Proof. exact (TidyFacts.tidy_sound C st nb eqf ltf HC). Qed.
(** It does to values what it says. *)
Theorem C75_meaning : forall p (E : env) (K : kenv) s n m σ κ,
  compiles C st nb (types E) (dom K) p -> rreached E K s -> calm_from s -> tidy C E K s ->
  shows C (mem s) E σ -> kshows (mem s) K κ ->
  match prun C n m eqf ltf p E K s with
  | PRet E' K' s' => E' = E /\ K' = K /\
      exists σ', shows C (mem s') E σ' /\ kshows (mem s') K κ /\ means C eqf ltf p σ None σ'
  | PExn e E' K' s' => E' = E /\ K' = K /\
      exists σ', shows C (mem s') E σ' /\ kshows (mem s') K κ /\ means C eqf ltf p σ (Some e) σ'
  | _ => True
  end.
Proof. exact (TidyFacts.tidy_meaning C st nb eqf ltf HC). Qed.
(** A whole program leaves nothing. *)
Theorem C75_whole : forall p orc m, compiles C st nb ∅ ∅ p -> (forall i, orc i = 0%Z) ->
  exists r, proceeds C eqf ltf p m ∅ ∅ (init orc) r /\
    match r with
    | PRet _ _ s' => mem s' = ∅
    | PExn e _ _ s' => mem s' = ∅ /\ e = XBadGet /\ ~ getless p
    | PMore => ~ loop_free p
    | PWrong _ => False
    end.
Proof. exact (TidyFacts.tidy_whole C st nb eqf ltf HC). Qed.
(** With recursive functions as well. *)
Theorem C75_functions : forall (Φ : list func) (sigs : list (list vty)) (N : nat), funcs_compile C st nb sigs N Φ ->
  forall p (E : env) (K : kenv) s d m σ κ,
  (forall x, is_Some (E !! x) \/ is_Some (K !! x) \/ fmentions p x -> x < N) ->
  fcompiles C st nb sigs (types E) (dom K) p -> rreached E K s -> calm_from s -> tidy C E K s ->
  shows C (mem s) E σ -> kshows (mem s) K κ ->
  exists r, proceeds C eqf ltf (unroll Φ N d p) m E K s r /\
    match r with
    | PRet E' K' s' => E' = E /\ K' = K /\ rreached E K s' /\ calm_from s' /\ tidy C E K s' /\
        exists σ', shows C (mem s') E σ' /\ kshows (mem s') K κ /\ fmeans C eqf ltf Φ p σ None σ'
    | PExn e E' K' s' => E' = E /\ K' = K /\ rreached E K s' /\ calm_from s' /\ tidy C E K s' /\ e = XBadGet /\
        exists σ', shows C (mem s') E σ' /\ kshows (mem s') K κ /\ fmeans C eqf ltf Φ p σ (Some e) σ'
    | PMore => True
    | PWrong _ => False
    end.
Proof. exact (TidyFacts.tidy_functions C st nb eqf ltf HC). Qed.
End props.

(** *** Examples *)
(** The program of C68_backup_refuted: it compiles, and while nothing fails it ends normally, although both
    assignments make backups; with one failure it goes wrong. *)
Lemma parked_compiles : compiles C0 true false ∅ ∅ parked_prog.
Proof.
  assert (HgL : good_tys C0 true false VL) by (apply good_tysb_ok; by vm_compute).
  assert (HgA : good_tys C0 true false VA) by (apply good_tysb_ok; by vm_compute).
  unfold parked_prog. cbn [compiles].
  exists 10, (TObj 2). split; [by repeat constructor|]. split; [done|]. split; [set_solver|].
  exists 11, (TVar VL). split. { split; [done|]. split; [done|]. split; [done|]. exists 2, 0. split; [done|]. apply best_match_resolve. by vm_compute. }
  split; [done|]. split; [set_solver|].
  exists 12, (TObj 4). split. { split; [done|]. split; [done|]. by repeat constructor. } split; [done|]. split; [set_solver|].
  exists 13, (TObj 3). split; [by repeat constructor|]. split; [done|]. split; [set_solver|].
  exists 1, (TVar VA). split. { split; [done|]. split; [done|]. split; [done|]. exists 3, 0. split; [done|]. apply best_match_resolve. by vm_compute. }
  split; [done|]. split; [set_solver|].
  exists 2, (TVar VA). split. { split; [done|]. split; [done|]. split; [done|]. exists 4, 1. split; [done|]. apply best_match_resolve. by vm_compute. }
  split; [done|]. split; [set_solver|].
  split; [split; [by exists VA|done]|by exists VA].
Qed.
Example C75_example_whole : good_env C0 true false /\ compiles C0 true false ∅ ∅ parked_prog /\ getless parked_prog /\
  (forall i, calm i = 0%Z) /\
  ends (prun C0 12 0 eq0 lt0 parked_prog ∅ ∅ (init calm)) = Some (None, true, 0) /\
  prun C0 12 0 eq0 lt0 parked_prog ∅ ∅ (init (throws_at [11])) = PWrong FAssert.
Proof.
  split; [exact C0_good|]. split; [exact parked_compiles|]. split; [cbn; tauto|]. split; [done|]. split; by vm_compute.
Qed.

(** void settle(T& x, T& y): while x holds a loud, x = y; by recursion. Variable 1 holds a loud and 2 a node: the
    assignment makes a backup. *)
Definition tidyb (C : cfg) (E : env) (s : state) : bool :=
  forallb (fun p => match p.2 with
    | BVar tys a => match see_var (mem s) (see_obj C (mem s) 8) tys a with Some k => cleanv k | None => false end
    | BObj u a => match mem s !! a with
      | Some (Cell KStk (Some o) None) => match see_obj C (mem s) 8 u o with Some v => clean v | None => false end
      | _ => false end
    end) (map_to_list E).
Lemma tidyb_ok C E s : tidyb C E s = true -> tidy C E ∅ s.
Proof.
  intros H σ κ Hs Hk. split.
  - intros x α Hx. specialize (Hs x). unfold env, astate in *. rewrite Hx in Hs. destruct (E !! x) as [b|] eqn:HE; [|by destruct α].
    unfold tidyb in H. rewrite forallb_forall in H. specialize (H (x, b)).
    assert (Hin : In (x, b) (map_to_list E)) by (by apply elem_of_list_In, elem_of_map_to_list). specialize (H Hin). cbn [snd] in H.
    destruct b as [tys a|u a], α as [tys' k|u' v]; try done; destruct Hs as [-> Hs]; simpl.
    + destruct (see_var (mem s) (see_obj C (mem s) 8) tys a) as [k'|] eqn:Hk'; [|done].
      by rewrite (ObserveFacts.var_holds_unique C (mem s) tys a k k' Hs (ex_intro _ 8 Hk')).
    + destruct (mem s !! a) as [[[] [o|] []]|] eqn:Ha; try done.
      destruct (see_obj C (mem s) 8 u o) as [v'|] eqn:Hv'; [|done].
      by rewrite (ObserveFacts.obj_holds_unique C (mem s) u a v v' Hs (ex_intro _ o (ex_intro _ 8 (conj Ha Hv')))).
  - intros x α rs Hx. specialize (Hk x). unfold kenv, kstate in *. by rewrite lookup_empty, Hx in Hk.
Qed.
Definition settle : func := Func [1; 2]
  (FSwitch 1 (fun u => if decide (u = 3) then FSeq (FDo (RMain (CAssign 1 2))) (FCall 0 [1; 2]) else FSkip)).
Lemma settle_compiles : funcs_compile C0 true false [[TVar VA; TVar VA]] 50 [settle].
Proof.
  constructor; [|constructor]. split; [apply (bool_decide_unpack _); by vm_compute|]. split; [done|]. split.
  { intros x [H|H]; [apply in_pair in H; lia|]. simpl in H. destruct H as [->|(u&H)]; [lia|]. destruct (decide (u = 3)); [|done].
    destruct H as [H|H]; apply in_pair in H; lia. }
  exists VA. split; [by vm_compute|]. intros t Ht. cbv beta. destruct (decide (ity_uid t = 3)); [|exact I]. split.
  - exists VA. split; by vm_compute.
  - exists [TVar VA; TVar VA]. split; [done|]. split; [apply (bool_decide_unpack _); by vm_compute|]. by repeat constructor.
Qed.
Example C75_example_settle : exists E s E' K' s', rreached C0 true false eq0 lt0 E ∅ s /\ calm_from s /\ tidy C0 E ∅ s /\
  (forall x, is_Some (E !! x) \/ is_Some ((∅ : kenv) !! x) \/ fmentions (FCall 0 [1; 2]) x -> x < 50) /\
  fcompiles C0 true false [[TVar VA; TVar VA]] (bnd_ty <$> E) (dom (∅ : kenv)) (FCall 0 [1; 2]) /\
  compiles C0 true false (bnd_ty <$> E) (dom (∅ : kenv)) again_prog /\
  sees C0 E s 1 VA (false, 0, loud5) /\ sees C0 E s 2 VA (false, 1, node9) /\
  prun C0 12 0 eq0 lt0 (unroll [settle] 50 2 (FCall 0 [1; 2])) E ∅ s = PRet E' K' s' /\
  sees C0 E' s' 1 VA (false, 1, node9).
Proof.
  assert (H : exists E s, reached C0 true false eq0 lt0 E s /\ calm_from s /\ tidy C0 E ∅ s /\ (forall x, is_Some (E !! x) -> x < 50) /\
    fcompiles C0 true false [[TVar VA; TVar VA]] (bnd_ty <$> E) (dom (∅ : kenv)) (FCall 0 [1; 2]) /\
    compiles C0 true false (bnd_ty <$> E) (dom (∅ : kenv)) again_prog /\
    sees C0 E s 1 VA (false, 0, loud5) /\ sees C0 E s 2 VA (false, 1, node9) /\
    exists E' K' s', prun C0 12 0 eq0 lt0 (unroll [settle] 50 2 (FCall 0 [1; 2])) E ∅ s = PRet E' K' s' /\
      sees C0 E' s' 1 VA (false, 1, node9)).
  { run_state C0 true false calm (two VA). split; [by_run|]. split; [intros i _; by vm_compute|]. split; [apply tidyb_ok; by vm_compute|].
    split. { intros x Hx. apply elem_of_dom in Hx. revert x Hx. apply (bool_decide_unpack _). by vm_compute. }
    split. { exists [TVar VA; TVar VA]. split; [done|]. split; [apply (bool_decide_unpack _); by vm_compute|].
             constructor; [by vm_compute|constructor; [by vm_compute|constructor]]. }
    split. { split; exists VA; split; by vm_compute. }
    split; [by_run|]. split; [by_run|].
    match goal with |- exists E1 K1 s1, ?r = _ /\ _ => destruct (after_ret r) as (KK&Hr) end; [by vm_compute|].
    eexists. exists KK. eexists. split; [exact Hr|]. clear Hr. by_run. }
  destruct H as (E&s&Hr&Hq&Ht&HN&Hc&Hc2&H1&H2&E'&K'&s'&Hrun&H1'). exists E, s, E', K', s'. split; [by apply to_rreached|].
  split; [done|]. split; [done|]. split.
  { intros x [Hx|[Hx|Hx]]; [by apply HN|by destruct Hx|]. apply in_pair in Hx. lia. }
  done.
Qed.

Definition PropsTidy_all := (C75_sound, C75_meaning, C75_whole, C75_functions).
Print Assumptions PropsTidy_all.
