(** Programs with variables of type boost::recursive_wrapper<T>, beside variants and objects (C64). The
    statements use WrappersSpec.v; the proofs are in WrappersProof.v and WrappersFacts.v. *)
From stdpp Require Import base gmap list numbers.
From Coq Require Import ZArith.
From Verif Require Import Base Types Variant Sem Values Client Observe Spec Trace History Owned OriginSpec Wrappers WrappersSpec.
From Verif Require Import Check Samples Runs Scenes WrappersRuns.
From Verif Require WrappersFacts.

Section props.
Context (C : cfg) (st nb : bool) (eqf ltf : uid -> uval -> uval -> bool) (HC : good_env C st nb).

(** *** C64: no permitted command has undefined behaviour... *)
Theorem C64_defined : forall E F s c,
  wreached C st nb eqf ltf E F s -> wadmissible C st nb E F s c ->
  exists E' F' o s', wyields C eqf ltf c E F s (WDone E' F' o s') /\ wreached C st nb eqf ltf E' F' s'.
Proof. exact (WrappersFacts.no_undefined C st nb eqf ltf HC). Qed.

(** ... and every command does what the specification says. *)
Theorem C64_programs : forall c E F s E' F' o s',
  wtakes C st nb eqf ltf c E F s E' F' o s' ->
  exists σ φ σ' φ', shows C (mem s) E σ /\ wshows C (mem s) F φ /\ shows C (mem s') E' σ' /\ wshows C (mem s') F' φ' /\
    wstep C eqf ltf σ φ c o σ' φ'.
Proof. exact (WrappersFacts.takes_spec C st nb eqf ltf HC). Qed.

(** A program without wrapper variables is one of the programs of the other properties. *)
Theorem C64_conservative : forall orc h E s,
  history C st nb eqf ltf orc h E s <-> whistory C st nb eqf ltf orc (PMain <$> h) E ∅ s.
Proof. exact (WrappersFacts.main_history C st nb eqf ltf). Qed.

(** Every wrapper variable has a pointer to a live heap object of its own... *)
Theorem C64_holds : forall E F s x u l,
  wreached C st nb eqf ltf E F s -> F !! x = Some (u, l) -> exists p v, wrap_holds C (mem s) u l p v.
Proof. exact (WrappersFacts.w_cell C st nb eqf ltf HC). Qed.
Theorem C64_distinct : forall E F s x y u l u' l' p,
  wreached C st nb eqf ltf E F s -> F !! x = Some (u, l) -> F !! y = Some (u', l') ->
  mem s !! l = Some (Cell KStk (Some (OWrap u p)) None) -> mem s !! l' = Some (Cell KStk (Some (OWrap u' p)) None) -> x = y.
Proof. exact (WrappersFacts.w_distinct C st nb eqf ltf HC). Qed.

(** ... variables and wrappers between them own all memory, none of it twice... *)
Theorem C64_ownership : forall E F s, wreached C st nb eqf ltf E F s -> wforest C (mem s) E F.
Proof. exact (WrappersFacts.w_ownership C st nb eqf ltf HC). Qed.
Theorem C64_nothing_left : forall s, wreached C st nb eqf ltf ∅ ∅ s -> mem s = ∅.
Proof. exact (WrappersFacts.w_nothing_left C st nb eqf ltf HC). Qed.

(** ... and objects are constructed and destroyed, blocks allocated and freed, as in C02 and C03. *)
Theorem C64_lifetimes : forall E F s l,
  wreached C st nb eqf ltf E F s ->
  occupant l (tr s) = Some (tag_at (mem s) l) /\
  forall k, cnt (EvC k l) (tr s) = cnt (EvD k l) (tr s) + if decide (tag_at (mem s) l = Some k) then 1 else 0.
Proof. exact (WrappersFacts.w_lifetimes C st nb eqf ltf HC). Qed.
Theorem C64_blocks : forall E F s l,
  wreached C st nb eqf ltf E F s -> exists b, block l (tr s) = Some b /\ (b = BLive <-> is_block (mem s) l).
Proof. exact (WrappersFacts.w_blocks C st nb eqf ltf HC). Qed.

(** Swap and move assignment exchange the two pointers and do nothing else; no user operation, no
    allocation. *)
Theorem C64_exchange : forall E F s x y u l r p q,
  x <> y -> wreached C st nb eqf ltf E F s -> F !! x = Some (u, l) -> F !! y = Some (u, r) ->
  mem s !! l = Some (Cell KStk (Some (OWrap u p)) None) -> mem s !! r = Some (Cell KStk (Some (OWrap u q)) None) ->
  forall n c, c = PSwap x y \/ c = PMoveAssign x y ->
  wexec C n eqf ltf c E F s = WDone E F ODone
    (set_mem (<[l := Cell KStk (Some (OWrap u q)) None]> (<[r := Cell KStk (Some (OWrap u p)) None]> (mem s))) s).
Proof. exact (WrappersFacts.w_exchange C st nb eqf ltf HC). Qed.

(** Copy assignment and assignment from a T are T's own assignments between the objects; with T's
    exceptions and no others. *)
Theorem C64_assign : forall E F s x y u l r p q n,
  wreached C st nb eqf ltf E F s -> F !! x = Some (u, l) -> F !! y = Some (u, r) ->
  mem s !! l = Some (Cell KStk (Some (OWrap u p)) None) -> mem s !! r = Some (Cell KStk (Some (OWrap u q)) None) ->
  wexec C n eqf ltf (PAssign x y) E F s =
    match us_cassign (sem C n) u p q s with
    | Ok _ s' => WDone E F ODone s' | Exn e s' => WDone E F (OThrew e) s' | Fault f => WFaulted f
    end.
Proof. exact (WrappersFacts.w_assign_is C st nb eqf ltf). Qed.
Theorem C64_assign_from : forall E F s x y mv u l a p n,
  wreached C st nb eqf ltf E F s -> F !! x = Some (u, l) -> E !! y = Some (BObj u a) ->
  mem s !! l = Some (Cell KStk (Some (OWrap u p)) None) ->
  wexec C n eqf ltf (PAssignFrom x y mv) E F s =
    match (if mv then us_massign else us_cassign) (sem C n) u p a s with
    | Ok _ s' => WDone E F ODone s' | Exn e s' => WDone E F (OThrew e) s' | Fault f => WFaulted f
    end.
Proof. exact (WrappersFacts.w_assign_from_is C st nb eqf ltf). Qed.

(** get_pointer() is changed by nothing else: not by assignments, nor by their exceptions, nor by what
    happens to other variables. *)
Theorem C64_pointer : forall c E F s E' F' o s' x u l,
  wtakes C st nb eqf ltf c E F s E' F' o s' -> F !! x = Some (u, l) -> ~ repoints c x ->
  F' !! x = Some (u, l) /\ exists p, mem s !! l = Some (Cell KStk (Some (OWrap u p)) None) /\ mem s' !! l = mem s !! l.
Proof. exact (WrappersFacts.w_pointer C st nb eqf ltf HC). Qed.

(** The documented Throws clauses: which operations of T the exceptions come from, if not from operator
    new; swap, move assignment, the destructor and get do not throw. *)
Theorem C64_throws : forall c E F s E' F' e s',
  wtakes C st nb eqf ltf c E F s E' F' (OThrew e) s' -> (forall c', c <> PMain c') ->
  exists K u, woperations c = Some K /\ wsubject E F c = Some u /\ from C K [IPlain u] e.
Proof. exact (WrappersFacts.w_throws C st nb eqf ltf HC). Qed.
Theorem C64_nothrow : forall c E F s E' F' e s',
  wtakes C st nb eqf ltf c E F s E' F' (OThrew e) s' ->
  match c with PMoveAssign _ _ | PSwap _ _ | PDrop _ | PGet _ => False | _ => True end.
Proof. exact (WrappersFacts.w_nothrow C st nb eqf ltf HC). Qed.
End props.

(** ** Examples *)

(** Wrappers 1 and 2 of type node, holding node 9 (copied from object 12) and a node 8. *)
Definition wraps12 : list wcmd :=
  (PMain <$> objects) ++ [PFrom 1 12 false; PMain (CMake 14 4 8 [11]); PFrom 2 14 true].
Definition node8 : uval := UV (Some 8%Z) [(false, 0, UV (Some 7%Z) [])].
(** What wrapper [x] holds: address, pointer, value. *)
Definition peek (F : wenv) (s : state) (x : name) : option (loc * (uid * loc * uval)) :=
  match F !! x with
  | Some f => match wdecode1 C0 8 (mem s) f with Some ω => Some (f.2, ω) | None => None end
  | None => None
  end.

Example C64_defined_ex : exists E F s, good_env C0 true false /\ wreached C0 true false eq0 lt0 E F s /\
  wadmissible C0 true false E F s (PAssign 1 2) /\
  (exists l p, peek F s 1 = Some (l, (4, p, node9))) /\ exists l p, peek F s 2 = Some (l, (4, p, node8)).
Proof.
  wrun_state C0 true false calm wraps12. split; [apply C0_good|]. split; [by_wrun|].
  split; [apply (wnextb_ok _ _ _ 8 8); by vm_compute|]. split; eexists _, _; by vm_compute.
Qed.
(** The assignment goes through T's; 1 keeps its pointer. *)
Example C64_programs_ex : exists E F s E' F' s', wtakes C0 true false eq0 lt0 (PAssign 1 2) E F s E' F' ODone s' /\
  exists l p, peek F s 1 = Some (l, (4, p, node9)) /\ peek F' s' 1 = Some (l, (4, p, node8)).
Proof.
  wrun_step C0 true false calm wraps12 (PAssign 1 2). split; [by_wrun|]. eexists _, _. split; by vm_compute.
Qed.
(** ... and also when it throws. *)
Example C64_pointer_ex : exists E F s E' F' s' l, wtakes C0 true false eq0 lt0 (PAssign 1 2) E F s E' F' (OThrew (XUser OpCopyAssign 4 14)) s' /\
  F !! 1 = Some (4, l) /\ ~ repoints (PAssign 1 2) 1.
Proof.
  wrun_step C0 true false (throws_at [14]) wraps12 (PAssign 1 2). eexists. split; [by_wrun|]. split; [by vm_compute|]. by intros [].
Qed.
Example C64_throws_ex : exists E F s E' F' s', wtakes C0 true false eq0 lt0 (PMove 3 1) E F s E' F' (OThrew (XUser OpMove 4 15)) s' /\
  woperations (PMove 3 1) = Some [OpMove] /\ wsubject E F (PMove 3 1) = Some 4.
Proof.
  wrun_step C0 true false (throws_at [15]) wraps12 (PMove 3 1). split; [by_wrun|]. split; [done|]. by vm_compute.
Qed.
Example C64_conservative_ex : exists E s, history C0 true false eq0 lt0 calm (two VA) E s /\ E !! 1 <> None.
Proof.
  exists (env_of C0 true false 8 8 eq0 lt0 calm (two VA)), (state_of C0 true false 8 8 eq0 lt0 calm (two VA)).
  split; [|by vm_compute]. eapply (checked_start C0 true false 8 8 eq0 lt0 _ _ _ _ (snd (default (∅, init calm, []) (run_of C0 true false 8 8 eq0 lt0 calm (two VA))))).
  by vm_compute.
Qed.
(** Exchange. *)
Example C64_exchange_ex : exists E F s E' F' s' l r p q, wtakes C0 true false eq0 lt0 (PSwap 1 2) E F s E' F' ODone s' /\
  peek F s 1 = Some (l, (4, p, node9)) /\ peek F s 2 = Some (r, (4, q, node8)) /\
  peek F' s' 1 = Some (l, (4, q, node8)) /\ peek F' s' 2 = Some (r, (4, p, node9)).
Proof.
  wrun_step C0 true false calm wraps12 (PSwap 1 2). eexists _, _, _, _. split; [by_wrun|].
  split; [by vm_compute|]. split; [by vm_compute|]. split; by vm_compute.
Qed.
Example C64_assign_ex : exists E F s l r p q, wreached C0 true false eq0 lt0 E F s /\ F !! 1 = Some (4, l) /\ F !! 2 = Some (4, r) /\
  mem s !! l = Some (Cell KStk (Some (OWrap 4 p)) None) /\ mem s !! r = Some (Cell KStk (Some (OWrap 4 q)) None) /\ p <> q.
Proof.
  wrun_state C0 true false calm wraps12. eexists _, _, _, _. split; [by_wrun|]. split; [by vm_compute|]. split; [by vm_compute|].
  split; [by vm_compute|]. split; [by vm_compute|]. done.
Qed.
Example C64_assign_from_ex : exists E F s l p a, wreached C0 true false eq0 lt0 E F s /\ F !! 1 = Some (4, l) /\ E !! 14 = Some (BObj 4 a) /\
  mem s !! l = Some (Cell KStk (Some (OWrap 4 p)) None).
Proof.
  wrun_state C0 true false calm wraps12. eexists _, _, _. split; [by_wrun|]. split; [by vm_compute|]. split; by vm_compute.
Qed.
(** The hypotheses of C64_holds, C64_distinct, C64_ownership, C64_lifetimes, C64_blocks: the state of
    C64_assign_ex. C64_nothrow: an exception is possible, from the others. *)
Example C64_nothrow_ex : exists E F s E' F' s', wtakes C0 true false eq0 lt0 (PMove 3 1) E F s E' F' (OThrew (XAlloc 14)) s'.
Proof. wrun_step C0 true false (throws_at [14]) wraps12 (PMove 3 1). by_wrun. Qed.
(** Everything dropped again, after a failed construction. *)
Example C64_nothing_left_ex : exists s, wreached C0 true false eq0 lt0 ∅ ∅ s /\ 0 < length (tr s) /\ thrown s = [XAlloc 14].
Proof.
  exists (wstate_of C0 true false 8 8 eq0 lt0 (throws_at [14]) (wraps12 ++ [PMove 3 1; PDrop 1; PDrop 2; PMain (CDrop 10);
    PMain (CDrop 11); PMain (CDrop 12); PMain (CDrop 13); PMain (CDrop 14)])).
  split; [|split; [apply (bool_decide_unpack _); by vm_compute|by vm_compute]].
  match goal with |- wreached _ _ _ _ _ _ _ (wstate_of _ _ _ _ _ _ _ ?o ?h) =>
    pose proof (wruns_reached C0 true false 8 8 eq0 lt0 o h ltac:(by vm_compute)) as H;
    assert (wenv_of C0 true false 8 8 eq0 lt0 o h = ∅) as He by (apply map_to_list_empty_iff; by vm_compute);
    assert (wraps_of C0 true false 8 8 eq0 lt0 o h = ∅) as Hf by (apply map_to_list_empty_iff; by vm_compute) end.
  rewrite -> He, Hf in H. exact H.
Qed.

Definition PropsWrappers_all := (C64_defined, C64_programs, C64_conservative, C64_holds, C64_distinct, C64_ownership, C64_nothing_left,
  C64_lifetimes, C64_blocks, C64_exchange, C64_assign, C64_assign_from, C64_pointer, C64_throws, C64_nothrow).
Print Assumptions PropsWrappers_all.
