(** Programs that hold references into the contents of variants (C65). The statements use
    PlacesSpec.v; the proofs are in PlacesProof.v and PlacesFacts.v. *)
From stdpp Require Import base gmap list numbers.
From Coq Require Import ZArith.
From Verif Require Import Base Types Variant Sem Values Client Observe Spec Trace History Reach Places PlacesSpec.
From Verif Require Import Check Samples Runs Scenes PlacesRuns.
From Verif Require PlacesFacts.

Section props.
Context (C : cfg) (st nb : bool) (eqf ltf : uid -> uval -> uval -> bool) (HC : good_env C st nb).

(** *** C65: no permitted command has undefined behaviour... *)
Theorem C65_defined : forall E K s c,
  rreached C st nb eqf ltf E K s -> radmissible C st nb E K s c ->
  exists E' K' o s', ryields C eqf ltf c E K s (RDone E' K' o s') /\ rreached C st nb eqf ltf E' K' s'.
Proof. exact (PlacesFacts.no_undefined C st nb eqf ltf HC). Qed.

(** ... and every command does what the specification says. *)
Theorem C65_programs : forall c E K s E' K' o s',
  rtakes C st nb eqf ltf c E K s E' K' o s' ->
  exists σ κ σ' κ', shows C (mem s) E σ /\ kshows (mem s) K κ /\ shows C (mem s') E' σ' /\ kshows (mem s') K' κ' /\
    rstep C eqf ltf σ κ c o σ' κ'.
Proof. exact (PlacesFacts.takes_spec C st nb eqf ltf HC). Qed.

(** A program without references is one of the programs of the other properties. *)
Theorem C65_conservative : forall orc h E s,
  history C st nb eqf ltf orc h E s <-> rhistory C st nb eqf ltf orc (RMain <$> h) E ∅ s.
Proof. exact (PlacesFacts.main_history C st nb eqf ltf). Qed.

(** References do not dangle: as long as their scope lasts they refer to the member variants of the
    object that the variable contains... *)
Theorem C65_points : forall E K s x b refs,
  rreached C st nb eqf ltf E K s -> K !! x = Some (b, refs) -> exists u l, points C (mem s) b u l refs.*2.
Proof. exact (PlacesFacts.r_points C st nb eqf ltf HC). Qed.
(** ... which nothing changes, whatever is done to the members. *)
Theorem C65_kept : forall c E K s E' K' o s' x f,
  rtakes C st nb eqf ltf c E K s E' K' o s' -> K !! x = Some f -> c <> RClose x -> K' !! x = Some f.
Proof. exact (PlacesFacts.r_kept C st nb eqf ltf HC). Qed.
(** A name in use stands for what the reference was bound to. *)
Theorem C65_names : forall E K s x b refs,
  rreached C st nb eqf ltf E K s -> K !! x = Some (b, refs) ->
  E !! x = None /\ NoDup refs.*1 /\
  forall r b', (r, b') ∈ refs -> E !! r = Some b' \/ exists refs', K !! r = Some (b', refs').
Proof. exact (PlacesFacts.r_names C st nb eqf ltf HC). Qed.
(** No two names stand for the same place. *)
Theorem C65_distinct : forall E K s x y b b',
  rreached C st nb eqf ltf E K s -> x <> y -> E !! x = Some b -> E !! y = Some b' ->
  (match b with BVar _ a | BObj _ a => a end) <> (match b' with BVar _ a | BObj _ a => a end).
Proof. exact (PlacesFacts.r_distinct C st nb eqf ltf HC). Qed.

(** Taking references and ending their scope executes nothing that can be observed; together they leave
    everything as it was. *)
Theorem C65_close : forall x E K s E' K' o s',
  rtakes C st nb eqf ltf (RClose x) E K s E' K' o s' -> o = ODone /\ s' = s.
Proof. exact (PlacesFacts.r_close_nothing C st nb eqf ltf). Qed.
Theorem C65_round : forall x u rs E K s E1 K1 s1 E2 K2 o s2,
  rtakes C st nb eqf ltf (ROpen x u rs) E K s E1 K1 ODone s1 -> rtakes C st nb eqf ltf (RClose x) E1 K1 s1 E2 K2 o s2 ->
  E2 = E /\ K2 = K /\ mem s2 = mem s /\ tr s2 = tr s.
Proof. exact (PlacesFacts.r_round C st nb eqf ltf HC). Qed.

(** Assigning to a reference is assigning to the member through get. *)
Theorem C65_member : forall x u rs r j y tys a E K s E1 K1 s1 E2 K2 o s2,
  E !! x = Some (BVar tys a) -> rs !! j = Some r -> y ∉ rs ->
  rtakes C st nb eqf ltf (ROpen x u rs) E K s E1 K1 ODone s1 ->
  rtakes C st nb eqf ltf (RMain (CAssign r y)) E1 K1 s1 E2 K2 o s2 ->
  yields C eqf ltf (CSetChild x u j y) E s (Done E o s2) /\ rtakes C st nb eqf ltf (RClose x) E2 K2 s2 E K ODone s2.
Proof. exact (PlacesFacts.r_member C st nb eqf ltf HC). Qed.

(** Objects are constructed and destroyed, blocks allocated and freed, as in C02 and C03; nothing is
    left in the end. *)
Theorem C65_lifetimes : forall E K s l,
  rreached C st nb eqf ltf E K s ->
  occupant l (tr s) = Some (tag_at (mem s) l) /\
  forall k, cnt (EvC k l) (tr s) = cnt (EvD k l) (tr s) + if decide (tag_at (mem s) l = Some k) then 1 else 0.
Proof. exact (PlacesFacts.r_lifetimes C st nb eqf ltf HC). Qed.
Theorem C65_blocks : forall E K s l,
  rreached C st nb eqf ltf E K s -> exists b, block l (tr s) = Some b /\ (b = BLive <-> is_block (mem s) l).
Proof. exact (PlacesFacts.r_blocks C st nb eqf ltf HC). Qed.
Theorem C65_nothing_left : forall s, rreached C st nb eqf ltf ∅ ∅ s -> mem s = ∅.
Proof. exact (PlacesFacts.r_nothing_left C st nb eqf ltf HC). Qed.
End props.

(** ** Examples *)

(** What a name holds. *)
Definition peek (E : env) (s : state) (x : name) : option aval := decode C0 8 (mem s) E !! x.
Definition blank1 : uval := UV (Some 1%Z) [].
(** References to the two members of the tree in 3; the first is opened again. *)
Definition inside : list rcmd := (RMain <$> trees) ++ [ROpen 3 7 [30; 31]].
Definition deep : list rcmd := inside ++ [ROpen 30 7 [32; 33]].

(** std::swap of the two members of one object. *)
Example C65_programs_ex : exists E K s E' K' s',
  rtakes C0 true false eq0 lt0 (RMain (CSwap 30 31)) E K s E' K' ODone s' /\
  peek E s 30 = Some (AVar VT (false, 2, tree2)) /\ peek E s 31 = Some (AVar VT (false, 0, blank1)) /\
  peek E' s' 31 = Some (AVar VT (false, 2, tree2)) /\ peek E' s' 30 = Some (AVar VT (false, 0, blank1)).
Proof.
  rrun_step C0 true false calm inside (RMain (CSwap 30 31)). split; [by_rrun|]. repeat split; by vm_compute.
Qed.
(** ... seen in the variable afterwards. *)
Example C65_close_ex : exists E K s E' K' s',
  rtakes C0 true false eq0 lt0 (RClose 3) E K s E' K' ODone s' /\ peek E s 3 = None /\
  peek E' s' 3 = Some (AVar VT (false, 2, UV (Some 1%Z) [(false, 0, blank1); (false, 2, tree2)])).
Proof.
  rrun_step C0 true false calm (inside ++ [RMain (CSwap 30 31)]) (RClose 3). split; [by_rrun|]. repeat split; by vm_compute.
Qed.
(** A grandchild is moved over its uncle; both scopes end. *)
Example C65_nested_ex : exists E K s E' K' s',
  rtakes C0 true false eq0 lt0 (RClose 3) E K s E' K' ODone s' /\
  peek E' s' 3 = Some (AVar VT (false, 2, UV (Some 1%Z) [(false, 2, tree2); (false, 1, loud5)])).
Proof.
  rrun_step C0 true false calm (deep ++ [RMain (CAssign 31 32); RClose 30]) (RClose 3). split; [by_rrun|]. by vm_compute.
Qed.
Example C65_defined_ex : exists E K s, good_env C0 true false /\ rreached C0 true false eq0 lt0 E K s /\
  radmissible C0 true false E K s (RMain (CAssign 31 32)).
Proof.
  rrun_state C0 true false calm deep. split; [apply C0_good|]. split; [by_rrun|]. apply (rnextb_ok _ _ _ 8 8). by vm_compute.
Qed.
(** Two scopes, one inside the other. *)
Example C65_points_ex : exists E K s b refs b' refs', rreached C0 true false eq0 lt0 E K s /\
  K !! 3 = Some (b, refs) /\ refs.*1 = [30; 31] /\ K !! 30 = Some (b', refs') /\ refs'.*1 = [32; 33].
Proof.
  rrun_state C0 true false calm deep. eexists _, _, _, _. split; [by_rrun|]. split; [by vm_compute|]. split; [by vm_compute|].
  split; by vm_compute.
Qed.
(** The hypotheses of C65_names, C65_distinct, C65_lifetimes, C65_blocks: the same state. C65_kept: an
    assignment to a member that throws. *)
Example C65_kept_ex : exists E K s E' K' s' e f,
  rtakes C0 true false eq0 lt0 (RMain (CAssign 31 32)) E K s E' K' (OThrew e) s' /\ K !! 3 = Some f.
Proof.
  rrun_step C0 true false (throws_at [16]) deep (RMain (CAssign 31 32)). eexists _, _. split; [by_rrun|]. by vm_compute.
Qed.
Example C65_distinct_ex : exists E K s a a', rreached C0 true false eq0 lt0 E K s /\ 31 <> 32 /\
  E !! 31 = Some (BVar VT a) /\ E !! 32 = Some (BVar VT a').
Proof.
  rrun_state C0 true false calm deep. eexists _, _. split; [by_rrun|]. split; [done|]. split; by vm_compute.
Qed.
Example C65_round_ex : exists E K s E1 K1 s1, rtakes C0 true false eq0 lt0 (ROpen 3 7 [30; 31]) E K s E1 K1 ODone s1 /\
  radmissible C0 true false E1 K1 s1 (RClose 3).
Proof.
  rrun_step C0 true false calm (RMain <$> trees) (ROpen 3 7 [30; 31]). split; [by_rrun|]. apply (rnextb_ok _ _ _ 8 8). by vm_compute.
Qed.
(** get throws if the content has another type. *)
Example C65_open_bad_ex : exists E K s E1 K1 s1, rtakes C0 true false eq0 lt0 (ROpen 31 7 [32; 33]) E K s E1 K1 (OThrew XBadGet) s1.
Proof. rrun_step C0 true false calm inside (ROpen 31 7 [32; 33]). by_rrun. Qed.
Example C65_member_ex : exists E K s E1 K1 s1 E2 K2 s2 a, E !! 3 = Some (BVar VT a) /\ [30; 31] !! 1 = Some 31 /\ 21 ∉ [30; 31] /\
  rtakes C0 true false eq0 lt0 (ROpen 3 7 [30; 31]) E K s E1 K1 ODone s1 /\
  rtakes C0 true false eq0 lt0 (RMain (CAssign 31 21)) E1 K1 s1 E2 K2 ODone s2.
Proof.
  rrun_step C0 true false calm (RMain <$> trees) (ROpen 3 7 [30; 31]).
  exists (rnext_env C0 true false 8 8 eq0 lt0 calm inside (RMain (CAssign 31 21))),
         (rnext_kept C0 true false 8 8 eq0 lt0 calm inside (RMain (CAssign 31 21))),
         (rnext_state C0 true false 8 8 eq0 lt0 calm inside (RMain (CAssign 31 21))).
  eexists. split; [by vm_compute|]. split; [done|]. split; [apply (bool_decide_unpack _); by vm_compute|]. split; [by_rrun|].
  assert (H : renv_of C0 true false 8 8 eq0 lt0 calm inside = rnext_env C0 true false 8 8 eq0 lt0 calm (RMain <$> trees) (ROpen 3 7 [30; 31])) by (by vm_compute).
  assert (H1 : rkept_of C0 true false 8 8 eq0 lt0 calm inside = rnext_kept C0 true false 8 8 eq0 lt0 calm (RMain <$> trees) (ROpen 3 7 [30; 31])) by (by vm_compute).
  assert (H2 : rstate_of C0 true false 8 8 eq0 lt0 calm inside = rnext_state C0 true false 8 8 eq0 lt0 calm (RMain <$> trees) (ROpen 3 7 [30; 31])) by (by vm_compute).
  rewrite <- H, <- H1, <- H2. by_rrun.
Qed.
(** Assignment from a part of another variant; construction from it, with a move. *)
Example C65_assign_get_ex : exists E K s E' K' s', rtakes C0 true false eq0 lt0 (RAssignGet 31 23 7 true) E K s E' K' ODone s' /\
  peek E s 31 = Some (AVar VT (false, 0, blank1)) /\ peek E' s' 31 = Some (AVar VT (false, 2, tree2)).
Proof.
  rrun_step C0 true false calm inside (RAssignGet 31 23 7 true). split; [by_rrun|]. split; by vm_compute.
Qed.
Example C65_from_get_ex : exists E K s E' K' s', rtakes C0 true false eq0 lt0 (RFromGet 40 VT 30 7 false) E K s E' K' ODone s' /\
  peek E' s' 40 = Some (AVar VT (false, 2, tree2)).
Proof.
  rrun_step C0 true false calm inside (RFromGet 40 VT 30 7 false). split; [by_rrun|]. by vm_compute.
Qed.
Example C65_poke_get_ex : exists E K s E' K' s', rtakes C0 true false eq0 lt0 (RPokeGet 30 7 40) E K s E' K' ODone s' /\
  peek E' s' 30 = Some (AVar VT (false, 2, UV (Some 2%Z) [(false, 0, blank1); (false, 1, loud5)])).
Proof.
  rrun_step C0 true false calm (inside ++ [RFromGet 40 VT 30 7 false; ROpen 40 7 [41; 42]; RMain (CSwap 41 42); RClose 40]) (RPokeGet 30 7 40).
  split; [by_rrun|]. by vm_compute.
Qed.
Example C65_conservative_ex : exists E s, history C0 true false eq0 lt0 calm (two VA) E s /\ E !! 1 <> None.
Proof.
  exists (env_of C0 true false 8 8 eq0 lt0 calm (two VA)), (state_of C0 true false 8 8 eq0 lt0 calm (two VA)).
  split; [|by vm_compute]. eapply (checked_start C0 true false 8 8 eq0 lt0 _ _ _ _ (snd (default (∅, init calm, []) (run_of C0 true false 8 8 eq0 lt0 calm (two VA))))).
  by vm_compute.
Qed.
(** Everything dropped again, after an exception inside two scopes. *)
Example C65_nothing_left_ex : exists s, rreached C0 true false eq0 lt0 ∅ ∅ s /\ 0 < length (tr s) /\ thrown s <> [].
Proof.
  exists (rstate_of C0 true false 8 8 eq0 lt0 (throws_at [16]) (deep ++ [RMain (CAssign 31 32); RClose 30; RClose 3] ++
    (RMain <$> (CDrop <$> [13; 20; 21; 22; 23; 24; 3])))).
  split; [|split; [apply (bool_decide_unpack _); by vm_compute|apply (bool_decide_unpack _); by vm_compute]].
  match goal with |- rreached _ _ _ _ _ _ _ (rstate_of _ _ _ _ _ _ _ ?o ?h) =>
    pose proof (rruns_reached C0 true false 8 8 eq0 lt0 o h ltac:(by vm_compute)) as H;
    assert (renv_of C0 true false 8 8 eq0 lt0 o h = ∅) as He by (apply map_to_list_empty_iff; by vm_compute);
    assert (rkept_of C0 true false 8 8 eq0 lt0 o h = ∅) as Hf by (apply map_to_list_empty_iff; by vm_compute) end.
  rewrite -> He, Hf in H. exact H.
Qed.

Definition PropsPlaces_all := (C65_defined, C65_programs, C65_conservative, C65_points, C65_kept, C65_names, C65_distinct,
  C65_close, C65_round, C65_member, C65_lifetimes, C65_blocks, C65_nothing_left).
Print Assumptions PropsPlaces_all.
