(** Properties of swap where both variants hold the same alternative. [step c E s E' o s']: in
    a reachable state [s] with variables [E] the permitted command [c] has outcome [o] and leads
    to [s'], [E']. The statements use Spec.v, Observe.v and SwapSpec.v; the proofs are in
    SwapFacts.v. *)
From stdpp Require Import base gmap list numbers.
From Coq Require Import ZArith.
From Verif Require Import Base Types Variant Values Client Observe Spec History Reach Check SwapSpec.
From Verif Require Import Samples Runs Scenes.
From Verif Require SwapFacts.

Section props.
Context (C : cfg) (st nb : bool) (eqf ltf : uid -> uval -> uval -> bool).
Context (HC : good_env C st nb).
Notation step := (step C st nb eqf ltf).
Notation sees := (sees C).

(** *** C56: the content's own swap is used. If it cannot throw, neither can the swap of the
    variants, whatever the other operations of the type may throw. *)
Theorem C56_nothrow : forall x y E s E' o s' tys k1 k2 t,
  step (CSwap x y) E s E' o s' -> sees E s x tys k1 -> sees E s y tys k2 ->
  k1.1.2 = k2.1.2 -> tys !! k1.1.2 = Some t -> ~ throwing_swap C (ity_uid t) -> o = ODone.
Proof. exact (SwapFacts.swap_same_nothrow C st nb eqf ltf HC). Qed.

(** If it throws, both variants keep their alternative and where it is stored. *)
Theorem C56_threw : forall x y E s E' e s' tys k1 k2,
  step (CSwap x y) E s E' (OThrew e) s' -> sees E s x tys k1 -> sees E s y tys k2 -> k1.1.2 = k2.1.2 ->
  E' = E /\ (exists t, tys !! k1.1.2 = Some t /\ throwing_swap C (ity_uid t)) /\
  exists v1 v2, sees E' s' x tys (k1.1, v1) /\ sees E' s' y tys (k2.1, v2).
Proof. exact (SwapFacts.swap_same_threw C st nb eqf ltf HC). Qed.

(** For a type with a swap of its own and no member variants nothing is constructed, destroyed,
    allocated or moved to another address, in these two variants or elsewhere, even if it
    throws. *)
Theorem C56_in_place : forall x y E s E' o s' tys k1 k2 t b,
  step (CSwap x y) E s E' o s' -> sees E s x tys k1 -> sees E s y tys k2 ->
  k1.1.2 = k2.1.2 -> tys !! k1.1.2 = Some t ->
  ut_swap (te C (ity_uid t)) = Some b -> ut_members (te C (ity_uid t)) = [] ->
  E' = E /\ in_place s s'.
Proof. exact (SwapFacts.swap_in_place C st nb eqf ltf HC). Qed.
(** In particular the content stays where it is: a pointer obtained before now refers to the
    other value. *)
Theorem C56_address : forall s s' a l, in_place s s' ->
  (stored_at (mem s) a l <-> stored_at (mem s') a l).
Proof. exact SwapFacts.in_place_stored_iff. Qed.
End props.

(** ** Examples and refutations

    8: every operation may throw but its own swap; 9: likewise, but its swap may throw as well;
    10: holds variant<int, string> and swaps memberwise without throwing. *)
Definition t_own := UTraits false false false false false DIUser false [] (Some true).
Definition t_ownx := UTraits false false false false false DIUser false [] (Some false).
Definition t_hold := UTraits false false false false false DIUser false [[IPlain 0; IPlain 2]] (Some true).
Definition C2 : cfg := table_cfg (types ++ [t_own; t_ownx; t_hold]) t_int convs 20 false false.
Lemma C2_good : good_env C2 true false.
Proof. apply good_cfg_ok. by vm_compute. Qed.
Notation stepX := (step C2 true false eq0 lt0).

Definition VO : list ity := [IPlain 1; IWrap 8; IPlain 9; IPlain 10; IWrap 3].
(** 1 and 2: wrapped own 5 and 6; 3 and 4: 9 with 7 and 8; 5 and 6: 10 with 1 (int 3) and 2
    (string 4); 7 and 8: wrapped loud 11 and 12. *)
Definition owns : list cmd := [
  CMake 20 8 5 []; CFrom 1 VO 20 false; CMake 21 8 6 []; CFrom 2 VO 21 false;
  CMake 22 9 7 []; CFrom 3 VO 22 false; CMake 23 9 8 []; CFrom 4 VO 23 false;
  CMake 24 0 3 []; CFrom 25 [IPlain 0; IPlain 2] 24 false; CMake 26 10 1 [25]; CFrom 5 VO 26 false;
  CMake 27 2 4 []; CFrom 28 [IPlain 0; IPlain 2] 27 false; CMake 29 10 2 [28]; CFrom 6 VO 29 false;
  CMake 30 3 11 []; CFrom 7 VO 30 false; CMake 31 3 12 []; CFrom 8 VO 31 false].
Definition num (z : Z) : uval := UV (Some z) [].
Definition hold3 : uval := UV (Some 1%Z) [(false, 0, num 3)].
Definition hold4 : uval := UV (Some 2%Z) [(false, 1, num 4)].
(** How often the oracle is asked by [owns]. *)
Definition asked : nat := Eval vm_compute in opos (state_of C2 true false 8 8 eq0 lt0 calm owns).

(** Every question is answered "throw" from here on; only 8's own swap runs. *)
Definition all_throw : nat -> Z := fun i => if decide (i < asked) then 0%Z else 1%Z.
Example C56_nothrow_ex : exists E s E' s', stepX (CSwap 1 2) E s E' ODone s' /\
  sees C2 E s 1 VO (false, 1, num 5) /\ sees C2 E s 2 VO (false, 1, num 6) /\
  VO !! 1 = Some (IWrap 8) /\ (~ throwing_swap C2 8) /\ nt_move (te C2 8) = false /\
  sees C2 E' s' 1 VO (false, 1, num 6) /\ sees C2 E' s' 2 VO (false, 1, num 5).
Proof. run_step C2 true false all_throw owns (CSwap 1 2). by_runs. Qed.
Example C56_threw_ex : exists E s E' s', stepX (CSwap 3 4) E s E' (OThrew (XUser OpSwap 9 asked)) s' /\
  sees C2 E s 3 VO (false, 2, num 7) /\ sees C2 E s 4 VO (false, 2, num 8) /\ throwing_swap C2 9 /\
  sees C2 E' s' 3 VO (false, 2, num 1) /\ sees C2 E' s' 4 VO (false, 2, num 1).
Proof. run_step C2 true false all_throw owns (CSwap 3 4). by_runs. Qed.
(** The case of C56_in_place; the values are exchanged. *)
Example C56_in_place_ex : exists E s E' s', stepX (CSwap 3 4) E s E' ODone s' /\
  sees C2 E s 3 VO (false, 2, num 7) /\ sees C2 E s 4 VO (false, 2, num 8) /\
  VO !! 2 = Some (IPlain 9) /\ ut_swap (te C2 9) = Some false /\ ut_members (te C2 9) = [] /\
  sees C2 E' s' 3 VO (false, 2, num 8) /\ sees C2 E' s' 4 VO (false, 2, num 7).
Proof. run_step C2 true false calm owns (CSwap 3 4). by_runs. Qed.
(** Members of different alternatives: the members are swapped by moves, and nothing throws
    although nothing but the swaps and the moves of int and string is nothrow. *)
Example C56_members_ex : exists E s E' s', stepX (CSwap 5 6) E s E' ODone s' /\
  sees C2 E s 5 VO (false, 3, hold3) /\ sees C2 E s 6 VO (false, 3, hold4) /\ (~ throwing_swap C2 10) /\
  sees C2 E' s' 5 VO (false, 3, hold4) /\ sees C2 E' s' 6 VO (false, 3, hold3).
Proof. run_step C2 true false all_throw owns (CSwap 5 6). by_runs. Qed.
(** The two heap objects stay where they are. *)
Example C56_address_ex : exists E s E' s', stepX (CSwap 1 2) E s E' ODone s' /\ in_place s s' /\
  E !! 1 = Some (BVar VO 2%positive) /\ stored_at (mem s) 2%positive 3%positive /\ stored_at (mem s') 2%positive 3%positive.
Proof.
  run_step C2 true false calm owns (CSwap 1 2).
  assert (H : stepX (CSwap 1 2) (env_of C2 true false 8 8 eq0 lt0 calm owns) (state_of C2 true false 8 8 eq0 lt0 calm owns)
    (next_env C2 true false 8 8 eq0 lt0 calm owns (CSwap 1 2)) ODone
    (next_state C2 true false 8 8 eq0 lt0 calm owns (CSwap 1 2))) by by_run.
  split; [exact H|]. split.
  - eapply (C56_in_place C2 true false eq0 lt0 C2_good 1 2) with (tys := VO) (k1 := (false, 1, num 5)) (k2 := (false, 1, num 6)) (t := IWrap 8); [exact H|..]; by_run.
  - split; [by_run|]. split; exists (OWrap 8 3%positive), 1%Z; by_runs.
Qed.

(** Not so: variant::swap uses the swap of recursive_wrapper, which exchanges two pointers and
    cannot throw. It visits, and the visitor gets the wrapped objects, so the swap of the wrapped
    type is used, here std::swap, which throws. *)
Theorem C56_wrapped_refuted : exists E s E' s' e u, stepX (CSwap 7 8) E s E' (OThrew e) s' /\
  VO !! 4 = Some (IWrap u) /\
  sees C2 E s 7 VO (false, 4, num 11) /\ sees C2 E s 8 VO (false, 4, num 12) /\
  (exists v, sees C2 E' s' 7 VO (false, 4, v) /\ v <> num 11 /\ v <> num 12).
Proof.
  run_step C2 true false all_throw owns (CSwap 7 8). exists (XUser OpMove 3 asked), 3. split; [by_run|]. split; [by_run|].
  split; [by_run|]. split; [by_run|]. exists (num 1). split; [by_run|]. done.
Qed.

(** Not so: if no alternative's swap can throw, neither can swap. With different alternatives
    the contents are moved. *)
Definition VO2 : list ity := [IPlain 8; IPlain 10].
Definition owns2 : list cmd := owns ++ [CFrom 41 VO2 20 false; CFrom 42 VO2 26 false].
Definition asked2 : nat := Eval vm_compute in opos (state_of C2 true false 8 8 eq0 lt0 calm owns2).
Theorem C56_different_refuted : exists E s E' s' e, stepX (CSwap 41 42) E s E' (OThrew e) s' /\
  sees C2 E s 41 VO2 (false, 0, num 5) /\ sees C2 E s 42 VO2 (false, 1, hold3) /\
  (forall t, t ∈ VO2 -> ~ throwing_swap C2 (ity_uid t)).
Proof.
  run_step C2 true false (throws_at [asked2]) owns2 (CSwap 41 42). exists (XUser OpMove 10 asked2).
  split; [by_run|]. split; [by_run|]. split; [by_run|].
  intros t [->|[->|[]%elem_of_nil]%elem_of_cons]%elem_of_cons; by vm_compute.
Qed.

Definition PropsSwap_all := (C56_nothrow, C56_threw, C56_in_place, C56_address, C56_wrapped_refuted, C56_different_refuted).
Print Assumptions PropsSwap_all.
