(** Claims that are false of the code, each with a program that shows it. *)
From stdpp Require Import base gmap list numbers.
From Coq Require Import ZArith.
From Verif Require Import Base Types Dispatch Variant Sem Values Client Observe Spec Owned History Reach Lax Alias.
From Verif Require Import Check Samples Runs Scenes.
From Verif Require TypeChoice AliasFacts.

(** The tactics run the program at level 8 and lift the result. *)
Ltac lax_run_state C orc h :=
  exists (lax_env C eq0 lt0 8 8 orc h), (lax_state C eq0 lt0 8 8 orc h).
Definition next (C : cfg) (c : cmd) (E : env) (s : state) : env * state :=
  match exec C 8 eq0 lt0 c E s with Done E' _ s' => (E', s') | Faulted _ => (∅, s) end.
Ltac by_fault := apply (fault_yields _ _ _ 8); [done|by vm_compute].
Ltac by_done := apply (exec_yields _ 8); by vm_compute.
Lemma next_done C c E s o : match exec C 8 eq0 lt0 c E s with Done _ o' _ => Some o' | Faulted _ => None end = Some o ->
  yields C eq0 lt0 c E s (Done (next C c E s).1 o (next C c E s).2).
Proof. unfold next. destruct (exec C 8 eq0 lt0 c E s) eqn:Hx; [|done]. intros [= ->]. by apply (exec_yields C 8). Qed.

(** *** C14: nothrow copy, throwing move. The library never expects a backup of such a type
    ([never_uses_backup]), and makes one: after a failed assignment, reading the variant
    reads the backup holder as a value. *)
Definition VC : list ity := [IPlain 5; IPlain 3].
Theorem C14_type_confusion_refuted : exists C E s E' e s' a t p,
  good_env C true false /\ lax_reached C eq0 lt0 E s /\ lax_admissible C E s (CAssign 1 2) /\
  yields C eq0 lt0 (CAssign 1 2) E s (Done E' (OThrew e) s') /\
  E' !! 1 = Some (BVar VC a) /\ which a s' = Ok 0%Z s' /\ VC !! 0 = Some t /\ nothrow_copy C t /\
  mem s' !! a = Some (Cell KVar (Some (OBackup t (Some p))) (Some (-1)%Z)) /\
  yields C eq0 lt0 (CRead 1) E' s' (Faulted FTypeConfusion).
Proof.
  exists C0. lax_run_state C0 (throws_at [4]) [CMake 15 5 8 []; CMake 13 3 5 []; CFrom 1 VC 15 false; CFrom 2 VC 13 false].
  do 4 eexists. exists (IPlain 5). eexists.
  split; [apply C0_good|]. split; [apply lax_runs_ok; by vm_compute|]. split; [apply (lax_nextb_ok _ 8 8); by vm_compute|].
  split; [apply next_done; by vm_compute|]. split; [vm_compute; reflexivity|]. split; [by vm_compute|]. split; [done|].
  split; [by exists 5|]. split; [by vm_compute|by_fault].
Qed.

(** *** C15: assignment from, and swap with, a variant that has its value in a backup. A
    reachable state, a command that compiles (and is not [unparked]): an assertion fails... *)
Theorem C15_assertion_refuted : exists C E s σ i1 v1 i2 v2,
  good_env C true false /\ reached C true false eq0 lt0 E s /\ shows C (mem s) E σ /\
  sees C E s 1 VA (true, i1, v1) /\ sees C E s 2 VA (false, i2, v2) /\
  (forall c, c ∈ [CAssign 2 1; CMoveAssign 2 1; CSwap 1 2] ->
     typed C true false 8 σ c /\ yields C eq0 lt0 c E s (Faulted FAssert)).
Proof.
  exists C0. run_state C0 true false (throws_at [11]) (two_assign VA). eexists.
  exists 0, loud5, 1, node9.
  split; [apply C0_good|]. split; [by_run|]. split; [apply (decode_shows _ 8); by vm_compute|].
  split; [by_run|]. split; [by_run|]. intros c Hc. rewrite !elem_of_cons, elem_of_nil in Hc.
  destruct Hc as [->|[->|[->|[]]]]; (split; [apply typedb_ok; by vm_compute|by_fault]).
Qed.
(** ... or, with assertions off, the assignment succeeds and leaves a null holder under an
    index that stands for a value; reading it is undefined. *)
Theorem C15_null_holder_refuted : exists C E s σ i1 v1 i2 v2,
  good_env C true false /\ reached C true false eq0 lt0 E s /\ shows C (mem s) E σ /\
  sees C E s 1 VA (true, i1, v1) /\ sees C E s 2 VA (false, i2, v2) /\
  (forall c, c ∈ [CAssign 2 1; CMoveAssign 2 1] ->
     typed C true false 8 σ c /\
     exists E' s' a, yields C eq0 lt0 c E s (Done E' ODone s') /\ E' !! 2 = Some (BVar VA a) /\
       mem s' !! a = Some (Cell KVar (Some (OBackup (IPlain 3) None)) (Some 0%Z)) /\
       yields C eq0 lt0 (CRead 2) E' s' (Faulted FTypeConfusion)).
Proof.
  exists C0_nd. run_state C0_nd true false (throws_at [11]) (two_assign VA). eexists.
  exists 0, loud5, 1, node9.
  split; [apply good_cfg_ok; by vm_compute|]. split; [by_run|]. split; [apply (decode_shows _ 8); by vm_compute|].
  split; [by_run|]. split; [by_run|]. intros c Hc. rewrite !elem_of_cons, elem_of_nil in Hc.
  destruct Hc as [->|[->|[]]].
  all: split; [apply typedb_ok; by vm_compute|]; do 3 eexists;
    (split; [apply next_done; by vm_compute|]); (split; [vm_compute; reflexivity|]); (split; [by vm_compute|by_fault]).
Qed.

(** *** C16: the fallback type. Always the first nothrow default constructible one... *)
Theorem C16_first : forall C tys,
  match find_fallback C tys with
  | Some (j, _) => exists u, fallback C tys j u
  | None => no_fallback C tys
  end.
Proof. exact TypeChoice.find_fallback_spec. Qed.
(** ... so boost::blank is not preferred. *)
Theorem C16_blank_preferred_refuted : exists C tys i u j u',
  tys !! i = Some (IPlain u) /\ ut_blank (te C u) = true /\ nt_default (te C u) = true /\
  fallback C tys j u' /\ (exists m, find_fallback C tys = Some (j, m)) /\ ut_blank (te C u') = false.
Proof.
  exists C0, [IPlain 3; IPlain 0; IPlain 1], 2, 1, 1, 0. do 3 (split; [done|]). split.
  - split; [done|]. split; [done|]. intros i t Hi Ht (u&->&Hu). destruct i as [|i]; [|lia].
    simpl in Ht. by injection Ht as <-.
  - split; [|done]. eexists. by vm_compute.
Qed.

(** *** C17: a failed assignment leaves an indeterminate value: the fallback int. Reading it
    is undefined ([ind] records that). *)
Definition VI : list ity := [IPlain 3; IPlain 4; IPlain 0].
Theorem C17_indeterminate_refuted : exists C E s E' e s',
  good_env C false false /\ step C false false eq0 lt0 (CAssign 1 2) E s E' (OThrew e) s' /\
  (exists k, sees C E s 1 VI k /\ determinate k.2 = true) /\ sees C E' s' 1 VI (false, 2, UV None []) /\ ind s' = false /\
  exists s'', yields C eq0 lt0 (CRead 1) E' s' (Done E' (OVal 0 (UV None [])) s'') /\ ind s'' = true.
Proof.
  exists C0, (env_of C0 false false 8 8 eq0 lt0 (throws_at [9]) (two VI)),
    (state_of C0 false false 8 8 eq0 lt0 (throws_at [9]) (two VI)),
    (next_env C0 false false 8 8 eq0 lt0 (throws_at [9]) (two VI) (CAssign 1 2)), (XUser OpCopy 2 9),
    (next_state C0 false false 8 8 eq0 lt0 (throws_at [9]) (two VI) (CAssign 1 2)).
  split; [apply C0_good'|]. split; [by_run|]. split; [exists (false, 0, loud5); split; [by_run|done]|].
  split; [by_run|]. split; [by vm_compute|].
  eexists. split; [apply (exec_yields C0 8); vm_compute; reflexivity|by vm_compute].
Qed.
(** A default constructed variant whose first type is recursive_wrapper<int> holds an
    indeterminate int as well: recursive_wrapper's constructor is `p_(new T)`. *)
Theorem C20_wrapper_value_initialised_refuted : exists C E s E' s',
  good_env C false false /\ step C false false eq0 lt0 (CDefault 3 [IWrap 0]) E s E' ODone s' /\
  sees C E' s' 3 [IWrap 0] (false, 0, UV None []).
Proof. exists C0. run_step C0 false false calm objects (CDefault 3 [IWrap 0]). split; [apply C0_good'|]. by_runs. Qed.

(** *** C18: assigning a part of the content. The source is destroyed before it is read, by
    copy assignment and by move assignment, at another index and (deeper inside) at the same
    one. *)
Theorem C18_own_part_refuted : exists C E s a,
  good_env C true false /\ reached C true false eq0 lt0 E s /\ E !! 3 = Some (BVar VT a) /\
  sees C E s 3 VT (false, 2, tree1) /\
  (forall j mv, (j, mv) ∈ [(1, false); (1, true); (0, false)] ->
     settles (fun n => assign_own C (sem C n) VT a 7 j mv) s (Fault FDeadObject)).
Proof.
  exists C0. run_state C0 true false calm trees. eexists. split; [apply C0_good|]. split; [by_run|].
  split; [by vm_compute|]. split; [by_run|]. intros j mv Hj. rewrite !elem_of_cons, elem_of_nil in Hj.
  destruct Hj as [[= -> ->]|[[= -> ->]|[[= -> ->]|[]]]].
  all: exists 8; intros n Hn; rewrite (assign_own_mono C0 8 n); [by vm_compute|done|by vm_compute].
Qed.

(** If the part's content has another index and its type is copied to a temporary first, that is,
    its copy constructor may throw and its move constructor does not, copy assignment from the part
    is safe: the variant gets the part's value or, on an exception, stays as it is. *)
Theorem C18_copied_first : forall C st nb eqf ltf E s x tys a k u j z ks i t v, good_env C st nb ->
  reached C st nb eqf ltf E s -> E !! x = Some (BVar tys a) -> sees C E s x tys k -> has tys k u ->
  ut_members (te C u) !! j = Some tys -> k.2 = UV z ks -> ks !! j = Some (false, i, v) -> tys !! i = Some t ->
  k.1 <> (false, i) -> ~ nothrow_copy C t -> nothrow_move C t ->
  exists r, settles (fun n => assign_own C (sem C n) tys a u j false) s r /\
    ((exists s', r = Ok tt s' /\ sees C E s' x tys (false, i, erase v) /\ forest C (mem s') E /\
        forall y, y <> x -> same_at C E s E s' y) \/
     (exists e s', r = Exn e s' /\ forest C (mem s') E /\ forall y, same_at C E s E s' y)).
Proof. exact (fun C st nb eqf ltf E s x tys a k u j z ks i t v HC => AliasFacts.own_part_safe C st nb eqf ltf HC E s x tys a k u j z ks i t v). Qed.
(** Move assignment from the same part is not. *)
Definition held : list cmd := objects ++ [CFrom 3 VL 12 false].
Theorem C18_moved_part_refuted : exists C E s a,
  good_env C true false /\ reached C true false eq0 lt0 E s /\ E !! 3 = Some (BVar VL a) /\
  sees C E s 3 VL (false, 1, node9) /\
  (exists s', settles (fun n => assign_own C (sem C n) VL a 4 0 false) s (Ok tt s')) /\
  settles (fun n => assign_own C (sem C n) VL a 4 0 true) s (Fault FDeadObject).
Proof.
  exists C0. run_state C0 true false calm held. eexists. split; [apply C0_good|]. split; [by_run|].
  split; [by vm_compute|]. split; [by_run|]. split; [eexists|].
  all: exists 8; intros n Hn; rewrite (assign_own_mono C0 8 n); [vm_compute; reflexivity|done|by vm_compute].
Qed.
Example C18_copied_first_ex : exists E s a,
  reached C0 true false eq0 lt0 E s /\ E !! 3 = Some (BVar VL a) /\ sees C0 E s 3 VL (false, 1, node9) /\ has VL (false, 1, node9) 4 /\
  ut_members (te C0 4) !! 0 = Some VL /\ VL !! 0 = Some (IPlain 2) /\ ~ nothrow_copy C0 (IPlain 2) /\ nothrow_move C0 (IPlain 2).
Proof.
  run_state C0 true false calm held. eexists. split; [by_run|]. split; [by vm_compute|]. split; [by_run|].
  split; [by exists (IWrap 4)|]. split; [done|]. split; [done|]. split; [intros (u&[= <-]&[=])|by exists 2].
Qed.

(** *** C43: the fallback object. A failed assignment to a variant whose fallback type has a
    constructor leaves an object of the MPL iterator's type; reading it is undefined. *)
Definition VU : list ity := [IPlain 3; IPlain 4; IPlain 6].
Theorem C43_fallback_object_refuted : exists C E s E' e s' a,
  good_env C true false /\ lax_reached C eq0 lt0 E s /\ lax_admissible C E s (CAssign 1 2) /\
  yields C eq0 lt0 (CAssign 1 2) E s (Done E' (OThrew e) s') /\
  E' !! 1 = Some (BVar VU a) /\ fallback C VU 2 6 /\
  mem s' !! a = Some (Cell KVar (Some (OIter 2)) (Some 2%Z)) /\
  yields C eq0 lt0 (CRead 1) E' s' (Faulted FTypeConfusion).
Proof.
  exists C0. lax_run_state C0 (throws_at [9]) (two VU). do 4 eexists.
  split; [apply C0_good|]. split; [apply lax_runs_ok; by vm_compute|]. split; [apply (lax_nextb_ok _ 8 8); by vm_compute|].
  split; [apply next_done; by vm_compute|]. split; [vm_compute; reflexivity|]. split.
  - split; [done|]. split; [done|]. intros i t Hi Ht (u&->&Hu). destruct i as [|[|i]]; [..|lia]; simpl in Ht; by injection Ht as <-.
  - split; [by vm_compute|by_fault].
Qed.
(** With the iterator dereferenced ([fb_deref]) the same program is fine. *)
Theorem C43_repaired : exists E s E' e s',
  good_env C0_fix true false /\ step C0_fix true false eq0 lt0 (CAssign 1 2) E s E' (OThrew e) s' /\
  sees C0_fix E' s' 1 VU (false, 2, UV (Some 6%Z) []).
Proof.
  exists (env_of C0_fix true false 8 8 eq0 lt0 (throws_at [9]) (two VU)),
    (state_of C0_fix true false 8 8 eq0 lt0 (throws_at [9]) (two VU)),
    (next_env C0_fix true false 8 8 eq0 lt0 (throws_at [9]) (two VU) (CAssign 1 2)), (XUser OpCopy 2 9),
    (next_state C0_fix true false 8 8 eq0 lt0 (throws_at [9]) (two VU) (CAssign 1 2)).
  split; [apply good_cfg_ok; by vm_compute|]. by_runs.
Qed.

Definition PropsDefects_all :=
  (C14_type_confusion_refuted, C15_assertion_refuted, C15_null_holder_refuted, C16_first, C16_blank_preferred_refuted,
   C17_indeterminate_refuted, C20_wrapper_value_initialised_refuted, C18_own_part_refuted, C18_copied_first, C18_moved_part_refuted, C43_fallback_object_refuted,
   C43_repaired).
Print Assumptions PropsDefects_all.
