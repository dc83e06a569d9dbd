(** Properties of where contents live: which pointers and references into variants survive
    which operations. [step c E s E' o s']: in a reachable state [s] with variables [E] the
    permitted command [c] has outcome [o] and leads to [s'], [E']. The statements use Spec.v,
    Observe.v, Owned.v and PlaceSpec.v; the proofs are in PlaceProof.v and PlaceFacts.v. *)
From stdpp Require Import base gmap list numbers.
From Coq Require Import ZArith.
From Verif Require Import Base Types Variant Values Client Observe Spec History Reach Owned Check PlaceSpec.
From Verif Require Import Samples Runs Scenes.
From Verif Require PlaceProof PlaceFacts.

Section props.
Context (C : cfg) (st nb : bool) (eqf ltf : uid -> uval -> uval -> bool).
Context (HC : good_env C st nb).
Notation step := (step C st nb eqf ltf).
Notation sees := (sees C).
Notation without := (without C st nb eqf ltf).

(** *** C57: what a program does not mention stays as it is, cell by cell: everything that
    belongs to a variable, its storage and all it owns on the heap, is at the same addresses with
    the same contents. *)
Theorem C57_untouched : forall z E s E' s' b, without z E s E' s' -> E !! z = Some b ->
  E' !! z = Some b /\ forall l, (owns C (mem s') b l <-> owns C (mem s) b l) /\
    (owns C (mem s) b l -> mem s' !! l = mem s !! l).
Proof. exact (PlaceFacts.without_owned C st nb eqf ltf HC). Qed.
(** So a pointer to the content of a variant lives as long as the variant is not mentioned. *)
Theorem C57_pointer : forall z E s E' s' l, without z E s E' s' -> content_at E s z l -> content_at E' s' z l.
Proof. exact (PlaceFacts.without_content C st nb eqf ltf HC). Qed.

(** Copy assignment between variants in the same alternative, both parked on the heap or both
    not, assigns to the content where it is. (As C57_swap and the others, whatever throws.) *)
Theorem C57_assign : forall x y E s E' o s' tys k1 k2, step (CAssign x y) E s E' o s' ->
  sees E s x tys k1 -> sees E s y tys k2 -> k1.1 = k2.1 ->
  E' = E /\ forall l r, content_at E s x l -> content_at E s y r -> content_at E' s' x l /\ content_at E' s' y r.
Proof. exact (PlaceFacts.place_assign C st nb eqf ltf HC). Qed.
(** Swap of variants in the same alternative exchanges the values, not the places. *)
Theorem C57_swap : forall x y E s E' o s' tys k1 k2, step (CSwap x y) E s E' o s' ->
  sees E s x tys k1 -> sees E s y tys k2 -> k1.1.2 = k2.1.2 ->
  E' = E /\ forall l r, content_at E s x l -> content_at E s y r -> content_at E' s' x l /\ content_at E' s' y r.
Proof. exact (PlaceFacts.place_swap C st nb eqf ltf HC). Qed.
(** Move assignment in the same alternative: a plain alternative stays where it is; for a
    recursive_wrapper the two objects on the heap change their owners. *)
Theorem C57_move_plain : forall x y E s E' o s' tys k1 k2 u, step (CMoveAssign x y) E s E' o s' ->
  sees E s x tys k1 -> sees E s y tys k2 -> k1.1 = k2.1 -> tys !! k1.1.2 = Some (IPlain u) ->
  E' = E /\ forall l r, content_at E s x l -> content_at E s y r -> content_at E' s' x l /\ content_at E' s' y r.
Proof.
  exact (fun x y E s E' o s' tys k1 k2 u H Hx Hy Hk Ht =>
    PlaceFacts.place_move C st nb eqf ltf HC x y E s E' o s' tys k1 k2 (IPlain u) H Hx Hy Hk Ht).
Qed.
Theorem C57_move_wrapped : forall x y E s E' o s' tys k1 k2 u, step (CMoveAssign x y) E s E' o s' ->
  sees E s x tys k1 -> sees E s y tys k2 -> k1.1 = k2.1 -> tys !! k1.1.2 = Some (IWrap u) ->
  E' = E /\ forall l r, content_at E s x l -> content_at E s y r -> content_at E' s' x r /\ content_at E' s' y l.
Proof.
  exact (fun x y E s E' o s' tys k1 k2 u H Hx Hy Hk Ht =>
    PlaceFacts.place_move C st nb eqf ltf HC x y E s E' o s' tys k1 k2 (IWrap u) H Hx Hy Hk Ht).
Qed.
(** Assignment of an object of exactly the content's type, copied or moved; assignment through
    get; assignment to a member variant of the content. *)
Theorem C57_assign_from : forall x y mv E s E' o s' tys k t v, step (CAssignFrom x y mv) E s E' o s' ->
  sees E s x tys k -> tys !! k.1.2 = Some t -> sees_obj C E s y (ity_uid t) v ->
  E' = E /\ forall l, content_at E s x l -> content_at E' s' x l.
Proof. exact (PlaceFacts.place_assign_from C st nb eqf ltf HC). Qed.
Theorem C57_poke : forall x u y E s E' o s' tys k v, step (CPoke x u y) E s E' o s' ->
  sees E s x tys k -> sees_obj C E s y u v ->
  E' = E /\ forall l, content_at E s x l -> content_at E' s' x l.
Proof. exact (PlaceFacts.place_poke C st nb eqf ltf HC). Qed.
Theorem C57_set_child : forall x u j y E s E' o s' tys k, step (CSetChild x u j y) E s E' o s' ->
  sees E s x tys k -> E' = E /\ forall l, content_at E s x l -> content_at E' s' x l.
Proof. exact (PlaceFacts.place_set_child C st nb eqf ltf HC). Qed.
End props.

(** ** Examples and refutations *)

(** The content's address, computed. *)
Definition within (o : obj) (here : loc) : option loc :=
  match o with OUser _ _ _ => Some here | OWrap _ p => Some p | _ => None end.
Definition place (E : env) (s : state) (x : name) : option loc :=
  match E !! x with
  | Some (BVar tys a) =>
      match mem s !! a with
      | Some (Cell KVar (Some (OBackup _ (Some p))) (Some _)) =>
          match mem s !! p with Some (Cell KHeap (Some o) None) => within o p | _ => None end
      | Some (Cell KVar (Some o) (Some _)) => within o a
      | _ => None
      end
  | _ => None
  end.
Lemma within_in o a l : within o a = Some l -> content_in o a l.
Proof. destruct o; simpl; congruence. Qed.
Lemma place_content E s x l : place E s x = Some l -> content_at E s x l.
Proof.
  unfold place. destruct (E !! x) as [[tys a|]|] eqn:Hx; [|done..].
  destruct (mem s !! a) as [[[] [o|] [w|]]|] eqn:Ha; try (by try destruct o as [| |? [p|]| |]). intros H.
  exists tys, a. split; [done|]. exists o, w. split; [done|].
  destruct o as [| |? [p|]| |]; try by apply within_in.
  destruct (mem s !! p) as [[[] [o|] [w'|]]|] eqn:Hp; try done. exists o. split; [done|]. by apply within_in.
Qed.
Ltac by_place := first [apply place_content; by vm_compute|by_run].
Ltac by_places := repeat match goal with |- _ /\ _ => split end; by_place.

Notation step0 := (step C0 true false eq0 lt0).
(** 1 and 2: wrapped nodes 9 and 8 with their members; 3 and 4: strings 7 and 3. *)
Definition places : list cmd := objects ++ [
  CMake 15 4 8 [11]; CMake 16 2 3 []; CFrom 1 VL 12 false; CFrom 2 VL 15 false; CFrom 3 VL 10 false; CFrom 4 VL 16 false].
Definition node8 : uval := UV (Some 8%Z) [(false, 0, str7)].
Definition str3 : uval := UV (Some 3%Z) [].

Lemma without_one z c E s E' o s' : step0 c E s E' o s' -> bool_decide (z ∉ names c) = true ->
  without C0 true false eq0 lt0 z E s E' s'.
Proof. intros H Hz%bool_decide_eq_true. by eapply without_step; [..|apply without_none]. Qed.

(** 1 owns its storage, the node on the heap and the node's member. *)
Example C57_untouched_ex : exists E s E' s', without C0 true false eq0 lt0 1 E s E' s' /\
  E !! 1 = Some (BVar VL 9%positive) /\ owns C0 (mem s) (BVar VL 9%positive) 10%positive /\
  owns C0 (mem s) (BVar VL 9%positive) 11%positive /\ sees C0 E s 2 VL (false, 1, node8) /\
  sees C0 E' s' 2 VL (false, 0, str3).
Proof.
  run_step C0 true false calm places (CAssign 2 4). split.
  - apply (without_one 1 (CAssign 2 4) _ _ _ ODone); by_run.
  - split; [by_run|]. split; [|split; [|split; by_run]].
    + exists 8, [9%positive; 10%positive; 11%positive]. split; [by vm_compute|]. right. left.
    + exists 8, [9%positive; 10%positive; 11%positive]. split; [by vm_compute|]. right. right. left.
Qed.
Example C57_pointer_ex : exists E s E' s', without C0 true false eq0 lt0 1 E s E' s' /\
  content_at E s 1 10%positive /\ content_at E' s' 1 10%positive /\ ~ (exists b, E' !! 2 = Some b).
Proof.
  run_step C0 true false calm places (CDrop 2). split.
  - apply (without_one 1 (CDrop 2) _ _ _ ODone); by_run.
  - split; [by_place|]. split; [by_place|]. intros [b Hb]. by vm_compute in Hb.
Qed.
(** Wrapped nodes: assigned where they are, even if the node's assignment throws. *)
Definition asked : nat := Eval vm_compute in opos (state_of C0 true false 8 8 eq0 lt0 calm places).
Example C57_assign_ex : exists E s E' s', step0 (CAssign 1 2) E s E' ODone s' /\
  sees C0 E s 1 VL (false, 1, node9) /\ sees C0 E s 2 VL (false, 1, node8) /\
  content_at E s 1 10%positive /\ content_at E s 2 13%positive /\
  content_at E' s' 1 10%positive /\ content_at E' s' 2 13%positive /\ sees C0 E' s' 1 VL (false, 1, node8).
Proof. run_step C0 true false calm places (CAssign 1 2). by_places. Qed.
Example C57_assign_throw_ex : exists E s E' s', step0 (CAssign 1 2) E s E' (OThrew (XUser OpCopyAssign 4 asked)) s' /\
  content_at E s 1 10%positive /\ content_at E' s' 1 10%positive.
Proof. run_step C0 true false (throws_at [asked]) places (CAssign 1 2). by_places. Qed.
(** Both parked. *)
Example C57_assign_parked_ex : exists E s E' s' l r, step0 (CAssign 1 3) E s E' ODone s' /\
  sees C0 E s 1 VA (true, 0, loud5) /\ sees C0 E s 3 VA (true, 0, UV (Some 6%Z) []) /\
  content_at E s 1 l /\ content_at E s 3 r /\ l <> r /\
  content_at E' s' 1 l /\ content_at E' s' 3 r /\ sees C0 E' s' 1 VA (true, 0, UV (Some 6%Z) []).
Proof.
  run_step C0 true false (throws_at [12; 15]) (two_parked VA) (CAssign 1 3). exists 11%positive, 12%positive. by_places.
Qed.
Example C57_swap_ex : exists E s E' s', step0 (CSwap 1 2) E s E' ODone s' /\
  sees C0 E s 1 VL (false, 1, node9) /\ sees C0 E s 2 VL (false, 1, node8) /\
  content_at E s 1 10%positive /\ content_at E' s' 1 10%positive /\ sees C0 E' s' 1 VL (false, 1, node8).
Proof. run_step C0 true false calm places (CSwap 1 2). by_places. Qed.
Example C57_move_plain_ex : exists E s E' s', step0 (CMoveAssign 3 4) E s E' ODone s' /\
  sees C0 E s 3 VL (false, 0, str7) /\ sees C0 E s 4 VL (false, 0, str3) /\ VL !! 0 = Some (IPlain 2) /\
  content_at E s 3 15%positive /\ content_at E' s' 3 15%positive /\ sees C0 E' s' 3 VL (false, 0, str3).
Proof. run_step C0 true false calm places (CMoveAssign 3 4). by_places. Qed.
Example C57_move_wrapped_ex : exists E s E' s', step0 (CMoveAssign 1 2) E s E' ODone s' /\
  sees C0 E s 1 VL (false, 1, node9) /\ sees C0 E s 2 VL (false, 1, node8) /\ VL !! 1 = Some (IWrap 4) /\
  content_at E s 1 10%positive /\ content_at E s 2 13%positive /\
  content_at E' s' 1 13%positive /\ content_at E' s' 2 10%positive.
Proof. run_step C0 true false calm places (CMoveAssign 1 2). by_places. Qed.
Example C57_assign_from_ex : exists E s E' s', step0 (CAssignFrom 1 15 true) E s E' ODone s' /\
  sees C0 E s 1 VL (false, 1, node9) /\ sees_obj C0 E s 15 4 node8 /\ VL !! 1 = Some (IWrap 4) /\
  content_at E s 1 10%positive /\ content_at E' s' 1 10%positive /\ sees C0 E' s' 1 VL (false, 1, node8).
Proof. run_step C0 true false calm places (CAssignFrom 1 15 true). by_places. Qed.
Example C57_poke_ex : exists E s E' s', step0 (CPoke 1 4 15) E s E' ODone s' /\
  sees C0 E s 1 VL (false, 1, node9) /\ sees_obj C0 E s 15 4 node8 /\
  content_at E s 1 10%positive /\ content_at E' s' 1 10%positive /\ sees C0 E' s' 1 VL (false, 1, node8).
Proof. run_step C0 true false calm places (CPoke 1 4 15). by_places. Qed.
(** A node becomes the member of a node, on the heap: the outer node stays. *)
Example C57_set_child_ex : exists E s E' s', step0 (CSetChild 1 4 0 2) E s E' ODone s' /\
  sees C0 E s 1 VL (false, 1, node9) /\ content_at E s 1 10%positive /\ content_at E' s' 1 10%positive /\
  sees C0 E' s' 1 VL (false, 1, UV (Some 9%Z) [(false, 1, node8)]).
Proof. run_step C0 true false calm places (CSetChild 1 4 0 2). by_places. Qed.

(** Not so: assignment between variants in the same alternative keeps contents in place. Moving
    from a variant with a recursive_wrapper hands over the object itself: a reference obtained
    from the target before the move now refers into the source, and dies with it. *)
Theorem C57_move_refuted : exists E s E' s' E'' s'' l, step0 (CMoveAssign 1 2) E s E' ODone s' /\
  step0 (CDrop 2) E' s' E'' ODone s'' /\
  sees C0 E s 1 VL (false, 1, node9) /\ sees C0 E s 2 VL (false, 1, node8) /\
  content_at E s 1 l /\ content_at E' s' 2 l /\ ~ content_at E' s' 1 l /\ mem s'' !! l = None.
Proof.
  exists (env_of C0 true false 8 8 eq0 lt0 calm places), (state_of C0 true false 8 8 eq0 lt0 calm places),
    (next_env C0 true false 8 8 eq0 lt0 calm places (CMoveAssign 1 2)),
    (next_state C0 true false 8 8 eq0 lt0 calm places (CMoveAssign 1 2)),
    (next2_env C0 true false 8 8 eq0 lt0 calm places (CMoveAssign 1 2) (CDrop 2)),
    (next2_state C0 true false 8 8 eq0 lt0 calm places (CMoveAssign 1 2) (CDrop 2)), 10%positive.
  split; [by_run|]. split; [apply next2_step; by vm_compute|]. split; [by_run|]. split; [by_run|].
  split; [by_place|]. split; [by_place|]. split; [|by vm_compute].
  intros (tys&a&Ha&Hl). vm_compute in Ha. injection Ha as <- <-.
  pose proof (place_content (next_env C0 true false 8 8 eq0 lt0 calm places (CMoveAssign 1 2))
    (next_state C0 true false 8 8 eq0 lt0 calm places (CMoveAssign 1 2)) 1 13%positive ltac:(by vm_compute)) as (tys&a&Hb&Hr).
  vm_compute in Hb. injection Hb as <- <-.
  pose proof (PlaceFacts.stored_fun _ _ _ _ Hl Hr). done.
Qed.
(** Not so: copy assignment between variants with equal which() keeps contents in place. If the
    target's content is parked in a heap backup, it is replaced and the reference dangles, although
    source and target hold the same alternative. *)
Definition parked : list cmd := two VA ++ [CMake 14 3 6 []; CFrom 3 VA 14 false; CAssign 1 2].
Theorem C57_assign_parked_refuted : exists E s E' s' l, step0 (CAssign 1 3) E s E' ODone s' /\
  sees C0 E s 1 VA (true, 0, loud5) /\ sees C0 E s 3 VA (false, 0, UV (Some 6%Z) []) /\
  content_at E s 1 l /\ mem s' !! l = None.
Proof.
  run_step C0 true false (throws_at [12]) parked (CAssign 1 3). exists 11%positive. by_places.
Qed.

Definition PropsPlace_all := (C57_untouched, C57_pointer, C57_assign, C57_swap, C57_move_plain, C57_move_wrapped, C57_assign_from,
  C57_poke, C57_set_child, C57_move_refuted, C57_assign_parked_refuted).
Print Assumptions PropsPlace_all.
