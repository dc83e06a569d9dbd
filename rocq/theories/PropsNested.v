(** Construction from variants that are bounded types, nested, or base classes (C54). The
    statements use NestedSpec.v and the model's functions only; the proofs are in NestedFacts.v. *)
From stdpp Require Import base list numbers.
From Verif Require Import Base Types Nested NestedSpec Compile Samples.
From Verif Require NestedFacts.

(** *** C54. What construction does, for any operand. *)
Theorem C54_construct : forall base conv explicit tys o e,
  construct base conv explicit tys o = Some e <-> constructed base conv explicit tys o e.
Proof. exact NestedFacts.construct_iff. Qed.
(** In particular: a variant that is itself a bounded type is stored as such, whatever its alternatives
    could be converted to. *)
Theorem C54_bounded_variant : forall base conv explicit tys w os, (w, XVar os) ∈ tys ->
  exists i, last_of tys (XVar os) i /\ construct base conv explicit tys (XVar os) = Some (Stores i).
Proof. exact NestedFacts.construct_bounded_variant. Qed.
(** So is an object of a class that is a bounded type, if it is not derived from a variant. *)
Theorem C54_bounded_class : forall base conv explicit tys w u, base u = None -> (w, XUser u) ∈ tys ->
  exists i, last_of tys (XUser u) i /\ construct base conv explicit tys (XUser u) = Some (Stores i).
Proof. exact NestedFacts.construct_bounded_user. Qed.
(** The content of any other variant is converted, to the best match for its type. *)
Theorem C54_foreign_variant : forall base conv explicit tys os is, os <> tys -> (forall w, (w, XVar os) ∉ tys) ->
  construct base conv explicit tys (XVar os) = Some (Converts is) <->
  accepted base conv explicit tys (false, XVar os) /\
  Forall2 (fun p i => best base conv explicit tys p.2 i) os is.
Proof. exact NestedFacts.construct_foreign. Qed.
(** Any other object is stored in its best match. *)
Theorem C54_class : forall base conv explicit tys u i, base u = None ->
  construct base conv explicit tys (XUser u) = Some (Stores i) <->
  accepted base conv explicit tys (false, XUser u) /\ best base conv explicit tys (XUser u) i.
Proof. exact NestedFacts.construct_user. Qed.
(** Nothing else is taken, but for objects of a class derived from the variant's own type. *)
Theorem C54_rejected : forall base conv explicit tys o, o <> XVar tys ->
  ~ accepted base conv explicit tys (false, o) -> (forall d, o = XUser d -> base d <> Some tys) ->
  construct base conv explicit tys o = None.
Proof. exact NestedFacts.construct_none. Qed.
(** These are treated as a variant, if no bounded type can be made from them. *)
Theorem C54_sliced : forall base conv explicit tys d, base d = Some tys ->
  ~ accepted base conv explicit tys (false, XUser d) -> construct base conv explicit tys (XUser d) = Some Copies.
Proof. exact NestedFacts.construct_sliced. Qed.
(** A class derived from another variant is like any class, unless the alternatives of that variant
    can be stored too. *)
Theorem C54_derived : forall base conv explicit tys d os i, base d = Some os -> os <> tys ->
  ~ accepted base conv explicit tys (false, XVar os) ->
  construct base conv explicit tys (XUser d) = Some (Stores i) <->
  accepted base conv explicit tys (false, XUser d) /\ best base conv explicit tys (XUser d) i.
Proof. exact NestedFacts.construct_derived. Qed.
(** If they can, two overloads are equally good: there is no construction at all. *)
Theorem C54_ambiguous : forall base conv explicit tys d os, base d = Some os ->
  accepted base conv explicit tys (false, XUser d) -> os = tys \/ accepted base conv explicit tys (false, XVar os) ->
  construct base conv explicit tys (XUser d) = None.
Proof. exact NestedFacts.construct_ambiguous. Qed.

(** Types: 0, int; 1, string; 2, a class derived from variant<int, string>, with its constructors;
    3, a class derived from variant<int, recursive_wrapper<3>>. *)
Definition int_or_string : list alt := [(false, XUser 0); (false, XUser 1)].
Definition int_or_self : list alt := [(false, XUser 0); (true, XUser 3)].
Definition base0 (u : nat) : option (list alt) :=
  match u with 2 => Some int_or_string | 3 => Some int_or_self | _ => None end.
Definition conv0 (u : nat) (o : xty) : option nat :=
  match u, o with 2, XUser 0 => Some 2 | 2, XUser 1 => Some 2 | _, _ => None end.
Definition explicit0 (u : nat) (o : xty) : bool := false.
Notation construct0 := (construct base0 conv0 explicit0).
Notation accepted0 := (accepted base0 conv0 explicit0).
Lemma accepted0_of tys o : from base0 conv0 explicit0 tys o = true -> accepted0 tys o.
Proof. apply NestedFacts.from_accepted. Qed.
Lemma not_accepted0 tys o : from base0 conv0 explicit0 tys o = false -> ~ accepted0 tys o.
Proof. intros H Ha. apply NestedFacts.from_accepted in Ha. congruence. Qed.

(** A class that is a bounded type may not be accepted: derived from a variant and constructible
    from its alternatives ... *)
Theorem C54_bounded_derived_refuted : exists base conv explicit tys d, (false, XUser d) ∈ tys /\
  construct base conv explicit tys (XUser d) = None.
Proof. exists base0, conv0, explicit0, [(false, XUser 0); (false, XUser 2)], 2. split; [right; left|vm_compute; reflexivity]. Qed.
(** ... or derived from the variant itself, of which it is a bounded type. *)
Theorem C54_recursive_derived_refuted : exists base conv explicit tys d, base d = Some tys /\ (true, XUser d) ∈ tys /\
  construct base conv explicit tys (XUser d) = None.
Proof. exists base0, conv0, explicit0, int_or_self, 3. split; [done|]. split; [right; left|vm_compute; reflexivity]. Qed.
(** What the constraint accepts may not compile: it looks into a nested variant, but construction
    does not. *)
Theorem C54_nested_refuted : exists base conv explicit tys os,
  accepted base conv explicit tys (false, XVar os) /\ construct base conv explicit tys (XVar os) = None.
Proof.
  exists base0, conv0, explicit0, int_or_string, [(false, XUser 1); (false, XVar [(false, XUser 0)])].
  split; [apply accepted0_of; vm_compute; reflexivity|vm_compute; reflexivity].
Qed.
(** For variants of user types the constraint is the one of C51. *)
Theorem C54_flat : forall C explicit tys src, (forall u, Types.rank C u u <> None) ->
  from (fun _ => None) (flat_conv C) (flat_explicit explicit)
    (map embed tys) (false, XVar (map embed src)) =
  constructible_from_variant C explicit tys src.
Proof. exact NestedFacts.flat. Qed.

(** *** Examples *)
(** variant<int, recursive_wrapper<3>> as a bounded type, and an operand of class 2. *)
Example C54_construct_ex : construct0 [(true, XVar int_or_self); (false, XUser 2); (false, XVar int_or_string)] (XUser 1) = None /\
  construct0 [(true, XVar int_or_self); (true, XUser 2)] (XUser 1) = Some (Stores 1).
Proof. split; vm_compute; reflexivity. Qed.
(** variant<int, string, variant<int, string>>: a variant<int, string> becomes the third, though its
    alternatives could be stored as the first and second. *)
Example C54_bounded_variant_ex : construct0 (int_or_string ++ [(false, XVar int_or_string)]) (XVar int_or_string) = Some (Stores 2).
Proof. vm_compute. reflexivity. Qed.
Example C54_bounded_class_ex : base0 1 = None /\ construct0 [(false, XUser 1); (false, XUser 0); (true, XUser 1)] (XUser 1) = Some (Stores 2).
Proof. split; [done|]. vm_compute. reflexivity. Qed.
(** variant<string, int> to variant<int, variant<string>>: a string becomes a variant<string>. *)
Example C54_foreign_variant_ex : let tys := [(false, XUser 0); (false, XVar [(false, XUser 1)])] in
  let os := [(false, XUser 1); (false, XUser 0)] in
  os <> tys /\ (forall w, (w, XVar os) ∉ tys) /\ construct0 tys (XVar os) = Some (Converts [1; 0]).
Proof.
  split; [done|]. split; [|vm_compute; reflexivity]. intros w H.
  repeat (apply elem_of_cons in H as [H|H]; [discriminate H|]). by apply elem_of_nil in H.
Qed.
(** Nested variants as alternatives on both sides. *)
Example C54_foreign_nested_ex : let tys := [(false, XUser 1); (false, XVar int_or_string)] in
  construct0 tys (XVar [(false, XVar [(false, XUser 0)]); (false, XUser 1)]) = Some (Converts [1; 0]).
Proof. vm_compute. reflexivity. Qed.
Example C54_class_ex : base0 0 = None /\ construct0 [(false, XUser 1); (true, XUser 2)] (XUser 0) = Some (Stores 1).
Proof. split; [done|]. vm_compute. reflexivity. Qed.
Example C54_rejected_ex : let tys := [(false, XUser 1)] in XVar int_or_string <> XVar tys /\
  ~ accepted0 tys (false, XVar int_or_string) /\ (forall d, XVar int_or_string = XUser d -> base0 d <> Some tys).
Proof. split; [done|]. split; [|done]. apply not_accepted0. vm_compute. reflexivity. Qed.
Example C54_sliced_ex : base0 2 = Some int_or_string /\ ~ accepted0 int_or_string (false, XUser 2).
Proof. split; [done|]. apply not_accepted0. vm_compute. reflexivity. Qed.
Example C54_derived_ex : let tys := [(false, XUser 1); (true, XUser 3)] in base0 3 = Some int_or_self /\
  int_or_self <> tys /\ ~ accepted0 tys (false, XVar int_or_self) /\ construct0 tys (XUser 3) = Some (Stores 1).
Proof. split; [done|]. split; [done|]. split; [|vm_compute; reflexivity]. apply not_accepted0. vm_compute. reflexivity. Qed.
Example C54_ambiguous_ex : let tys := [(false, XUser 0); (false, XUser 2)] in base0 2 = Some int_or_string /\
  accepted0 tys (false, XUser 2) /\ accepted0 tys (false, XVar int_or_string) /\ int_or_string <> tys.
Proof. split; [done|]. split; [|split; [|done]]; apply accepted0_of; vm_compute; reflexivity. Qed.
Example C54_flat_ex : (forall u, Types.rank C0 u u <> None) /\
  constructible_from_variant C0 (fun _ _ => false) [IPlain 2; IWrap 4] [IPlain 0; IWrap 4] = true.
Proof.
  split; [|vm_compute; reflexivity]. intros u. cbn. unfold table_rank. by rewrite decide_True.
Qed.

Definition PropsNested_all := (C54_construct, C54_bounded_variant, C54_bounded_class, C54_foreign_variant, C54_class, C54_rejected,
  C54_sliced, C54_derived, C54_ambiguous, C54_bounded_derived_refuted, C54_recursive_derived_refuted,
  C54_nested_refuted, C54_flat).
Print Assumptions PropsNested_all.
