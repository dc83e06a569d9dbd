(** Which comparisons compile (C60). The statements use ComparisonSpec.v and the model's functions
    only; the proofs are in ComparisonFacts.v. *)
From stdpp Require Import base list numbers.
From Verif Require Import Base Nested NestedSpec Comparison ComparisonSpec.
From Verif Require NestedFacts ComparisonFacts.

(** *** C60. A comparison compiles iff overload resolution selects the variant's comparing operator
    and all that it calls compiles, or an operator of the user. *)
Theorem C60_compiles : forall base conv explicit member free o x y,
  compiles base conv explicit member free o x y = true <-> valid base conv explicit member free o x y.
Proof. exact ComparisonFacts.compiles_valid. Qed.
(** Two operands of one variant type: iff the bounded types have [==], for [==] and [!=], or [<], for
    [<], [>], [<=], [>=]. *)
Theorem C60_basic : forall base conv explicit member free o tys,
  (forall o', ~ user_operator base conv explicit free o' (XVar tys) (XVar tys)) ->
  compiles base conv explicit member free o (XVar tys) (XVar tys) = true <->
  forall w t, (w, t) ∈ tys -> compiles base conv explicit member free (basic o) t t = true.
Proof. exact ComparisonFacts.compiles_basic. Qed.
(** No variant is compared with anything else, even if it converts to the variant or is derived from it. *)
Theorem C60_foreign : forall base conv explicit member free o x y tys,
  x = XVar tys \/ (exists d, x = XUser d /\ base d = Some tys /\ member o d = []) ->
  y <> XVar tys -> ~ user_operator base conv explicit free o x y ->
  compiles base conv explicit member free o x y = false.
Proof. exact ComparisonFacts.compiles_foreign. Qed.
(** Nor anything else with a variant. *)
Theorem C60_left : forall base conv explicit member free o u y, base u = None -> member o u = [] ->
  ~ user_operator base conv explicit free o (XUser u) y ->
  compiles base conv explicit member free o (XUser u) y = false.
Proof. exact ComparisonFacts.compiles_left. Qed.
(** Users may add operators for just these cases; the template does not interfere. *)
Theorem C60_user : forall base conv explicit member free o x y, (x, y) ∈ free o ->
  (forall tys, x = XVar tys -> x <> y) -> (forall u, x = XUser u -> y ∉ member o u) ->
  compiles base conv explicit member free o x y = true.
Proof. exact ComparisonFacts.compiles_user. Qed.
(** But not for two operands of one variant type: the comparison becomes ambiguous. *)
Theorem C60_user_ambiguous : forall base conv explicit member free o tys, (XVar tys, XVar tys) ∈ free o ->
  compiles base conv explicit member free o (XVar tys) (XVar tys) = false.
Proof. exact ComparisonFacts.compiles_user_ambiguous. Qed.
(** An object of a class derived from a variant, on the left, is compared like a variant ... *)
Theorem C60_derived : forall base conv explicit member free o d tys, base d = Some tys -> member o d = [] ->
  (forall o', ~ user_operator base conv explicit free o' (XVar tys) (XVar tys)) ->
  ~ user_operator base conv explicit free o (XUser d) (XVar tys) ->
  compiles base conv explicit member free o (XUser d) (XVar tys) =
  compiles base conv explicit member free o (XVar tys) (XVar tys).
Proof. exact ComparisonFacts.compiles_derived. Qed.
(** ... but on the right not at all. *)
Theorem C60_derived_refused : forall base conv explicit member free o d tys, base d = Some tys -> member o d = [] ->
  ~ user_operator base conv explicit free o (XVar tys) (XUser d) ->
  ~ user_operator base conv explicit free o (XUser d) (XUser d) ->
  compiles base conv explicit member free o (XVar tys) (XUser d) = false /\
  compiles base conv explicit member free o (XUser d) (XUser d) = false.
Proof. exact ComparisonFacts.compiles_derived_refused. Qed.
(** So variants with such a class as bounded type cannot be compared. *)
Theorem C60_bounded_derived : forall base conv explicit member free o tys w d os, (w, XUser d) ∈ tys ->
  base d = Some os -> member (basic o) d = [] ->
  ~ user_operator base conv explicit free (basic o) (XUser d) (XUser d) ->
  (forall o', ~ user_operator base conv explicit free o' (XVar tys) (XVar tys)) ->
  compiles base conv explicit member free o (XVar tys) (XVar tys) = false.
Proof. exact ComparisonFacts.compiles_bounded_derived. Qed.

(** Types: 0, int; 1, string; 2, derived from variant<int, string>; 3, as 2, with a member
    [operator==]; 4, a class with [<] only. *)
Definition int_or_string : list alt := [(false, XUser 0); (false, XUser 1)].
Definition base1 (u : nat) : option (list alt) := match u with 2 | 3 => Some int_or_string | _ => None end.
Definition conv1 (u : nat) (o : xty) : option nat := None.
Definition explicit1 (u : nat) (o : xty) : bool := false.
Definition member1 (o : op) (u : nat) : list xty := match o, u with OEq, 3 => [XUser 3] | _, _ => [] end.
Definition free1 (o : op) : list (xty * xty) :=
  (XUser 0, XUser 0) :: (XUser 1, XUser 1) ::
  match o with OLt => [(XUser 4, XUser 4)] | OEq => [(XVar int_or_string, XUser 1); (XVar [(false, XUser 0)], XVar [(false, XUser 0)])] | _ => [] end.
Notation compiles1 := (compiles base1 conv1 explicit1 member1 free1).
Notation user_operator1 := (user_operator base1 conv1 explicit1 free1).

(** Objects of a class derived from a variant can be compared: not so, and it depends on the side. *)
Theorem C60_derived_refuted : exists base conv explicit member free d tys, base d = Some tys /\
  compiles base conv explicit member free OEq (XVar tys) (XVar tys) = true /\
  compiles base conv explicit member free OEq (XUser d) (XVar tys) = true /\
  compiles base conv explicit member free OEq (XVar tys) (XUser d) = false /\
  compiles base conv explicit member free OEq (XUser d) (XUser d) = false.
Proof.
  exists base1, conv1, explicit1, member1, free1, 2, int_or_string. repeat split; vm_compute; reflexivity.
Qed.
(** The member [operator==] of a derived class hides the variant's: comparison with a variant no longer
    compiles. *)
Theorem C60_hidden_refuted : exists base conv explicit member free d tys, base d = Some tys /\
  compiles base conv explicit member free OEq (XVar tys) (XVar tys) = true /\
  compiles base conv explicit member free OEq (XUser d) (XUser d) = true /\
  compiles base conv explicit member free OEq (XUser d) (XVar tys) = false.
Proof.
  exists base1, conv1, explicit1, member1, free1, 3, int_or_string. repeat split; vm_compute; reflexivity.
Qed.

(** *** Examples *)
Lemma no_operator1 o x y :
  forallb (fun lr => match rank base1 conv1 explicit1 lr.1 x, rank base1 conv1 explicit1 lr.2 y with Some _, Some _ => false | _, _ => true end) (free1 o) = true ->
  ~ user_operator1 o x y.
Proof.
  intros H (l&r&i&j&Hin&H1&H2). rewrite forallb_forall in H. apply elem_of_list_In in Hin.
  specialize (H _ Hin). simpl in H. apply NestedFacts.rank_converts in H1, H2. by rewrite H1, H2 in H.
Qed.
(** variant<4, variant<int, string>>, with recursive_wrapper: has [>=], not [==]. *)
Example C60_compiles_ex : let v := XVar [(true, XUser 4); (false, XVar int_or_string)] in
  compiles1 OGe v v = true /\ compiles1 OEq v v = false.
Proof. split; vm_compute; reflexivity. Qed.
Example C60_basic_ex : let tys := [(true, XUser 4); (false, XVar int_or_string)] in
  (forall o, ~ user_operator1 o (XVar tys) (XVar tys)) /\
  forall w t, (w, t) ∈ tys -> compiles1 OLt t t = true.
Proof.
  split.
  - intros o. apply no_operator1. by destruct o; vm_compute.
  - intros w t Hin. repeat (apply elem_of_cons in Hin as [[= -> ->]|Hin]; [vm_compute; reflexivity|]).
    by apply elem_of_nil in Hin.
Qed.
(** variant<int, string> is constructible from int, but not comparable with it. *)
Example C60_foreign_ex : XUser 0 <> XVar int_or_string /\ ~ user_operator1 OEq (XVar int_or_string) (XUser 0) /\
  construct base1 conv1 explicit1 int_or_string (XUser 0) = Some (Stores 0).
Proof. split; [done|]. split; [apply no_operator1|]; vm_compute; reflexivity. Qed.
Example C60_left_ex : base1 0 = None /\ member1 OLt 0 = [] /\ ~ user_operator1 OLt (XUser 0) (XVar int_or_string).
Proof. split; [done|]. split; [done|]. apply no_operator1. vm_compute. reflexivity. Qed.
(** A user's [operator==(variant<int, string> const &, string)]. *)
Example C60_user_ex : (XVar int_or_string, XUser 1) ∈ free1 OEq /\
  (forall tys, XVar int_or_string = XVar tys -> XVar int_or_string <> XUser 1) /\
  (forall u, XVar int_or_string = XUser u -> XUser 1 ∉ member1 OEq u) /\
  compiles1 OEq (XVar int_or_string) (XUser 1) = true /\ compiles1 ONe (XVar int_or_string) (XUser 1) = false.
Proof. split; [right; right; left|]. split; [done|]. split; [done|]. split; vm_compute; reflexivity. Qed.
Example C60_user_ambiguous_ex : (XVar [(false, XUser 0)], XVar [(false, XUser 0)]) ∈ free1 OEq /\
  compiles1 OLt (XVar [(false, XUser 0)]) (XVar [(false, XUser 0)]) = true /\
  compiles1 ONe (XVar [(false, XUser 0)]) (XVar [(false, XUser 0)]) = false.
Proof. split; [do 3 right; left|]. split; vm_compute; reflexivity. Qed.
Example C60_derived_ex : base1 2 = Some int_or_string /\ member1 OLe 2 = [] /\
  (forall o, ~ user_operator1 o (XVar int_or_string) (XVar int_or_string)) /\
  ~ user_operator1 OLe (XUser 2) (XVar int_or_string) /\ compiles1 OLe (XUser 2) (XVar int_or_string) = true.
Proof.
  split; [done|]. split; [done|]. split; [intros o; apply no_operator1; by destruct o; vm_compute|].
  split; [apply no_operator1|]; vm_compute; reflexivity.
Qed.
Example C60_derived_refused_ex : base1 2 = Some int_or_string /\ member1 OLt 2 = [] /\
  ~ user_operator1 OLt (XVar int_or_string) (XUser 2) /\ ~ user_operator1 OLt (XUser 2) (XUser 2).
Proof. split; [done|]. split; [done|]. split; apply no_operator1; vm_compute; reflexivity. Qed.
Example C60_bounded_derived_ex : let tys := [(false, XUser 0); (true, XUser 2)] in
  (true, XUser 2) ∈ tys /\ base1 2 = Some int_or_string /\ member1 (basic OGt) 2 = [] /\
  ~ user_operator1 (basic OGt) (XUser 2) (XUser 2) /\ forall o, ~ user_operator1 o (XVar tys) (XVar tys).
Proof.
  split; [right; left|]. split; [done|]. split; [done|].
  split; [|intros o]; apply no_operator1; [|destruct o]; vm_compute; reflexivity.
Qed.

Definition PropsComparison_all := (C60_compiles, C60_basic, C60_foreign, C60_left, C60_user, C60_user_ambiguous,
  C60_derived, C60_derived_refused, C60_bounded_derived, C60_derived_refuted, C60_hidden_refuted).
Print Assumptions PropsComparison_all.
