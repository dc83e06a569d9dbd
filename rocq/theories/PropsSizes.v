(** Layout of recursive variants (C69). The statements use SizesSpec.v; the proofs are in
    SizesFacts.v. *)
From stdpp Require Import base list numbers relations.
From Coq Require Import ZArith List Lia.
From Verif Require Import Base Types Layout LayoutSpec Substitute SubstSpec Sizes SizesSpec.
From Verif Require LayoutFacts SubstFacts SizesFacts.
Local Open Scope Z_scope.

Section props.
Context (L : layouts) (Hw : wrapper_is_pointer L).
Notation lay := (lay L recursive_enabled_types).
Notation part := (part (inside L) recursive_enabled_types).

(** *** C69: no type is inside itself, whatever is passed to make_recursive_variant, also as an argument
    of other templates and of other recursive variants; nesting ends. *)
Theorem C69_finite : well_founded part /\ forall t, ~ tc part t t.
Proof.
  exact (conj (SizesFacts.enabled_acc L Hw)
    (fun t => SizesFacts.acc_irrefl L recursive_enabled_types t (SizesFacts.enabled_acc L Hw t))).
Qed.
(** Every type has a size and an alignment, and they are determined. *)
Theorem C69_layout : forall t, object_types (inside L) recursive_enabled_types t ->
  exists l, lay t l /\ forall l', lay t l' -> l' = l.
Proof.
  exact (fun t Ho => match SizesFacts.lay_exists L _ SizesFacts.enabled_nil t (SizesFacts.enabled_acc L Hw t) Ho with
    ex_intro _ l Hl => ex_intro _ l (conj Hl (fun l' Hl' => SizesFacts.lay_unique L _ t l l' Hl Hl')) end).
Qed.
(** All that is inside fits and is aligned. *)
Theorem C69_fits : proper_layouts L -> forall t l x l',
  lay t l -> lay x l' -> rtc part x t -> holds l l'.
Proof. exact (SizesFacts.inside_fits L _ SizesFacts.enabled_nil). Qed.
(** A bounded type that mentions the variant itself takes the room of one pointer. *)
Theorem C69_pointer : forall args i t t' l,
  args !! i = Some t -> supported t -> occurs t = true ->
  recursive_enabled_types args !! i = Some t' -> lay t' l -> l = ptr_layout (plat L).
Proof. exact (SizesFacts.mentions_pointer L Hw). Qed.
End props.

(** Whatever the bounded types of recursive variants are: a type has a layout iff nesting ends and it is
    a type of objects throughout. *)
Theorem C69_exactly : forall L bounded, (forall args, bounded args = [] -> args = []) -> forall t,
  (exists l, lay L bounded t l) <-> Acc (part (inside L) bounded) t /\ object_types (inside L) bounded t.
Proof. exact SizesFacts.lay_iff. Qed.

(** *** Examples *)
(** int: 4 bytes, a class 1: 24 bytes; pointers and which_; 5: a pair; 6: a vector. *)
Definition pair_layout (ls : list (Z * Z)) : Z * Z :=
  let al := max_alignment ls in (round_up (fold_right (fun l n => round_up l.1 al + n) 0 ls) al, al).
Definition L0 : layouts := Layouts
  (Platform 32 8 (8, 8) (fun n => if decide (n = 0%nat) then (4, 4) else (24, 8)))
  (1, 1) (16, 8) (4, 4) (fun F n => if decide (F = 0%nat) then inl (8, 8) else if decide (F = 6%nat) then inl (24, 8) else inr pair_layout)
  (fun _ => true).
Lemma L0_pointer : wrapper_is_pointer L0.
Proof. done. Qed.
Lemma max_alignment_pos (l : list (Z * Z)) : Forall proper l -> 0 < max_alignment l /\ forall x, x ∈ l -> (x.2 | max_alignment l).
Proof.
  intros H. destruct (LayoutFacts.lcm_fold l 1) as (H1&_&H2&_); [done| |done].
  rewrite SubstFacts.Forall_in in *. intros x Hx. by apply H.
Qed.
Lemma L0_proper : proper_layouts L0.
Proof.
  split. { intros n. simpl. by destruct (decide (n = 0%nat)). }
  do 4 (split; [done|]). intros F n. simpl. destruct (decide (F = 0%nat)); [done|]. destruct (decide (F = 6%nat)); [done|].
  intros ls Hl. destruct (max_alignment_pos ls Hl) as [H1 H2].
  assert (Hs : 0 <= fold_right (fun l n => round_up l.1 (max_alignment ls) + n) 0 ls /\
    forall l, l ∈ ls -> l.1 <= fold_right (fun l n => round_up l.1 (max_alignment ls) + n) 0 ls).
  { revert H1. generalize (max_alignment ls). intros al Hal. clear H2.
    induction Hl as [|l ls [Hl1 Hl2] _ [I1 I2]]; simpl; [split; [lia|]; intros l Hx; by apply elem_of_nil in Hx|].
    destruct (SizesFacts.round_up_spec l.1 al Hal) as [H3 _]. split; [lia|].
    intros x Hx. apply elem_of_cons in Hx as [->|Hx]; [lia|]. specialize (I2 x Hx). lia. }
  destruct Hs as [Hs1 Hs2]. unfold pair_layout, proper, holds. simpl.
  destruct (SizesFacts.round_up_spec (fold_right (fun l n => round_up l.1 (max_alignment ls) + n) 0 ls) _ H1) as [H3 _].
  split; [lia|]. intros l Hx. split; [specialize (Hs2 l Hx); lia|]. intros a Ha. etrans; [by apply H2|done].
Qed.
(** variant<int, pair<tag, tag>, vector<tag>, variant<class, int>, tag *> *)
Definition tag : ty := TTag nocv.
Definition expr : list ty := [TName nocv 0; TApp nocv 5 [tag; tag]; TApp nocv 6 [tag]; TVariant nocv [TName nocv 1; TName nocv 0]; TPtr nocv tag].
Example C69_ex : object_types (inside L0) recursive_enabled_types (make_recursive_variant expr) /\
  lay L0 recursive_enabled_types (make_recursive_variant expr) (40, 8).
Proof.
  assert (Hl : lay L0 recursive_enabled_types (make_recursive_variant expr) (40, 8)).
  { apply (lay_rec L0 recursive_enabled_types nocv expr [(4, 4); (8, 8); (8, 8); (32, 8); (8, 8)] (32, 8)); [done| |by vm_compute].
    change (recursive_enabled_types expr) with
      [TName nocv 0; recursive_wrapper (TApp nocv 5 [make_recursive_variant expr; make_recursive_variant expr]);
       recursive_wrapper (TApp nocv 6 [make_recursive_variant expr]); TVariant nocv [TName nocv 1; TName nocv 0]; TPtr nocv (make_recursive_variant expr)].
    constructor; [exact (lay_name L0 _ nocv 0)|]. constructor; [by apply lay_out|]. constructor; [by apply lay_out|].
    constructor; [|constructor; [exact (lay_ptr L0 _ nocv _)|constructor]].
    apply (lay_variant L0 recursive_enabled_types nocv _ [(24, 8); (4, 4)] (24, 8)); [done| |by vm_compute].
    constructor; [exact (lay_name L0 _ nocv 1)|]. constructor; [exact (lay_name L0 _ nocv 0)|constructor]. }
  split; [by eapply SizesFacts.lay_object|done].
Qed.
Example C69_pointer_ex : exists args i t t', args !! i = Some t /\ supported t /\ occurs t = true /\
  recursive_enabled_types args !! i = Some t' /\ lay L0 recursive_enabled_types t' (8, 8) /\
  t = TApp nocv 5 [tag; tag] /\ inside L0 5 None = true.
Proof.
  exists expr, 1%nat, (TApp nocv 5 [tag; tag]). eexists. split; [done|].
  split; [apply S_app; constructor; [apply S_tag|constructor; [apply S_tag|constructor]]|]. split; [done|]. split; [done|].
  split; [by constructor|done].
Qed.
Example C69_fits_ex : proper_layouts L0 /\ exists t l x l', lay L0 recursive_enabled_types t l /\ lay L0 recursive_enabled_types x l' /\
  rtc (part (inside L0) recursive_enabled_types) x t /\ t = make_recursive_variant expr /\ x = TName nocv 1.
Proof.
  split; [apply L0_proper|]. eexists. eexists. eexists. eexists. split; [apply C69_ex|]. split; [constructor|]. split; [|done].
  eapply rtc_l; [|apply rtc_once; apply (part_rec _ _ nocv expr (TVariant nocv [TName nocv 1; TName nocv 0]))].
  - constructor. left.
  - apply (elem_of_list_lookup_2 _ 3). done.
Qed.

(** *** The recursive_wrappers are what it takes: with the tag replaced and nothing wrapped,
    variant<int, pair<tag, tag>> is inside itself and has no layout. *)
Definition unwrapped (args : list ty) : list ty := map (substitute (make_recursive_variant args)) args.
Theorem C69_unwrapped_refuted : exists L args, wrapper_is_pointer L /\ proper_layouts L /\
  (forall t, t ∈ args -> supported t) /\
  tc (part (inside L) unwrapped) (make_recursive_variant args) (make_recursive_variant args) /\
  ~ exists l, lay L unwrapped (make_recursive_variant args) l.
Proof.
  exists L0, [TName nocv 0; TApp nocv 5 [tag; tag]]. split; [done|]. split; [apply L0_proper|].
  set (args := [TName nocv 0; TApp nocv 5 [tag; tag]]).
  assert (Ht : tc (part (inside L0) unwrapped) (make_recursive_variant args) (make_recursive_variant args)).
  { eapply tc_l; [|apply tc_once; apply (part_rec _ _ nocv args (TApp nocv 5 [make_recursive_variant args; make_recursive_variant args]))].
    - apply part_app; [done|]. left.
    - by apply (elem_of_list_lookup_2 _ 1). }
  split; [|split; [exact Ht|]].
  - intros t H. apply elem_of_cons in H as [->|H]; [by apply S_free|]. apply elem_of_list_singleton in H as ->.
    apply S_app. constructor; [apply S_tag|constructor; [apply S_tag|constructor]].
  - intros H. apply SizesFacts.lay_iff in H as [H _]; [|by intros []]. by apply SizesFacts.acc_irrefl in Ht.
Qed.

Definition PropsSizes_all := (C69_finite, C69_layout, C69_fits, C69_pointer, C69_exactly, C69_unwrapped_refuted).
Print Assumptions PropsSizes_all.
