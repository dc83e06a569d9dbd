(** Proofs about Substitute.v. *)
From stdpp Require Import base list numbers.
From Coq Require Import List.
From Verif Require Import Substitute SubstSpec.


(** Size, for induction. *)
Fixpoint size (t : ty) : nat :=
  match t with
  | TName _ _ | TTag _ => 1
  | TPtr _ t' | TLRef t' | TRRef t' | TArr t' _ => S (size t')
  | TFun r args => S (size r + list_sum (map size args))
  | TMem _ c t' => S (size c + size t')
  | TApp _ _ args | TAppN _ _ args _ | TVariant _ args | TVariantOver _ args | TRecVariant _ args =>
      S (list_sum (map size args))
  end.

Lemma size_in x l : x ∈ l -> size x <= list_sum (map size l).
Proof. induction 1; simpl; lia. Qed.

Lemma size_ind (P : ty -> Prop) : (forall t, (forall t', size t' < size t -> P t') -> P t) -> forall t, P t.
Proof.
  intros H t. assert (forall n t, size t < n -> P t) as G.
  { induction n; intros t' Ht; [lia|]. apply H. intros t'' ?. apply IHn. lia. }
  apply (G (S (size t))). lia.
Qed.

Lemma map_ext_in' {A B} (f g : A -> B) l : (forall x, x ∈ l -> f x = g x) -> map f l = map g l.
Proof. intros H. apply List.map_ext_in. intros x Hx. apply H. by apply elem_of_list_In. Qed.
Lemma map_eq_in {A B} (f g : A -> B) l : map f l = map g l -> forall x, x ∈ l -> f x = g x.
Proof.
  induction l as [|y l IH]; simpl; intros H x Hx; [by apply elem_of_nil in Hx|].
  injection H as H1 H2. apply elem_of_cons in Hx as [->|Hx]; auto.
Qed.
Lemma existsb_false {A} (f : A -> bool) l : existsb f l = false <-> forall x, x ∈ l -> f x = false.
Proof.
  induction l as [|y l IH]; simpl.
  - split; [intros _ x Hx; by apply elem_of_nil in Hx|done].
  - rewrite orb_false_iff, IH. split.
    + intros [H1 H2] x [->|Hx]%elem_of_cons; auto.
    + intros H. split; [apply H; left|intros x Hx; apply H; by right].
Qed.
Lemma Forall_in {A} (P : A -> Prop) l : Forall P l <-> forall x, x ∈ l -> P x.
Proof.
  induction l as [|y l IH].
  - split; [intros _ x Hx; by apply elem_of_nil in Hx|constructor].
  - split.
    + inversion 1 as [|?? H1 H2]; subst. intros x [->|Hx]%elem_of_cons; [done|by apply IH].
    + intros H. constructor; [apply H; left|apply IH; intros x Hx; apply H; by right].
Qed.

Ltac in_size := match goal with H : _ ∈ _ |- _ => apply size_in in H end; simpl; lia.

(** Without the tag, nothing changes. *)
Lemma replace_free dest t : occurs t = false -> replace dest t = t.
Proof.
  induction t as [t IH] using size_ind. destruct t as [q n|q|q t|t|t|t n|r args|q c t|q F args|q F args n|q args|q args|q args];
    simpl; intros Ho; try done; f_equal; try (apply IH; [simpl; lia|done]).
  all: try (apply orb_false_iff in Ho as [Ho1 Ho2]); try (apply IH; [simpl; lia|done]).
  all: rewrite existsb_false in *; rewrite <- (List.map_id args) at 2; apply map_ext_in'; intros x Hx;
    apply IH; [in_size|auto].
Qed.
Lemma substitute_free dest t : occurs t = false -> substitute dest t = t.
Proof.
  induction t as [t IH] using size_ind. destruct t as [q n|q|q t|t|t|t n|r args|q c t|q F args|q F args n|q args|q args|q args];
    simpl; intros Ho; try done; try (destruct q as [[] []]; try done).
  all: try (destruct t as [q' n|q'|q' t|t|t|t n|r args|q' c t|q' F args|q' F args n|q' args|q' args|q' args]; try done).
  all: try (f_equal; apply IH; [simpl; lia|done]).
  all: try (f_equal; rewrite existsb_false in Ho; rewrite <- (List.map_id args) at 2; apply map_ext_in'; intros x Hx;
    apply IH; [in_size|auto]).
  simpl in Ho. apply orb_false_iff in Ho as [Ho1 Ho2]. unfold nocv. f_equal. f_equal.
  - apply IH; [simpl; lia|done].
  - rewrite existsb_false in Ho2. rewrite <- (List.map_id args) at 2. apply map_ext_in'. intros x Hx.
    apply IH; [in_size|auto].
Qed.

Lemma occurs_qualify q t : is_class t = true -> occurs (qualify q t) = occurs t.
Proof. by destruct t. Qed.

Lemma replace_closed dest t : is_class dest = true -> occurs dest = false -> occurs (replace dest t) = false.
Proof.
  intros Hc Hd. induction t as [t IH] using size_ind.
  destruct t as [q n|q|q t|t|t|t n|r args|q c t|q F args|q F args n|q args|q args|q args]; simpl; try done;
    try (apply IH; simpl; lia); try (rewrite orb_false_iff; split; try (apply IH; simpl; lia)).
  { by rewrite occurs_qualify. }
  all: apply existsb_false; intros y Hy; change (map (replace dest) args) with (replace dest <$> args) in Hy;
    apply elem_of_list_fmap in Hy as (x & -> & Hx); apply IH; in_size.
Qed.

Lemma fixed_free dest t : is_class dest = true -> occurs dest = false -> replace dest t = t -> occurs t = false.
Proof. intros Hc Hd <-. by apply replace_closed. Qed.

(** In supported positions, everything is replaced. *)
Lemma substitute_supported dest t : supported t -> substitute dest t = replace dest t.
Proof.
  induction t as [t IH] using size_ind. intros Hs. destruct Hs as [t Ho|q|q t Ht|t Ht|F args Ha|args Ha|args Ha|r args Hr Ha]; simpl.
  - by rewrite substitute_free, replace_free.
  - done.
  - assert (substitute dest t = replace dest t) as E by (apply IH; [simpl; lia|done]).
    destruct q as [[] []]; try (by rewrite E).
    destruct t; try (by rewrite E).
    inversion Ht as [? Ho| | | | | | |]; subst. unfold nocv. f_equal.
    simpl in Ho. apply orb_false_iff in Ho as [Ho1 Ho2]. simpl. f_equal.
    + rewrite substitute_free, replace_free by done. done.
    + apply map_ext_in'. intros x Hx. rewrite existsb_false in Ho2. rewrite substitute_free, replace_free; auto.
  - f_equal. apply IH; [simpl; lia|done].
  - f_equal. apply map_ext_in'. intros x Hx. rewrite Forall_in in Ha. apply IH; [in_size|auto].
  - f_equal. apply map_ext_in'. intros x Hx. rewrite Forall_in in Ha. apply IH; [in_size|auto].
  - f_equal. apply map_ext_in'. intros x Hx. rewrite Forall_in in Ha. apply IH; [in_size|auto].
  - rewrite Forall_in in Ha. unfold nocv. f_equal. f_equal.
    + apply IH; [simpl; lia|done].
    + apply map_ext_in'. intros x Hx. apply IH; [in_size|auto].
Qed.

(** Nowhere else. *)
Lemma supported_only dest t :
  is_class dest = true -> occurs dest = false -> substitute dest t = replace dest t -> supported t.
Proof.
  intros Hc Hd. induction t as [t IH] using size_ind. intros E.
  assert (substitute dest t = t -> supported t) as Hblind.
  { intros E'. apply S_free. apply (fixed_free dest); [done..|]. by rewrite <- E. }
  destruct t as [q n|q|q t|t|t|t n|r args|q c t|q F args|q F args n|q args|q args|q args]; try (by apply Hblind).
  - apply S_tag.
  - simpl in E.
    assert (substitute dest t = replace dest t -> supported (TPtr q t)) as Hp.
    { intros E'. apply S_ptr. apply IH; [simpl; lia|done]. }
    destruct q as [[] []]; try (apply Hp; congruence).
    destruct t; try (apply Hp; congruence).
    injection E as E1 E2. apply S_function; [apply IH; [simpl; lia|done]|].
    apply Forall_in. intros x Hx. apply IH; [in_size|by eapply map_eq_in].
  - simpl in E. injection E as E. apply S_ref. apply IH; [simpl; lia|done].
  - destruct q as [[] []]; try (by apply Hblind). simpl in E. injection E as E. apply (S_app F).
    apply Forall_in. intros x Hx. apply IH; [in_size|by eapply map_eq_in].
  - destruct q as [[] []]; try (by apply Hblind). simpl in E. injection E as E. apply S_variant.
    apply Forall_in. intros x Hx. apply IH; [in_size|by eapply map_eq_in].
  - destruct q as [[] []]; try (by apply Hblind). simpl in E. injection E as E. apply S_over.
    apply Forall_in. intros x Hx. apply IH; [in_size|by eapply map_eq_in].
Qed.

Lemma substitute_exact dest t : is_class dest = true -> occurs dest = false ->
  substitute dest t = replace dest t <-> supported t.
Proof. intros Hc Hd. split; [by apply supported_only|apply substitute_supported]. Qed.

(** The bounded types of a recursive variant. *)
Lemma enabled args i t :
  args !! i = Some t -> supported t ->
  exists t', recursive_enabled_types args !! i = Some t' /\
  let full := replace (make_recursive_variant args) t in
  (occurs t = false -> t' = t) /\
  (occurs t = true -> t' = if is_reference full || is_pointer full then full else recursive_wrapper full).
Proof.
  intros Hi Hs. exists (enable_recursive (make_recursive_variant args) t).
  split; [unfold recursive_enabled_types; change (map ?f args) with (f <$> args); by rewrite list_lookup_fmap, Hi|].
  cbn zeta. unfold enable_recursive. rewrite substitute_supported by done. split.
  - intros Ho. rewrite replace_free by done. by rewrite bool_decide_true.
  - intros Ho. rewrite bool_decide_false; [done|].
    intros E. apply fixed_free in E; [congruence|done|done].
Qed.
Lemma enabled_indirect args i t :
  args !! i = Some t -> supported t ->
  exists t', recursive_enabled_types args !! i = Some t' /\
  let full := replace (make_recursive_variant args) t in
  (occurs t = false -> t' = t) /\
  (occurs t = true -> (indirect full -> t' = full) /\ (~ indirect full -> t' = TApp nocv wrapper_template [full])).
Proof.
  intros Hi Hs. destruct (enabled args i t Hi Hs) as (t'&Ht'&H1&H2). exists t'. split; [done|]. split; [done|].
  intros Ho. rewrite (H2 Ho). clear. set (full := replace _ t). unfold indirect. split.
  - intros [(q&u&E)|(u&[E|E])]; rewrite E; done.
  - intros H. destruct full; try done; exfalso; apply H; eauto.
Qed.

Lemma tag_qualified q dest : is_class dest = true -> cv_of (substitute dest (TTag q)) = q /\ same_class dest (substitute dest (TTag q)).
Proof. destruct dest; try done; intros _; split; try done; constructor. Qed.
