(** Predicates over the model's memory as a BI, for the Iris proof mode.
    Proof infrastructure only: no part of the model. *)
From stdpp Require Import gmap.
From iris.bi Require Import interface derived_laws.
From iris.algebra Require Import ofe.
From iris.proofmode Require Import tactics.
From Verif Require Import Base.

Definition heap := gmap loc cell.

Record hprop := HProp { hholds :> heap -> Prop }.
Global Arguments hholds : simpl never.
Add Printing Constructor hprop.
Bind Scope bi_scope with hprop.

Section ofe.
  Inductive hprop_equiv' (P Q : hprop) : Prop :=
    { hprop_in_equiv : forall h, P h <-> Q h }.
  Local Instance hprop_equiv : Equiv hprop := hprop_equiv'.
  Local Instance hprop_equivalence : Equivalence (≡@{hprop}).
  Proof.
    split; repeat destruct 1; constructor; naive_solver.
  Qed.
  Canonical Structure hpropO := discreteO hprop.
End ofe.

Inductive hprop_entails (P Q : hprop) : Prop :=
  { hprop_in_entails : forall h, P h -> Q h }.

Definition hprop_emp : hprop := {| hholds h := h = ∅ |}.
Definition hprop_pure (φ : Prop) : hprop := {| hholds _ := φ |}.
Definition hprop_and (P Q : hprop) : hprop := {| hholds h := P h /\ Q h |}.
Definition hprop_or (P Q : hprop) : hprop := {| hholds h := P h \/ Q h |}.
Definition hprop_impl (P Q : hprop) : hprop := {| hholds h := P h -> Q h |}.
Definition hprop_forall {A} (Ψ : A -> hprop) : hprop := {| hholds h := forall a, Ψ a h |}.
Definition hprop_exist {A} (Ψ : A -> hprop) : hprop := {| hholds h := exists a, Ψ a h |}.
Definition hprop_sep (P Q : hprop) : hprop :=
  {| hholds h := exists h1 h2, h = h1 ∪ h2 /\ h1 ##ₘ h2 /\ P h1 /\ Q h2 |}.
Definition hprop_wand (P Q : hprop) : hprop :=
  {| hholds h := forall h', h ##ₘ h' -> P h' -> Q (h ∪ h') |}.
Definition hprop_persistently (P : hprop) : hprop := {| hholds _ := P ∅ |}.

Section mixins.
  Lemma hprop_bi_mixin :
    BiMixin hprop_entails hprop_emp hprop_pure hprop_and hprop_or hprop_impl
      (@hprop_forall) (@hprop_exist) hprop_sep hprop_wand hprop_persistently.
  Proof.
    split.
    - split.
      + intros P; constructor; naive_solver.
      + intros P Q R [H1] [H2]; constructor; naive_solver.
    - intros P Q; split.
      + intros [HPQ]; split; constructor; naive_solver.
      + intros [[H1] [H2]]; constructor; naive_solver.
    - intros n φ1 φ2 Hφ; constructor; exact (fun _ => Hφ).
    - intros n P P' [HP] Q Q' [HQ]; constructor; intros h.
      unfold hprop_and, hholds; rewrite -/(hholds P h) -/(hholds P' h) -/(hholds Q h) -/(hholds Q' h); naive_solver.
    - intros n P P' [HP] Q Q' [HQ]; constructor; intros h.
      unfold hprop_or, hholds; rewrite -/(hholds P h) -/(hholds P' h) -/(hholds Q h) -/(hholds Q' h); naive_solver.
    - intros n P P' [HP] Q Q' [HQ]; constructor; intros h.
      unfold hprop_impl, hholds; rewrite -/(hholds P h) -/(hholds P' h) -/(hholds Q h) -/(hholds Q' h); naive_solver.
    - intros A n Φ Φ' HΦ; constructor; intros h. split; intros H a; destruct (HΦ a) as [Hx]; apply Hx, H.
    - intros A n Φ Φ' HΦ; constructor; intros h. split; intros [a H]; exists a; destruct (HΦ a) as [Hx]; apply Hx, H.
    - intros n P P' [HP] Q Q' [HQ]; constructor; intros h.
      split; intros (h1&h2&?&?&?&?); exists h1, h2; repeat split; try done; try apply HP; try apply HQ; done.
    - intros n P P' [HP] Q Q' [HQ]; constructor; intros h.
      split; intros H h' Hd HP'; apply HQ, H, HP; done.
    - intros n P P' [HP]; constructor; intros h. apply HP.
    - intros φ P Hφ; constructor; intros h HP; exact Hφ.
    - intros φ P Hφ; constructor; intros h Hh. by apply Hφ.
    - intros P Q; constructor; intros h [??]; done.
    - intros P Q; constructor; intros h [??]; done.
    - intros P Q R [H1] [H2]; constructor; intros h Hh; split; auto.
    - intros P Q; constructor; intros h ?; left; done.
    - intros P Q; constructor; intros h ?; right; done.
    - intros P Q R [H1] [H2]; constructor; intros h [?|?]; auto.
    - intros P Q R [H]; constructor; intros h HP HQ. apply H. by split.
    - intros P Q R [H]; constructor; intros h [HP HQ]. by apply H.
    - intros A P Ψ H; constructor; intros h HP a. by apply H.
    - intros A Ψ a; constructor; intros h H. apply H.
    - intros A Ψ a; constructor; intros h H. by exists a.
    - intros A Φ Q H; constructor; intros h [a Ha]. by apply (H a).
    - intros P P' Q Q' [H1] [H2]; constructor; intros h (h1&h2&->&?&?&?). exists h1, h2; auto.
    - intros P; constructor; intros h HP. exists ∅, h. rewrite left_id_L.
      split; [done|]. split; [apply map_disjoint_empty_l|]. done.
    - intros P; constructor; intros h (h1&h2&->&?&Hemp&?). unfold hprop_emp, hholds in Hemp. subst.
      by rewrite left_id_L.
    - intros P Q; constructor; intros h (h1&h2&->&?&?&?). exists h2, h1.
      split; [by apply map_union_comm|]. done.
    - intros P Q R; constructor; intros h (h1&h2&->&Hd&(h3&h4&->&Hd'&?&?)&?).
      apply map_disjoint_union_l in Hd as [??].
      exists h3, (h4 ∪ h2). rewrite assoc_L. split; [done|].
      split; [by apply map_disjoint_union_r_2|]. split; [done|].
      exists h4, h2. done.
    - intros P Q R [H]; constructor; intros h HP h' Hd HQ. apply H. exists h, h'. done.
    - intros P Q R [H]; constructor; intros h (h1&h2&->&Hd&HP&HQ). apply H; done.
    - intros P Q [H]; constructor; intros h. apply H.
    - intros P; constructor; intros h. done.
    - constructor; intros h Hh. done.
    - intros P Q; constructor; intros h [??]. split; done.
    - intros A Ψ; constructor; intros h [a ?]. by exists a.
    - intros P Q; constructor; intros h (h1&h2&?&?&?&?). done.
    - intros P Q; constructor; intros h [??]. exists ∅, h. rewrite left_id_L.
      split; [done|]. split; [apply map_disjoint_empty_l|]. done.
  Qed.

  Lemma hprop_bi_later_mixin :
    BiLaterMixin hprop_entails hprop_pure hprop_or hprop_impl
      (@hprop_forall) (@hprop_exist) hprop_sep hprop_persistently id.
  Proof. eapply bi_later_mixin_id; [done|apply hprop_bi_mixin]. Qed.
End mixins.

Canonical Structure hpropI : bi :=
  {| bi_ofe_mixin := ofe_mixin_of hprop; bi_bi_mixin := hprop_bi_mixin;
     bi_bi_later_mixin := hprop_bi_later_mixin |}.

Global Instance hprop_pure_forall : BiPureForall hpropI.
Proof. intros A φ. constructor; intros h H. exact H. Qed.

(** Ownership of one cell. *)
Definition pt (l : loc) (c : cell) : hprop := {| hholds h := h = {[ l := c ]} |}.
Notation "l ↦ c" := (pt l c) (at level 20, format "l  ↦  c") : bi_scope.
Notation "⌞ φ ⌟" := (<affine> ⌜ φ ⌝)%I (at level 1, φ at level 200, format "⌞ φ ⌟") : bi_scope.

Lemma hprop_unfold_sep (P Q : hprop) h :
  (P ∗ Q)%I h <-> exists h1 h2, h = h1 ∪ h2 /\ h1 ##ₘ h2 /\ P h1 /\ Q h2.
Proof. done. Qed.
Lemma hprop_unfold_exist {A} (Φ : A -> hprop) h : (∃ a, Φ a)%I h <-> exists a, Φ a h.
Proof. done. Qed.
Lemma hprop_unfold_emp h : (emp : hprop)%I h <-> h = ∅.
Proof. done. Qed.
Lemma hprop_unfold_apure (φ : Prop) h : (⌞ φ ⌟ : hprop)%I h <-> h = ∅ /\ φ.
Proof. unfold bi_affinely. done. Qed.
Lemma hprop_entails_unfold (P Q : hprop) : (P ⊢ Q) <-> forall h, P h -> Q h.
Proof. split; [intros [H]; exact H | intros H; by constructor]. Qed.

Lemma pt_exclusive l c c' : (l ↦ c ∗ l ↦ c' : hprop) ⊢ False.
Proof.
  constructor; intros h (h1&h2&->&Hd&H1&H2).
  unfold pt, hholds in H1, H2; subst.
  exfalso; revert Hd; rewrite map_disjoint_singleton_l lookup_singleton; done.
Qed.
