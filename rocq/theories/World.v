(** Ownership of everything a program has names for (proofs). *)
From stdpp Require Import gmap.
From iris.proofmode Require Import tactics.
From iris.bi Require Import big_op.
From Verif Require Import Base Types Dispatch Variant Sem Values ValuesFacts Client Observe ObserveFacts Heap Wp Rep.

Lemma some_iff_none {A B} (a : option A) (b : option B) : (is_Some a <-> is_Some b) -> b = None -> a = None.
Proof. intros [H _] ->. destruct a; [|done]. destruct (H (mk_is_Some _ _ eq_refl)). done. Qed.
Lemma some_iff_some {A B} (a : option A) (b : option B) y :
  (is_Some a <-> is_Some b) -> b = Some y -> exists x, a = Some x.
Proof. intros [_ H] ->. destruct (H (mk_is_Some _ _ eq_refl)) as [x ?]. by exists x. Qed.

Section world.
Context (C : cfg) (W : wpar).
Notation Rvar := (Rvar C W).
Notation tobj := (tobj C W).

Definition own (b : bnd) (α : aval) : hprop :=
  match b, α with
  | BVar tys a, AVar tys' k => ⌞tys' = tys⌟ ∗ Rvar tys a k
  | BObj u a, AObj u' v => ⌞u' = u⌟ ∗ tobj a KStk None u v
  | _, _ => False
  end.

Definition world (E : env) (σ : astate) : hprop := [∗ map] b;α ∈ E;σ, own b α.

(** What the proof keeps of every value: types are good, depth at most [B]. *)
Definition aok1 (B : nat) (α : aval) : Prop :=
  match α with
  | AVar tys k => wf_tys C W tys /\ depth k.2 <= B
  | AObj u v => depth v <= B
  end.
Definition aok (B : nat) (σ : astate) : Prop := forall x α, σ !! x = Some α -> aok1 B α.

Lemma aok1_mono B B' α : B <= B' -> aok1 B α -> aok1 B' α.
Proof. destruct α; simpl; [intros ? [??]; split; [done|lia]|lia]. Qed.
Lemma aok_mono B B' σ : B <= B' -> aok B σ -> aok B' σ.
Proof. intros HB H x α Hx. eapply aok1_mono; [done|]. by eapply H. Qed.
Lemma aok_insert B σ x α : aok B σ -> aok1 B α -> aok B (<[x := α]> σ).
Proof.
  intros H Ha y β Hy. destruct (decide (x = y)) as [->|Hne].
  - rewrite lookup_insert in Hy. injection Hy as <-. done.
  - rewrite lookup_insert_ne // in Hy. by eapply H.
Qed.
Lemma aok_delete B σ x : aok B σ -> aok B (delete x σ).
Proof. intros H y β Hy. apply lookup_delete_Some in Hy as [_ Hy]. by eapply H. Qed.

Lemma world_empty : world ∅ ∅ ⊣⊢ emp.
Proof. apply big_sepM2_empty. Qed.

Lemma world_none E σ x : σ !! x = None -> world E σ ⊢ ⌜E !! x = None⌝.
Proof.
  iIntros (Hx) "H". iDestruct (big_sepM2_lookup_iff with "H") as %H. iPureIntro.
  exact (some_iff_none _ _ (H x) Hx).
Qed.

Lemma world_lookup E σ x α : σ !! x = Some α ->
  world E σ ⊢ ∃ b, ⌞E !! x = Some b⌟ ∗ own b α ∗ ∀ α', own b α' -∗ world E (<[x := α']> σ).
Proof.
  iIntros (Hx) "H". iDestruct (big_sepM2_lookup_iff with "H") as %H.
  destruct (some_iff_some _ _ _ (H x) Hx) as [b Eb]. iExists b. iSplitR; [done|]. iDestruct (big_sepM2_insert_acc with "H") as "[$ H]"; [done..|].
    iIntros (α') "Ha". iSpecialize ("H" $! b α' with "Ha"). rewrite (insert_id E) //.
Qed.

Lemma world_insert E σ x b α : σ !! x = None -> world E σ ∗ own b α ⊢ world (<[x := b]> E) (<[x := α]> σ).
Proof.
  iIntros (Hx) "[H Ha]". iDestruct (world_none with "H") as %Hn; [done|].
  iApply big_sepM2_insert; [done..|]. iFrame.
Qed.

Lemma world_delete E σ x α : σ !! x = Some α ->
  world E σ ⊢ ∃ b, ⌞E !! x = Some b⌟ ∗ own b α ∗ world (delete x E) (delete x σ).
Proof.
  iIntros (Hx) "H". iDestruct (big_sepM2_lookup_iff with "H") as %H.
  destruct (some_iff_some _ _ _ (H x) Hx) as [b Eb]. iExists b. iSplitR; [done|]. by iApply (big_sepM2_delete with "H").
Qed.

Lemma world_lookup2 E σ x y α β : x <> y -> σ !! x = Some α -> σ !! y = Some β ->
  world E σ ⊢ ∃ b c, ⌞E !! x = Some b /\ E !! y = Some c⌟ ∗ own b α ∗ own c β ∗
    ∀ α' β', own b α' -∗ own c β' -∗ world E (<[x := α']> (<[y := β']> σ)).
Proof.
  iIntros (Hne Hx Hy) "H". iDestruct (world_delete _ _ x with "H") as (b) "(%Eb & Hb & H)"; [done|].
  iDestruct (world_lookup _ _ y with "H") as (c) "(%Ec & Hc & H)"; [by rewrite lookup_delete_ne|].
  rewrite lookup_delete_ne // in Ec.
  iExists b, c. iSplitR; [done|]. iFrame "Hb Hc". iIntros (α' β') "Hb Hc".
  iSpecialize ("H" with "Hc"). iDestruct (world_insert _ _ x b α' with "[$H $Hb]") as "H".
  { rewrite lookup_insert_ne // lookup_delete //. }
  rewrite insert_delete_insert insert_id // insert_commute // insert_delete_insert insert_commute //.
Qed.

(** Typed access. *)
Lemma world_var E σ x tys k : σ !! x = Some (AVar tys k) ->
  world E σ ⊢ ∃ a, ⌞E !! x = Some (BVar tys a)⌟ ∗ Rvar tys a k ∗
    ∀ k', Rvar tys a k' -∗ world E (<[x := AVar tys k']> σ).
Proof.
  iIntros (Hx) "H". iDestruct (world_lookup with "H") as (b) "(%Eb & Hb & H)"; [done|].
  destruct b as [tys' a|u a]; simpl; [|done]. iDestruct "Hb" as "[-> Hb]". iExists a. iSplitR; [done|].
  iFrame "Hb". iIntros (k') "Hb". iApply ("H" $! (AVar tys' k')). simpl. by iFrame.
Qed.
Lemma world_obj E σ x u v : σ !! x = Some (AObj u v) ->
  world E σ ⊢ ∃ a, ⌞E !! x = Some (BObj u a)⌟ ∗ tobj a KStk None u v ∗
    ∀ v', tobj a KStk None u v' -∗ world E (<[x := AObj u v']> σ).
Proof.
  iIntros (Hx) "H". iDestruct (world_lookup with "H") as (b) "(%Eb & Hb & H)"; [done|].
  destruct b as [tys' a|u' a]; simpl; [done|]. iDestruct "Hb" as "[-> Hb]". iExists a. iSplitR; [done|].
  iFrame "Hb". iIntros (k') "Hb". iApply ("H" $! (AObj u' k')). simpl. by iFrame.
Qed.
Lemma world_var2 E σ x y tys1 k1 tys2 k2 : x <> y ->
  σ !! x = Some (AVar tys1 k1) -> σ !! y = Some (AVar tys2 k2) ->
  world E σ ⊢ ∃ a b, ⌞E !! x = Some (BVar tys1 a) /\ E !! y = Some (BVar tys2 b)⌟ ∗ Rvar tys1 a k1 ∗ Rvar tys2 b k2 ∗
    ∀ k1' k2', Rvar tys1 a k1' -∗ Rvar tys2 b k2' -∗ world E (<[x := AVar tys1 k1']> (<[y := AVar tys2 k2']> σ)).
Proof.
  iIntros (Hne Hx Hy) "H". iDestruct (world_lookup2 _ _ x y with "H") as (b c) "([%Eb %Ec] & Hb & Hc & H)"; [done..|].
  destruct b as [tys' a|u a]; simpl; [|done]. destruct c as [tys'' c|u c]; simpl; [|done].
  iDestruct "Hb" as "[-> Hb]". iDestruct "Hc" as "[-> Hc]". iExists a, c. iSplitR; [done|]. iFrame "Hb Hc".
  iIntros (k1' k2') "Hb Hc". iApply ("H" $! (AVar tys' k1') (AVar tys'' k2') with "[Hb]"); simpl; by iFrame.
Qed.
Lemma world_var_obj E σ x y tys1 k1 u v :
  σ !! x = Some (AVar tys1 k1) -> σ !! y = Some (AObj u v) ->
  world E σ ⊢ ∃ a b, ⌞E !! x = Some (BVar tys1 a) /\ E !! y = Some (BObj u b)⌟ ∗ Rvar tys1 a k1 ∗ tobj b KStk None u v ∗
    ∀ k1' v', Rvar tys1 a k1' -∗ tobj b KStk None u v' -∗ world E (<[x := AVar tys1 k1']> (<[y := AObj u v']> σ)).
Proof.
  iIntros (Hx Hy) "H". iDestruct (world_lookup2 _ _ x y with "H") as (b c) "([%Eb %Ec] & Hb & Hc & H)"; [congruence|done..|].
  destruct b as [tys' a|u' a]; simpl; [|done]. destruct c as [tys'' c|u' c]; simpl; [done|].
  iDestruct "Hb" as "[-> Hb]". iDestruct "Hc" as "[-> Hc]". iExists a, c. iSplitR; [done|]. iFrame "Hb Hc".
  iIntros (k1' k2') "Hb Hc". iApply ("H" $! (AVar tys' k1') (AObj u' k2') with "[Hb]"); simpl; by iFrame.
Qed.

(** ** What is owned is shown *)
Lemma own_part E σ x b α h : world E σ h -> E !! x = Some b -> σ !! x = Some α -> exists h', h' ⊆ h /\ own b α h'.
Proof.
  intros H Hb Ha. apply (hprop_in_entails _ _ (world_delete E σ x α Ha)) in H.
  destruct H as (b'&h0&h1&->&Hd&Hb'&h2&h3&->&Hd'&Ho&_). destruct (apure_inv (E !! x = Some b') _ Hb') as [-> Hb''].
  rewrite Hb in Hb''. injection Hb'' as <-. exists h2. split; [|done]. rewrite left_id_L.
  by apply map_union_subseteq_l.
Qed.

Lemma world_shows E σ h m : world E σ h -> h ⊆ m -> shows C m E σ.
Proof.
  intros H Hs x.
  assert (Hiff : forall x, is_Some (E !! x) <-> is_Some (σ !! x)).
  { pose proof (hprop_in_entails _ _ (big_sepM2_lookup_iff (fun _ => own) E σ) h H) as Hi. exact Hi. }
  assert (HN : σ !! x = None -> E !! x = None) by apply (some_iff_none _ _ (Hiff x)).
  assert (HS : forall α, σ !! x = Some α -> exists b, E !! x = Some b).
  { intros α. apply (some_iff_some _ _ α (Hiff x)). }
  destruct (σ !! x) as [α|] eqn:Ea; last first.
  { by rewrite HN. }
  destruct (HS α) as [b Eb]; [done|]. rewrite Eb.
  destruct (own_part E σ x b α h H Eb Ea) as (h'&Hs'&Ho). assert (Hm : h' ⊆ m) by by etrans.
  destruct b as [tys a|u a], α as [tys' k|u' v]; simpl in Ho; try by destruct Ho.
  - destruct Ho as (h0&h1&->&Hd&Ht&Ho). destruct (apure_inv (tys' = tys) _ Ht) as [-> ->]. split; [done|].
    rewrite left_id_L in Hm. by eapply Rvar_holds.
  - destruct Ho as (h0&h1&->&Hd&Ht&Ho). destruct (apure_inv (u' = u) _ Ht) as [-> ->]. split; [done|].
    rewrite left_id_L in Hm. by eapply tobj_holds.
Qed.
End world.
