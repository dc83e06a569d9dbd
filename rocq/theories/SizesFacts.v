(** Proofs about Sizes.v. *)
From stdpp Require Import base list numbers relations.
From Coq Require Import ZArith List Lia.
From Verif Require Import Base Types Layout LayoutSpec LayoutFacts Substitute SubstSpec SubstFacts Sizes SizesSpec.
Local Open Scope Z_scope.

Section facts.
Context (L : layouts) (bounded : list ty -> list ty).
Notation lay := (lay L bounded).
Notation part := (part (inside L) bounded).
Notation object_types := (object_types (inside L) bounded).
(** A variant given types has bounded types. *)
Context (Hb : forall args, bounded args = [] -> args = []).

Lemma part_object x t : part x t -> object_types t -> object_types x.
Proof. intros Hp Ho y Hy. apply Ho. eapply rtc_r; eauto. Qed.

(** ** A layout exists only if the types are nested finitely *)
Lemma lay_acc t l : lay t l -> Acc part t.
Proof.
  revert t l. fix IH 3. intros t l H.
  assert (HL : forall ts ls, Forall2 lay ts ls -> forall x, x ∈ ts -> Acc part x).
  { fix IHL 3. intros ts ls H2. destruct H2 as [|t0 l0 ts ls Ht Hts].
    - intros x Hx. by apply elem_of_nil in Hx.
    - intros x Hx. apply elem_of_cons in Hx as [->|Hx]; [by eapply IH|by eapply IHL]. }
  destruct H as [| | | | | |t n l Hn H|q F args l H|q F args f ls H H2|q F args n l H|q F args n f ls H H2|q args ls st Hn H H2|q args ls st Hn H H2|q args ls st Hn H H2];
    constructor; intros x Hx; inversion Hx; subst; try by eapply HL.
  - by eapply IH.
  - unfold inside in *. by rewrite H in *.
  - unfold inside in *. by rewrite H in *.
Qed.

Lemma storage_some P never (ls : list (Z * Z)) : ls <> [] -> is_Some (make_storage P never ls).
Proof.
  intros Hne. unfold make_storage, max_value. destruct never; simpl; [|by eexists].
  destruct ls as [|l ls]; [done|]. simpl. by eexists.
Qed.
Lemma lay_all ts : (forall x, x ∈ ts -> exists l, lay x l) -> exists ls, Forall2 lay ts ls.
Proof.
  induction ts as [|t ts IH]; intros H; [exists []; constructor|].
  destruct (H t) as [l Hl]; [left|]. destruct IH as [ls Hls]; [intros x Hx; apply H; by right|]. exists (l :: ls). by constructor.
Qed.
Lemma lay_exists t : Acc part t -> object_types t -> exists l, lay t l.
Proof.
  induction 1 as [t _ IH]. intros Ho. assert (Hp : forall x, part x t -> exists l, lay x l).
  { intros x Hx. apply IH; [done|]. by eapply part_object. }
  specialize (Ho t (rtc_refl _ _)). clear IH.
  assert (HV : forall args, args <> [] -> (forall x, x ∈ args -> exists l, lay x l) ->
    exists ls st, Forall2 lay args ls /\ make_storage (plat L) (fallback L args) ls = Some st).
  { intros args Hne Ha. destruct (lay_all args Ha) as [ls Hls].
    destruct (storage_some (plat L) (fallback L args) ls) as [st Hst]; [|by exists ls, st].
    intros ->. by inversion Hls. }
  destruct t as [q n|q|q t|t|t|t n|r args|q c t|q F args|q F args n|q args|q args|q args]; simpl in Ho.
  - eexists; constructor.
  - eexists; constructor.
  - eexists; constructor.
  - eexists; constructor.
  - eexists; constructor.
  - destruct (Hp t) as [l Hl]; [constructor|]. eexists. by constructor.
  - done.
  - eexists; constructor.
  - destruct (tpl L F None) as [l|f] eqn:Hf; [eexists; by constructor|].
    destruct (lay_all args) as [ls Hls]; [|eexists; by eapply lay_in].
    intros x Hx. apply Hp. constructor; [|done]. unfold inside. by rewrite Hf.
  - destruct (tpl L F (Some n)) as [l|f] eqn:Hf; [eexists; by constructor|].
    destruct (lay_all args) as [ls Hls]; [|eexists; by eapply lay_inn].
    intros x Hx. apply Hp. constructor; [|done]. unfold inside. by rewrite Hf.
  - destruct (HV args) as (ls&st&H1&H2); [by destruct args|intros x Hx; apply Hp; by constructor|]. eexists. econstructor; [by destruct args|done|done].
  - destruct (HV args) as (ls&st&H1&H2); [by destruct args|intros x Hx; apply Hp; by constructor|]. eexists. econstructor; [by destruct args|done|done].
  - destruct (HV (bounded args)) as (ls&st&H1&H2); [|intros x Hx; apply Hp; by constructor|eexists; econstructor; [by destruct args|done|done]].
    intros Hn. apply Hb in Hn. by subst.
Qed.

(** A layout exists only for types of objects. *)
Lemma lay_object t l : lay t l -> object_types t.
Proof.
  intros H. pose proof (lay_acc _ _ H) as Ha. revert l H. induction Ha as [t _ IH]. intros l H.
  assert (Hp : (forall x, part x t -> exists l, lay x l) /\ object_type t).
  { assert (HF : forall ts ls, Forall2 lay ts ls -> forall x, x ∈ ts -> exists l, lay x l).
    { intros ts ls Hl. induction Hl as [|t1 l1 ts ls H1 H2 IHl]; intros x Hx; [by apply elem_of_nil in Hx|].
      apply elem_of_cons in Hx as [->|Hx]; [by exists l1|by apply IHl]. }
    destruct H as [| | | | | |t n l Hn H|q F args l H|q F args f ls H H2|q F args n l H|q F args n f ls H H2|q args ls st Hn H H2|q args ls st Hn H H2|q args ls st Hn H H2];
      (split; [intros x Hx; inversion Hx; subst; try by eapply HF|try done]).
    - by exists l.
    - unfold inside in *. by rewrite H in *.
    - unfold inside in *. by rewrite H in *.
    - by destruct args.
    - by destruct args.
    - by destruct args. }
  destruct Hp as [Hp Ho]. intros x Hx. apply rtc_inv_r in Hx as [->|(y&Hx&Hy)]; [done|].
  destruct (Hp y Hy) as [l1 Hl1]. by eapply (IH y Hy l1 Hl1).
Qed.

(** It is determined. *)
Lemma lay_unique t l l' : lay t l -> lay t l' -> l' = l.
Proof.
  intros H. pose proof (lay_acc _ _ H) as Ha. revert l l' H. induction Ha as [t _ IH]. intros l l' H H'.
  assert (HA : forall args, (forall x, x ∈ args -> part x t) -> forall ls ls', Forall2 lay args ls -> Forall2 lay args ls' -> ls' = ls).
  { intros args Ha. induction args as [|x args IHa]; intros ls ls' Hl Hl'.
    - inversion Hl; inversion Hl'; subst; done.
    - inversion Hl; subst. inversion Hl'; subst.
      f_equal; [eapply IH; [apply Ha; left| |]; done|]. apply IHa; [|done|done]. intros z Hz. apply Ha. by right. }
  destruct H as [| | | | | |t n l Hn H|q F args l H|q F args f ls H H2|q F args n l H|q F args n f ls H H2|q args ls st Hn H H2|q args ls st Hn H H2|q args ls st Hn H H2];
    inversion H' as [| | | | | |t1 n1 l1 Hn1 H1|q1 F1 args1 l1 H1|q1 F1 args1 f1 ls1 H1 H12|q1 F1 args1 n1 l1 H1|q1 F1 args1 n1 f1 ls1 H1 H12|q1 args1 ls1 st1 Hn1 H1 H12|q1 args1 ls1 st1 Hn1 H1 H12|q1 args1 ls1 st1 Hn1 H1 H12]; subst; try done; try congruence.
  - by rewrite (IH t (part_arr _ _ _ _) _ _ H H1).
  - assert (f1 = f) as -> by congruence. f_equal. eapply HA; [|done|done]. intros x Hx. constructor; [|done]. unfold inside. by rewrite H.
  - assert (f1 = f) as -> by congruence. f_equal. eapply HA; [|done|done]. intros x Hx. constructor; [|done]. unfold inside. by rewrite H.
  - assert (ls1 = ls) as ->; [|congruence]. eapply HA; [|done|done]. intros x Hx. by constructor.
  - assert (ls1 = ls) as ->; [|congruence]. eapply HA; [|done|done]. intros x Hx. by constructor.
  - assert (ls1 = ls) as ->; [|congruence]. eapply HA; [|done|done]. intros x Hx. by constructor.
Qed.

Lemma lay_iff t : (exists l, lay t l) <-> Acc part t /\ object_types t.
Proof.
  split; [intros [l Hl]; split; [by eapply lay_acc|by eapply lay_object]|]. intros [H1 H2]. by apply lay_exists.
Qed.
Lemma tc_last a c : tc part a c -> exists y, rtc part a y /\ part y c.
Proof.
  induction 1 as [a b H|a b c H _ (y&Hr&Hy)]; [by exists a|]. exists y. split; [by eapply rtc_l|done].
Qed.
Lemma acc_irrefl t : Acc part t -> ~ tc part t t.
Proof.
  intros Ha. induction Ha as [t _ IH]. intros H.
  destruct (tc_last _ _ H) as (y&Hr&Hy).
  apply (IH y Hy). eapply tc_rtc_r; [by apply tc_once|done].
Qed.

(** ** What is inside fits *)
Context (Hp : proper_layouts L).
Lemma round_up_spec sz al : 0 < al -> sz <= round_up sz al /\ (al | round_up sz al).
Proof. intros H. destruct (aligned_storage_spec sz al H) as [[? _] ?]. split; [done|done]. Qed.
Lemma holds_refl l : holds l l.
Proof. split; [lia|done]. Qed.
Lemma holds_trans l1 l2 l3 : holds l1 l2 -> holds l2 l3 -> holds l1 l3.
Proof. intros [H1 H2] [H3 H4]. split; [lia|]. intros a Ha. auto. Qed.
Lemma variant_holds st : proper st -> proper (variant_layout L st) /\ holds (variant_layout L st) st.
Proof.
  intros [H1 H2]. destruct Hp as (_&_&_&_&[Hw1 Hw2]&_). unfold variant_layout, proper, holds. simpl.
  assert (Hal : 0 < Z.lcm (which_layout L).2 st.2).
  { pose proof (Z.lcm_nonneg (which_layout L).2 st.2). assert (Z.lcm (which_layout L).2 st.2 <> 0); [|lia].
    intros Hz. apply Z.lcm_eq_0 in Hz. lia. }
  destruct (round_up_spec (which_layout L).1 st.2 H2) as [H3 _].
  destruct (round_up_spec (round_up (which_layout L).1 st.2 + st.1) _ Hal) as [H4 _].
  split; [lia|]. split; [lia|]. intros a Ha. etrans; [apply Z.divide_lcm_r|exact Ha].
Qed.
Lemma storage_proper b (ls : list (Z * Z)) st : ls <> [] -> Forall proper ls -> make_storage (plat L) b ls = Some st ->
  proper st /\ forall l, l ∈ ls -> holds st l.
Proof.
  intros Hne Hl Hm. destruct Hp as (_&[Hp1 Hp2]&_).
  destruct (make_storage_ok (plat L) b ls Hne) as (st'&Hst&H1&_&_&H2); [|done|].
  { rewrite SubstFacts.Forall_in in Hl |- *. intros l Hx. by apply Hl. }
  rewrite Hst in Hm. injection Hm as ->. split; [|done]. split; [|done].
  destruct ls as [|l ls]; [done|]. destruct (H1 l) as [H3 _]; [left|]. rewrite SubstFacts.Forall_in in Hl. destruct (Hl l) as [Hl1 _]; [left|]. lia.
Qed.
Lemma lay_inside t l : lay t l -> proper l /\ forall x l', part x t -> lay x l' -> holds l l'.
Proof.
  intros H. pose proof (lay_acc _ _ H) as Ha. revert l H. induction Ha as [t _ IH]. intros l H.
  assert (HF : forall ts ls, (forall x, x ∈ ts -> part x t) -> Forall2 lay ts ls ->
    Forall proper ls /\ forall x l', x ∈ ts -> lay x l' -> l' ∈ ls).
  { intros ts ls Hs Hl. induction Hl as [|t1 l1 ts ls H1 H2 IHl].
    - split; [constructor|]. intros x l' Hx. by apply elem_of_nil in Hx.
    - destruct IHl as [I1 I2]; [intros x Hx; apply Hs; by right|]. split.
      + constructor; [|done]. eapply IH; [apply Hs; left|exact H1].
      + intros x l' Hx Hl'. apply elem_of_cons in Hx as [->|Hx]; [|right; by eapply I2].
        rewrite (lay_unique _ _ _ H1 Hl'). left. }
  assert (HV : forall ts ls st, ts <> [] -> (forall x, x ∈ ts -> part x t) -> Forall2 lay ts ls ->
    make_storage (plat L) (fallback L ts) ls = Some st ->
    proper (variant_layout L st) /\ forall x l', x ∈ ts -> lay x l' -> holds (variant_layout L st) l').
  { intros ts ls st Hne Hs Hl Hm. destruct (HF ts ls Hs Hl) as [H1 H2].
    assert (Hls : ls <> []) by (destruct Hl; done).
    destruct (storage_proper _ _ _ Hls H1 Hm) as [H3 H4].
    destruct (variant_holds st H3) as [H5 H6]. split; [done|]. intros x l' Hx Hl'. eapply holds_trans; [done|]. eauto. }
  destruct Hp as (Hu&Hptr&Htag&Hmem&Hwh&Htpl).
  destruct H as [| | | | | |t n l Hn H|q F args l H|q F args f ls H H2|q F args n l H|q F args n f ls H H2|q args ls st Hn H H2|q args ls st Hn H H2|q args ls st Hn H H2];
    try (split; [done|]; intros x l' Hx; by inversion Hx).
  - destruct (IH t (part_arr _ _ _ _) l H) as [[H1 H2] _]. split; [split; simpl; [lia|done]|].
    intros x l' Hx Hl'. inversion Hx; subst. rewrite (lay_unique _ _ _ H Hl'). split; [|done]. simpl. nia.
  - specialize (Htpl F None). rewrite H in Htpl. split; [done|]. intros x l' Hx. inversion Hx; subst. unfold inside in *. by rewrite H in *.
  - specialize (Htpl F None). rewrite H in Htpl. destruct (HF args ls) as [H3 H4]; [|done|].
    { intros x Hx. constructor; [|done]. unfold inside. by rewrite H. }
    destruct (Htpl ls H3) as [H5 H6]. split; [done|]. intros x l' Hx Hl'. inversion Hx; subst. eauto.
  - specialize (Htpl F (Some n)). rewrite H in Htpl. split; [done|]. intros x l' Hx. inversion Hx; subst. unfold inside in *. by rewrite H in *.
  - specialize (Htpl F (Some n)). rewrite H in Htpl. destruct (HF args ls) as [H3 H4]; [|done|].
    { intros x Hx. constructor; [|done]. unfold inside. by rewrite H. }
    destruct (Htpl ls H3) as [H5 H6]. split; [done|]. intros x l' Hx Hl'. inversion Hx; subst. eauto.
  - destruct (HV args ls st Hn) as [H3 H4]; [intros x Hx; by constructor|done|done|]. split; [done|].
    intros x l' Hx Hl'. inversion Hx; subst. eauto.
  - destruct (HV args ls st Hn) as [H3 H4]; [intros x Hx; by constructor|done|done|]. split; [done|].
    intros x l' Hx Hl'. inversion Hx; subst. eauto.
  - destruct (HV (bounded args) ls st) as [H3 H4]; [intros He; by apply Hn, Hb|intros x Hx; by constructor|done|done|]. split; [done|].
    intros x l' Hx Hl'. inversion Hx; subst. eauto.
Qed.
Lemma part_lays x t l : lay t l -> part x t -> exists l', lay x l'.
Proof.
  intros Hl Hx. apply lay_exists.
  - apply lay_acc in Hl. by apply Hl.
  - eapply part_object; [done|]. by eapply lay_object.
Qed.
Lemma inside_fits t l x l' : lay t l -> lay x l' -> rtc part x t -> holds l l'.
Proof.
  intros Hl Hl' Hr. revert t Hr l Hl. apply (rtc_ind_r (fun t => forall l, lay t l -> holds l l') x).
  - intros l Hl. rewrite (lay_unique _ _ _ Hl Hl'). apply holds_refl.
  - intros y t Hxy Hyt IH l Hl. destruct (part_lays _ _ _ Hl Hyt) as [l2 Hl2].
    eapply holds_trans; [by eapply lay_inside|]. by apply IH.
Qed.
End facts.

(** ** The bounded types of recursive variants *)
Section recursive.
Context (L : layouts) (Hw : wrapper_is_pointer L).
Notation lay := (lay L recursive_enabled_types).
Notation part := (part (inside L) recursive_enabled_types).

Lemma enabled_nil args : recursive_enabled_types args = [] -> args = [].
Proof. by destruct args. Qed.
Lemma no_part_wrapper x t : ~ part x (recursive_wrapper t).
Proof. intros H. inversion H; subst. unfold inside in *. rewrite Hw in *. done. Qed.
Lemma enabled_cases dest t : enable_recursive dest t = t \/ forall x, ~ part x (enable_recursive dest t).
Proof.
  unfold enable_recursive. case_bool_decide as Ht; simpl; [by left|right].
  destruct (is_reference (substitute dest t)) eqn:Hr; simpl.
  { intros x Hx. destruct (substitute dest t); try done; by inversion Hx. }
  destruct (is_pointer (substitute dest t)) eqn:Hpt; [|intros x; apply no_part_wrapper].
  intros x Hx. destruct (substitute dest t); try done; by inversion Hx.
Qed.
Lemma enabled_acc t : Acc part t.
Proof.
  induction t as [t IH] using size_ind. constructor. intros x Hx.
  inversion Hx; subst; try (apply IH; in_size).
  - apply IH. simpl. lia.
  - match goal with H : _ ∈ recursive_enabled_types _ |- _ => apply elem_of_list_fmap in H as (t0&->&Ht0) end.
    destruct (enabled_cases (make_recursive_variant args) t0) as [->|Hno]; [apply IH; in_size|].
    constructor. intros y Hy. by apply Hno in Hy.
Qed.
Lemma enabled_pointer dest t l : substitute dest t <> t -> lay (enable_recursive dest t) l -> l = ptr_layout (plat L).
Proof.
  intros Hs. unfold enable_recursive. rewrite bool_decide_eq_false_2; [|done]. simpl.
  destruct (is_reference (substitute dest t)) eqn:Hr; simpl.
  { intros H. destruct (substitute dest t); try done; by inversion H. }
  destruct (is_pointer (substitute dest t)) eqn:Hpt; intros H.
  { destruct (substitute dest t); try done; by inversion H. }
  inversion H as [| | | | | | |? ? ? ? H1|? ? ? ? ? H1| | | | |]; subst; unfold wrapper_is_pointer in Hw; congruence.
Qed.
Lemma mentions_pointer args i t t' l : args !! i = Some t -> supported t -> occurs t = true ->
  recursive_enabled_types args !! i = Some t' -> lay t' l -> l = ptr_layout (plat L).
Proof.
  intros Ht Hs Ho Hi. unfold recursive_enabled_types in Hi. rewrite list_lookup_fmap, Ht in Hi. injection Hi as <-.
  apply enabled_pointer. intros He. destruct (substitute_exact (make_recursive_variant args) t) as [_ Hx]; [done|done|].
  rewrite (Hx Hs) in He. pose proof (replace_closed (make_recursive_variant args) t eq_refl eq_refl). congruence.
Qed.
End recursive.
