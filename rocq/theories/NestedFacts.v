(** Proofs for C54. *)
From Coq Require Import ssreflect Lia.
From stdpp Require Import base list numbers.
From Verif Require Import Base Nested NestedSpec.
From Verif Require Types Compile.

Section facts.
Context (base : nat -> option (list alt)) (conv : nat -> xty -> option nat) (explicit : nat -> xty -> bool).
Notation makes := (makes base conv explicit).
Notation accepted := (accepted base conv explicit).
Notation constructible := (constructible base conv explicit).
Notation from := (from base conv explicit).
Notation rank := (rank base conv explicit).
Notation converts := (converts base conv explicit).
Notation initialize := (initialize base conv explicit).
Notation best := (best base conv explicit).
Notation construct := (construct base conv explicit).

(** Induction through the lists. *)
Lemma xty_ind' (P : xty -> Prop) :
  (forall u, P (XUser u)) -> (forall tys, (forall w t, (w, t) ∈ tys -> P t) -> P (XVar tys)) -> forall t, P t.
Proof.
  intros Hu Hv. fix IH 1. intros [u|tys]; [apply Hu|]. apply Hv.
  induction tys as [|[w' t'] tys IHt]; intros w t Hin.
  - exfalso. exact (proj1 (elem_of_nil _) Hin).
  - apply elem_of_cons in Hin as [[= -> ->]|Hin]; [apply IH|exact (IHt w t Hin)].
Qed.

Lemma leaves_part l w t : l ∈ leaves w t <-> part l (w, t).
Proof.
  revert w. induction t as [u|tys IH] using xty_ind'; intros w.
  - replace (leaves w (XUser u)) with [(w, XUser u)] by (by destruct w).
    rewrite elem_of_list_singleton. split.
    + intros ->. by apply part_self.
    + intros H. by inversion H.
  - destruct w; simpl.
    + rewrite elem_of_list_singleton. split.
      * intros ->. by apply part_self.
      * intros H. by inversion H.
    + setoid_rewrite elem_of_list_In. setoid_rewrite List.in_concat. split.
      * intros (xs&Hxs&Hl). apply List.in_map_iff in Hxs as ([w' t']&<-&Hin).
        apply elem_of_list_In in Hin, Hl. eapply part_in; [exact Hin|]. by apply (IH w' t' Hin).
      * intros H. inversion H as [Hno|[w' t'] os Hin Hp]; subst; [by destruct (Hno tys)|].
        exists (leaves w' t'). split.
        -- apply List.in_map_iff. exists (w', t'). split; [done|]. by apply elem_of_list_In.
        -- apply elem_of_list_In. by apply (IH w' t' Hin).
Qed.

Lemma existsb_alt (f : alt -> bool) tys : existsb f tys = true <-> exists t, t ∈ tys /\ f t = true.
Proof. rewrite existsb_exists. setoid_rewrite elem_of_list_In. done. Qed.
Lemma forallb_alt (f : alt -> bool) tys : forallb f tys = true <-> forall t, t ∈ tys -> f t = true.
Proof. rewrite forallb_forall. setoid_rewrite elem_of_list_In. done. Qed.

Lemma some_iff {A} (x : option A) : some x = true <-> exists r, x = Some r.
Proof. destruct x; split; [eauto|done|done|by intros [r Hr]]. Qed.
Lemma same_iff t o : same t o = true <-> o = t.
Proof. apply bool_decide_eq_true. Qed.
Lemma derived_iff tys o : derived base tys o = true <-> exists d, o = (false, XUser d) /\ base d = Some tys.
Proof.
  destruct o as [[] [d|os]]; simpl; try (split; [done|by intros (d'&[=]&_)]).
  rewrite bool_decide_eq_true. split; [eauto|]. by intros (d'&[= ->]&H).
Qed.

Lemma constructible_makes w t o : constructible w t o = true <-> makes (w, t) o.
Proof.
  revert w o. induction t as [u|tys IH] using xty_ind'; intros w o; simpl; rewrite orb_true_iff same_iff.
  - split.
    + intros [->|H]; [apply makes_same|]. destruct w.
      * apply orb_true_iff in H as [H|H]; [apply same_iff in H as ->; apply makes_wrapped|].
        apply some_iff in H as [r Hr]. destruct o as [[] o]; [done|]. eapply makes_convert. exact Hr.
      * apply orb_true_iff in H as [H|H].
        -- apply some_iff in H as [r Hr]. destruct o as [[] o]; [done|]. eapply makes_convert. exact Hr.
        -- destruct o as [[] o]; [done|]. by eapply makes_explicit.
    + intros H. inversion H as [| |w' u' o' r Hr| u' o' He| |]; subst; [by left|right..].
      * apply orb_true_iff. left. by apply same_iff.
      * destruct w; apply orb_true_iff; [right|left]; apply some_iff; eauto.
      * simpl. apply orb_true_iff. by right.
  - rewrite !orb_true_iff andb_true_iff same_iff derived_iff.
    assert (Hacc : forallb (fun l => existsb (fun p : alt => let (w', t') := p in constructible w' t' l) tys) (leaves o.1 o.2) = true
      <-> forall l, part l o -> exists t, t ∈ tys /\ makes t l).
    { rewrite forallb_alt. split.
      - intros H l Hl. destruct o as [wo o]. apply leaves_part in Hl. specialize (H l Hl).
        apply existsb_alt in H as ([w' t']&Hin&H). exists (w', t'). split; [done|]. by apply (IH w' t' Hin).
      - intros H l Hl. destruct o as [wo o]. apply leaves_part in Hl. destruct (H l Hl) as ([w' t']&Hin&Hm).
        apply existsb_alt. exists (w', t'). split; [done|]. by apply (IH w' t' Hin). }
    rewrite Hacc. split.
    + intros [->|[[[-> ->]|(d&->&Hd)]|H]]; [apply makes_same|apply makes_wrapped|by apply makes_base|by apply makes_variant].
    + intros H. inversion H; subst; eauto 8.
Qed.

Lemma from_accepted tys o : from tys o = true <-> accepted tys o.
Proof.
  unfold Nested.from, NestedSpec.accepted. rewrite forallb_alt. destruct o as [wo o]. setoid_rewrite leaves_part.
  split; intros H l Hl; specialize (H l Hl).
  - apply existsb_alt in H as ([w t]&Hin&H). exists (w, t). split; [done|]. by apply constructible_makes.
  - destruct H as ([w t]&Hin&H). apply existsb_alt. exists (w, t). split; [done|]. by apply constructible_makes.
Qed.

Lemma rank_converts t o r : rank t o = Some r <-> converts o t r.
Proof.
  unfold Nested.rank. destruct (decide (o = t)) as [->|Hne].
  { split; [intros [= <-]; apply converts_same|]. intros H.
    inversion H as [|u r' Hne|d tys Ho Hb|tys Hne]; subst; congruence. }
  destruct t as [u|tys].
  - split.
    + destruct (conv u o) as [r'|] eqn:E; intros [= <-]. by apply converts_user.
    + intros H. inversion H as [|u' r' Hne' Hr| |]; subst; [done|]. by rewrite Hr.
  - destruct (derived _ _ _) eqn:Ed.
    { apply derived_iff in Ed as (d&[= ->]&Hb). split; [intros [= <-]; by eapply converts_base|].
      intros H. inversion H as [|u' r' Hne' Hr|d' tys' [= ->] Hb'|tys' _ Hno _]; subst; [done|]. by destruct (Hno d). }
    assert (Hno : forall d, o = XUser d -> base d <> Some tys).
    { intros d -> Hb. assert (derived base tys (false, XUser d) = true); [|congruence]. apply derived_iff. eauto. }
    destruct (from _ _) eqn:Ef.
    + apply from_accepted in Ef. split; [intros [= <-]; by apply converts_variant|].
      intros H. inversion H as [|u' r' Hne' Hr|d' tys' -> Hb'|tys' _ _ _]; subst; [done| |done]. by destruct (Hno d').
    + split; [done|]. intros H. inversion H as [|u' r' Hne' Hr|d' tys' -> Hb'|tys' _ _ Ha]; subst; [done| |].
      * by destruct (Hno d').
      * apply from_accepted in Ha. congruence.
Qed.

(** ** Overload resolution *)
Lemma visible_spec i tys n u :
  (n, u) ∈ visible i tys <->
  exists j t, n = i + j /\ tys !! j = Some t /\ t.2 = u /\
    forall j' t', j < j' -> tys !! j' = Some t' -> t'.2 <> u.
Proof.
  revert i. induction tys as [|t tys IH]; intros i; simpl.
  { rewrite elem_of_nil. split; [done|]. intros (j&t&_&Hj&_). done. }
  assert (Hgo : (exists j t0, n = S i + j /\ tys !! j = Some t0 /\ t0.2 = u /\
             forall j' t', j < j' -> tys !! j' = Some t' -> t'.2 <> u) <->
          (exists j t0, j <> 0 /\ n = i + j /\ (t :: tys) !! j = Some t0 /\ t0.2 = u /\
             forall j' t', j < j' -> (t :: tys) !! j' = Some t' -> t'.2 <> u)).
  { split.
    - intros (j&t0&->&Hj&Hu&Hmax). exists (S j), t0. split; [lia|]. split; [lia|]. split; [done|]. split; [done|].
      intros [|j'] t' Hlt Hl; [lia|]. apply (Hmax j'); [lia|done].
    - intros ([|j]&t0&Hn0&->&Hj&Hu&Hmax); [done|]. exists j, t0. split; [lia|]. split; [done|]. split; [done|].
      intros j' t' Hlt Hl. apply (Hmax (S j')); [lia|done]. }
  destruct (existsb _ tys) eqn:E.
  - rewrite IH Hgo. split.
    + intros (j&t0&_&H). by exists j, t0.
    + intros (j&t0&->&Hj&Hu&Hmax). exists j, t0. split; [|done]. intros ->. simpl in Hj.
      injection Hj as ->. apply existsb_exists in E as (t'&Hin&Heq).
      apply bool_decide_eq_true in Heq. apply elem_of_list_In, elem_of_list_lookup in Hin as [j' Hj'].
      apply (Hmax (S j') t'); [lia|done|congruence].
  - rewrite elem_of_cons IH Hgo. split.
    + intros [[= -> ->]|(j&t0&_&H)]; [|by exists j, t0].
      exists 0, t. split; [lia|]. split; [done|]. split; [done|].
      intros [|j'] t' Hlt Hl Heq; [lia|]. simpl in Hl.
      assert (existsb (fun t' => bool_decide (t'.2 = t.2)) tys = true); [|congruence].
      apply existsb_exists. exists t'. split; [|by apply bool_decide_eq_true].
      apply elem_of_list_In. by eapply elem_of_list_lookup_2.
    + intros ([|j]&t0&->&Hj&Hu&Hmax).
      * left. simpl in Hj. injection Hj as ->. rewrite Nat.add_0_r. congruence.
      * right. by exists (S j), t0.
Qed.

Lemma visible_some i tys j t : tys !! j = Some t -> exists n, (n, t.2) ∈ visible i tys.
Proof.
  revert i j t. induction tys as [|t tys IH]; intros n j' t' Hj'; [done|].
  simpl. destruct (existsb _ tys) eqn:E.
  - destruct j' as [|j']; simpl in Hj'; [|by eapply IH].
    injection Hj' as ->. apply existsb_exists in E as (t''&Hin&Heq).
    apply bool_decide_eq_true in Heq. rewrite -Heq.
    apply elem_of_list_In, elem_of_list_lookup in Hin as [j'' Hj'']. by eapply IH.
  - destruct j' as [|j']; simpl in Hj'.
    + injection Hj' as ->. exists n. left.
    + destruct (IH (S n) j' t' Hj') as [n0 Hn0]. exists n0. by right.
Qed.

Lemma initialize_Some tys o i : initialize tys o = Some i -> best tys o i.
Proof.
  unfold Nested.initialize. intros H.
  destruct (filter _ _) as [|c l] eqn:E; [done|]. injection H as <-.
  assert (Hin : c ∈ c :: l) by left. rewrite -E in Hin.
  apply elem_of_list_filter in Hin as [Hall Hin].
  apply elem_of_list_omap in Hin as ([n v]&Hv&Hc). simpl in Hc.
  destruct (rank v o) as [r|] eqn:Er; [|done]. injection Hc as <-. simpl.
  apply visible_spec in Hv as (j&[w t]&->&Hj&<-&Hmax). exists w, t, r. simpl in *.
  split; [done|]. split; [by apply rank_converts|]. split; [intros j' w' t' Hlt Hj'; by apply (Hmax j' (w', t'))|].
  intros j' w' t' r' Hj' Hne Hr'. apply rank_converts in Hr'.
  destruct (visible_some 0 tys j' _ Hj') as [n0 Hn0]. simpl in Hn0.
  rewrite list.Forall_forall in Hall. specialize (Hall (n0, r')). simpl in Hall.
  destruct Hall as [Heq|Hlt]; [| |done].
  { apply elem_of_list_omap. exists (n0, t'). split; [done|]. simpl. rewrite Hr' //. }
  subst n0. apply visible_spec in Hn0 as (j0&t0&->&Hj0&Hu0&_). simpl in *.
  rewrite Hj in Hj0. injection Hj0 as <-. simpl in Hu0. congruence.
Qed.

Lemma best_unique tys o i j : best tys o i -> best tys o j -> i = j.
Proof.
  intros (w&t&r&Ht&Hr&Hmax&Hbest) (w'&t'&r'&Ht'&Hr'&Hmax'&Hbest').
  destruct (decide (t = t')) as [E|E].
  - destruct (decide (i < j)) as [H|H]; [by destruct (Hmax _ _ _ H Ht')|].
    destruct (decide (j < i)) as [H'|H']; [by destruct (Hmax' _ _ _ H' Ht)|lia].
  - assert (r < r') by (by eapply (Hbest j)). assert (r' < r) by (by eapply (Hbest' i)). lia.
Qed.

Lemma initialize_best tys o i : initialize tys o = Some i <-> best tys o i.
Proof.
  split; [apply initialize_Some|].
  intros Hb. pose proof Hb as (w&t&r&Ht&Hr&Hmax&Hbest).
  destruct (initialize tys o) as [j|] eqn:E.
  { f_equal. eapply best_unique; [|exact Hb]. by apply initialize_Some. }
  exfalso. unfold Nested.initialize in E.
  set (cs := omap _ _) in E.
  assert (Hin : (i, r) ∈ cs).
  { apply elem_of_list_omap. exists (i, t). apply rank_converts in Hr. split; [|by rewrite /= Hr].
    apply visible_spec. exists i, (w, t). do 3 (split; [done|]). intros j' [w' t'] Hlt Hj'. by apply (Hmax j' w' t'). }
  assert (Hf : (i, r) ∈ filter (fun c => Forall (fun c' => c'.1 = c.1 \/ (c.2 < c'.2)%nat) cs) cs).
  { apply elem_of_list_filter. split; [|done]. apply list.Forall_forall. intros [n r'] Hn. simpl.
    unfold cs in Hn. apply elem_of_list_omap in Hn as ([n' u']&Hv&Hn). simpl in Hn.
    destruct (rank u' o) as [r0|] eqn:Er; [|done]. injection Hn as -> ->.
    apply visible_spec in Hv as (j&[w' t']&->&Hj&<-&Hmax'). apply rank_converts in Er. simpl in *.
    destruct (decide (t' = t)) as [->|Hne].
    - left. destruct (decide (i < j)) as [H|H]; [by destruct (Hmax _ _ _ H Hj)|].
      destruct (decide (j < i)) as [H'|H']; [|lia]. by destruct (Hmax' _ _ H' Ht).
    - right. by eapply Hbest. }
  destruct (filter _ cs); [by apply elem_of_nil in Hf|done].
Qed.

(** An exact match is the best. *)
Lemma last_exists tys w o : (w, o) ∈ tys -> exists i, last_of tys o i.
Proof.
  intros Hin. induction tys as [|[w' t'] tys IH] using rev_ind; [by apply elem_of_nil in Hin|].
  destruct (decide (t' = o)) as [->|Hne].
  - exists (length tys). split; [exists w'; by rewrite list_lookup_middle|].
    intros j w'' t'' Hlt Hj. apply lookup_lt_Some in Hj. rewrite app_length /= in Hj. lia.
  - apply elem_of_app in Hin as [Hin|Hin]; [|apply elem_of_list_singleton in Hin; congruence].
    destruct (IH Hin) as (i&[w0 Hi]&Hmax). exists i. split; [exists w0; by apply lookup_app_l_Some|].
    intros j w'' t'' Hlt Hj. apply lookup_app_Some in Hj as [Hj|[Hle Hj]]; [by eapply Hmax|].
    apply list_lookup_singleton_Some in Hj as [_ [= -> ->]]. done.
Qed.
Lemma last_best tys o i : last_of tys o i -> best tys o i.
Proof.
  intros ([w Hi]&Hmax). exists w, o, 0. split; [done|]. split; [apply converts_same|]. split; [done|].
  intros j w' t' r' Hj Hne H. inversion H; subst; [done|lia..].
Qed.

(** ** Nothing contains itself *)
Fixpoint depth (t : xty) : nat :=
  match t with XUser _ => 0 | XVar tys => S (list_max (map (fun p : alt => let (_, t') := p in depth t') tys)) end.
Lemma depth_in w t tys : (w, t) ∈ tys -> depth t < depth (XVar tys).
Proof.
  intros Hin. simpl. apply Nat.lt_succ_r.
  pose proof (proj1 (list_max_le (map (fun p : alt => let (_, t') := p in depth t') tys) _) (Nat.le_refl _)) as H.
  rewrite List.Forall_forall in H. apply H. apply List.in_map_iff. exists (w, t). split; [done|]. by apply elem_of_list_In.
Qed.
Lemma not_in_itself w tys : (w, XVar tys) ∉ tys.
Proof. intros H. apply depth_in in H. lia. Qed.

(** ** Parts *)
Lemma part_leaf l o : part l o -> forall os, l <> (false, XVar os).
Proof. by induction 1. Qed.
Lemma part_of_leaf l l' : (forall os, l <> (false, XVar os)) -> part l' l -> l' = l.
Proof. intros Hl H. inversion H as [|? os' ? ?]; [done|]. subst. by destruct (Hl os'). Qed.
Lemma makes_part o l : part l o -> makes o l.
Proof.
  induction 1 as [|p os Hin Hp IH]; [apply makes_same|]. apply makes_variant. intros l' Hl'.
  apply part_of_leaf in Hl' as ->; [by exists p|by eapply part_leaf].
Qed.
Lemma accepted_bounded tys w o : (w, o) ∈ tys -> accepted tys (false, o).
Proof.
  intros Hin l Hl. exists (w, o). split; [done|]. destruct w; [|by apply makes_part].
  inversion Hl as [Hno|p os Hp Hpl]; [apply makes_wrapped|].
  apply makes_variant. intros l' Hl'. apply part_of_leaf in Hl' as ->; [|by eapply part_leaf].
  exists p. split; [done|]. by apply makes_part.
Qed.

(** ** What happens *)
Lemma selected_value tys u : base u = None -> selected base conv explicit tys (XUser u) = Some HValue.
Proof.
  intros Hb. unfold selected, helpers. rewrite Hb. rewrite filter_cons_True; [|done]. apply Forall_singleton. by left.
Qed.
Lemma selected_variant tys os : accepted tys (false, XVar os) ->
  selected base conv explicit tys (XVar os) = Some (HVariant os).
Proof.
  intros Ha. apply from_accepted in Ha. unfold selected, helpers. rewrite Ha orb_true_r.
  rewrite filter_cons_False; [|rewrite filter_cons_True; [|done]].
  - intros [_ [[H|H] _]%Forall_cons_1]%Forall_cons_1; [done|]. by vm_compute in H.
  - apply Forall_cons; [by right|]. apply Forall_singleton. by left.
Qed.
Lemma selected_derived tys d os : base d = Some os -> (os = tys \/ accepted tys (false, XVar os)) ->
  selected base conv explicit tys (XUser d) = None.
Proof.
  intros Hb Ha. unfold selected, helpers. rewrite Hb.
  assert (bool_decide (os = tys) || from tys (false, XVar os) = true) as ->.
  { destruct Ha as [->|Ha]; [by rewrite bool_decide_true|]. apply from_accepted in Ha. by rewrite Ha orb_true_r. }
  rewrite filter_cons_False; [|rewrite filter_cons_False; [|done]].
  - intros [_ [[H|H] _]%Forall_cons_1]%Forall_cons_1; [done|]. by vm_compute in H.
  - intros [[H|H] _]%Forall_cons_1; [done|]. by vm_compute in H.
Qed.
Lemma selected_derived_value tys d os : base d = Some os -> os <> tys -> ~ accepted tys (false, XVar os) ->
  selected base conv explicit tys (XUser d) = Some HValue.
Proof.
  intros Hb Hne Ha. unfold selected, helpers. rewrite Hb. rewrite bool_decide_false //.
  destruct (from tys (false, XVar os)) eqn:E; [by apply from_accepted in E|].
  cbn [orb]. rewrite filter_cons_True; [|done]. apply Forall_singleton. by left.
Qed.

Lemma constructor_template tys o : o <> XVar tys -> accepted tys (false, o) ->
  constructor base conv explicit tys o = Some TemplateCtor.
Proof. intros Hne Ha. apply from_accepted in Ha. unfold constructor. rewrite decide_False // Ha //. Qed.

Lemma construct_bounded_user tys w u : base u = None -> (w, XUser u) ∈ tys ->
  exists i, last_of tys (XUser u) i /\ construct tys (XUser u) = Some (Stores i).
Proof.
  intros Hb Hin. destruct (last_exists _ _ _ Hin) as [i Hi]. exists i. split; [done|].
  unfold Nested.construct. rewrite constructor_template //; [by eapply accepted_bounded|].
  rewrite selected_value //. apply last_best, initialize_best in Hi. by rewrite Hi.
Qed.
Lemma construct_bounded_variant tys w os : (w, XVar os) ∈ tys ->
  exists i, last_of tys (XVar os) i /\ construct tys (XVar os) = Some (Stores i).
Proof.
  intros Hin. destruct (last_exists _ _ _ Hin) as [i Hi]. exists i. split; [done|].
  unfold Nested.construct. pose proof (accepted_bounded _ _ _ Hin) as Ha.
  rewrite constructor_template //; [intros [= ->]; by eapply not_in_itself|].
  rewrite selected_variant //. unfold convert_construct_variant.
  assert (existsb (fun p : alt => bool_decide (p.2 = XVar os)) tys = true) as ->.
  { apply existsb_alt. exists (w, XVar os). split; [done|]. by apply bool_decide_eq_true. }
  apply last_best, initialize_best in Hi. by rewrite Hi.
Qed.

Lemma construct_foreign tys os ks : os <> tys -> (forall w, (w, XVar os) ∉ tys) ->
  construct tys (XVar os) = Some (Converts ks) <->
  accepted tys (false, XVar os) /\ Forall2 (fun p i => best tys p.2 i) os ks.
Proof.
  intros Hne Hno. unfold Nested.construct. destruct (from tys (false, XVar os)) eqn:E.
  - apply from_accepted in E. rewrite constructor_template //; [congruence|]. rewrite selected_variant //.
    unfold convert_construct_variant.
    assert (existsb (fun p : alt => bool_decide (p.2 = XVar os)) tys = false) as ->.
    { apply not_true_iff_false. rewrite existsb_alt. intros ([w t]&Hin&H). apply bool_decide_eq_true in H. simpl in H.
      subst t. by destruct (Hno w). }
    transitivity (mapM (fun p : alt => initialize tys p.2) os = Some ks).
    { destruct (mapM _ os); simpl; split; congruence. }
    rewrite mapM_Some. split.
    + intros H. split; [done|]. eapply Forall2_impl; [exact H|]. intros p i Hi. by apply initialize_best.
    + intros [_ H]. eapply Forall2_impl; [exact H|]. intros p i Hi. by apply initialize_best.
  - split.
    + unfold constructor. rewrite decide_False; [congruence|]. by rewrite E.
    + intros [Ha _]. apply from_accepted in Ha. congruence.
Qed.

Lemma construct_user tys u i : base u = None ->
  construct tys (XUser u) = Some (Stores i) <-> accepted tys (false, XUser u) /\ best tys (XUser u) i.
Proof.
  intros Hb. unfold Nested.construct. destruct (from tys (false, XUser u)) eqn:E.
  - apply from_accepted in E. rewrite constructor_template // selected_value // -initialize_best.
    destruct (initialize _ _); simpl; split; intros; destruct_and?; simplify_eq; done.
  - split.
    + unfold constructor. destruct (decide _) as [[=]|_]. rewrite E. simpl. by rewrite bool_decide_false ?Hb.
    + intros [Ha _]. apply from_accepted in Ha. congruence.
Qed.

Lemma construct_own tys : construct tys (XVar tys) = Some Copies.
Proof. unfold Nested.construct, constructor. by rewrite decide_True. Qed.

Lemma construct_ambiguous tys d os : base d = Some os -> accepted tys (false, XUser d) ->
  os = tys \/ accepted tys (false, XVar os) -> construct tys (XUser d) = None.
Proof. intros Hb Ha Ho. unfold Nested.construct. rewrite constructor_template //. by rewrite (selected_derived _ _ _ Hb Ho). Qed.
Lemma construct_derived tys d os i : base d = Some os -> os <> tys -> ~ accepted tys (false, XVar os) ->
  construct tys (XUser d) = Some (Stores i) <-> accepted tys (false, XUser d) /\ best tys (XUser d) i.
Proof.
  intros Hb Hne Hno. unfold Nested.construct. destruct (from tys (false, XUser d)) eqn:E.
  - apply from_accepted in E. rewrite constructor_template // (selected_derived_value _ _ _ Hb Hne Hno) -initialize_best.
    destruct (initialize _ _); simpl; split; intros; destruct_and?; simplify_eq; done.
  - split.
    + unfold constructor. destruct (decide _) as [[=]|_]. rewrite E. simpl. rewrite bool_decide_false //. rewrite Hb. congruence.
    + intros [Ha _]. apply from_accepted in Ha. congruence.
Qed.
Lemma construct_sliced tys d : base d = Some tys -> ~ accepted tys (false, XUser d) ->
  construct tys (XUser d) = Some Copies.
Proof.
  intros Hb Hno. unfold Nested.construct, constructor. destruct (decide _) as [Heq|_]; [congruence|].
  destruct (from tys (false, XUser d)) eqn:E; [by apply from_accepted in E|].
  simpl. by rewrite bool_decide_true.
Qed.
Lemma construct_none tys o : o <> XVar tys -> ~ accepted tys (false, o) ->
  (forall d, o = XUser d -> base d <> Some tys) -> construct tys o = None.
Proof.
  intros Hne Hno Hb. unfold Nested.construct, constructor. destruct (decide _) as [Heq|_]; [congruence|].
  destruct (from tys (false, o)) eqn:E; [by apply from_accepted in E|].
  destruct (derived base tys (false, o)) eqn:Ed; [|done].
  apply derived_iff in Ed as (d&[= ->]&Hd). by destruct (Hb d).
Qed.

Lemma in_types_dec os (tys : list alt) : (exists w, (w, XVar os) ∈ tys) \/ forall w, (w, XVar os) ∉ tys.
Proof.
  destruct (decide ((true, XVar os) ∈ tys)) as [H|H]; [by left; exists true|].
  destruct (decide ((false, XVar os) ∈ tys)) as [H'|H']; [by left; exists false|].
  right. by intros [].
Qed.
Lemma construct_iff tys o e : construct tys o = Some e <-> constructed base conv explicit tys o e.
Proof.
  split.
  - intros H. assert (Hdec : accepted tys (false, o) \/ ~ accepted tys (false, o)).
    { rewrite -from_accepted. destruct (from _ _); [by left|by right]. }
    destruct o as [u|os].
    + destruct Hdec as [Ha|Hna].
      * assert (Hd : forall os, base u = Some os -> os <> tys /\ ~ accepted tys (false, XVar os)).
        { intros os Hb. split; intros Hx; [subst os|]; rewrite (construct_ambiguous _ _ _ Hb Ha) in H; eauto; done. }
        assert (exists i, e = Stores i) as [i ->].
        { unfold Nested.construct in H. rewrite constructor_template // in H.
          destruct (base u) as [os|] eqn:Hb.
          - destruct (Hd os eq_refl). rewrite (selected_derived_value _ _ _ Hb) // in H.
            destruct (initialize _ _); simplify_eq/=. eauto.
          - rewrite selected_value // in H. destruct (initialize _ _); simplify_eq/=. eauto. }
        apply constructed_class; [done|done|].
        destruct (base u) as [os|] eqn:Hb.
        -- destruct (Hd os eq_refl). by apply (construct_derived _ _ _ _ Hb) in H as [].
        -- by apply construct_user in H as [].
      * destruct (decide (base u = Some tys)) as [Hb|Hb].
        -- rewrite construct_sliced // in H. injection H as <-. by apply constructed_base.
        -- rewrite construct_none // in H. by intros d [= <-].
    + destruct (decide (os = tys)) as [->|Hne].
      { rewrite construct_own in H. injection H as <-. apply constructed_own. }
      destruct (in_types_dec os tys) as [[w Hin]|Hno].
      * destruct (construct_bounded_variant _ _ _ Hin) as (i&Hi&Hc). rewrite H in Hc. injection Hc as ->.
        by eapply constructed_bounded.
      * destruct Hdec as [Ha|Hna]; [|rewrite construct_none // in H; congruence].
        assert (exists ks, e = Converts ks) as [ks ->].
        { unfold Nested.construct in H. rewrite constructor_template // in H; [congruence|]. rewrite selected_variant // in H.
          unfold convert_construct_variant in H.
          assert (existsb (fun p : alt => bool_decide (p.2 = XVar os)) tys = false) as Ex.
          { apply not_true_iff_false. rewrite existsb_alt. intros ([w t]&Hin&Hx). apply bool_decide_eq_true in Hx. simpl in Hx.
            subst t. by destruct (Hno w). }
          rewrite Ex in H. destruct (mapM _ os); simplify_eq/=. eauto. }
        apply construct_foreign in H as [_ H]; [|done..]. by apply constructed_foreign.
  - intros H. inversion H as [|d Hb Hna|w os i Hin Hi|os ks Hne Hno Ha Hf|u i Hd Ha Hbest]; subst.
    + apply construct_own.
    + by apply construct_sliced.
    + destruct (construct_bounded_variant _ _ _ Hin) as (i'&Hi'&->). do 2 f_equal.
      by eapply best_unique; apply last_best.
    + by apply construct_foreign.
    + destruct (base u) as [os|] eqn:Hb.
      * destruct (Hd os eq_refl). by apply (construct_derived _ _ _ _ Hb).
      * by apply construct_user.
Qed.
End facts.

(** ** Without nesting, the constraint is that of Compile.v *)
Lemma flat C expl tys src : (forall u, Types.rank C u u <> None) ->
  from (fun _ => None) (flat_conv C) (flat_explicit expl) (map embed tys) (false, XVar (map embed src)) =
  Compile.constructible_from_variant C expl tys src.
Proof.
  intros Hr. unfold from, Compile.constructible_from_variant. simpl. rewrite map_map.
  assert (concat (map (fun x => let (w', t') := embed x in leaves w' t') src) = map embed src) as ->.
  { induction src as [|[u|u] src IH]; simpl; [done|by rewrite IH..]. }
  induction src as [|s src IH]; simpl; [done|]. rewrite IH. f_equal. clear IH.
  unfold Compile.constructible_from. induction tys as [|t tys IH]; simpl; [done|]. rewrite IH. f_equal. clear IH.
  assert (Hsame : forall t o, o <> t -> same t o = false) by (intros; by apply bool_decide_false).
  destruct t as [t|t], s as [s|s]; cbn [embed constructible fst snd from_user flat_conv flat_explicit Compile.constructible].
  - destruct (Types.rank C s t) eqn:E; simpl; [by rewrite orb_true_r|]. rewrite Hsame //.
    intros [= ->]. by destruct (Hr t).
  - by rewrite Hsame.
  - rewrite (Hsame (true, _)) //. destruct (Types.rank C s t) eqn:E; simpl; [by rewrite orb_true_r|].
    rewrite Hsame //. intros [= ->]. by destruct (Hr t).
  - rewrite (Hsame (false, _)) // !orb_false_r. apply bool_decide_ext. split; [by intros [= ->]|by intros ->].
Qed.
