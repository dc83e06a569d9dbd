(** Programs with recursive_wrapper variables: whole histories (proofs). *)
From stdpp Require Import gmap.
From iris.proofmode Require Import tactics.
From iris.bi Require Import big_op.
From Verif Require Import Base Types TypesFacts Dispatch DispatchFacts Variant Sem Values ValuesFacts Client Observe ObserveFacts.
From Verif Require Import Spec Trace TraceFacts History Owned OwnedFacts Heap Wp Rep SpecInt SpecSem Link World ClientProof.
From Verif Require Import Levels HistoryProof Reach ReachFacts LifeFacts Raises OriginSpec Origins OriginFacts Wrappers WrappersSpec WrappersProof.

(** ** Levels *)
Lemma mono_wop C n n' eqf ltf E F c : n <= n' -> le (wop C n eqf ltf E F c) (wop C n' eqf ltf E F c).
Proof.
  intros Hn. pose proof (mono_sem C n n' Hn) as HS. pose proof (mono_op C n n' eqf ltf E) as Hop.
  assert (Hnew : forall x u k k', (forall a, le (k a) (k' a)) -> le (new_wrap F x u k) (new_wrap F x u k')).
  { intros. unfold new_wrap. case_match; [apply le_refl|]. apply le_bind; [by apply mono_stack_obj|]. intros. apply le_refl. }
  destruct c; unfold wop.
  - apply le_bind; [by apply Hop|]. intros. apply le_refl.
  - apply le_bind; [|intros; apply le_refl]. apply Hnew. intros. by apply mono_i_value.
  - apply le_bind; [apply le_refl|]. intros. apply le_bind; [|intros; apply le_refl]. apply Hnew. intros. by apply mono_i_copy.
  - apply le_bind; [apply le_refl|]. intros. apply le_bind; [|intros; apply le_refl]. apply Hnew. intros. by apply mono_i_move.
  - apply le_bind; [apply le_refl|]. intros. apply le_bind; [|intros; apply le_refl]. apply Hnew. intros.
    destruct mv; [by apply mono_i_move_from|by apply mono_i_copy_from].
  - apply le_bind; [apply le_refl|]. intros. apply le_bind; [|intros; apply le_refl]. by apply mono_i_cassign.
  - apply le_bind; [apply le_refl|]. intros. apply le_bind; [|intros; apply le_refl]. by apply mono_i_massign.
  - apply le_bind; [apply le_refl|]. intros. apply le_bind; [apply le_refl|]. intros. case_decide; [|apply le_refl].
    apply le_bind; [|intros; apply le_refl]. unfold w_assign_from. apply le_bind; [apply le_refl|]. intros.
    destruct mv; apply HS.
  - apply le_refl.
  - apply le_bind; [apply le_refl|]. intros. apply le_bind; [|intros; apply le_refl]. by apply mono_i_destroy.
  - apply le_bind; [apply le_refl|]. intros. apply le_bind; [apply le_refl|]. intros.
    apply le_bind; [|intros; apply le_refl]. apply HS.
  - apply le_bind; [apply le_refl|]. intros. apply le_bind; [apply le_refl|]. intros. apply le_bind; [apply le_refl|]. intros.
    apply le_bind; [|intros; apply le_refl]. apply mono_stack_obj. intros. apply HS.
Qed.
Lemma wexec_mono C n n' eqf ltf c E F s : n <= n' ->
  wexec C n eqf ltf c E F s <> WFaulted FFuel -> wexec C n' eqf ltf c E F s = wexec C n eqf ltf c E F s.
Proof.
  intros Hn. unfold wexec. destruct (mono_wop C n n' eqf ltf E F c Hn s) as [-> | ->]; done.
Qed.

Section history.
Context (C : cfg) (st nb : bool) (eqf ltf : uid -> uval -> uval -> bool).
Context (HC : good_env C st nb).
Notation W := (WPar st nb).
Notation whistory := (whistory C st nb eqf ltf).
Notation wreached := (wreached C st nb eqf ltf).
Notation wadmissible := (wadmissible C st nb).
Notation wyields := (wyields C eqf ltf).
Notation wtakes := (wtakes C st nb eqf ltf).
Notation wstep := (wstep C eqf ltf).
Let Hwf : wf_env C W := good_env_wf C st nb HC.

Record winv (B : nat) (E : env) (F : wenv) (s : state) (σ : astate) (φ : wstate) : Prop := Winv {
  winv_world : (world C W E σ ∗ wworld C W F φ)%I (mem s);
  winv_aok : aok C W B σ;
  winv_wok : wok B φ;
  winv_ginv : ginv W s
}.

Lemma winv_shows B E F s σ φ : winv B E F s σ φ -> shows C (mem s) E σ /\ wshows C (mem s) F φ.
Proof.
  intros [(h1&h2&Hm&Hd&H1&H2) _ _ _]. rewrite Hm. split.
  - eapply world_shows; [done|]. by apply map_union_subseteq_l.
  - eapply wworld_shows; [done|]. by apply map_union_subseteq_r.
Qed.

Lemma winv_init orc : winv 0 ∅ ∅ (init orc) ∅ ∅.
Proof.
  split.
  - exists ∅, ∅. split; [by rewrite left_id_L|]. split; [apply map_disjoint_empty_l|]. split.
    + apply (hprop_in_entails _ _ (bi.equiv_entails_1_2 _ _ (world_empty C W))). done.
    + apply (hprop_in_entails _ _ (bi.equiv_entails_1_2 _ _ (wworld_empty C W))). done.
  - intros x α. by rewrite lookup_empty.
  - intros x α. unfold wstate. by rewrite lookup_empty.
  - apply ginv_init.
Qed.

Lemma winv_exec n D B E F s σ φ c : D <= B -> B <= S n -> winv B E F s σ φ -> wtyped C st nb D σ φ c ->
  exists E' F' o s' σ' φ', wexec C n eqf ltf c E F s = WDone E' F' o s' /\ wstep σ φ c o σ' φ' /\
    winv (S B) E' F' s' σ' φ'.
Proof.
  intros HD HB [Hw Ha Hk Hg] Ht.
  pose proof (wop_ok C st nb Hwf eqf ltf n D B HB HD E σ Ha F φ Hk c Ht) as Hop.
  apply (hprop_in_entails _ _ Hop) in Hw. apply wp_unfold in Hw.
  specialize (Hw s ∅). rewrite right_id_L in Hw. specialize (Hw eq_refl ltac:(apply map_disjoint_empty_r) Hg).
  unfold wexec.
  destruct (wop C n eqf ltf E F c s) as [[[E' F'] o] s'|e s'|f]; [..|done].
  - destruct Hw as (h'&Hm&_&Hg'&Hth&Hp). rewrite right_id_L in Hm. subst h'.
    destruct Hp as (σ'&φ'&h0&h1&Hm&Hd&Hp&Hw'). destruct (apure_inv (_ /\ _ /\ _) _ Hp) as [-> (Hs&Ha'&Hk')].
    rewrite left_id_L in Hm. subst h1. by exists E', F', o, s', σ', φ'.
  - destruct Hw as (h'&Hm&_&Hg'&Hth&Hp). rewrite right_id_L in Hm. subst h'.
    destruct Hp as (σ'&φ'&h0&h1&Hm&Hd&Hp&Hw'). destruct (apure_inv (_ /\ _ /\ _) _ Hp) as [-> (Hs&Ha'&Hk')].
    rewrite left_id_L in Hm. subst h1. by exists E, F, (OThrew e), s', σ', φ'.
Qed.

Lemma winv_mono B B' E F s σ φ : B <= B' -> winv B E F s σ φ -> winv B' E F s σ φ.
Proof. intros HB [? ? ? ?]. split; [done|by eapply aok_mono|by eapply wok_mono|done]. Qed.

Lemma wyields_det c E F s r r' : wyields c E F s r -> wyields c E F s r' -> r = r'.
Proof. intros [n Hn] [n' Hn']. rewrite -(Hn (n `max` n')); [|lia]. apply Hn'. lia. Qed.

Lemma winv_step B E F s σ φ c : winv B E F s σ φ -> wadmissible E F s c ->
  exists E' F' o s' σ' φ', wyields c E F s (WDone E' F' o s') /\ wstep σ φ c o σ' φ' /\
    exists B', winv B' E' F' s' σ' φ'.
Proof.
  intros Hi (D&σ0&φ0&Hsh&Hwsh&Ht). destruct (winv_shows _ _ _ _ _ _ Hi) as [Hs1 Hs2].
  assert (σ0 = σ) as -> by by eapply shows_unique. assert (φ0 = φ) as -> by by eapply wshows_unique.
  destruct (winv_exec (B `max` D) D (B `max` D) E F s σ φ c) as (E'&F'&o&s'&σ'&φ'&Hex&Hs&Hi'); [lia|lia| |done..|].
  { eapply winv_mono; [|done]. lia. }
  exists E', F', o, s', σ', φ'. split; [|split; [done|by eexists]].
  exists (B `max` D). intros n Hn. rewrite (wexec_mono C (B `max` D) n) //. by rewrite Hex.
Qed.

Lemma whistory_inv orc h E F s : whistory orc h E F s -> exists B σ φ, winv B E F s σ φ.
Proof.
  induction 1 as [|h E F s c E' F' o s' Hh IH Hadm Hy].
  - exists 0, ∅, ∅. apply winv_init.
  - destruct IH as (B&σ&φ&Hi).
    destruct (winv_step B E F s σ φ c) as (E1&F1&o1&s1&σ1&φ1&Hy1&_&[B' Hi1]); [done..|].
    pose proof (wyields_det _ _ _ _ _ _ Hy Hy1) as [= -> -> -> ->]. by exists B', σ1, φ1.
Qed.
Lemma wreached_inv E F s : wreached E F s -> exists B σ φ, winv B E F s σ φ.
Proof. intros (orc&h&Hh). by eapply whistory_inv. Qed.

Lemma no_undefined E F s c : wreached E F s -> wadmissible E F s c ->
  exists E' F' o s', wyields c E F s (WDone E' F' o s') /\ wreached E' F' s'.
Proof.
  intros Hr Ha. destruct (wreached_inv _ _ _ Hr) as (B&σ&φ&Hi).
  destruct (winv_step B E F s σ φ c) as (E'&F'&o&s'&σ'&φ'&Hy&_); [done..|]. exists E', F', o, s'. split; [done|].
  destruct Hr as (orc&h&Hh). exists orc, (h ++ [c]). by eapply whistory_step.
Qed.

Lemma takes_spec c E F s E' F' o s' : wtakes c E F s E' F' o s' ->
  exists σ φ σ' φ', shows C (mem s) E σ /\ wshows C (mem s) F φ /\ shows C (mem s') E' σ' /\ wshows C (mem s') F' φ' /\
    wstep σ φ c o σ' φ'.
Proof.
  intros (Hr&Ha&Hy). destruct (wreached_inv _ _ _ Hr) as (B&σ&φ&Hi).
  destruct (winv_step B E F s σ φ c) as (E1&F1&o1&s1&σ'&φ'&Hy1&Hst&[B' Hi']); [done..|].
  pose proof (wyields_det _ _ _ _ _ _ Hy Hy1) as [= -> -> -> ->].
  destruct (winv_shows _ _ _ _ _ _ Hi), (winv_shows _ _ _ _ _ _ Hi'). by exists σ, φ, σ', φ'.
Qed.

(** ** Lifetimes *)
Lemma w_lifetimes E F s l : wreached E F s ->
  occupant l (tr s) = Some (tag_at (mem s) l) /\
  forall k, cnt (EvC k l) (tr s) = cnt (EvD k l) (tr s) + if decide (tag_at (mem s) l = Some k) then 1 else 0.
Proof.
  intros Hr. destruct (wreached_inv _ _ _ Hr) as (B&σ&φ&[_ _ _ Hg]). pose proof (gi_life _ _ Hg l) as Hl.
  split; [done|]. intros k. by apply occupant_count.
Qed.
Lemma w_blocks E F s l : wreached E F s ->
  exists b, block l (tr s) = Some b /\ (b = BLive <-> is_block (mem s) l).
Proof. intros Hr. destruct (wreached_inv _ _ _ Hr) as (B&σ&φ&[_ _ _ Hg]). apply (gi_block _ _ Hg l). Qed.

(** ** Ownership *)
Lemma wown_owned m n f ω h : wown C W f ω h -> h ⊆ m -> depth ω.2 <= n ->
  exists ls, owned_wrap C m n f = Some ls /\ covers h ls.
Proof.
  destruct f as [u l], ω as [[u' p] v]. intros (h0&h1&->&Hd&Ht&h2&h3&->&Hd2&Hl&o&h4&h5&->&Hd3&Hp&HR) Hs Hn.
  destruct (apure_inv (u' = u) _ Ht) as [-> ->]. rewrite left_id_L in Hs |- *. simpl in *.
  assert (Hs3 : h4 ∪ h5 ⊆ m) by by eapply sub_r.
  unfold owned_wrap, owned_by. simpl. rewrite (pt_see l _ _ _ Hl); [|by eapply sub_l].
  unfold heap_obj. rewrite (pt_see p _ _ _ Hp); [|by eapply sub_l].
  destruct (R_owned C W m n _ _ _ _ HR) as (ls&E1&Hc); [by eapply sub_r|done|]. rewrite E1.
  eexists. split; [done|]. apply (covers_union _ _ [l]); [done|by eapply covers_single|].
  apply (covers_union _ _ [p]); [done|by eapply covers_single|done].
Qed.
Lemma wworld_covers m n B (l : list (name * (uid * loc))) : NoDup l.*1 -> forall φ h,
  wworld C W (list_to_map l) φ h -> h ⊆ m -> wok B φ -> B <= n ->
  exists lss, mapM (fun p : name * (uid * loc) => owned_wrap C m n p.2) l = Some lss /\ covers h (concat lss).
Proof.
  induction l as [|[x f] l IH]; intros Hnd φ h H Hs Ha HB; simpl in *.
  - exists []. split; [done|]. simpl. unfold wworld in H.
    assert (Hσ : φ = ∅).
    { apply map_eq. intros x. rewrite lookup_empty.
      pose proof (hprop_in_entails _ _ (big_sepM2_lookup_iff (fun _ => wown C W) ∅ φ) h H) as Hi.
      specialize (Hi x). destruct (φ !! x) eqn:Ex; rewrite ?Ex; [|done]. exfalso.
      assert (is_Some ((∅ : wenv) !! x)) as [? He] by (apply Hi; eauto). by rewrite lookup_empty in He. }
    subst φ. apply (hprop_in_entails _ _ (bi.equiv_entails_1_1 _ _ (big_sepM2_empty (fun _ => wown C W)))) in H.
    change (h = ∅) in H. subst h. apply covers_empty.
  - apply NoDup_cons in Hnd as [Hx Hnd].
    assert (Hl : (list_to_map l : wenv) !! x = None) by by apply not_elem_of_list_to_map_1.
    assert (exists ω, φ !! x = Some ω) as [ω Hω].
    { pose proof (hprop_in_entails _ _ (big_sepM2_lookup_iff (fun _ => wown C W) _ φ) h H) as Hi.
      specialize (Hi x). rewrite lookup_insert in Hi. apply Hi. eauto. }
    apply (hprop_in_entails _ _ (wworld_delete C W _ φ x ω Hω)) in H.
    destruct H as (b'&h0&h1&->&Hd&Hb'&h2&h3&->&Hd'&Ho&H). destruct (apure_inv (_ = Some b') _ Hb') as [-> Hb''].
    unfold wenv in *. rewrite lookup_insert in Hb''. injection Hb'' as <-. rewrite left_id_L in Hs |- *.
    rewrite delete_insert in H; [|done].
    destruct (wown_owned m n f ω h2) as (ls&E1&C1); [done|by eapply sub_l| |].
    { etrans; [by eapply Ha|done]. }
    destruct (IH Hnd (delete x φ) h3) as (lss&E2&C2); [done|by eapply sub_r|by apply wok_delete|done|].
    rewrite E1 /= E2 /=. eexists. split; [done|]. simpl. by apply covers_union.
Qed.

Lemma w_ownership E F s : wreached E F s -> wforest C (mem s) E F.
Proof.
  intros Hr. destruct (wreached_inv _ _ _ Hr) as (B&σ&φ&[(h1&h2&Hm&Hd&H1&H2) Ha Hk _]).
  destruct (world_covers_list C W (mem s) B B (map_to_list E)) with (σ := σ) (h := h1) as (lss&E1&Hc1); try done.
  { apply NoDup_fst_map_to_list. } { by rewrite list_to_map_to_list. }
  { rewrite Hm. by apply map_union_subseteq_l. }
  destruct (wworld_covers (mem s) B B (map_to_list F)) with (φ := φ) (h := h2) as (lsw&E2&Hc2); try done.
  { apply NoDup_fst_map_to_list. } { by rewrite list_to_map_to_list. }
  { rewrite Hm. by apply map_union_subseteq_r. }
  exists B, lss, lsw. split; [done|]. split; [done|]. rewrite Hm.
  exact (covers_union _ _ _ _ Hd Hc1 Hc2).
Qed.
Lemma w_nothing_left s : wreached ∅ ∅ s -> mem s = ∅.
Proof.
  intros Hr. destruct (w_ownership _ _ _ Hr) as (n&lss&lsw&H1&H2&_&Hl).
  unfold env, wenv in *. rewrite map_to_list_empty in H1. rewrite map_to_list_empty in H2. simpl in *. injection H1 as <-. injection H2 as <-.
  apply map_eq. intros l. rewrite lookup_empty. destruct (mem s !! l) as [c|] eqn:Hc; [|done].
  assert (is_Some (mem s !! l)) as Hi by (by rewrite Hc). apply Hl in Hi. by apply elem_of_nil in Hi.
Qed.

(** Two wrappers never share their object. *)
Lemma w_distinct E F s x y u l u' l' p : wreached E F s -> F !! x = Some (u, l) -> F !! y = Some (u', l') ->
  mem s !! l = Some (Cell KStk (Some (OWrap u p)) None) -> mem s !! l' = Some (Cell KStk (Some (OWrap u' p)) None) -> x = y.
Proof.
  intros Hr Hx Hy Hl Hl'. destruct (decide (x = y)) as [|Hne]; [done|exfalso].
  destruct (wreached_inv _ _ _ Hr) as (B&σ&φ&Hi). destruct (winv_shows _ _ _ _ _ _ Hi) as [_ Hs].
  destruct Hi as [(h1&h2&Hm&Hd&H1&H2) _ _ _].
  pose proof (Hs x) as Hsx. pose proof (Hs y) as Hsy. rewrite Hx in Hsx. rewrite Hy in Hsy.
  destruct (φ !! x) as [[[u1 p1] v1]|] eqn:Ex; [|done]. destruct (φ !! y) as [[[u2 p2] v2]|] eqn:Ey; [|done].
  destruct Hsx as (->&Hlx&_), Hsy as (->&Hly&_). rewrite Hl in Hlx. injection Hlx as <-. rewrite Hl' in Hly. injection Hly as <-.
  apply (hprop_in_entails _ _ (wworld_lookup2 C W F φ x y _ _ Hne Ex Ey)) in H2.
  destruct H2 as (f&g&h3&h4&->&Hd1&_&h5&h6&->&Hd2&Hf&h7&h8&->&Hd3&Hg&_).
  destruct Hf as (a1&a2&->&Hd4&_&a3&a4&->&Hd5&_&o&a5&a6&->&Hd6&Hp&_).
  destruct Hg as (b1&b2&->&Hd7&_&b3&b4&->&Hd8&_&o'&b5&b6&->&Hd9&Hp'&_). simpl in Hp, Hp'.
  unfold pt, hholds in Hp, Hp'. subst a5 b5.
  apply map_disjoint_union_r in Hd2 as [Hd2 _].
  set (ha := _ ∪ (_ ∪ (_ ∪ a6))) in Hd2. set (hb := _ ∪ (_ ∪ (_ ∪ b6))) in Hd2.
  assert (is_Some (ha !! p)) as [ca Ha] by (unfold ha; rewrite !lookup_union_is_Some lookup_singleton; eauto).
  assert (is_Some (hb !! p)) as [cb Hb] by (unfold hb; rewrite !lookup_union_is_Some lookup_singleton; eauto).
  by eapply map_disjoint_spec.
Qed.
End history.

Section more.
Context (C : cfg) (st nb : bool) (eqf ltf : uid -> uval -> uval -> bool).
Context (HC : good_env C st nb).
Notation whistory := (whistory C st nb eqf ltf).
Notation wreached := (wreached C st nb eqf ltf).
Notation wadmissible := (wadmissible C st nb).
Notation wyields := (wyields C eqf ltf).
Notation wtakes := (wtakes C st nb eqf ltf).
Notation wstep := (wstep C eqf ltf).

(** ** Exceptions *)
Definition worigin (E : env) (F : wenv) (c : wcmd) (e : exn) : Prop :=
  match c with
  | PMain _ => True
  | _ => exists K u, woperations c = Some K /\ wsubject E F c = Some u /\ from C K [IPlain u] e
  end.

Lemma o_wop n E F c : raises (worigin E F c) (wop C n eqf ltf E F c).
Proof.
  assert (HS : forall u, graded C (part C [IPlain u]) (sem C n)).
  { intros u. apply (o_sem C st nb HC _ (part_closed C _)). }
  assert (Hu : forall u, part C [IPlain u] u) by (intros; apply (part_top C [IPlain u] (IPlain u)); set_solver).
  assert (Hw : forall P x B (f : uid * loc -> M B), (forall g, F !! x = Some g -> raises P (f g)) -> raises P (bind (need_wrap F x) f)).
  { intros P x B f H. unfold need_wrap. destruct (F !! x) as [g|]; try (intros s; exact I). intros s. by apply H. }
  assert (Ho : forall P x B (f : uid * loc -> M B), (forall u a, E !! x = Some (BObj u a) -> raises P (f (u, a))) -> raises P (bind (need_obj E x) f)).
  { intros P x B f H. unfold need_obj. destruct (E !! x) as [[|u a]|]; try (intros s; exact I). intros s. by apply H. }
  assert (H2 : forall P x y B (f : uid * loc * loc -> M B), (forall u l r, F !! x = Some (u, l) -> raises P (f (u, l, r))) -> raises P (bind (need_two F x y) f)).
  { intros P x y B f H s. unfold need_two, need_wrap, bind. destruct (F !! x) as [[u l]|]; [|exact I].
    simpl. destruct (F !! y) as [[u' r]|]; [|exact I]. simpl. case_decide; [|exact I]. simpl. by apply H. }
  assert (Hnew : forall P x u k, (forall a, raises P (k a)) -> raises P (new_wrap F x u k)).
  { intros. unfold new_wrap. case_match; [apply raises_faulty|]. apply raises_bind; [by apply raises_stack_obj|]. intros. apply raises_ret. }
  assert (Hlast : forall P A (m : M A) (r : A -> env * wenv * out), raises P m -> raises P (bind m (fun a => ret (r a)))).
  { intros. apply raises_bind; [done|]. intros. apply raises_ret. }
  assert (Hor : forall A (m : M A) K u, woperations c = Some K -> wsubject E F c = Some u ->
    raises (org C (part C [IPlain u]) K) m -> raises (worigin E F c) m).
  { intros A m K u HK Hsu. apply raises_weaken. intros e He. apply org_from in He. unfold worigin. destruct c; [done|..]; by exists K, u. }
  destruct c; cbn [wop].
  - intros s. by case_match.
  - apply Hlast, Hnew. intros. eapply Hor; [done..|]. eapply o_i_value; [apply HS|apply Hu|set_solver].
  - apply Hw. intros [u l] Hy. apply Hlast, Hnew. intros. eapply Hor; [done|by rewrite /= Hy|].
    eapply o_i_copy; [apply HS|apply Hu|set_solver].
  - apply Hw. intros [u l] Hy. apply Hlast, Hnew. intros. eapply Hor; [done|by rewrite /= Hy|].
    eapply o_i_move; [apply HS|apply Hu|set_solver].
  - apply Ho. intros u l Hy. apply Hlast, Hnew. intros. eapply Hor; [done|by rewrite /= Hy|].
    destruct mv; [eapply o_i_move_from|eapply o_i_copy_from]; try apply HS; try apply Hu; set_solver.
  - apply H2. intros u l r Hx. apply Hlast. eapply Hor; [done|by rewrite /= Hx|].
    eapply o_i_cassign; [apply HS|apply Hu|set_solver..].
  - apply H2. intros u l r Hx. apply Hlast. apply raises_noexcept.
  - apply Hw. intros [u l] Hx. apply Ho. intros u' a Hy. simpl. case_decide; [subst u'|apply raises_faulty].
    apply Hlast. eapply Hor; [done|by rewrite /= Hx|]. unfold w_assign_from. apply raises_bind; [apply raises_wrap_ptr|]. intros p.
    destruct mv; [apply (g_massign _ _ _ (HS u))|apply (g_cassign _ _ _ (HS u))]; try apply Hu; set_solver.
  - apply H2. intros u l r Hx. apply Hlast. apply raises_noexcept.
  - apply Hw. intros [u l] Hx. apply raises_bind; [eapply o_i_destroy, (HS u)|]. intros. apply Hlast, raises_drop_cell.
  - apply Hw. intros [u l] Hx. apply raises_bind; [apply raises_wrap_ptr|]. intros p. apply Hlast. apply (g_read _ _ _ (HS u)).
  - apply raises_bind; [unfold need_fresh; case_match; first [apply raises_ret|apply raises_faulty]|]. intros.
    apply Hw. intros [u l] Hx. apply raises_bind; [apply raises_wrap_ptr|]. intros p. apply Hlast, raises_stack_obj.
    intros. eapply Hor; [done|by rewrite /= Hx|]. apply (g_copy _ _ _ (HS u)); [apply Hu|set_solver].
Qed.

Lemma yields_wop_exn c E F s E' F' e s' : (forall c', c <> PMain c') -> wyields c E F s (WDone E' F' (OThrew e) s') ->
  exists n, wop C n eqf ltf E F c s = Exn e s' /\ E' = E /\ F' = F.
Proof.
  intros Hc [n Hn]. exists n. specialize (Hn n (le_n n)). unfold wexec in Hn.
  destruct (wop C n eqf ltf E F c s) as [[[E1 F1] o1] s1|e1 s1|] eqn:Hop; [|by injection Hn as <- <- <- <-|done].
  exfalso. injection Hn as <- <- -> <-.
  assert (Hr : outs (fun r => forall e, r.2 <> OThrew e) (wop C n eqf ltf E F c)).
  { destruct c as [c| | | | | | | | | | |]; [by destruct (Hc c)|..]; unfold wop; repeat first
      [ apply outs_ret; intros; simpl; discriminate
      | apply outs_faulty
      | apply outs_bind; intros
      | match goal with |- outs _ (match ?x with _ => _ end) => destruct x end ]. }
  by apply (Hr _ _ _ Hop e).
Qed.

Lemma w_throws c E F s E' F' e s' : wtakes c E F s E' F' (OThrew e) s' -> (forall c', c <> PMain c') ->
  exists K u, woperations c = Some K /\ wsubject E F c = Some u /\ from C K [IPlain u] e.
Proof.
  intros (_&_&Hy) Hc. destruct (yields_wop_exn _ _ _ _ _ _ _ _ Hc Hy) as (n&Hop&_).
  pose proof (o_wop n E F c s) as Hr. rewrite Hop in Hr. destruct c as [c| | | | | | | | | | |]; [by destruct (Hc c)|exact Hr..].
Qed.
Lemma w_nothrow c E F s E' F' e s' : wtakes c E F s E' F' (OThrew e) s' ->
  match c with PMoveAssign _ _ | PSwap _ _ | PDrop _ | PGet _ => False | _ => True end.
Proof.
  intros H. destruct c; try done; by destruct (w_throws _ _ _ _ _ _ _ _ H) as (K&u&?&_).
Qed.

(** ** The pointer *)
Lemma wop_env n E F c s E' F' o s' : wop C n eqf ltf E F c s = Ok (E', F', o) s' ->
  forall x, ~ repoints c x -> F' !! x = F !! x.
Proof.
  intros H x Hx. revert H.
  assert (Hnew : forall y u k, outs (fun r : wenv => x <> y -> r !! x = F !! x) (new_wrap F y u k)).
  { intros. unfold new_wrap. case_match; [apply outs_faulty|]. apply outs_bind. intros. apply outs_ret. intros.
    unfold wenv. by rewrite lookup_insert_ne. }
  assert (Hb : forall A (m : M A) (f : A -> M (env * wenv * out)) (P : A -> Prop), outs P m ->
    (forall a, P a -> outs (fun r => r.1.2 !! x = F !! x) (f a)) -> outs (fun r => r.1.2 !! x = F !! x) (bind m f)).
  { intros A m f P Hm Hf t a t'. unfold bind. specialize (Hm t). destruct (m t); [|done..]. apply Hf. by eapply Hm. }
  assert (Hf : forall A (m : M A) (o1 : A -> out), outs (fun r => r.1.2 !! x = F !! x) (bind m (fun a => ret (E, F, o1 a)))).
  { intros. apply outs_bind. intros. by apply outs_ret. }
  assert (Hall : outs (fun r => r.1.2 !! x = F !! x) (wop C n eqf ltf E F c)); [|intros H; by specialize (Hall _ _ _ H)].
  destruct c; unfold wop; simpl in Hx.
  - apply outs_bind. intros. by apply outs_ret.
  - eapply Hb; [apply Hnew|]. intros F1 HF1. apply outs_ret. simpl. by apply HF1.
  - apply outs_bind. intros. eapply Hb; [apply Hnew|]. intros F1 HF1. apply outs_ret. simpl. by apply HF1.
  - apply outs_bind. intros. eapply Hb; [apply Hnew|]. intros F1 HF1. apply outs_ret. simpl. by apply HF1.
  - apply outs_bind. intros. eapply Hb; [apply Hnew|]. intros F1 HF1. apply outs_ret. simpl. by apply HF1.
  - apply outs_bind. intros. apply outs_bind. intros. by apply outs_ret.
  - apply outs_bind. intros. apply outs_bind. intros. by apply outs_ret.
  - apply outs_bind. intros. apply outs_bind. intros. case_decide; [|apply outs_faulty]. apply outs_bind. intros. by apply outs_ret.
  - apply outs_bind. intros. apply outs_bind. intros. by apply outs_ret.
  - do 3 (apply outs_bind; intros). apply outs_ret. simpl. unfold wenv. rewrite lookup_delete_ne //.
  - do 3 (apply outs_bind; intros). by apply outs_ret.
  - do 4 (apply outs_bind; intros). by apply outs_ret.
Qed.

Lemma wstep_pointer σ φ c o σ' φ' x u p v : wstep σ φ c o σ' φ' -> φ !! x = Some (u, p, v) -> ~ repoints c x ->
  exists v', φ' !! x = Some (u, p, v').
Proof.
  intros Hs Hx Hr. unfold wstate in *. inversion Hs; subst; simpl in Hr; try by eauto.
  all: repeat match goal with
  | |- context [<[?a := ?b]> ?m !! ?k] => destruct (decide (a = k)) as [?|?];
      [subst; rewrite lookup_insert|rewrite lookup_insert_ne //]
  | |- context [delete ?a ?m !! ?k] => rewrite lookup_delete_ne; [|congruence]
  end; try by eauto. all: try (exfalso; naive_solver).
  all: repeat match goal with H1 : lookup ?k _ = Some _, H2 : lookup ?k _ = Some _ |- _ =>
    pose proof (eq_trans (eq_sym H1) H2) as Heq; clear H1; injection Heq as ???; subst end; by eauto.
Qed.

Lemma w_pointer c E F s E' F' o s' x u l : wtakes c E F s E' F' o s' -> F !! x = Some (u, l) -> ~ repoints c x ->
  F' !! x = Some (u, l) /\ exists p, mem s !! l = Some (Cell KStk (Some (OWrap u p)) None) /\ mem s' !! l = mem s !! l.
Proof.
  intros Ht Hx Hr. destruct (takes_spec C st nb eqf ltf HC _ _ _ _ _ _ _ _ Ht) as (σ&φ&σ'&φ'&_&Hs&_&Hs'&Hst).
  pose proof (Hs x) as H1. rewrite Hx in H1. destruct (φ !! x) as [[[u1 p] v]|] eqn:Ex; [|done]. destruct H1 as (->&Hl&_).
  destruct (wstep_pointer _ _ _ _ _ _ _ _ _ _ Hst Ex Hr) as [v' Ex'].
  assert (HF : F' !! x = F !! x).
  { destruct Ht as (_&_&[n Hn]). specialize (Hn n (le_n n)). unfold wexec in Hn.
    destruct (wop C n eqf ltf E F c s) as [[[E1 F1] o1] s1|e1 s1|] eqn:Hop; [|by injection Hn as _ <- _ _|done].
    injection Hn as <- <- <- <-. by eapply wop_env. }
  rewrite HF. split; [done|]. exists p. split; [done|].
  pose proof (Hs' x) as H1. rewrite HF Hx Ex' in H1. destruct H1 as (_&Hl'&_). by rewrite Hl Hl'.
Qed.

(** ** What the commands are *)
Lemma w_cell E F s x u l : wreached E F s -> F !! x = Some (u, l) ->
  exists p v, wrap_holds C (mem s) u l p v.
Proof.
  intros Hr Hx. destruct (wreached_inv C st nb eqf ltf HC _ _ _ Hr) as (B&σ&φ&Hi).
  destruct (winv_shows _ _ _ _ _ _ _ _ _ Hi) as [_ Hs]. specialize (Hs x). rewrite Hx in Hs.
  destruct (φ !! x) as [[[u1 p] v]|]; [|done]. destruct Hs as [-> Hs]. by exists p, v.
Qed.

Lemma wrap_ptr_run u l p s : mem s !! l = Some (Cell KStk (Some (OWrap u p)) None) -> wrap_ptr u l s = Ok p s.
Proof. intros H. unfold wrap_ptr, get_obj, get_cell, bind. rewrite H. simpl. by rewrite decide_True. Qed.
Lemma need_two_run F x y u l r s : F !! x = Some (u, l) -> F !! y = Some (u, r) -> need_two F x y s = Ok (u, l, r) s.
Proof. intros Hx Hy. unfold need_two, need_wrap, bind. rewrite Hx /= Hy /= decide_True //. Qed.

Lemma w_exchange E F s x y u l r p q : x <> y -> wreached E F s -> F !! x = Some (u, l) -> F !! y = Some (u, r) ->
  mem s !! l = Some (Cell KStk (Some (OWrap u p)) None) -> mem s !! r = Some (Cell KStk (Some (OWrap u q)) None) ->
  forall n c, c = PSwap x y \/ c = PMoveAssign x y ->
  wexec C n eqf ltf c E F s = WDone E F ODone
    (set_mem (<[l := Cell KStk (Some (OWrap u q)) None]> (<[r := Cell KStk (Some (OWrap u p)) None]> (mem s))) s).
Proof.
  intros Hne Hr Hx Hy Hl Hr' n c Hc.
  assert (Hlr : l <> r).
  { intros ->. apply Hne. rewrite Hl in Hr'. injection Hr' as ->. by eapply (w_distinct C st nb eqf ltf HC). }
  assert (Hsw : w_swap u l r s = Ok tt (set_mem (<[l := Cell KStk (Some (OWrap u q)) None]> (<[r := Cell KStk (Some (OWrap u p)) None]> (mem s))) s)).
  { unfold w_swap, noexcept, bind. rewrite (wrap_ptr_run _ _ _ _ Hr') (wrap_ptr_run _ _ _ _ Hl).
    unfold modify_obj. rewrite Hr'. simpl. rewrite decide_True //. simpl. rewrite lookup_insert_ne // Hl. simpl. rewrite decide_True //. }
  assert (wop C n eqf ltf E F c s = (let! r := need_two F x y in do! w_swap r.1.1 r.1.2 r.2 in ret (E, F, ODone)) s) as Heq.
  { by destruct Hc as [-> | ->]. }
  unfold wexec. rewrite Heq. unfold bind. rewrite (need_two_run _ _ _ _ _ _ _ Hx Hy). simpl. by rewrite Hsw.
Qed.

Lemma w_assign_is E F s x y u l r p q n : wreached E F s -> F !! x = Some (u, l) -> F !! y = Some (u, r) ->
  mem s !! l = Some (Cell KStk (Some (OWrap u p)) None) -> mem s !! r = Some (Cell KStk (Some (OWrap u q)) None) ->
  wexec C n eqf ltf (PAssign x y) E F s =
    match us_cassign (sem C n) u p q s with
    | Ok _ s' => WDone E F ODone s' | Exn e s' => WDone E F (OThrew e) s' | Fault f => WFaulted f
    end.
Proof.
  intros _ Hx Hy Hl Hr. unfold wexec, wop, bind. rewrite (need_two_run _ _ _ _ _ _ _ Hx Hy). simpl. unfold bind.
  rewrite (wrap_ptr_run _ _ _ _ Hl) (wrap_ptr_run _ _ _ _ Hr). by destruct (us_cassign _ _ _ _ _).
Qed.
Lemma w_assign_from_is E F s x y mv u l a p n : wreached E F s -> F !! x = Some (u, l) -> E !! y = Some (BObj u a) ->
  mem s !! l = Some (Cell KStk (Some (OWrap u p)) None) ->
  wexec C n eqf ltf (PAssignFrom x y mv) E F s =
    match (if mv then us_massign else us_cassign) (sem C n) u p a s with
    | Ok _ s' => WDone E F ODone s' | Exn e s' => WDone E F (OThrew e) s' | Fault f => WFaulted f
    end.
Proof.
  intros _ Hx Hy Hl. unfold wexec, wop, bind, need_wrap, need_obj. rewrite Hx /= Hy /= decide_True //.
  unfold w_assign_from, bind. rewrite (wrap_ptr_run _ _ _ _ Hl). destruct mv; by destruct (_ (sem C n) _ _ _ _).
Qed.

(** ** Programs without wrappers *)
Lemma main_exec n c E F s : wexec C n eqf ltf (PMain c) E F s =
  match exec C n eqf ltf c E s with Done E' o s' => WDone E' F o s' | Faulted f => WFaulted f end.
Proof. unfold wexec, wop, bind, exec. by destruct (op C n eqf ltf E c s) as [[? ?] ?|?|]. Qed.
Lemma main_yields c E F s E' F' o s' : wyields (PMain c) E F s (WDone E' F' o s') <->
  F' = F /\ yields C eqf ltf c E s (Done E' o s').
Proof.
  split.
  - intros [n0 Hn]. assert (F' = F) as ->.
    { specialize (Hn n0 (le_n n0)). rewrite main_exec in Hn. destruct (exec _ _ _ _ _ _ _); [by injection Hn|done]. }
    split; [done|]. exists n0. intros n Hn'. specialize (Hn n Hn'). rewrite main_exec in Hn.
    destruct (exec _ _ _ _ _ _ _); [by injection Hn as -> -> ->|done].
  - intros [-> [n0 Hn]]. exists n0. intros n Hn'. rewrite main_exec. by rewrite Hn.
Qed.
Lemma main_admissible E s c : admissible C st nb E s c <-> wadmissible E ∅ s (PMain c).
Proof.
  split.
  - intros (D&σ&Hs&Ht&Hu). exists D, σ, ∅. split; [done|]. split; [|done]. intros x. unfold wenv, wstate. by rewrite !lookup_empty.
  - intros (D&σ&φ&Hs&_&Ht&Hu). by exists D, σ.
Qed.
Lemma main_history orc h E s : history C st nb eqf ltf orc h E s <-> whistory orc (PMain <$> h) E ∅ s.
Proof.
  split.
  - induction 1 as [|h E s c E' o s' Hh IH Ha Hy]; [apply whistory_start|]. rewrite fmap_app.
    eapply whistory_step; [exact IH|by apply main_admissible|]. by apply main_yields.
  - remember (PMain <$> h) as h' eqn:Hh'. remember ∅ as F eqn:HF. intros H. revert h Hh' HF.
    induction H as [|h' E F s c E' F' o s' Hh IH Ha Hy]; intros h Heq HF.
    + destruct h; [apply history_start|done].
    + destruct h as [|c0 h0 _] using rev_ind; [by destruct h'|]. rewrite fmap_app in Heq.
      apply app_inj_tail in Heq as [-> ->]. apply main_yields in Hy as [-> Hy]. subst F.
      eapply history_step; [by apply IH|by apply main_admissible|done].
Qed.
End more.
