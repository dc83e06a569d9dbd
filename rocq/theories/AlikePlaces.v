(** Programs with blocks, handlers, loops and visitors do not depend on addresses (proofs). *)
From Coq.ssr Require Import ssreflect.
From Coq Require Import ZArith Lia.
From iris.prelude Require Import prelude.
From stdpp Require Import gmap list numbers.
From Verif Require Import Base Types Dispatch Variant Sem Values Client Spec Reach Places Programs ProgramsSpec AlikeSpec PlacesAlikeSpec HistoryProof Alike.

Definition prel (β : ren) (p p' : name * bnd) : Prop := p.1 = p'.1 /\ brel β p.2 p'.2.
Definition frel (β : ren) (f f' : bnd * list (name * bnd)) : Prop := brel β f.1 f'.1 /\ Forall2 (prel β) f.2 f'.2.
Definition krel (β : ren) (K K' : kenv) : Prop := forall x, option_Forall2 (frel β) (K !! x) (K' !! x).

Lemma prel_sub β β' p p' : sub β β' -> prel β p p' -> prel β' p p'.
Proof. intros H [H1 H2]. split; [done|]. by eapply brel_sub. Qed.
Lemma frel_sub β β' f f' : sub β β' -> frel β f f' -> frel β' f f'.
Proof.
  intros H [H1 H2]. split; [by eapply brel_sub|]. eapply Forall2_impl; [exact H2|]. intros ??. by apply prel_sub.
Qed.
Lemma krel_sub β β' K K' : sub β β' -> krel β K K' -> krel β' K K'.
Proof. intros H HK x. destruct (HK x); constructor. by eapply frel_sub. Qed.
Lemma krel_insert β K K' x f f' : krel β K K' -> frel β f f' -> krel β (<[x := f]> K) (<[x := f']> K').
Proof.
  intros HK Hf y. unfold kenv in *. destruct (decide (x = y)) as [->|Hne].
  - rewrite !lookup_insert. by constructor.
  - by rewrite !lookup_insert_ne.
Qed.
Lemma krel_delete β K K' x : krel β K K' -> krel β (delete x K) (delete x K').
Proof.
  intros HK y. unfold kenv in *. destruct (decide (x = y)) as [->|Hne].
  - rewrite !lookup_delete. by constructor.
  - by rewrite !lookup_delete_ne.
Qed.
Lemma frel_names β f f' : frel β f f' -> f.2.*1 = f'.2.*1.
Proof.
  destruct f as [b l], f' as [b' l']. intros [_ H]. simpl in *. induction H as [|p p' l l' [Hp _] _ IH]; [done|].
  cbn. by rewrite Hp IH.
Qed.
Lemma krel_open β K K' : krel β K K' -> same_open K K'.
Proof. intros H x. destruct (H x); constructor. by eapply frel_names. Qed.
Lemma krel_none β K K' x : krel β K K' -> K !! x = None <-> K' !! x = None.
Proof. intros H. specialize (H x). unfold kenv in *. destruct H; done. Qed.
Lemma krel_ref β K K' r : krel β K K' -> is_ref K r -> is_ref K' r.
Proof.
  intros H (x&f&Hf&Hr). specialize (H x). unfold kenv in *. rewrite Hf in H. inversion H as [f1 f' Hff Hx Hf'|]; subst.
  exists x, f'. split; [done|]. by rewrite -(frel_names _ _ _ Hff).
Qed.
Lemma prel_sym_open β K K' r : krel β K K' -> is_ref K r <-> is_ref K' r.
Proof.
  intros H. split; [by apply krel_ref with β|]. intros (x&f'&Hf&Hr). specialize (H x). unfold kenv in *. rewrite Hf in H.
  inversion H as [f f1 Hff Hx Hf'|]; subst. exists x, f. split; [done|]. by rewrite (frel_names _ _ _ Hff).
Qed.
Lemma krel_allowed β K K' c : krel β K K' -> allowed K c <-> allowed K' c.
Proof.
  intros H. unfold allowed. f_equiv.
  - destruct (declares c); [|done]. by eapply krel_none.
  - destruct c; try done. by rewrite (prel_sym_open β).
Qed.
Lemma brel_eq β b b' c c' : oto β -> brel β b b' -> brel β c c' -> b = c <-> b' = c'.
Proof.
  intros Ho. destruct b, b', c, c'; simpl; try done; intros [-> H1] [-> H2];
    (split; [intros [= -> ->]|intros [= -> ->]]); f_equal; by apply (Ho _ _ _ _ H1 H2).
Qed.

Section places.
Context (B1 B2 : state) (β0 : ren).
Context (C : cfg) (n m : nat) (eqf ltf : uid -> uval -> uval -> bool) (N : list name).
Let HS := sames_sem B1 B2 β0 C n.
Notation rel := (rel B1 B2 β0).
Notation srel := (srel B1 B2 β0).

Definition kin (K : kenv) : Prop := forall x f, K !! x = Some f -> x ∈ N /\ forall r, r ∈ f.2.*1 -> r ∈ N.
Lemma kin_insert K x f : kin K -> x ∈ N -> (forall r, r ∈ f.2.*1 -> r ∈ N) -> kin (<[x := f]> K).
Proof.
  intros H Hx Hf y g. unfold kenv in *. destruct (decide (x = y)) as [->|Hne].
  - rewrite lookup_insert. by intros [= <-].
  - rewrite lookup_insert_ne //. apply H.
Qed.
Lemma kin_delete K x : kin K -> kin (delete x K).
Proof.
  intros H y g. unfold kenv in *. rewrite lookup_delete_Some. intros [_ ?]. by apply (H y).
Qed.
Definition others (E0 E0' E E' : env) : Prop := forall x, x ∉ N -> E !! x = E0 !! x /\ E' !! x = E0' !! x.

Definition Rplace (E0 E0' : env) (r r' : env * kenv * out) (β : ren) : Prop :=
  envrel β N r.1.1 r'.1.1 /\ krel β r.1.2 r'.1.2 /\ kin r.1.2 /\ r.2 = r'.2 /\ others E0 E0' r.1.1 r'.1.1.

Lemma rel_need β b b' : b = b' -> rel Req β (need b) (need b').
Proof. intros ->. unfold need. destruct b'; [by apply rel_ret|apply rel_faulty]. Qed.

Lemma al_opened β b b' u : brel β b b' -> rel Rl β (opened C b u) (opened C b' u).
Proof.
  intros Hb. unfold opened. destruct b, b'; simpl in Hb; try done; destruct Hb as [-> Hb].
  - by apply al_var_get_ref.
  - destruct (decide _); [by apply rel_ret|apply rel_faulty].
Qed.
Lemma unused_alike β E E' K K' rs : envrel β N E E' -> krel β K K' -> (forall r, r ∈ rs -> r ∈ N) -> unused E K rs <-> unused E' K' rs.
Proof.
  intros He HK Hr. unfold unused. f_equiv. rewrite !list.Forall_forall. apply forall_proper. intros r.
  split; intros H Hin; specialize (H Hin) as [H1 H2].
  - split; [|by apply (krel_none β K K')]. specialize (He r (Hr r Hin)). unfold env in *. rewrite H1 in He. by inversion He.
  - split; [|by apply (krel_none β K K')]. specialize (He r (Hr r Hin)). unfold env in *. rewrite H1 in He. by inversion He.
Qed.
Lemma all_bound_alike β E E' l l' : oto β -> envrel β N E E' -> Forall2 (prel β) l l' -> (forall r, r ∈ l.*1 -> r ∈ N) ->
  all_bound E l <-> all_bound E' l'.
Proof.
  intros Ho He Hl. unfold all_bound. induction Hl as [|[r b] [r' b'] l l' [Hr Hb] _ IH]; intros Hin; simpl in *; [by rewrite !list.Forall_nil|].
  subst r'. rewrite !list.Forall_cons /= IH; [|intros r' Hr'; apply Hin; by right]. f_equiv.
  specialize (He r). feed specialize He; [apply Hin; left|]. unfold env in *. destruct He as [c c' Hc|]; [|done].
  split; intros [= Hx]; f_equal; by eapply (brel_eq β c c' b b').
Qed.
Lemma refs_alike β rs mems (ls ls' : list loc) : Forall2 β ls ls' -> Forall2 (prel β) (zip rs (zip_with BVar mems ls)) (zip rs (zip_with BVar mems ls')).
Proof.
  intros H. revert rs mems. induction H as [|l l' ls ls' Hl _ IH]; intros rs mems.
  { destruct mems; simpl; destruct rs; constructor. }
  destruct mems as [|tys mems]; [destruct rs; constructor|]. destruct rs as [|r rs]; [constructor|]. simpl.
  constructor; [by split|apply IH].
Qed.
Lemma zip_names {A B} (rs : list A) (l : list B) r : r ∈ (zip rs l).*1 -> r ∈ rs.
Proof.
  revert l. induction rs as [|r' rs IH]; intros [|b l]; simpl; rewrite ?elem_of_nil ?elem_of_cons; try done.
  intros [->|H]; [by left|right; by eapply IH].
Qed.
Lemma lists_alike β l l' E E' : Forall2 (prel β) l l' -> envrel β N E E' ->
  envrel β N (list_to_map l ∪ E) (list_to_map l' ∪ E').
Proof.
  intros Hl He. induction Hl as [|[r b] [r' b'] l l' [Hr Hb] _ IH]; simpl in *.
  - by rewrite !left_id_L.
  - subst r'. rewrite -!insert_union_l. by apply envrel_insert.
Qed.
Lemma lists_others (l : list (name * bnd)) (E : env) x : x ∉ l.*1 -> (list_to_map l ∪ E : env) !! x = E !! x.
Proof. intros H. rewrite lookup_union_r //. by apply not_elem_of_list_to_map_1. Qed.
Lemma deletes_alike β l E E' : envrel β N E E' -> envrel β N (foldr delete E l) (foldr delete E' l).
Proof. intros He. induction l as [|r l IH]; simpl; [done|]. by apply envrel_delete. Qed.
Lemma deletes_others l (E : env) x : x ∉ l -> foldr delete E l !! x = E !! x.
Proof.
  intros H. induction l as [|r l IH]; simpl; [done|]. apply not_elem_of_cons in H as [Hne H].
  unfold env in *. rewrite lookup_delete_ne //. by apply IH.
Qed.

Lemma al_rop E E' K K' c β : envrel β N E E' -> krel β K K' -> kin K -> (forall x, x ∈ rnames c -> x ∈ N) ->
  rel (Rplace E E') β (rop C n eqf ltf E K c) (rop C n eqf ltf E' K' c).
Proof.
  intros He HK Hkin Hn. destruct c as [c|x u rs|x|x tys y u mv|x y u mv|x u y]; simpl in *.
  - eapply rel_bind; [apply rel_need, bool_decide_ext, (krel_allowed β); done|]. intros β1 _ _ Hs1 _.
    eapply rel_bind; [apply (al_op B1 B2 β0 C n eqf ltf N); [by eapply envrel_sub|done]|].
    intros β2 [E1 o1] [E2 o2] Hs2 (H1&H2&H3). apply rel_ret. split; [done|]. simpl in *.
    split; [eapply krel_sub; [|done]; eauto using sub_trans|]. done.
  - assert (Hx : x ∈ N) by (apply Hn; left). destruct (He x Hx) as [b b' Hb|]; [|apply rel_faulty].
    eapply rel_bind; [by apply al_opened|]. intros β1 l l' Hs1 Hl. unfold Rl in Hl.
    eapply rel_bind; [by apply rel_expect_user|]. intros β2 [z ls] [z' ls'] Hs2 [Hz Hls]. simpl in *. subst z'.
    assert (Hs : sub β β2) by eauto using sub_trans.
    eapply rel_bind.
    { apply rel_need, bool_decide_ext. f_equiv. apply (unused_alike β); [done..|]. intros r Hr. apply Hn. by right. }
    intros β3 _ _ Hs3 _. assert (Hs' : sub β β3) by eauto using sub_trans.
    assert (Hrefs : Forall2 (prel β3) (zip rs (zip_with BVar (ut_members (te C u)) ls)) (zip rs (zip_with BVar (ut_members (te C u)) ls'))).
    { apply refs_alike. exact (Alike.Forall2_sub β2 β3 _ _ Hs3 Hls). }
    assert (Hin : forall ls r, r ∈ (zip rs (zip_with BVar (ut_members (te C u)) ls)).*1 -> r ∈ N).
    { intros ks r Hr%zip_names. apply Hn. by right. }
    apply rel_ret. split; [|split; [|split; [|split]]]; simpl.
    + apply lists_alike; [done|]. apply envrel_delete. by eapply envrel_sub.
    + apply krel_insert; [by eapply krel_sub|]. split; [by eapply brel_sub|done].
    + apply kin_insert; [done..|]. apply Hin.
    + done.
    + intros y Hy. rewrite !lists_others; [|naive_solver..]. unfold env in *. rewrite !lookup_delete_ne; naive_solver.
  - assert (Hx : x ∈ N) by (apply Hn; left). pose proof (HK x) as Hf. destruct (K !! x) as [[b l]|] eqn:EK; last first.
    { inversion Hf as [|]; subst. apply rel_faulty. }
    destruct (K' !! x) as [[b' l']|] eqn:EK'; [|by inversion Hf]. inversion Hf as [? ? [Hb Hl]|]; subst. simpl in *.
    destruct (Hkin x _ EK) as [_ Hin]. simpl in Hin.
    assert (Hnm : l.*1 = l'.*1) by exact (frel_names β (b, l) (b', l') (conj Hb Hl)).
    intros t1 t2 Ht.
    assert (Hbd : bool_decide (all_bound E l) = bool_decide (all_bound E' l')).
    { apply bool_decide_ext, (all_bound_alike β); [apply (sr_oto _ _ _ _ _ _ Ht)|done..]. }
    revert t1 t2 Ht. change (rel (Rplace E E') β
      (do! need (bool_decide (all_bound E l)) in ret (<[x := b]> (foldr delete E l.*1), delete x K, ODone))
      (do! need (bool_decide (all_bound E' l')) in ret (<[x := b']> (foldr delete E' l'.*1), delete x K', ODone))).
    eapply rel_bind; [by apply rel_need|]. intros β1 _ _ Hs1 _. apply rel_ret. rewrite -Hnm.
    split; [|split; [|split; [|split]]]; simpl.
    + apply envrel_insert; [|by eapply brel_sub]. apply deletes_alike. by eapply envrel_sub.
    + apply krel_delete. by eapply krel_sub.
    + by apply kin_delete.
    + done.
    + intros y Hy. unfold env in *. rewrite !lookup_insert_ne; [|naive_solver..].
      split; apply deletes_others; naive_solver.
  - assert (Hx : x ∈ N /\ y ∈ N) by (split; apply Hn; set_solver). destruct Hx as [Hx Hy].
    eapply rel_bind; [apply rel_need, bool_decide_ext, (krel_none β); done|]. intros β1 _ _ Hs1 _.
    eapply rel_bind; [apply (al_need_var B1 B2 β0 N); [by eapply envrel_sub|done]|].
    intros β2 [t q] [t' q'] Hs2 [Ht Hq]. simpl in Ht, Hq. subst t'. simpl.
    eapply rel_bind; [by apply al_var_get_ref|]. intros β3 l l' Hs3 Hl. unfold Rl in Hl.
    eapply rel_bind.
    { apply (al_new_var B1 B2 β0 C n eqf ltf N); [eapply envrel_sub; [|done]; eauto using sub_trans|done|].
      intros β4 a a' Hs4 Ha. apply al_var_from; [apply HS|done|by apply Hs4]. }
    intros β4 [E1 o1] [E2 o2] Hs4 (H1&H2&H3). apply rel_ret. split; [done|]. simpl in *.
    split; [eapply krel_sub; [|done]; eauto using sub_trans|]. done.
  - assert (Hx : x ∈ N /\ y ∈ N) by (split; apply Hn; set_solver). destruct Hx as [Hx Hy].
    eapply rel_bind; [apply (al_need_var B1 B2 β0 N); done|].
    intros β1 [t1 p] [t1' p'] Hs1 [Ht1 Hp]. simpl in Ht1, Hp. subst t1'. simpl.
    eapply rel_bind; [apply (al_need_var B1 B2 β0 N); [by eapply envrel_sub|done]|].
    intros β2 [t q] [t' q'] Hs2 [Ht Hq]. simpl in Ht, Hq. subst t'. simpl.
    eapply rel_bind; [by apply al_var_get_ref|]. intros β3 l l' Hs3 Hl. unfold Rl in Hl.
    eapply rel_bind; [apply al_var_assign_from; [apply HS|by apply Hs3, Hs2|done]|].
    intros β4 _ _ Hs4 _. assert (Hs : sub β β4) by eauto 6 using sub_trans. apply rel_ret.
    split; [by eapply envrel_sub|]. split; [by eapply krel_sub|]. done.
  - assert (Hx : x ∈ N /\ y ∈ N) by (split; apply Hn; set_solver). destruct Hx as [Hx Hy].
    eapply rel_bind; [apply (al_need_var B1 B2 β0 N); done|].
    intros β1 [t1 p] [t1' p'] Hs1 [Ht1 Hp]. simpl in Ht1, Hp. subst t1'. simpl.
    eapply rel_bind; [apply (al_need_var B1 B2 β0 N); [by eapply envrel_sub|done]|].
    intros β2 [t q] [t' q'] Hs2 [Ht Hq]. simpl in Ht, Hq. subst t'. simpl.
    eapply rel_bind; [by apply al_var_get_ref|]. intros β3 l l' Hs3 Hl. unfold Rl in Hl.
    eapply rel_bind; [apply al_var_poke; [apply HS|by apply Hs3, Hs2|done]|].
    intros β4 _ _ Hs4 _. assert (Hs : sub β β4) by eauto 6 using sub_trans. apply rel_ret.
    split; [by eapply envrel_sub|]. split; [by eapply krel_sub|]. done.
Qed.

(** ** Results *)
Definition sides (β : ren) (E0 E0' E E' : env) (K K' : kenv) (s s' : state) : Prop :=
  srel β s s' /\ envrel β N E E' /\ krel β K K' /\ kin K /\ others E0 E0' E E'.
Definition rrel (E0 E0' : env) (r r' : rresult) : Prop :=
  match r, r' with
  | RDone E1 K1 o1 s1, RDone E2 K2 o2 s2 => orelo B1 B2 o1 o2 /\ exists β, sides β E0 E0' E1 E2 K1 K2 s1 s2
  | RFaulted f1, RFaulted f2 => f1 = f2
  | _, _ => False
  end.
Definition presrel (E0 E0' : env) (r r' : presult) : Prop :=
  match r, r' with
  | PRet E1 K1 s1, PRet E2 K2 s2 => exists β, sides β E0 E0' E1 E2 K1 K2 s1 s2
  | PExn e1 E1 K1 s1, PExn e2 E2 K2 s2 => xrel B1 B2 e1 e2 /\ exists β, sides β E0 E0' E1 E2 K1 K2 s1 s2
  | PWrong f1, PWrong f2 => f1 = f2
  | PMore, PMore => True
  | _, _ => False
  end.

Lemma rop_done E K c s E' K' o s' : rop C n eqf ltf E K c s = Ok (E', K', o) s' -> forall e, o <> OThrew e.
Proof.
  destruct c as [c|x u rs|x|x tys y u mv|x y u mv|x u y]; simpl; unfold bind.
  - destruct (need _ s) as [[] s0|e s0|f]; [|done..]. destruct (op C n eqf ltf E c s0) as [[E1 o1] s1|e1 s1|f1] eqn:Eo; [|done..].
    unfold ret. intros [= <- <- <- <-]. by eapply op_done.
  - destruct (E !! x); [|done]. repeat (case_match; try done). unfold ret. by intros [= <- <- <- <-].
  - destruct (K !! x) as [[b l]|]; [|done]. repeat (case_match; try done). unfold ret. by intros [= <- <- <- <-].
  - unfold new_var, bind. repeat (case_match; try done). simplify_eq. unfold ret in *. intros [= <- <- <- <-]. naive_solver.
  - repeat (case_match; try done). unfold ret. by intros [= <- <- <- <-].
  - repeat (case_match; try done). unfold ret. by intros [= <- <- <- <-].
Qed.
Lemma sides_trans β E0 E0' E1 E1' E2 E2' K K' s s' : others E0 E0' E1 E1' -> sides β E1 E1' E2 E2' K K' s s' -> sides β E0 E0' E2 E2' K K' s s'.
Proof.
  intros Ho (Hs&He&HK&Hk&H). do 4 (split; [done|]). intros x Hx. destruct (Ho x Hx), (H x Hx). split; congruence.
Qed.
Lemma presrel_trans E0 E0' E1 E1' r r' : others E0 E0' E1 E1' -> presrel E1 E1' r r' -> presrel E0 E0' r r'.
Proof.
  intros Ho. destruct r, r'; simpl; try done.
  - intros [β H]. exists β. by eapply sides_trans.
  - intros [He [β H]]. split; [done|]. exists β. by eapply sides_trans.
Qed.

Section runs.
Context (E0 E0' : env).
Lemma al_rexec β E E' K K' c s s' : sides β E0 E0' E E' K K' s s' -> (forall x, x ∈ rnames c -> x ∈ N) ->
  rrel E0 E0' (rexec C n eqf ltf c E K s) (rexec C n eqf ltf c E' K' s').
Proof.
  intros (Hs&He&HK&Hk&Ho) Hc. pose proof (al_rop E E' K K' c β He HK Hk Hc s s' Hs) as H. unfold rexec.
  destruct (rop C n eqf ltf E K c s) as [[[E1 K1] o1] s1|e s1|f] eqn:Er, (rop C n eqf ltf E' K' c s') as [[[E2 K2] o2] s2|e' s2|f'] eqn:Er'; try done; simpl.
  - destruct H as (β'&Hsub&Hs'&He'&HK'&Hk'&Heq&Ho'). simpl in *. subst o2. split.
    { apply (orelo_eq B1 B2 n eqf ltf). by eapply rop_done. }
    exists β'. eapply sides_trans; [done|]. by split.
  - destruct H as (β'&Hsub&Hs'&Hx). split; [done|]. exists β'. split; [done|]. split; [by eapply envrel_sub|].
    split; [by eapply krel_sub|]. done.
Qed.
Lemma al_presult r r' : rrel E0 E0' r r' -> presrel E0 E0' (presult_of r) (presult_of r').
Proof.
  destruct r as [E K o s|f], r' as [E' K' o' s'|f']; simpl; try done. intros [Ho H].
  destruct o, o'; simpl in Ho; try done; naive_solver.
Qed.
Lemma al_and_then r r' k k' : presrel E0 E0' r r' ->
  (forall β E E' K K' s s', sides β E0 E0' E E' K K' s s' -> presrel E0 E0' (k E K s) (k' E' K' s')) ->
  presrel E0 E0' (and_then r k) (and_then r' k').
Proof. intros Hr Hk. destruct r, r'; simpl in *; try done. destruct Hr as [β H]. by eapply Hk. Qed.
Lemma al_at_exit r r' c : presrel E0 E0' r r' -> (forall x, x ∈ rnames c -> x ∈ N) ->
  presrel E0 E0' (at_exit C n eqf ltf r c) (at_exit C n eqf ltf r' c).
Proof.
  intros Hr Hc. destruct r as [E K s|e E K s|f|], r' as [E' K' s'|e' E' K' s'|f'|]; simpl in Hr; try done; unfold at_exit.
  - destruct Hr as [β H]. apply al_presult. by eapply al_rexec.
  - destruct Hr as [He [β H]]. pose proof (al_presult _ _ (al_rexec _ _ _ _ _ _ _ _ H Hc)) as Hp.
    destruct (presult_of (rexec C n eqf ltf c E K s)), (presult_of (rexec C n eqf ltf c E' K' s')); simpl in *; done.
Qed.
Lemma al_visited β x E E' K K' s s' k k' : sides β E0 E0' E E' K K' s s' -> x ∈ N ->
  (forall u β s s', sides β E0 E0' E E' K K' s s' -> presrel E0 E0' (k u s) (k' u s')) ->
  presrel E0 E0' (dispatch C x E K s k) (dispatch C x E' K' s' k').
Proof.
  intros (Hs&He&HK&Hk&Ho) Hx Hkk. unfold dispatch. destruct (He x Hx) as [b b' Hb|]; [|done].
  destruct b as [tys a|u a], b' as [tys' a'|u' a']; simpl in Hb; try done. destruct Hb as [-> Ha].
  pose proof (al_visit_user B1 B2 β0 C (A := uid) Req β tys' a a' (fun u _ => ret u) (fun u _ => ret u) Ha) as H.
  feed specialize H; [intros; by apply rel_ret|]. specialize (H s s' Hs).
  destruct (visit_user _ _ a _ s) as [u s1|e s1|f], (visit_user _ _ a' _ s') as [u' s2|e' s2|f']; try done.
  - destruct H as (β'&Hsub&Hs'&Hu). unfold Req in Hu. subst u'. eapply Hkk. split; [done|]. split; [by eapply envrel_sub|].
    split; [by eapply krel_sub|]. done.
  - destruct H as (β'&Hsub&Hs'&Hu). split; [done|]. exists β'. split; [done|]. split; [by eapply envrel_sub|].
    split; [by eapply krel_sub|]. done.
Qed.
Lemma al_loop x y b : x ∈ N -> y ∈ N ->
  (forall β E E' K K' s s', sides β E0 E0' E E' K K' s s' -> presrel E0 E0' (b E K s) (b E' K' s')) ->
  forall k β E E' K K' s s', sides β E0 E0' E E' K K' s s' ->
  presrel E0 E0' (loop C n eqf ltf x y b k E K s) (loop C n eqf ltf x y b k E' K' s').
Proof.
  intros Hx Hy Hb. induction k as [|k IH]; intros β E E' K K' s s' H; simpl; [done|].
  pose proof (al_rexec _ _ _ _ _ (RMain (CEq x y)) _ _ H) as Hr. feed specialize Hr.
  { intros z. simpl. set_solver. }
  pose proof (al_presult _ _ Hr) as Hp.
  destruct (rexec C n eqf ltf (RMain (CEq x y)) E K s) as [E1 K1 o1 s1|f1], (rexec C n eqf ltf (RMain (CEq x y)) E' K' s') as [E2 K2 o2 s2|f2];
    try done. simpl in Hr. destruct Hr as [Ho [β1 H1]].
  destruct o1 as [| | | | | |b1], o2 as [| | | | | |b2]; simpl in Ho; try done. injection Ho as ->. destruct b2; [|done].
  eapply al_and_then; [by eapply Hb|]; intros; by eapply IH.
Qed.
Lemma al_prun p : (forall x, mentions p x -> x ∈ N) -> forall β E E' K K' s s', sides β E0 E0' E E' K K' s s' ->
  presrel E0 E0' (prun C n m eqf ltf p E K s) (prun C n m eqf ltf p E' K' s').
Proof.
  induction p as [|c|c p IHp|p IHp q IHq|p IHp q IHq|x rs ps IH|x ps IH|x y p IHp|]; intros Hn β E E' K K' s s' H; simpl in *.
  - by exists β.
  - apply al_presult. by eapply al_rexec.
  - destruct (rdeclares c) as [x|] eqn:Ec; [|done]. eapply al_and_then.
    { apply al_presult. eapply al_rexec; [done|]. intros. apply Hn. by left. }
    intros. apply al_at_exit; [eapply IHp; [|done]; intros; apply Hn; by right|].
    assert (Hx : x ∈ rnames c).
    { destruct c as [c| | | | |]; simpl in Ec; try done; [destruct c|]; simpl in *; try done; simplify_eq; set_solver. }
    intros z Hz. simpl in Hz. apply elem_of_list_singleton in Hz as ->. apply Hn. by left.
  - eapply al_and_then; [eapply IHp; [|done]; intros; apply Hn; by left|].
    intros. eapply IHq; [|done]. intros; apply Hn; by right.
  - assert (Hp : presrel E0 E0' (prun C n m eqf ltf p E K s) (prun C n m eqf ltf p E' K' s')).
    { eapply IHp; [|done]; intros; apply Hn; by left. }
    destruct (prun C n m eqf ltf p E K s), (prun C n m eqf ltf p E' K' s'); simpl in Hp; try done.
    destruct Hp as [_ [β1 H1]]. eapply IHq; [|done]. intros; apply Hn; by right.
  - eapply al_visited; [done|apply Hn; by left|]. intros u β1 t t' H1. eapply al_and_then.
    { apply al_presult. eapply al_rexec; [done|]. intros z Hz. simpl in Hz. apply elem_of_cons in Hz as [->|Hz]; [apply Hn; by left|].
      apply Hn. right. exists u. by left. }
    intros. apply al_at_exit.
    { eapply IH; [|done]. intros z Hz. apply Hn. right. exists u. by right. }
    intros z Hz. simpl in Hz. apply elem_of_list_singleton in Hz as ->. apply Hn. by left.
  - eapply al_visited; [done|apply Hn; by left|]. intros u β1 t t' H1. eapply IH; [|done]. intros z Hz. apply Hn. right. by exists u.
  - eapply al_loop; [apply Hn; by left|apply Hn; right; by left| |done]. intros. eapply IHp; [|done]. intros; apply Hn; by right; right.
  - done.
Qed.

(** Commands that are executed on the way. *)
Lemma al_issues p E K s c E1 K1 s1 : issues C n m eqf ltf p E K s c E1 K1 s1 ->
  (forall x, mentions p x -> x ∈ N) -> forall β E' K' s', sides β E0 E0' E E' K K' s s' ->
  exists β' E1' K1' s1', issues C n m eqf ltf p E' K' s' c E1' K1' s1' /\ sides β' E0 E0' E1 E1' K1 K1' s1 s1' /\
    forall x, x ∈ rnames c -> x ∈ N.
Proof.
  assert (Hret : forall c E K s E1 K1 s1, presult_of (rexec C n eqf ltf c E K s) = PRet E1 K1 s1 -> (forall x, x ∈ rnames c -> x ∈ N) ->
    forall β E' K' s', sides β E0 E0' E E' K K' s s' -> exists β1 E1' K1' s1',
      presult_of (rexec C n eqf ltf c E' K' s') = PRet E1' K1' s1' /\ sides β1 E0 E0' E1 E1' K1 K1' s1 s1').
  { clear p E K s c E1 K1 s1. intros c E K s E1 K1 s1 Hr Hc β E' K' s' H. pose proof (al_presult _ _ (al_rexec _ _ _ _ _ c _ _ H Hc)) as Hp.
    rewrite Hr in Hp. destruct (presult_of (rexec C n eqf ltf c E' K' s')) as [E1' K1' s1'| | |]; try done.
    destruct Hp as [β1 H1]. by exists β1, E1', K1', s1'. }
  assert (Hrun : forall p E K s, (forall x, mentions p x -> x ∈ N) -> forall β E' K' s', sides β E0 E0' E E' K K' s s' ->
    (forall E1 K1 s1, prun C n m eqf ltf p E K s = PRet E1 K1 s1 -> exists β1 E1' K1' s1',
      prun C n m eqf ltf p E' K' s' = PRet E1' K1' s1' /\ sides β1 E0 E0' E1 E1' K1 K1' s1 s1') /\
    (forall e E1 K1 s1, prun C n m eqf ltf p E K s = PExn e E1 K1 s1 -> exists β1 e' E1' K1' s1',
      prun C n m eqf ltf p E' K' s' = PExn e' E1' K1' s1' /\ sides β1 E0 E0' E1 E1' K1 K1' s1 s1')).
  { clear p E K s c E1 K1 s1. intros p E K s Hp β E' K' s' H. pose proof (al_prun p Hp _ _ _ _ _ _ _ H) as Hr. split.
    - intros E1 K1 s1 Eq. rewrite Eq in Hr. destruct (prun C n m eqf ltf p E' K' s') as [E1' K1' s1'| | |]; try done.
      destruct Hr as [β1 H1]. by exists β1, E1', K1', s1'.
    - intros e E1 K1 s1 Eq. rewrite Eq in Hr. destruct (prun C n m eqf ltf p E' K' s') as [|e' E1' K1' s1'| |]; try done.
      destruct Hr as [_ [β1 H1]]. by exists β1, e', E1', K1', s1'. }
  assert (Hvis : forall x E K s tys a u s0, E !! x = Some (BVar tys a) -> visit_user C tys a (fun u _ => ret u) s = Ok u s0 -> x ∈ N ->
    forall β E' K' s', sides β E0 E0' E E' K K' s s' -> exists β1 a' s0', E' !! x = Some (BVar tys a') /\
      visit_user C tys a' (fun u _ => ret u) s' = Ok u s0' /\ sides β1 E0 E0' E E' K K' s0 s0').
  { clear p E K s c E1 K1 s1. intros x E K s tys a u s0 Hx Hv HxN β E' K' s' (Hs&He&HK&Hk&Ho). pose proof (He x HxN) as Hb. unfold env in *. rewrite Hx in Hb.
    inversion Hb as [b b' Hbb Hb1 Hb2|]; subst. destruct b' as [tys' a'|]; simpl in Hbb; [|done]. destruct Hbb as [<- Ha].
    pose proof (al_visit_user B1 B2 β0 C (A := uid) Req β tys a a' (fun u _ => ret u) (fun u _ => ret u) Ha) as H.
    feed specialize H; [intros; by apply rel_ret|]. specialize (H s s' Hs). rewrite Hv in H.
    destruct (visit_user _ _ a' _ s') as [u' s2|e' s2|f'] eqn:E2; try done. destruct H as (β'&Hsub&Hs'&Hu). unfold Req in Hu. subst u'.
    exists β', a', s2. split; [done|]. split; [done|]. split; [done|]. split; [by eapply envrel_sub|]. split; [by eapply krel_sub|]. done. }
  induction 1; intros Hn β X1 X2 X3 Hside; simpl in *.
  - exists β, X1, X2, X3. split; [constructor|]. done.
  - edestruct Hret as (β1&F1&L1&t1&Hr&Hs1); [done| |done|]; [intros; apply Hn; by left|].
    destruct (IHissues (fun x Hx => Hn x (or_intror Hx)) _ _ _ _ Hs1) as (β2&F2&L2&t2&Hi&Hrest).
    exists β2, F2, L2, t2. split; [|done]. by econstructor.
  - destruct (IHissues (fun x Hx => Hn x (or_introl Hx)) _ _ _ _ Hside) as (β2&F2&L2&t2&Hi&Hrest).
    exists β2, F2, L2, t2. split; [|done]. by econstructor.
  - edestruct (Hrun p E K s) as [Hr _]; [intros; apply Hn; by left|done|].
    edestruct Hr as (β1&F1&L1&t1&Hr1&Hs1); [done|].
    destruct (IHissues (fun x Hx => Hn x (or_intror Hx)) _ _ _ _ Hs1) as (β2&F2&L2&t2&Hi&Hrest).
    exists β2, F2, L2, t2. split; [|done]. by eapply i_seq_r.
  - destruct (IHissues (fun x Hx => Hn x (or_introl Hx)) _ _ _ _ Hside) as (β2&F2&L2&t2&Hi&Hrest).
    exists β2, F2, L2, t2. split; [|done]. by econstructor.
  - edestruct (Hrun p E K s) as [_ Hr]; [intros; apply Hn; by left|done|].
    edestruct Hr as (β1&e1&F1&L1&t1&Hr1&Hs1); [done|].
    destruct (IHissues (fun x Hx => Hn x (or_intror Hx)) _ _ _ _ Hs1) as (β2&F2&L2&t2&Hi&Hrest).
    exists β2, F2, L2, t2. split; [|done]. by eapply i_catch.
  - edestruct Hvis as (β1&a'&t0&Hx'&Hv'&Hs0); [done|done|apply Hn; by left|done|].
    edestruct Hret as (β2&F1&L1&t1&Hr&Hs1); [done| |done|].
    { intros z Hz. simpl in Hz. apply elem_of_cons in Hz as [->|Hz]; apply Hn; [by left|right]. exists u. by left. }
    destruct (IHissues (fun z Hz => Hn z (or_intror (ex_intro _ u (or_intror Hz)))) _ _ _ _ Hs1) as (β3&F2&L2&t2&Hi&Hrest).
    exists β3, F2, L2, t2. split; [|done]. by eapply i_visit.
  - edestruct Hvis as (β1&a'&t0&Hx'&Hv'&Hs0); [done|done|apply Hn; by left|done|].
    destruct (IHissues (fun z Hz => Hn z (or_intror (ex_intro _ u Hz))) _ _ _ _ Hs0) as (β3&F2&L2&t2&Hi&Hrest).
    exists β3, F2, L2, t2. split; [|done]. by eapply i_switch.
  - assert (Hxy : forall z, z ∈ rnames (RMain (CEq x y)) -> z ∈ N).
    { intros z Hz. simpl in Hz. rewrite !elem_of_cons elem_of_nil in Hz. apply Hn. naive_solver. }
    pose proof (al_rexec _ _ _ _ _ _ _ _ Hside Hxy) as Hr. rewrite H in Hr.
    destruct (rexec C n eqf ltf (RMain (CEq x y)) X1 X2 X3) as [F1 L1 o1 t1|] eqn:Er; [|done]. destruct Hr as [Ho [β1 Hs1]].
    destruct o1; simpl in Ho; simplify_eq.
    destruct (IHissues (fun z Hz => Hn z (or_intror (or_intror Hz))) _ _ _ _ Hs1) as (β2&F2&L2&t2&Hi&Hrest).
    exists β2, F2, L2, t2. split; [|done]. by eapply i_while.
  - assert (Hxy : forall z, z ∈ rnames (RMain (CEq x y)) -> z ∈ N).
    { intros z Hz. simpl in Hz. rewrite !elem_of_cons elem_of_nil in Hz. apply Hn. naive_solver. }
    pose proof (al_rexec _ _ _ _ _ _ _ _ Hside Hxy) as Hr. rewrite H in Hr.
    destruct (rexec C n eqf ltf (RMain (CEq x y)) X1 X2 X3) as [F1 L1 o1 t1|] eqn:Er; [|done]. destruct Hr as [Ho [β1 Hs1]].
    destruct o1; simpl in Ho; simplify_eq.
    edestruct (Hrun p E1 K1 s1) as [Hp _]; [intros; apply Hn; by right; right|done|].
    edestruct Hp as (β2&F2&L2&t2&Hr2&Hs2); [done|].
    destruct (IHissues Hn _ _ _ _ Hs2) as (β3&F3&L3&t3&Hi&Hrest).
    exists β3, F3, L3, t3. split; [|done]. by eapply i_again.
Qed.
End runs.
End places.
