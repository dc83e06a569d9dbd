(** recursive_wrapper in reachable states (proofs). *)
From stdpp Require Import gmap.
From iris.proofmode Require Import tactics.
From Verif Require Import Base Types TypesFacts Dispatch DispatchFacts Variant Sem Values ValuesFacts Client Observe ObserveFacts Spec Trace History Owned.
From Verif Require Import Levels HistoryProof Reach ReachFacts Raises ReadOnly CoreFacts LifeFacts OpFacts WrapSpec.

(** ** One owner *)
Section owner.
Context (E : env) (m : gmap loc cell) (Hl : linked E m).

Lemma linked_nodup : NoDup ((map (fun p => root p.2) (map_to_list E)) ++ concat (map (fun p => pointers (cc p.2)) (map_to_list m))).
Proof. rewrite -Hl. apply NoDup_fst_map_to_list. Qed.

Lemma concat_one {A B} (f : A -> list B) (l : list A) x y p : NoDup (concat (map f l)) ->
  x ∈ l -> y ∈ l -> p ∈ f x -> p ∈ f y -> x = y.
Proof.
  induction l as [|a l IH]; simpl; [intros _ H; by apply elem_of_nil in H|].
  intros (H1&H2&H3)%NoDup_app [-> |Hx]%elem_of_cons [-> |Hy]%elem_of_cons Hpx Hpy; [done|..].
  - exfalso. apply (H2 _ Hpx). apply elem_of_list_In, in_concat. exists (f y). split; [|by apply elem_of_list_In].
    apply in_map. by apply elem_of_list_In.
  - exfalso. apply (H2 _ Hpy). apply elem_of_list_In, in_concat. exists (f x). split; [|by apply elem_of_list_In].
    apply in_map. by apply elem_of_list_In.
  - by apply IH.
Qed.

Lemma one_owner l c l' c' p : m !! l = Some c -> m !! l' = Some c' -> p ∈ pointers (cc c) -> p ∈ pointers (cc c') -> l = l'.
Proof.
  intros Hc Hc' Hp Hp'. pose proof linked_nodup as (_&_&Hn)%NoDup_app.
  pose proof (concat_one (fun p : loc * cell => pointers (cc p.2)) _ (l, c) (l', c') p Hn) as H.
  assert ((l, c) = (l', c')) as [=]; [|done]. apply H; [by apply elem_of_map_to_list..|done|done].
Qed.
Lemma not_root l c p x b : m !! l = Some c -> p ∈ pointers (cc c) -> E !! x = Some b -> root b <> p.
Proof.
  intros Hc Hp Hx <-. pose proof linked_nodup as (_&Hn&_)%NoDup_app. apply (Hn (root b)).
  - apply elem_of_list_In, in_map_iff. exists (x, b). split; [done|]. apply elem_of_list_In. by apply elem_of_map_to_list.
  - apply elem_of_list_In, in_concat. exists (pointers (cc c)). split; [|by apply elem_of_list_In].
    apply in_map_iff. exists (l, c). split; [done|]. apply elem_of_list_In. by apply elem_of_map_to_list.
Qed.
Lemma roots_differ x y b c : x <> y -> E !! x = Some b -> E !! y = Some c -> root b <> root c.
Proof.
  intros Hne Hx Hy Heq. pose proof linked_nodup as (Hn&_&_)%NoDup_app. apply Hne.
  assert (forall l : list (name * bnd), NoDup (map (fun p => root p.2) l) -> (x, b) ∈ l -> (y, c) ∈ l -> (x, b) = (y, c)) as Hall.
  { induction l as [|a l IH]; simpl; [intros _ H; by apply elem_of_nil in H|].
    intros [Hi Hd]%NoDup_cons [<- |H1]%elem_of_cons [He|H2]%elem_of_cons; [done|..].
    - exfalso. apply Hi. apply elem_of_list_In, in_map_iff. exists (y, c). split; [done|]. by apply elem_of_list_In.
    - exfalso. apply Hi. rewrite -He. apply elem_of_list_In, in_map_iff. exists (x, b). split; [done|]. by apply elem_of_list_In.
    - by apply IH. }
  assert ((x, b) = (y, c)) as [=]; [|done]. apply (Hall _ Hn); by apply elem_of_map_to_list.
Qed.
End owner.

Section facts.
Context (C : cfg) (st nb : bool) (eqf ltf : uid -> uval -> uval -> bool).
Context (HC : good_env C st nb).
Notation reached := (reached C st nb eqf ltf).
Notation step := (step C st nb eqf ltf).
Notation sees := (sees C).

Lemma wrapper_owns E s l u p : reached E s -> wrapper_at s l u p ->
  (exists z ls, mem s !! p = Some (Cell KHeap (Some (OUser u z ls)) None)) /\
  (forall l' c, mem s !! l' = Some c -> p ∈ pointers (cc c) -> l' = l) /\
  (forall x b, E !! x = Some b -> root b <> p).
Proof.
  intros Hr (kd&w&Hm). pose proof (reached_linked _ _ _ _ _ HC _ _ Hr) as Hl.
  assert (Hp : p ∈ pointers (cc (Cell kd (Some (OWrap u p)) w))) by (simpl; by apply elem_of_list_singleton).
  split; [|split].
  - destruct (reached_cells _ _ _ _ _ HC _ _ _ _ Hr Hm) as (o&Ho&Ht). destruct o; try done. simpl in Ht. injection Ht as ->.
    by eexists _, _.
  - intros l' c Hc Hp'. by eapply one_owner.
  - intros x b Hx. by eapply not_root.
Qed.

Lemma wrapper_content E s x tys k u : reached E s -> sees E s x tys k -> tys !! k.1.2 = Some (IWrap u) ->
  exists p, wraps E s x u p /\ value_at C s p u k.2.
Proof.
  intros Hr (a&Hx&n&Hs) Ht. unfold see_var in Hs.
  destruct (mem s !! a) as [[[] [o|] [w|]]|] eqn:Hm; try done.
  set (i := Z.to_nat _) in Hs. destruct (tys !! i) as [t|] eqn:Hi in Hs; [|done].
  destruct (bool_decide (w < 0)%Z).
  - destruct o as [| |t' [q|]| |]; try done. destruct (decide (t' = t)) as [->|]; [|done].
    unfold heap_obj in Hs. destruct (mem s !! q) as [[[] [o|] [?|]]|] eqn:Hq; try done.
    destruct (content (mem s) t o) as [o2|] eqn:Ho2; [|done].
    destruct (see_obj C (mem s) n (ity_uid t) o2) as [v|] eqn:Hv; [|done]. injection Hs as <-. simpl in Ht.
    rewrite Hi in Ht. injection Ht as ->. simpl in Ho2. destruct o as [|u' p| | |]; try done.
    destruct (decide (u' = u)) as [->|]; [|done]. unfold heap_obj in Ho2.
    destruct (mem s !! p) as [[[] [o|] [?|]]|] eqn:Hp; try done. injection Ho2 as ->.
    exists p. split.
    + exists tys, a. split; [done|]. right. exists (Some w), q. split; [done|]. by exists KHeap, None.
    + eexists _, o2, n. split; [exact Hp|done].
  - destruct (content (mem s) t o) as [o2|] eqn:Ho2; [|done].
    destruct (see_obj C (mem s) n (ity_uid t) o2) as [v|] eqn:Hv; [|done]. injection Hs as <-. simpl in Ht.
    rewrite Hi in Ht. injection Ht as ->. simpl in Ho2. destruct o as [|u' p| | |]; try done.
    destruct (decide (u' = u)) as [->|]; [|done]. unfold heap_obj in Ho2.
    destruct (mem s !! p) as [[[] [o|] [?|]]|] eqn:Hp; try done. injection Ho2 as ->.
    exists p. split.
    + exists tys, a. split; [done|]. left. by exists KVar, (Some w).
    + eexists _, o2, n. split; [exact Hp|done].
Qed.

Lemma wraps_differ E s x y u u' p p' : reached E s -> x <> y -> wraps E s x u p -> wraps E s y u' p' -> p <> p'.
Proof.
  intros Hr Hne (tys&a&Hx&Ha) (tys'&b&Hy&Hb) <-. pose proof (reached_linked _ _ _ _ _ HC _ _ Hr) as Hl.
  assert (Hab : a <> b) by exact (roots_differ _ _ Hl _ _ _ _ Hne Hx Hy).
  assert (forall l u, wrapper_at s l u p -> exists c, mem s !! l = Some c /\ p ∈ pointers (cc c)) as Hw.
  { intros l u0 (kd&w&Hm). eexists. split; [exact Hm|]. simpl. by apply elem_of_list_singleton. }
  assert (forall l l' u u', wrapper_at s l u p -> wrapper_at s l' u' p -> l = l') as Hone.
  { intros l l' u0 u0' (c&Hc&Hp)%Hw (c'&Hc'&Hp')%Hw. by eapply one_owner. }
  destruct Ha as [Ha|(w&q&Ha&Hq)], Hb as [Hb|(w'&q'&Hb&Hq')].
  - by apply Hab, (Hone a b u u').
  - pose proof (Hone _ _ _ _ Ha Hq') as ->. eapply (not_root _ _ Hl b _ q' x); [exact Hb|simpl; by apply elem_of_list_singleton|done|done].
  - pose proof (Hone _ _ _ _ Hb Hq) as ->. eapply (not_root _ _ Hl a _ q y); [exact Ha|simpl; by apply elem_of_list_singleton|done|done].
  - pose proof (Hone _ _ _ _ Hq Hq') as ->. apply Hab.
    eapply (one_owner _ _ Hl a _ b _ q'); [done..| |]; simpl; by apply elem_of_list_singleton.
Qed.

Lemma step_reached c E s E' o s' : step c E s E' o s' -> reached E' s'.
Proof. intros [(orc&h&Hh) [Ha Hy]]. exists orc, (h ++ [c]). by eapply history_step. Qed.

Lemma fresh_name x y E s E' o s' : step (CCopy x y) E s E' o s' \/ step (CMove x y) E s E' o s' -> x <> y.
Proof.
  intros Hs ->. assert (exists σ, σ !! y = None /\ exists tys k, is_var σ y tys k) as (σ&Hn&tys&k&Hk).
  { destruct Hs as [[_ [(D&σ&_&Ht&_) _]]|[_ [(D&σ&_&Ht&_) _]]]; destruct Ht as [Ht1 Ht2]; by exists σ. }
  unfold is_var in Hk. congruence.
Qed.

Lemma copy_deep x y E s E' s' tys k u : step (CCopy x y) E s E' ODone s' -> sees E s y tys k -> tys !! k.1.2 = Some (IWrap u) ->
  exists p p', wraps E' s' y u p /\ value_at C s' p u k.2 /\ wraps E' s' x u p' /\ value_at C s' p' u (erase k.2) /\ p <> p'.
Proof.
  intros Hs Hk Ht. pose proof (step_reached _ _ _ _ _ _ Hs) as Hr'. pose proof (fresh_name _ _ _ _ _ _ _ (or_introl Hs)) as Hne.
  destruct (copy_done _ _ _ _ _ HC _ _ _ _ _ _ _ _ Hs Hk) as [Hx Hy].
  destruct (wrapper_content _ _ _ _ _ _ Hr' Hy Ht) as (p&Hp&Hv).
  destruct (wrapper_content _ _ _ _ (erasev k) _ Hr' Hx Ht) as (p'&Hp'&Hv').
  exists p, p'. split_and!; try done. by eapply (wraps_differ _ _ y x).
Qed.
Lemma move_keeps x y E s E' s' tys k u : step (CMove x y) E s E' ODone s' -> sees E s y tys k -> tys !! k.1.2 = Some (IWrap u) ->
  exists p p' v', wraps E' s' y u p /\ value_at C s' p u v' /\ skel v' = skel k.2 /\
    wraps E' s' x u p' /\ value_at C s' p' u (erase k.2) /\ p <> p'.
Proof.
  intros Hs Hk Ht. pose proof (step_reached _ _ _ _ _ _ Hs) as Hr'. pose proof (fresh_name _ _ _ _ _ _ _ (or_intror Hs)) as Hne.
  destruct (move_done _ _ _ _ _ HC _ _ _ _ _ _ _ _ Hs Hk) as (Hx&v'&Hy&Hsk).
  destruct (wrapper_content _ _ _ _ (k.1, v') _ Hr' Hy Ht) as (p&Hp&Hv).
  destruct (wrapper_content _ _ _ _ (erasev k) _ Hr' Hx Ht) as (p'&Hp'&Hv').
  exists p, p', v'. split_and!; try done. by eapply (wraps_differ _ _ y x).
Qed.
Lemma assign_deep x y E s E' s' tys k u : x <> y -> step (CAssign x y) E s E' ODone s' -> sees E s y tys k -> tys !! k.1.2 = Some (IWrap u) ->
  exists p p', wraps E' s' y u p /\ value_at C s' p u k.2 /\ wraps E' s' x u p' /\ value_at C s' p' u k.2 /\ p <> p'.
Proof.
  intros Hne Hs Hk Ht. pose proof (step_reached _ _ _ _ _ _ Hs) as Hr'.
  destruct (assign_done _ _ _ _ _ HC _ _ _ _ _ _ _ _ Hs Hk) as [Hx Hy].
  destruct (wrapper_content _ _ _ _ _ _ Hr' Hy Ht) as (p&Hp&Hv).
  destruct (wrapper_content _ _ _ _ _ _ Hr' Hx Ht) as (p'&Hp'&Hv').
  exists p, p'. split_and!; try done. by eapply (wraps_differ _ _ y x).
Qed.

(** ** Move assignment, exactly *)
Lemma see_wrapped E s x tys i v u : sees E s x tys (false, i, v) -> tys !! i = Some (IWrap u) ->
  exists a p, E !! x = Some (BVar tys a) /\ mem s !! a = Some (Cell KVar (Some (OWrap u p)) (Some (Z.of_nat i))).
Proof.
  intros (a&Hx&n&Hs) Ht. unfold see_var in Hs.
  destruct (mem s !! a) as [[[] [o|] [w|]]|] eqn:Hm; try done.
  destruct (bool_decide (w < 0)%Z) eqn:Hw; destruct (tys !! _) as [t|] eqn:Hi in Hs; try done.
  { destruct o as [| |t' [q|]| |]; try done. destruct (decide (t' = t)) as [->|]; [|done].
    destruct (heap_obj _ _); [|done]. destruct (content _ _ _); [|done]. by destruct (see_obj _ _ _ _ _). }
  destruct (content (mem s) t o) as [o2|] eqn:Ho2; [|done].
  destruct (see_obj C (mem s) n (ity_uid t) o2) as [v'|] eqn:Hv; [|done]. injection Hs as <- <-.
  rewrite Hi in Ht. injection Ht as ->. simpl in Ho2. destruct o as [|u' p| | |]; try done.
  destruct (decide (u' = u)) as [->|]; [|done].
  exists a, p. split; [done|]. apply bool_decide_eq_false in Hw. rewrite Z2Nat.id; [done|lia].
Qed.

Lemma massign_swaps x y E s tys i v1 v2 u : reached E s -> x <> y ->
  sees E s x tys (false, i, v1) -> sees E s y tys (false, i, v2) -> tys !! i = Some (IWrap u) ->
  exists a b ca cb p q s', E !! x = Some (BVar tys a) /\ E !! y = Some (BVar tys b) /\
    mem s !! a = Some ca /\ cc ca = Some (OWrap u p) /\ mem s !! b = Some cb /\ cc cb = Some (OWrap u q) /\
    (forall n, exec C n eqf ltf (CMoveAssign x y) E s = Done E ODone s') /\
    s' = set_mem (<[a := repoint u q ca]> (<[b := repoint u p cb]> (mem s))) s.
Proof.
  intros Hr Hne Hk1 Hk2 Ht. destruct (see_wrapped _ _ _ _ _ _ _ Hk1 Ht) as (a&p&Hx&Ha).
  destruct (see_wrapped _ _ _ _ _ _ _ Hk2 Ht) as (b&q&Hy&Hb).
  assert (Hab : a <> b) by exact (roots_differ _ _ (reached_linked _ _ _ _ _ HC _ _ Hr) _ _ _ _ Hne Hx Hy).
  eexists a, b, _, _, p, q, _. split_and!; [done..| |reflexivity].
  intros n. unfold exec, op, need_var, bind, ret. rewrite Hx Hy. simpl.
  unfold var_massign, noexcept_if.
  assert (Hv : variant_massign C (sem C n) tys a b s =
    Ok tt (set_mem (<[a := Cell KVar (Some (OWrap u q)) (Some (Z.of_nat i))]>
                   (<[b := Cell KVar (Some (OWrap u p)) (Some (Z.of_nat i))]> (mem s))) s)).
  { unfold variant_massign, visit, read_which, get_cell, bind, ret. rewrite Ha /= Hb /=. rewrite decide_True //.
    rewrite Ha /=. unfold which_of. rewrite decide_False; [|lia].
    rewrite (visitation_lookup _ _ i (IWrap u)); [|apply (ge_lim _ _ _ HC)|done].
    assert (Hm : move_storage (sem C n) b (SInt (IWrap u)) a s =
      Ok tt (set_mem (<[a := Cell KVar (Some (OWrap u q)) (Some (Z.of_nat i))]>
                     (<[b := Cell KVar (Some (OWrap u p)) (Some (Z.of_nat i))]> (mem s))) s)).
    { unfold move_storage, i_massign, noexcept, wrap_ptr, get_obj, get_cell, modify_obj, bind, ret.
      rewrite Hb /= decide_True // Ha /= decide_True // Hb /= (decide_True (P := TWrap u = TWrap u)) //=. rewrite lookup_insert_ne // Ha /= decide_True //. }
    destruct (never_uses_backup C tys (IWrap u)); [done|]. rewrite decide_True; [done|lia]. }
  destruct (_ && _); unfold noexcept; rewrite Hv //.
Qed.
End facts.
