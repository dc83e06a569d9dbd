(** Computations do not depend on addresses (proofs): runs from states that differ in their
    addresses, and in memory that is not reached, stay alike. *)
From Coq.ssr Require Import ssreflect.
From Coq Require Import ZArith Lia.
From iris.prelude Require Import prelude.
From stdpp Require Import gmap list numbers.
From Verif Require Import Base Types Dispatch Variant Sem Values Client Reach HistoryProof.

Definition ren := loc -> loc -> Prop.
Definition sub (β β' : ren) : Prop := forall l l', β l l' -> β' l l'.
Definition oto (β : ren) : Prop := forall l1 l2 l1' l2', β l1 l2 -> β l1' l2' -> (l1 = l1' <-> l2 = l2').

Lemma sub_refl β : sub β β. Proof. by intros l l'. Qed.
Lemma sub_trans β β' β'' : sub β β' -> sub β' β'' -> sub β β''.
Proof. unfold sub. auto. Qed.

Inductive orel (β : ren) : obj -> obj -> Prop :=
  | or_user u z ks ks' : Forall2 β ks ks' -> orel β (OUser u z ks) (OUser u z ks')
  | or_wrap u p p' : β p p' -> orel β (OWrap u p) (OWrap u p')
  | or_backup t p p' : option_Forall2 β p p' -> orel β (OBackup t p) (OBackup t p')
  | or_iter i : orel β (OIter i) (OIter i)
  | or_ref u p p' : β p p' -> orel β (ORef u p) (ORef u p').

Record crel (β : ren) (c c' : cell) : Prop := CRel {
  cr_k : ck c = ck c';
  cr_c : option_Forall2 (orel β) (cc c) (cc c');
  cr_w : cw c = cw c'
}.

Inductive erel (β : ren) : event -> event -> Prop :=
  | er_c t l l' : β l l' -> erel β (EvC t l) (EvC t l')
  | er_d t l l' : β l l' -> erel β (EvD t l) (EvD t l')
  | er_new p l l' : β l l' -> erel β (EvNew p l) (EvNew p l')
  | er_del l l' : β l l' -> erel β (EvDel l) (EvDel l').

Lemma Forall2_sub β β' ls ls' : sub β β' -> Forall2 β ls ls' -> Forall2 β' ls ls'.
Proof. intros H. induction 1; constructor; eauto. Qed.
Lemma opt_sub β β' p p' : sub β β' -> option_Forall2 β p p' -> option_Forall2 β' p p'.
Proof. intros H. destruct 1; constructor; eauto. Qed.
Lemma orel_sub β β' o o' : sub β β' -> orel β o o' -> orel β' o o'.
Proof. intros H. destruct 1; constructor; eauto using Forall2_sub, opt_sub. Qed.
Lemma crel_sub β β' c c' : sub β β' -> crel β c c' -> crel β' c c'.
Proof. intros H [? Hc ?]. split; [done| |done]. destruct Hc; constructor; eauto using orel_sub. Qed.
Lemma erel_sub β β' e e' : sub β β' -> erel β e e' -> erel β' e e'.
Proof. intros H. destruct 1; constructor; eauto. Qed.
Lemma orel_tag β o o' : orel β o o' -> tag_of o = tag_of o'.
Proof. by destruct 1. Qed.

Section alike.
(** The two states from which the runs start, and how their addresses correspond. *)
Context (B1 B2 : state) (β0 : ren).

Inductive xrel : exn -> exn -> Prop :=
  | xr_user k u j : xrel (XUser k u (opos B1 + j)) (XUser k u (opos B2 + j))
  | xr_alloc j : xrel (XAlloc (opos B1 + j)) (XAlloc (opos B2 + j))
  | xr_get : xrel XBadGet XBadGet
  | xr_visit : xrel XBadVisit XBadVisit.

Record srel (β : ren) (s1 s2 : state) : Prop := SRel {
  sr_oto : oto β;
  sr_low l1 l2 : β l1 l2 -> (l1 < nxt s1)%positive /\ (l2 < nxt s2)%positive;
  sr_mem l1 l2 : β l1 l2 -> option_Forall2 (crel β) (mem s1 !! l1) (mem s2 !! l2);
  sr_new l1 l2 : β l1 l2 -> β0 l1 l2 \/ (nxt B1 <= l1)%positive /\ (nxt B2 <= l2)%positive;
  sr_old l1 l2 : β0 l1 l2 -> β l1 l2;
  sr_nxt : (nxt B1 <= nxt s1)%positive /\ (nxt B2 <= nxt s2)%positive;
  sr_out1 l : (forall l', ~ β l l') -> mem s1 !! l = mem B1 !! l;
  sr_out2 l : (forall l', ~ β l' l) -> mem s2 !! l = mem B2 !! l;
  sr_luck k : orc s1 (opos s1 + k) = orc s2 (opos s2 + k);
  sr_pos : exists j, opos s1 = opos B1 + j /\ opos s2 = opos B2 + j;
  sr_tr : exists t1 t2, tr s1 = t1 ++ tr B1 /\ tr s2 = t2 ++ tr B2 /\ Forall2 (erel β) t1 t2;
  sr_thrown : exists t1 t2, thrown s1 = t1 ++ thrown B1 /\ thrown s2 = t2 ++ thrown B2 /\ Forall2 xrel t1 t2;
  sr_ind : exists i, ind s1 = i || ind B1 /\ ind s2 = i || ind B2
}.

Definition rel {A} (R : A -> A -> ren -> Prop) (β : ren) (m1 m2 : M A) : Prop :=
  forall s1 s2, srel β s1 s2 ->
  match m1 s1, m2 s2 with
  | Ok a1 s1', Ok a2 s2' => exists β', sub β β' /\ srel β' s1' s2' /\ R a1 a2 β'
  | Exn e1 s1', Exn e2 s2' => exists β', sub β β' /\ srel β' s1' s2' /\ xrel e1 e2
  | Fault f1, Fault f2 => f1 = f2
  | _, _ => False
  end.

(** What results have to do with each other. *)
Definition Req {A} (a a' : A) (β : ren) : Prop := a = a'.
Definition Rl (l l' : loc) (β : ren) : Prop := β l l'.
Definition Rls (l l' : list loc) (β : ren) : Prop := Forall2 β l l'.
Definition Rol (l l' : option loc) (β : ren) : Prop := option_Forall2 β l l'.
Definition Ro (o o' : obj) (β : ren) : Prop := orel β o o'.
Definition Rc (o o' : cell) (β : ren) : Prop := crel β o o'.
Definition Rzl (p p' : option Z * list loc) (β : ren) : Prop := p.1 = p'.1 /\ Forall2 β p.2 p'.2.
Definition Rtl (p p' : list ity * loc) (β : ren) : Prop := p.1 = p'.1 /\ β p.2 p'.2.
Definition Rul (p p' : uid * loc) (β : ren) : Prop := p.1 = p'.1 /\ β p.2 p'.2.

Lemma rel_ret {A} (R : A -> A -> ren -> Prop) β a a' : R a a' β -> rel R β (ret a) (ret a').
Proof. intros H s1 s2 Hs. simpl. exists β. split; [apply sub_refl|done]. Qed.
Lemma rel_bind {A B} (R1 : A -> A -> ren -> Prop) (R : B -> B -> ren -> Prop) β m m' f f' :
  rel R1 β m m' ->
  (forall β' a a', sub β β' -> R1 a a' β' -> rel R β' (f a) (f' a')) ->
  rel R β (bind m f) (bind m' f').
Proof.
  intros Hm Hf s1 s2 Hs. unfold bind. specialize (Hm _ _ Hs).
  destruct (m s1) as [a s1'|e s1'|x], (m' s2) as [a' s2'|e' s2'|x']; try done.
  destruct Hm as (β'&Hsub&Hs'&HR). specialize (Hf _ _ _ Hsub HR _ _ Hs').
  destruct (f a s1') as [b t1|e t1|x], (f' a' s2') as [b' t2|e' t2|x']; try done;
    destruct Hf as (β''&?&?&?); exists β''; eauto using sub_trans.
Qed.
Lemma rel_faulty {A} (R : A -> A -> ren -> Prop) β f : rel R β (faulty f) (faulty f).
Proof. intros s1 s2 Hs. done. Qed.
Lemma rel_on_exn {A} (R : A -> A -> ren -> Prop) β m m' h h' :
  rel R β m m' -> (forall β', sub β β' -> rel Req β' h h') -> rel R β (on_exn m h) (on_exn m' h').
Proof.
  intros Hm Hf s1 s2 Hs. unfold on_exn. specialize (Hm _ _ Hs).
  destruct (m s1) as [a s1'|e s1'|x], (m' s2) as [a' s2'|e' s2'|x']; try done.
  destruct Hm as (β'&Hsub&Hs'&HR). specialize (Hf _ Hsub _ _ Hs').
  destruct (h s1') as [b t1|e1 t1|x], (h' s2') as [b' t2|e2 t2|x']; try done;
    destruct Hf as (β''&?&?&?); exists β''; eauto using sub_trans.
Qed.
Lemma rel_finally {A} β (m m' : M A) h h' :
  rel Req β m m' -> (forall β', sub β β' -> rel Req β' h h') -> rel Req β (finally m h) (finally m' h').
Proof.
  intros Hm Hf s1 s2 Hs. unfold finally. specialize (Hm _ _ Hs).
  destruct (m s1) as [a s1'|e s1'|x], (m' s2) as [a' s2'|e' s2'|x']; try done;
  destruct Hm as (β'&Hsub&Hs'&HR); specialize (Hf _ Hsub _ _ Hs');
  destruct (h s1') as [b t1|e1 t1|x], (h' s2') as [b' t2|e2 t2|x']; try done;
    destruct Hf as (β''&?&?&?); exists β''; eauto using sub_trans.
Qed.
Lemma rel_noexcept {A} (R : A -> A -> ren -> Prop) β m m' : rel R β m m' -> rel R β (noexcept m) (noexcept m').
Proof.
  intros Hm s1 s2 Hs. unfold noexcept. specialize (Hm _ _ Hs).
  by destruct (m s1) as [a s1'|e s1'|x], (m' s2) as [a' s2'|e' s2'|x'].
Qed.
Lemma rel_noexcept_if {A} (R : A -> A -> ren -> Prop) β b m m' :
  rel R β m m' -> rel R β (noexcept_if b m) (noexcept_if b m').
Proof. destruct b; [apply rel_noexcept|done]. Qed.

(** ** Changes of the state *)
Lemma srel_alter (β : ren) s1 s2 l1 l2 c1 c2 : srel β s1 s2 -> β l1 l2 -> option_Forall2 (crel β) c1 c2 ->
  srel β (set_mem (partial_alter (fun _ => c1) l1 (mem s1)) s1)
         (set_mem (partial_alter (fun _ => c2) l2 (mem s2)) s2).
Proof.
  intros [] Hl Hc. split; simpl; try done.
  - intros l l' Hll. destruct (decide (l = l1)) as [->|Hne].
    + assert (l' = l2) as -> by (by apply (sr_oto0 l1 l' l1 l2)). by rewrite !lookup_partial_alter.
    + assert (l' <> l2). { intros ->. apply Hne. by apply (sr_oto0 l l2 l1 l2). }
      rewrite !lookup_partial_alter_ne //. by apply sr_mem0.
  - intros l Hm. destruct (decide (l = l1)) as [->|Hne]; [by destruct (Hm l2)|].
    rewrite lookup_partial_alter_ne //. by apply sr_out3.
  - intros l Hm. destruct (decide (l = l2)) as [->|Hne]; [by destruct (Hm l1)|].
    rewrite lookup_partial_alter_ne //. by apply sr_out4.
Qed.
Lemma srel_insert (β : ren) s1 s2 l1 l2 c1 c2 : srel β s1 s2 -> β l1 l2 -> crel β c1 c2 ->
  srel β (set_mem (<[l1 := c1]> (mem s1)) s1) (set_mem (<[l2 := c2]> (mem s2)) s2).
Proof. intros. apply (srel_alter β s1 s2 l1 l2 (Some c1) (Some c2)); [done..|by constructor]. Qed.
Lemma srel_delete (β : ren) s1 s2 l1 l2 : srel β s1 s2 -> β l1 l2 ->
  srel β (set_mem (delete l1 (mem s1)) s1) (set_mem (delete l2 (mem s2)) s2).
Proof. intros. apply (srel_alter β s1 s2 l1 l2 None None); [done..|by constructor]. Qed.
Lemma srel_log (β : ren) s1 s2 e1 e2 : srel β s1 s2 -> erel β e1 e2 -> srel β (log e1 s1) (log e2 s2).
Proof.
  intros [] He. split; simpl; try done. destruct sr_tr0 as (t1&t2&->&->&?).
  exists (e1 :: t1), (e2 :: t2). split; [done|]. split; [done|]. by constructor.
Qed.
Definition spend (s : state) : state :=
  {| mem := mem s; nxt := nxt s; tr := tr s; thrown := thrown s; orc := orc s; opos := S (opos s); ind := ind s |}.
Lemma srel_spend (β : ren) s1 s2 : srel β s1 s2 -> srel β (spend s1) (spend s2).
Proof.
  intros []. split; simpl; try done.
  - intros k. specialize (sr_luck0 (S k)). by rewrite !Nat.add_succ_r in sr_luck0.
  - destruct sr_pos0 as (j&->&->). exists (S j). lia.
Qed.
Lemma srel_throw (β : ren) s1 s2 e1 e2 {A} : srel β s1 s2 -> xrel e1 e2 ->
  match @throw A e1 s1, @throw A e2 s2 with
  | Exn e1' s1', Exn e2' s2' => e1' = e1 /\ e2' = e2 /\ srel β s1' s2'
  | _, _ => False
  end.
Proof.
  intros [] He. simpl. do 2 split; [done|]. split; simpl; try done. destruct sr_thrown0 as (t1&t2&->&->&?).
  exists (e1 :: t1), (e2 :: t2). split; [done|]. split; [done|]. by constructor.
Qed.
Definition grow (β : ren) (a b : loc) : ren := fun l l' => β l l' \/ l = a /\ l' = b.
Lemma grow_sub β a b : sub β (grow β a b). Proof. intros l l' H. by left. Qed.
Lemma grow_new β a b : grow β a b a b. Proof. by right. Qed.
Definition fresh_cell (k : ckind) (s : state) : state :=
  {| mem := <[nxt s := Cell k None None]> (mem s); nxt := Pos.succ (nxt s);
     tr := tr s; thrown := thrown s; orc := orc s; opos := opos s; ind := ind s |}.
Lemma srel_fresh (β : ren) s1 s2 k : srel β s1 s2 -> srel (grow β (nxt s1) (nxt s2)) (fresh_cell k s1) (fresh_cell k s2).
Proof.
  intros []. split; simpl; try done.
  - intros l1 l2 l1' l2' [H|[-> ->]] [H'|[-> ->]]; [by apply sr_oto0| | |done].
    + destruct (sr_low0 _ _ H). split; intros; subst; lia.
    + destruct (sr_low0 _ _ H'). split; intros; subst; lia.
  - intros l1 l2 [H|[-> ->]]; [destruct (sr_low0 _ _ H)|]; lia.
  - intros l1 l2 [H|[-> ->]].
    + destruct (sr_low0 _ _ H). rewrite !lookup_insert_ne; [|intros <-; lia..].
      destruct (sr_mem0 _ _ H); constructor. eapply crel_sub; [apply grow_sub|done].
    + rewrite !lookup_insert. constructor. split; [done|constructor|done].
  - intros l1 l2 [H|[-> ->]]; [by apply sr_new0|]. by right.
  - intros l1 l2 H. left. by apply sr_old0.
  - lia.
  - intros l H. destruct (decide (l = nxt s1)) as [->|Hne]; [destruct (H (nxt s2)); apply grow_new|].
    rewrite lookup_insert_ne //. apply sr_out3. intros l' Hl. apply (H l'). by left.
  - intros l H. destruct (decide (l = nxt s2)) as [->|Hne]; [destruct (H (nxt s1)); apply grow_new|].
    rewrite lookup_insert_ne //. apply sr_out4. intros l' Hl. apply (H l'). by left.
  - destruct sr_tr0 as (t1&t2&->&->&Ht). exists t1, t2. split; [done|]. split; [done|].
    eapply Forall2_impl; [exact Ht|]. intros ??. apply erel_sub, grow_sub.
Qed.

(** ** Primitives *)
Lemma rel_throw {A} (R : A -> A -> ren -> Prop) β e : xrel e e -> rel R β (throw e) (throw e).
Proof.
  intros He s1 s2 Hs. pose proof (srel_throw β s1 s2 e e (A := A) Hs He) as H. simpl in *.
  destruct H as (_&_&H). exists β. split; [apply sub_refl|done].
Qed.
Lemma rel_choose (β : ren) : rel Req β choose choose.
Proof.
  intros s1 s2 Hs. simpl. exists β. split; [apply sub_refl|]. split; [by apply (srel_spend β s1 s2)|].
  pose proof (sr_luck _ _ _ Hs 0) as H. by rewrite !Nat.add_0_r in H.
Qed.
Lemma rel_note_read (β : ren) v : rel Req β (note_read v) (note_read v).
Proof.
  intros s1 s2 Hs. simpl. exists β. split; [apply sub_refl|]. split; [|done].
  destruct Hs. split; simpl; try done. destruct v; [done|]. exists true. done.
Qed.
Lemma rel_maybe_throw (β : ren) k u b : rel Req β (maybe_throw k u b) (maybe_throw k u b).
Proof.
  intros s1 s2 Hs. unfold maybe_throw. destruct b.
  { exists β. split; [apply sub_refl|done]. }
  simpl. pose proof (sr_luck _ _ _ Hs 0) as H. rewrite !Nat.add_0_r in H. rewrite -H.
  destruct (decide _).
  - exists β. split; [apply sub_refl|]. split; [by apply (srel_spend β s1 s2)|done].
  - destruct (sr_pos _ _ _ Hs) as (j&H1&H2).
    assert (Hx : xrel (XUser k u (opos s1)) (XUser k u (opos s2))) by (rewrite H1 H2; constructor).
    destruct (srel_throw β _ _ _ _ (A := unit) (srel_spend β s1 s2 Hs) Hx) as (_&_&Hs').
    exists β. split; [apply sub_refl|]. done.
Qed.
Lemma rel_get_cell (β : ren) l l' : β l l' -> rel Rc β (get_cell l) (get_cell l').
Proof.
  intros Hl s1 s2 Hs. unfold get_cell. destruct (sr_mem _ _ _ Hs _ _ Hl); [|done].
  exists β. split; [apply sub_refl|done].
Qed.
Lemma rel_put_cell (β : ren) l l' c c' : β l l' -> crel β c c' -> rel Req β (put_cell l c) (put_cell l' c').
Proof.
  intros Hl Hc s1 s2 Hs. unfold put_cell. destruct (sr_mem _ _ _ Hs _ _ Hl); [|done].
  exists β. split; [apply sub_refl|]. split; [by apply srel_insert|done].
Qed.
Lemma rel_get_obj (β : ren) l l' : β l l' -> rel Ro β (get_obj l) (get_obj l').
Proof.
  intros Hl. unfold get_obj. eapply rel_bind; [by apply rel_get_cell|]. intros β' c c' Hsub [_ Hc _].
  destruct Hc; [by apply rel_ret|apply rel_faulty].
Qed.
Lemma rel_construct (β : ren) l l' o o' : β l l' -> orel β o o' -> rel Req β (construct l o) (construct l' o').
Proof.
  intros Hl Ho s1 s2 Hs. unfold construct. destruct (sr_mem _ _ _ Hs _ _ Hl) as [c c' [Hk Hc Hw]|]; [|done].
  destruct Hc; [done|]. exists β. split; [apply sub_refl|]. split; [|done].
  rewrite (orel_tag _ _ _ Ho). apply srel_log; [|by constructor]. apply srel_insert; [done..|].
  split; simpl; [done|by constructor|done].
Qed.
Lemma rel_destruct_obj (β : ren) l l' : β l l' -> rel Req β (destruct_obj l) (destruct_obj l').
Proof.
  intros Hl s1 s2 Hs. unfold destruct_obj. destruct (sr_mem _ _ _ Hs _ _ Hl) as [c c' [Hk Hc Hw]|]; [|done].
  destruct Hc as [o o' Ho|]; [|done]. exists β. split; [apply sub_refl|]. split; [|done].
  rewrite (orel_tag _ _ _ Ho). apply srel_log; [|by constructor]. apply srel_insert; [done..|].
  split; simpl; [done|by constructor|done].
Qed.
Lemma rel_modify_obj (β : ren) l l' o o' : β l l' -> orel β o o' -> rel Req β (modify_obj l o) (modify_obj l' o').
Proof.
  intros Hl Ho s1 s2 Hs. unfold modify_obj. destruct (sr_mem _ _ _ Hs _ _ Hl) as [c c' [Hk Hc Hw]|]; [|done].
  destruct Hc as [x x' Hx|]; [|done]. rewrite (orel_tag _ _ _ Ho) (orel_tag _ _ _ Hx).
  destruct (decide _); [|done]. exists β. split; [apply sub_refl|]. split; [|done].
  apply srel_insert; [done..|]. split; simpl; [done|by constructor|done].
Qed.
Lemma rel_new_cell (β : ren) k : rel Rl β (new_cell k) (new_cell k).
Proof.
  intros s1 s2 Hs. simpl. exists (grow β (nxt s1) (nxt s2)). split; [apply grow_sub|].
  split; [by apply (srel_fresh β s1 s2)|apply grow_new].
Qed.
Lemma rel_drop_cell (β : ren) l l' : β l l' -> rel Req β (drop_cell l) (drop_cell l').
Proof.
  intros Hl s1 s2 Hs. unfold drop_cell. destruct (sr_mem _ _ _ Hs _ _ Hl) as [c c' [Hk Hc Hw]|]; [|done].
  destruct Hc as [x x' Hx|]; [done|]. rewrite Hk. destruct (decide _); [done|].
  exists β. split; [apply sub_refl|]. split; [by apply srel_delete|done].
Qed.
Lemma rel_alloc (β : ren) p : rel Rl β (alloc p) (alloc p).
Proof.
  intros s1 s2 Hs. unfold alloc. simpl. pose proof (sr_luck _ _ _ Hs 0) as H. rewrite !Nat.add_0_r in H. rewrite -H.
  destruct (decide _).
  - exists (grow β (nxt s1) (nxt s2)). split; [apply grow_sub|]. split; [|apply grow_new].
    apply srel_log; [|constructor; apply grow_new]. apply (srel_fresh β (spend s1) (spend s2)), srel_spend, Hs.
  - destruct (sr_pos _ _ _ Hs) as (j&H1&H2).
    assert (Hx : xrel (XAlloc (opos s1)) (XAlloc (opos s2))) by (rewrite H1 H2; constructor).
    destruct (srel_throw β _ _ _ _ (A := loc) (srel_spend β s1 s2 Hs) Hx) as (_&_&Hs').
    exists β. split; [apply sub_refl|]. done.
Qed.
Lemma rel_free (β : ren) l l' : β l l' -> rel Req β (free l) (free l').
Proof.
  intros Hl s1 s2 Hs. unfold free. destruct (sr_mem _ _ _ Hs _ _ Hl) as [c c' [Hk Hc Hw]|]; [|done].
  destruct Hc as [x x' Hx|]; [done|]. rewrite Hk. destruct (decide _); [|done].
  exists β. split; [apply sub_refl|]. split; [|done]. apply srel_log; [|by constructor]. by apply srel_delete.
Qed.
Lemma rel_read_which (β : ren) l l' : β l l' -> rel Req β (read_which l) (read_which l').
Proof.
  intros Hl. unfold read_which. eapply rel_bind; [by apply rel_get_cell|]. intros β' c c' Hsub [_ _ ->].
  destruct (cw c'); [by apply rel_ret|apply rel_faulty].
Qed.
Lemma rel_write_which (β : ren) l l' z : β l l' -> rel Req β (write_which l z) (write_which l' z).
Proof.
  intros Hl. unfold write_which. eapply rel_bind; [by apply rel_get_cell|]. intros β' c c' Hsub [Hk Hc _].
  apply rel_put_cell; [by apply Hsub|]. by split.
Qed.


Lemma rel_expect_user (β : ren) u l l' : β l l' -> rel Rzl β (expect_user u l) (expect_user u l').
Proof.
  intros Hl. unfold expect_user. eapply rel_bind; [by apply rel_get_obj|]. intros β' o o' Hsub Ho.
  destruct Ho; try apply rel_faulty. destruct (decide _); [by apply rel_ret|apply rel_faulty].
Qed.

(** ** The library *)
Record sames (S : usem) : Prop := Sames {
  sm_value (β : ren) u l l' : β l l' -> rel Req β (us_value S u l) (us_value S u l');
  sm_definit (β : ren) u l l' : β l l' -> rel Req β (us_definit S u l) (us_definit S u l');
  sm_copy (β : ren) u d d' s s' : β d d' -> β s s' -> rel Req β (us_copy S u d s) (us_copy S u d' s');
  sm_move (β : ren) u d d' s s' : β d d' -> β s s' -> rel Req β (us_move S u d s) (us_move S u d' s');
  sm_cassign (β : ren) u d d' s s' : β d d' -> β s s' -> rel Req β (us_cassign S u d s) (us_cassign S u d' s');
  sm_massign (β : ren) u d d' s s' : β d d' -> β s s' -> rel Req β (us_massign S u d s) (us_massign S u d' s');
  sm_swap (β : ren) u d d' s s' : β d d' -> β s s' -> rel Req β (us_swap S u d s) (us_swap S u d' s');
  sm_destroy (β : ren) u l l' : β l l' -> rel Req β (us_destroy S u l) (us_destroy S u l');
  sm_read (β : ren) u l l' : β l l' -> rel Req β (us_read S u l) (us_read S u l')
}.

Create HintDb alike.
#[local] Hint Constants Opaque : alike.
#[local] Hint Resolve rel_throw rel_choose rel_note_read rel_maybe_throw rel_get_cell rel_get_obj rel_construct rel_destruct_obj
  rel_modify_obj rel_new_cell rel_drop_cell rel_alloc rel_free rel_read_which rel_write_which rel_expect_user rel_faulty : alike.
#[local] Hint Resolve sub_refl xr_get xr_visit : alike.
#[local] Hint Constructors orel option_Forall2 Forall2 : alike.

(** Facts about the old addresses hold of the new ones. *)
Ltac older Hsub :=
  match type of Hsub with
  | sub ?b ?b' =>
      repeat match goal with
      | H : b _ _ |- _ => apply Hsub in H
      | H : Forall2 b _ _ |- _ => apply (Forall2_sub _ _ _ _ Hsub) in H
      | H : option_Forall2 b _ _ |- _ => apply (opt_sub _ _ _ _ Hsub) in H
      | H : sub ?b0 b |- _ => lazymatch b0 with b => fail | _ => apply (fun H => sub_trans _ _ _ H Hsub) in H end
      end
  end.
Ltac result H :=
  lazymatch type of H with
  | Req ?x ?y _ => unfold Req in H; first [subst y | subst x | idtac]
  | Ro _ _ _ => destruct H
  | Rl _ _ _ => unfold Rl in H
  | Rls _ _ _ => unfold Rls in H
  | Rol _ _ _ => unfold Rol in H; destruct H
  | Rzl ?p ?q _ => destruct p, q; destruct H as [H ?]; simpl in H; simpl in *; subst
  | Rtl ?p ?q _ => destruct p, q; destruct H as [H ?]; simpl in H; simpl in *; subst
  | Rul ?p ?q _ => destruct p, q; destruct H as [H ?]; simpl in H; simpl in *; subst
  | _ => idtac
  end.
Ltac into :=
  let β := fresh "β" in let Hsub := fresh "Hsub" in let a := fresh "a" in let a' := fresh "a" in
  let H := fresh "H" in intros β a a' Hsub H; older Hsub; result H.
Ltac hyp := match goal with H : context [rel _ _ _ _] |- _ => solve [eapply H; eauto 2 with alike nocore] end.
Ltac al_with more :=
  repeat first
    [ solve [eauto 5 with alike nocore]
    | hyp
    | match goal with
      | |- rel ?R _ (ret ?a) (ret ?a) => is_evar R; apply (rel_ret Req); reflexivity
      | |- rel _ _ (ret _) (ret _) =>
          apply rel_ret; first [done | progress unfold Rl, Rls, Rol, Rzl, Rtl, Rul; simpl; eauto 4 with alike nocore]
      | |- rel _ _ (bind _ _) (bind _ _) => eapply rel_bind; [al_with more; fail|into]
      | |- rel _ _ (on_exn _ _) (on_exn _ _) =>
          apply rel_on_exn; [|let Hsub := fresh "Hsub" in intros ? Hsub; older Hsub]
      | |- rel _ _ (finally _ _) (finally _ _) =>
          apply rel_finally; [|let Hsub := fresh "Hsub" in intros ? Hsub; older Hsub]
      | |- rel _ _ (noexcept _) (noexcept _) => apply rel_noexcept
      | |- rel _ _ (noexcept_if _ _) (noexcept_if _ _) => apply rel_noexcept_if
      | |- rel _ _ (match ?x with _ => _ end) (match ?x with _ => _ end) => destruct x
      | H : option_Forall2 _ ?x ?y |- rel _ _ (match ?x with _ => _ end) (match ?y with _ => _ end) => destruct H
      end
    | progress cbv beta iota
    | more ].
Ltac al := al_with fail.
Ltac enter := let β := fresh "β" in let Hsub := fresh "Hsub" in let a := fresh "a" in let a' := fresh "a" in
  let H := fresh "H" in intros β a a' Hsub H; older Hsub.

Section sames.
Context (C : cfg) (S : usem) (HS : sames S).

Lemma al_value (β : ren) u l l' : β l l' -> rel Req β (us_value S u l) (us_value S u l'). Proof. apply HS. Qed.
Lemma al_definit (β : ren) u l l' : β l l' -> rel Req β (us_definit S u l) (us_definit S u l'). Proof. apply HS. Qed.
Lemma al_copy (β : ren) u d d' s s' : β d d' -> β s s' -> rel Req β (us_copy S u d s) (us_copy S u d' s'). Proof. apply HS. Qed.
Lemma al_move (β : ren) u d d' s s' : β d d' -> β s s' -> rel Req β (us_move S u d s) (us_move S u d' s'). Proof. apply HS. Qed.
Lemma al_cassign (β : ren) u d d' s s' : β d d' -> β s s' -> rel Req β (us_cassign S u d s) (us_cassign S u d' s'). Proof. apply HS. Qed.
Lemma al_massign (β : ren) u d d' s s' : β d d' -> β s s' -> rel Req β (us_massign S u d s) (us_massign S u d' s'). Proof. apply HS. Qed.
Lemma al_swap (β : ren) u d d' s s' : β d d' -> β s s' -> rel Req β (us_swap S u d s) (us_swap S u d' s'). Proof. apply HS. Qed.
Lemma al_destroy (β : ren) u l l' : β l l' -> rel Req β (us_destroy S u l) (us_destroy S u l'). Proof. apply HS. Qed.
Lemma al_read (β : ren) u l l' : β l l' -> rel Req β (us_read S u l) (us_read S u l'). Proof. apply HS. Qed.
#[local] Hint Resolve al_value al_definit al_copy al_move al_cassign al_massign al_swap al_destroy al_read : alike.

Lemma al_new_obj (β : ren) p k k' : (forall β' q q', sub β β' -> β' q q' -> rel Req β' (k q) (k' q')) ->
  rel Rl β (new_obj p k) (new_obj p k').
Proof. intros. unfold new_obj. al. Qed.
Lemma al_stack_obj (β : ren) k k' : (forall β' q q', sub β β' -> β' q q' -> rel Req β' (k q) (k' q')) ->
  rel Rl β (stack_obj k) (stack_obj k').
Proof. intros. unfold stack_obj. al. Qed.
Lemma al_local_variant (β : ren) k k' : (forall β' q q', sub β β' -> β' q q' -> rel Req β' (k q) (k' q')) ->
  rel Rl β (local_variant k) (local_variant k').
Proof. intros. unfold local_variant. al. Qed.
Lemma al_scoped {A} (β : ren) m m' d d' (f f' : loc -> M A) : rel Rl β m m' ->
  (forall β' q q', sub β β' -> β' q q' -> rel Req β' (d q) (d' q')) ->
  (forall β' q q', sub β β' -> β' q q' -> rel Req β' (f q) (f' q')) ->
  rel Req β (scoped m d f) (scoped m' d' f').
Proof. intros. unfold scoped. al. Qed.


Ltac more1 := idtac; match goal with
  | |- rel _ _ (new_obj _ _) _ => apply al_new_obj; enter
  | |- rel _ _ (stack_obj _) _ => apply al_stack_obj; enter
  | |- rel _ _ (local_variant _) _ => apply al_local_variant; enter
  | |- rel _ _ (scoped _ _ _) _ => apply al_scoped; [|enter|enter]
  end.
Ltac al1 := al_with more1.

Lemma al_wrap_ptr (β : ren) u l l' : β l l' -> rel Rl β (wrap_ptr u l) (wrap_ptr u l').
Proof. intros. unfold wrap_ptr. al1. Qed.
#[local] Hint Resolve al_wrap_ptr : alike.
Lemma al_i_copy (β : ren) t d d' s s' : β d d' -> β s s' -> rel Req β (i_copy S t d s) (i_copy S t d' s').
Proof. intros. unfold i_copy. al1. Qed.
Lemma al_i_move (β : ren) t d d' s s' : β d d' -> β s s' -> rel Req β (i_move S t d s) (i_move S t d' s').
Proof. intros. unfold i_move. al1. Qed.
Lemma al_i_copy_from (β : ren) t d d' s s' : β d d' -> β s s' -> rel Req β (i_copy_from S t d s) (i_copy_from S t d' s').
Proof. intros. unfold i_copy_from. al1. Qed.
Lemma al_i_move_from (β : ren) t d d' s s' : β d d' -> β s s' -> rel Req β (i_move_from S t d s) (i_move_from S t d' s').
Proof. intros. unfold i_move_from. al1. Qed.
Lemma al_i_value (β : ren) t d d' : β d d' -> rel Req β (i_value S t d) (i_value S t d').
Proof. intros. unfold i_value. al1. Qed.
Lemma al_i_cassign (β : ren) t d d' s s' : β d d' -> β s s' -> rel Req β (i_cassign S t d s) (i_cassign S t d' s').
Proof. intros. unfold i_cassign. al1. Qed.
Lemma al_i_massign (β : ren) t d d' s s' : β d d' -> β s s' -> rel Req β (i_massign S t d s) (i_massign S t d' s').
Proof. intros. unfold i_massign. al1. Qed.
Lemma al_i_destroy (β : ren) t l l' : β l l' -> rel Req β (i_destroy S t l) (i_destroy S t l').
Proof. intros. unfold i_destroy. al1. Qed.
#[local] Hint Resolve al_i_copy al_i_move al_i_copy_from al_i_move_from al_i_value al_i_cassign al_i_massign al_i_destroy : alike.

Lemma al_bk_ptr (β : ren) t l l' : β l l' -> rel Rol β (bk_ptr t l) (bk_ptr t l').
Proof. intros. unfold bk_ptr. al1. Qed.
#[local] Hint Resolve al_bk_ptr : alike.
Lemma al_bk_get (β : ren) t l l' : β l l' -> rel Rl β (bk_get t l) (bk_get t l').
Proof. intros. unfold bk_get. al1. Qed.
Lemma al_bk_destroy (β : ren) t l l' : β l l' -> rel Req β (bk_destroy S t l) (bk_destroy S t l').
Proof. intros. unfold bk_destroy. al1. Qed.
Lemma al_bk_swap (β : ren) t l l' r r' : β l l' -> β r r' -> rel Req β (bk_swap t l r) (bk_swap t l' r').
Proof. intros. unfold bk_swap. al1. Qed.
#[local] Hint Resolve al_bk_get al_bk_destroy al_bk_swap : alike.

Lemma al_s_copy (β : ren) t d d' s s' : β d d' -> β s s' -> rel Req β (s_copy C S t d s) (s_copy C S t d' s').
Proof. intros. unfold s_copy. al1. Qed.
Lemma al_s_move (β : ren) t d d' s s' : β d d' -> β s s' -> rel Req β (s_move C S t d s) (s_move C S t d' s').
Proof. intros. unfold s_move. al1. Qed.
Lemma al_s_destroy (β : ren) t l l' : β l l' -> rel Req β (s_destroy S t l) (s_destroy S t l').
Proof. intros. unfold s_destroy. al1. Qed.
Lemma al_which (β : ren) l l' : β l l' -> rel Req β (which l) (which l').
Proof. intros. unfold which. al1. Qed.
Lemma al_indicate_which (β : ren) l l' w : β l l' -> rel Req β (indicate_which l w) (indicate_which l' w).
Proof. intros. unfold indicate_which. al1. Qed.
Lemma al_indicate_backup_which (β : ren) l l' w : β l l' -> rel Req β (indicate_backup_which l w) (indicate_backup_which l' w).
Proof. intros. unfold indicate_backup_which. al1. Qed.
#[local] Hint Resolve al_s_copy al_s_move al_s_destroy al_which al_indicate_which al_indicate_backup_which : alike.

Lemma al_visit {A} (R : A -> A -> ren -> Prop) (β : ren) tys a a' k k' : β a a' ->
  (forall st (β' : ren) l l', sub β β' -> β' l l' -> rel R β' (k st l) (k' st l')) ->
  rel R β (visit C tys a k) (visit C tys a' k').
Proof. intros. unfold visit. al1. Qed.
Lemma al_visit_user {A} (R : A -> A -> ren -> Prop) (β : ren) tys a a' k k' : β a a' ->
  (forall u (β' : ren) l l', sub β β' -> β' l l' -> rel R β' (k u l) (k' u l')) ->
  rel R β (visit_user C tys a k) (visit_user C tys a' k').
Proof. intros. apply al_visit; [done|]. intros st. enter. unfold unwrap, unwrap_int. al1. Qed.

Ltac more2 := first [more1 | match goal with
  | |- rel _ _ (visit _ _ _ _) _ => eapply al_visit; [assumption|intro; enter]
  | |- rel _ _ (visit_user _ _ _ _) _ => eapply al_visit_user; [assumption|intro; enter]
  end].
Ltac al2 := al_with more2.

Lemma al_destroy_content (β : ren) tys l l' : β l l' -> rel Req β (destroy_content C S tys l) (destroy_content C S tys l').
Proof. intros. unfold destroy_content. al2. Qed.
#[local] Hint Resolve al_destroy_content : alike.
Lemma al_var_destroy (β : ren) tys l l' : β l l' -> rel Req β (var_destroy C S tys l) (var_destroy C S tys l').
Proof. intros. unfold var_destroy. al2. Qed.
Lemma al_var_default (β : ren) tys l l' : β l l' -> rel Req β (var_default C S tys l) (var_default C S tys l').
Proof. intros. unfold var_default. al2. Qed.
Lemma al_var_copy (β : ren) tys d d' s s' : β d d' -> β s s' -> rel Req β (var_copy C S tys d s) (var_copy C S tys d' s').
Proof. intros. unfold var_copy, copy_into. al2. Qed.
Lemma al_var_move (β : ren) tys d d' s s' : β d d' -> β s s' -> rel Req β (var_move C S tys d s) (var_move C S tys d' s').
Proof. intros. unfold var_move, move_into. al2. Qed.
#[local] Hint Resolve al_var_destroy al_var_default al_var_copy al_var_move : alike.
Lemma al_convert_obj (β : ren) u u' d d' s s' : β d d' -> β s s' -> rel Req β (convert_obj C u u' d s) (convert_obj C u u' d' s').
Proof. intros. unfold convert_obj. al2. Qed.
#[local] Hint Resolve al_convert_obj : alike.
Lemma al_initialize (β : ren) tys d d' u s s' mv : β d d' -> β s s' ->
  rel Req β (initialize C S tys d u s mv) (initialize C S tys d' u s' mv).
Proof. intros. unfold initialize. al2. Qed.
#[local] Hint Resolve al_initialize : alike.
Lemma al_var_from (β : ren) tys d d' u s s' mv : β d d' -> β s s' ->
  rel Req β (var_from C S tys d u s mv) (var_from C S tys d' u s' mv).
Proof. intros. unfold var_from. al2. Qed.
Lemma al_var_convert (β : ren) tys d d' tys' s s' mv : β d d' -> β s s' ->
  rel Req β (var_convert C S tys d tys' s mv) (var_convert C S tys d' tys' s' mv).
Proof. intros. unfold var_convert. al2. Qed.
#[local] Hint Resolve al_var_from al_var_convert : alike.
Lemma al_construct_mpl (β : ren) tys d d' m : β d d' -> rel Req β (construct_mpl C S tys d m) (construct_mpl C S tys d' m).
Proof. intros. unfold construct_mpl. al2. Qed.
#[local] Hint Resolve al_construct_mpl : alike.
Lemma al_construct_fallback (β : ren) tys d d' : β d d' -> rel Req β (construct_fallback C S tys d) (construct_fallback C S tys d').
Proof. intros. unfold construct_fallback. al2. Qed.
#[local] Hint Resolve al_construct_fallback : alike.
Lemma al_assign_4 (β : ren) tys d d' rw st s s' : β d d' -> β s s' ->
  rel Req β (assign_4 C S tys d rw st s) (assign_4 C S tys d' rw st s').
Proof. intros. unfold assign_4, backup_assigner, backup_assign_1, backup_assign_2, backup_assign_3. al2. Qed.
#[local] Hint Resolve al_assign_4 : alike.
Lemma al_assigner (β : ren) tys d d' rw st s s' : β d d' -> β s s' ->
  rel Req β (assigner C S tys d rw st s) (assigner C S tys d' rw st s').
Proof. intros. unfold assigner, assign_1, assign_2, assign_3. al2. Qed.
Lemma al_move_assigner (β : ren) tys d d' rw st s s' : β d d' -> β s s' ->
  rel Req β (move_assigner C S tys d rw st s) (move_assigner C S tys d' rw st s').
Proof. intros. unfold move_assigner, massign_move, massign_fallback, assign_1. al2. Qed.
#[local] Hint Resolve al_assigner al_move_assigner : alike.
Lemma al_assign_storage (β : ren) st d d' s s' : β d d' -> β s s' ->
  rel Req β (assign_storage S d st s) (assign_storage S d' st s').
Proof. intros. unfold assign_storage. al2. Qed.
Lemma al_move_storage (β : ren) st d d' s s' : β d d' -> β s s' ->
  rel Req β (move_storage S d st s) (move_storage S d' st s').
Proof. intros. unfold move_storage. al2. Qed.
#[local] Hint Resolve al_assign_storage al_move_storage : alike.
Lemma al_var_assign (β : ren) tys d d' s s' : β d d' -> β s s' -> rel Req β (var_assign C S tys d s) (var_assign C S tys d' s').
Proof. intros. unfold var_assign. al2. Qed.
Lemma al_variant_massign (β : ren) tys d d' s s' : β d d' -> β s s' ->
  rel Req β (variant_massign C S tys d s) (variant_massign C S tys d' s').
Proof. intros. unfold variant_massign. al2. Qed.
#[local] Hint Resolve al_var_assign al_variant_massign : alike.
Lemma al_var_massign (β : ren) tys d d' s s' : β d d' -> β s s' ->
  rel Req β (var_massign C S tys d s) (var_massign C S tys d' s').
Proof. intros. unfold var_massign. al2. Qed.
#[local] Hint Resolve al_var_massign : alike.
Lemma al_var_assign_from (β : ren) tys d d' u s s' mv : β d d' -> β s s' ->
  rel Req β (var_assign_from C S tys d u s mv) (var_assign_from C S tys d' u s' mv).
Proof. intros. unfold var_assign_from, direct_assign. al2. Qed.
Lemma al_var_assign_convert (β : ren) tys d d' tys' s s' mv : β d d' -> β s s' ->
  rel Req β (var_assign_convert C S tys d tys' s mv) (var_assign_convert C S tys d' tys' s' mv).
Proof. intros. unfold var_assign_convert. al2. Qed.
Lemma al_known_get (β : ren) tys l l' u : β l l' -> rel Rl β (known_get C tys l u) (known_get C tys l' u).
Proof. intros. unfold known_get. al2. Qed.
#[local] Hint Resolve al_known_get : alike.
Lemma al_var_swap (β : ren) tys d d' s s' : β d d' -> β s s' -> rel Req β (var_swap C S tys d s) (var_swap C S tys d' s').
Proof. intros. unfold var_swap. al2. Qed.
Lemma al_var_get (β : ren) tys l l' u : β l l' -> rel Rol β (var_get C tys l u) (var_get C tys l' u).
Proof. intros. unfold var_get. al2. destruct (decide _); by constructor. Qed.
#[local] Hint Resolve al_var_get : alike.
Lemma al_var_get_ref (β : ren) tys l l' u : β l l' -> rel Rl β (var_get_ref C tys l u) (var_get_ref C tys l' u).
Proof. intros. unfold var_get_ref. al2. Qed.
#[local] Hint Resolve al_var_get_ref : alike.
Lemma al_var_type (β : ren) tys l l' : β l l' -> rel Req β (var_type C tys l) (var_type C tys l').
Proof. intros. unfold var_type. al2. Qed.
Lemma al_var_read (β : ren) tys l l' : β l l' -> rel Req β (var_read C S tys l) (var_read C S tys l').
Proof. intros. unfold var_read. al2. Qed.
Lemma al_var_eq (β : ren) tys f d d' s s' : β d d' -> β s s' -> rel Req β (var_eq C S tys f d s) (var_eq C S tys f d' s').
Proof. intros. unfold var_eq, comparer. al2. Qed.
Lemma al_var_lt (β : ren) tys f d d' s s' : β d d' -> β s s' -> rel Req β (var_lt C S tys f d s) (var_lt C S tys f d' s').
Proof. intros. unfold var_lt, comparer. al2. Qed.
Lemma al_var_poke (β : ren) tys d d' u s s' : β d d' -> β s s' -> rel Req β (var_poke C S tys d u s) (var_poke C S tys d' u s').
Proof. intros. unfold var_poke. al2. Qed.
#[local] Hint Resolve al_var_assign_from al_var_assign_convert al_var_swap al_var_type al_var_read al_var_eq al_var_lt al_var_poke : alike.

Lemma al_make_members {B} (RB : B -> B -> ren -> Prop) (β : ren) mk mems (bs bs' : list B) :
  (forall β' β'' b b', sub β' β'' -> RB b b' β' -> RB b b' β'') ->
  (forall tys (β' : ren) b b' l l', sub β β' -> RB b b' β' -> β' l l' -> rel Req β' (mk tys b l) (mk tys b' l')) ->
  Forall2 (fun b b' => RB b b' β) bs bs' ->
  rel Rls β (make_members C S mk mems bs) (make_members C S mk mems bs').
Proof.
  intros Hgrow. revert β bs bs'. induction mems as [|tys mems IH]; intros β bs bs' Hmk Hbs.
  - destruct Hbs; simpl; [apply rel_ret; constructor|apply rel_faulty].
  - destruct Hbs as [|b b' bs bs' Hb Hbs]; simpl; [apply rel_faulty|].
    eapply rel_bind.
    { apply al_local_variant. intros. apply Hmk; eauto. }
    intros β' k k' Hsub Hk. unfold Rl in Hk. eapply rel_bind.
    + apply rel_on_exn.
      * apply IH; [|eapply Forall2_impl; [done|]; eauto]. intros. apply Hmk; eauto using sub_trans.
      * intros β'' Hs2. older Hs2. al2.
    + intros β'' ks ks' Hs2 Hks. older Hs2. apply rel_ret. by constructor.
Qed.
Lemma al_destroy_members (β : ren) mems ks ks' : Forall2 β ks ks' ->
  rel Req β (destroy_members C S mems ks) (destroy_members C S mems ks').
Proof.
  intros Hk. revert ks ks' Hk. induction mems as [|tys mems IH]; intros ks ks' Hk; destruct Hk; simpl; al2.
Qed.
Lemma al_assign_members (β : ren) f mems ls ls' rs rs' :
  (forall tys (β' : ren) l l' r r', sub β β' -> β' l l' -> β' r r' -> rel Req β' (f tys l r) (f tys l' r')) ->
  Forall2 β ls ls' -> Forall2 β rs rs' ->
  rel Req β (assign_members f mems ls rs) (assign_members f mems ls' rs').
Proof.
  revert β ls ls' rs rs'. induction mems as [|tys mems IH]; intros β ls ls' rs rs' Hf Hl Hr;
    destruct Hl, Hr; simpl; try (by apply rel_ret); try apply rel_faulty.
  eapply rel_bind; [apply Hf; [apply sub_refl|done..]|]. into. apply IH; [|done..].
  intros. apply Hf; eauto using sub_trans.
Qed.
Lemma al_read_members (β : ren) mems ks ks' : Forall2 β ks ks' ->
  rel Req β (read_members C S mems ks) (read_members C S mems ks').
Proof.
  revert β ks ks'. induction mems as [|tys mems IH]; intros β ks ks' Hk; destruct Hk; simpl;
    try (by apply rel_ret); try apply rel_faulty.
  al2.
Qed.
Lemma al_scramble (β : ren) u l l' : β l l' -> rel Req β (scramble u l) (scramble u l').
Proof. intros. unfold scramble. al2. Qed.
#[local] Hint Resolve al_destroy_members al_read_members al_scramble : alike.

Ltac more3 := first [more2 | match goal with
  | |- rel _ _ (make_members _ _ _ _ _) _ => apply (al_make_members Rl); [by unfold Rl, sub; auto|unfold Rl; intros|done]
  | |- rel _ _ (assign_members _ _ _ _) _ => apply al_assign_members; [intros|done..]
  end].
Ltac al3 := al_with more3.

Lemma sames_step : sames (sem_step C S).
Proof.
  assert (Hv : forall (β : ren) u l l', β l l' -> rel Req β (u_value C S u l) (u_value C S u l')).
  { intros. unfold u_value. eapply rel_bind; [al3|into]. eapply rel_bind.
    { apply (al_make_members Req); [done|intros; unfold Req in *; subst; al3|].
      apply Forall2_same_length_lookup. split; [done|]. intros i [] []. done. }
    into. al3. }
  assert (Hmv : forall (β : ren) u d d' s s', β d d' -> β s s' -> rel Req β (u_move C S u d s) (u_move C S u d' s')).
  { intros. unfold u_move. al3. }
  assert (Hma : forall (β : ren) u d d' s s', β d d' -> β s s' -> rel Req β (u_massign C S u d s) (u_massign C S u d' s')).
  { intros. unfold u_massign. al3. }
  assert (Hds : forall (β : ren) u l l', β l l' -> rel Req β (u_destroy C S u l) (u_destroy C S u l')).
  { intros. unfold u_destroy. al3. }
  split; intros; simpl.
  - by apply Hv.
  - unfold u_definit. destruct (ut_init _); [by apply Hv|al3|by apply Hv].
  - unfold u_copy. al3.
  - by apply Hmv.
  - unfold u_cassign. al3.
  - by apply Hma.
  - unfold u_swap, own_swap, std_swap. destruct (ut_swap _); al3.
  - by apply Hds.
  - unfold u_read. al3.
Qed.

End sames.

Lemma sames_stuck : sames usem_stuck.
Proof. split; intros; apply rel_faulty. Qed.
Lemma sames_sem C n : sames (sem C n).
Proof. induction n as [|n IH]; apply sames_step; [apply sames_stuck|done]. Qed.

(** ** Commands *)
Definition brel (β : ren) (b b' : bnd) : Prop :=
  match b, b' with
  | BVar tys a, BVar tys' a' => tys = tys' /\ β a a'
  | BObj u a, BObj u' a' => u = u' /\ β a a'
  | _, _ => False
  end.
Definition envrel (β : ren) (N : list name) (E E' : env) : Prop :=
  forall x, x ∈ N -> option_Forall2 (brel β) (E !! x) (E' !! x).
Lemma brel_sub β β' b b' : sub β β' -> brel β b b' -> brel β' b b'.
Proof. intros H. destruct b, b'; simpl; [|done..|]; intros [-> ?]; split; auto. Qed.
Lemma envrel_sub β β' N E E' : sub β β' -> envrel β N E E' -> envrel β' N E E'.
Proof. intros H He x Hx. specialize (He x Hx). destruct He; constructor. by eapply brel_sub. Qed.
Lemma envrel_insert β N E E' x b b' : envrel β N E E' -> brel β b b' -> envrel β N (<[x := b]> E) (<[x := b']> E').
Proof.
  intros He Hb y Hy. unfold env in *. destruct (decide (x = y)) as [->|Hne].
  - rewrite !lookup_insert. by constructor.
  - rewrite !lookup_insert_ne //. by apply He.
Qed.
Lemma envrel_delete β N E E' x : envrel β N E E' -> envrel β N (delete x E) (delete x E').
Proof.
  intros He y Hy. unfold env in *. destruct (decide (x = y)) as [->|Hne].
  - rewrite !lookup_delete. by constructor.
  - rewrite !lookup_delete_ne //. by apply He.
Qed.

Section commands.
Context (C : cfg) (n : nat) (eqf ltf : uid -> uval -> uval -> bool) (N : list name).
Let HS := sames_sem C n.

(** The environments agree on the names in question, and keep the others. *)
Definition Renv (E0 E0' : env) (r r' : env * out) (β : ren) : Prop :=
  envrel β N r.1 r'.1 /\ r.2 = r'.2 /\
  forall x, x ∉ N -> r.1 !! x = E0 !! x /\ r'.1 !! x = E0' !! x.

Lemma al_need_var (β : ren) E E' x : envrel β N E E' -> x ∈ N -> rel Rtl β (need_var E x) (need_var E' x).
Proof.
  intros He Hx. unfold need_var. destruct (He x Hx) as [b b' Hb|]; [|apply rel_faulty].
  destruct b, b'; simpl in Hb; try done. by apply rel_ret.
Qed.
Lemma al_need_obj (β : ren) E E' x : envrel β N E E' -> x ∈ N -> rel Rul β (need_obj E x) (need_obj E' x).
Proof.
  intros He Hx. unfold need_obj. destruct (He x Hx) as [b b' Hb|]; [|apply rel_faulty].
  destruct b, b'; simpl in Hb; try done. by apply rel_ret.
Qed.
Lemma al_need_fresh (β : ren) E E' x : envrel β N E E' -> x ∈ N -> rel Req β (need_fresh E x) (need_fresh E' x).
Proof.
  intros He Hx. unfold need_fresh. destruct (He x Hx) as [b b' Hb|]; [apply rel_faulty|]. by apply rel_ret.
Qed.
Lemma al_need_vars (β : ren) E E' xs : envrel β N E E' -> (forall x, x ∈ xs -> x ∈ N) ->
  rel Rls β (need_vars E xs) (need_vars E' xs).
Proof.
  revert β. induction xs as [|x xs IH]; intros β He Hx; simpl; [apply rel_ret; constructor|].
  eapply rel_bind; [apply al_need_var; [done|apply Hx; left]|]. into. eapply rel_bind.
  { apply IH; [by eapply envrel_sub|]. intros y Hy. apply Hx. by right. }
  into. apply rel_ret. by constructor.
Qed.
Lemma al_new_var (β : ren) E E' x tys k k' : envrel β N E E' -> x ∈ N ->
  (forall (β' : ren) q q', sub β β' -> β' q q' -> rel Req β' (k q) (k' q')) ->
  rel (Renv E E') β (new_var E x tys k) (new_var E' x tys k').
Proof.
  intros He Hx Hk. unfold new_var. eapply rel_bind; [by apply al_need_fresh|]. intros β1 _ _ Hs1 _.
  eapply rel_bind; [apply al_local_variant; intros; apply Hk; eauto using sub_trans|].
  intros β2 a a' Hs2 Ha. apply rel_ret. split; simpl.
  - apply envrel_insert; [eapply envrel_sub; [|done]; eauto using sub_trans|done].
  - split; [done|]. intros y Hy. rewrite !lookup_insert_ne; [done|set_solver..].
Qed.
Lemma al_member (β : ren) u l l' j : β l l' -> rel Rtl β (member C u l j) (member C u l' j).
Proof.
  intros Hl. unfold member. eapply rel_bind; [by apply rel_expect_user|]. into.
  destruct (_ !! j) as [tys|]; [|apply rel_faulty].
  match goal with H : Forall2 _ ?ks ?ks' |- _ => pose proof (Forall2_lookup β1 ks ks') as [Hlk _]; specialize (Hlk H j) end.
  destruct Hlk; [by apply rel_ret|apply rel_faulty].
Qed.

Lemma Renv_same (β : ren) E E' o : envrel β N E E' -> Renv E E' (E, o) (E', o) β.
Proof. by split. Qed.


#[local] Hint Resolve sames_sem al_value al_definit al_copy al_move al_cassign al_massign al_swap al_destroy al_read
  al_var_destroy al_var_default al_var_copy al_var_move al_var_from al_var_convert al_var_assign al_var_massign
  al_var_assign_from al_var_assign_convert al_var_swap al_var_type al_var_read al_var_eq al_var_lt al_var_poke al_which
  al_var_get al_var_get_ref al_member : alike.
Ltac nm := first [assumption | match goal with H : forall x, _ -> x ∈ N |- _ => apply H; simpl; set_solver end].
Ltac en := eapply envrel_sub; [|eassumption]; eauto with alike.
Ltac more4 := idtac; match goal with
  | |- rel _ _ (need_var _ _) _ => apply al_need_var; [en|nm]
  | |- rel _ _ (need_obj _ _) _ => apply al_need_obj; [en|nm]
  | |- rel _ _ (need_fresh _ _) _ => apply al_need_fresh; [en|nm]
  | |- rel _ _ (need_vars _ _) _ => apply al_need_vars; [en|intros; nm]
  | |- rel _ _ (new_var _ _ _ _) _ => apply al_new_var; [en|nm|enter]
  | |- rel _ _ (stack_obj _) _ => apply al_stack_obj; enter
  | |- rel _ _ (make_members _ _ _ _ _) _ =>
      apply (al_make_members _ _ (sames_sem C n) Rl); [by unfold Rl, sub; auto|unfold Rl; intros|done]
  end.

Lemma al_op E E' c (β : ren) : envrel β N E E' -> (forall x, x ∈ names c -> x ∈ N) ->
  rel (Renv E E') β (op C n eqf ltf E c) (op C n eqf ltf E' c).
Proof.
  intros He Hn.
  assert (Hins : forall (β' : ren) x b b' o, sub β β' -> x ∈ N -> brel β' b b' -> Renv E E' (<[x := b]> E, o) (<[x := b']> E', o) β').
  { intros β' x b b' o Hs Hx Hb. split; simpl; [apply envrel_insert; [by eapply envrel_sub|done]|]. split; [done|].
    intros y Hy. rewrite !lookup_insert_ne; [done|intros ->; by apply Hy..]. }
  assert (Hdel : forall (β' : ren) x o, sub β β' -> x ∈ N -> Renv E E' (delete x E, o) (delete x E', o) β').
  { intros β' x o Hs Hx. split; simpl; [apply envrel_delete; by eapply envrel_sub|]. split; [done|].
    intros y Hy. rewrite !lookup_delete_ne; [done|intros ->; by apply Hy..]. }
  assert (Hsame : forall (β' : ren) o, sub β β' -> Renv E E' (E, o) (E', o) β').
  { intros β' o Hs. apply Renv_same. by eapply envrel_sub. }
  assert (Hc : (exists x, c = CDrop x) \/ ~ exists x, c = CDrop x) by (destruct c; (by left; eauto) || (right; by intros [? ?])).
  destruct Hc as [[x ->]|Hnd].
  { unfold op. assert (Hx : x ∈ N) by (apply Hn; simpl; set_solver). destruct (He x Hx) as [b b' Hb|]; [|apply rel_faulty].
    destruct b, b'; simpl in Hb; try done; destruct Hb as [-> Hb]; al; apply rel_ret; apply Hdel; eauto with alike. }
  destruct c; try (by destruct Hnd; eauto); unfold op; al_with more4; apply rel_ret;
    first [ apply Hsame; assumption | apply Hins; [assumption|nm|by split] ].
Qed.

(** The results of a command, of a program. *)
Definition orelo (o o' : out) : Prop :=
  match o, o' with
  | OThrew e, OThrew e' => xrel e e'
  | _, _ => o = o'
  end.
Definition resrel (E0 E0' : env) (r r' : result) : Prop :=
  match r, r' with
  | Done E1 o1 s1, Done E2 o2 s2 =>
      exists β, srel β s1 s2 /\ envrel β N E1 E2 /\ orelo o1 o2 /\
        forall x, x ∉ N -> E1 !! x = E0 !! x /\ E2 !! x = E0' !! x
  | Faulted f1, Faulted f2 => f1 = f2
  | _, _ => False
  end.

Lemma orelo_eq o : (forall e, o <> OThrew e) -> orelo o o.
Proof. destruct o; simpl; naive_solver. Qed.

Lemma op_done E c s E' o s' : op C n eqf ltf E c s = Ok (E', o) s' -> forall e, o <> OThrew e.
Proof.
  intros H. exact (op_returns C eqf ltf n E c s (E', o) s' H).
Qed.

Lemma al_exec (β : ren) E E' c s s' : srel β s s' -> envrel β N E E' -> (forall x, x ∈ names c -> x ∈ N) ->
  resrel E E' (exec C n eqf ltf c E s) (exec C n eqf ltf c E' s').
Proof.
  intros Hs He Hc. pose proof (al_op E E' c β He Hc s s' Hs) as H. unfold exec.
  destruct (op C n eqf ltf E c s) as [[E1 o1] s1|e s1|x] eqn:Eo, (op C n eqf ltf E' c s') as [[E2 o2] s2|e' s2|x'] eqn:Eo'; try done; simpl.
  - destruct H as (β'&Hsub&Hs'&He'&Ho&Hx). simpl in *. subst o2. exists β'. split; [done|]. split; [done|]. split; [|done].
    apply orelo_eq. by eapply op_done.
  - destruct H as (β'&Hsub&Hs'&Hx). exists β'. split; [done|]. split; [by eapply envrel_sub|]. done.
Qed.

Lemma al_run h (β : ren) E E' s s' : srel β s s' -> envrel β N E E' -> (forall c x, c ∈ h -> x ∈ names c -> x ∈ N) ->
  resrel E E' (run C n eqf ltf h E s).1 (run C n eqf ltf h E' s').1 /\
  Forall2 orelo (run C n eqf ltf h E s).2 (run C n eqf ltf h E' s').2.
Proof.
  revert β E E' s s'. induction h as [|c h IH]; intros β E E' s s' Hs He Hh; simpl.
  { split; [|constructor]. by exists β. }
  pose proof (al_exec β E E' c s s' Hs He) as H. feed specialize H; [intros x; apply Hh; left|].
  destruct (exec C n eqf ltf c E s) as [E1 o1 s1|f1], (exec C n eqf ltf c E' s') as [E2 o2 s2|f2]; simpl in *; try done.
  destruct H as (β'&Hs'&He'&Ho&Hx).
  destruct (IH β' E1 E2 s1 s2 Hs' He') as [H1 H2]; [intros c' x Hc'; apply Hh; by right|].
  split; [|by constructor].
  destruct (run C n eqf ltf h E1 s1).1 as [E3 o3 s3|f3], (run C n eqf ltf h E2 s2).1 as [E4 o4 s4|f4]; simpl in *; try done.
  destruct H1 as (β2&?&?&?&Hx2). exists β2. do 3 (split; [done|]). intros x Hn. destruct (Hx x Hn), (Hx2 x Hn). by split; congruence.
Qed.
End commands.
End alike.
