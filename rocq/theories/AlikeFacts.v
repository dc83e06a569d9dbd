(** Programs in the same situation do the same (proofs). *)
From Coq.ssr Require Import ssreflect.
From Coq Require Import ZArith Lia.
From stdpp Require Import gmap.
From iris.proofmode Require Import tactics.
From iris.bi Require Import big_op.
From Verif Require Import Base Types Dispatch Variant Sem Values ValuesFacts Client Observe ObserveFacts Spec Trace History Owned OwnedFacts.
From Verif Require Import Heap Wp Rep Link World ClientProof Levels HistoryProof Reach CostSpec.
From Verif Require Import ReachFacts CoreFacts Samples Alike AlikeSpec.

(** ** Memory that represents the same values *)
Definition hiso (β : ren) (h1 h2 : heap) : Prop :=
  oto β /\ forall l1 l2, β l1 l2 -> exists c1 c2, h1 !! l1 = Some c1 /\ h2 !! l2 = Some c2 /\ crel β c1 c2.
Definition cup (β γ : ren) : ren := fun l l' => β l l' \/ γ l l'.
Lemma cup_l β γ : sub β (cup β γ). Proof. intros ???. by left. Qed.
Lemma cup_r β γ : sub γ (cup β γ). Proof. intros ???. by right. Qed.

Lemma dj_false (h1 h2 : heap) l c c' : h1 ##ₘ h2 -> h1 !! l = Some c -> h2 !! l = Some c' -> False.
Proof. intros H ??. by eapply map_disjoint_spec. Qed.

Lemma hiso_empty : hiso (fun _ _ => False) ∅ ∅.
Proof. split; [by intros ????|done]. Qed.
Lemma hiso_cup β γ h1 h2 g1 g2 : hiso β h1 h2 -> hiso γ g1 g2 -> h1 ##ₘ g1 -> h2 ##ₘ g2 ->
  hiso (cup β γ) (h1 ∪ g1) (h2 ∪ g2).
Proof.
  intros [H1 H2] [G1 G2] D1 D2. split.
  - intros l1 l2 l1' l2' [H|H] [H'|H'].
    + by apply H1.
    + destruct (H2 _ _ H) as (?&?&?&?&_), (G2 _ _ H') as (?&?&?&?&_). split; intros; subst; exfalso; solve [eapply (dj_false h1 g1); eassumption | eapply (dj_false h2 g2); eassumption].
    + destruct (G2 _ _ H) as (?&?&?&?&_), (H2 _ _ H') as (?&?&?&?&_). split; intros; subst; exfalso; solve [eapply (dj_false h1 g1); eassumption | eapply (dj_false h2 g2); eassumption].
    + by apply G1.
  - intros l1 l2 [H|H].
    + destruct (H2 _ _ H) as (c1&c2&Hc1&Hc2&Hc). exists c1, c2. split; [by apply lookup_union_Some_l|].
      split; [by apply lookup_union_Some_l|]. eapply crel_sub; [apply cup_l|done].
    + destruct (G2 _ _ H) as (c1&c2&Hc1&Hc2&Hc). exists c1, c2. split; [by apply lookup_union_Some_r|].
      split; [by apply lookup_union_Some_r|]. eapply crel_sub; [apply cup_r|done].
Qed.
(** One more cell, whose content may refer to the rest. *)
Lemma hiso_cell β h1 h2 a a' c c' : hiso β h1 h2 -> crel β c c' -> h1 ##ₘ {[a := c]} -> h2 ##ₘ {[a' := c']} ->
  hiso (Alike.grow β a a') (h1 ∪ {[a := c]}) (h2 ∪ {[a' := c']}).
Proof.
  intros [H1 H2] Hc D1 D2. split.
  - intros l1 l2 l1' l2' [H|[-> ->]] [H'|[-> ->]].
    + by apply H1.
    + destruct (H2 _ _ H) as (?&?&?&?&_). split; intros; subst; exfalso;
        solve [eapply (dj_false h1); [exact D1|done|apply lookup_singleton] | eapply (dj_false h2); [exact D2|done|apply lookup_singleton]].
    + destruct (H2 _ _ H') as (?&?&?&?&_). split; intros; subst; exfalso;
        solve [eapply (dj_false h1); [exact D1|done|apply lookup_singleton] | eapply (dj_false h2); [exact D2|done|apply lookup_singleton]].
    + done.
  - intros l1 l2 [H|[-> ->]].
    + destruct (H2 _ _ H) as (c1&c2&Hc1&Hc2&Hc'). exists c1, c2. split; [by apply lookup_union_Some_l|].
      split; [by apply lookup_union_Some_l|]. eapply crel_sub; [apply grow_sub|done].
    + exists c, c'. split; [apply lookup_union_Some_r; [done|apply lookup_singleton]|].
      split; [apply lookup_union_Some_r; [done|apply lookup_singleton]|]. eapply crel_sub; [apply grow_sub|done].
Qed.
Lemma hiso_cell' β h1 h2 a a' c c' h h' : hiso β h1 h2 -> crel β c c' ->
  (a ↦ c : hprop)%I h -> (a' ↦ c' : hprop)%I h' -> h1 ##ₘ h -> h2 ##ₘ h' ->
  hiso (Alike.grow β a a') (h1 ∪ h) (h2 ∪ h').
Proof. intros ?? H H' ??. unfold pt, hholds in H, H'. subst. by apply hiso_cell. Qed.

Section iso.
Context (C : cfg) (W : wpar).
Notation R := (R C W).
Notation Rvar := (Rvar C W).
Notation Rmems := (Rmems C W).

Definition iso_obj (P : uid -> obj -> hprop) : Prop := forall u o o' h h', P u o h -> P u o' h' ->
  exists β, hiso β h h' /\ orel β o o'.

Lemma RIb_iso P t o o' h h' : iso_obj P -> RIb P t o h -> RIb P t o' h' -> exists β, hiso β h h' /\ orel β o o'.
Proof.
  intros HP H H'. destruct t as [u|u]; simpl in *; [by eapply HP|].
  destruct H as (p&x&h4&h5&->&_&Ho&h6&h7&->&Hd67&Hp&HR). destruct (apure_inv (o = OWrap u p) _ Ho) as [-> ->].
  destruct H' as (p'&x'&g4&g5&->&_&Ho'&g6&g7&->&Gd67&Hp'&HR'). destruct (apure_inv (o' = OWrap u p') _ Ho') as [-> ->].
  rewrite !left_id_L. destruct (HP _ _ _ _ _ HR HR') as (β&Hi&Hx).
  exists (Alike.grow β p p'). split; [|constructor; apply grow_new].
  rewrite (map_union_comm h6 h7) // (map_union_comm g6 g7) //. eapply hiso_cell'; [done| |done..].
  split; simpl; [done|by constructor|done].
Qed.

Lemma Rvarb_iso P tys a a' bk i h h' : iso_obj P -> Rvarb C W P tys a bk i h -> Rvarb C W P tys a' bk i h' ->
  exists β, hiso β h h' /\ β a a'.
Proof.
  intros HP H H'.
  destruct H as (t&o&h0&h1&->&Hdj&Ht&h2&h3&->&Hd23&HRI&H). destruct (apure_inv (tys !! i = Some t) _ Ht) as [-> Ht1].
  destruct H' as (t'&o'&g0&g1&->&Gdj&Ht'&g2&g3&->&Gd23&HRI'&H'). destruct (apure_inv (tys !! i = Some t') _ Ht') as [-> Ht2].
  rewrite Ht1 in Ht2. injection Ht2 as <-. rewrite !left_id_L.
  destruct (RIb_iso P t o o' h2 g2 HP HRI HRI') as (β&Hi&Ho). destruct bk.
  - destruct H as (p&h4&h5&->&Hd45&Hb&h6&h7&->&Hd67&Ha&Hp). destruct (apure_inv (bkok C W tys t) _ Hb) as [-> _].
    destruct H' as (p'&g4&g5&->&Gd45&Gb&g6&g7&->&Gd67&Ga&Gp). destruct (apure_inv (bkok C W tys t) _ Gb) as [-> _].
    rewrite !left_id_L in Hd23 Gd23 |- *.
    apply map_disjoint_union_r in Hd23 as [D1 D2]. apply map_disjoint_union_r in Gd23 as [G1 G2].
    exists (Alike.grow (Alike.grow β p p') a a'). split; [|apply grow_new].
    rewrite (map_union_comm h6 h7) // (map_union_comm g6 g7) // !assoc_L.
    eapply hiso_cell'; [eapply hiso_cell'; [done| |exact Hp|exact Gp|done..]| |exact Ha|exact Ga| |].
    + split; simpl; [done|by constructor|done].
    + split; simpl; [done| |done]. do 2 constructor. constructor. apply grow_new.
    + by apply map_disjoint_union_l.
    + by apply map_disjoint_union_l.
  - exists (Alike.grow β a a'). split; [|apply grow_new]. eapply hiso_cell'; [done| |done..].
    split; simpl; [done|by constructor|done].
Qed.

Lemma R_iso v : iso_obj (R v).
Proof.
  induction v as [z ks IH] using uval_ind'. intros u o o' h h' H H'.
  pose proof (R_unfold C W z ks u o) as [Hu]. apply Hu in H. pose proof (R_unfold C W z ks u o') as [Hu']. apply Hu' in H'.
  destruct H as (ls&h0&h1&->&_&Ho&h2&h3&->&_&Hz&H). destruct (apure_inv (o = OUser u z ls) _ Ho) as [-> ->].
  destruct (apure_inv (strict W = true -> z <> None) _ Hz) as [-> _].
  destruct H' as (ls'&g0&g1&->&_&Ho'&g2&g3&->&_&Hz'&H'). destruct (apure_inv (o' = OUser u z ls') _ Ho') as [-> ->].
  destruct (apure_inv (strict W = true -> z <> None) _ Hz') as [-> _]. rewrite !left_id_L.
  cut (exists β, hiso β h3 g3 /\ Forall2 β ls ls').
  { intros (β&?&?). exists β. split; [done|]. by constructor. }
  clear Hu Hu' Ho Hz Ho' Hz'. revert H H'. generalize (ut_members (te C u)) as mems. revert ls ls' h3 g3.
  induction IH as [|k ks Hk _ IHks]; intros ls ls' h3 g3 mems H H'.
  - destruct mems, ls, ls'; simpl in *; try by (destruct H || destruct H').
    unfold hholds in H, H'. simpl in *. exists (fun _ _ => False). 
    assert (h3 = ∅) as -> by exact H. assert (g3 = ∅) as -> by exact H'. split; [apply hiso_empty|constructor].
  - destruct mems as [|tys mems], ls as [|l ls], ls' as [|l' ls']; simpl in *; try by (destruct H || destruct H').
    destruct H as (h1&h2&->&Hdj&H1&H2). destruct H' as (g1&g2&->&Gdj&G1&G2).
    destruct (Rvarb_iso _ _ _ _ _ _ _ _ Hk H1 G1) as (β&Hβ&Hl). destruct (IHks _ _ _ _ _ H2 G2) as (γ&Hγ&Hls).
    exists (cup β γ). split; [by apply hiso_cup|]. constructor; [by left|]. eapply Forall2_sub; [apply cup_r|done].
Qed.

Lemma own_iso b b' α h h' : own C W b α h -> own C W b' α h' -> exists β, hiso β h h' /\ brel β b b'.
Proof.
  intros H H'. destruct b as [tys a|u a], α as [tys1 k|u1 v], b' as [tys' a'|u' a']; simpl in *; try by (destruct H || destruct H').
  - destruct H as (h0&h1&->&_&Ht&H). destruct (apure_inv (tys1 = tys) _ Ht) as [-> ->].
    destruct H' as (g0&g1&->&_&Ht'&H'). destruct (apure_inv (tys = tys') _ Ht') as [-> ->].
    rewrite !left_id_L. destruct (Rvarb_iso _ _ _ _ _ _ _ _ (R_iso k.2) H H') as (β&?&?). by exists β.
  - destruct H as (h0&h1&->&_&Ht&H). destruct (apure_inv (u1 = u) _ Ht) as [-> ->].
    destruct H' as (g0&g1&->&_&Ht'&H'). destruct (apure_inv (u = u') _ Ht') as [-> ->].
    destruct H as (o&h2&h3&->&Hd&Ha&HR). destruct H' as (o'&g2&g3&->&Gd&Ga&GR).
    rewrite !left_id_L. destruct (R_iso v _ _ _ _ _ HR GR) as (β&Hi&Ho). exists (Alike.grow β a a').
    split; [|split; [done|apply grow_new]]. rewrite (map_union_comm h2 h3) // (map_union_comm g2 g3) //.
    eapply hiso_cell'; [done| |done..]. split; simpl; [done|by constructor|done].
Qed.

(** The memory of the names [N], the memory of the other names. *)
Definition rest {A} (N : list name) (m : gmap name A) : gmap name A := foldl (fun m x => delete x m) m N.
Lemma rest_lookup {A} N (m : gmap name A) y : y ∉ N -> rest N m !! y = m !! y.
Proof.
  revert m. induction N as [|x N IH]; intros m Hy; [done|]. simpl. apply not_elem_of_cons in Hy as [Hne Hy].
  rewrite IH // lookup_delete_ne //.
Qed.

Lemma world_split E σ x α h : world C W E σ h -> σ !! x = Some α -> exists b h1 h2, E !! x = Some b /\
  h = h1 ∪ h2 /\ h1 ##ₘ h2 /\ own C W b α h1 /\ world C W (delete x E) (delete x σ) h2.
Proof.
  intros H Ha. apply (hprop_in_entails _ _ (world_delete C W E σ x α Ha)) in H.
  destruct H as (b'&h0&h1&->&Hd&Hb'&h2&h3&->&Hd'&Ho&Hw). destruct (apure_inv (E !! x = Some b') _ Hb') as [-> Hb''].
  exists b', h2, h3. by rewrite left_id_L.
Qed.
Lemma world_absent E σ x h : world C W E σ h -> σ !! x = None -> E !! x = None.
Proof. intros H Ha. exact (hprop_in_entails _ _ (world_none C W E σ x Ha) h H). Qed.

Lemma world_iso N : NoDup N -> forall E1 E2 σ1 σ2 h1 h2,
  world C W E1 σ1 h1 -> world C W E2 σ2 h2 -> (forall x, x ∈ N -> σ1 !! x = σ2 !! x) ->
  exists β g1 g2 r1 r2, h1 = g1 ∪ r1 /\ h2 = g2 ∪ r2 /\ g1 ##ₘ r1 /\ g2 ##ₘ r2 /\
    hiso β g1 g2 /\ envrel β N E1 E2 /\
    world C W (rest N E1) (rest N σ1) r1 /\ world C W (rest N E2) (rest N σ2) r2.
Proof.
  induction 1 as [|x N Hx _ IH]; intros E1 E2 σ1 σ2 h1 h2 H1 H2 Hσ.
  { exists (fun _ _ => False), ∅, ∅, h1, h2. rewrite !left_id_L. do 2 (split; [done|]).
    do 2 (split; [apply map_disjoint_empty_l|]). split; [apply hiso_empty|]. split; [|done].
    intros y Hy. by apply elem_of_nil in Hy. }
  assert (Hσ' : forall y, y ∈ N -> delete x σ1 !! y = delete x σ2 !! y).
  { intros y Hy. rewrite !lookup_delete_ne; [|by intros ->..]. apply Hσ. by right. }
  assert (Hx12 : σ1 !! x = σ2 !! x) by (apply Hσ; left).
  destruct (σ1 !! x) as [α|] eqn:Ea.
  - destruct (world_split _ _ _ _ _ H1 Ea) as (b1&k1&k2&Eb1&->&Dk&Ho1&Hw1).
    destruct (world_split _ _ _ _ _ H2 (eq_sym Hx12)) as (b2&m1&m2&Eb2&->&Dm&Ho2&Hw2).
    destruct (own_iso _ _ _ _ _ Ho1 Ho2) as (γ&Hγ&Hb).
    destruct (IH _ _ _ _ _ _ Hw1 Hw2 Hσ') as (β&g1&g2&r1&r2&->&->&D1&D2&Hβ&He&Hr1&Hr2).
    apply map_disjoint_union_r in Dk as [Dk1 Dk2]. apply map_disjoint_union_r in Dm as [Dm1 Dm2].
    exists (cup γ β), (k1 ∪ g1), (m1 ∪ g2), r1, r2. rewrite !assoc_L. do 2 (split; [done|]).
    split; [by apply map_disjoint_union_l|]. split; [by apply map_disjoint_union_l|].
    split; [by apply hiso_cup|]. split; [|done].
    intros y Hy. apply elem_of_cons in Hy as [->|Hy].
    + rewrite Eb1 Eb2. constructor. eapply brel_sub; [apply cup_l|done].
    + specialize (He y Hy). unfold env in *. rewrite !lookup_delete_ne in He; [|by intros ->..].
      destruct He; constructor. eapply brel_sub; [apply cup_r|done].
  - pose proof (world_absent _ _ _ _ H1 Ea) as En1. pose proof (world_absent _ _ _ _ H2 (eq_sym Hx12)) as En2.
    destruct (IH E1 E2 σ1 σ2 h1 h2 H1 H2) as (β&g1&g2&r1&r2&->&->&D1&D2&Hβ&He&Hr1&Hr2).
    { intros y Hy. apply Hσ. by right. }
    exists β, g1, g2, r1, r2. do 4 (split; [done|]). split; [done|]. simpl. unfold env in *.
    rewrite !delete_notin //. split; [|done].
    intros y Hy. apply elem_of_cons in Hy as [->|Hy]; [rewrite En1 En2; constructor|by apply He].
Qed.
End iso.

(** ** What memory shows *)
Section show.
Context (C : cfg) (β : ren) (m1 m2 : gmap loc cell).
Context (Hm : forall l1 l2, β l1 l2 -> option_Forall2 (crel β) (m1 !! l1) (m2 !! l2)).

Lemma heap_obj_alike p p' : β p p' -> option_Forall2 (orel β) (heap_obj m1 p) (heap_obj m2 p').
Proof.
  intros Hp. unfold heap_obj. destruct (Hm _ _ Hp) as [[k c w] [k' c' w'] [Hk Hc Hw]|]; [|constructor].
  simpl in *. subst. destruct k'; try constructor. destruct Hc; [|constructor]. by destruct w'; constructor.
Qed.
Lemma see_var_alike see1 see2 tys a a' : (forall u o o', orel β o o' -> see1 u o = see2 u o') -> β a a' ->
  see_var m1 see1 tys a = see_var m2 see2 tys a'.
Proof.
  intros Hs Ha. unfold see_var. destruct (Hm _ _ Ha) as [[k c w] [k' c' w'] [Hk Hc Hw]|]; [|done].
  simpl in *. subst. destruct k'; try done. destruct Hc as [o o' Ho|]; [|done]. destruct w' as [w|]; [|done].
  destruct (tys !! _) as [t|]; [|done].
  match goal with |- match ?x with _ => _ end = match ?y with _ => _ end => assert (Hx : option_Forall2 (orel β) x y) end.
  { destruct (bool_decide _); [|by constructor]. destruct Ho as [| |t' p p' Hp| |]; try constructor.
    destruct Hp; [|constructor]. destruct (decide _); [by apply heap_obj_alike|constructor]. }
  destruct Hx as [x x' Hx|]; [|done].
  assert (Hc : option_Forall2 (orel β) (content m1 t x) (content m2 t x')).
  { destruct t; simpl; [by constructor|]. destruct Hx; try constructor.
    destruct (decide _); [by apply heap_obj_alike|constructor]. }
  destruct Hc as [y y' Hy|]; [|done]. by rewrite (Hs _ _ _ Hy).
Qed.
Lemma see_obj_alike n u o o' : orel β o o' -> see_obj C m1 n u o = see_obj C m2 n u o'.
Proof.
  revert u o o'. induction n as [|n IH]; intros u o o' Ho; [done|]. simpl.
  destruct Ho as [u' z ls ls' Hls| | | |]; try done. destruct (decide _); [|done].
  assert (H : see_all (see_var m1 (see_obj C m1 n)) (ut_members (te C u)) ls = see_all (see_var m2 (see_obj C m2 n)) (ut_members (te C u)) ls').
  { generalize (ut_members (te C u)) as mems. induction Hls as [|l l' ls ls' Hl _ IHl]; intros [|tys mems]; simpl; try done.
    rewrite (see_var_alike _ (see_obj C m2 n) tys l l' IH Hl) (IHl mems). done. }
  by rewrite H.
Qed.
Lemma var_holds_alike tys a a' k : β a a' -> var_holds C m1 tys a k <-> var_holds C m2 tys a' k.
Proof.
  intros Ha. unfold var_holds. f_equiv. intros n.
  rewrite (see_var_alike _ (see_obj C m2 n) tys a a' (see_obj_alike n) Ha). done.
Qed.
Lemma obj_holds_alike u a a' v : β a a' -> obj_holds C m1 u a v <-> obj_holds C m2 u a' v.
Proof.
  intros Ha. unfold obj_holds. destruct (Hm _ _ Ha) as [[k c w] [k' c' w'] [Hk Hc Hw]|]; simpl in *; subst; last first.
  { split; intros (?&?&?&?); done. }
  destruct Hc as [o o' Ho|]; last first. { split; intros (?&?&[=]&?). }
  split; intros (x&n&[= -> <- ->]&H).
  - exists o', n. split; [done|]. by rewrite -(see_obj_alike n u _ _ Ho).
  - exists o, n. split; [done|]. by rewrite (see_obj_alike n u _ _ Ho).
Qed.
End show.

(** ** Two runs *)
Section runs.
Context (C : cfg) (st nb : bool) (eqf ltf : uid -> uval -> uval -> bool).
Context (HC : good_env C st nb).
Notation W := (WPar st nb).
Notation reached := (reached C st nb eqf ltf).

Lemma stands_shows E s σ x α : shows C (mem s) E σ -> stands C E s x α <-> σ !! x = Some α.
Proof.
  intros H. destruct α as [tys k|u v]; simpl; split.
  - by apply sees_is_var.
  - by apply is_var_sees.
  - by apply sees_obj_is_obj.
  - by apply is_obj_sees.
Qed.
Lemma same_values_shows N E1 s1 σ1 E2 s2 σ2 : shows C (mem s1) E1 σ1 -> shows C (mem s2) E2 σ2 ->
  same_values C N E1 s1 E2 s2 -> forall x, x ∈ N -> σ1 !! x = σ2 !! x.
Proof.
  intros H1 H2 Hv x Hx. apply option_eq. intros α. specialize (Hv x α Hx).
  by rewrite -(stands_shows E1 s1) // -(stands_shows E2 s2).
Qed.

Lemma stands_alike (β : ren) N E1 s1 E2 s2 x α :
  (forall l1 l2, β l1 l2 -> option_Forall2 (crel β) (mem s1 !! l1) (mem s2 !! l2)) ->
  envrel β N E1 E2 -> x ∈ N -> stands C E1 s1 x α <-> stands C E2 s2 x α.
Proof.
  intros Hm He Hx. specialize (He x Hx). destruct α as [tys k|u v]; simpl; unfold sees, sees_obj.
  - destruct He as [b b' Hb|]; [|by split; intros (?&?&?)].
    destruct b as [t a|t a], b' as [t' a'|t' a']; simpl in Hb; try done; [|by split; intros (?&?&?)].
    destruct Hb as [-> Ha]. split; intros (x0&[= -> <-]&H).
    + exists a'. split; [done|]. by apply (var_holds_alike C β (mem s1) (mem s2) Hm _ a a').
    + exists a. split; [done|]. by apply (var_holds_alike C β (mem s1) (mem s2) Hm _ a a').
  - destruct He as [b b' Hb|]; [|by split; intros (?&?&?)].
    destruct b as [t a|t a], b' as [t' a'|t' a']; simpl in Hb; try done; [by split; intros (?&?&?)|].
    destruct Hb as [-> Ha]. split; intros (x0&[= -> <-]&H).
    + exists a'. split; [done|]. by apply (obj_holds_alike C β (mem s1) (mem s2) Hm _ a a').
    + exists a. split; [done|]. by apply (obj_holds_alike C β (mem s1) (mem s2) Hm _ a a').
Qed.

Lemma orelo_told s1 s2 o o' : orelo s1 s2 o o' -> told (opos s1) o = told (opos s2) o'.
Proof.
  destruct o, o'; simpl; try done; try congruence. destruct 1; simpl; try done; do 2 f_equal; lia.
Qed.
Lemma erel_same β e e' : erel β e e' -> same_event β e e'.
Proof. by destruct 1. Qed.
Lemma brel_address β b b' : brel β b b' -> β (address b) (address b').
Proof. destruct b, b'; simpl; [|done..|]; by intros []. Qed.

(** The start. *)
Lemma start_inv N E1 s1 σ1 E2 s2 σ2 :
  world C W E1 σ1 (mem s1) -> ginv W s1 -> world C W E2 σ2 (mem s2) -> ginv W s2 ->
  same_values C N E1 s1 E2 s2 -> same_luck s1 s2 ->
  exists β, srel s1 s2 β β s1 s2 /\ envrel β N E1 E2 /\
    forall y, y ∉ N -> forall α, stands C E1 s1 y α -> forall E' s', E' !! y = E1 !! y ->
      (forall l, (forall l', ~ β l l') -> (l < nxt s1)%positive -> mem s' !! l = mem s1 !! l) -> stands C E' s' y α.
Proof.
  intros Hw1 Hg1 Hw2 Hg2 Hv Hl.
  assert (Hs1 : shows C (mem s1) E1 σ1) by by eapply world_shows.
  assert (Hs2 : shows C (mem s2) E2 σ2) by by eapply world_shows.
  pose proof (same_values_shows N _ _ _ _ _ _ Hs1 Hs2 Hv) as Hσ.
  destruct (world_iso C W (remove_dups N) (NoDup_remove_dups N) E1 E2 σ1 σ2 _ _ Hw1 Hw2)
    as (β&g1&g2&r1&r2&Em1&Em2&D1&D2&Hβ&He&Hr1&Hr2).
  { intros x Hx. apply Hσ. by rewrite -> elem_of_remove_dups in Hx. }
  destruct Hβ as [Hoto Hβ]. exists β. split; [split|split].
  - done.
  - intros l1 l2 H. destruct (Hβ _ _ H) as (c1&c2&Hc1&Hc2&_). split.
    + eapply (gi_fresh _ _ Hg1). rewrite Em1. by apply lookup_union_Some_l.
    + eapply (gi_fresh _ _ Hg2). rewrite Em2. by apply lookup_union_Some_l.
  - intros l1 l2 H. destruct (Hβ _ _ H) as (c1&c2&Hc1&Hc2&Hc). rewrite Em1 Em2.
    rewrite (lookup_union_Some_l _ _ _ _ Hc1) (lookup_union_Some_l _ _ _ _ Hc2). by constructor.
  - intros l1 l2 H. by left.
  - done.
  - done.
  - done.
  - done.
  - apply Hl.
  - exists 0. lia.
  - by exists [], [].
  - by exists [], [].
  - by exists false.
  - intros x Hx. apply He. by rewrite elem_of_remove_dups.
  - intros y Hy α Ha E' s' HE' Hm.
    assert (Hy' : y ∉ remove_dups N) by by rewrite elem_of_remove_dups.
    assert (Hsub : r1 ⊆ mem s').
    { apply map_subseteq_spec. intros l c Hc. assert (Hc1 : mem s1 !! l = Some c) by (rewrite Em1; by apply lookup_union_Some_r).
      rewrite Hm //; [|by eapply (gi_fresh _ _ Hg1)]. intros l' H. destruct (Hβ _ _ H) as (c1&c2&Hc2&_).
      by eapply (dj_false g1 r1). }
    pose proof (world_shows C W _ _ _ _ Hr1 Hsub) as Hsh.
    apply (stands_shows E1 s1 σ1) in Ha; [|done].
    assert (Hst : stands C (rest (remove_dups N) E1) s' y α).
    { apply (stands_shows _ s' (rest (remove_dups N) σ1)); [done|]. by rewrite rest_lookup. }
    destruct α as [tys k|u v]; simpl in *; destruct Hst as (a&Hea&Hh); exists a; (split; [|done]);
      rewrite HE'; rewrite rest_lookup in Hea; done.
Qed.

Lemma start N E1 s1 E2 s2 : reached E1 s1 -> reached E2 s2 -> same_values C N E1 s1 E2 s2 -> same_luck s1 s2 ->
  exists β, srel s1 s2 β β s1 s2 /\ envrel β N E1 E2 /\
    forall y, y ∉ N -> forall α, stands C E1 s1 y α -> forall E' s', E' !! y = E1 !! y ->
      (forall l, (forall l', ~ β l l') -> (l < nxt s1)%positive -> mem s' !! l = mem s1 !! l) -> stands C E' s' y α.
Proof.
  intros H1 H2. destruct (reached_inv C st nb eqf ltf HC _ _ H1) as (n1&σ1&[Hw1 _ Hg1]).
  destruct (reached_inv C st nb eqf ltf HC _ _ H2) as (n2&σ2&[Hw2 _ Hg2]). by eapply start_inv.
Qed.
Lemma alike_of β β' N E1 s1 E1' s1' E2 s2 E2' s2' : srel s1 s2 β β' s1' s2' -> envrel β N E1 E2 -> envrel β' N E1' E2' ->
  alike C N E1 s1 E1' s1' E2 s2 E2' s2'.
Proof.
  intros Hs' He He'. split.
  - intros x α Hx. eapply stands_alike; [|done|done]. intros. by eapply sr_mem.
  - intros k. by eapply sr_luck.
  - by eapply sr_pos.
  - by eapply sr_ind.
  - destruct (sr_tr _ _ _ _ _ _ Hs') as (t1&t2&Ht1&Ht2&Ht). exists β', t1, t2.
    split; [apply (sr_oto _ _ _ _ _ _ Hs')|]. split; [done|]. split; [done|]. split.
    { eapply Forall2_impl; [exact Ht|]. apply erel_same. }
    intros x Hx. split.
    + destruct (He x Hx); constructor. by eapply (sr_old _ _ _ _ _ _ Hs'), brel_address.
    + destruct (He' x Hx); constructor. by apply brel_address.
Qed.

Lemma runs_alike n (N : list name) h E1 s1 E2 s2 :
  reached E1 s1 -> reached E2 s2 -> same_values C N E1 s1 E2 s2 -> same_luck s1 s2 ->
  (forall c x, c ∈ h -> x ∈ names c -> x ∈ N) ->
  map (told (opos s1)) (run C n eqf ltf h E1 s1).2 = map (told (opos s2)) (run C n eqf ltf h E2 s2).2 /\
  match (run C n eqf ltf h E1 s1).1, (run C n eqf ltf h E2 s2).1 with
  | Done E1' _ s1', Done E2' _ s2' => alike C N E1 s1 E1' s1' E2 s2 E2' s2'
  | Faulted f1, Faulted f2 => f1 = f2
  | _, _ => False
  end.
Proof.
  intros H1 H2 Hv Hl Hh. destruct (start N E1 s1 E2 s2 H1 H2 Hv Hl) as (β&Hs&He&_).
  destruct (al_run s1 s2 β C n eqf ltf N h β E1 E2 s1 s2 Hs He Hh) as [Hr Ho]. split.
  { induction Ho; simpl; [done|]. f_equal; [by apply orelo_told|done]. }
  destruct (run C n eqf ltf h E1 s1).1 as [E1' o1 s1'|f1], (run C n eqf ltf h E2 s2).1 as [E2' o2 s2'|f2]; simpl in Hr; try done.
  destruct Hr as (β'&Hs'&He'&_&_). by eapply alike_of.
Qed.

Lemma run_keeps n (N : list name) h E s E' o s' y : reached E s -> (forall c x, c ∈ h -> x ∈ names c -> x ∈ N) ->
  (run C n eqf ltf h E s).1 = Done E' o s' -> y ∉ N -> kept C E s E' s' y.
Proof.
  intros Hr Hh Hd Hy. destruct (start N E s E s Hr Hr) as (β&Hs&He&Hother); [done|done|].
  destruct (al_run s s β C n eqf ltf N h β E E s s Hs He Hh) as [H _]. rewrite Hd in H. simpl in H.
  destruct H as (β'&Hs'&_&_&Hx). destruct (Hx y Hy) as [Hyy _]. split; [done|].
  intros α Ha. eapply Hother; [done..|]. intros l Hl Hlt.
  apply (sr_out1 _ _ _ _ _ _ Hs'). intros l' Hll.
  destruct (sr_new _ _ _ _ _ _ Hs' _ _ Hll) as [H|[H _]]; [by destruct (Hl l')|lia].
Qed.

(** One command. *)
Lemma agree_admissible E1 s1 E2 s2 c : reached E1 s1 -> reached E2 s2 -> same_values C (names c) E1 s1 E2 s2 ->
  admissible C st nb E1 s1 c -> admissible C st nb E2 s2 c.
Proof.
  intros Hr1 Hr2 Hv (D&σ1&Hs1&Ht&Hu). destruct (reached_shows C st nb eqf ltf HC _ _ Hr2) as [σ2 Hs2].
  pose proof (same_values_shows _ _ _ _ _ _ _ Hs1 Hs2 Hv) as Hσ. exists D, σ2. split; [done|].
  assert (Hvar : forall x tys k, x ∈ names c -> is_var σ1 x tys k <-> is_var σ2 x tys k).
  { intros x tys k Hx. unfold is_var. by rewrite Hσ. }
  assert (Hobj : forall x u v, x ∈ names c -> is_obj σ1 x u v <-> is_obj σ2 x u v).
  { intros x u v Hx. unfold is_obj. by rewrite Hσ. }
  clear Hs1 Hs2 Hv Hr1 Hr2. split.
  - unfold typed in *. destruct c; simpl in *;
      repeat match goal with
      | |- context [σ2 !! ?x] => rewrite -(Hσ x); [|set_solver]
      end; try done;
      try (setoid_rewrite <- Hvar; [|set_solver..]); try (setoid_rewrite <- Hobj; [|set_solver..]); try done.
    destruct Ht as [Hx Ht]. split; [done|].
    assert (Hms : forall y tys k, y ∈ ms -> is_var σ1 y tys k -> is_var σ2 y tys k).
    { intros y tys k Hy. apply Hvar. by right. }
    clear -Ht Hms. induction Ht as [|y tys ms mems [k Hk] _ IH]; constructor.
    + exists k. apply Hms; [left|done].
    + apply IH. intros y' tys' k' Hy. apply Hms. by right.
  - unfold unparked in *. destruct c; simpl in *; try done;
      try (setoid_rewrite <- Hvar; [|set_solver..]); try (setoid_rewrite <- Hobj; [|set_solver..]); try done.
Qed.

Lemma step_alike c E1 s1 E2 s2 E1' o1 s1' :
  reached E1 s1 -> reached E2 s2 -> same_values C (names c) E1 s1 E2 s2 -> same_luck s1 s2 ->
  does C st nb eqf ltf c E1 s1 E1' o1 s1' ->
  exists E2' o2 s2', does C st nb eqf ltf c E2 s2 E2' o2 s2' /\ told (opos s1) o1 = told (opos s2) o2 /\
    alike C (names c) E1 s1 E1' s1' E2 s2 E2' s2'.
Proof.
  intros Hr1 Hr2 Hv Hl [Ha [n0 Hy]]. specialize (Hy n0 (le_n n0)) as Hn.
  pose proof (runs_alike n0 (names c) [c] E1 s1 E2 s2 Hr1 Hr2 Hv Hl) as [Ho H].
  { intros c' x Hc. apply elem_of_list_singleton in Hc as ->. done. }
  simpl in Ho, H. rewrite Hn in Ho, H. destruct (exec C n0 eqf ltf c E2 s2) as [E2' o2 s2'|f] eqn:Ee; simpl in *; [|done].
  injection Ho as Ho. exists E2', o2, s2'. split; [|done]. split; [by apply (agree_admissible E1 s1)|].
  exists n0. intros n Hle. rewrite (exec_mono C n0 n) //; congruence.
Qed.
End runs.

(** For examples. *)
Lemma stands_is C E s x α0 α : stands C E s x α0 -> stands C E s x α <-> α = α0.
Proof.
  intros H. split; [|by intros ->]. intros H'. destruct α0 as [tys k|u v], α as [tys' k'|u' v']; simpl in *;
    destruct H as (a&Ha&H), H' as (a'&Ha'&H'); rewrite Ha in Ha'; simplify_eq.
  - f_equal. by eapply var_holds_unique.
  - f_equal. by eapply obj_holds_unique.
Qed.
Lemma done_by (m : result) : (if m then true else false) = true -> exists E o s, m = Done E o s.
Proof. destruct m; [by do 3 eexists|done]. Qed.
Lemma stands_not C E s x α : E !! x = None -> ~ stands C E s x α.
Proof. intros Hx. destruct α; intros (a&Ha&_); congruence. Qed.
Lemma same_values_by C N E1 s1 E2 s2 :
  Forall (fun x => (E1 !! x = None /\ E2 !! x = None) \/ exists α, stands C E1 s1 x α /\ stands C E2 s2 x α) N ->
  same_values C N E1 s1 E2 s2.
Proof.
  intros H x α Hx. apply elem_of_list_lookup in Hx as [i Hi].
  destruct (Forall_lookup_1 _ _ _ _ H Hi) as [[H1 H2]|(α0&H1&H2)].
  - pose proof (stands_not C E1 s1 x α H1). pose proof (stands_not C E2 s2 x α H2). tauto.
  - by rewrite (stands_is C E1 s1 x α0) // (stands_is C E2 s2 x α0).
Qed.
Lemma luck_by s1 s2 p1 p2 : orc s1 = Samples.throws_at p1 -> orc s2 = Samples.throws_at p2 ->
  (forall k, opos s1 + k ∈ p1 <-> opos s2 + k ∈ p2) -> same_luck s1 s2.
Proof.
  intros H1 H2 H k. rewrite H1 H2. unfold Samples.throws_at. specialize (H k). by repeat case_decide; try tauto.
Qed.
