(** Const operands (proofs). *)
From Coq.ssr Require Import ssreflect.
From Coq Require Import ZArith Lia.
From iris.prelude Require Import prelude.
From stdpp Require Import gmap list numbers.
From Verif Require Import Base Types Variant Sem Values Client Observe Spec History Reach Owned PlaceSpec ConstSpec Keeps.
From Verif Require Wp LifeFacts PlaceFacts HistoryProof.

Lemma in_concat {A} (x : A) ls : x ∈ concat ls <-> exists l, x ∈ l /\ l ∈ ls.
Proof.
  induction ls as [|l ls IH]; simpl.
  - split; [by intros ?%elem_of_nil|]. by intros (l&_&?%elem_of_nil).
  - rewrite elem_of_app IH. split.
    + intros [H|(l'&H&H')]; [exists l|exists l']; (split; [done|]); [by left|by right].
    + intros (l'&H&[->|H']%elem_of_cons); [by left|]. right. by exists l'.
Qed.

(** ** What a name owns depends on the memory it owns *)
Section local.
Context (C : cfg) (m m' : gmap loc cell).
Notation same ls := (forall l, l ∈ ls -> m' !! l = m !! l).
Definition floc (f g : uid -> obj -> option (list loc)) : Prop := forall u o ls, f u o = Some ls -> same ls -> g u o = Some ls.
Lemma heap_same p o : heap_obj m p = Some o -> m' !! p = m !! p -> heap_obj m' p = Some o.
Proof. unfold heap_obj. by intros ? ->. Qed.
Lemma owned_by_local f g t o ls : floc f g -> owned_by m f t o = Some ls -> same ls -> owned_by m' g t o = Some ls.
Proof.
  intros H. destruct t; simpl; [apply H|]. destruct o; try done. destruct (heap_obj m p) as [o'|] eqn:Hp; [|done].
  destruct (f u o') as [r|] eqn:E; [|done]. intros [= <-] Hs. rewrite (heap_same _ _ Hp); last (apply Hs; by left).
  rewrite (H _ _ _ E) //. intros l Hl. apply Hs. by right.
Qed.
Lemma owned_var_local f g tys a ls : floc f g -> owned_var m f tys a = Some ls -> same ls -> owned_var m' g tys a = Some ls.
Proof.
  intros H. unfold owned_var. destruct (m !! a) as [[? [o|] [w|]]|] eqn:Ha; try done. case_bool_decide.
  - destruct (tys !! _) as [t|] eqn:Ht; [|done]. destruct o as [| |? [p|]| |]; try done. destruct (heap_obj m p) as [o'|] eqn:Hp; [|done].
    destruct (owned_by m f t o') as [r|] eqn:E; [|done]. intros [= <-] Hs. rewrite (Hs a); last by left. rewrite Ha bool_decide_true // Ht.
    rewrite (heap_same _ _ Hp); last (apply Hs; right; by left). rewrite (owned_by_local _ _ _ _ _ H E) //.
    intros l Hl. apply Hs. right. by right.
  - destruct (tys !! _) as [t|] eqn:Ht; [|done].
    destruct (owned_by m f t o) as [r|] eqn:E; [|done]. intros [= <-] Hs. rewrite (Hs a); last by left. rewrite Ha bool_decide_false // Ht.
    rewrite (owned_by_local _ _ _ _ _ H E) //. intros l Hl. apply Hs. by right.
Qed.
Lemma owned_all_local f g mems : floc f g -> forall ls r,
  owned_all (owned_var m f) mems ls = Some r -> same r -> owned_all (owned_var m' g) mems ls = Some r.
Proof.
  intros H. induction mems as [|tys mems IH]; intros [|l ls] r; simpl; try done.
  destruct (owned_var m f tys l) as [r1|] eqn:E1; [|done].
  destruct (owned_all (owned_var m f) mems ls) as [r2|] eqn:E2; [|done]. intros [= <-] Hs.
  rewrite (owned_var_local _ _ _ _ _ H E1); last (intros l' Hl'; apply Hs, elem_of_app; by left).
  rewrite (IH _ _ E2) //. intros l' Hl'; apply Hs, elem_of_app; by right.
Qed.
Lemma owned_obj_local n : floc (owned_obj C m n) (owned_obj C m' n).
Proof.
  induction n as [|n IH]; intros u o ls; [done|]. simpl. destruct o; try done. by apply owned_all_local.
Qed.
Lemma owned_bnd_local n b ls : owned_bnd C m n b = Some ls -> same ls -> owned_bnd C m' n b = Some ls.
Proof.
  destruct b as [tys a|u a]; simpl; [apply owned_var_local, owned_obj_local|].
  destruct (m !! a) as [[? [o|] ?]|] eqn:Ha; try done.
  destruct (owned_obj C m n u o) as [r|] eqn:E; [|done]. intros [= <-] Hs. rewrite (Hs a); last by left. rewrite Ha.
  rewrite (owned_obj_local _ _ _ _ E) //. intros l Hl. apply Hs. by right.
Qed.
Lemma owns_list n b ls l : owned_bnd C m n b = Some ls -> (owns C m b l <-> l ∈ ls).
Proof.
  intros H. split; [|by exists n, ls]. intros (n'&ls'&H'&Hl).
  assert (Some ls' = Some ls) as [= ->]; [|done].
  rewrite -(PlaceFacts.owned_bnd_mono C m n (n `max` n') b ls) //; last lia.
  symmetry. apply (PlaceFacts.owned_bnd_mono C m n' (n `max` n')); [lia|done].
Qed.
End local.

Lemma owns_local C m m' b l0 : owns C m b l0 -> (forall l, owns C m b l -> m' !! l = m !! l) ->
  forall l, owns C m' b l <-> owns C m b l.
Proof.
  intros (n&ls&H&_) Hs l. pose proof (owns_list C m n b ls) as Hl.
  assert (H' : owned_bnd C m' n b = Some ls); [apply (owned_bnd_local C m m' n b ls H); intros; apply Hs; by apply Hl|].
  by rewrite (owns_list C m' n b ls l H') Hl.
Qed.
Lemma owns_root C m b l : owns C m b l -> owns C m b (root b).
Proof.
  intros (n&ls&H&_). exists n, ls. split; [done|]. rewrite (LifeFacts.owned_bnd_ptrs _ _ _ _ _ H). by left.
Qed.
Lemma owns_pointer C m b l c p : owns C m b l -> m !! l = Some c -> p ∈ pointers (cc c) -> owns C m b p.
Proof.
  intros (n&ls&H&Hl) Hc Hp. exists n, ls. split; [done|]. rewrite (LifeFacts.owned_bnd_ptrs _ _ _ _ _ H). right.
  apply in_concat. exists (LifeFacts.ptrs m l). split; [unfold LifeFacts.ptrs; by rewrite Hc|].
  by apply elem_of_list_fmap_1.
Qed.

(** ** Names in a forest *)
Lemma mapM_each {A B} (f : A -> option B) l k x : mapM f l = Some k -> x ∈ l -> exists y, f x = Some y /\ y ∈ k.
Proof.
  intros H%mapM_Some. induction H as [|a b l k Hab H IH]; intros Hx; [by apply elem_of_nil in Hx|].
  apply elem_of_cons in Hx as [->|Hx].
  - exists b. split; [done|]. by left.
  - destruct (IH Hx) as (y&?&?). exists y. split; [done|]. by right.
Qed.
Lemma mapM_some {A B} (f : A -> option B) l k y : mapM f l = Some k -> y ∈ k -> exists x, x ∈ l /\ f x = Some y.
Proof.
  intros H%mapM_Some. induction H as [|a b l k Hab H IH]; intros Hx; [by apply elem_of_nil in Hx|].
  apply elem_of_cons in Hx as [->|Hx].
  - exists a. split; [by left|done].
  - destruct (IH Hx) as (x&?&?). exists x. split; [by right|done].
Qed.
Lemma mapM_disjoint {A B} (f : A -> option (list B)) l k x x' y y' b : mapM f l = Some k -> NoDup (concat k) ->
  x ∈ l -> x' ∈ l -> f x = Some y -> f x' = Some y' -> b ∈ y -> b ∈ y' -> x = x'.
Proof.
  intros H%mapM_Some. induction H as [|a c l k Hac H IH]; intros Hn Hx Hx' Hy Hy' Hb Hb'; [by apply elem_of_nil in Hx|].
  simpl in Hn. apply NoDup_app in Hn as (_&Hd&Hn).
  assert (Hmem : forall z w, z ∈ l -> f z = Some w -> forall b, b ∈ w -> b ∈ concat k).
  { intros z w Hz Hw b0 Hb0. apply in_concat. exists w. split; [done|].
    destruct (mapM_each f l k z) as (w'&Hw'&?); [by apply mapM_Some|done|]. congruence. }
  apply elem_of_cons in Hx as [->|Hx], Hx' as [->|Hx'].
  - done.
  - rewrite Hac in Hy. injection Hy as ->. by destruct (Hd b Hb); eapply Hmem.
  - rewrite Hac in Hy'. injection Hy' as ->. by destruct (Hd b Hb'); eapply Hmem.
  - by apply IH.
Qed.

Section forest.
Context (C : cfg) (m : gmap loc cell) (E : env).
Hypothesis HF : forest C m E.
Lemma forest_owns z b : E !! z = Some b -> owns C m b (root b).
Proof.
  destruct HF as (n&lss&Hm&_&_). intros Hz%elem_of_map_to_list.
  destruct (mapM_each _ _ _ _ Hm Hz) as (ls&Hls&_). exists n, ls. split; [done|].
  rewrite (LifeFacts.owned_bnd_ptrs _ _ _ _ _ Hls). by left.
Qed.
Lemma forest_owner l : is_Some (m !! l) -> exists z b, E !! z = Some b /\ owns C m b l.
Proof.
  destruct HF as (n&lss&Hm&_&Hin). intros Hl%Hin. apply in_concat in Hl as (ls&Hl&Hls).
  destruct (mapM_some _ _ _ _ Hm Hls) as ([z b]&Hz%elem_of_map_to_list&Hb). exists z, b. split; [done|]. by exists n, ls.
Qed.
Lemma forest_exists z b l : E !! z = Some b -> owns C m b l -> is_Some (m !! l).
Proof.
  destruct HF as (n&lss&Hm&_&Hin). intros Hz%elem_of_map_to_list Hl. apply Hin, in_concat.
  destruct (mapM_each _ _ _ _ Hm Hz) as (ls&Hls&?). exists ls. split; [by apply (owns_list C m n b ls l Hls)|done].
Qed.
Lemma forest_one z z' b b' l : E !! z = Some b -> E !! z' = Some b' -> owns C m b l -> owns C m b' l -> z = z'.
Proof.
  destruct HF as (n&lss&Hm&Hnd&Hin). intros Hz%elem_of_map_to_list Hz'%elem_of_map_to_list Hl Hl'.
  destruct (mapM_each _ _ _ _ Hm Hz) as (ls&Hls&_), (mapM_each _ _ _ _ Hm Hz') as (ls'&Hls'&_).
  assert ((z, b) = (z', b')) as [= ]; [|done].
  eapply (mapM_disjoint _ _ _ _ _ ls ls' l Hm Hnd); try done; by eapply owns_list.
Qed.
End forest.

(** ** Steps *)
Section const.
Context (C : cfg) (st nb : bool) (eqf ltf : uid -> uval -> uval -> bool).
Context (HC : good_env C st nb).
Notation reached := (reached C st nb eqf ltf).
Notation step := (step C st nb eqf ltf).

(** The memory of the variables that are not modified. *)
Definition unmodified (c : cmd) (E : env) (s : state) (l : loc) : Prop :=
  exists z b, z ∉ modifies c /\ E !! z = Some b /\ owns C (mem s) b l.

Lemma reached_sealed c E s : reached E s -> sealed (unmodified c E s) s.
Proof.
  intros Hr. pose proof (LifeFacts.ownership _ _ _ _ _ HC _ _ Hr) as HF. split.
  - intros l (z&b&Hz&Hb&Hl). destruct (forest_exists _ _ _ HF _ _ _ Hb Hl) as [c0 Hc].
    by eapply (Wp.gi_fresh _ _ (LifeFacts.reached_ginv _ _ _ _ _ HC _ _ Hr)).
  - intros l c0 o Hl Hc Ho. apply Forall_forall. intros p Hp%elem_of_list_In (z&b&Hz&Hb&Hpz).
    destruct (forest_owner _ _ _ HF l) as (y&b'&Hy&Hly); [by exists c0|].
    assert (Hp' : p ∈ pointers (cc c0)).
    { pose proof (LifeFacts.reached_cells _ _ _ _ _ HC _ _ _ _ Hr Hc) as Hk. unfold cell_ok in Hk.
      rewrite Ho in Hk. rewrite Ho. clear Hl Hly. destruct o as [| |? []| |]; simpl in *; done. }
    pose proof (owns_pointer _ _ _ _ _ _ Hly Hc Hp') as Hpy.
    pose proof (forest_one _ _ _ HF _ _ _ _ _ Hb Hy Hpz Hpy) as ->. apply Hl. by exists y, b'.
Qed.

Lemma op_const c E s E' o s' : step c E s E' o s' ->
  (forall z b, z ∉ modifies c -> E !! z = Some b -> E' !! z = Some b) /\
  forall l, unmodified c E s l -> mem s' !! l = mem s !! l.
Proof.
  intros (Hr&_&n&Hy). specialize (Hy n (le_n n)). pose proof (LifeFacts.ownership _ _ _ _ _ HC _ _ Hr) as HF.
  unshelve epose proof (keeps_op (unmodified c E s) C n eqf ltf E c _ s (reached_sealed c E s Hr)) as Hk.
  { intros x b Hx Hb (z&b'&Hz&Hb'&Hl). pose proof (forest_owns _ _ _ HF _ _ Hb) as Ho.
    by rewrite (forest_one _ _ _ HF _ _ _ _ _ Hb' Hb Hl Ho) in Hz. }
  unfold exec in Hy. destruct (op C n eqf ltf E c s) as [[E1 o1] s1|e s1|f]; [| |done].
  - injection Hy as -> -> ->. destruct Hk as [[_ Hk] HQ]. by split.
  - injection Hy as -> _ ->. destruct Hk as [_ Hk]. by split.
Qed.

Lemma const_owned c E s E' o s' z b : step c E s E' o s' -> z ∉ modifies c -> E !! z = Some b ->
  E' !! z = Some b /\ forall l, (owns C (mem s') b l <-> owns C (mem s) b l) /\
    (owns C (mem s) b l -> mem s' !! l = mem s !! l).
Proof.
  intros H Hz Hb. destruct (op_const _ _ _ _ _ _ H) as [HE Hm]. split; [by apply HE|].
  assert (Hm' : forall l, owns C (mem s) b l -> mem s' !! l = mem s !! l) by (intros l Hl; apply Hm; by exists z, b).
  intros l. split; [|apply Hm']. eapply owns_local; [|done].
  eapply forest_owns; [|done]. by eapply LifeFacts.ownership; [|apply H].
Qed.
Lemma const_content c E s E' o s' z l : step c E s E' o s' -> z ∉ modifies c -> content_at E s z l -> content_at E' s' z l.
Proof.
  intros H Hz (tys&a&Hb&o0&w&Ha&Hl). destruct (const_owned _ _ _ _ _ _ _ _ H Hz Hb) as [Hb' Hm].
  assert (Hroot : owns C (mem s) (BVar tys a) a).
  { eapply (forest_owns _ _ _ (LifeFacts.ownership _ _ _ _ _ HC _ _ (proj1 H))). done. }
  exists tys, a. split; [done|]. exists o0, w. rewrite (proj2 (Hm a) Hroot). split; [done|].
  destruct o0 as [| |t [p|]| |]; try done. destruct Hl as (o'&Hp&Hl). exists o'. split; [|done].
  rewrite (proj2 (Hm p)) //. eapply owns_pointer; [done..|]. simpl. by left.
Qed.
Lemma const_all c E s E' o s' l : step c E s E' o s' -> modifies c = [] -> is_Some (mem s !! l) -> mem s' !! l = mem s !! l.
Proof.
  intros H Hc Hl. destruct (op_const _ _ _ _ _ _ H) as [_ Hm]. apply Hm.
  destruct (forest_owner _ _ _ (LifeFacts.ownership _ _ _ _ _ HC _ _ (proj1 H)) l Hl) as (z&b&Hz&Hb).
  exists z, b. rewrite Hc. split; [apply not_elem_of_nil|done].
Qed.

Lemma reading_owned z E s E' s' b : reading C st nb eqf ltf z E s E' s' -> E !! z = Some b ->
  E' !! z = Some b /\ forall l, (owns C (mem s') b l <-> owns C (mem s) b l) /\
    (owns C (mem s) b l -> mem s' !! l = mem s !! l).
Proof.
  induction 1 as [E s|E s c E1 o s1 E2 s2 H Hz _ IH]; [done|]. intros Hb.
  destruct (const_owned _ _ _ _ _ _ _ _ H Hz Hb) as [Hb1 H1]. destruct (IH Hb1) as [Hb2 H2].
  split; [done|]. intros l. destruct (H1 l) as [E1' F1], (H2 l) as [E2' F2]. split; [by rewrite E2'|].
  intros Hl. rewrite F2; [by apply F1|by apply E1'].
Qed.
Lemma reading_content z E s E' s' l : reading C st nb eqf ltf z E s E' s' -> content_at E s z l -> content_at E' s' z l.
Proof.
  induction 1 as [E s|E s c E1 o s1 E2 s2 H Hz _ IH]; [done|]. intros Hl. apply IH. by eapply const_content.
Qed.
End const.
