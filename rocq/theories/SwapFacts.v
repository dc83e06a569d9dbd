(** Proofs about swap of equal alternatives. *)
From Coq.ssr Require Import ssreflect.
From Coq Require Import ZArith Lia.
From stdpp Require Import base gmap list numbers.
From Verif Require Import Base Types Dispatch Variant Sem Values Client Observe Spec History Reach Raises CoreFacts LifeFacts OpFacts ObserveFacts ReachFacts SwapSpec.

(** ** In place *)
Lemma sbd_refl o : same_but_data o o. Proof. by destruct o. Qed.
Lemma sbd_trans o1 o2 o3 : same_but_data o1 o2 -> same_but_data o2 o3 -> same_but_data o1 o3.
Proof. destruct o1, o2, o3; simpl; try done; try congruence. intros [-> ->] [-> ->]. done. Qed.
Lemma same_cell_refl c : same_cell c c.
Proof. split; [done|]. split; [done|]. destruct (cc c); constructor. apply sbd_refl. Qed.
Lemma same_cell_trans c1 c2 c3 : same_cell c1 c2 -> same_cell c2 c3 -> same_cell c1 c3.
Proof.
  intros (K1&W1&O1) (K2&W2&O2). split; [congruence|]. split; [congruence|].
  destruct O1; inversion O2; subst; constructor. by eapply sbd_trans.
Qed.
Lemma in_place_refl s : in_place s s.
Proof. split; [done|]. split; [done|]. intros l. destruct (mem s !! l); constructor. apply same_cell_refl. Qed.
Lemma in_place_trans s1 s2 s3 : in_place s1 s2 -> in_place s2 s3 -> in_place s1 s3.
Proof.
  intros (T1&N1&M1) (T2&N2&M2). split; [congruence|]. split; [congruence|]. intros l.
  specialize (M1 l). specialize (M2 l). destruct M1; inversion M2; subst; constructor. by eapply same_cell_trans.
Qed.
Lemma in_place_mem s s' : tr s' = tr s -> nxt s' = nxt s -> mem s' = mem s -> in_place s s'.
Proof. intros Ht Hn Hm. split; [done|]. split; [done|]. intros l. rewrite Hm. by destruct (in_place_refl s) as (_&_&?). Qed.

(** The content's address does not depend on data. *)
Lemma in_place_stored s s' a l : in_place s s' -> stored_at (mem s) a l -> stored_at (mem s') a l.
Proof.
  intros (_&_&Hm) (o&w&Ha&Hc). pose proof (Hm a) as Hma. rewrite Ha in Hma. inversion Hma as [? c' Hcc Heq|]; subst.
  destruct c' as [k' o0 w']. destruct Hcc as (Hk&Hw&Ho). simpl in *. subst. inversion Ho as [? o' Hoo|]; subst.
  exists o', w. split; [done|].
  destruct o as [u z ks|u p|t [p|]|i|u p]; destruct o'; simpl in Hoo; try done; try (destruct Hoo; subst; done); try (by injection Hoo as -> ->).
  injection Hoo as -> ->.
  destruct Hc as (ob&Hp&Hin). pose proof (Hm p) as Hmp. rewrite Hp in Hmp. inversion Hmp as [? c' Hcc Heq'|]; subst.
  destruct c' as [k' o0 w']. destruct Hcc as (Hk&Hw&Ho'). simpl in *. subst. inversion Ho' as [? o' Hoo'|]; subst.
  exists o'. split; [done|]. destruct ob, o'; simpl in *; try done; congruence.
Qed.

Lemma sbd_sym o o' : same_but_data o o' -> same_but_data o' o.
Proof. destruct o, o'; simpl; try done; try congruence. by intros [-> ->]. Qed.
Lemma in_place_sym s s' : in_place s s' -> in_place s' s.
Proof.
  intros (T&N&Hm). split; [done|]. split; [done|]. intros l. specialize (Hm l).
  destruct Hm as [c c' (K&W&O)|]; constructor. split; [done|]. split; [done|].
  destruct O; constructor. by apply sbd_sym.
Qed.
Lemma in_place_stored_iff s s' a l : in_place s s' -> (stored_at (mem s) a l <-> stored_at (mem s') a l).
Proof. intros H. split; apply in_place_stored; [done|by apply in_place_sym]. Qed.

(** [m] works in place. *)
Definition ip {A} (m : M A) (s : state) : Prop :=
  match m s with Ok _ s' | Exn _ s' => in_place s s' | Fault _ => True end.
Lemma ip_bind {A B} (m : M A) (f : A -> M B) s : ip m s -> (forall a s', m s = Ok a s' -> ip (f a) s') -> ip (bind m f) s.
Proof.
  unfold ip, bind. intros Hm Hf. destruct (m s) as [a s'|e s'|x] eqn:Hms; [|done..].
  specialize (Hf a s' eq_refl). destruct (f a s'); [by eapply in_place_trans..|done].
Qed.
Lemma ip_on_exn {A} (m : M A) h s : ip m s -> (forall e s', m s = Exn e s' -> ip h s') -> ip (on_exn m h) s.
Proof.
  unfold ip, on_exn. intros Hm Hf. destruct (m s) as [a s'|e s'|x] eqn:Hms; [done| |done].
  specialize (Hf e s' eq_refl). destruct (h s'); [by eapply in_place_trans..|done].
Qed.
Lemma ip_note z s : ip (note_read z) s. Proof. by apply in_place_mem. Qed.
Lemma ip_maybe k u b s : ip (maybe_throw k u b) s.
Proof.
  unfold ip, maybe_throw. destruct b; [apply in_place_refl|]. unfold choose, throw.
  destruct (decide _); by apply in_place_mem.
Qed.
Lemma expect_inv u l s z ks s' : expect_user u l s = Ok (z, ks) s' ->
  s' = s /\ exists k w, mem s !! l = Some (Cell k (Some (OUser u z ks)) w).
Proof.
  unfold expect_user, get_obj, get_cell, bind. destruct (mem s !! l) as [[k [[u' z' ks'| | | |]|] w]|]; try done.
  simpl. destruct (decide (u' = u)) as [->|]; [|done]. intros [= -> -> ->]. eauto.
Qed.
Lemma ip_expect u l s : ip (expect_user u l) s.
Proof.
  unfold ip. destruct (expect_user u l s) as [[z ks] s'|e s'|] eqn:He; [| |done].
  - apply expect_inv in He as [-> _]. apply in_place_refl.
  - exfalso. revert He. unfold expect_user, get_obj, get_cell, bind.
    destruct (mem s !! l) as [[k [[u' z' ks'| | | |]|] w]|]; try done. simpl. by destruct (decide (u' = u)).
Qed.
(** An object of type [u] with members [ks] lives at [l]. *)
Definition user_at (s : state) (l : loc) (u : uid) (ks : list loc) : Prop :=
  exists k z w, mem s !! l = Some (Cell k (Some (OUser u z ks)) w).
Lemma user_at_in_place s s' l u ks : in_place s s' -> user_at s l u ks -> user_at s' l u ks.
Proof.
  intros (_&_&Hm) (k&z&w&Hl). specialize (Hm l). rewrite Hl in Hm. inversion Hm as [? c' Hcc Heq|]; subst.
  destruct c' as [k' o0 w']. destruct Hcc as (Hk&Hw&Ho). simpl in *. inversion Ho as [? o' Hoo|]; subst.
  destruct o' as [u' z' ks'| | | |]; simpl in Hoo; [|done..]. destruct Hoo as [-> ->]. by exists k, z', w.
Qed.
Lemma user_at_fun s l u ks u' ks' : user_at s l u ks -> user_at s l u' ks' -> u' = u /\ ks' = ks.
Proof. intros (?&?&?&H1) (?&?&?&H2). rewrite H1 in H2. by injection H2 as <- <- <- <-. Qed.
Lemma ip_modify s l u z ks : user_at s l u ks -> ip (modify_obj l (OUser u z ks)) s.
Proof.
  intros (k&z'&w&Hl). unfold ip, modify_obj. rewrite Hl. simpl. destruct (decide _); [|done].
  split; [done|]. split; [done|]. intros i. simpl. destruct (decide (i = l)) as [->|Hi].
  - rewrite Hl lookup_insert. constructor. split; [done|]. split; [done|]. by constructor.
  - rewrite lookup_insert_ne; [|done]. destruct (mem s !! i); constructor. apply same_cell_refl.
Qed.
Lemma ip_ok {A} (m : M A) s a s' : ip m s -> m s = Ok a s' -> in_place s s'.
Proof. unfold ip. intros H Hm. by rewrite Hm in H. Qed.
Lemma ip_exn {A} (m : M A) s e s' : ip m s -> m s = Exn e s' -> in_place s s'.
Proof. unfold ip. intros H Hm. by rewrite Hm in H. Qed.
Lemma ip_scramble u l s : ip (scramble u l) s.
Proof.
  unfold scramble. apply ip_bind; [apply ip_expect|]. intros [z ks] s1 H1. apply expect_inv in H1 as (->&k&w&Hl).
  apply ip_bind; [by apply in_place_mem|]. intros j s2 H2. apply ip_modify.
  unfold choose in H2. injection H2 as _ <-. by exists k, z, w.
Qed.

Section facts.
Context (C : cfg).
Lemma ip_own_swap S b u l r s : ut_members (te C u) = [] -> ip (own_swap C S b u l r) s.
Proof.
  intros Hms. unfold own_swap. rewrite Hms.
  apply ip_bind; [apply ip_expect|]. intros [z1 ls] s1 H1. apply expect_inv in H1 as (->&k1&w1&Hl).
  apply ip_bind; [apply ip_expect|]. intros [z2 rs] s2 H2. apply expect_inv in H2 as (->&k2&w2&Hr).
  assert (Ul : user_at s l u ls) by (by exists k1, z1, w1). assert (Ur : user_at s r u rs) by (by exists k2, z2, w2).
  clear Hl Hr.
  assert (Hm : ip (on_exn (maybe_throw OpSwap u b) (do! scramble u l in scramble u r)) s).
  { apply ip_on_exn; [apply ip_maybe|]. intros e s' _. apply ip_bind; [apply ip_scramble|]. intros [] s'' _. apply ip_scramble. }
  apply ip_bind; [done|]. intros [] s1 H1%(ip_ok _ _ _ _ Hm). apply ip_bind; [apply ip_note|].
  intros [] s2 H2%(ip_ok _ _ _ _ (ip_note _ _)). apply ip_bind; [apply ip_note|].
  intros [] s3 H3%(ip_ok _ _ _ _ (ip_note _ _)).
  pose proof (in_place_trans _ _ _ (in_place_trans _ _ _ H1 H2) H3) as H.
  pose proof (ip_modify _ _ _ z2 _ (user_at_in_place _ _ _ _ _ H Ul)) as Hml.
  apply ip_bind; [done|]. intros [] s4 H4%(ip_ok _ _ _ _ Hml).
  pose proof (in_place_trans _ _ _ H H4) as H'.
  pose proof (ip_modify _ _ _ z1 _ (user_at_in_place _ _ _ _ _ H' Ur)) as Hmr.
  apply ip_bind; [done|]. intros [] s5 _. unfold ip, assign_members.
  destruct ls, rs; try done. apply in_place_refl.
Qed.

Context (st nb : bool) (eqf ltf : uid -> uval -> uval -> bool).
Context (HC : good_env C st nb).
Notation step := (step C st nb eqf ltf).
Notation sees := (sees C).

(** In the state of a step, visiting a variant hands out the content's type and address. *)
Lemma sees_locates E s x tys k : reached C st nb eqf ltf E s -> sees E s x tys k ->
  exists a t l, E !! x = Some (BVar tys a) /\ tys !! k.1.2 = Some t /\ stored_at (mem s) a l /\
    (forall A (f : uid -> loc -> M A), visit_user C tys a f s = f (ity_uid t) l s) /\ which a s = Ok (Z.of_nat k.1.2) s.
Proof.
  intros Hr (a&Hx&Hk). destruct (reached_locates _ _ _ _ _ HC _ _ _ _ _ Hr Hx) as (k'&t&l&Hk'&Ht&_&Hst&Hv&Hw).
  destruct Hk' as (a'&Hx'&Hk'). rewrite Hx in Hx'. injection Hx' as <-.
  rewrite (var_holds_unique _ _ _ _ _ _ Hk Hk'). eauto 10.
Qed.

Lemma swap_in_place x y E s E' o s' tys k1 k2 t b : step (CSwap x y) E s E' o s' ->
  sees E s x tys k1 -> sees E s y tys k2 -> k1.1.2 = k2.1.2 -> tys !! k1.1.2 = Some t ->
  ut_swap (te C (ity_uid t)) = Some b -> ut_members (te C (ity_uid t)) = [] ->
  E' = E /\ in_place s s'.
Proof.
  intros (Hr&_&n&He0) Hx Hy Hi Ht Hsw Hms.
  pose proof (He0 n (le_n n)) as He. clear He0.
  destruct (sees_locates _ _ _ _ _ Hr Hx) as (a1&t1&l1&Ha1&Ht1&_&Hv1&Hw1).
  destruct (sees_locates _ _ _ _ _ Hr Hy) as (a2&t2&l2&Ha2&Ht2&_&Hv2&Hw2).
  rewrite Ht in Ht1. injection Ht1 as <-. rewrite -Hi Ht in Ht2. injection Ht2 as <-.
  revert He. unfold exec, op, need_var, bind. rewrite Ha1 Ha2. simpl.
  unfold var_swap at 1, bind. rewrite Hw1 Hw2 Hi. rewrite decide_True; [|done]. rewrite Hv1. unfold known_get. rewrite Hv2.
  rewrite decide_True; [|done]. simpl.
  assert (Hip : ip (us_swap (sem C n) (ity_uid t) l1 l2) s).
  { assert (Hu : exists S, us_swap (sem C n) (ity_uid t) l1 l2 = own_swap C S b (ity_uid t) l1 l2) by
      (destruct n; simpl; unfold u_swap; rewrite Hsw; eauto).
    destruct Hu as [S ->]. by apply ip_own_swap. }
  unfold ip in Hip. destruct (us_swap (sem C n) (ity_uid t) l1 l2 s) as [[] s1|e s1|f]; [| |done].
  - intros [= <- <- <-]. done.
  - intros [= <- <- <-]. done.
Qed.
Lemma swap_same_nothrow x y E s E' o s' tys k1 k2 t : step (CSwap x y) E s E' o s' ->
  sees E s x tys k1 -> sees E s y tys k2 -> k1.1.2 = k2.1.2 -> tys !! k1.1.2 = Some t ->
  ~ throwing_swap C (ity_uid t) -> o = ODone.
Proof.
  intros H Hx Hy Hi Ht Hn. destruct (step_open _ _ _ _ _ HC _ _ _ _ _ _ H) as (σ&σ'&D&Hs&Hs'&Ha&_&_).
  apply (sees_is_var _ _ _ _ _ _ _ Hs) in Hx, Hy. unfold is_var in *.
  inversion Ha; subst; unfold is_var in *; simplify_map_eq; try done.
  match goal with H : swap_failed _ _ _ _ _ _ |- _ => inversion H; subst end; try done. by simplify_eq.
Qed.
Lemma swap_same_threw x y E s E' e s' tys k1 k2 : step (CSwap x y) E s E' (OThrew e) s' ->
  sees E s x tys k1 -> sees E s y tys k2 -> k1.1.2 = k2.1.2 ->
  E' = E /\ (exists t, tys !! k1.1.2 = Some t /\ throwing_swap C (ity_uid t)) /\
  exists v1 v2, sees E' s' x tys (k1.1, v1) /\ sees E' s' y tys (k2.1, v2).
Proof.
  intros H Hx Hy Hi. destruct (step_open _ _ _ _ _ HC _ _ _ _ _ _ H) as (σ&σ'&D&Hs&Hs'&Ha&_&_).
  destruct H as (_&_&H). apply yields_throw in H. subst E'.
  apply (sees_is_var _ _ _ _ _ _ _ Hs) in Hx, Hy. unfold is_var in *.
  inversion Ha; subst; unfold is_var in *; simplify_map_eq.
  - match goal with H : swap_failed _ _ _ _ _ _ |- _ => inversion H; subst end; try done.
    split; [done|]. split; [eauto|]. destruct ka as [ka va], kb as [kb vb]. simpl in *. subst.
    exists va, vb. split; (eapply is_var_sees; [done|]; unfold is_var).
    + by rewrite lookup_insert.
    + by rewrite lookup_insert_ne // lookup_insert.
  - split; [done|]. split; [eauto|]. exists v', v'.
    split; (eapply is_var_sees; [done|]); unfold is_var; by rewrite lookup_insert.
Qed.
End facts.
