(** Proofs for PropsDelayed.v. *)
From Coq.ssr Require Import ssreflect.
From Coq Require Import ZArith Lia.
From iris.prelude Require Import prelude.
From stdpp Require Import base gmap list numbers.
From Verif Require Import Base Types Variant Sem Values Client Observe Spec History HistoryProof Reach ReachFacts Lax Queries Ask Compile CompileSpec Delayed DelayedSpec.
From Verif Require CompileFacts QueryFacts Keeps ConstFacts LifeFacts Wp.

(** ** What compiles *)
Lemma delay_iff cxx14 b c k : delay cxx14 b c = Some k <->
  c <> DRVal /\ (b = true \/ cxx14 = true) /\ (k = true <-> c = DCLVal \/ c = DCRVal).
Proof.
  unfold delay. split.
  - destruct c, b, cxx14; simpl; intros [= <-]; (split; [done|]); (split; [by auto|]); (split; [intros Hk|intros [Hk|Hk]]); first [done|by auto].
  - intros (Hc&Hb&Hk). assert (b || cxx14 = true) as -> by (apply orb_true_iff; tauto).
    destruct c; simpl; try done; f_equal; destruct k; try done; try (by symmetry; apply Hk; auto); exfalso;
      try (by destruct (proj1 Hk eq_refl)); assert (false = true) by (apply Hk; auto); done.
Qed.
Lemma delayed_iff cxx14 b k args : args <> [] ->
  delayed_compiles cxx14 b k args = true <-> DRVal ∉ args /\ (b = true \/ cxx14 = true /\ length args <= 3).
Proof.
  intros Hne. assert (Hl : 1 <= length args) by (destruct args; [done|simpl; lia]). unfold delayed_compiles, delayed_visitor. rewrite andb_true_iff.
  assert (Hr : forallb ref_binds args = true <-> DRVal ∉ args).
  { clear. induction args as [|c args IH]; simpl; [split; [intros _; apply not_elem_of_nil|done]|].
    rewrite andb_true_iff IH not_elem_of_cons. destruct c; simpl; intuition congruence. }
  rewrite Hr. apply and_iff_compat_l. destruct b.
  - rewrite CompileFacts.call_result_type //. split; auto.
  - destruct cxx14; [rewrite CompileFacts.call_generic|rewrite CompileFacts.call_generic_old]; split; try done.
    + intros [_ ?]. by right.
    + by intros [?|[_ ?]].
    + intros [?|[? _]]; done.
Qed.

Lemma delayed_const cxx14 b k args : delayed_compiles cxx14 b k args = true ->
  exists o, selected cxx14 (delayed_visitor b k) (length args) = Some o /\ (seen_const (v_cat (delayed_visitor b k)) o <-> k = true).
Proof.
  intros [_ H]%andb_true_iff. unfold call_compiles in H. unfold delayed_visitor in *.
  destruct (selected cxx14 _ (length args)) as [o|] eqn:Ho; [|done]. exists o. split; [done|]. simpl.
  rewrite (CompileFacts.call_const _ _ _ _ _ Ho). destruct k; split; try done; [by left|]. by intros [?|[? _]].
Qed.

(** ** Destructors do not make objects *)
Definition makes_none {A} (m : M A) : Prop := forall s a s', m s = Ok a s' -> nxt s' = nxt s.
Lemma mn_bind {A B} (m : M A) (f : A -> M B) : makes_none m -> (forall a, makes_none (f a)) -> makes_none (bind m f).
Proof.
  intros Hm Hf s b s'. unfold bind. destruct (m s) as [a s1| |] eqn:H; try done. intros Hb. rewrite (Hf _ _ _ _ Hb). by eapply Hm.
Qed.
Lemma mn_noexcept {A} (m : M A) : makes_none m -> makes_none (noexcept m).
Proof. intros Hm s a s'. unfold noexcept. destruct (m s) as [b s1| |] eqn:H; try done. intros [= <- <-]. by eapply Hm. Qed.
Lemma mn_ret {A} (a : A) : makes_none (ret a). Proof. by intros s b s' [= _ <-]. Qed.
Lemma mn_faulty {A} f : makes_none (@faulty A f). Proof. done. Qed.
Lemma mn_get_cell l : makes_none (get_cell l).
Proof. intros s a s'. unfold get_cell. repeat case_match; by intros [=]; subst. Qed.
Lemma mn_destruct l : makes_none (destruct_obj l).
Proof. intros s a s'. unfold destruct_obj. repeat case_match; by intros [=]; subst. Qed.
Lemma mn_drop l : makes_none (drop_cell l).
Proof. intros s a s'. unfold drop_cell. repeat case_match; by intros [=]; subst. Qed.
Lemma mn_free l : makes_none (free l).
Proof. intros s a s'. unfold free. repeat case_match; by intros [=]; subst. Qed.
Ltac mn := repeat first
  [ match goal with H : context [makes_none _] |- _ => solve [simple apply H] end
  | match goal with
    | |- makes_none (bind _ _) => apply mn_bind; [|intros]
    | |- makes_none (noexcept _) => apply mn_noexcept
    | |- makes_none (ret _) => apply mn_ret
    | |- makes_none (faulty _) => apply mn_faulty
    | |- makes_none (get_cell _) => apply mn_get_cell
    | |- makes_none (destruct_obj _) => apply mn_destruct
    | |- makes_none (drop_cell _) => apply mn_drop
    | |- makes_none (free _) => apply mn_free
    | |- makes_none (match ?x with _ => _ end) => destruct x
    end ].
Lemma mn_u_destroy C S : (forall u l, makes_none (us_destroy S u l)) -> forall u l, makes_none (u_destroy C S u l).
Proof.
  intros HS u l.
  assert (Hvd : forall tys a, makes_none (var_destroy C S tys a)).
  { intros tys a. unfold var_destroy, destroy_content, visit, which, read_which, s_destroy, bk_destroy, i_destroy, wrap_ptr, bk_ptr, get_obj. mn. }
  assert (Hms : forall mems ks, makes_none (destroy_members C S mems ks)).
  { induction mems as [|tys mems IH]; intros [|k ks]; simpl; mn. }
  unfold u_destroy, expect_user, get_obj. mn.
Qed.
Lemma mn_sem C n u l : makes_none (us_destroy (sem C n) u l).
Proof. revert u l. induction n as [|n IH]; intros u l; simpl; apply mn_u_destroy; [done|exact IH]. Qed.

(** ** What it does *)
Section run.
Context (C : cfg) (st nb : bool) (eqf ltf : uid -> uval -> uval -> bool) (HC : good_env C st nb).
Notation reached := (reached C st nb eqf ltf).
Notation meanwhile := (meanwhile C st nb eqf ltf).

Lemma op_binding n E c x b : E !! x = Some b -> c <> CDrop x -> outs (fun r => r.1 !! x = Some b) (op C n eqf ltf E c).
Proof.
  intros Hx Hc.
  assert (Hnv : forall y tys k, outs (fun r : env * out => r.1 !! x = Some b) (new_var E y tys k)).
  { intros y tys k s r s'. unfold new_var, need_fresh, bind. destruct (E !! y) eqn:Hy; [done|]. simpl.
    destruct (local_variant k s) as [a s1| |]; try done. intros [= <- _]. simpl.
    rewrite lookup_insert_ne //. congruence. }
  destruct c; unfold op; try (repeat first [apply Hnv|apply outs_ret; done|apply outs_bind; intros|case_match; try apply outs_faulty]; fail).
  - intros s r s'. unfold need_fresh, bind. destruct (E !! x0) eqn:Hy; [done|]. simpl.
    destruct (need_vars _ _ _) as [as_ s1| |]; try done. destruct (stack_obj _ _) as [a s2| |]; try done. intros [= <- _]. simpl.
    rewrite lookup_insert_ne //. congruence.
  - assert (x0 <> x) by congruence. destruct (E !! x0) as [[]|]; [..|apply outs_faulty]; apply outs_bind; intros; apply outs_bind; intros;
      apply outs_ret; simpl; by rewrite lookup_delete_ne.
  - intros s r s'. unfold need_fresh, bind. destruct (E !! z) eqn:Hy; [done|]. simpl.
    destruct (need_var _ _ _) as [as_ s1| |]; try done. destruct (var_get_ref _ _ _ _ _) as [l s2| |]; try done.
    destruct (stack_obj _ _) as [a s3| |]; try done. intros [= <- _]. simpl.
    rewrite lookup_insert_ne //. congruence.
Qed.
Lemma does_binding c E s E' o s' x b : does C st nb eqf ltf c E s E' o s' -> E !! x = Some b -> c <> CDrop x -> E' !! x = Some b.
Proof.
  intros (_&n&Hy) Hx Hc. specialize (Hy n ltac:(lia)). unfold exec in Hy.
  destruct (op C n eqf ltf E c s) as [[E1 o1] s1|e s1|f] eqn:Hop; [| |done].
  - injection Hy as -> -> ->. exact (op_binding n E c x b Hx Hc _ _ _ Hop).
  - by injection Hy as <- _ _.
Qed.
Lemma does_reached c E s E' o s' : reached E s -> does C st nb eqf ltf c E s E' o s' -> reached E' s'.
Proof. intros (orc&h&Hh) (Ha&Hy). exists orc, (h ++ [c]). by eapply history_step. Qed.
Lemma meanwhile_binding x E s E' s' b : meanwhile x E s E' s' -> reached E s -> E !! x = Some b -> reached E' s' /\ E' !! x = Some b.
Proof.
  intros H Hr Hx. induction H as [|E s E1 s1 c o E2 s2 H IH Hd Hc]; [done|]. destruct (IH Hr Hx) as [Hr1 Hx1].
  split; [by eapply does_reached|by eapply does_binding].
Qed.
Lemma alive E s x u l : reached E s -> E !! x = Some (BObj u l) -> exists ob, get_obj l s = Ok ob s.
Proof.
  intros Hr Hx. destruct (reached_shows _ _ _ _ _ HC _ _ Hr) as [σ Hs]. specialize (Hs x). rewrite Hx in Hs.
  destruct (σ !! x) as [[|u' v]|]; [done| |done]. destruct Hs as [_ Hv].
  destruct Hv as (o&n&Hl&_). unfold get_obj, bind, get_cell. rewrite Hl. by exists o.
Qed.
Lemma called_later E s x u l k E' s' xs vs : reached E s -> E !! x = Some (BObj u l) -> meanwhile x E s E' s' ->
  Forall2 (fun y (v : list ity * loc) => E' !! y = Some (BVar v.1 v.2)) xs vs ->
  exists args, Forall2 (fun y (g : arg) => content_of C E' s' y g.1.1 g.1.2 /\ g.2 = false) xs args /\
    forall A n (f : bool -> loc -> list arg -> M A), call_delayed C (sem C n) (Delayed l k) f vs s' = f k l args s'.
Proof.
  intros Hr Hx Hm Hvs. destruct (meanwhile_binding _ _ _ _ _ _ Hm Hr Hx) as [Hr' Hx'].
  destruct (QueryFacts.visit_lvalues C st nb eqf ltf HC E' s' Hr' xs vs Hvs) as (args&Ha&Hv).
  exists args. split; [done|]. intros A n f. unfold call_delayed. rewrite Hv. simpl.
  destruct (alive _ _ _ _ _ Hr' Hx') as [ob Ho]. unfold bind. by rewrite Ho.
Qed.

(** The end of the lifetime. *)
Lemma drop_gone l s s' : drop_cell l s = Ok tt s' -> mem s' !! l = None.
Proof.
  unfold drop_cell. destruct (mem s !! l) as [c|]; [|done]. destruct (cc c); [done|]. destruct (decide _); [done|].
  intros [= <-]. simpl. apply lookup_delete.
Qed.
Lemma gone_dead l s : mem s !! l = None -> get_obj l s = Fault FDeadObject.
Proof. intros H. unfold get_obj, bind, get_cell. by rewrite H. Qed.
Lemma drop_dead E s x u l E' s' : reached E s -> E !! x = Some (BObj u l) -> does C st nb eqf ltf (CDrop x) E s E' ODone s' ->
  mem s' !! l = None /\ (l < nxt s')%positive.
Proof.
  intros Hr Hx Hd. destruct Hd as (_&n0&Hy). specialize (Hy n0 ltac:(lia)). unfold exec, op in Hy. rewrite Hx in Hy. unfold bind in Hy.
  destruct (us_destroy _ u l s) as [[] s1| |] eqn:Hds; try done. destruct (drop_cell l s1) as [[] s2| |] eqn:Hdc; try done.
  simpl in Hy. injection Hy as _ ->. split; [by eapply drop_gone|].
  rewrite (mn_drop _ _ _ _ Hdc) (mn_sem _ _ _ _ _ _ _ Hds).
  destruct (ConstFacts.forest_exists C (mem s) E (LifeFacts.ownership _ _ _ _ _ HC _ _ Hr) x (BObj u l) l Hx) as [c Hc].
  { apply (ConstFacts.forest_owns C (mem s) E (LifeFacts.ownership _ _ _ _ _ HC _ _ Hr) x (BObj u l) Hx). }
  by eapply (Wp.gi_fresh _ _ (LifeFacts.reached_ginv _ _ _ _ _ HC _ _ Hr)).
Qed.
(** Addresses are not used again. *)
Lemma still_dead c E s E' o s' l : reached E s -> does C st nb eqf ltf c E s E' o s' -> mem s !! l = None -> (l < nxt s)%positive ->
  mem s' !! l = None /\ (l < nxt s')%positive.
Proof.
  intros Hr (_&n&Hy) Hl Hn. specialize (Hy n ltac:(lia)). pose proof (LifeFacts.ownership _ _ _ _ _ HC _ _ Hr) as HF.
  assert (Hs : Keeps.sealed (eq l) s).
  { split; [by intros ? <-|]. intros l' c0 ob _ Hc Ho. apply Forall_forall. intros p Hp%elem_of_list_In <-.
    destruct (ConstFacts.forest_owner _ _ _ HF l') as (y&b&Hy'&Hly); [by exists c0|].
    assert (Hp' : l ∈ pointers (cc c0)).
    { pose proof (LifeFacts.reached_cells _ _ _ _ _ HC _ _ _ _ Hr Hc) as Hk. unfold cell_ok in Hk.
      rewrite Ho in Hk. rewrite Ho. clear Hly. destruct ob as [| |? []| |]; simpl in *; done. }
    pose proof (ConstFacts.owns_pointer _ _ _ _ _ _ Hly Hc Hp') as Hpy.
    destruct (ConstFacts.forest_exists _ _ _ HF _ _ _ Hy' Hpy) as [c1 Hc1]. by rewrite Hl in Hc1. }
  unshelve epose proof (Keeps.keeps_op (eq l) C n eqf ltf E c _ s Hs) as Hk.
  { intros x b _ Hb ->. pose proof (ConstFacts.forest_owns _ _ _ HF _ _ Hb) as Ho.
    destruct (ConstFacts.forest_exists _ _ _ HF _ _ _ Hb Ho) as [c0 Hc0]. by rewrite Hl in Hc0. }
  assert (Hkept : Keeps.kept (eq l) s s').
  { unfold exec in Hy. destruct (op C n eqf ltf E c s) as [[E1 o1] s1|e s1|f]; [| |done].
    - injection Hy as _ _ ->. apply Hk.
    - by injection Hy as _ _ ->. }
  destruct Hkept as [[Hlt _] Hm]. split; [by rewrite Hm|by apply Hlt].
Qed.
Lemma afterwards_dead E s E' s' l : afterwards C st nb eqf ltf E s E' s' -> reached E s -> mem s !! l = None -> (l < nxt s)%positive ->
  reached E' s' /\ mem s' !! l = None /\ (l < nxt s')%positive.
Proof.
  intros H Hr Hl Hn. induction H as [|E s E1 s1 c o E2 s2 H IH Hd _]; [done|]. destruct (IH Hr Hl Hn) as (Hr1&Hl1&Hn1).
  split; [by eapply does_reached|by eapply still_dead].
Qed.
Lemma dropped_dead E s x u l E1 s1 E' s' k xs vs : reached E s -> E !! x = Some (BObj u l) ->
  does C st nb eqf ltf (CDrop x) E s E1 ODone s1 -> afterwards C st nb eqf ltf E1 s1 E' s' ->
  Forall2 (fun y (v : list ity * loc) => E' !! y = Some (BVar v.1 v.2)) xs vs ->
  forall A n (f : bool -> loc -> list arg -> M A), call_delayed C (sem C n) (Delayed l k) f vs s' = Fault FDeadObject.
Proof.
  intros Hr Hx Hd Ha Hvs A n f. destruct (drop_dead _ _ _ _ _ _ _ Hr Hx Hd) as [Hl Hn].
  destruct (afterwards_dead _ _ _ _ _ Ha (does_reached _ _ _ _ _ _ Hr Hd) Hl Hn) as (Hr'&Hl'&_).
  destruct (QueryFacts.visit_lvalues C st nb eqf ltf HC E' s' Hr' xs vs Hvs) as (args&_&Hv).
  unfold call_delayed. rewrite Hv. unfold bind. by rewrite gone_dead.
Qed.
Lemma scoped_gone {A} mk (d : loc -> M unit) (body : loc -> M A) s r s' : scoped mk d body s = Ok r s' ->
  exists l s1 s2, mk s = Ok l s1 /\ body l s1 = Ok r s2 /\ mem s' !! l = None.
Proof.
  unfold scoped, bind, finally. destruct (mk s) as [l s1| |] eqn:Hm; try done. destruct (body l s1) as [r' s2|e s2|] eqn:Hb.
  - destruct (d l s2) as [[] s3| |]; try done. destruct (drop_cell l s3) as [[] s4| |] eqn:Hdc; try done. intros [= -> ->].
    exists l, s1, s2. split; [done|]. split; [done|]. by eapply drop_gone.
  - destruct (d l s2) as [[] s3| |]; try done. by destruct (drop_cell l s3) as [[] ?| |].
  - done.
Qed.
Lemma temporary_dead S u init s dl s' vs args : delay_temporary S u init s = Ok dl s' ->
  (forall A (g : list arg -> M A), visit_delayed C S g vs s' = g args s') ->
  forall A (f : bool -> loc -> list arg -> M A), call_delayed C S dl f vs s' = Fault FDeadObject.
Proof.
  intros Hd Hv A f. unfold delay_temporary in Hd. apply scoped_gone in Hd as (l&s1&s2&_&Hb&Hl). injection Hb as <- _.
  unfold call_delayed. rewrite Hv. unfold bind. simpl. by rewrite gone_dead.
Qed.
End run.
