(** Reachable states: proofs behind the properties. *)
From stdpp Require Import gmap.
From iris.proofmode Require Import tactics.
From Verif Require Import Base Types TypesFacts Dispatch Variant Sem Values ValuesFacts Client Observe ObserveFacts Spec Trace TraceFacts History Owned OwnedFacts.
From Verif Require Import Heap Wp Rep Link World ClientProof Levels HistoryProof Reach.

Lemma sees_is_var C E s σ x tys k : shows C (mem s) E σ -> sees C E s x tys k -> is_var σ x tys k.
Proof.
  intros Hs (a&Ha&Hk). specialize (Hs x). unfold is_var.
  destruct (E !! x) as [b|] eqn:Hx; [|done]. injection Ha as ->.
  destruct (σ !! x) as [[tys' k'|u v]|]; try done. destruct Hs as [-> Hs]. do 2 f_equal. by eapply var_holds_unique.
Qed.
Lemma is_var_sees C E s σ x tys k : shows C (mem s) E σ -> is_var σ x tys k -> sees C E s x tys k.
Proof.
  intros Hs Hx. specialize (Hs x). unfold is_var in Hx.
  destruct (E !! x) as [[tys' a|u a]|] eqn:He; rewrite Hx in Hs; [|done..].
  destruct Hs as [-> Hs]. exists a. by split.
Qed.
Lemma sees_obj_is_obj C E s σ x u v : shows C (mem s) E σ -> sees_obj C E s x u v -> is_obj σ x u v.
Proof.
  intros Hs (a&Ha&Hk). specialize (Hs x). unfold is_obj.
  destruct (E !! x) as [b|] eqn:Hx; [|done]. injection Ha as ->.
  destruct (σ !! x) as [[tys' k'|u' v']|]; try done. destruct Hs as [-> Hs]. do 2 f_equal. by eapply obj_holds_unique.
Qed.
Lemma is_obj_sees C E s σ x u v : shows C (mem s) E σ -> is_obj σ x u v -> sees_obj C E s x u v.
Proof.
  intros Hs Hx. specialize (Hs x). unfold is_obj in Hx.
  destruct (E !! x) as [[tys' a|u' a]|] eqn:He; rewrite Hx in Hs; [done| |done].
  destruct Hs as [-> Hs]. exists a. by split.
Qed.

Section facts.
Context (C : cfg) (st nb : bool) (eqf ltf : uid -> uval -> uval -> bool).
Context (HC : good_env C st nb).
Notation reached := (reached C st nb eqf ltf).
Notation step := (step C st nb eqf ltf).
Notation astep := (Spec.astep C eqf ltf).

Lemma step_spec c E s E' o s' : step c E s E' o s' ->
  exists σ σ', shows C (mem s) E σ /\ shows C (mem s') E' σ' /\ astep σ c o σ' /\ tells o s s' /\ reached E' s'.
Proof.
  intros ((orc&h&Hh)&Ha&Hy). destruct (history_inv _ _ _ _ _ HC _ _ _ _ Hh) as (B&σ&Hi).
  destruct (history_step_spec _ _ _ _ _ HC _ _ _ _ _ _ _ _ σ Hh Ha Hy) as (σ'&Hs'&Hst&Ht); [by eapply inv_shows|].
  exists σ, σ'. split; [by eapply inv_shows|]. do 3 (split; [done|]). exists orc, (h ++ [c]). by eapply history_step.
Qed.

(** Progress: no permitted command faults. *)
Lemma progress E s c : reached E s -> admissible C st nb E s c ->
  exists E' o s', yields C eqf ltf c E s (Done E' o s').
Proof.
  intros (orc&h&Hh) Ha. destruct (history_next _ _ _ _ _ HC _ _ _ _ _ Hh Ha) as (E'&o&s'&_&_&Hy&_). by exists E', o, s'.
Qed.

Lemma reached_shows E s : reached E s -> exists σ, shows C (mem s) E σ.
Proof.
  intros (orc&h&Hh). destruct (history_inv _ _ _ _ _ HC _ _ _ _ Hh) as (B&σ&Hi). exists σ. by eapply inv_shows.
Qed.

(** Every live variant holds something. *)
Lemma reached_sees E s x tys a : reached E s -> E !! x = Some (BVar tys a) ->
  exists k t, sees C E s x tys k /\ tys !! k.1.2 = Some t.
Proof.
  intros Hr Hx. destruct (reached_shows _ _ Hr) as [σ Hs]. specialize (Hs x).
  rewrite Hx in Hs. destruct (σ !! x) as [[tys' k|u v]|]; [|done..].
  destruct Hs as [-> [n Hs]]. destruct k as [[bk i] v]. exists (bk, i, v).
  assert (exists t, tys !! i = Some t) as [t Ht].
  { unfold see_var in Hs. destruct (mem s !! a) as [[[] [o|] [w|]]|]; try done.
    destruct (tys !! _) as [t|] eqn:Ht in Hs; [|done].
    repeat match type of Hs with match ?x with _ => _ end = _ => destruct x; [|done] end.
    injection Hs as _ <- _. by exists t. }
  exists t. split; [|done]. exists a. split; [done|]. by exists n.
Qed.

End facts.

Section envs.
Context (C : cfg) (eqf ltf : uid -> uval -> uval -> bool).

(** A command only binds and unbinds names it mentions. *)
Lemma op_env n E c : outs (fun r => forall z, z ∉ names c -> r.1 !! z = E !! z) (op C n eqf ltf E c).
Proof.
  destruct c; unfold op, new_var; repeat first
    [ apply outs_ret; intros z1 Hz; simpl in *; try done;
      apply not_elem_of_cons in Hz as [Hz _];
      first [rewrite lookup_insert_ne; [done|by intros ->]|rewrite lookup_delete_ne; [done|by intros ->]]
    | apply outs_faulty
    | apply outs_bind; intros
    | match goal with |- outs _ (match ?x with _ => _ end) => destruct x end ].
Qed.
Lemma yields_env c E s E' o s' z : yields C eqf ltf c E s (Done E' o s') -> z ∉ names c -> E' !! z = E !! z.
Proof.
  intros [n Hn] Hz. specialize (Hn n ltac:(done)). unfold exec in Hn.
  pose proof (op_env n E c s) as Ho. destruct (op C n eqf ltf E c s) as [[E1 o1] s1|e s1|f]; [|by injection Hn as <- _ _|done].
  injection Hn as -> _ _. by apply (Ho _ _ eq_refl z).
Qed.

Lemma astep_other σ c o σ' z : Spec.astep C eqf ltf σ c o σ' -> z ∉ names c -> σ' !! z = σ !! z.
Proof.
  intros Hs Hz. destruct Hs; simpl in Hz; repeat match goal with
    | H : _ ∉ _ :: _ |- _ => apply not_elem_of_cons in H as [? ?] end;
  repeat (rewrite lookup_insert_ne; [|congruence]); try done; rewrite lookup_delete_ne; [done|by intros ->].
Qed.

Lemma shows_same E s E' s' σ σ' z : shows C (mem s) E σ -> shows C (mem s') E' σ' ->
  E' !! z = E !! z -> σ' !! z = σ !! z -> same_at C E s E' s' z.
Proof.
  intros Hs Hs' HE Hσ. split; [done|]. split; intros.
  - split; intros H.
    + eapply is_var_sees; [done|]. unfold is_var. rewrite Hσ. by eapply sees_is_var.
    + eapply is_var_sees; [done|]. unfold is_var. rewrite -Hσ. by eapply sees_is_var.
  - split; intros H.
    + eapply is_obj_sees; [done|]. unfold is_obj. rewrite Hσ. by eapply sees_obj_is_obj.
    + eapply is_obj_sees; [done|]. unfold is_obj. rewrite -Hσ. by eapply sees_obj_is_obj.
Qed.
End envs.
