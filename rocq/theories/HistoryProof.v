(** Histories follow the specification (proofs). *)
From stdpp Require Import gmap.
From iris.proofmode Require Import tactics.
From Verif Require Import Base Types Dispatch Variant Sem Values ValuesFacts Client Observe ObserveFacts Spec Trace History Owned OwnedFacts.
From Verif Require Import Heap Wp Rep Link World ClientProof Levels.

Section history.
Context (C : cfg) (st nb : bool) (eqf ltf : uid -> uval -> uval -> bool).
Context (HC : good_env C st nb).
Notation W := (WPar st nb).
Notation history := (history C st nb eqf ltf).
Notation admissible := (admissible C st nb).
Notation yields := (yields C eqf ltf).
Let Hwf : wf_env C W := good_env_wf C st nb HC.

Record inv (B : nat) (E : env) (s : state) (σ : astate) : Prop := Inv {
  inv_world : world C W E σ (mem s);
  inv_aok : aok C W B σ;
  inv_ginv : ginv W s
}.

Lemma inv_shows B E s σ : inv B E s σ -> shows C (mem s) E σ.
Proof. intros [H _ _]. by eapply world_shows. Qed.

Lemma ginv_init orc : ginv W (init orc).
Proof.
  split; simpl.
  - intros l c. by rewrite lookup_empty.
  - intros l. rewrite /tag_at lookup_empty //.
  - intros l. exists BNever. split; [done|]. split; [done|]. intros (c&Hc&_). by rewrite lookup_empty in Hc.
  - intros e He. by apply elem_of_nil in He.
  - done.
  - intros _ l He. by apply elem_of_nil in He.
Qed.

Lemma inv_init orc : inv 0 ∅ (init orc) ∅.
Proof.
  split.
  - simpl. apply (hprop_in_entails _ _ (bi.equiv_entails_1_2 _ _ (world_empty C W))). done.
  - intros x α. by rewrite lookup_empty.
  - apply ginv_init.
Qed.

Definition outs {A} (P : A -> Prop) (m : M A) : Prop := forall s a s', m s = Ok a s' -> P a.
Lemma outs_bind {A B} (P : B -> Prop) (m : M A) f : (forall a, outs P (f a)) -> outs P (bind m f).
Proof. intros H s b s'. unfold bind. destruct (m s); [apply H|done..]. Qed.
Lemma outs_ret {A} (P : A -> Prop) a : P a -> outs P (ret a).
Proof. intros H s b s' [= <- _]. done. Qed.
Lemma outs_faulty {A} (P : A -> Prop) f : outs P (faulty f).
Proof. intros s b s' [=]. Qed.

(** A command that returns has not thrown. *)
Lemma op_returns n E c : outs (fun r => forall e, r.2 <> OThrew e) (op C n eqf ltf E c).
Proof.
  destruct c; unfold op, new_var; repeat first
    [ apply outs_ret; intros; simpl; discriminate
    | apply outs_faulty
    | apply outs_bind; intros
    | match goal with |- outs _ (match ?x with _ => _ end) => destruct x end ].
Qed.

(** What an outcome says about exceptions. *)
Definition tells (o : out) (s s' : state) : Prop :=
  match o with OThrew e => thrown s' = e :: thrown s | _ => thrown s' = thrown s end.

Lemma inv_exec n D B E s σ c : D <= B -> B <= S n -> inv B E s σ -> typed C st nb D σ c -> unparked C σ c ->
  exists E' o s' σ', exec C n eqf ltf c E s = Done E' o s' /\ Spec.astep C eqf ltf σ c o σ' /\
    inv (S B) E' s' σ' /\ tells o s s'.
Proof.
  intros HD HB [Hw Ha Hg] Ht Hu.
  pose proof (op_ok C st nb Hwf eqf ltf n D B HB HD E σ Ha c Ht Hu) as Hop.
  apply (hprop_in_entails _ _ Hop) in Hw. apply wp_unfold in Hw.
  specialize (Hw s ∅). rewrite right_id_L in Hw. specialize (Hw eq_refl ltac:(apply map_disjoint_empty_r) Hg).
  unfold Client.exec. pose proof (op_returns n E c s) as Hr.
  destruct (op C n eqf ltf E c s) as [[E' o] s'|e s'|f]; [..|done].
  - destruct Hw as (h'&Hm&_&Hg'&Hth&Hp). rewrite right_id_L in Hm. subst h'.
    destruct Hp as (σ'&h0&h1&Hm&Hd&Hp&Hw'). destruct (apure_inv (_ /\ _) _ Hp) as [-> [Hs Ha']]. rewrite left_id_L in Hm. subst h1.
    exists E', o, s', σ'. split; [done|]. split; [done|]. split; [by split|].
    specialize (Hr _ _ eq_refl). simpl in Hr. unfold tells. destruct o; try done. by destruct (Hr e).
  - destruct Hw as (h'&Hm&_&Hg'&Hth&Hp). rewrite right_id_L in Hm. subst h'.
    destruct Hp as (σ'&h0&h1&Hm&Hd&Hp&Hw'). destruct (apure_inv (_ /\ _) _ Hp) as [-> [Hs Ha']]. rewrite left_id_L in Hm. subst h1.
    exists E, (OThrew e), s', σ'. split; [done|]. split; [done|]. split; [by split|]. done.
Qed.

Lemma inv_mono B B' E s σ : B <= B' -> inv B E s σ -> inv B' E s σ.
Proof. intros HB [? ? ?]. split; [done| |done]. by eapply aok_mono. Qed.

Lemma yields_det c E s r r' : yields c E s r -> yields c E s r' -> r = r'.
Proof. intros [n Hn] [n' Hn']. rewrite -(Hn (n `max` n')); [|lia]. apply Hn'. lia. Qed.

Lemma inv_step B E s σ c : inv B E s σ -> admissible E s c ->
  exists E' o s' σ', yields c E s (Done E' o s') /\ Spec.astep C eqf ltf σ c o σ' /\
    (exists B', inv B' E' s' σ') /\ tells o s s'.
Proof.
  intros Hi (D&σ0&Hsh&Ht&Hu).
  assert (σ0 = σ) as -> by (eapply shows_unique; [done|by eapply inv_shows]).
  destruct (inv_exec (B `max` D) D (B `max` D) E s σ c) as (E'&o&s'&σ'&Hex&Hs&Hi'&Ht'); [lia|lia| |done..|].
  { eapply inv_mono; [|done]. lia. }
  exists E', o, s', σ'. split; [|split; [done|split; [by eexists|done]]].
  exists (B `max` D). intros n Hn. rewrite (exec_mono C (B `max` D) n) //. by rewrite Hex.
Qed.

Lemma history_inv orc h E s : history orc h E s -> exists B σ, inv B E s σ.
Proof.
  induction 1 as [|h E s c E' o s' Hh IH Hadm Hy].
  - exists 0, ∅. apply inv_init.
  - destruct IH as (B&σ&Hi).
    destruct (inv_step B E s σ c) as (E1&o1&s1&σ1&Hy1&_&[B' Hi1]&_); [done..|].
    pose proof (yields_det _ _ _ _ _ Hy Hy1) as [= -> -> ->]. by exists B', σ1.
Qed.

(** One step from a reachable state. *)
Lemma history_next orc h E s c : history orc h E s -> admissible E s c ->
  exists E' o s' σ σ', yields c E s (Done E' o s') /\ history orc (h ++ [c]) E' s' /\
    shows C (mem s) E σ /\ shows C (mem s') E' σ' /\ Spec.astep C eqf ltf σ c o σ' /\ tells o s s'.
Proof.
  intros Hh Ha. destruct (history_inv _ _ _ _ Hh) as (B&σ&Hi).
  destruct (inv_step B E s σ c) as (E'&o&s'&σ'&Hy&Hs&[B' Hi1]&Ht); [done..|].
  exists E', o, s', σ, σ'. split; [done|]. split; [by eapply history_step|].
  split; [by eapply inv_shows|]. split; [by eapply inv_shows|]. done.
Qed.

Lemma history_step_spec orc h E s c E' o s' σ :
  history orc h E s -> admissible E s c -> yields c E s (Done E' o s') -> shows C (mem s) E σ ->
  exists σ', shows C (mem s') E' σ' /\ Spec.astep C eqf ltf σ c o σ' /\ tells o s s'.
Proof.
  intros Hh Ha Hy Hs. destruct (history_next _ _ _ _ _ Hh Ha) as (E1&o1&s1&σ1&σ'&Hy1&_&Hs1&Hs2&Hst&Ht).
  pose proof (yields_det _ _ _ _ _ Hy Hy1) as [= -> -> ->].
  rewrite (shows_unique C _ _ _ _ Hs Hs1). by exists σ'.
Qed.

End history.
