(** Queries change nothing (proofs). *)
From Coq.ssr Require Import ssreflect.
From Coq Require Import ZArith Lia.
From iris.prelude Require Import prelude.
From stdpp Require Import gmap list numbers.
From Verif Require Import Base Types Dispatch Variant Sem Values Client Reach.

(** Memory, trace, allocator and throw oracle are as before. *)
Definition quiet (s s' : state) : Prop :=
  mem s' = mem s /\ nxt s' = nxt s /\ tr s' = tr s /\ orc s' = orc s /\ opos s' = opos s.
Lemma quiet_refl s : quiet s s. Proof. done. Qed.
Lemma quiet_trans s1 s2 s3 : quiet s1 s2 -> quiet s2 s3 -> quiet s1 s3.
Proof. intros (?&?&?&?&?) (?&?&?&?&?). repeat split; congruence. Qed.

Definition ro {A} (m : M A) : Prop :=
  forall s, match m s with Ok _ s' | Exn _ s' => quiet s s' | Fault _ => True end.

Lemma ro_bind {A B} (m : M A) (f : A -> M B) : ro m -> (forall a, ro (f a)) -> ro (bind m f).
Proof.
  intros Hm Hf s. unfold bind. specialize (Hm s). destruct (m s) as [a s1|e s1|x]; [|done..].
  specialize (Hf a s1). destruct (f a s1); [by eapply quiet_trans..|done].
Qed.
Lemma ro_ret {A} (a : A) : ro (ret a). Proof. by intros s. Qed.
Lemma ro_faulty {A} f : ro (@faulty A f). Proof. by intros s. Qed.
Lemma ro_throw {A} e : ro (@throw A e). Proof. by intros s. Qed.
Lemma ro_note v : ro (note_read v). Proof. by intros s. Qed.
Lemma ro_get_cell l : ro (get_cell l). Proof. intros s. unfold get_cell. by destruct (mem s !! l). Qed.

Create HintDb ro.
#[local] Hint Constants Opaque : ro.
#[local] Hint Resolve ro_ret ro_faulty ro_throw ro_note ro_get_cell : ro.

Ltac ros :=
  repeat first
    [ match goal with H : context [ro _] |- _ => solve [simple apply H] end
    | solve [eauto 1 with ro nocore]
    | match goal with
      | |- ro (bind _ _) => apply ro_bind; [|intros]
      | |- ro (match ?x with _ => _ end) => destruct x
      end ].

Lemma ro_get_obj l : ro (get_obj l). Proof. unfold get_obj. ros. Qed.
Lemma ro_read_which l : ro (read_which l). Proof. unfold read_which. ros. Qed.
#[local] Hint Resolve ro_get_obj ro_read_which : ro.
Lemma ro_which l : ro (which l). Proof. unfold which. ros. Qed.
Lemma ro_wrap_ptr u l : ro (wrap_ptr u l). Proof. unfold wrap_ptr. ros. Qed.
Lemma ro_bk_ptr u l : ro (bk_ptr u l). Proof. unfold bk_ptr. ros. Qed.
Lemma ro_expect u l : ro (expect_user u l). Proof. unfold expect_user. ros. Qed.
#[local] Hint Resolve ro_which ro_wrap_ptr ro_bk_ptr ro_expect : ro.
Lemma ro_bk_get u l : ro (bk_get u l). Proof. unfold bk_get. ros. Qed.
#[local] Hint Resolve ro_bk_get : ro.

Lemma ro_visit {A} C tys a (k : sty -> loc -> M A) : (forall st l, ro (k st l)) -> ro (visit C tys a k).
Proof. intros. unfold visit. ros. Qed.
Lemma ro_visit_user {A} C tys a (k : uid -> loc -> M A) : (forall u l, ro (k u l)) -> ro (visit_user C tys a k).
Proof. intros. apply ro_visit. intros st l. unfold unwrap, unwrap_int. ros. Qed.

Section usem.
Context (C : cfg) (S : usem) (HS : forall u l, ro (us_read S u l)).
Lemma ro_var_read tys a : ro (var_read C S tys a). Proof. unfold var_read. apply ro_visit_user; intros; ros. Qed.
Lemma ro_var_get tys a u : ro (var_get C tys a u). Proof. unfold var_get. apply ro_visit_user; intros; ros. Qed.
Lemma ro_var_type tys a : ro (var_type C tys a). Proof. unfold var_type. apply ro_visit_user; intros; ros. Qed.
Lemma ro_known_get tys b u : ro (known_get C tys b u). Proof. unfold known_get. apply ro_visit_user; intros; ros. Qed.
#[local] Hint Resolve ro_known_get ro_var_read ro_var_get : ro.
Lemma ro_var_eq tys f a b : ro (var_eq C S tys f a b).
Proof. unfold var_eq, comparer. ros. apply ro_visit_user; intros; ros. Qed.
Lemma ro_var_lt tys f a b : ro (var_lt C S tys f a b).
Proof. unfold var_lt, comparer. ros. apply ro_visit_user; intros; ros. Qed.
Lemma ro_read_members mems ks : ro (read_members C S mems ks).
Proof. revert ks. induction mems as [|tys mems IH]; intros [|b bs]; simpl; ros. Qed.
Lemma ro_u_read u l : ro (u_read C S u l).
Proof. unfold u_read. pose proof ro_read_members. ros. Qed.
End usem.

Lemma ro_us_read C n u l : ro (us_read (sem C n) u l).
Proof.
  revert u l. induction n as [|n IH]; intros u l; simpl; apply ro_u_read; [|done].
  intros. apply ro_faulty.
Qed.

Lemma ro_op C n eqf ltf E c : query c = true -> ro (op C n eqf ltf E c).
Proof.
  intros Hq. pose proof (ro_us_read C n) as HS.
  assert (Hn : forall x, ro (need_var E x)) by (intros; unfold need_var; ros).
  assert (Hg : forall tys a u, ro (var_get C tys a u)) by (intros; apply ro_var_get).
  assert (Hr : forall tys a u, ro (var_get_ref C tys a u)) by (intros; unfold var_get_ref; ros).
  destruct c; try done; unfold op; ros.
  all: solve [by apply ro_var_read|by apply ro_var_type|by apply ro_var_eq|by apply ro_var_lt].
Qed.
