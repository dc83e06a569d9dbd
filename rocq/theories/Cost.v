(** Which events a computation adds to the trace if it succeeds (proofs). *)
From Coq.ssr Require Import ssreflect.
From Coq Require Import ZArith Lia.
From iris.prelude Require Import prelude.
From stdpp Require Import gmap list numbers.
From Verif Require Import Base Types Dispatch Variant Sem Values Client CostSpec.

Definition adds {A} (P : event -> Prop) (m : M A) : Prop := forall s a s', m s = Ok a s' ->
  exists es, tr s' = es ++ tr s /\ Forall P es.
(** Constructions and allocations; destructions and releases. *)
Definition up (e : event) : Prop := match e with EvC _ _ | EvNew _ _ => True | _ => False end.
Definition down (e : event) : Prop := match e with EvD _ _ | EvDel _ => True | _ => False end.
Definition no_event (e : event) : Prop := False.

Section adds.
Context (P : event -> Prop).
Notation adds := (adds P).
Lemma adds_same {A} (m : M A) : (forall s a s', m s = Ok a s' -> tr s' = tr s) -> adds m.
Proof. intros H s a s' E. exists []. split; [by rewrite (H _ _ _ E)|constructor]. Qed.
Lemma adds_one {A} (m : M A) : (forall s a s', m s = Ok a s' -> exists e, tr s' = e :: tr s /\ P e) -> adds m.
Proof. intros H s a s' E. destruct (H _ _ _ E) as (e&?&?). exists [e]. split; [done|by constructor]. Qed.
Lemma adds_ret {A} (a : A) : adds (ret a). Proof. apply adds_same. by intros s ? ? [= _ <-]. Qed.
Lemma adds_faulty {A} f : adds (@faulty A f). Proof. by intros s. Qed.
Lemma adds_throw {A} e : adds (@throw A e). Proof. by intros s. Qed.
Lemma adds_bind {A B} (m : M A) (f : A -> M B) : adds m -> (forall a, adds (f a)) -> adds (bind m f).
Proof.
  intros Hm Hf s b s'. unfold bind. destruct (m s) as [a s1|e s1|x] eqn:E; [|done..]. intros E'.
  destruct (Hm _ _ _ E) as (e1&H1&F1), (Hf _ _ _ _ E') as (e2&H2&F2). exists (e2 ++ e1).
  split; [by rewrite H2 H1 app_assoc|]. by apply Forall_app_2.
Qed.
Lemma adds_on_exn {A} (m : M A) h : adds m -> adds (on_exn m h).
Proof.
  intros Hm s a s'. unfold on_exn. destruct (m s) as [a1 s1|e s1|x] eqn:E; [|by destruct (h s1)|done].
  intros [= -> ->]. by apply (Hm _ _ _ E).
Qed.
Lemma adds_finally {A} (m : M A) h : adds m -> adds h -> adds (finally m h).
Proof.
  intros Hm Hh s a s'. unfold finally. destruct (m s) as [a1 s1|e s1|x] eqn:E; [|by destruct (h s1)|done].
  destruct (h s1) as [[] s2|e s2|x] eqn:E2; [|done..]. intros [= -> ->].
  destruct (Hm _ _ _ E) as (e1&H1&F1), (Hh _ _ _ E2) as (e2&H2&F2). exists (e2 ++ e1).
  split; [by rewrite H2 H1 app_assoc|]. by apply Forall_app_2.
Qed.
Lemma adds_noexcept {A} (m : M A) : adds m -> adds (noexcept m).
Proof. intros Hm s a s'. unfold noexcept. destruct (m s) eqn:E; [|done..]. intros [= -> ->]. by apply (Hm _ _ _ E). Qed.
Lemma adds_noexcept_if {A} b (m : M A) : adds m -> adds (noexcept_if b m).
Proof. intros. destruct b; [by apply adds_noexcept|done]. Qed.

(** Primitives without events. *)
Lemma adds_choose : adds choose. Proof. apply adds_same. by intros s a s' [= _ <-]. Qed.
Lemma adds_note_read z : adds (note_read z). Proof. apply adds_same. by intros s a s' [= _ <-]. Qed.
Lemma adds_maybe_throw k u b : adds (maybe_throw k u b).
Proof. apply adds_same. intros s a s'. unfold maybe_throw. destruct b; [by intros [= _ <-]|]. simpl. case_decide; [by intros [= _ <-]|done]. Qed.
Lemma adds_get_cell l : adds (get_cell l).
Proof. apply adds_same. intros s a s'. unfold get_cell. destruct (mem s !! l); [by intros [= _ <-]|done]. Qed.
Lemma adds_put_cell l c : adds (put_cell l c).
Proof. apply adds_same. intros s a s'. unfold put_cell. destruct (mem s !! l); [by intros [= _ <-]|done]. Qed.
Lemma adds_modify l o : adds (modify_obj l o).
Proof.
  apply adds_same. intros s a s'. unfold modify_obj. destruct (mem s !! l) as [c|]; [|done].
  destruct (cc c); [|done]. case_decide; [by intros [= _ <-]|done].
Qed.
Lemma adds_new_cell k : adds (new_cell k). Proof. apply adds_same. by intros s a s' [= _ <-]. Qed.
Lemma adds_drop_cell l : adds (drop_cell l).
Proof.
  apply adds_same. intros s a s'. unfold drop_cell. destruct (mem s !! l) as [c|]; [|done].
  destruct (cc c); [done|]. case_decide; [done|by intros [= _ <-]].
Qed.
Lemma adds_get_obj l : adds (get_obj l).
Proof. apply adds_bind; [apply adds_get_cell|]. intros c. destruct (cc c); [apply adds_ret|apply adds_faulty]. Qed.
Lemma adds_read_which l : adds (read_which l).
Proof. apply adds_bind; [apply adds_get_cell|]. intros c. destruct (cw c); [apply adds_ret|apply adds_faulty]. Qed.
Lemma adds_write_which l z : adds (write_which l z).
Proof. apply adds_bind; [apply adds_get_cell|]. intros c. apply adds_put_cell. Qed.
End adds.

(** Primitives with events. *)
Lemma up_construct l o : adds up (construct l o).
Proof.
  apply adds_one. intros s a s'. unfold construct. destruct (mem s !! l) as [c|]; [|done]. destruct (cc c); [done|].
  intros [= _ <-]. by eexists.
Qed.
Lemma up_alloc p : adds up (alloc p).
Proof. apply adds_one. intros s a s'. unfold alloc. simpl. case_decide; [|done]. intros [= _ <-]. by eexists. Qed.
Lemma down_destruct l : adds down (destruct_obj l).
Proof.
  apply adds_one. intros s a s'. unfold destruct_obj. destruct (mem s !! l) as [c|]; [|done]. destruct (cc c); [|done].
  intros [= _ <-]. by eexists.
Qed.
Lemma down_free l : adds down (free l).
Proof.
  apply adds_one. intros s a s'. unfold free. destruct (mem s !! l) as [c|]; [|done]. destruct (cc c); [done|].
  case_decide; [|done]. intros [= _ <-]. by eexists.
Qed.

Create HintDb ad.
#[export] Hint Resolve adds_ret adds_faulty adds_throw adds_choose adds_note_read adds_maybe_throw adds_get_cell adds_put_cell
  adds_modify adds_new_cell adds_drop_cell adds_get_obj adds_read_which adds_write_which up_construct up_alloc down_destruct down_free : ad.
Ltac ad :=
  repeat first
  [ solve [eauto 3 with ad]
  | apply adds_on_exn | apply adds_noexcept | apply adds_noexcept_if
  | apply adds_finally | apply adds_bind; intros
  | match goal with |- adds _ (match ?x with _ => _ end) => destruct x end ].

Section generic.
Context (P : event -> Prop).
Lemma adds_wrap_ptr u l : adds P (wrap_ptr u l). Proof. unfold wrap_ptr. ad. Qed.
Lemma adds_bk_ptr t l : adds P (bk_ptr t l). Proof. unfold bk_ptr. ad. Qed.
Hint Resolve adds_wrap_ptr adds_bk_ptr : ad.
Lemma adds_bk_get t l : adds P (bk_get t l). Proof. unfold bk_get. ad. Qed.
Hint Resolve adds_bk_get : ad.
Lemma adds_which a : adds P (which a). Proof. unfold which. ad. Qed.
Lemma adds_expect u l : adds P (expect_user u l). Proof. unfold expect_user. ad. Qed.
Hint Resolve adds_which adds_expect : ad.
Lemma adds_scramble u l : adds P (scramble u l). Proof. unfold scramble. ad. Qed.
Lemma adds_visit C {A} tys a (k : sty -> loc -> M A) : (forall st l, adds P (k st l)) -> adds P (visit C tys a k).
Proof. intros Hk. unfold visit. ad. Qed.
Lemma adds_unwrap {A} st l (f : uid -> loc -> M A) : (forall u l, adds P (f u l)) -> adds P (unwrap st l f).
Proof. intros Hf. unfold unwrap, unwrap_int. ad. Qed.
Lemma adds_visit_user C {A} tys a (f : uid -> loc -> M A) : (forall u l, adds P (f u l)) -> adds P (visit_user C tys a f).
Proof. intros Hf. apply adds_visit. intros. by apply adds_unwrap. Qed.
Lemma adds_local_variant k : (forall a, adds P (k a)) -> adds P (local_variant k).
Proof. intros Hk. unfold local_variant. ad. Qed.
Lemma adds_stack_obj k : (forall a, adds P (k a)) -> adds P (stack_obj k).
Proof. intros Hk. unfold stack_obj. ad. Qed.
End generic.
#[export] Hint Resolve adds_wrap_ptr adds_bk_ptr adds_bk_get adds_which adds_expect adds_scramble : ad.
Lemma up_new_obj p k : (forall q, adds up (k q)) -> adds up (new_obj p k).
Proof. intros Hk. unfold new_obj. ad. Qed.

(** Operations of user types. *)
Record usteady (S : usem) : Prop := {
  us1 u d : adds up (us_value S u d);
  us2 u d : adds up (us_definit S u d);
  us3 u d s : adds up (us_copy S u d s);
  us4 u d s : adds up (us_move S u d s);
  us5 u d : adds down (us_destroy S u d)
}.
Section steady.
Context (C : cfg) (S : usem) (HS : usteady S).
Let h1 := us1 S HS. Let h2 := us2 S HS. Let h3 := us3 S HS. Let h4 := us4 S HS. Let h5 := us5 S HS.
Hint Resolve h1 h2 h3 h4 h5 : ad.
Lemma up_i_copy t d s : adds up (i_copy S t d s). Proof. destruct t; simpl; ad. Qed.
Lemma up_i_move t d s : adds up (i_move S t d s). Proof. destruct t; simpl; ad. Qed.
Lemma up_i_copy_from t d s : adds up (i_copy_from S t d s). Proof. destruct t; simpl; ad. Qed.
Lemma up_i_move_from t d s : adds up (i_move_from S t d s). Proof. destruct t; simpl; ad. Qed.
Lemma up_i_value t d : adds up (i_value S t d). Proof. destruct t; simpl; ad. Qed.
Lemma down_i_destroy t l : adds down (i_destroy S t l). Proof. destruct t; simpl; ad. Qed.
Hint Resolve up_i_copy up_i_move up_i_copy_from up_i_move_from up_i_value down_i_destroy : ad.
Lemma down_bk_destroy t l : adds down (bk_destroy S t l). Proof. unfold bk_destroy. ad. Qed.
Hint Resolve down_bk_destroy : ad.
Lemma down_destroy tys a : adds down (var_destroy C S tys a).
Proof. unfold var_destroy, destroy_content. ad; try (apply adds_visit; intros [] l; simpl; ad). Qed.
Lemma up_default tys a : adds up (var_default C S tys a). Proof. unfold var_default, indicate_which. ad. Qed.
Lemma up_copy tys d s : adds up (var_copy C S tys d s).
Proof. unfold var_copy, indicate_which. ad; try (apply adds_visit; intros [] l; simpl; ad). Qed.
Lemma up_move tys d s : adds up (var_move C S tys d s).
Proof. unfold var_move, indicate_which. ad; try (apply adds_visit; intros [] l; simpl; ad). Qed.
Hint Resolve down_destroy up_default up_copy up_move : ad.
Lemma up_make_members {B} mk mems (bs : list B) : (forall tys b k, adds up (mk tys b k)) -> adds up (make_members C S mk mems bs).
Proof.
  intros Hk. revert bs. induction mems as [|tys mems IH]; intros [|b bs]; simpl; ad; try by apply adds_local_variant.
Qed.
Lemma down_destroy_members mems ks : adds down (destroy_members C S mems ks).
Proof. revert ks. induction mems as [|tys mems IH]; intros [|k ks]; simpl; ad. Qed.
Hint Resolve down_destroy_members : ad.
Lemma usteady_step : usteady (sem_step C S).
Proof.
  assert (Hv : forall u d, adds up (u_value C S u d)) by (intros; unfold u_value; ad; apply up_make_members; intros; ad).
  constructor; simpl; intros; unfold u_definit, u_copy, u_move, u_destroy; ad; try (apply up_make_members; intros; ad).
Qed.
End steady.
Lemma usteady_sem C n : usteady (sem C n).
Proof. induction n as [|n IH]; simpl; apply usteady_step; [|done]. constructor; intros; apply adds_faulty. Qed.

(** Commands. *)
Section op.
Context (C : cfg) (n : nat) (eqf ltf : uid -> uval -> uval -> bool).
Notation S := (sem C n).
Let HS : usteady S := usteady_sem C n.
Lemma adds_need_var P E x : adds P (need_var E x). Proof. unfold need_var. ad. Qed.
Lemma adds_need_obj P E x : adds P (need_obj E x). Proof. unfold need_obj. ad. Qed.
Lemma adds_need_fresh P E x : adds P (need_fresh E x). Proof. unfold need_fresh. ad. Qed.
Hint Resolve adds_need_var adds_need_obj adds_need_fresh : ad.
Lemma adds_need_vars P E xs : adds P (need_vars E xs). Proof. induction xs; simpl; ad. Qed.
Hint Resolve adds_need_vars : ad.
Lemma adds_new_var P E x tys k : (forall a, adds P (k a)) -> adds P (new_var E x tys k).
Proof. intros Hk. unfold new_var. ad; try by apply adds_local_variant. Qed.
Lemma adds_get_ref P tys a u : adds P (var_get_ref C tys a u).
Proof. unfold var_get_ref, var_get. apply adds_bind; [apply adds_visit_user; intros; apply adds_ret|intros; ad]. Qed.
Lemma adds_member P u l j : adds P (member C u l j). Proof. unfold member. ad. Qed.
Let h3 := us3 S HS. Let h5 := us5 S HS.
Hint Resolve adds_get_ref adds_member h3 h5 : ad.
Lemma up_op E c x : maker c = Some x -> adds up (op C n eqf ltf E c).
Proof.
  intros Hc. destruct c; try done; simpl.
  - apply adds_bind; [ad|]. intros _. apply adds_bind; [ad|]. intros ls. apply adds_bind; [|intros; ad]. apply adds_stack_obj.
    intros a. apply adds_bind; [ad|]. intros _. apply adds_bind; [|intros; ad]. apply up_make_members. intros. by apply up_copy.
  - apply adds_new_var. intros. by apply up_default.
  - apply adds_bind; [ad|]. intros p. apply adds_new_var. intros. by apply up_copy.
  - apply adds_bind; [ad|]. intros p. apply adds_new_var. intros. by apply up_move.
  - apply adds_bind; [ad|]. intros _. apply adds_bind; [ad|]. intros p. apply adds_bind; [ad|]. intros l.
    apply adds_bind; [|intros; ad]. apply adds_stack_obj. intros. ad.
  - apply adds_bind; [ad|]. intros p. apply adds_bind; [ad|]. intros l. apply adds_bind; [ad|]. intros q.
    apply adds_new_var. intros. by apply up_copy.
Qed.
Lemma down_op E x : adds down (op C n eqf ltf E (CDrop x)).
Proof.
  simpl. destruct (E !! x) as [[tys a|u a]|]; [| |ad].
  - apply adds_bind; [by apply down_destroy|]. intros _. ad.
  - apply adds_bind; [ad|]. intros _. ad.
Qed.
End op.
