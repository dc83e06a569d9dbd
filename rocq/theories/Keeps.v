(** Protected memory (proofs): computations that do not write to a set of addresses, and do not
    pick up pointers into it. *)
From Coq.ssr Require Import ssreflect.
From Coq Require Import ZArith Lia.
From iris.prelude Require Import prelude.
From stdpp Require Import gmap list numbers.
From Verif Require Import Base Types Dispatch Variant Sem Values Client Reach ConstSpec.

(** Pointers in an object. *)
Definition ptrs (o : obj) : list loc :=
  match o with
  | OUser _ _ ks => ks
  | OWrap _ p | OBackup _ (Some p) | ORef _ p => [p]
  | OBackup _ None | OIter _ => []
  end.

Section keeps.
Context (K : loc -> Prop).

(** The rest of memory does not point to the protected addresses. *)
Definition sealed (s : state) : Prop :=
  (forall l, K l -> (l < nxt s)%positive) /\
  forall l c o, ~ K l -> mem s !! l = Some c -> cc c = Some o -> Forall (fun p => ~ K p) (ptrs o).
Definition kept (s s' : state) : Prop := sealed s' /\ forall l, K l -> mem s' !! l = mem s !! l.
Definition keeps {A} (m : M A) (Q : A -> Prop) : Prop := forall s, sealed s ->
  match m s with Ok a s' => kept s s' /\ Q a | Exn _ s' => kept s s' | Fault _ => True end.
Notation keep m := (keeps m (fun _ => True)).

Lemma kept_refl s : sealed s -> kept s s. Proof. by split. Qed.
Lemma kept_trans s1 s2 s3 : kept s1 s2 -> kept s2 s3 -> kept s1 s3.
Proof. intros [_ H1] [H2 H3]. split; [done|]. intros l Hl. rewrite H3 //. by apply H1. Qed.
Lemma kept_same s s' : sealed s -> mem s' = mem s -> nxt s' = nxt s -> kept s s'.
Proof. intros [H1 H2] Hm Hn. split; [|by rewrite Hm]. split; [by rewrite Hn|by rewrite Hm]. Qed.
Lemma kept_write s s' l c : sealed s -> ~ K l -> mem s' = <[l := c]> (mem s) -> nxt s' = nxt s ->
  (forall o, cc c = Some o -> Forall (fun p => ~ K p) (ptrs o)) -> kept s s'.
Proof.
  intros [H1 H2] Hl Hm Hn Hc. split; [split|].
  - by rewrite Hn.
  - intros l' c' o Hl' Hc'. rewrite Hm in Hc'. destruct (decide (l' = l)) as [->|Hne].
    + rewrite lookup_insert in Hc'. injection Hc' as <-. apply Hc.
    + rewrite lookup_insert_ne // in Hc'. by eapply H2.
  - intros l' Hl'. rewrite Hm lookup_insert_ne //. by intros ->.
Qed.
Lemma kept_delete s s' l : sealed s -> ~ K l -> mem s' = delete l (mem s) -> nxt s' = nxt s -> kept s s'.
Proof.
  intros [H1 H2] Hl Hm Hn. split; [split|].
  - by rewrite Hn.
  - intros l' c' o Hl' Hc'. rewrite Hm in Hc'. apply lookup_delete_Some in Hc' as [_ Hc']. by eapply H2.
  - intros l' Hl'. rewrite Hm lookup_delete_ne //. by intros ->.
Qed.

Lemma keeps_mono {A} (m : M A) (Q Q' : A -> Prop) : keeps m Q -> (forall a, Q a -> Q' a) -> keeps m Q'.
Proof. intros H HQ s Hs. specialize (H s Hs). destruct (m s); [|done..]. destruct H. auto. Qed.
Lemma keeps_bind {A B} (m : M A) (f : A -> M B) Q Q' :
  keeps m Q -> (forall a, Q a -> keeps (f a) Q') -> keeps (bind m f) Q'.
Proof.
  intros Hm Hf s Hs. unfold bind. specialize (Hm s Hs). destruct (m s) as [a s1|e s1|x]; [|done..].
  destruct Hm as [Hk HQ]. specialize (Hf a HQ s1 (proj1 Hk)). destruct (f a s1).
  - destruct Hf as [Hk' ?]. split; [by eapply kept_trans|done].
  - by eapply kept_trans.
  - done.
Qed.
Lemma keeps_ret {A} (a : A) (Q : A -> Prop) : Q a -> keeps (ret a) Q. Proof. intros HQ s Hs. by split; [apply kept_refl|]. Qed.
Lemma keeps_faulty {A} f Q : keeps (@faulty A f) Q. Proof. by intros s. Qed.
Lemma keeps_throw {A} e Q : keeps (@throw A e) Q. Proof. intros s Hs. by apply kept_same. Qed.
Lemma keeps_on_exn {A} (m : M A) h Q : keeps m Q -> keep h -> keeps (on_exn m h) Q.
Proof.
  intros Hm Hh s Hs. unfold on_exn. specialize (Hm s Hs). destruct (m s) as [a s1|e s1|x]; [done| |done].
  specialize (Hh s1 (proj1 Hm)). destruct (h s1); [destruct Hh|..]; try done; by eapply kept_trans.
Qed.
Lemma keeps_finally {A} (m : M A) h Q : keeps m Q -> keep h -> keeps (finally m h) Q.
Proof.
  intros Hm Hh s Hs. unfold finally. specialize (Hm s Hs). destruct (m s) as [a s1|e s1|x]; [| |done].
  - destruct Hm as [Hk HQ]. specialize (Hh s1 (proj1 Hk)). destruct (h s1); [destruct Hh; split; [|done]|..]; try done; by eapply kept_trans.
  - specialize (Hh s1 (proj1 Hm)). destruct (h s1); [destruct Hh|..]; try done; by eapply kept_trans.
Qed.
Lemma keeps_noexcept {A} (m : M A) Q : keeps m Q -> keeps (noexcept m) Q.
Proof. intros Hm s Hs. unfold noexcept. specialize (Hm s Hs). by destruct (m s). Qed.
Lemma keeps_noexcept_if {A} b (m : M A) Q : keeps m Q -> keeps (noexcept_if b m) Q.
Proof. destruct b; [apply keeps_noexcept|done]. Qed.
Lemma keeps_choose : keep choose. Proof. intros s Hs. by split; [apply kept_same|]. Qed.
Lemma keeps_note v : keep (note_read v). Proof. intros s Hs. by split; [apply kept_same|]. Qed.
Lemma keeps_maybe k u b : keep (maybe_throw k u b).
Proof.
  intros s Hs. unfold maybe_throw. destruct b; [by split; [apply kept_refl|]|]. unfold choose, throw.
  destruct (decide _); [split; [|done]|]; by apply kept_same.
Qed.
Lemma keeps_get_obj l : keeps (get_obj l) (fun o => ~ K l -> Forall (fun p => ~ K p) (ptrs o)).
Proof.
  intros s Hs. unfold get_obj, get_cell, bind. destruct (mem s !! l) as [c|] eqn:Hl; [|done].
  destruct (cc c) as [o|] eqn:Hc; [|done]. split; [by apply kept_refl|]. intros HK. by eapply Hs.
Qed.
Lemma keeps_construct l o : ~ K l -> Forall (fun p => ~ K p) (ptrs o) -> keep (construct l o).
Proof.
  intros Hl Ho s Hs. unfold construct. destruct (mem s !! l) as [c|] eqn:Hc; [|done]. destruct (cc c); [done|].
  split; [|done]. by eapply (kept_write _ _ l (Cell (ck c) (Some o) (cw c))); [..|intros ? [= <-]].
Qed.
Lemma keeps_destruct l : ~ K l -> keep (destruct_obj l).
Proof.
  intros Hl s Hs. unfold destruct_obj. destruct (mem s !! l) as [c|] eqn:Hc; [|done]. destruct (cc c); [|done].
  split; [|done]. by eapply (kept_write _ _ l (Cell (ck c) None (cw c))).
Qed.
Lemma keeps_modify l o : ~ K l -> Forall (fun p => ~ K p) (ptrs o) -> keep (modify_obj l o).
Proof.
  intros Hl Ho s Hs. unfold modify_obj. destruct (mem s !! l) as [c|] eqn:Hc; [|done]. destruct (cc c); [|done].
  destruct (decide _); [|done].
  split; [|done]. by eapply (kept_write _ _ l (Cell (ck c) (Some o) (cw c))); [..|intros ? [= <-]].
Qed.
Lemma kept_new s s' k : sealed s -> mem s' = <[nxt s := Cell k None None]> (mem s) -> nxt s' = Pos.succ (nxt s) ->
  kept s s' /\ ~ K (nxt s).
Proof.
  intros [H1 H2] Hm Hn. assert (HK : ~ K (nxt s)). { intros HK. apply H1 in HK. lia. }
  split; [|done]. split; [split|].
  - intros l Hl. rewrite Hn. apply H1 in Hl. lia.
  - intros l' c' o Hl' Hc'. rewrite Hm in Hc'. destruct (decide (l' = nxt s)) as [->|Hne].
    + rewrite lookup_insert in Hc'. by injection Hc' as <-.
    + rewrite lookup_insert_ne // in Hc'. by eapply H2.
  - intros l' Hl'. rewrite Hm lookup_insert_ne //. by intros <-.
Qed.
Lemma keeps_new k : keeps (new_cell k) (fun l => ~ K l).
Proof. intros s Hs. unfold new_cell. by eapply kept_new. Qed.
Lemma keeps_drop l : ~ K l -> keep (drop_cell l).
Proof.
  intros Hl s Hs. unfold drop_cell. destruct (mem s !! l) as [c|] eqn:Hc; [|done]. destruct (cc c); [done|].
  destruct (decide _); [done|]. split; [|done]. by eapply (kept_delete _ _ l).
Qed.
Lemma keeps_alloc p : keeps (alloc p) (fun l => ~ K l).
Proof.
  intros s Hs. unfold alloc, choose. simpl. destruct (decide _); [|by apply kept_same]. by eapply kept_new.
Qed.
Lemma keeps_free l : ~ K l -> keep (free l).
Proof.
  intros Hl s Hs. unfold free. destruct (mem s !! l) as [c|] eqn:Hc; [|done]. destruct (cc c); [done|].
  destruct (decide _); [|done]. split; [|done]. by eapply (kept_delete _ _ l).
Qed.
Lemma keeps_read_which l : keep (read_which l).
Proof.
  intros s Hs. unfold read_which, get_cell, bind. destruct (mem s !! l) as [c|] eqn:Hl; [|done].
  destruct (cw c); [|done]. by split; [apply kept_refl|].
Qed.
Lemma keeps_write_which l z : ~ K l -> keep (write_which l z).
Proof.
  intros Hl s Hs. unfold write_which, get_cell, put_cell, bind. destruct (mem s !! l) as [c|] eqn:Hc; [|done].
  rewrite Hc. split; [|done]. eapply (kept_write _ _ l (Cell (ck c) (cc c) (Some z))); try done.
  simpl. intros o Ho. by eapply Hs.
Qed.

(** ** The library *)
Lemma keeps_wrap_ptr u l : keeps (wrap_ptr u l) (fun p => ~ K l -> ~ K p).
Proof.
  eapply keeps_bind; [apply keeps_get_obj|]. intros o Ho. destruct o; try apply keeps_faulty.
  destruct (decide _); [|apply keeps_faulty]. apply keeps_ret. intros HK. specialize (Ho HK). by apply Forall_inv in Ho.
Qed.
Lemma keeps_bk_ptr t l : keeps (bk_ptr t l) (fun p => ~ K l -> Forall (fun p => ~ K p) (ptrs (OBackup t p))).
Proof.
  eapply keeps_bind; [apply keeps_get_obj|]. intros o Ho. destruct o; try apply keeps_faulty.
  destruct (decide _) as [->|]; [|apply keeps_faulty]. by apply keeps_ret.
Qed.
Lemma keeps_bk_get t l : keeps (bk_get t l) (fun q => ~ K l -> ~ K q).
Proof.
  eapply keeps_bind; [apply keeps_bk_ptr|]. intros [q|] Hq; [|apply keeps_faulty]. apply keeps_ret. intros HK. by apply Forall_inv in Hq.
Qed.
Lemma keeps_which l : keep (which l).
Proof. eapply keeps_bind; [apply keeps_read_which|]. intros. by apply keeps_ret. Qed.

Lemma keeps_new_obj p k : (forall q, ~ K q -> keep (k q)) -> keeps (new_obj p k) (fun l => ~ K l).
Proof.
  intros Hk. eapply keeps_bind; [apply keeps_alloc|]. intros q Hq.
  eapply keeps_bind; [apply keeps_on_exn; [by apply Hk|by apply keeps_free]|]. intros _ _. by apply keeps_ret.
Qed.
Lemma keeps_stack_obj k : (forall q, ~ K q -> keep (k q)) -> keeps (stack_obj k) (fun l => ~ K l).
Proof.
  intros Hk. eapply keeps_bind; [apply keeps_new|]. intros q Hq.
  eapply keeps_bind; [apply keeps_on_exn; [by apply Hk|by apply keeps_drop]|]. intros _ _. by apply keeps_ret.
Qed.
Lemma keeps_local_variant k : (forall q, ~ K q -> keep (k q)) -> keeps (local_variant k) (fun l => ~ K l).
Proof.
  intros Hk. eapply keeps_bind; [apply keeps_new|]. intros q Hq.
  eapply keeps_bind; [apply keeps_on_exn; [by apply Hk|by apply keeps_drop]|]. intros _ _. by apply keeps_ret.
Qed.
Lemma keeps_scoped {A} mk d (body : loc -> M A) Q : keeps mk (fun l => ~ K l) -> (forall x, ~ K x -> keep (d x)) ->
  (forall x, ~ K x -> keeps (body x) Q) -> keeps (scoped mk d body) Q.
Proof.
  intros Hmk Hd Hb. eapply keeps_bind; [done|]. intros x Hx. apply keeps_finally; [by apply Hb|].
  eapply keeps_bind; [by apply Hd|]. intros _ _. by apply keeps_drop.
Qed.

Record ukeeps (S : usem) : Prop := {
  uk_value u d : ~ K d -> keep (us_value S u d);
  uk_definit u d : ~ K d -> keep (us_definit S u d);
  uk_copy u d s : ~ K d -> keep (us_copy S u d s);
  uk_move u d s : ~ K d -> ~ K s -> keep (us_move S u d s);
  uk_cassign u l r : ~ K l -> keep (us_cassign S u l r);
  uk_massign u l r : ~ K l -> ~ K r -> keep (us_massign S u l r);
  uk_swap u l r : ~ K l -> ~ K r -> keep (us_swap S u l r);
  uk_destroy u l : ~ K l -> keep (us_destroy S u l);
  uk_read u l : keep (us_read S u l);
}.

Section variant.
Context (C : cfg) (S : usem) (HS : ukeeps S).

Create HintDb kp.
#[local] Hint Constants Opaque : kp.
#[local] Hint Resolve keeps_ret keeps_faulty keeps_throw keeps_choose keeps_note keeps_maybe keeps_get_obj
  keeps_destruct keeps_new keeps_drop keeps_alloc keeps_free keeps_read_which keeps_write_which keeps_wrap_ptr
  keeps_bk_ptr keeps_bk_get keeps_which uk_value uk_definit uk_copy uk_move uk_cassign uk_massign uk_swap uk_destroy uk_read : kp.

Ltac side := solve [eauto 4 | match goal with H : ~ K ?l -> Forall _ (ptrs (OBackup _ (Some ?q))) |- ~ K ?q => exact (Forall_inv (H ltac:(eauto 4))) end | simpl; repeat constructor; eauto 4 | match goal with H : _ -> _ |- _ => eapply H; eauto 4 end ].
Ltac kp1 :=
  first
    [ match goal with |- keeps _ _ => idtac end;
      first
      [ match goal with
        | |- keeps (bind _ _) _ => eapply keeps_bind; [|intros; cbv beta in *]
        | |- keeps (construct _ _) _ => apply keeps_construct
        | |- keeps (modify_obj _ _) _ => apply keeps_modify
        | |- keeps (noexcept _) _ => apply keeps_noexcept
        | |- keeps (noexcept_if _ _) _ => apply keeps_noexcept_if
        | |- keeps (on_exn _ _) _ => apply keeps_on_exn
        | |- keeps (finally _ _) _ => apply keeps_finally
        | |- keeps (new_obj _ _) _ => apply keeps_new_obj; intros
        | |- keeps (stack_obj _) _ => apply keeps_stack_obj; intros
        | |- keeps (local_variant _) _ => apply keeps_local_variant; intros
        | |- keeps (scoped _ _ _) _ => apply keeps_scoped; [|intros..]
        end
      | solve [eauto 6 with kp]
      | solve [eapply keeps_mono; [solve [eauto 6 with kp]|done]]
      | match goal with |- keeps (match ?x with _ => _ end) _ => destruct x end ]
    | match goal with |- forall _, _ => intros end; cbv beta in *
    | side ].
Ltac kp := repeat kp1.

Lemma keeps_i_copy t d s : ~ K d -> keep (i_copy S t d s).
Proof. intros. destruct t; simpl; kp. Qed.
Lemma keeps_i_move t d s : ~ K d -> ~ K s -> keep (i_move S t d s).
Proof. intros. destruct t; simpl; kp. Qed.
Lemma keeps_i_copy_from t d s : ~ K d -> keep (i_copy_from S t d s).
Proof. intros. destruct t; simpl; kp. Qed.
Lemma keeps_i_move_from t d s : ~ K d -> ~ K s -> keep (i_move_from S t d s).
Proof. intros. destruct t; simpl; kp. Qed.
Lemma keeps_i_value t d : ~ K d -> keep (i_value S t d).
Proof. intros. destruct t; simpl; kp. Qed.
Lemma keeps_i_cassign t l r : ~ K l -> keep (i_cassign S t l r).
Proof. intros. destruct t; simpl; kp. Qed.
Lemma keeps_i_massign t l r : ~ K l -> ~ K r -> keep (i_massign S t l r).
Proof. intros. destruct t; simpl; kp. Qed.
Lemma keeps_i_destroy t l : ~ K l -> keep (i_destroy S t l).
Proof. intros. destruct t; simpl; kp. Qed.
#[local] Hint Resolve keeps_i_copy keeps_i_move keeps_i_copy_from keeps_i_move_from keeps_i_value keeps_i_cassign
  keeps_i_massign keeps_i_destroy : kp.
Lemma keeps_bk_swap t l r : ~ K l -> ~ K r -> keep (bk_swap t l r).
Proof.
  intros. unfold bk_swap. kp.
Qed.
Lemma keeps_bk_destroy t l : ~ K l -> keep (bk_destroy S t l).
Proof.
  intros. unfold bk_destroy. eapply keeps_bind; [apply keeps_bk_ptr|]. intros [q|] Hq; [|eapply keeps_bind; [by apply (keeps_ret tt (fun _ => True))|intros; kp]].
  assert (~ K q) by exact (Forall_inv (Hq ltac:(done))). simpl. kp.
Qed.
#[local] Hint Resolve keeps_bk_swap keeps_bk_destroy : kp.
Lemma keeps_s_copy st d s : ~ K d -> keep (s_copy C S st d s).
Proof. intros. destruct st; simpl; kp. Qed.
Lemma keeps_s_move st d s : ~ K d -> ~ K s -> keep (s_move C S st d s).
Proof. intros. destruct st; simpl; kp. Qed.
Lemma keeps_s_destroy st l : ~ K l -> keep (s_destroy S st l).
Proof. intros. destruct st; simpl; kp. Qed.
#[local] Hint Resolve keeps_s_copy keeps_s_move keeps_s_destroy : kp.

Lemma keeps_visit {A} tys a (k : sty -> loc -> M A) Q : (forall st l, l = a -> keeps (k st l) Q) -> keeps (visit C tys a k) Q.
Proof. intros. unfold visit. kp. Qed.
Lemma keeps_visit_user {A} tys a (k : uid -> loc -> M A) Q :
  (forall u l, (~ K a -> ~ K l) -> keeps (k u l) Q) -> keeps (visit_user C tys a k) Q.
Proof.
  intros H. apply keeps_visit. intros st l ->. unfold unwrap, unwrap_int. destruct st as [t|t], t; kp.
Qed.

(** Structors. *)
Lemma keeps_destroy_content tys a : ~ K a -> keep (destroy_content C S tys a).
Proof. intros. apply keeps_noexcept, keeps_visit. intros st l ->. kp. Qed.
#[local] Hint Resolve keeps_destroy_content : kp.
Lemma keeps_var_destroy tys a : ~ K a -> keep (var_destroy C S tys a).
Proof. intros. unfold var_destroy. kp. Qed.
Lemma keeps_indicate a w : ~ K a -> keep (indicate_which a w).
Proof. apply keeps_write_which. Qed.
#[local] Hint Resolve keeps_var_destroy keeps_indicate : kp.
Lemma keeps_var_default tys a : ~ K a -> keep (var_default C S tys a).
Proof. intros. unfold var_default. kp. Qed.
Lemma keeps_var_copy tys d s : ~ K d -> keep (var_copy C S tys d s).
Proof.
  intros. unfold var_copy. eapply keeps_bind; [apply keeps_visit; intros st l ->; unfold copy_into|]; kp.
Qed.
Lemma keeps_var_move tys d s : ~ K d -> ~ K s -> keep (var_move C S tys d s).
Proof.
  intros. unfold var_move. apply keeps_noexcept_if. eapply keeps_bind; [apply keeps_visit; intros st l ->; unfold move_into|]; kp.
Qed.
#[local] Hint Resolve keeps_var_default keeps_var_copy keeps_var_move : kp.
Lemma keeps_convert u u' d s : ~ K d -> keep (convert_obj C u u' d s).
Proof. intros. unfold convert_obj. kp. Qed.
#[local] Hint Resolve keeps_convert : kp.
Lemma keeps_initialize tys a u s mv : ~ K a -> (mv = true -> ~ K s) -> keep (initialize C S tys a u s mv).
Proof. intros. unfold initialize. kp. Qed.
#[local] Hint Resolve keeps_initialize : kp.
Lemma keeps_var_from tys a u s mv : ~ K a -> (mv = true -> ~ K s) -> keep (var_from C S tys a u s mv).
Proof. intros. unfold var_from. kp. Qed.
Lemma keeps_var_convert tys a tys' b mv : ~ K a -> (mv = true -> ~ K b) -> keep (var_convert C S tys a tys' b mv).
Proof.
  intros. unfold var_convert. eapply keeps_bind; [apply keeps_visit_user; intros|]; kp.
Qed.
#[local] Hint Resolve keeps_var_from keeps_var_convert : kp.

(** Assignment. *)
Lemma keeps_assign_storage rhs st l : ~ K l -> keep (assign_storage S rhs st l).
Proof. intros. unfold assign_storage. kp. Qed.
Lemma keeps_move_storage rhs st l : ~ K l -> ~ K rhs -> keep (move_storage S rhs st l).
Proof. intros. unfold move_storage. kp. Qed.
#[local] Hint Resolve keeps_assign_storage keeps_move_storage : kp.
Lemma keeps_backup_1 a rw st src t l : ~ K a -> ~ K l -> keep (backup_assign_1 C S a rw st src t l).
Proof. intros. unfold backup_assign_1. kp. Qed.
Lemma keeps_backup_2 a rw st src t l : ~ K a -> ~ K l -> keep (backup_assign_2 C S a rw st src t l).
Proof. intros. unfold backup_assign_2. kp. Qed.
Lemma keeps_backup_3 a rw st src t l : ~ K a -> ~ K l -> keep (backup_assign_3 C S a rw st src t l).
Proof. intros. unfold backup_assign_3, indicate_backup_which. kp. Qed.
#[local] Hint Resolve keeps_backup_1 keeps_backup_2 keeps_backup_3 : kp.
Lemma keeps_backup_assigner a rw st src lt l : ~ K a -> ~ K l -> keep (backup_assigner C S a rw st src lt l).
Proof. intros. unfold backup_assigner. kp. Qed.
Lemma keeps_construct_mpl tys a m : ~ K a -> keep (construct_mpl C S tys a m).
Proof. intros. unfold construct_mpl. kp. Qed.
#[local] Hint Resolve keeps_backup_assigner keeps_construct_mpl : kp.
Lemma keeps_fallback tys a : ~ K a -> keep (construct_fallback C S tys a).
Proof. intros. unfold construct_fallback. kp. Qed.
#[local] Hint Resolve keeps_fallback : kp.
Lemma keeps_assign_1 tys a rw st src : ~ K a -> keep (assign_1 C S tys a rw st src).
Proof. intros. unfold assign_1. kp. Qed.
Lemma keeps_assign_2 tys a rw st src : ~ K a -> keep (assign_2 C S tys a rw st src).
Proof. intros. unfold assign_2. kp. Qed.
Lemma keeps_assign_3 tys a rw st src : ~ K a -> keep (assign_3 C S tys a rw st src).
Proof. intros. unfold assign_3. kp. Qed.
Lemma keeps_assign_4 tys a rw st src : ~ K a -> keep (assign_4 C S tys a rw st src).
Proof. intros. unfold assign_4. apply keeps_visit. intros ? ? ->. kp. Qed.
#[local] Hint Resolve keeps_assign_1 keeps_assign_2 keeps_assign_3 keeps_assign_4 : kp.
Lemma keeps_assigner tys a rw st src : ~ K a -> keep (assigner C S tys a rw st src).
Proof. intros. unfold assigner. kp. Qed.
Lemma keeps_move_assigner tys a rw st src : ~ K a -> ~ K src -> keep (move_assigner C S tys a rw st src).
Proof. intros. unfold move_assigner, massign_move, massign_fallback. kp. Qed.
#[local] Hint Resolve keeps_assigner keeps_move_assigner : kp.
Lemma keeps_var_assign tys a b : ~ K a -> keep (var_assign C S tys a b).
Proof. intros. unfold var_assign. kp; apply keeps_visit; intros ? ? ->; kp. Qed.
Lemma keeps_variant_massign tys a b : ~ K a -> ~ K b -> keep (variant_massign C S tys a b).
Proof. intros. unfold variant_massign. kp; apply keeps_visit; intros ? ? ->; kp. Qed.
#[local] Hint Resolve keeps_var_assign keeps_variant_massign : kp.
Lemma keeps_var_massign tys a b : ~ K a -> ~ K b -> keep (var_massign C S tys a b).
Proof. intros. unfold var_massign. kp. Qed.
#[local] Hint Resolve keeps_var_massign : kp.
Lemma keeps_var_assign_from tys a u s mv : ~ K a -> (mv = true -> ~ K s) -> keep (var_assign_from C S tys a u s mv).
Proof.
  intros. unfold var_assign_from. apply (keeps_bind _ _ (fun _ => True)); [apply keeps_visit_user; intros; unfold direct_assign|]; kp.
Qed.
Lemma keeps_var_assign_convert tys a tys' b mv : ~ K a -> (mv = true -> ~ K b) -> keep (var_assign_convert C S tys a tys' b mv).
Proof.
  intros. unfold var_assign_convert. apply (keeps_bind _ _ (fun _ => True)); [apply keeps_visit_user; intros; unfold direct_assign|]; kp.
Qed.
Lemma keeps_known_get tys b u : keeps (known_get C tys b u) (fun l => ~ K b -> ~ K l).
Proof. intros. unfold known_get. apply keeps_visit_user. intros. kp. Qed.
#[local] Hint Resolve keeps_known_get : kp.
Lemma keeps_var_swap tys a b : ~ K a -> ~ K b -> keep (var_swap C S tys a b).
Proof. intros. unfold var_swap. kp. apply keeps_visit_user. intros. kp. Qed.
#[local] Hint Resolve keeps_var_assign_from keeps_var_assign_convert keeps_var_swap : kp.
Lemma keeps_var_get tys a u : keeps (var_get C tys a u) (fun p => forall l, p = Some l -> ~ K a -> ~ K l).
Proof. unfold var_get. apply keeps_visit_user. intros. apply keeps_ret. intros. case_decide; naive_solver. Qed.
Lemma keeps_var_get_ref tys a u : keeps (var_get_ref C tys a u) (fun l => ~ K a -> ~ K l).
Proof. eapply keeps_bind; [apply keeps_var_get|]. intros [l|] Hl; kp. Qed.
#[local] Hint Resolve keeps_var_get_ref : kp.
Lemma keeps_var_poke tys a u s : ~ K a -> keep (var_poke C S tys a u s).
Proof. intros. unfold var_poke. kp. Qed.
Lemma keeps_var_read tys a : keep (var_read C S tys a).
Proof. unfold var_read. apply keeps_visit_user. intros. kp. Qed.
Lemma keeps_var_type tys a : keep (var_type C tys a).
Proof. unfold var_type. apply keeps_visit_user. intros. kp. Qed.
Lemma keeps_var_eq tys f a b : keep (var_eq C S tys f a b).
Proof. unfold var_eq, comparer. kp. apply keeps_visit_user. intros. kp. Qed.
Lemma keeps_var_lt tys f a b : keep (var_lt C S tys f a b).
Proof. unfold var_lt, comparer. kp. apply keeps_visit_user. intros. kp. Qed.
#[local] Hint Resolve keeps_var_poke keeps_var_read keeps_var_type keeps_var_eq keeps_var_lt : kp.

(** User types. *)
Lemma keeps_expect u l : keeps (expect_user u l) (fun r => ~ K l -> Forall (fun p => ~ K p) r.2).
Proof.
  eapply keeps_bind; [apply keeps_get_obj|]. intros o Ho. destruct o; try apply keeps_faulty.
  destruct (decide _); [|apply keeps_faulty]. by apply keeps_ret.
Qed.
Lemma keeps_make_members {B} (P : B -> Prop) mk mems (bs : list B) :
  (forall tys b k, P b -> ~ K k -> keep (mk tys b k)) -> Forall P bs ->
  keeps (make_members C S mk mems bs) (Forall (fun p => ~ K p)).
Proof.
  intros Hmk. revert bs. induction mems as [|tys mems IH]; intros [|b bs] HP; simpl; try (by apply keeps_faulty).
  - by apply keeps_ret.
  - apply Forall_cons_1 in HP as [Hb HP].
    eapply keeps_bind; [apply keeps_local_variant; intros q Hq; by apply Hmk|]. intros k Hk.
    eapply keeps_bind; [apply keeps_on_exn; [by apply IH|kp]|]. intros ks Hks. apply keeps_ret. by constructor.
Qed.
Lemma keeps_destroy_members mems ks : Forall (fun p => ~ K p) ks -> keep (destroy_members C S mems ks).
Proof.
  revert ks. induction mems as [|tys mems IH]; intros [|k ks] HP; simpl; try (by apply keeps_faulty).
  - by apply keeps_ret.
  - apply Forall_cons_1 in HP as [Hb HP]. eapply keeps_bind; [by apply IH|]. kp.
Qed.
Lemma keeps_assign_members (P : loc -> Prop) f mems ls rs :
  (forall tys l r, ~ K l -> P r -> keep (f tys l r)) -> Forall (fun p => ~ K p) ls -> Forall P rs ->
  keep (assign_members f mems ls rs).
Proof.
  intros Hf. revert ls rs. induction mems as [|tys mems IH]; intros [|l ls] [|r rs] HL HR; simpl; try (by apply keeps_faulty).
  - by apply keeps_ret.
  - apply Forall_cons_1 in HL as [? HL]. apply Forall_cons_1 in HR as [? HR].
    eapply keeps_bind; [by apply Hf|]. intros. by apply IH.
Qed.
Lemma keeps_read_members mems ks : keep (read_members C S mems ks).
Proof.
  revert ks. induction mems as [|tys mems IH]; intros [|k ks]; simpl; try (by apply keeps_faulty); [by apply keeps_ret|].
  pose proof (IH ks). kp.
Qed.
Lemma keeps_scramble u l : ~ K l -> keep (scramble u l).
Proof. intros. unfold scramble. eapply keeps_bind; [apply keeps_expect|]. intros [z ks] Hks. simpl in Hks. kp. Qed.
#[local] Hint Resolve keeps_scramble : kp.
Lemma Forall_true {A} (l : list A) : Forall (fun _ => True) l. Proof. by apply Forall_true. Qed.
Lemma keeps_u_value u d : ~ K d -> keep (u_value C S u d).
Proof.
  intros. unfold u_value. eapply keeps_bind; [apply keeps_maybe|]. intros _ _.
  eapply keeps_bind; [apply (keeps_make_members (fun _ => True)); [|apply Forall_true]|]; [intros; kp|].
  intros ks Hks. by apply keeps_construct.
Qed.
Lemma keeps_u_definit u d : ~ K d -> keep (u_definit C S u d).
Proof.
  intros. unfold u_definit. destruct (ut_init _); try by apply keeps_u_value. apply keeps_construct; [done|constructor].
Qed.
Lemma keeps_u_copy u d s : ~ K d -> keep (u_copy C S u d s).
Proof.
  intros. unfold u_copy. eapply keeps_bind; [apply keeps_expect|]. intros [z ks] _.
  eapply keeps_bind; [apply keeps_maybe|]. intros _ _. eapply keeps_bind; [apply keeps_note|]. intros _ _.
  eapply keeps_bind; [apply (keeps_make_members (fun _ => True)); [|apply Forall_true]|]; [intros; kp|].
  intros ks' Hks. by apply keeps_construct.
Qed.
Lemma keeps_u_move u d s : ~ K d -> ~ K s -> keep (u_move C S u d s).
Proof.
  intros Hd Hs. unfold u_move. eapply keeps_bind; [apply keeps_expect|]. intros [z ks] Hks. specialize (Hks Hs). simpl in Hks.
  eapply keeps_bind; [apply keeps_on_exn; [apply keeps_maybe|kp]|]. intros _ _. eapply keeps_bind; [apply keeps_note|]. intros _ _.
  eapply keeps_bind; [apply keeps_on_exn; [apply (keeps_make_members (fun p => ~ K p)); [|done]|kp]|]; [intros; kp|].
  intros ks' Hks'. eapply keeps_bind; [by apply keeps_scramble|]. intros _ _. by apply keeps_construct.
Qed.
Lemma keeps_u_cassign u l r : ~ K l -> keep (u_cassign C S u l r).
Proof.
  intros Hl. unfold u_cassign. eapply keeps_bind; [apply keeps_expect|]. intros [z ls] Hls. specialize (Hls Hl). simpl in Hls.
  eapply keeps_bind; [apply keeps_expect|]. intros [z' rs] _.
  eapply keeps_bind; [apply keeps_on_exn; [apply keeps_maybe|kp]|]. intros _ _. eapply keeps_bind; [apply keeps_note|]. intros _ _.
  eapply keeps_bind; [by apply keeps_modify|]. intros _ _.
  apply (keeps_assign_members (fun _ => True)); [|done|apply Forall_true]. intros. kp.
Qed.
Lemma keeps_u_massign u l r : ~ K l -> ~ K r -> keep (u_massign C S u l r).
Proof.
  intros Hl Hr. unfold u_massign. eapply keeps_bind; [apply keeps_expect|]. intros [z ls] Hls. specialize (Hls Hl). simpl in Hls.
  eapply keeps_bind; [apply keeps_expect|]. intros [z' rs] Hrs. specialize (Hrs Hr). simpl in Hrs.
  eapply keeps_bind; [apply keeps_on_exn; [apply keeps_maybe|kp]|]. intros _ _. eapply keeps_bind; [apply keeps_note|]. intros _ _.
  eapply keeps_bind; [by apply keeps_modify|]. intros _ _. eapply keeps_bind; [by apply keeps_scramble|]. intros _ _.
  apply (keeps_assign_members (fun p => ~ K p)); [|done..]. intros. kp.
Qed.
Lemma keeps_u_destroy u l : ~ K l -> keep (u_destroy C S u l).
Proof.
  intros Hl. unfold u_destroy. eapply keeps_bind; [apply keeps_expect|]. intros [z ls] Hls. specialize (Hls Hl). simpl in Hls.
  eapply keeps_bind; [by apply keeps_destroy_members|]. kp.
Qed.
Lemma keeps_u_swap u l r : ~ K l -> ~ K r -> keep (u_swap C S u l r).
Proof.
  intros Hl Hr. unfold u_swap. destruct (ut_swap _) as [b|].
  - unfold own_swap. eapply keeps_bind; [apply keeps_expect|]. intros [z ls] Hls. specialize (Hls Hl). simpl in Hls.
    eapply keeps_bind; [apply keeps_expect|]. intros [z' rs] Hrs. specialize (Hrs Hr). simpl in Hrs.
    eapply keeps_bind; [apply keeps_on_exn; [apply keeps_maybe|kp]|]. intros _ _. do 2 (eapply keeps_bind; [apply keeps_note|]; intros _ _).
    do 2 (eapply keeps_bind; [by apply keeps_modify|]; intros _ _).
    apply (keeps_assign_members (fun p => ~ K p)); [|done..]. intros. kp.
  - unfold std_swap. apply keeps_scoped.
    + apply keeps_stack_obj. intros. by apply keeps_u_move.
    + intros. by apply keeps_u_destroy.
    + intros. eapply keeps_bind; [by apply keeps_u_massign|]. intros _ _. by apply keeps_u_massign.
Qed.
Lemma keeps_u_read u l : keep (u_read C S u l).
Proof.
  unfold u_read. eapply keeps_bind; [apply keeps_expect|]. intros [z ks] _. eapply keeps_bind; [apply keeps_note|]. intros _ _.
  eapply keeps_bind; [apply keeps_read_members|]. kp.
Qed.
Lemma ukeeps_step : ukeeps (sem_step C S).
Proof.
  constructor; simpl; intros; [by apply keeps_u_value|by apply keeps_u_definit|by apply keeps_u_copy|by apply keeps_u_move|
    by apply keeps_u_cassign|by apply keeps_u_massign|by apply keeps_u_swap|by apply keeps_u_destroy|by apply keeps_u_read].
Qed.
End variant.

Lemma ukeeps_sem C n : ukeeps (sem C n).
Proof.
  induction n as [|n IH]; simpl; apply ukeeps_step; [|done]. constructor; intros; apply keeps_faulty.
Qed.

(** ** Commands *)
Section op.
Context (C : cfg) (n : nat) (eqf ltf : uid -> uval -> uval -> bool).
Notation S := (sem C n).
Let HS : ukeeps S := ukeeps_sem C n.

(** Variables that are not modified remain. *)
Definition remain (E : env) (c : cmd) (r : env * out) : Prop :=
  forall z b, z ∉ modifies c -> E !! z = Some b -> r.1 !! z = Some b.
Lemma keeps_need_var E x : keeps (need_var E x) (fun p => E !! x = Some (BVar p.1 p.2)).
Proof. unfold need_var. destruct (E !! x) as [[]|]; try apply keeps_faulty. by apply keeps_ret. Qed.
Lemma keeps_need_obj E x : keeps (need_obj E x) (fun p => E !! x = Some (BObj p.1 p.2)).
Proof. unfold need_obj. destruct (E !! x) as [[]|]; try apply keeps_faulty. by apply keeps_ret. Qed.
Lemma keeps_need_fresh E x : keeps (need_fresh E x) (fun _ => E !! x = None).
Proof. unfold need_fresh. destruct (E !! x) as [[]|]; try apply keeps_faulty. by apply keeps_ret. Qed.
Lemma keeps_need_vars E xs : keep (need_vars E xs).
Proof.
  induction xs; simpl; [by apply keeps_ret|]. eapply keeps_bind; [apply keeps_need_var|]. intros.
  eapply keeps_bind; [done|]. intros. by apply keeps_ret.
Qed.
Lemma keeps_new_var E c x tys k : (forall a, ~ K a -> keep (k a)) -> keeps (new_var E x tys k) (remain E c).
Proof.
  intros Hk. unfold new_var. eapply keeps_bind; [apply keeps_need_fresh|]. intros [] Hx.
  eapply keeps_bind; [by apply keeps_local_variant|]. intros a _. apply keeps_ret.
  intros z b _ Hz. simpl. rewrite lookup_insert_ne //. congruence.
Qed.
Lemma remain_same E c o : remain E c (E, o). Proof. by intros z b. Qed.
Lemma remain_delete E c x o : x ∈ modifies c -> remain E c (delete x E, o).
Proof. intros Hx z b Hz Hb. simpl. rewrite lookup_delete_ne //. by intros ->. Qed.
Lemma remain_new E c x b o : E !! x = None -> remain E c (<[x := b]> E, o).
Proof. intros Hx z b' _ Hb. simpl. rewrite lookup_insert_ne //. congruence. Qed.
Lemma keeps_member u l j : keeps (member C u l j) (fun q => ~ K l -> ~ K q.2).
Proof.
  unfold member. eapply keeps_bind; [apply keeps_expect|]. intros [z ks] Hks. simpl in *.
  destruct (ut_members _ !! j); [|apply keeps_faulty]. destruct (ks !! j) eqn:Hj; [|apply keeps_faulty].
  apply keeps_ret. intros HK. specialize (Hks HK). by eapply Forall_lookup in Hks.
Qed.
Ltac fin := apply keeps_ret; solve [apply remain_same|apply remain_delete; simpl; set_solver|by apply remain_new].
Ltac sideK := solve
  [ match goal with HK : forall x b, _ -> ?E !! _ = _ -> _, H : ?E !! ?x = Some ?b |- ~ K _ => apply (HK x b); [simpl; set_solver|done] end
  | intros ->; match goal with HK : forall x b, _ -> ?E !! _ = _ -> _, H : ?E !! ?x = Some ?b |- ~ K _ => apply (HK x b); [simpl; set_solver|done] end ].
Lemma keeps_op E c : (forall x b, x ∈ modifies c -> E !! x = Some b -> ~ K (root b)) ->
  keeps (op C n eqf ltf E c) (remain E c).
Proof.
  intros HK. destruct c; simpl.
  all: repeat first
    [ progress cbv beta
    | match goal with
      | |- keeps (match ?x with _ => _ end) _ => destruct x eqn:?
      | |- keeps (faulty _) _ => apply keeps_faulty
      | |- keeps (ret _) _ => fin
      | |- keeps (bind (need_var _ _) _) _ => eapply keeps_bind; [apply keeps_need_var|intros ? ?; cbv beta in *]
      | |- keeps (bind (need_obj _ _) _) _ => eapply keeps_bind; [apply keeps_need_obj|intros ? ?; cbv beta in *]
      | |- keeps (bind (need_fresh _ _) _) _ => eapply keeps_bind; [apply keeps_need_fresh|intros ? ?; cbv beta in *]
      | |- keeps (bind (need_vars _ _) _) _ => eapply keeps_bind; [apply keeps_need_vars|intros ? ?; cbv beta in *]
      | |- keeps (new_var _ _ _ _) _ => apply keeps_new_var; intros
      end ].
  all: match goal with |- keeps (do! var_destroy _ _ _ _ in _) _ => eapply keeps_bind; [apply keeps_var_destroy; [done|sideK]|]; intros _ _;
         eapply keeps_bind; [apply keeps_drop; sideK|]; intros _ _; fin
       | |- keeps (do! us_destroy _ _ _ in _) _ => eapply keeps_bind; [apply uk_destroy; [done|sideK]|]; intros _ _;
         eapply keeps_bind; [apply keeps_drop; sideK|]; intros _ _; fin
       | |- _ => idtac end.
  - eapply keeps_bind; [apply keeps_stack_obj; intros q Hq|intros; fin].
    eapply keeps_bind; [apply keeps_maybe|]. intros _ _.
    eapply keeps_bind; [apply (keeps_make_members C S HS (fun _ => True)); [|apply Forall_true]|]; [intros; by apply keeps_var_copy|].
    intros ks Hks. by apply keeps_construct.
  - by apply keeps_var_default.
  - apply keeps_var_from; [done..|]. sideK.
  - by apply keeps_var_copy.
  - apply keeps_var_move; [done..|]. sideK.
  - apply keeps_var_convert; [done..|]. sideK.
  - eapply keeps_bind; [apply keeps_var_assign; [done|sideK]|]. intros; fin.
  - eapply keeps_bind; [apply keeps_var_massign; [done|sideK..]|]. intros; fin.
  - eapply keeps_bind; [apply keeps_var_assign_from; [done|sideK..]|]. intros; fin.
  - eapply keeps_bind; [apply keeps_var_assign_convert; [done|sideK..]|]. intros; fin.
  - eapply keeps_bind; [apply keeps_var_swap; [done|sideK..]|]. intros; fin.
  - eapply keeps_bind; [apply keeps_var_poke; [done|sideK..]|]. intros; fin.
  - eapply keeps_bind; [apply keeps_var_get_ref|]. intros l _.
    eapply keeps_bind; [apply keeps_stack_obj; intros; by apply uk_copy|]. intros; fin.
  - eapply keeps_bind; [apply keeps_var_get_ref|]. intros l _. eapply keeps_bind; [apply keeps_member|]. intros q _.
    apply keeps_new_var. intros. by apply keeps_var_copy.
  - eapply keeps_bind; [apply keeps_var_get_ref|]. intros l Hl. eapply keeps_bind; [apply keeps_member|]. intros q Hq.
    eapply keeps_bind; [apply keeps_var_assign; [done|]|]; [|intros; fin]. apply Hq, Hl. sideK.
  - eapply keeps_bind; [apply keeps_which|]. intros; fin.
  - eapply keeps_bind; [by apply keeps_var_read|]. intros; fin.
  - eapply keeps_bind; [apply keeps_var_get|]. intros [l|] _; [|fin]. eapply keeps_bind; [by apply uk_read|]. intros; fin.
  - eapply keeps_bind; [apply keeps_var_get_ref|]. intros l _. eapply keeps_bind; [by apply uk_read|]. intros; fin.
  - eapply keeps_bind; [apply keeps_var_type|]. intros; fin.
  - eapply keeps_bind; [by apply keeps_var_eq|]. intros; fin.
  - eapply keeps_bind; [by apply keeps_var_lt|]. intros; fin.
Qed.
End op.
End keeps.
