(** What computations ask the oracle: they read on from where they are, and the exceptions of
    user operations and operator new are its answers (proofs). *)
From Coq.ssr Require Import ssreflect.
From Coq Require Import ZArith Lia.
From iris.prelude Require Import prelude.
From stdpp Require Import gmap list numbers.
From Verif Require Import Base Types Dispatch Variant Sem Values Client AnswerSpec.

Definition later (s s' : state) : Prop := orc s' = orc s /\ opos s <= opos s'.
Definition asks {A} (m : M A) : Prop :=
  forall s, match m s with Ok _ s' => later s s' | Exn e s' => later s s' /\ answered s s' e | Fault _ => True end.

Lemma later_refl s : later s s.
Proof. by split. Qed.
#[local] Hint Resolve later_refl : core.
Lemma later_trans s s' s'' : later s s' -> later s' s'' -> later s s''.
Proof. intros [? ?] [? ?]. split; [congruence|lia]. Qed.
Lemma answered_later s s' s'' e : later s s' -> later s' s'' /\ answered s' s'' e -> later s s'' /\ answered s s'' e.
Proof.
  intros H1 [H2 H]. split; [by eapply later_trans|]. destruct H1 as [Ho H1], H2 as [Ho' H2].
  destruct e; simpl in *; try done; rewrite -Ho; (split; [lia|]); by destruct H.
Qed.
Lemma answered_more s s' s'' e : later s s' /\ answered s s' e -> later s' s'' -> later s s'' /\ answered s s'' e.
Proof.
  intros [H1 H] H2. split; [by eapply later_trans|]. destruct H1 as [Ho H1], H2 as [Ho' H2].
  destruct e; simpl in *; try done; (split; [lia|]); by destruct H.
Qed.
Lemma answered_is_later s s' e : later s s' /\ answered s s' e -> later s s'.
Proof. by intros []. Qed.

Section asks.

Lemma asks_bind {A B} (m : M A) (f : A -> M B) : asks m -> (forall a, asks (f a)) -> asks (bind m f).
Proof.
  intros Hm Hf s. unfold bind. specialize (Hm s). destruct (m s) as [a s'|e s'|x]; [|done..].
  specialize (Hf a s'). destruct (f a s') as [b s''|e s''|x]; [| |done]; eauto using later_trans, answered_later.
Qed.
Lemma asks_on_exn {A} (m : M A) h : asks m -> asks h -> asks (on_exn m h).
Proof.
  intros Hm Hh s. unfold on_exn. specialize (Hm s). destruct (m s) as [a s'|e s'|x]; [done| |done].
  specialize (Hh s'). destruct (h s') as [a s''|e' s''|x]; [| |done]; eauto using answered_later, answered_more, answered_is_later.
Qed.
Lemma asks_finally {A} (m : M A) h : asks m -> asks h -> asks (finally m h).
Proof.
  intros Hm Hh s. unfold finally. specialize (Hm s). destruct (m s) as [a s'|e s'|x]; [| |done]; specialize (Hh s');
    destruct (h s') as [a' s''|e' s''|x]; try done; eauto using later_trans, answered_later, answered_more.
Qed.
Lemma asks_noexcept {A} (m : M A) : asks m -> asks (noexcept m).
Proof. intros Hm s. unfold noexcept. specialize (Hm s). by destruct (m s). Qed.
Lemma asks_noexcept_if {A} b (m : M A) : asks m -> asks (noexcept_if b m).
Proof. destruct b; [apply asks_noexcept|done]. Qed.
Lemma asks_ret {A} (a : A) : asks (ret a). Proof. intros s. apply later_refl. Qed.
Lemma asks_faulty {A} f : asks (@faulty A f). Proof. by intros s. Qed.
Lemma asks_maybe k u b : asks (maybe_throw k u b).
Proof.
  intros s. unfold maybe_throw. destruct b; [apply later_refl|]. simpl. case_decide.
  - split; simpl; [done|lia].
  - split; [split; simpl; [done|lia]|]. simpl. split; [lia|done].
Qed.
Lemma asks_alloc p : asks (alloc p).
Proof.
  intros s. unfold alloc. simpl. case_decide.
  - split; simpl; [done|lia].
  - split; [split; simpl; [done|lia]|]. simpl. split; [lia|done].
Qed.
Ltac quiet := repeat (case_match; simplify_eq/=); try done; apply later_refl.
Lemma asks_get_cell l : asks (get_cell l). Proof. intros s. unfold get_cell. quiet. Qed.
Lemma asks_put_cell l c : asks (put_cell l c). Proof. intros s. unfold put_cell. quiet. Qed.
Lemma asks_construct l o : asks (construct l o). Proof. intros s. unfold construct. quiet. Qed.
Lemma asks_destruct_obj l : asks (destruct_obj l). Proof. intros s. unfold destruct_obj. quiet. Qed.
Lemma asks_modify_obj l o : asks (modify_obj l o). Proof. intros s. unfold modify_obj. quiet. Qed.
Lemma asks_drop_cell l : asks (drop_cell l). Proof. intros s. unfold drop_cell. quiet. Qed.
Lemma asks_free l : asks (free l). Proof. intros s. unfold free. quiet. Qed.
Lemma asks_new_cell k : asks (new_cell k). Proof. by intros s. Qed.
Lemma asks_choose : asks choose. Proof. intros s. split; simpl; [done|lia]. Qed.
Lemma asks_note v : asks (note_read v). Proof. by intros s. Qed.
Lemma asks_throw {A} : asks (@throw A XBadGet). Proof. intros s. by split. Qed.

Create HintDb asks.
#[local] Hint Constants Opaque : asks.
#[local] Hint Resolve asks_ret asks_faulty asks_maybe asks_alloc asks_get_cell asks_put_cell asks_construct
  asks_destruct_obj asks_modify_obj asks_new_cell asks_drop_cell asks_free asks_choose asks_note : asks.

Ltac rs :=
  repeat first
    [ match goal with H : context [asks _] |- _ => solve [simple apply H] end
    | solve [eauto 1 with asks nocore]
    | match goal with
      | |- asks (bind _ _) => apply asks_bind; [|intros]
      | |- asks (on_exn _ _) => apply asks_on_exn
      | |- asks (finally _ _) => apply asks_finally
      | |- asks (noexcept _) => apply asks_noexcept
      | |- asks (noexcept_if _ _) => apply asks_noexcept_if
      | |- asks (match ?x with _ => _ end) => destruct x
      | |- asks ((match ?x with _ => _ end) _) => destruct x
      end ].

Lemma asks_get_obj l : asks (get_obj l). Proof. unfold get_obj. rs. Qed.
Lemma asks_read_which l : asks (read_which l). Proof. unfold read_which. rs. Qed.
Lemma asks_write_which l z : asks (write_which l z). Proof. unfold write_which. rs. Qed.
#[local] Hint Resolve asks_get_obj asks_read_which asks_write_which : asks.
Lemma asks_which l : asks (which l). Proof. unfold which. rs. Qed.
Lemma asks_indicate l z : asks (indicate_which l z). Proof. unfold indicate_which. rs. Qed.
Lemma asks_indicate_bk l z : asks (indicate_backup_which l z). Proof. unfold indicate_backup_which. rs. Qed.
Lemma asks_wrap_ptr u l : asks (wrap_ptr u l). Proof. unfold wrap_ptr. rs. Qed.
Lemma asks_bk_ptr u l : asks (bk_ptr u l). Proof. unfold bk_ptr. rs. Qed.
Lemma asks_expect u l : asks (expect_user u l). Proof. unfold expect_user. rs. Qed.
#[local] Hint Resolve asks_which asks_indicate asks_indicate_bk asks_wrap_ptr asks_bk_ptr asks_expect : asks.
Lemma asks_bk_get u l : asks (bk_get u l). Proof. unfold bk_get. rs. Qed.
Lemma asks_bk_swap t l r : asks (bk_swap t l r). Proof. unfold bk_swap. rs. Qed.
Lemma asks_new_obj p k : (forall q, asks (k q)) -> asks (new_obj p k). Proof. intros. unfold new_obj. rs. Qed.
Lemma asks_stack_obj k : (forall q, asks (k q)) -> asks (stack_obj k). Proof. intros. unfold stack_obj. rs. Qed.
Lemma asks_local_variant k : (forall q, asks (k q)) -> asks (local_variant k). Proof. intros. unfold local_variant. rs. Qed.
Lemma asks_scoped {A} m d (f : loc -> M A) : asks m -> (forall x, asks (d x)) -> (forall x, asks (f x)) -> asks (scoped m d f).
Proof. intros. unfold scoped. rs. Qed.
#[local] Hint Resolve asks_bk_get asks_bk_swap : asks.

Section usem.
Context (C : cfg) (S : usem).
Record asks_usem : Prop := RaisesUsem {
  rs_value u l : asks (us_value S u l);
  rs_definit u l : asks (us_definit S u l);
  rs_copy u d s : asks (us_copy S u d s);
  rs_move u d s : asks (us_move S u d s);
  rs_cassign u d s : asks (us_cassign S u d s);
  rs_massign u d s : asks (us_massign S u d s);
  rs_swap u l r : asks (us_swap S u l r);
  rs_destroy u l : asks (us_destroy S u l);
  rs_read u l : asks (us_read S u l)
}.
Context (HS : asks_usem).
Lemma rvalue u l : asks (us_value S u l). Proof. apply HS. Qed.
Lemma rdefinit u l : asks (us_definit S u l). Proof. apply HS. Qed.
Lemma rcopy u d s : asks (us_copy S u d s). Proof. apply HS. Qed.
Lemma rmove u d s : asks (us_move S u d s). Proof. apply HS. Qed.
Lemma rcassign u d s : asks (us_cassign S u d s). Proof. apply HS. Qed.
Lemma rmassign u d s : asks (us_massign S u d s). Proof. apply HS. Qed.
Lemma rswap u l r : asks (us_swap S u l r). Proof. apply HS. Qed.
Lemma rdestroy u l : asks (us_destroy S u l). Proof. apply HS. Qed.
Lemma rread u l : asks (us_read S u l). Proof. apply HS. Qed.
#[local] Hint Resolve rvalue rdefinit rcopy rmove rcassign rmassign rswap rdestroy rread : asks.

Ltac rs1 := repeat first
  [ progress rs
  | match goal with
    | |- asks (new_obj _ _) => apply asks_new_obj; intros
    | |- asks (stack_obj _) => apply asks_stack_obj; intros
    | |- asks (local_variant _) => apply asks_local_variant; intros
    | |- asks (scoped _ _ _) => apply asks_scoped; [|intros|intros]
    end ].

Lemma r_i_copy t d s : asks (i_copy S t d s). Proof. unfold i_copy. rs1. Qed.
Lemma r_i_move t d s : asks (i_move S t d s). Proof. unfold i_move. rs1. Qed.
Lemma r_i_copy_from t d s : asks (i_copy_from S t d s). Proof. unfold i_copy_from. rs1. Qed.
Lemma r_i_move_from t d s : asks (i_move_from S t d s). Proof. unfold i_move_from. rs1. Qed.
Lemma r_i_value t d : asks (i_value S t d). Proof. unfold i_value. rs1. Qed.
Lemma r_i_cassign t l r : asks (i_cassign S t l r). Proof. unfold i_cassign. rs1. Qed.
Lemma r_i_massign t l r : asks (i_massign S t l r). Proof. unfold i_massign. rs1. Qed.
Lemma r_i_destroy t l : asks (i_destroy S t l). Proof. unfold i_destroy. rs1. Qed.
#[local] Hint Resolve r_i_copy r_i_move r_i_copy_from r_i_move_from r_i_value r_i_cassign r_i_massign r_i_destroy : asks.
Lemma r_bk_destroy t l : asks (bk_destroy S t l). Proof. unfold bk_destroy. rs1. Qed.
#[local] Hint Resolve r_bk_destroy : asks.
Lemma r_s_copy st d s : asks (s_copy C S st d s). Proof. unfold s_copy. rs1. Qed.
Lemma r_s_move st d s : asks (s_move C S st d s). Proof. unfold s_move. rs1. Qed.
Lemma r_s_destroy st l : asks (s_destroy S st l). Proof. unfold s_destroy. rs1. Qed.
#[local] Hint Resolve r_s_copy r_s_move r_s_destroy : asks.

Lemma r_visit {A} tys a (k : sty -> loc -> M A) : (forall st l, asks (k st l)) -> asks (visit C tys a k).
Proof. intros. unfold visit. rs1. Qed.
Lemma r_visit_user {A} tys a (k : uid -> loc -> M A) : (forall u l, asks (k u l)) -> asks (visit_user C tys a k).
Proof. intros. apply r_visit. intros st l. unfold unwrap, unwrap_int. rs1. Qed.

Ltac rs2 := repeat first
  [ progress rs1
  | match goal with
    | |- asks (visit _ _ _ _) => apply r_visit; intros
    | |- asks (visit_user _ _ _ _) => apply r_visit_user; intros
    end ].

Lemma r_destroy_content tys a : asks (destroy_content C S tys a). Proof. unfold destroy_content. rs2. Qed.
#[local] Hint Resolve r_destroy_content : asks.
Lemma r_var_destroy tys a : asks (var_destroy C S tys a). Proof. unfold var_destroy. rs2. Qed.
Lemma r_var_default tys a : asks (var_default C S tys a). Proof. unfold var_default, construct_mpl. rs2. Qed.
Lemma r_var_copy tys d s : asks (var_copy C S tys d s). Proof. unfold var_copy, copy_into. rs2. Qed.
Lemma r_var_move tys d s : asks (var_move C S tys d s). Proof. unfold var_move, move_into. rs2. Qed.
#[local] Hint Resolve r_destroy_content r_var_destroy r_var_default r_var_copy r_var_move : asks.
Lemma r_convert_obj u u' d s : asks (convert_obj C u u' d s). Proof. unfold convert_obj. rs2. Qed.
#[local] Hint Resolve r_convert_obj : asks.
Lemma r_initialize tys a u s mv : asks (initialize C S tys a u s mv). Proof. unfold initialize. rs2. Qed.
#[local] Hint Resolve r_initialize : asks.
Lemma r_var_from tys a u s mv : asks (var_from C S tys a u s mv). Proof. unfold var_from. rs2. Qed.
Lemma r_var_convert tys a tys' b mv : asks (var_convert C S tys a tys' b mv). Proof. unfold var_convert. rs2. Qed.
Lemma r_construct_fallback tys a : asks (construct_fallback C S tys a). Proof. unfold construct_fallback, construct_mpl. rs2. Qed.
#[local] Hint Resolve r_var_from r_var_convert r_construct_fallback : asks.
Lemma r_assign_4 tys a rw st src : asks (assign_4 C S tys a rw st src).
Proof. unfold assign_4, backup_assigner, backup_assign_1, backup_assign_2, backup_assign_3. rs2. Qed.
#[local] Hint Resolve r_assign_4 : asks.
Lemma r_assigner tys a rw st src : asks (assigner C S tys a rw st src).
Proof. unfold assigner, assign_1, assign_2, assign_3. rs2. Qed.
Lemma r_move_assigner tys a rw st src : asks (move_assigner C S tys a rw st src).
Proof. unfold move_assigner, assign_1, massign_move, massign_fallback. rs2. Qed.
#[local] Hint Resolve r_assigner r_move_assigner : asks.
Lemma r_assign_storage r st l : asks (assign_storage S r st l). Proof. unfold assign_storage. rs2. Qed.
Lemma r_move_storage r st l : asks (move_storage S r st l). Proof. unfold move_storage. rs2. Qed.
#[local] Hint Resolve r_assign_storage r_move_storage : asks.
Lemma r_var_assign tys a b : asks (var_assign C S tys a b). Proof. unfold var_assign. rs2. Qed.
Lemma r_variant_massign tys a b : asks (variant_massign C S tys a b). Proof. unfold variant_massign. rs2. Qed.
#[local] Hint Resolve r_var_assign r_variant_massign : asks.
Lemma r_var_massign tys a b : asks (var_massign C S tys a b). Proof. unfold var_massign. rs2. Qed.
#[local] Hint Resolve r_var_massign : asks.
Lemma r_var_assign_from tys a u s mv : asks (var_assign_from C S tys a u s mv).
Proof. unfold var_assign_from, direct_assign. rs2. Qed.
Lemma r_var_assign_convert tys a tys' b mv : asks (var_assign_convert C S tys a tys' b mv).
Proof. unfold var_assign_convert. rs2. Qed.
Lemma r_known_get tys b u : asks (known_get C tys b u). Proof. unfold known_get. rs2. Qed.
#[local] Hint Resolve r_known_get : asks.
Lemma r_var_swap tys a b : asks (var_swap C S tys a b). Proof. unfold var_swap. rs2. Qed.
Lemma r_var_read tys a : asks (var_read C S tys a). Proof. unfold var_read. rs2. Qed.
Lemma r_var_get tys a u : asks (var_get C tys a u). Proof. unfold var_get. rs2. Qed.
Lemma r_var_type tys a : asks (var_type C tys a). Proof. unfold var_type. rs2. Qed.
Lemma r_var_eq tys f a b : asks (var_eq C S tys f a b). Proof. unfold var_eq, comparer. rs2. Qed.
Lemma r_var_lt tys f a b : asks (var_lt C S tys f a b). Proof. unfold var_lt, comparer. rs2. Qed.
#[local] Hint Resolve r_var_read r_var_swap : asks.

Lemma r_make_members {B} mk mems (bs : list B) : (forall tys b l, asks (mk tys b l)) -> asks (make_members C S mk mems bs).
Proof. intros Hmk. revert bs. induction mems as [|tys mems IH]; intros [|b bs]; simpl; try apply asks_faulty; rs2. Qed.
Lemma r_destroy_members mems ks : asks (destroy_members C S mems ks).
Proof. revert ks. induction mems as [|tys mems IH]; intros [|b bs]; simpl; rs2. Qed.
Lemma r_assign_members f mems ls rs : (forall tys a b, asks (f tys a b)) -> asks (assign_members f mems ls rs).
Proof. intros Hf. revert ls rs. induction mems as [|tys mems IH]; intros [|b bs] [|c cs]; simpl; rs2. Qed.
Lemma r_read_members mems ks : asks (read_members C S mems ks).
Proof. revert ks. induction mems as [|tys mems IH]; intros [|b bs]; simpl; rs2. Qed.
Lemma r_scramble u l : asks (scramble u l). Proof. unfold scramble. rs2. Qed.
#[local] Hint Resolve r_destroy_members r_read_members r_scramble : asks.

Ltac rs3 := repeat first
  [ progress rs2
  | match goal with
    | |- asks (make_members _ _ _ _ _) => apply r_make_members; intros
    | |- asks (assign_members _ _ _ _) => apply r_assign_members; intros
    end ].
Lemma r_u_value u d : asks (u_value C S u d). Proof. unfold u_value. rs3. Qed.
#[local] Hint Resolve r_u_value : asks.
Lemma r_fields :
  (forall u d, asks (u_definit C S u d)) /\ (forall u d s, asks (u_copy C S u d s)) /\
  (forall u d s, asks (u_move C S u d s)) /\ (forall u d s, asks (u_cassign C S u d s)) /\
  (forall u d s, asks (u_massign C S u d s)) /\ (forall u d, asks (u_destroy C S u d)) /\
  (forall u d, asks (u_read C S u d)) /\ (forall u l r, asks (u_swap C S u l r)).
Proof.
  assert (Hmv : forall u d s, asks (u_move C S u d s)) by (intros; unfold u_move; rs3).
  assert (Hma : forall u d s, asks (u_massign C S u d s)) by (intros; unfold u_massign; rs3).
  assert (Hds : forall u l, asks (u_destroy C S u l)) by (intros; unfold u_destroy; rs3).
  repeat split; intros.
  - unfold u_definit. rs3.
  - unfold u_copy. rs3.
  - unfold u_move. rs3.
  - unfold u_cassign. rs3.
  - unfold u_massign. rs3.
  - unfold u_destroy. rs3.
  - unfold u_read. rs3.
  - unfold u_swap, own_swap, std_swap. destruct (ut_swap _); rs3.
Qed.

End usem.

Lemma r_step C S : asks_usem S -> asks_usem (sem_step C S).
Proof.
  intros HS. destruct (r_fields C S HS) as (H1&H2&H3&H4&H5&H6&H7&H8). split; simpl; intros; auto. by apply r_u_value.
Qed.
Lemma r_sem C n : asks_usem (sem C n).
Proof. induction n as [|n IH]; apply r_step; [|done]. split; intros; apply asks_faulty. Qed.

Lemma r_op C n eqf ltf E c : asks (op C n eqf ltf E c).
Proof.
  pose proof (r_sem C n) as HS.
  assert (Hn1 : forall x, asks (need_fresh E x)) by (intros; unfold need_fresh; rs).
  assert (Hn2 : forall x, asks (need_var E x)) by (intros; unfold need_var; rs).
  assert (Hn3 : forall x, asks (need_obj E x)) by (intros; unfold need_obj; rs).
  assert (Hn4 : forall x, asks (need_vars E x)) by (intros x; induction x; simpl; rs).
  assert (Hr : forall tys a u, asks (var_get_ref C tys a u)).
  { intros tys a u. unfold var_get_ref. apply asks_bind; [by apply r_var_get|]. intros [l|]; [apply asks_ret|apply asks_throw]. }
  assert (Hm : forall u l j, asks (member C u l j)) by (intros; unfold member; rs).
  assert (Hnew : forall x tys k, (forall a, asks (k a)) -> asks (new_var E x tys k)).
  { intros. unfold new_var. rs. by apply asks_local_variant. }
  destruct c; unfold op; rs; try (apply Hnew; intros); try (apply asks_stack_obj; intros; rs).
  all: try solve [by apply HS | by apply Hr | by apply r_var_default | by apply r_var_from | by apply r_var_copy
    | by apply r_var_move | by apply r_var_convert | by apply r_var_destroy | by apply r_var_assign | by apply r_var_massign
    | by apply r_var_assign_from | by apply r_var_assign_convert | by apply r_var_swap | by apply r_var_read
    | by apply r_var_get | by apply r_var_type | by apply r_var_eq | by apply r_var_lt].
  - apply r_make_members; [done|]. intros. by apply r_var_copy.
  - unfold var_poke. apply asks_bind; [by apply Hr|]. intros. apply HS.
Qed.

End asks.
