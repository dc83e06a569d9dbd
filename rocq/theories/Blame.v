(** Which choices of the oracle exceptions come from (proofs), as Raises.v. *)
From Coq.ssr Require Import ssreflect.
From Coq Require Import ZArith Lia.
From iris.prelude Require Import prelude.
From stdpp Require Import gmap list numbers.
From Verif Require Import Base Types Dispatch Variant Sem Values Client Places Programs BlameSpec Raises.

Definition follows {A} (g : bool) (m : M A) : Prop :=
  forall s, match m s with
            | Ok _ s' => span g s s'
            | Exn e s' => span g s s' /\ blamed g (orc s) (opos s) (opos s') e
            | Fault _ => True
            end.

Lemma blamed_weaken g o i j i' j' e : blamed g o i j e -> i' <= i -> j <= j' -> blamed g o i' j' e.
Proof. destruct e; simpl; try done; intros [H1 H2] H3 H4; (split; [lia|done]). Qed.
Lemma span_refl g s : span g s s.
Proof. split; [done|]. split; [lia|]. exists []. split; [done|constructor]. Qed.
Lemma span_trans g s1 s2 s3 : span g s1 s2 -> span g s2 s3 -> span g s1 s3.
Proof.
  intros (Ho&Hp&l&Hl&Hf) (Ho'&Hp'&l'&Hl'&Hf'). split; [congruence|]. split; [lia|]. exists (l' ++ l). split; [by rewrite Hl' Hl app_assoc|].
  apply Forall_app. split.
  - eapply Forall_impl; [|exact Hf']. simpl. intros e He. rewrite Ho in He. eapply blamed_weaken; [exact He|lia..].
  - eapply Forall_impl; [|exact Hf]. simpl. intros e He. eapply blamed_weaken; [exact He|lia..].
Qed.

Section raises.
Context (P : bool).
Notation raises := follows.

Lemma raises_bind {A B} (m : M A) (f : A -> M B) : raises P m -> (forall a, raises P (f a)) -> raises P (bind m f).
Proof.
  intros Hm Hf s. unfold bind. specialize (Hm s). destruct (m s) as [a s'|e s'|x]; [|done..]. specialize (Hf a s').
  pose proof Hm as (Ho&Hp&_). destruct (f a s') as [b s''|e s''|x]; [by eapply span_trans| |done]. destruct Hf as [Hf He]. split; [by eapply span_trans|].
  rewrite Ho in He. eapply blamed_weaken; [exact He|done..].
Qed.
Lemma after_exn s s1 s2 e : span P s s1 -> blamed P (orc s) (opos s) (opos s1) e -> span P s1 s2 -> span P s s2 /\ blamed P (orc s) (opos s) (opos s2) e.
Proof. intros H1 He H2. split; [by eapply span_trans|]. eapply blamed_weaken; [exact He|done|]. by destruct H2 as (_&?&_). Qed.
Lemma raises_on_exn {A} (m : M A) h : raises P m -> raises P h -> raises P (on_exn m h).
Proof.
  intros Hm Hh s. unfold on_exn. specialize (Hm s). destruct (m s) as [a s'|e s'|x]; [done| |done]. destruct Hm as [Hm He].
  specialize (Hh s'). destruct (h s') as [b s''|e' s''|x]; [by eapply after_exn| |done]. destruct Hh as [Hh He']. split; [by eapply span_trans|].
  destruct Hm as (Ho&Hp&_). rewrite Ho in He'. eapply blamed_weaken; [exact He'|done..].
Qed.
Lemma raises_finally {A} (m : M A) h : raises P m -> raises P h -> raises P (finally m h).
Proof.
  intros Hm Hh s. unfold finally. specialize (Hm s). destruct (m s) as [a s'|e s'|x]; [| |done]; specialize (Hh s').
  - destruct (h s') as [b s''|e' s''|x]; [by eapply span_trans| |done]. destruct Hh as [Hh He']. split; [by eapply span_trans|].
    destruct Hm as (Ho&Hp&_). rewrite Ho in He'. eapply blamed_weaken; [exact He'|done..].
  - destruct Hm as [Hm He]. destruct (h s') as [b s''|e' s''|x]; [by eapply after_exn|done..].
Qed.
Lemma raises_noexcept {A} (m : M A) : raises P m -> raises P (noexcept m).
Proof. intros Hm s. unfold noexcept. specialize (Hm s). by destruct (m s). Qed.
Lemma raises_noexcept_if {A} b (m : M A) : raises P m -> raises P (noexcept_if b m).
Proof. destruct b; [apply raises_noexcept|done]. Qed.
Ltac prim := repeat case_match; simplify_eq; try done; (split; [done|]; split; [simpl; lia|]; exists []; split; [done|constructor]).
Lemma raises_ret {A} (a : A) : raises P (ret a). Proof. intros s. apply span_refl. Qed.
Lemma raises_faulty {A} f : raises P (@faulty A f). Proof. by intros s. Qed.
Lemma raises_maybe k u b : raises P (maybe_throw k u b).
Proof.
  intros s. unfold maybe_throw. destruct b; [apply span_refl|]. simpl. case_decide as Hz.
  - split; [done|]. split; [simpl; lia|]. exists []. split; [done|constructor].
  - simpl. split; [|simpl; split; [lia|done]]. split; [done|]. split; [simpl; lia|]. exists [XUser k u (opos s)]. split; [done|].
    constructor; [|done]. simpl. split; [lia|done].
Qed.
Lemma raises_alloc p : raises P (alloc p).
Proof.
  intros s. unfold alloc. simpl. case_decide as Hz.
  - simpl. split; [done|]. split; [simpl; lia|]. exists []. split; [done|constructor].
  - simpl. split; [|simpl; split; [lia|done]]. split; [done|]. split; [simpl; lia|]. exists [XAlloc (opos s)]. split; [done|].
    constructor; [|done]. simpl. split; [lia|done].
Qed.
Lemma raises_throw {A} : P = true -> raises P (@throw A XBadGet).
Proof. intros HP s. simpl. split; [|done]. split; [done|]. split; [simpl; lia|]. exists [XBadGet]. split; [done|]. by constructor. Qed.
Lemma raises_get_cell l : raises P (get_cell l). Proof. intros s. unfold get_cell. prim. Qed.
Lemma raises_put_cell l c : raises P (put_cell l c). Proof. intros s. unfold put_cell. prim. Qed.
Lemma raises_construct l o : raises P (construct l o). Proof. intros s. unfold construct. prim. Qed.
Lemma raises_destruct_obj l : raises P (destruct_obj l). Proof. intros s. unfold destruct_obj. prim. Qed.
Lemma raises_modify_obj l o : raises P (modify_obj l o). Proof. intros s. unfold modify_obj. prim. Qed.
Lemma raises_new_cell k : raises P (new_cell k). Proof. intros s. simpl. prim. Qed.
Lemma raises_drop_cell l : raises P (drop_cell l). Proof. intros s. unfold drop_cell. prim. Qed.
Lemma raises_free l : raises P (free l). Proof. intros s. unfold free. prim. Qed.
Lemma raises_choose : raises P choose. Proof. intros s. simpl. split; [done|]. split; [simpl; lia|]. exists []. split; [done|constructor]. Qed.
Lemma raises_note v : raises P (note_read v). Proof. intros s. simpl. prim. Qed.

Create HintDb blame.
#[local] Hint Constants Opaque : blame.
#[local] Hint Resolve raises_ret raises_faulty raises_maybe raises_alloc raises_get_cell raises_put_cell raises_construct
  raises_destruct_obj raises_modify_obj raises_new_cell raises_drop_cell raises_free raises_choose raises_note : blame.

Ltac rs :=
  repeat first
    [ match goal with H : context [raises P _] |- _ => solve [simple apply H] end
    | solve [eauto 1 with blame nocore]
    | match goal with
      | |- raises _ (bind _ _) => apply raises_bind; [|intros]
      | |- raises _ (on_exn _ _) => apply raises_on_exn
      | |- raises _ (finally _ _) => apply raises_finally
      | |- raises _ (noexcept_if _ _) => apply raises_noexcept_if
      | |- raises _ (noexcept _) => apply raises_noexcept
      | |- raises _ (match ?x with _ => _ end) => destruct x
      | |- raises _ ((match ?x with _ => _ end) _) => destruct x
      end ].

Lemma raises_get_obj l : raises P (get_obj l). Proof. unfold get_obj. rs. Qed.
Lemma raises_read_which l : raises P (read_which l). Proof. unfold read_which. rs. Qed.
Lemma raises_write_which l z : raises P (write_which l z). Proof. unfold write_which. rs. Qed.
#[local] Hint Resolve raises_get_obj raises_read_which raises_write_which : blame.
Lemma raises_which l : raises P (which l). Proof. unfold which. rs. Qed.
Lemma raises_indicate l z : raises P (indicate_which l z). Proof. unfold indicate_which. rs. Qed.
Lemma raises_indicate_bk l z : raises P (indicate_backup_which l z). Proof. unfold indicate_backup_which. rs. Qed.
Lemma raises_wrap_ptr u l : raises P (wrap_ptr u l). Proof. unfold wrap_ptr. rs. Qed.
Lemma raises_bk_ptr u l : raises P (bk_ptr u l). Proof. unfold bk_ptr. rs. Qed.
Lemma raises_expect u l : raises P (expect_user u l). Proof. unfold expect_user. rs. Qed.
#[local] Hint Resolve raises_which raises_indicate raises_indicate_bk raises_wrap_ptr raises_bk_ptr raises_expect : blame.
Lemma raises_bk_get u l : raises P (bk_get u l). Proof. unfold bk_get. rs. Qed.
Lemma raises_bk_swap t l r : raises P (bk_swap t l r). Proof. unfold bk_swap. rs. Qed.
Lemma raises_new_obj p k : (forall q, raises P (k q)) -> raises P (new_obj p k). Proof. intros. unfold new_obj. rs. Qed.
Lemma raises_stack_obj k : (forall q, raises P (k q)) -> raises P (stack_obj k). Proof. intros. unfold stack_obj. rs. Qed.
Lemma raises_local_variant k : (forall q, raises P (k q)) -> raises P (local_variant k). Proof. intros. unfold local_variant. rs. Qed.
Lemma raises_scoped {A} m d (f : loc -> M A) : raises P m -> (forall x, raises P (d x)) -> (forall x, raises P (f x)) -> raises P (scoped m d f).
Proof. intros. unfold scoped. rs. Qed.
#[local] Hint Resolve raises_bk_get raises_bk_swap : blame.

Section usem.
Context (C : cfg) (S : usem).
Record raises_usem : Prop := RaisesUsem {
  rs_value u l : raises P (us_value S u l);
  rs_definit u l : raises P (us_definit S u l);
  rs_copy u d s : raises P (us_copy S u d s);
  rs_move u d s : raises P (us_move S u d s);
  rs_cassign u d s : raises P (us_cassign S u d s);
  rs_massign u d s : raises P (us_massign S u d s);
  rs_swap u l r : raises P (us_swap S u l r);
  rs_destroy u l : raises P (us_destroy S u l);
  rs_read u l : raises P (us_read S u l)
}.
Context (HS : raises_usem).
Lemma rvalue u l : raises P (us_value S u l). Proof. apply HS. Qed.
Lemma rdefinit u l : raises P (us_definit S u l). Proof. apply HS. Qed.
Lemma rcopy u d s : raises P (us_copy S u d s). Proof. apply HS. Qed.
Lemma rmove u d s : raises P (us_move S u d s). Proof. apply HS. Qed.
Lemma rcassign u d s : raises P (us_cassign S u d s). Proof. apply HS. Qed.
Lemma rmassign u d s : raises P (us_massign S u d s). Proof. apply HS. Qed.
Lemma rswap u l r : raises P (us_swap S u l r). Proof. apply HS. Qed.
Lemma rdestroy u l : raises P (us_destroy S u l). Proof. apply HS. Qed.
Lemma rread u l : raises P (us_read S u l). Proof. apply HS. Qed.
#[local] Hint Resolve rvalue rdefinit rcopy rmove rcassign rmassign rswap rdestroy rread : blame.

Ltac rs1 := repeat first
  [ progress rs
  | match goal with
    | |- raises _ (new_obj _ _) => apply raises_new_obj; intros
    | |- raises _ (stack_obj _) => apply raises_stack_obj; intros
    | |- raises _ (local_variant _) => apply raises_local_variant; intros
    | |- raises _ (scoped _ _ _) => apply raises_scoped; [|intros|intros]
    end ].

Lemma r_i_copy t d s : raises P (i_copy S t d s). Proof. unfold i_copy. rs1. Qed.
Lemma r_i_move t d s : raises P (i_move S t d s). Proof. unfold i_move. rs1. Qed.
Lemma r_i_copy_from t d s : raises P (i_copy_from S t d s). Proof. unfold i_copy_from. rs1. Qed.
Lemma r_i_move_from t d s : raises P (i_move_from S t d s). Proof. unfold i_move_from. rs1. Qed.
Lemma r_i_value t d : raises P (i_value S t d). Proof. unfold i_value. rs1. Qed.
Lemma r_i_cassign t l r : raises P (i_cassign S t l r). Proof. unfold i_cassign. rs1. Qed.
Lemma r_i_massign t l r : raises P (i_massign S t l r). Proof. unfold i_massign. rs1. Qed.
Lemma r_i_destroy t l : raises P (i_destroy S t l). Proof. unfold i_destroy. rs1. Qed.
#[local] Hint Resolve r_i_copy r_i_move r_i_copy_from r_i_move_from r_i_value r_i_cassign r_i_massign r_i_destroy : blame.
Lemma r_bk_destroy t l : raises P (bk_destroy S t l). Proof. unfold bk_destroy. rs1. Qed.
#[local] Hint Resolve r_bk_destroy : blame.
Lemma r_s_copy st d s : raises P (s_copy C S st d s). Proof. unfold s_copy. rs1. Qed.
Lemma r_s_move st d s : raises P (s_move C S st d s). Proof. unfold s_move. rs1. Qed.
Lemma r_s_destroy st l : raises P (s_destroy S st l). Proof. unfold s_destroy. rs1. Qed.
#[local] Hint Resolve r_s_copy r_s_move r_s_destroy : blame.

Lemma r_visit {A} tys a (k : sty -> loc -> M A) : (forall st l, raises P (k st l)) -> raises P (visit C tys a k).
Proof. intros. unfold visit. rs1. Qed.
Lemma r_visit_user {A} tys a (k : uid -> loc -> M A) : (forall u l, raises P (k u l)) -> raises P (visit_user C tys a k).
Proof. intros. apply r_visit. intros st l. unfold unwrap, unwrap_int. rs1. Qed.

Ltac rs2 := repeat first
  [ progress rs1
  | match goal with
    | |- raises _ (visit _ _ _ _) => apply r_visit; intros
    | |- raises _ (visit_user _ _ _ _) => apply r_visit_user; intros
    end ].

Lemma r_destroy_content tys a : raises P (destroy_content C S tys a). Proof. unfold destroy_content. rs2. Qed.
#[local] Hint Resolve r_destroy_content : blame.
Lemma r_var_destroy tys a : raises P (var_destroy C S tys a). Proof. unfold var_destroy. rs2. Qed.
Lemma r_var_default tys a : raises P (var_default C S tys a). Proof. unfold var_default. rs2. Qed.
Lemma r_var_copy tys d s : raises P (var_copy C S tys d s). Proof. unfold var_copy, copy_into. rs2. Qed.
Lemma r_var_move tys d s : raises P (var_move C S tys d s). Proof. unfold var_move, move_into. rs2. Qed.
#[local] Hint Resolve r_destroy_content r_var_destroy r_var_default r_var_copy r_var_move : blame.
Lemma r_convert_obj u u' d s : raises P (convert_obj C u u' d s). Proof. unfold convert_obj. rs2. Qed.
#[local] Hint Resolve r_convert_obj : blame.
Lemma r_initialize tys a u s mv : raises P (initialize C S tys a u s mv). Proof. unfold initialize. rs2. Qed.
#[local] Hint Resolve r_initialize : blame.
Lemma r_var_from tys a u s mv : raises P (var_from C S tys a u s mv). Proof. unfold var_from. rs2. Qed.
Lemma r_var_convert tys a tys' b mv : raises P (var_convert C S tys a tys' b mv). Proof. unfold var_convert. rs2. Qed.
Lemma r_construct_fallback tys a : raises P (construct_fallback C S tys a). Proof. unfold construct_fallback, construct_mpl. rs2. Qed.
#[local] Hint Resolve r_var_from r_var_convert r_construct_fallback : blame.
Lemma r_assign_4 tys a rw st src : raises P (assign_4 C S tys a rw st src).
Proof. unfold assign_4, backup_assigner, backup_assign_1, backup_assign_2, backup_assign_3. rs2. Qed.
#[local] Hint Resolve r_assign_4 : blame.
Lemma r_assigner tys a rw st src : raises P (assigner C S tys a rw st src).
Proof. unfold assigner, assign_1, assign_2, assign_3. rs2. Qed.
Lemma r_move_assigner tys a rw st src : raises P (move_assigner C S tys a rw st src).
Proof. unfold move_assigner, massign_move, massign_fallback, assign_1. rs2. Qed.
#[local] Hint Resolve r_assigner r_move_assigner : blame.
Lemma r_assign_storage r st l : raises P (assign_storage S r st l). Proof. unfold assign_storage. rs2. Qed.
Lemma r_move_storage r st l : raises P (move_storage S r st l). Proof. unfold move_storage. rs2. Qed.
#[local] Hint Resolve r_assign_storage r_move_storage : blame.
Lemma r_var_assign tys a b : raises P (var_assign C S tys a b). Proof. unfold var_assign. rs2. Qed.
Lemma r_variant_massign tys a b : raises P (variant_massign C S tys a b). Proof. unfold variant_massign. rs2. Qed.
#[local] Hint Resolve r_var_assign r_variant_massign : blame.
Lemma r_var_massign tys a b : raises P (var_massign C S tys a b). Proof. unfold var_massign. rs2. Qed.
#[local] Hint Resolve r_var_massign : blame.
Lemma r_var_assign_from tys a u s mv : raises P (var_assign_from C S tys a u s mv).
Proof. unfold var_assign_from, direct_assign. rs2. Qed.
Lemma r_var_assign_convert tys a tys' b mv : raises P (var_assign_convert C S tys a tys' b mv).
Proof. unfold var_assign_convert. rs2. Qed.
Lemma r_known_get tys b u : raises P (known_get C tys b u). Proof. unfold known_get. rs2. Qed.
#[local] Hint Resolve r_known_get : blame.
Lemma r_var_swap tys a b : raises P (var_swap C S tys a b). Proof. unfold var_swap. rs2. Qed.
Lemma r_var_read tys a : raises P (var_read C S tys a). Proof. unfold var_read. rs2. Qed.
Lemma r_var_get tys a u : raises P (var_get C tys a u). Proof. unfold var_get. rs2. Qed.
Lemma r_var_type tys a : raises P (var_type C tys a). Proof. unfold var_type. rs2. Qed.
Lemma r_var_eq tys f a b : raises P (var_eq C S tys f a b). Proof. unfold var_eq, comparer. rs2. Qed.
Lemma r_var_lt tys f a b : raises P (var_lt C S tys f a b). Proof. unfold var_lt, comparer. rs2. Qed.
#[local] Hint Resolve r_var_read r_var_swap : blame.

Lemma r_make_members {B} mk mems (bs : list B) : (forall tys b l, raises P (mk tys b l)) -> raises P (make_members C S mk mems bs).
Proof. intros Hmk. revert bs. induction mems as [|tys mems IH]; intros [|b bs]; simpl; try apply raises_faulty; rs2. Qed.
Lemma r_destroy_members mems ks : raises P (destroy_members C S mems ks).
Proof. revert ks. induction mems as [|tys mems IH]; intros [|b bs]; simpl; rs2. Qed.
Lemma r_assign_members f mems ls rs : (forall tys a b, raises P (f tys a b)) -> raises P (assign_members f mems ls rs).
Proof. intros Hf. revert ls rs. induction mems as [|tys mems IH]; intros [|b bs] [|c cs]; simpl; rs2. Qed.
Lemma r_read_members mems ks : raises P (read_members C S mems ks).
Proof. revert ks. induction mems as [|tys mems IH]; intros [|b bs]; simpl; rs2. Qed.
Lemma r_scramble u l : raises P (scramble u l). Proof. unfold scramble. rs2. Qed.
#[local] Hint Resolve r_destroy_members r_read_members r_scramble : blame.

Ltac rs3 := repeat first
  [ progress rs2
  | match goal with
    | |- raises _ (make_members _ _ _ _ _) => apply r_make_members; intros
    | |- raises _ (assign_members _ _ _ _) => apply r_assign_members; intros
    end ].
Lemma r_u_value u d : raises P (u_value C S u d). Proof. unfold u_value. rs3. Qed.
#[local] Hint Resolve r_u_value : blame.
Lemma r_fields :
  (forall u d, raises P (u_definit C S u d)) /\ (forall u d s, raises P (u_copy C S u d s)) /\
  (forall u d s, raises P (u_move C S u d s)) /\ (forall u d s, raises P (u_cassign C S u d s)) /\
  (forall u d s, raises P (u_massign C S u d s)) /\ (forall u d, raises P (u_destroy C S u d)) /\
  (forall u d, raises P (u_read C S u d)) /\ (forall u l r, raises P (u_swap C S u l r)).
Proof.
  assert (Hmv : forall u d s, raises P (u_move C S u d s)) by (intros; unfold u_move; rs3).
  assert (Hma : forall u d s, raises P (u_massign C S u d s)) by (intros; unfold u_massign; rs3).
  assert (Hds : forall u l, raises P (u_destroy C S u l)) by (intros; unfold u_destroy; rs3).
  repeat split; intros.
  - unfold u_definit. rs3.
  - unfold u_copy. rs3.
  - unfold u_move. rs3.
  - unfold u_cassign. rs3.
  - unfold u_massign. rs3.
  - unfold u_destroy. rs3.
  - unfold u_read. rs3.
  - unfold u_swap, own_swap, std_swap. destruct (ut_swap _); rs3.
Qed.

End usem.

Lemma r_step C S : raises_usem S -> raises_usem (sem_step C S).
Proof.
  intros HS. destruct (r_fields C S HS) as (H1&H2&H3&H4&H5&H6&H7&H8). split; simpl; intros; auto. by apply r_u_value.
Qed.
Lemma r_sem C n : raises_usem (sem C n).
Proof. induction n as [|n IH]; apply r_step; [|done]. split; intros; apply raises_faulty. Qed.

Lemma r_op C n eqf ltf E c : (uses_get c = true -> P = true) -> raises P (op C n eqf ltf E c).
Proof.
  intros Hg. pose proof (r_sem C n) as HS.
  assert (Hth : uses_get c = true -> forall A, raises P (@throw A XBadGet)) by (intros; apply raises_throw; auto).
  assert (Hn1 : forall x, raises P (need_fresh E x)) by (intros; unfold need_fresh; rs).
  assert (Hn2 : forall x, raises P (need_var E x)) by (intros; unfold need_var; rs).
  assert (Hn3 : forall x, raises P (need_obj E x)) by (intros; unfold need_obj; rs).
  assert (Hn4 : forall x, raises P (need_vars E x)) by (intros x; induction x; simpl; rs).
  assert (Hr : uses_get c = true -> forall tys a u, raises P (var_get_ref C tys a u)).
  { intros Hc tys a u. unfold var_get_ref. apply raises_bind; [by apply r_var_get|]. intros [l|]; [apply raises_ret|auto]. }
  assert (Hm : forall u l j, raises P (member C u l j)) by (intros; unfold member; rs).
  assert (Hnew : forall x tys k, (forall a, raises P (k a)) -> raises P (new_var E x tys k)).
  { intros. unfold new_var. rs. by apply raises_local_variant. }
  destruct c; simpl in Hth, Hr; unfold op; rs; try (apply Hnew; intros); try (apply raises_stack_obj; intros; rs).
  all: try solve [by apply HS | by apply Hr | by apply r_var_default | by apply r_var_from | by apply r_var_copy
    | by apply r_var_move | by apply r_var_convert | by apply r_var_destroy | by apply r_var_assign | by apply r_var_massign
    | by apply r_var_assign_from | by apply r_var_assign_convert | by apply r_var_swap | by apply r_var_read
    | by apply r_var_get | by apply r_var_type | by apply r_var_eq | by apply r_var_lt].
  - apply r_make_members; [done|]. intros; by apply r_var_copy.
  - unfold var_poke. apply raises_bind; [by apply Hr|]. intros. apply HS.
Qed.

End raises.
