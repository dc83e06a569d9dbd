(** The level of the semantics does not matter (proofs): a higher level gives the same
    result, unless the lower one was too low. *)
From Coq.ssr Require Import ssreflect.
From Coq Require Import ZArith Lia.
From iris.prelude Require Import prelude.
From stdpp Require Import gmap list numbers.
From Verif Require Import Base Types Dispatch Variant Sem Values Client.

Definition le {A} (m m' : M A) : Prop := forall s, m s = Fault FFuel \/ m s = m' s.

Lemma le_refl {A} (m : M A) : le m m.
Proof. intros s. by right. Qed.
Lemma le_bind {A B} (m m' : M A) (f f' : A -> M B) :
  le m m' -> (forall a, le (f a) (f' a)) -> le (bind m f) (bind m' f').
Proof.
  intros Hm Hf s. unfold bind. destruct (Hm s) as [-> | ->]; [by left|].
  destruct (m' s) as [a s'|e s'|x]; [apply Hf|by right..].
Qed.
Lemma le_on_exn {A} (m m' : M A) h h' : le m m' -> le h h' -> le (on_exn m h) (on_exn m' h').
Proof.
  intros Hm Hf s. unfold on_exn. destruct (Hm s) as [-> | ->]; [by left|].
  destruct (m' s) as [a s'|e s'|x]; [by right| |by right].
  destruct (Hf s') as [-> | ->]; [by left|by right].
Qed.
Lemma le_finally {A} (m m' : M A) h h' : le m m' -> le h h' -> le (finally m h) (finally m' h').
Proof.
  intros Hm Hf s. unfold finally. destruct (Hm s) as [-> | ->]; [by left|].
  destruct (m' s) as [a s'|e s'|x]; [..|by right]; destruct (Hf s') as [-> | ->]; [by left|by right|by left|by right].
Qed.
Lemma le_noexcept {A} (m m' : M A) : le m m' -> le (noexcept m) (noexcept m').
Proof. intros Hm s. unfold noexcept. destruct (Hm s) as [-> | ->]; [by left|by right]. Qed.
Lemma le_noexcept_if {A} b (m m' : M A) : le m m' -> le (noexcept_if b m) (noexcept_if b m').
Proof. destruct b; [apply le_noexcept|done]. Qed.
Lemma le_fuel {A} (m : M A) : le (faulty FFuel) m.
Proof. intros s. by left. Qed.

Record le_usem (S S' : usem) : Prop := LeUsem {
  le_value u l : le (us_value S u l) (us_value S' u l);
  le_definit u l : le (us_definit S u l) (us_definit S' u l);
  le_copy u d s : le (us_copy S u d s) (us_copy S' u d s);
  le_move u d s : le (us_move S u d s) (us_move S' u d s);
  le_cassign u d s : le (us_cassign S u d s) (us_cassign S' u d s);
  le_massign u d s : le (us_massign S u d s) (us_massign S' u d s);
  le_swap u l r : le (us_swap S u l r) (us_swap S' u l r);
  le_destroy u l : le (us_destroy S u l) (us_destroy S' u l);
  le_read u l : le (us_read S u l) (us_read S' u l)
}.

Create HintDb mono.
#[global] Hint Constants Opaque : mono.
Ltac mono :=
  repeat first
    [ match goal with |- le ?m ?m' => constr_eq m m'; apply le_refl end
    | match goal with H : context [le _ _] |- _ => solve [simple apply H] end
    | solve [eauto 2 with mono nocore]
    | match goal with
      | |- le (bind _ _) (bind _ _) => apply le_bind; [|intros]
      | |- le (on_exn _ _) (on_exn _ _) => apply le_on_exn
      | |- le (finally _ _) (finally _ _) => apply le_finally
      | |- le (noexcept _) (noexcept _) => apply le_noexcept
      | |- le (noexcept_if _ _) (noexcept_if _ _) => apply le_noexcept_if
      | |- le (match ?x with _ => _ end) _ => destruct x
      | |- le ((match ?x with _ => _ end) _) _ => destruct x
      end ].

Section mono.
Context (C : cfg) (S S' : usem) (HS : le_usem S S').

Lemma mono_value u l : le (us_value S u l) (us_value S' u l). Proof. apply HS. Qed.
Lemma mono_definit u l : le (us_definit S u l) (us_definit S' u l). Proof. apply HS. Qed.
Lemma mono_copy u d s : le (us_copy S u d s) (us_copy S' u d s). Proof. apply HS. Qed.
Lemma mono_move u d s : le (us_move S u d s) (us_move S' u d s). Proof. apply HS. Qed.
Lemma mono_cassign u d s : le (us_cassign S u d s) (us_cassign S' u d s). Proof. apply HS. Qed.
Lemma mono_massign u d s : le (us_massign S u d s) (us_massign S' u d s). Proof. apply HS. Qed.
Lemma mono_swap u l r : le (us_swap S u l r) (us_swap S' u l r). Proof. apply HS. Qed.
Lemma mono_destroy u l : le (us_destroy S u l) (us_destroy S' u l). Proof. apply HS. Qed.
Lemma mono_read u l : le (us_read S u l) (us_read S' u l). Proof. apply HS. Qed.
#[local] Hint Resolve mono_value mono_definit mono_copy mono_move mono_cassign mono_massign mono_swap mono_destroy mono_read : mono.

Lemma mono_new_obj p k k' : (forall q, le (k q) (k' q)) -> le (new_obj p k) (new_obj p k').
Proof. intros. unfold new_obj. mono. Qed.
Lemma mono_stack_obj k k' : (forall q, le (k q) (k' q)) -> le (stack_obj k) (stack_obj k').
Proof. intros. unfold stack_obj. mono. Qed.
Lemma mono_local_variant k k' : (forall q, le (k q) (k' q)) -> le (local_variant k) (local_variant k').
Proof. intros. unfold local_variant. mono. Qed.
Lemma mono_scoped {A} m m' d d' (f f' : loc -> M A) : le m m' -> (forall x, le (d x) (d' x)) -> (forall x, le (f x) (f' x)) ->
  le (scoped m d f) (scoped m' d' f').
Proof. intros. unfold scoped. mono. Qed.

Ltac mono1 := repeat first
  [ progress mono
  | match goal with
    | |- le (new_obj _ _) _ => apply mono_new_obj; intros
    | |- le (stack_obj _) _ => apply mono_stack_obj; intros
    | |- le (local_variant _) _ => apply mono_local_variant; intros
    | |- le (scoped _ _ _) _ => apply mono_scoped; [|intros|intros]
    end ].

Lemma mono_i_copy t d s : le (i_copy S t d s) (i_copy S' t d s). Proof. unfold i_copy. mono1. Qed.
Lemma mono_i_move t d s : le (i_move S t d s) (i_move S' t d s). Proof. unfold i_move. mono1. Qed.
Lemma mono_i_copy_from t d s : le (i_copy_from S t d s) (i_copy_from S' t d s). Proof. unfold i_copy_from. mono1. Qed.
Lemma mono_i_move_from t d s : le (i_move_from S t d s) (i_move_from S' t d s). Proof. unfold i_move_from. mono1. Qed.
Lemma mono_i_value t d : le (i_value S t d) (i_value S' t d). Proof. unfold i_value. mono1. Qed.
Lemma mono_i_cassign t l r : le (i_cassign S t l r) (i_cassign S' t l r). Proof. unfold i_cassign. mono1. Qed.
Lemma mono_i_massign t l r : le (i_massign S t l r) (i_massign S' t l r). Proof. unfold i_massign. mono1. Qed.
Lemma mono_i_destroy t l : le (i_destroy S t l) (i_destroy S' t l). Proof. unfold i_destroy. mono1. Qed.
#[local] Hint Resolve mono_i_copy mono_i_move mono_i_copy_from mono_i_move_from mono_i_value mono_i_cassign mono_i_massign mono_i_destroy : mono.

Lemma mono_bk_destroy t l : le (bk_destroy S t l) (bk_destroy S' t l). Proof. unfold bk_destroy. mono1. Qed.
#[local] Hint Resolve mono_bk_destroy : mono.
Lemma mono_s_copy st d s : le (s_copy C S st d s) (s_copy C S' st d s). Proof. unfold s_copy. mono1. Qed.
Lemma mono_s_move st d s : le (s_move C S st d s) (s_move C S' st d s). Proof. unfold s_move. mono1. Qed.
Lemma mono_s_destroy st l : le (s_destroy S st l) (s_destroy S' st l). Proof. unfold s_destroy. mono1. Qed.
#[local] Hint Resolve mono_s_copy mono_s_move mono_s_destroy : mono.

Lemma mono_visit {A} tys a (k k' : sty -> loc -> M A) : (forall st l, le (k st l) (k' st l)) ->
  le (visit C tys a k) (visit C tys a k').
Proof. intros. unfold visit. mono1. Qed.
Lemma mono_visit_user {A} tys a (k k' : uid -> loc -> M A) : (forall u l, le (k u l) (k' u l)) ->
  le (visit_user C tys a k) (visit_user C tys a k').
Proof. intros. apply mono_visit. intros st l. unfold unwrap, unwrap_int. mono1. Qed.

Ltac mono2 := repeat first
  [ progress mono1
  | match goal with
    | |- le (visit _ _ _ _) _ => apply mono_visit; intros
    | |- le (visit_user _ _ _ _) _ => apply mono_visit_user; intros
    end ].

Lemma mono_destroy_content tys a : le (destroy_content C S tys a) (destroy_content C S' tys a).
Proof. unfold destroy_content. mono2. Qed.
#[local] Hint Resolve mono_destroy_content : mono.
Lemma mono_var_destroy tys a : le (var_destroy C S tys a) (var_destroy C S' tys a).
Proof. unfold var_destroy. mono2. Qed.
Lemma mono_var_default tys a : le (var_default C S tys a) (var_default C S' tys a).
Proof. unfold var_default. mono2. Qed.
Lemma mono_var_copy tys d s : le (var_copy C S tys d s) (var_copy C S' tys d s).
Proof. unfold var_copy, copy_into. mono2. Qed.
Lemma mono_var_move tys d s : le (var_move C S tys d s) (var_move C S' tys d s).
Proof. unfold var_move, move_into. mono2. Qed.
#[local] Hint Resolve mono_var_destroy mono_var_default mono_var_copy mono_var_move : mono.
Lemma mono_initialize tys a u s mv : le (initialize C S tys a u s mv) (initialize C S' tys a u s mv).
Proof. unfold initialize. mono2. Qed.
#[local] Hint Resolve mono_initialize : mono.
Lemma mono_var_from tys a u s mv : le (var_from C S tys a u s mv) (var_from C S' tys a u s mv).
Proof. unfold var_from. mono2. Qed.
Lemma mono_var_convert tys a tys' b mv : le (var_convert C S tys a tys' b mv) (var_convert C S' tys a tys' b mv).
Proof. unfold var_convert. mono2. Qed.
#[local] Hint Resolve mono_var_from mono_var_convert : mono.

Lemma mono_construct_mpl tys a m : le (construct_mpl C S tys a m) (construct_mpl C S' tys a m).
Proof. unfold construct_mpl. mono2. Qed.
#[local] Hint Resolve mono_construct_mpl : mono.
Lemma mono_construct_fallback tys a : le (construct_fallback C S tys a) (construct_fallback C S' tys a).
Proof. unfold construct_fallback. mono2. Qed.
#[local] Hint Resolve mono_construct_fallback : mono.
Lemma mono_assign_4 tys a rw st src : le (assign_4 C S tys a rw st src) (assign_4 C S' tys a rw st src).
Proof. unfold assign_4, backup_assigner, backup_assign_1, backup_assign_2, backup_assign_3. mono2. Qed.
#[local] Hint Resolve mono_assign_4 : mono.
Lemma mono_assigner tys a rw st src : le (assigner C S tys a rw st src) (assigner C S' tys a rw st src).
Proof. unfold assigner, assign_1, assign_2, assign_3. mono2. Qed.
Lemma mono_move_assigner tys a rw st src : le (move_assigner C S tys a rw st src) (move_assigner C S' tys a rw st src).
Proof. unfold move_assigner, massign_move, massign_fallback, assign_1. mono2. Qed.
#[local] Hint Resolve mono_assigner mono_move_assigner : mono.
Lemma mono_assign_storage r st l : le (assign_storage S r st l) (assign_storage S' r st l).
Proof. unfold assign_storage. mono2. Qed.
Lemma mono_move_storage r st l : le (move_storage S r st l) (move_storage S' r st l).
Proof. unfold move_storage. mono2. Qed.
#[local] Hint Resolve mono_assign_storage mono_move_storage : mono.
Lemma mono_var_assign tys a b : le (var_assign C S tys a b) (var_assign C S' tys a b).
Proof. unfold var_assign. mono2. Qed.
Lemma mono_variant_massign tys a b : le (variant_massign C S tys a b) (variant_massign C S' tys a b).
Proof. unfold variant_massign. mono2. Qed.
#[local] Hint Resolve mono_var_assign mono_variant_massign : mono.
Lemma mono_var_massign tys a b : le (var_massign C S tys a b) (var_massign C S' tys a b).
Proof. unfold var_massign. mono2. Qed.
#[local] Hint Resolve mono_var_massign : mono.
Lemma mono_var_assign_from tys a u s mv : le (var_assign_from C S tys a u s mv) (var_assign_from C S' tys a u s mv).
Proof. unfold var_assign_from, direct_assign. mono2. Qed.
Lemma mono_var_assign_convert tys a tys' b mv :
  le (var_assign_convert C S tys a tys' b mv) (var_assign_convert C S' tys a tys' b mv).
Proof. unfold var_assign_convert. mono2. Qed.
Lemma mono_var_swap tys a b : le (var_swap C S tys a b) (var_swap C S' tys a b).
Proof. unfold var_swap. mono2. Qed.
Lemma mono_var_read tys a : le (var_read C S tys a) (var_read C S' tys a).
Proof. unfold var_read. mono2. Qed.
Lemma mono_var_eq tys f a b : le (var_eq C S tys f a b) (var_eq C S' tys f a b).
Proof. unfold var_eq, comparer. mono2. Qed.
Lemma mono_var_lt tys f a b : le (var_lt C S tys f a b) (var_lt C S' tys f a b).
Proof. unfold var_lt, comparer. mono2. Qed.
Lemma mono_var_poke tys a u s : le (var_poke C S tys a u s) (var_poke C S' tys a u s).
Proof. unfold var_poke. mono2. Qed.
#[local] Hint Resolve mono_var_assign_from mono_var_assign_convert mono_var_swap mono_var_read mono_var_eq mono_var_lt mono_var_poke : mono.

Lemma mono_make_members {B} mk mk' mems (bs : list B) : (forall tys b l, le (mk tys b l) (mk' tys b l)) ->
  le (make_members C S mk mems bs) (make_members C S' mk' mems bs).
Proof.
  intros Hmk. revert bs. induction mems as [|tys mems IH]; intros [|b bs]; simpl; try apply le_refl. mono2.
Qed.
Lemma mono_destroy_members mems ks : le (destroy_members C S mems ks) (destroy_members C S' mems ks).
Proof. revert ks. induction mems as [|tys mems IH]; intros [|b bs]; simpl; try apply le_refl. mono2. Qed.
Lemma mono_assign_members f f' mems ls rs : (forall tys a b, le (f tys a b) (f' tys a b)) ->
  le (assign_members f mems ls rs) (assign_members f' mems ls rs).
Proof. intros Hf. revert ls rs. induction mems as [|tys mems IH]; intros [|b bs] [|c cs]; simpl; try apply le_refl. mono2. Qed.
Lemma mono_read_members mems ks : le (read_members C S mems ks) (read_members C S' mems ks).
Proof. revert ks. induction mems as [|tys mems IH]; intros [|b bs]; simpl; try apply le_refl. mono2. Qed.
#[local] Hint Resolve mono_destroy_members mono_read_members : mono.

Ltac mono3 := repeat first
  [ progress mono2
  | match goal with
    | |- le (make_members _ _ _ _ _) _ => apply mono_make_members; intros
    | |- le (assign_members _ _ _ _) _ => apply mono_assign_members; intros
    end ].

Lemma mono_step : le_usem (sem_step C S) (sem_step C S').
Proof.
  assert (Hv : forall u d, le (u_value C S u d) (u_value C S' u d)) by (intros; unfold u_value; mono3).
  assert (Hmv : forall u d s, le (u_move C S u d s) (u_move C S' u d s)) by (intros; unfold u_move; mono3).
  assert (Hma : forall u d s, le (u_massign C S u d s) (u_massign C S' u d s)) by (intros; unfold u_massign; mono3).
  assert (Hds : forall u l, le (u_destroy C S u l) (u_destroy C S' u l)) by (intros; unfold u_destroy; mono3).
  split; intros; simpl.
  - apply Hv.
  - unfold u_definit. destruct (ut_init _); [apply Hv|apply le_refl|apply Hv].
  - unfold u_copy. mono3.
  - apply Hmv.
  - unfold u_cassign. mono3.
  - apply Hma.
  - unfold u_swap, own_swap, std_swap. destruct (ut_swap _); mono3.
  - apply Hds.
  - unfold u_read. mono3.
Qed.

End mono.

#[global] Hint Resolve mono_var_destroy mono_var_default mono_var_copy mono_var_move mono_var_from mono_var_convert
  mono_var_assign mono_var_massign mono_var_assign_from mono_var_assign_convert mono_var_swap mono_var_read mono_var_eq
  mono_var_lt mono_var_poke : mono.

Lemma mono_stuck S : le_usem usem_stuck S.
Proof. split; intros; apply le_fuel. Qed.
Lemma mono_sem_S C n : le_usem (sem C n) (sem C (S n)).
Proof. induction n as [|n IH]; [apply mono_step, mono_stuck|]. by apply mono_step. Qed.

Lemma le_trans {A} (m1 m2 m3 : M A) : le m1 m2 -> le m2 m3 -> le m1 m3.
Proof. intros H1 H2 s. destruct (H1 s) as [? | ->]; [by left|]. apply H2. Qed.
Lemma le_usem_trans S1 S2 S3 : le_usem S1 S2 -> le_usem S2 S3 -> le_usem S1 S3.
Proof. intros [] []. split; intros; eapply le_trans; eauto. Qed.
Lemma mono_sem C n n' : n <= n' -> le_usem (sem C n) (sem C n').
Proof.
  induction 1 as [|n' _ IH]; [split; intros; apply le_refl|]. eapply le_usem_trans; [done|apply mono_sem_S].
Qed.

Lemma mono_op C n n' eqf ltf E c : n <= n' -> le (op C n eqf ltf E c) (op C n' eqf ltf E c).
Proof.
  intros Hn. pose proof (mono_sem C n n' Hn) as HS.
  assert (Hnew : forall E x tys k k', (forall a, le (k a) (k' a)) -> le (new_var E x tys k) (new_var E x tys k')).
  { intros. unfold new_var. mono. by apply mono_local_variant. }
  destruct c; unfold op; mono; try (apply Hnew; intros; mono);
    try (apply mono_stack_obj; intros; mono); try (apply HS).
  apply mono_make_members; [done|]. intros. mono.
Qed.

Lemma exec_mono C n n' eqf ltf c E s : n <= n' ->
  exec C n eqf ltf c E s <> Faulted FFuel -> exec C n' eqf ltf c E s = exec C n eqf ltf c E s.
Proof.
  intros Hn. unfold exec. destruct (mono_op C n n' eqf ltf E c Hn s) as [-> | ->]; done.
Qed.
