(** The unrolling limit and NDEBUG do not matter (proofs): a computation that does not fault is the
    same for other settings. *)
From Coq.ssr Require Import ssreflect.
From Coq Require Import ZArith Lia.
From iris.prelude Require Import prelude.
From stdpp Require Import gmap list numbers.
From Verif Require Import Base Types Dispatch DispatchFacts Variant Sem Values Client Queries BuildSpec.

Definition le {A} (m m' : M A) : Prop := forall s, (exists f, m s = Fault f) \/ m s = m' s.

Lemma le_refl {A} (m : M A) : le m m.
Proof. intros s. by right. Qed.
Lemma le_bind {A B} (m m' : M A) (f f' : A -> M B) :
  le m m' -> (forall a, le (f a) (f' a)) -> le (bind m f) (bind m' f').
Proof.
  intros Hm Hf s. unfold bind. destruct (Hm s) as [[? ->] | ->]; [by eauto|].
  destruct (m' s) as [a s'|e s'|x]; [apply Hf|by right..].
Qed.
Lemma le_on_exn {A} (m m' : M A) h h' : le m m' -> le h h' -> le (on_exn m h) (on_exn m' h').
Proof.
  intros Hm Hf s. unfold on_exn. destruct (Hm s) as [[? ->] | ->]; [by eauto|].
  destruct (m' s) as [a s'|e s'|x]; [by right| |by right].
  destruct (Hf s') as [[? ->] | ->]; [by eauto|by right].
Qed.
Lemma le_finally {A} (m m' : M A) h h' : le m m' -> le h h' -> le (finally m h) (finally m' h').
Proof.
  intros Hm Hf s. unfold finally. destruct (Hm s) as [[? ->] | ->]; [by eauto|].
  destruct (m' s) as [a s'|e s'|x]; [..|by right]; destruct (Hf s') as [[? ->] | ->]; [by eauto|by right|by eauto|by right].
Qed.
Lemma le_noexcept {A} (m m' : M A) : le m m' -> le (noexcept m) (noexcept m').
Proof. intros Hm s. unfold noexcept. destruct (Hm s) as [[? ->] | ->]; [by left; eexists|by right]. Qed.
Lemma le_noexcept_if {A} b (m m' : M A) : le m m' -> le (noexcept_if b m) (noexcept_if b m').
Proof. destruct b; [apply le_noexcept|done]. Qed.
Lemma le_fault {A} f (m : M A) : le (faulty f) m.
Proof. intros s. left. by exists f. Qed.

Record le_usem (S S' : usem) : Prop := LeUsem {
  le_value u l : le (us_value S u l) (us_value S' u l);
  le_definit u l : le (us_definit S u l) (us_definit S' u l);
  le_copy u d s : le (us_copy S u d s) (us_copy S' u d s);
  le_move u d s : le (us_move S u d s) (us_move S' u d s);
  le_cassign u d s : le (us_cassign S u d s) (us_cassign S' u d s);
  le_massign u d s : le (us_massign S u d s) (us_massign S' u d s);
  le_swap u l r : le (us_swap S u l r) (us_swap S' u l r);
  le_destroy u l : le (us_destroy S u l) (us_destroy S' u l);
  le_read u l : le (us_read S u l) (us_read S' u l)
}.

Create HintDb build.
#[global] Hint Constants Opaque : build.
Ltac chg f := repeat match goal with |- context [f (with_build ?c ?l ?n)] => change (f (with_build c l n)) with (f c) end.
Ltac same := chg te; chg cv; chg dv; chg fb_deref; chg it_copy; chg it_move; chg it_default; chg has_fallback; chg find_fallback;
  chg never_uses_backup; chg move_noexcept_constructible; chg move_noexcept_assignable; chg resolve; chg s_nt_copy; chg s_nt_move;
  chg convert_obj.
Ltac bld :=
  same; repeat first
    [ match goal with |- le ?m ?m' => constr_eq m m'; apply le_refl end
    | apply le_fault
    | match goal with H : context [le _ _] |- _ => solve [simple apply H] end
    | solve [eauto 2 with build nocore]
    | match goal with
      | |- le (bind _ _) (bind _ _) => apply le_bind; [|intros]
      | |- le (on_exn _ _) (on_exn _ _) => apply le_on_exn
      | |- le (finally _ _) (finally _ _) => apply le_finally
      | |- le (noexcept _) (noexcept _) => apply le_noexcept
      | |- le (noexcept_if _ _) (noexcept_if _ _) => apply le_noexcept_if
      | |- le (match ?x with _ => _ end) _ => destruct x
      | |- le ((match ?x with _ => _ end) _) _ => destruct x
      end ].

Section bld.
Context (C : cfg) (L : nat) (nd : bool) (HL : 0 < lim C) (HL' : 0 < L) (Hnd : ndebug C = true -> nd = true) (S S' : usem) (HS : le_usem S S').
Notation C' := (with_build C L nd).

Lemma bd_value u l : le (us_value S u l) (us_value S' u l). Proof. apply HS. Qed.
Lemma bd_definit u l : le (us_definit S u l) (us_definit S' u l). Proof. apply HS. Qed.
Lemma bd_copy u d s : le (us_copy S u d s) (us_copy S' u d s). Proof. apply HS. Qed.
Lemma bd_move u d s : le (us_move S u d s) (us_move S' u d s). Proof. apply HS. Qed.
Lemma bd_cassign u d s : le (us_cassign S u d s) (us_cassign S' u d s). Proof. apply HS. Qed.
Lemma bd_massign u d s : le (us_massign S u d s) (us_massign S' u d s). Proof. apply HS. Qed.
Lemma bd_swap u l r : le (us_swap S u l r) (us_swap S' u l r). Proof. apply HS. Qed.
Lemma bd_destroy u l : le (us_destroy S u l) (us_destroy S' u l). Proof. apply HS. Qed.
Lemma bd_read u l : le (us_read S u l) (us_read S' u l). Proof. apply HS. Qed.
#[local] Hint Resolve bd_value bd_definit bd_copy bd_move bd_cassign bd_massign bd_swap bd_destroy bd_read : build.

Lemma bd_new_obj p k k' : (forall q, le (k q) (k' q)) -> le (new_obj p k) (new_obj p k').
Proof. intros. unfold new_obj. bld. Qed.
Lemma bd_stack_obj k k' : (forall q, le (k q) (k' q)) -> le (stack_obj k) (stack_obj k').
Proof. intros. unfold stack_obj. bld. Qed.
Lemma bd_local_variant k k' : (forall q, le (k q) (k' q)) -> le (local_variant k) (local_variant k').
Proof. intros. unfold local_variant. bld. Qed.
Lemma bd_scoped {A} m m' d d' (f f' : loc -> M A) : le m m' -> (forall x, le (d x) (d' x)) -> (forall x, le (f x) (f' x)) ->
  le (scoped m d f) (scoped m' d' f').
Proof. intros. unfold scoped. bld. Qed.

Ltac bld1 := repeat first
  [ progress bld
  | match goal with
    | |- le (new_obj _ _) _ => apply bd_new_obj; intros
    | |- le (stack_obj _) _ => apply bd_stack_obj; intros
    | |- le (local_variant _) _ => apply bd_local_variant; intros
    | |- le (scoped _ _ _) _ => apply bd_scoped; [|intros|intros]
    end ].

Lemma bd_i_copy t d s : le (i_copy S t d s) (i_copy S' t d s). Proof. unfold i_copy. bld1. Qed.
Lemma bd_i_move t d s : le (i_move S t d s) (i_move S' t d s). Proof. unfold i_move. bld1. Qed.
Lemma bd_i_copy_from t d s : le (i_copy_from S t d s) (i_copy_from S' t d s). Proof. unfold i_copy_from. bld1. Qed.
Lemma bd_i_move_from t d s : le (i_move_from S t d s) (i_move_from S' t d s). Proof. unfold i_move_from. bld1. Qed.
Lemma bd_i_value t d : le (i_value S t d) (i_value S' t d). Proof. unfold i_value. bld1. Qed.
Lemma bd_i_cassign t l r : le (i_cassign S t l r) (i_cassign S' t l r). Proof. unfold i_cassign. bld1. Qed.
Lemma bd_i_massign t l r : le (i_massign S t l r) (i_massign S' t l r). Proof. unfold i_massign. bld1. Qed.
Lemma bd_i_destroy t l : le (i_destroy S t l) (i_destroy S' t l). Proof. unfold i_destroy. bld1. Qed.
#[local] Hint Resolve bd_i_copy bd_i_move bd_i_copy_from bd_i_move_from bd_i_value bd_i_cassign bd_i_massign bd_i_destroy : build.

Lemma bd_bk_destroy t l : le (bk_destroy S t l) (bk_destroy S' t l). Proof. unfold bk_destroy. bld1. Qed.
#[local] Hint Resolve bd_bk_destroy : build.
Lemma bd_s_copy st d s : le (s_copy C S st d s) (s_copy C' S' st d s). Proof. unfold s_copy. same. destruct st; [bld1|]. simpl. destruct (ndebug C); [rewrite Hnd //; bld1|apply le_fault]. Qed.
Lemma bd_s_move st d s : le (s_move C S st d s) (s_move C' S' st d s). Proof. unfold s_move. same. destruct st; [bld1|]. simpl. destruct (ndebug C); [rewrite Hnd //; bld1|apply le_fault]. Qed.
Lemma bd_s_destroy st l : le (s_destroy S st l) (s_destroy S' st l). Proof. unfold s_destroy. bld1. Qed.
#[local] Hint Resolve bd_s_copy bd_s_move bd_s_destroy : build.

Lemma bd_visit {A} tys a (k k' : sty -> loc -> M A) : (forall st l, le (k st l) (k' st l)) ->
  le (visit C tys a k) (visit C' tys a k').
Proof.
  intros. unfold visit. same. apply le_bind; [apply le_refl|]. intros w. simpl.
  destruct (decide (0 <= which_of w < Z.of_nat (length tys))%Z) as [Hw|Hw].
  - destruct (lookup_lt_is_Some_2 tys (Z.to_nat (which_of w))) as [t Ht]; [lia|].
    rewrite -(Z2Nat.id (which_of w)); [|lia]. rewrite (visitation_lookup (lim C) tys _ t HL Ht) (visitation_lookup L tys _ t HL' Ht). bld1.
  - rewrite (visitation_out (lim C)) //; [apply le_fault|lia].
Qed.
Lemma bd_visit_user {A} tys a (k k' : uid -> loc -> M A) : (forall u l, le (k u l) (k' u l)) ->
  le (visit_user C tys a k) (visit_user C' tys a k').
Proof. intros. apply bd_visit. intros st l. unfold unwrap, unwrap_int. bld1. Qed.

Ltac bld2 := repeat first
  [ progress bld1
  | match goal with
    | |- le (visit _ _ _ _) _ => apply bd_visit; intros
    | |- le (visit_user _ _ _ _) _ => apply bd_visit_user; intros
    end ].

Lemma bd_destroy_content tys a : le (destroy_content C S tys a) (destroy_content C' S' tys a).
Proof. unfold destroy_content. bld2. Qed.
#[local] Hint Resolve bd_destroy_content : build.
Lemma bd_var_destroy tys a : le (var_destroy C S tys a) (var_destroy C' S' tys a).
Proof. unfold var_destroy. bld2. Qed.
Lemma bd_var_default tys a : le (var_default C S tys a) (var_default C' S' tys a).
Proof. unfold var_default. bld2. Qed.
Lemma bd_var_copy tys d s : le (var_copy C S tys d s) (var_copy C' S' tys d s).
Proof. unfold var_copy, copy_into. bld2. Qed.
Lemma bd_var_move tys d s : le (var_move C S tys d s) (var_move C' S' tys d s).
Proof. unfold var_move, move_into. bld2. Qed.
#[local] Hint Resolve bd_var_destroy bd_var_default bd_var_copy bd_var_move : build.
Lemma bd_initialize tys a u s mv : le (initialize C S tys a u s mv) (initialize C' S' tys a u s mv).
Proof. unfold initialize. bld2. Qed.
#[local] Hint Resolve bd_initialize : build.
Lemma bd_var_from tys a u s mv : le (var_from C S tys a u s mv) (var_from C' S' tys a u s mv).
Proof. unfold var_from. bld2. Qed.
Lemma bd_var_convert tys a tys' b mv : le (var_convert C S tys a tys' b mv) (var_convert C' S' tys a tys' b mv).
Proof. unfold var_convert. bld2. Qed.
#[local] Hint Resolve bd_var_from bd_var_convert : build.

Lemma bd_construct_mpl tys a m : le (construct_mpl C S tys a m) (construct_mpl C' S' tys a m).
Proof. unfold construct_mpl. bld2. Qed.
#[local] Hint Resolve bd_construct_mpl : build.
Lemma bd_construct_fallback tys a : le (construct_fallback C S tys a) (construct_fallback C' S' tys a).
Proof. unfold construct_fallback. bld2. Qed.
#[local] Hint Resolve bd_construct_fallback : build.
Lemma bd_assign_4 tys a rw st src : le (assign_4 C S tys a rw st src) (assign_4 C' S' tys a rw st src).
Proof. unfold assign_4, backup_assigner, backup_assign_1, backup_assign_2, backup_assign_3. bld2. Qed.
#[local] Hint Resolve bd_assign_4 : build.
Lemma bd_assigner tys a rw st src : le (assigner C S tys a rw st src) (assigner C' S' tys a rw st src).
Proof. unfold assigner, assign_1, assign_2, assign_3. bld2. Qed.
Lemma bd_move_assigner tys a rw st src : le (move_assigner C S tys a rw st src) (move_assigner C' S' tys a rw st src).
Proof. unfold move_assigner, massign_move, massign_fallback, assign_1. bld2. Qed.
#[local] Hint Resolve bd_assigner bd_move_assigner : build.
Lemma bd_assign_storage r st l : le (assign_storage S r st l) (assign_storage S' r st l).
Proof. unfold assign_storage. bld2. Qed.
Lemma bd_move_storage r st l : le (move_storage S r st l) (move_storage S' r st l).
Proof. unfold move_storage. bld2. Qed.
#[local] Hint Resolve bd_assign_storage bd_move_storage : build.
Lemma bd_var_assign tys a b : le (var_assign C S tys a b) (var_assign C' S' tys a b).
Proof. unfold var_assign. bld2. Qed.
Lemma bd_variant_massign tys a b : le (variant_massign C S tys a b) (variant_massign C' S' tys a b).
Proof. unfold variant_massign. bld2. Qed.
#[local] Hint Resolve bd_var_assign bd_variant_massign : build.
Lemma bd_var_massign tys a b : le (var_massign C S tys a b) (var_massign C' S' tys a b).
Proof. unfold var_massign. bld2. Qed.
#[local] Hint Resolve bd_var_massign : build.
Lemma bd_var_assign_from tys a u s mv : le (var_assign_from C S tys a u s mv) (var_assign_from C' S' tys a u s mv).
Proof. unfold var_assign_from, direct_assign. bld2. Qed.
Lemma bd_var_assign_convert tys a tys' b mv :
  le (var_assign_convert C S tys a tys' b mv) (var_assign_convert C' S' tys a tys' b mv).
Proof. unfold var_assign_convert. bld2. Qed.
Lemma bd_known_get tys b u : le (known_get C tys b u) (known_get C' tys b u).
Proof. unfold known_get. bld2. Qed.
Lemma bd_var_get tys a u : le (var_get C tys a u) (var_get C' tys a u).
Proof. unfold var_get. bld2. Qed.
#[local] Hint Resolve bd_known_get bd_var_get : build.
Lemma bd_var_get_ref tys a u : le (var_get_ref C tys a u) (var_get_ref C' tys a u).
Proof. unfold var_get_ref. bld2. Qed.
Lemma bd_var_type tys a : le (var_type C tys a) (var_type C' tys a).
Proof. unfold var_type. bld2. Qed.
#[local] Hint Resolve bd_var_get_ref bd_var_type : build.
Lemma bd_var_swap tys a b : le (var_swap C S tys a b) (var_swap C' S' tys a b).
Proof. unfold var_swap. bld2. Qed.
Lemma bd_var_read tys a : le (var_read C S tys a) (var_read C' S' tys a).
Proof. unfold var_read. bld2. Qed.
Lemma bd_var_eq tys f a b : le (var_eq C S tys f a b) (var_eq C' S' tys f a b).
Proof. unfold var_eq, comparer. bld2. Qed.
Lemma bd_var_lt tys f a b : le (var_lt C S tys f a b) (var_lt C' S' tys f a b).
Proof. unfold var_lt, comparer. bld2. Qed.
Lemma bd_var_poke tys a u s : le (var_poke C S tys a u s) (var_poke C' S' tys a u s).
Proof. unfold var_poke. bld2. Qed.
#[local] Hint Resolve bd_var_assign_from bd_var_assign_convert bd_var_swap bd_var_read bd_var_eq bd_var_lt bd_var_poke : build.

Lemma bd_make_members {B} mk mk' mems (bs : list B) : (forall tys b l, le (mk tys b l) (mk' tys b l)) ->
  le (make_members C S mk mems bs) (make_members C' S' mk' mems bs).
Proof.
  intros Hmk. revert bs. induction mems as [|tys mems IH]; intros [|b bs]; simpl; try apply le_refl. bld2.
Qed.
Lemma bd_destroy_members mems ks : le (destroy_members C S mems ks) (destroy_members C' S' mems ks).
Proof. revert ks. induction mems as [|tys mems IH]; intros [|b bs]; simpl; try apply le_refl. bld2. Qed.
Lemma bd_assign_members f f' mems ls rs : (forall tys a b, le (f tys a b) (f' tys a b)) ->
  le (assign_members f mems ls rs) (assign_members f' mems ls rs).
Proof. intros Hf. revert ls rs. induction mems as [|tys mems IH]; intros [|b bs] [|c cs]; simpl; try apply le_refl. bld2. Qed.
Lemma bd_read_members mems ks : le (read_members C S mems ks) (read_members C' S' mems ks).
Proof. revert ks. induction mems as [|tys mems IH]; intros [|b bs]; simpl; try apply le_refl. bld2. Qed.
#[local] Hint Resolve bd_destroy_members bd_read_members : build.

Ltac bld3 := repeat first
  [ progress bld2
  | match goal with
    | |- le (make_members _ _ _ _ _) _ => apply bd_make_members; intros
    | |- le (assign_members _ _ _ _) _ => apply bd_assign_members; intros
    end ].

Lemma bd_step : le_usem (sem_step C S) (sem_step C' S').
Proof.
  assert (Hv : forall u d, le (u_value C S u d) (u_value C' S' u d)) by (intros; unfold u_value; bld3).
  assert (Hmv : forall u d s, le (u_move C S u d s) (u_move C' S' u d s)) by (intros; unfold u_move; bld3).
  assert (Hma : forall u d s, le (u_massign C S u d s) (u_massign C' S' u d s)) by (intros; unfold u_massign; bld3).
  assert (Hds : forall u l, le (u_destroy C S u l) (u_destroy C' S' u l)) by (intros; unfold u_destroy; bld3).
  split; intros; simpl.
  - apply Hv.
  - unfold u_definit. destruct (ut_init _); [apply Hv|apply le_refl|apply Hv].
  - unfold u_copy. bld3.
  - apply Hmv.
  - unfold u_cassign. bld3.
  - apply Hma.
  - unfold u_swap, own_swap, std_swap. destruct (ut_swap _); bld3.
  - apply Hds.
  - unfold u_read. bld3.
Qed.

End bld.

#[global] Hint Resolve bd_var_destroy bd_var_default bd_var_copy bd_var_move bd_var_from bd_var_convert
  bd_var_assign bd_var_massign bd_var_assign_from bd_var_assign_convert bd_var_swap bd_var_read bd_var_eq
  bd_var_lt bd_var_poke : build.


Lemma bd_sem C L nd n : 0 < lim C -> 0 < L -> (ndebug C = true -> nd = true) -> le_usem (sem C n) (sem (with_build C L nd) n).
Proof.
  intros HL HL' Hnd. induction n as [|n IH]; [|by apply bd_step].
  apply bd_step; try done. split; intros; apply le_refl.
Qed.

Lemma bd_op C L nd n eqf ltf E c : 0 < lim C -> 0 < L -> (ndebug C = true -> nd = true) ->
  le (op C n eqf ltf E c) (op (with_build C L nd) n eqf ltf E c).
Proof.
  intros HL HL' Hnd. pose proof (bd_sem C L nd n HL HL' Hnd) as HS.
  assert (Hnew : forall E x tys k k', (forall a, le (k a) (k' a)) -> le (new_var E x tys k) (new_var E x tys k')).
  { intros. unfold new_var. bld. by apply bd_local_variant. }
  destruct c; unfold op; bld; try (apply Hnew; intros; bld);
    try (apply bd_stack_obj; intros; bld); try (apply HS).
  all: try (apply bd_var_get_ref; done). all: try (apply bd_var_get; done). all: try (apply bd_var_type; done). all: try apply le_refl.
  by apply bd_make_members; [..|intros; apply bd_var_copy].
Qed.

(** Queries. *)
Section queries.
Context (C : cfg) (L : nat) (nd : bool) (HL : 0 < lim C) (HL' : 0 < L) (Hnd : ndebug C = true -> nd = true) (n : nat).
Notation C' := (with_build C L nd).
Let HS : le_usem (sem C n) (sem C' n) := bd_sem C L nd n HL HL' Hnd.

Lemma bd_visit1 {A} (f f' : arg -> M A) tys a mv : (forall x, le (f x) (f' x)) -> le (visit1 C f tys a mv) (visit1 C' f' tys a mv).
Proof. intros. by apply bd_visit_user. Qed.
Lemma bd_do_call {A} (f f' : list arg -> M A) done values : (forall x, le (f x) (f' x)) ->
  le (do_call (sem C n) f done values) (do_call (sem C' n) f' done values).
Proof.
  intros Hf. revert done. induction values as [|[[u l] mv] values IH]; intros done; simpl; [apply Hf|].
  destruct mv; [|apply IH]. apply bd_scoped; intros; [|apply HS|apply IH]. apply bd_stack_obj. intros. apply HS.
Qed.
Lemma bd_one_by_one {A} (f f' : list arg -> M A) vs values value : (forall x, le (f x) (f' x)) ->
  le (one_by_one C (sem C n) f vs values value) (one_by_one C' (sem C' n) f' vs values value).
Proof.
  intros Hf. revert values value. induction vs as [|[[tys a] mv] vs IH]; intros values value; simpl; [by apply bd_do_call|].
  destruct mv; [|apply bd_visit1; intros; apply IH].
  apply bd_scoped; intros; [|by apply bd_var_destroy|apply bd_visit1; intros; apply IH].
  apply bd_local_variant. intros. by apply bd_var_move.
Qed.
Lemma bd_visit_many {A} (f : list arg -> M A) vs : le (visit_many C (sem C n) f vs) (visit_many C' (sem C' n) f vs).
Proof.
  assert (Hf : forall x, le (f x) (f x)) by (intros; apply le_refl).
  destruct vs as [|[[tys1 a] m1] [|[[tys2 b] m2] [|v vs]]]; unfold visit_many.
  - apply le_refl.
  - apply bd_visit1. intros. apply le_refl.
  - apply bd_visit1. intros. apply bd_visit1. intros. apply le_refl.
  - apply bd_visit1. intros. by apply (bd_one_by_one f f (_ :: _)).
Qed.
Lemma bd_hash tys hashf combine a : le (var_hash C (sem C n) tys hashf combine a) (var_hash C' (sem C' n) tys hashf combine a).
Proof.
  apply le_bind; [|intros; apply le_refl]. apply bd_visit_user; [done..|]. intros u l. apply le_bind; [apply HS|intros; apply le_refl].
Qed.
Lemma bd_print tys pr o a : le (var_print C (sem C n) tys pr o a) (var_print C' (sem C' n) tys pr o a).
Proof. apply bd_visit_user; [done..|]. intros u l. apply le_bind; [apply HS|intros; apply le_refl]. Qed.
End queries.
