(** Assigning a part of a variant's content to the variant. *)
From Coq.ssr Require Import ssreflect.
From Coq Require Import ZArith Lia.
From iris.prelude Require Import prelude.
From stdpp Require Import gmap list numbers.
From Verif Require Import Base Types Dispatch Variant Sem Values Client Levels.

(** `v = get<U>(v).member_j`, `v = std::move(get<U>(v).member_j)`: get (get.hpp:154-188), then
    operator= (variant.hpp:2031-2044) with an operand inside the content. The member has the
    type of [v]; otherwise the program does not compile. *)
Definition assign_own (C : cfg) (S : usem) (tys : list ity) (a : loc) (u : uid) (j : nat) (mv : bool) : M unit :=
  let! l := var_get_ref C tys a u in
  let! m := member C u l j in
  if decide (m.1 = tys) then if mv then var_massign C S tys a m.2 else var_assign C S tys a m.2
  else faulty FIllTyped.

Lemma assign_own_mono C n n' tys a u j mv s : n <= n' ->
  assign_own C (sem C n) tys a u j mv s <> Fault FFuel ->
  assign_own C (sem C n') tys a u j mv s = assign_own C (sem C n) tys a u j mv s.
Proof.
  intros Hn. assert (H : le (assign_own C (sem C n) tys a u j mv) (assign_own C (sem C n') tys a u j mv)).
  { unfold assign_own. apply le_bind; [apply le_refl|]. intros l. apply le_bind; [apply le_refl|]. intros m.
    destruct (decide _); [|apply le_refl]. pose proof (mono_sem C n n' Hn).
    destruct mv; [by apply mono_var_massign|by apply mono_var_assign]. }
  destruct (H s) as [-> | ->]; done.
Qed.
