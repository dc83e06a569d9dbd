(** Vocabulary for the representation of a variant. Specification. *)
From Coq Require Import ZArith.
From Verif Require Import Layout.
Local Open Scope Z_scope.

(** Types of the platform: [int] at least as wide as [signed char]. *)
Definition sane (P : platform) : Prop := 1 < char_bits P <= int_bits P.

(** INT_MAX *)
Definition int_max (P : platform) : Z := 2 ^ (int_bits P - 1) - 1.

(** What is stored for index [i], as content in the storage or in a backup. *)
Definition store (P : platform) (w : which_t) (bk : bool) (i : Z) : option Z :=
  if bk then store_backup_which P w i else store_which P w i.

(** [r] is a value of a signed type of [b] bits. *)
Definition fits (b r : Z) : Prop := - 2 ^ (b - 1) <= r < 2 ^ (b - 1).

(** Powers of two. *)
Definition pow2 (z : Z) : Prop := exists k, 0 <= k /\ z = 2 ^ k.

(** An object of layout (size, alignment) [t] can be placed in storage of layout [st], wherever
    that storage is. *)
Definition holds (st t : Z * Z) : Prop :=
  fst t <= fst st /\ forall a : Z, (snd st | a) -> (snd t | a).
