(** Representation of a variant: the integer type of the discriminator and its encoding,
    size and alignment of the storage. Pure; the state machine of Variant.v keeps the
    discriminator as an unbounded integer, LayoutFacts.v shows that nothing is lost. *)
From stdpp Require Import base list numbers.
From Coq Require Import ZArith.
From Verif Require Import Base Types.
Local Open Scope Z_scope.

(** What the C++ implementation fixes: number of bits of [int] and of [signed char]
    (two's complement), size and alignment of a pointer, size and alignment of user types. *)
Record platform := Platform {
  int_bits : Z;
  char_bits : Z;
  ptr_layout : Z * Z;
  user_layout : uid -> Z * Z
}.

Section layout.
Context (P : platform).

(** ** The discriminator (variant.hpp:1165-1243) *)

(** [which_t] is [int] or [signed char]. *)
Inductive which_t := WInt | WChar.
Definition bits (w : which_t) : Z := match w with WInt => int_bits P | WChar => char_bits P end.

(** SCHAR_MAX *)
Definition schar_max : Z := 2 ^ (char_bits P - 1) - 1.

(** The choice of [which_t] (variant.hpp:1174-1192). [minimize]: BOOST_VARIANT_MINIMIZE_SIZE
    is defined; [o1] is [mpl::O1_size<internal_types>], which is -1 for sequences whose size
    cannot be had in constant time. *)
Definition which_type (minimize : bool) (o1 : Z) : which_t :=
  if minimize then
    if decide (o1 = -1) then WInt
    else if decide (o1 < schar_max) then WChar else WInt
  else WInt.

(** Integral conversion to a signed type of [b] bits: reduction modulo 2^b (what all
    implementations do and C++20 requires). *)
Definition convert (b z : Z) : Z := (z + 2 ^ (b - 1)) mod 2 ^ b - 2 ^ (b - 1).

(** Arithmetic in [int]; [None] is signed overflow (undefined). *)
Definition int_arith (z : Z) : option Z :=
  if decide (- 2 ^ (int_bits P - 1) <= z <= 2 ^ (int_bits P - 1) - 1) then Some z else None.
Definition int_add (a b : Z) : option Z := int_arith (a + b).
Definition int_neg (a : Z) : option Z := int_arith (- a).

(** indicate_which (variant.hpp:1212-1215) and indicate_backup_which (1217-1220): what is
    stored in [which_]. *)
Definition store_which (w : which_t) (i : Z) : option Z := Some (convert (bits w) i).
Definition store_backup_which (w : which_t) (i : Z) : option Z :=
  i1 ← int_add i 1; i2 ← int_neg i1; Some (convert (bits w) i2).

(** using_backup (variant.hpp:1224-1227) and which (1231-1240); [which_] is promoted to
    [int]. *)
Definition load_backup (r : Z) : bool := bool_decide (r < 0).
Definition load_which (r : Z) : option Z :=
  if load_backup r then r1 ← int_add r 1; int_neg r1 else Some r.

(** ** The storage (variant.hpp:118-152, 318-363) *)

(** [mpl::max_element] with the default [less]: keeps the first of the largest. [None]: the
    sequence is empty, the iterator returned is the end and has no value. *)
Fixpoint max_element (best : Z) (l : list Z) : Z :=
  match l with
  | [] => best
  | x :: l' => max_element (if decide (best < x) then x else best) l'
  end.

(** max_value (variant.hpp:124-139) *)
Definition max_value (f : Z * Z -> Z) (l : list (Z * Z)) : option Z :=
  match map f l with [] => None | x :: l' => Some (max_element x l') end.

(** add_alignment folded over the types starting from 1 (variant.hpp:141-152, 342-346). *)
Definition max_alignment (l : list (Z * Z)) : Z :=
  fold_left (fun st it => Z.lcm st (snd it)) l 1.

(** [boost::aligned_storage<S, A>]: a union of [char[S]] with a type of alignment [A]. Not
    part of this repository; taken to have alignment [A] and the least multiple of [A] not
    below [S] as size. *)
Definition aligned_storage (sz al : Z) : Z * Z := ((sz + al - 1) / al * al, al).

(** make_storage (variant.hpp:325-363); [backup_holder<void*>] is one pointer
    (detail/backup_holder.hpp:30). *)
Definition make_storage (never_uses_backup_flag : bool) (l : list (Z * Z)) : option (Z * Z) :=
  let types := if never_uses_backup_flag then l else ptr_layout P :: l in
  sz ← max_value fst types; Some (aligned_storage sz (max_alignment types)).

(** Layout of a bounded type; [recursive_wrapper<T>] has one member, a pointer
    (recursive_wrapper.hpp:35-37). *)
Definition internal_layout (t : ity) : Z * Z :=
  match t with IPlain u => user_layout P u | IWrap _ => ptr_layout P end.

(** [storage_t] (variant.hpp:1154-1162): the flag is [has_fallback_type_]. *)
Definition storage_of (C : cfg) (tys : list ity) : option (Z * Z) :=
  make_storage (has_fallback C tys) (map internal_layout tys).

End layout.
