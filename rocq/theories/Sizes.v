(** Sizes of types that contain recursive variants: which types are stored inside which, and the layout
    that follows. Model. *)
From stdpp Require Import base list numbers.
From Coq Require Import ZArith List.
From Verif Require Import Base Types Layout Substitute.
Local Open Scope Z_scope.

(** What is fixed by the implementation and by the client beyond [platform]: size and alignment of
    recursive_variant_ (an empty class, variant_fwd.hpp:149), of pointers to members and of which_;
    for a template instance either its layout, if it stores its arguments elsewhere or not at all
    ([inl]), or how its layout comes from those of its arguments, if it stores them inside ([inr]);
    and whether a list of bounded types has a fallback type ([find_fallback_type],
    variant.hpp:155-249, modelled on other types in Types.v). *)
Record layouts := Layouts {
  plat : platform;
  tag_layout : Z * Z;
  mem_layout : Z * Z;
  which_layout : Z * Z;
  tpl : nat -> option nat -> (Z * Z) + (list (Z * Z) -> Z * Z);
  fallback : list ty -> bool
}.

Section sizes.
Context (L : layouts) (bounded : list ty -> list ty).

(** The members of a variant are which_ and storage_, in this order (variant.hpp:1209-1210): the
    second starts at the next multiple of its alignment, and the size is a multiple of the alignment
    of the whole. *)
Definition round_up (sz al : Z) : Z := (sz + al - 1) / al * al.
Definition variant_layout (st : Z * Z) : Z * Z :=
  let al := Z.lcm (which_layout L).2 st.2 in
  (round_up (round_up (which_layout L).1 st.2 + st.1) al, al).

(** Layouts. The bounded types of a variant are those it is given; of make_recursive_variant<T...>::type,
    [bounded] of them: the model is [recursive_enabled_types] (variant.hpp:1112-1120, Substitute.v).
    References are kept in reference_content, which takes the room of a pointer
    (boost/detail/reference_content.hpp, which is not part of the library; variant.hpp:1131-1134). The storage is Layout.v's. Function
    types have no layout, nor have arrays of no elements, nor a variant of no types (static assertion,
    variant.hpp:1108-1110). Types
    that are defined in terms of each other get a layout if one can be computed in finitely many
    steps, as a compiler does. Qualifiers do not matter. *)
Inductive lay : ty -> Z * Z -> Prop :=
  | lay_name q n : lay (TName q n) (user_layout (plat L) n)
  | lay_tag q : lay (TTag q) (tag_layout L)
  | lay_ptr q t : lay (TPtr q t) (ptr_layout (plat L))
  | lay_lref t : lay (TLRef t) (ptr_layout (plat L))
  | lay_rref t : lay (TRRef t) (ptr_layout (plat L))
  | lay_mem q c t : lay (TMem q c t) (mem_layout L)
  | lay_arr t n l : n <> 0%nat -> lay t l -> lay (TArr t n) (Z.of_nat n * l.1, l.2)
  | lay_out q F args l : tpl L F None = inl l -> lay (TApp q F args) l
  | lay_in q F args f ls : tpl L F None = inr f -> Forall2 lay args ls -> lay (TApp q F args) (f ls)
  | lay_outn q F args n l : tpl L F (Some n) = inl l -> lay (TAppN q F args n) l
  | lay_inn q F args n f ls : tpl L F (Some n) = inr f -> Forall2 lay args ls -> lay (TAppN q F args n) (f ls)
  | lay_variant q args ls st : args <> [] -> Forall2 lay args ls -> make_storage (plat L) (fallback L args) ls = Some st ->
      lay (TVariant q args) (variant_layout st)
  | lay_over q args ls st : args <> [] -> Forall2 lay args ls -> make_storage (plat L) (fallback L args) ls = Some st ->
      lay (TVariantOver q args) (variant_layout st)
  | lay_rec q args ls st : args <> [] -> Forall2 lay (bounded args) ls ->
      make_storage (plat L) (fallback L (bounded args)) ls = Some st ->
      lay (TRecVariant q args) (variant_layout st).

End sizes.
