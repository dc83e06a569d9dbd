(** Build settings: vocabulary. *)
From Verif Require Import Base Types.

(** The same types and conversions, built with BOOST_VARIANT_VISITATION_UNROLLING_LIMIT [L], with
    assertions if [nd] is false. *)
Definition with_build (C : cfg) (L : nat) (nd : bool) : cfg :=
  {| te := te C; lim := L; ndebug := nd; fb_deref := fb_deref C; rank := rank C; cv := cv C; dv := dv C |}.
