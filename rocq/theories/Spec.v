(** Specification of the library as its users see it: for every command the permitted
    outcomes and next abstract states.

    Nothing here refers to the library model. Of a variant the abstract state has its bounded
    types, whether its content is [parked] in a heap backup (no query shows that; it matters
    only for the guards), the index and the value. *)
From stdpp Require Import base gmap list numbers.
From Coq Require Import ZArith.
From Verif Require Import Base Types Variant Values Client Observe.

Section spec.
Context (C : cfg).

(** ** Vocabulary *)

Definition nothrow_default (t : ity) : Prop := exists u, t = IPlain u /\ nt_default (te C u) = true.
Definition nothrow_copy (t : ity) : Prop := exists u, t = IPlain u /\ nt_copy (te C u) = true.
Definition nothrow_move (t : ity) : Prop := exists u, t = IPlain u /\ nt_move (te C u) = true.
Definition nothrow_cassign (t : ity) : Prop := nt_cassign (te C (ity_uid t)) = true.
Definition nothrow_massign (t : ity) : Prop :=
  match t with IPlain u => nt_massign (te C u) = true | IWrap _ => True end.

(** [j] is the position of the fallback type [u]: the first nothrow default constructible
    bounded type. *)
Definition fallback (tys : list ity) (j : nat) (u : uid) : Prop :=
  tys !! j = Some (IPlain u) /\ nt_default (te C u) = true /\
  forall i t, i < j -> tys !! i = Some t -> ~ nothrow_default t.
Definition no_fallback (tys : list ity) : Prop := forall t, t ∈ tys -> ~ nothrow_default t.

(** Neither copying nor moving is known not to throw. *)
Definition doubly_throwing (t : ity) : Prop := ~ nothrow_copy t /\ ~ nothrow_move t.

(** The value of a default-initialised object: indeterminate for a trivial type. *)
Definition default_init (u : uid) : uval :=
  UV (match ut_init (te C u) with DITriv => None | _ => Some (dv C u) end) [].

(** [i] is the position overload resolution selects for an operand of type [u]: its rank is
    strictly better than that of every other type, and of the positions with the same type it
    is the last. *)
Definition best_match (tys : list ity) (u : uid) (i : nat) : Prop :=
  exists t r, tys !! i = Some t /\ rank C u (ity_uid t) = Some r /\
    (forall j t', i < j -> tys !! j = Some t' -> ity_uid t' <> ity_uid t) /\
    (forall j t' r', tys !! j = Some t' -> ity_uid t' <> ity_uid t ->
       rank C u (ity_uid t') = Some r' -> r < r').

(** A value converted to the type [u']: itself, or what the conversion computes. *)
Definition converted (u u' : uid) (v : uval) : uval :=
  if decide (u' = u) then erase v
  else match v with UV z _ => UV (match z with Some x => Some (cv C u u' x) | None => None end) [] end.

(** Same index, and both contents parked or both not: assignment happens in place. *)
Definition in_place (k1 k2 : vval) : Prop := k1.1 = k2.1.

(** What may be left of an rvalue operand: the same alternatives with any data. *)
Definition moved_from (v v' : uval) : Prop := skel v' = skel v.
Definition operand_after (mv : bool) (v v' : uval) : Prop := if mv then moved_from v v' else v' = v.

(** ** Failed assignment: what [k'] may be left of [k1] when assigning content of type [t2] *)
Inductive failed (tys : list ity) (k1 : vval) (t2 : ity) : vval -> Prop :=
  | failed_strong : nothrow_move t2 -> ~ nothrow_copy t2 -> failed tys k1 t2 k1
  | failed_fallback j u : doubly_throwing t2 -> fallback tys j u ->
      failed tys k1 t2 (false, j, default_init u)
  | failed_kept k' : doubly_throwing t2 -> no_fallback tys ->
      k'.1.2 = k1.1.2 -> erase k'.2 = erase k1.2 -> (k1.1.1 = true -> k' = k1) ->
      failed tys k1 t2 k'.

(** Copy assignment of [k2] over [k1] failed. *)
Inductive copy_failed (tys : list ity) (k1 k2 : vval) : vval -> Prop :=
  | copy_failed_in_place t k' : tys !! k2.1.2 = Some t -> in_place k1 k2 ->
      ~ nothrow_cassign t -> k'.1 = k1.1 -> copy_failed tys k1 k2 k'
  | copy_failed_other t k' : tys !! k2.1.2 = Some t -> ~ in_place k1 k2 ->
      failed tys k1 t k' -> copy_failed tys k1 k2 k'.

(** Move assignment failed: only if the content's move constructor may throw. *)
Inductive move_failed (tys : list ity) (k1 k2 : vval) : vval -> Prop :=
  | move_failed_in_place t k' : tys !! k2.1.2 = Some t -> in_place k1 k2 ->
      ~ nothrow_massign t -> k'.1 = k1.1 -> move_failed tys k1 k2 k'
  | move_failed_other t k' : tys !! k2.1.2 = Some t -> ~ in_place k1 k2 -> doubly_throwing t ->
      failed tys k1 t k' -> move_failed tys k1 k2 k'.

(** The source of a move assignment over [k1], afterwards. *)
Definition move_source (k1 k2 k2' : vval) : Prop :=
  k2'.1 = k2.1 /\ (clean k1.2 = true -> clean k2'.2 = true) /\ (~ in_place k1 k2 -> moved_from k2.2 k2'.2).

(** Assignment from a value [v2] of type [u]. *)
Definition assigned_from (tys : list ity) (k1 : vval) (u : uid) (v2 : uval) (k' : vval) : Prop :=
  exists t1, tys !! k1.1.2 = Some t1 /\
  (ity_uid t1 = u -> k' = (k1.1, v2)) /\
  (ity_uid t1 <> u -> exists i t, best_match tys u i /\ tys !! i = Some t /\
                                  k' = (false, i, converted u (ity_uid t) v2)).

Inductive from_failed (tys : list ity) (k1 : vval) (u : uid) (mv : bool) (v2 : uval) : vval -> Prop :=
  | from_failed_in_place t1 k' : tys !! k1.1.2 = Some t1 -> ity_uid t1 = u ->
      (if mv then nt_massign (te C u) else nt_cassign (te C u)) = false ->
      k'.1 = k1.1 -> from_failed tys k1 u mv v2 k'
  | from_failed_early t1 i t : tys !! k1.1.2 = Some t1 -> ity_uid t1 <> u ->
      best_match tys u i -> tys !! i = Some t ->
      (ity_uid t = u -> if mv then ~ nothrow_move t else ~ nothrow_copy t) ->
      from_failed tys k1 u mv v2 k1
  | from_failed_late t1 i t k' : tys !! k1.1.2 = Some t1 -> ity_uid t1 <> u ->
      best_match tys u i -> tys !! i = Some t ->
      move_failed tys k1 (false, i, converted u (ity_uid t) v2) k' ->
      from_failed tys k1 u mv v2 k'.

Definition from_source (mv : bool) (k1 : vval) (v2 v2' : uval) : Prop :=
  if mv then clean k1.2 = true -> clean v2' = true else v2' = v2.

(** The content of a foreign variant [k2], converted. *)
Definition foreign (tys tys2 : list ity) (k2 k' : vval) : Prop :=
  exists t2 i t, tys2 !! k2.1.2 = Some t2 /\ best_match tys (ity_uid t2) i /\ tys !! i = Some t /\
    k' = (false, i, converted (ity_uid t2) (ity_uid t) k2.2).

(** Converting the content may throw. *)
Definition foreign_may_throw (tys tys2 : list ity) (k2 : vval) (mv : bool) : Prop :=
  exists t2 i t, tys2 !! k2.1.2 = Some t2 /\ best_match tys (ity_uid t2) i /\ tys !! i = Some t /\
    (ity_uid t = ity_uid t2 -> if mv then ~ nothrow_move t else ~ nothrow_copy t).

(** swap *)
Definition swapped (k1 k2 ka kb : vval) : Prop :=
  (k1.1.2 = k2.1.2 -> ka = (k1.1, k2.2) /\ kb = (k2.1, erase k1.2)) /\
  (k1.1.2 <> k2.1.2 -> ka = erasev k2 /\ kb = k1).
(** Swapping two objects of a user type may throw: its own swap does not promise not to, or it
    has none and std::swap moves. *)
Definition throwing_swap (u : uid) : Prop :=
  match ut_swap (te C u) with
  | Some nothrow => nothrow = false
  | None => nt_move (te C u) = false \/ nt_massign (te C u) = false
  end.
Definition swap_can_throw (tys : list ity) : Prop :=
  exists t, t ∈ tys /\ (~ nothrow_move t \/ ~ nothrow_massign t \/ throwing_swap (ity_uid t)).
(** [v] after it was swapped with itself. *)
Definition self_swap (v v' : uval) : Prop := erase v' = erase v /\ (clean v = true -> v' = v).

(** A failed swap. Same index: both keep it, and the content's swap may throw. Otherwise there are three moves: [k2] to a
    temporary, [k1] over [k2], the temporary over [k1]; one of them fails as a move
    construction or assignment may fail. *)
Inductive swap_failed (tys : list ity) (k1 k2 : vval) : vval -> vval -> Prop :=
  | swap_failed_same t ka kb : k1.1.2 = k2.1.2 -> tys !! k1.1.2 = Some t -> throwing_swap (ity_uid t) -> ka.1 = k1.1 -> kb.1 = k2.1 ->
      swap_failed tys k1 k2 ka kb
  | swap_failed_temp t v' : k1.1.2 <> k2.1.2 -> tys !! k2.1.2 = Some t -> ~ nothrow_move t ->
      moved_from k2.2 v' -> swap_failed tys k1 k2 k1 (k2.1, v')
  | swap_failed_first v' ka kb : k1.1.2 <> k2.1.2 -> moved_from k2.2 v' ->
      move_failed tys (k2.1, v') k1 kb -> move_source (k2.1, v') k1 ka ->
      swap_failed tys k1 k2 ka kb
  | swap_failed_second v' ka0 ka : k1.1.2 <> k2.1.2 -> moved_from k2.2 v' ->
      move_source (k2.1, v') k1 ka0 -> move_failed tys ka0 (erasev k2) ka ->
      swap_failed tys k1 k2 ka k1.

(** ** Steps *)
Section steps.
Context (eqf ltf : uid -> uval -> uval -> bool).
Context (σ : astate).

Definition is_var (x : name) (tys : list ity) (k : vval) : Prop := σ !! x = Some (AVar tys k).
Definition is_obj (x : name) (u : uid) (v : uval) : Prop := σ !! x = Some (AObj u v).

(** [get<u>] finds [v] in the variant [k]. *)
Definition has (tys : list ity) (k : vval) (u : uid) : Prop :=
  exists t, tys !! k.1.2 = Some t /\ ity_uid t = u.

Inductive astep : cmd -> out -> astate -> Prop :=
  (* construction of objects and variants *)
  | s_make x u z ms ks :
      Forall2 (fun y k => exists tys, is_var y tys k) ms ks ->
      astep (CMake x u z ms) ODone (<[x := AObj u (UV (Some z) (map erasev ks))]> σ)
  | s_make_x x u z ms e : astep (CMake x u z ms) (OThrew e) σ
  | s_drop x : astep (CDrop x) ODone (delete x σ)
  | s_default x t r d v :
      idefval C d t = Some v ->
      astep (CDefault x (t :: r)) ODone (<[x := AVar (t :: r) (false, 0, v)]> σ)
  | s_default_x x t r e : ~ nothrow_default t -> astep (CDefault x (t :: r)) (OThrew e) σ
  | s_from x tys y mv u v v' i t :
      is_obj y u v -> best_match tys u i -> tys !! i = Some t -> operand_after mv v v' ->
      astep (CFrom x tys y mv) ODone
            (<[x := AVar tys (false, i, converted u (ity_uid t) v)]> (<[y := AObj u v']> σ))
  | s_from_x x tys y mv u v v' i t e :
      is_obj y u v -> best_match tys u i -> tys !! i = Some t -> operand_after mv v v' ->
      (ity_uid t = u -> if mv then ~ nothrow_move t else ~ nothrow_copy t) ->
      astep (CFrom x tys y mv) (OThrew e) (<[y := AObj u v']> σ)
  | s_copy x y tys k :
      is_var y tys k -> astep (CCopy x y) ODone (<[x := AVar tys (erasev k)]> σ)
  | s_copy_x x y tys k t e :
      is_var y tys k -> tys !! k.1.2 = Some t -> ~ nothrow_copy t ->
      astep (CCopy x y) (OThrew e) σ
  | s_move x y tys k v' :
      is_var y tys k -> moved_from k.2 v' ->
      astep (CMove x y) ODone (<[x := AVar tys (erasev k)]> (<[y := AVar tys (k.1, v')]> σ))
  | s_move_x x y tys k t v' e :
      is_var y tys k -> moved_from k.2 v' -> tys !! k.1.2 = Some t -> ~ nothrow_move t ->
      astep (CMove x y) (OThrew e) (<[y := AVar tys (k.1, v')]> σ)
  | s_convert x tys y mv tys2 k2 v' k' :
      is_var y tys2 k2 -> foreign tys tys2 k2 k' -> operand_after mv k2.2 v' ->
      astep (CConvert x tys y mv) ODone (<[x := AVar tys k']> (<[y := AVar tys2 (k2.1, v')]> σ))
  | s_convert_x x tys y mv tys2 k2 v' e :
      is_var y tys2 k2 -> operand_after mv k2.2 v' -> foreign_may_throw tys tys2 k2 mv ->
      astep (CConvert x tys y mv) (OThrew e) (<[y := AVar tys2 (k2.1, v')]> σ)
  (* assignment *)
  | s_assign x y tys k1 k2 :
      x <> y -> is_var x tys k1 -> is_var y tys k2 ->
      astep (CAssign x y) ODone (<[x := AVar tys k2]> σ)
  | s_assign_x x y tys k1 k2 k' e :
      x <> y -> is_var x tys k1 -> is_var y tys k2 -> copy_failed tys k1 k2 k' ->
      astep (CAssign x y) (OThrew e) (<[x := AVar tys k']> σ)
  | s_assign_self x : astep (CAssign x x) ODone σ
  | s_assign_self_x x tys k v' t e :
      is_var x tys k -> tys !! k.1.2 = Some t -> ~ nothrow_cassign t -> moved_from k.2 v' ->
      astep (CAssign x x) (OThrew e) (<[x := AVar tys (k.1, v')]> σ)
  | s_massign x y tys k1 k2 k2' :
      x <> y -> is_var x tys k1 -> is_var y tys k2 -> move_source k1 k2 k2' ->
      astep (CMoveAssign x y) ODone (<[x := AVar tys k2]> (<[y := AVar tys k2']> σ))
  | s_massign_x x y tys k1 k2 k' k2' e :
      x <> y -> is_var x tys k1 -> is_var y tys k2 -> move_failed tys k1 k2 k' -> move_source k1 k2 k2' ->
      astep (CMoveAssign x y) (OThrew e) (<[x := AVar tys k']> (<[y := AVar tys k2']> σ))
  | s_massign_self x tys k v' :
      is_var x tys k -> moved_from k.2 v' ->
      astep (CMoveAssign x x) ODone (<[x := AVar tys (k.1, v')]> σ)
  | s_massign_self_x x tys k v' t e :
      is_var x tys k -> tys !! k.1.2 = Some t -> ~ nothrow_massign t -> moved_from k.2 v' ->
      astep (CMoveAssign x x) (OThrew e) (<[x := AVar tys (k.1, v')]> σ)
  | s_assign_from x y mv tys k1 u v2 k' v2' :
      is_var x tys k1 -> is_obj y u v2 -> assigned_from tys k1 u v2 k' -> from_source mv k1 v2 v2' ->
      astep (CAssignFrom x y mv) ODone (<[x := AVar tys k']> (<[y := AObj u v2']> σ))
  | s_assign_from_x x y mv tys k1 u v2 k' v2' e :
      is_var x tys k1 -> is_obj y u v2 -> from_failed tys k1 u mv v2 k' -> from_source mv k1 v2 v2' ->
      astep (CAssignFrom x y mv) (OThrew e) (<[x := AVar tys k']> (<[y := AObj u v2']> σ))
  | s_assign_convert x y mv tys k1 tys2 k2 k' v' :
      is_var x tys k1 -> is_var y tys2 k2 -> foreign tys tys2 k2 k' -> operand_after mv k2.2 v' ->
      astep (CAssignConvert x y mv) ODone (<[x := AVar tys k']> (<[y := AVar tys2 (k2.1, v')]> σ))
  | s_assign_convert_x x y mv tys k1 tys2 k2 k0 k' v' e :
      is_var x tys k1 -> is_var y tys2 k2 -> operand_after mv k2.2 v' -> foreign tys tys2 k2 k0 ->
      (k' = k1 /\ foreign_may_throw tys tys2 k2 mv \/ move_failed tys k1 k0 k') ->
      astep (CAssignConvert x y mv) (OThrew e) (<[x := AVar tys k']> (<[y := AVar tys2 (k2.1, v')]> σ))
  | s_swap x y tys k1 k2 ka kb :
      x <> y -> is_var x tys k1 -> is_var y tys k2 -> swapped k1 k2 ka kb ->
      astep (CSwap x y) ODone (<[x := AVar tys ka]> (<[y := AVar tys kb]> σ))
  | s_swap_x x y tys k1 k2 ka kb e :
      x <> y -> is_var x tys k1 -> is_var y tys k2 -> swap_can_throw tys ->
      swap_failed tys k1 k2 ka kb ->
      astep (CSwap x y) (OThrew e) (<[x := AVar tys ka]> (<[y := AVar tys kb]> σ))
  | s_swap_self x tys k v' :
      is_var x tys k -> self_swap k.2 v' -> astep (CSwap x x) ODone (<[x := AVar tys (k.1, v')]> σ)
  | s_swap_self_x x tys k t v' e :
      is_var x tys k -> tys !! k.1.2 = Some t -> throwing_swap (ity_uid t) ->
      astep (CSwap x x) (OThrew e) (<[x := AVar tys (k.1, v')]> σ)
  (* access through get *)
  | s_poke x u y tys k v :
      is_var x tys k -> is_obj y u v -> has tys k u ->
      astep (CPoke x u y) ODone (<[x := AVar tys (k.1, v)]> σ)
  | s_poke_x x u y tys k v' e :
      is_var x tys k -> has tys k u -> nt_cassign (te C u) = false ->
      astep (CPoke x u y) (OThrew e) (<[x := AVar tys (k.1, v')]> σ)
  | s_poke_bad x u y tys k :
      is_var x tys k -> ~ has tys k u -> astep (CPoke x u y) (OThrew XBadGet) σ
  | s_take z x u tys k :
      is_var x tys k -> has tys k u -> astep (CTake z x u) ODone (<[z := AObj u (erase k.2)]> σ)
  | s_take_x z x u tys k e :
      is_var x tys k -> has tys k u -> nt_copy (te C u) = false -> astep (CTake z x u) (OThrew e) σ
  | s_take_bad z x u tys k :
      is_var x tys k -> ~ has tys k u -> astep (CTake z x u) (OThrew XBadGet) σ
  | s_child z x u j tys k d ks tys' k' :
      is_var x tys k -> has tys k u -> k.2 = UV d ks -> ut_members (te C u) !! j = Some tys' ->
      ks !! j = Some k' -> astep (CChild z x u j) ODone (<[z := AVar tys' (erasev k')]> σ)
  | s_child_x z x u j tys k d ks tys' k' t e :
      is_var x tys k -> has tys k u -> k.2 = UV d ks -> ut_members (te C u) !! j = Some tys' ->
      ks !! j = Some k' -> tys' !! k'.1.2 = Some t -> ~ nothrow_copy t ->
      astep (CChild z x u j) (OThrew e) σ
  | s_child_bad z x u j tys k :
      is_var x tys k -> ~ has tys k u -> astep (CChild z x u j) (OThrew XBadGet) σ
  | s_set_child x u j y tys k d ks tys' k' ky :
      is_var x tys k -> has tys k u -> k.2 = UV d ks -> ut_members (te C u) !! j = Some tys' ->
      ks !! j = Some k' -> is_var y tys' ky ->
      astep (CSetChild x u j y) ODone (<[x := AVar tys (k.1, UV d (<[j := ky]> ks))]> σ)
  | s_set_child_x x u j y tys k d ks tys' k' ky k'' e :
      is_var x tys k -> has tys k u -> k.2 = UV d ks -> ut_members (te C u) !! j = Some tys' ->
      ks !! j = Some k' -> is_var y tys' ky -> copy_failed tys' k' ky k'' ->
      astep (CSetChild x u j y) (OThrew e) (<[x := AVar tys (k.1, UV d (<[j := k'']> ks))]> σ)
  | s_set_child_bad x u j y tys k :
      is_var x tys k -> ~ has tys k u -> astep (CSetChild x u j y) (OThrew XBadGet) σ
  (* queries: nothing changes, nothing but bad_get is thrown *)
  | s_which x tys k :
      is_var x tys k -> astep (CWhich x) (OWhich (Z.of_nat k.1.2)) σ
  | s_read x tys k t :
      is_var x tys k -> tys !! k.1.2 = Some t -> astep (CRead x) (OVal (ity_uid t) (erase k.2)) σ
  | s_get x u tys k :
      is_var x tys k -> has tys k u -> astep (CGet x u) (OGet (Some (erase k.2))) σ
  | s_get_null x u tys k :
      is_var x tys k -> ~ has tys k u -> astep (CGet x u) (OGet None) σ
  | s_get_ref x u tys k :
      is_var x tys k -> has tys k u -> astep (CGetRef x u) (OVal u (erase k.2)) σ
  | s_get_ref_bad x u tys k :
      is_var x tys k -> ~ has tys k u -> astep (CGetRef x u) (OThrew XBadGet) σ
  | s_type x tys k t :
      is_var x tys k -> tys !! k.1.2 = Some t -> astep (CType x) (OType (ity_uid t)) σ
  | s_eq x y tys k1 k2 t b :
      is_var x tys k1 -> is_var y tys k2 -> tys !! k1.1.2 = Some t ->
      (b = true <-> k1.1.2 = k2.1.2 /\ eqf (ity_uid t) (erase k1.2) (erase k2.2) = true) ->
      astep (CEq x y) (OBool b) σ
  | s_lt x y tys k1 k2 t b :
      is_var x tys k1 -> is_var y tys k2 -> tys !! k1.1.2 = Some t ->
      (b = true <-> k1.1.2 < k2.1.2 \/
                    k1.1.2 = k2.1.2 /\ ltf (ity_uid t) (erase k1.2) (erase k2.2) = true) ->
      astep (CLt x y) (OBool b) σ.

End steps.

(** ** Conditions on types

    [sound_tys]: excludes two defects of the library that concern failed assignments of a
    type that may throw on copy and on move:
    - without a fallback type: another bounded type that is nothrow copy but not nothrow move
      constructible (C14);
    - with a fallback type: that type has a nontrivial default constructor (C43), unless the
      code is repaired ([fb_deref]).
    [single_storage]: the documented conditions for doing without heap backups.
    [determinate_fallback]: the fallback type is not left indeterminate (C17). *)
Definition sound_tys (tys : list ity) : Prop :=
  (no_fallback tys -> (exists t, t ∈ tys /\ doubly_throwing t) ->
     forall t, t ∈ tys -> nothrow_copy t -> nothrow_move t) /\
  ((exists t, t ∈ tys /\ doubly_throwing t) -> forall j u, fallback tys j u ->
     (fb_deref C = true \/ ut_init (te C u) <> DIUser) /\ ut_members (te C u) = []).
Definition single_storage (tys : list ity) : Prop :=
  (exists t, t ∈ tys /\ nothrow_default t) \/ forall t, t ∈ tys -> ~ doubly_throwing t.
Definition determinate_fallback (tys : list ity) : Prop :=
  (exists t, t ∈ tys /\ doubly_throwing t) -> forall j u, fallback tys j u -> ut_init (te C u) <> DITriv.

(** [st]: also determinate; [nb]: also without backups. *)
Definition good_tys (st nb : bool) (tys : list ity) : Prop :=
  sound_tys tys /\ (st = true -> determinate_fallback tys) /\ (nb = true -> single_storage tys).

(** Conditions on the user types: the traits of a class with member variants are no better
    than what the member variants' operations give (a class with a nothrow copy constructor
    has none); trivially default constructible types and targets of conversions have none;
    the unrolling limit is positive. *)
Record good_env (st nb : bool) : Prop := GoodEnv {
  ge_lim : 0 < lim C;
  ge_mems : forall u tys, tys ∈ ut_members (te C u) -> good_tys st nb tys;
  ge_copy : forall u, nt_copy (te C u) = true -> ut_members (te C u) = [];
  ge_cassign : forall u, nt_cassign (te C u) = true -> ut_members (te C u) = [];
  ge_move : forall u tys t, nt_move (te C u) = true -> tys ∈ ut_members (te C u) ->
            t ∈ tys -> nothrow_move t;
  ge_massign : forall u tys t, nt_massign (te C u) = true -> tys ∈ ut_members (te C u) ->
            t ∈ tys -> nothrow_move t /\ nothrow_massign t;
  ge_swap : forall u tys t, ut_swap (te C u) = Some true -> tys ∈ ut_members (te C u) ->
            t ∈ tys -> nothrow_move t /\ nothrow_massign t /\ ~ throwing_swap (ity_uid t);
  ge_default : forall u tys t, nt_default (te C u) = true -> tys ∈ ut_members (te C u) ->
            head tys = Some t -> nothrow_default t;
  ge_triv : forall u, ut_init (te C u) <> DIUser -> ut_members (te C u) = [];
  ge_conv : forall u u', is_Some (rank C u u') -> u <> u' -> ut_members (te C u') = []
}.

(** ** Which commands a program may issue

    [typed]: the command compiles: names are in scope with the right types, new names are
    fresh, overload resolution succeeds, type lists are good, default construction
    terminates (nests at most [D] deep). [typed_with]: with any condition on type lists. *)
Section guards.
Context (st nb : bool) (D : nat) (σ : astate).

Definition typed_with (good : list ity -> Prop) (c : cmd) : Prop :=
  match c with
  | CMake x u z ms => σ !! x = None /\
      Forall2 (fun y tys => exists k, is_var σ y tys k) ms (ut_members (te C u))
  | CDrop x => is_Some (σ !! x)
  | CDefault x tys => σ !! x = None /\ good tys /\
      exists t r v, tys = t :: r /\ idefval C D t = Some v /\ (st = true -> determinate v = true)
  | CFrom x tys y mv => σ !! x = None /\ good tys /\
      exists u v i, is_obj σ y u v /\ best_match tys u i
  | CCopy x y | CMove x y => σ !! x = None /\ exists tys k, is_var σ y tys k
  | CConvert x tys y mv => σ !! x = None /\ good tys /\
      exists tys2 k2, is_var σ y tys2 k2 /\ forall t, t ∈ tys2 -> exists i, best_match tys (ity_uid t) i
  | CAssign x y | CMoveAssign x y | CSwap x y | CEq x y | CLt x y =>
      exists tys k1 k2, is_var σ x tys k1 /\ is_var σ y tys k2
  | CAssignFrom x y mv => exists tys k1 u v i, is_var σ x tys k1 /\ is_obj σ y u v /\ best_match tys u i
  | CAssignConvert x y mv => x <> y /\ exists tys k1 tys2 k2, is_var σ x tys k1 /\ is_var σ y tys2 k2 /\
      forall t, t ∈ tys2 -> exists i, best_match tys (ity_uid t) i
  | CPoke x u y => exists tys k v, is_var σ x tys k /\ is_obj σ y u v
  | CTake z x u => σ !! z = None /\ exists tys k, is_var σ x tys k
  | CChild z x u j => σ !! z = None /\ j < length (ut_members (te C u)) /\ exists tys k, is_var σ x tys k
  | CSetChild x u j y => x <> y /\ exists tys k tys' k',
      is_var σ x tys k /\ ut_members (te C u) !! j = Some tys' /\ is_var σ y tys' k'
  | CWhich x | CRead x | CType x | CGet x _ | CGetRef x _ => exists tys k, is_var σ x tys k
  end.
Definition typed (c : cmd) : Prop := typed_with (good_tys st nb) c.

(** [unparked]: no value is assigned, or swapped across indices, out of a heap backup (C15):
    the source of an assignment holds no parked content, at any depth; it may itself be parked
    if the target is parked with the same index. A type's own swap may swap across indices
    within either operand. *)
Definition unparked (c : cmd) : Prop :=
  match c with
  | CAssign x y | CMoveAssign x y => x <> y -> forall tys k1 k2, is_var σ x tys k1 -> is_var σ y tys k2 ->
      clean k2.2 = true /\ (k2.1.1 = true -> k1.1 = k2.1)
  | CAssignFrom _ y _ | CPoke _ _ y => forall u v, is_obj σ y u v -> clean v = true
  | CSetChild x u j y => forall tys k, is_var σ y tys k -> cleanv k = true
  | CSwap x y => x <> y -> forall tys k1 k2, is_var σ x tys k1 -> is_var σ y tys k2 ->
      (k1.1.2 = k2.1.2 -> clean k2.2 = true /\
        forall t, tys !! k1.1.2 = Some t -> is_Some (ut_swap (te C (ity_uid t))) -> clean k1.2 = true) /\
      (k1.1.2 <> k2.1.2 -> cleanv k1 = true)
  | _ => True
  end.

End guards.
End spec.
