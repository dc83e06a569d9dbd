(** Properties of what is decided when a variant type is compiled: representation, get,
    recursive variants. The statements use LayoutSpec.v, GetSpec.v, SubstSpec.v and the model's functions
    (Layout.v, GetTypes.v, Substitute.v); the proofs are in the Facts files. *)
From stdpp Require Import base gmap list numbers.
From Coq Require Import ZArith.
From Verif Require Import Base Types Variant Sem Values Client Observe Spec History Reach.
From Verif Require Import Layout LayoutSpec GetTypes GetSpec Substitute SubstSpec.
From Verif Require Import Check Samples Runs Scenes.
From Verif Require LayoutFacts GetFacts SubstFacts Link.

(** *** C21: overload resolution between the bounded types. A conversion compiles iff there is a
    best type, and then that type is chosen; in particular an ambiguous call is rejected. *)
Theorem C21_overloads : forall C tys u i, resolve C tys u = Some i <-> best_match C tys u i.
Proof. exact (fun C tys u i => iff_sym (Link.best_match_resolve C tys u i)). Qed.

(** *** C33: the discriminator. For any number of types that an [int] can count, with or without
    BOOST_VARIANT_MINIMIZE_SIZE, whether or not the size of the type sequence is known: no
    overflow, what is stored fits, and index and backup flag are read back. *)
Theorem C33_encoding : forall P (minimize : bool) (n o1 : Z) (bk : bool) (i : Z),
  sane P -> (0 < n <= int_max P)%Z -> o1 = n \/ o1 = (-1)%Z -> (0 <= i < n)%Z ->
  exists r, store P (which_type P minimize o1) bk i = Some r /\
    fits (bits P (which_type P minimize o1)) r /\ (- n <= r < n)%Z /\
    load_backup r = bk /\ load_which P r = Some i.
Proof.
  exact (fun P m n o1 bk i HP Hn Ho Hi =>
    match LayoutFacts.store_ok P m n o1 bk i HP Hn Ho Hi with
    | conj H1 (conj H2 (conj H3 H4)) => ex_intro _ _ (conj H1 (conj H3 (conj H2 H4)))
    end).
Qed.
Theorem C33_injective : forall P (minimize : bool) (n o1 : Z) (bk : bool) (i : Z) (bk' : bool) (i' : Z),
  sane P -> (0 < n <= int_max P)%Z -> o1 = n \/ o1 = (-1)%Z -> (0 <= i < n)%Z -> (0 <= i' < n)%Z ->
  store P (which_type P minimize o1) bk i = store P (which_type P minimize o1) bk' i' -> bk = bk' /\ i = i'.
Proof. exact LayoutFacts.store_injective. Qed.
(** In every reachable state, the integer that the state machine keeps for a variant is what
    the code stores in [which_t], so that keeping unbounded integers loses nothing. *)
Theorem C33_state : forall C st nb eqf ltf, good_env C st nb -> forall P minimize o1 E s x tys a,
  sane P -> (Z.of_nat (length tys) <= int_max P)%Z -> o1 = Z.of_nat (length tys) \/ o1 = (-1)%Z ->
  reached C st nb eqf ltf E s -> E !! x = Some (BVar tys a) ->
  exists k o r, sees C E s x tys k /\ mem s !! a = Some (Cell KVar (Some o) (Some r)) /\
    store P (which_type P minimize o1) k.1.1 (Z.of_nat k.1.2) = Some r /\
    load_backup r = k.1.1 /\ load_which P r = Some (Z.of_nat k.1.2).
Proof. exact LayoutFacts.reached_which. Qed.

(** *** C34: the storage. *)
Theorem C34_holds : forall P C tys,
  tys <> [] -> (0 < snd (ptr_layout P))%Z -> (forall u, 0 < snd (user_layout P u))%Z ->
  exists st, storage_of P C tys = Some st /\
  (forall t, t ∈ tys -> holds st (internal_layout P t)) /\
  (has_fallback C tys = false -> holds st (ptr_layout P)) /\
  (snd st | fst st)%Z.
Proof. exact LayoutFacts.storage_ok. Qed.
(** It is not larger than the largest type rounded up to the alignment, and no alignment that
    suits all types is stricter. *)
Theorem C34_least : forall P never (l : list (Z * Z)) st,
  Forall (fun x => 0 < snd x)%Z l -> (0 < snd (ptr_layout P))%Z -> make_storage P never l = Some st ->
  let types := if never then l else ptr_layout P :: l in
  (exists t, t ∈ types /\ fst st < fst t + snd st)%Z /\
  (forall m : Z, (forall t, t ∈ types -> (snd t | m)%Z) -> (snd st | m)%Z).
Proof. exact LayoutFacts.make_storage_least. Qed.
(** If all alignments are powers of two, the alignment of the storage is the largest of them. *)
Theorem C34_power_of_two : forall P never (l : list (Z * Z)) st,
  Forall (fun x => pow2 (snd x)) l -> pow2 (snd (ptr_layout P)) -> make_storage P never l = Some st ->
  let types := if never then l else ptr_layout P :: l in
  pow2 (snd st) /\ (exists t, t ∈ types /\ snd st = snd t).
Proof. exact LayoutFacts.make_storage_pow2. Qed.

(** *** C28: strict_get. Without volatile: relaxed_get finds the content iff it has the type
    named, and does not shed a const; the assertion of strict_get holds iff there is a bounded
    type whose values relaxed_get finds. *)
Theorem C28_relaxed : forall cvar t e,
  no_volatile t -> no_volatile (value_type e) ->
  relaxed_get cvar (UObj t) e = true <->
  named t = named (value_type e) /\
  (content_const cvar e = true -> is_const t = true \/ cvar = true).
Proof. exact GetFacts.relaxed_iff. Qed.
(** With a reference as template argument, the constness of the variant is not added to the type
    named. *)
Theorem C28_relaxed_reference : forall cvar u t e,
  u = ULRef t \/ u = URRef t -> no_volatile t -> no_volatile (value_type e) ->
  relaxed_get cvar u e = true <->
  named t = named (value_type e) /\ (content_const cvar e = true -> is_const t = true).
Proof. exact GetFacts.relaxed_ref_iff. Qed.
Theorem C28_strict_exact : forall cvar t tys,
  no_volatile t -> Forall (fun e => no_volatile (value_type e)) tys ->
  strict_get_compiles cvar tys (UObj t) = true <-> exists e, e ∈ tys /\ relaxed_get cvar (UObj t) e = true.
Proof. exact GetFacts.strict_exact. Qed.
(** Unqualified types: as in the state machine. *)
Theorem C28_state_machine : forall cvar u t,
  relaxed_get cvar (UObj (plain u)) (of_ity t) = bool_decide (ity_uid t = u).
Proof. exact GetFacts.relaxed_ity. Qed.

(** *** C48: with volatile, or with a reference as template argument, the assertion is wrong
    both ways. Accepted, but null for every content: *)
Theorem C48_accepted_never_found_refuted : exists (tys : list bty) u,
  strict_get_compiles true tys u = true /\ forall e, e ∈ tys -> relaxed_get true u e = false.
Proof.
  (* strict_get<volatile X>(const variant<X, Y>&) *)
  exists [BPlain (plain 1); BPlain (plain 2)], (UObj (OTy false true 1)).
  split; [by vm_compute|]. intros e He.
  apply elem_of_cons in He as [->|He]; [by vm_compute|].
  apply elem_of_list_singleton in He as ->. by vm_compute.
Qed.
Theorem C48_reference_never_found_refuted : exists (tys : list bty) t,
  no_volatile t /\ Forall (fun e => no_volatile (value_type e)) tys /\
  strict_get_compiles true tys (ULRef t) = true /\ forall e, e ∈ tys -> relaxed_get true (ULRef t) e = false.
Proof.
  (* strict_get<X&>(const variant<X, Y>&) *)
  exists [BPlain (plain 1); BPlain (plain 2)], (plain 1).
  split; [done|]. split; [by repeat constructor|]. split; [by vm_compute|]. intros e He.
  apply elem_of_cons in He as [->|He]; [by vm_compute|].
  apply elem_of_list_singleton in He as ->. by vm_compute.
Qed.
(** Rejected, but found: *)
Theorem C48_rejected_found_refuted : exists (tys : list bty) u e,
  strict_get_compiles true tys u = false /\ e ∈ tys /\ relaxed_get true u e = true.
Proof.
  (* strict_get<volatile X>(const variant<volatile X>&) *)
  exists [BPlain (OTy false true 1)], (UObj (OTy false true 1)), (BPlain (OTy false true 1)).
  split; [by vm_compute|]. split; [left|by vm_compute].
Qed.

(** *** C29: polymorphic_get, at the level of types: compiles, and finds the content iff it is of
    the type named or of a type derived from it. Bounded types may be const, wrapped or
    references. *)
Theorem C29_types : forall base cvar t e,
  no_volatile t -> no_volatile (value_type e) ->
  exists r, polymorphic_relaxed_get base cvar (UObj t) e = Some r /\
  (r = true <-> same_or_derived base (named t) (named (value_type e)) /\
                (content_const cvar e = true -> is_const t = true \/ cvar = true)).
Proof. exact GetFacts.poly_iff. Qed.
Theorem C29_strict_exact : forall base (cvar : bool) u tys,
  Forall unqualified tys ->
  polymorphic_strict_get_compiles base tys (UObj (plain u)) = true <->
  exists e, e ∈ tys /\ polymorphic_relaxed_get base cvar (UObj (plain u)) e = Some true.
Proof. exact GetFacts.poly_strict_exact. Qed.

(** *** C49: polymorphic_strict_get rejects a base class of a bounded reference type, and an
    unqualified type when the bounded type is const, although the content would be found. *)
Theorem C49_reference_rejected_refuted : exists base tys u e,
  polymorphic_strict_get_compiles base tys (UObj (plain u)) = false /\ e ∈ tys /\
  polymorphic_relaxed_get base false (UObj (plain u)) e = Some true.
Proof.
  (* struct B; struct D : B; polymorphic_strict_get<B>(variant<int, D&>&) *)
  exists (fun b d => bool_decide (b = 1 /\ d = 2)), [BPlain (plain 5); BRef (plain 2)], 1, (BRef (plain 2)).
  split; [by vm_compute|]. split; [right; left|by vm_compute].
Qed.
Theorem C49_const_rejected_refuted : exists base tys u e,
  polymorphic_strict_get_compiles base tys (UObj (plain u)) = false /\ e ∈ tys /\
  polymorphic_relaxed_get base true (UObj (plain u)) e = Some true.
Proof.
  (* polymorphic_strict_get<int>(const variant<const int>&) *)
  exists (fun b d => false), [BPlain (OTy true false 5)], 5, (BPlain (OTy true false 5)).
  split; [by vm_compute|]. split; [left|by vm_compute].
Qed.

(** *** C37: recursive variants. Where the tag occurs in supported positions only, and nowhere
    else, it is replaced everywhere; types without it are left alone. *)
Theorem C37_exact : forall dest t, is_class dest = true -> occurs dest = false ->
  substitute dest t = replace dest t <-> supported t.
Proof. exact SubstFacts.substitute_exact. Qed.
Theorem C37_others : forall dest t, occurs t = false -> substitute dest t = t.
Proof. exact SubstFacts.substitute_free. Qed.
Theorem C37_gone : forall dest t, is_class dest = true -> occurs dest = false -> occurs (replace dest t) = false.
Proof. exact SubstFacts.replace_closed. Qed.
(** The bounded types of a recursive variant: as given if the tag does not occur; otherwise with
    the variant itself in its place, behind a recursive_wrapper unless it is a pointer or a
    reference anyway. *)
Theorem C37_bounded_types : forall args i t,
  args !! i = Some t -> supported t ->
  exists t', recursive_enabled_types args !! i = Some t' /\
  let full := replace (make_recursive_variant args) t in
  (occurs t = false -> t' = t) /\
  (occurs t = true -> (indirect full -> t' = full) /\ (~ indirect full -> t' = TApp nocv wrapper_template [full])).
Proof. exact SubstFacts.enabled_indirect. Qed.
(** The tag with qualifiers becomes the variant with these. *)
Theorem C37_qualifiers : forall q dest, is_class dest = true ->
  cv_of (substitute dest (TTag q)) = q /\ same_class dest (substitute dest (TTag q)).
Proof. exact SubstFacts.tag_qualified. Qed.

(** *** C38: the tag is left in a type with a const template instance, an array, an rvalue
    reference, a function type that is not pointed to, a const pointer to function, a template
    with a non-type parameter, a pointer to member. *)
Theorem C38_missed_refuted : forall dest, exists ts,
  length ts = 7 /\ forall t, t ∈ ts -> occurs t = true /\ substitute dest t = t.
Proof.
  intros dest.
  exists [TApp (true, false) 7 [TTag nocv];                        (* const vector<tag> *)
          TArr (TTag nocv) 3;                                      (* tag[3] *)
          TRRef (TTag nocv);                                       (* tag&& *)
          TApp nocv 8 [TFun (TTag nocv) [TName nocv 5]];           (* function<tag(int)> *)
          TPtr (true, false) (TFun (TTag nocv) [TName nocv 5]);    (* tag ( * const)(int) *)
          TAppN nocv 9 [TTag nocv] 3;                              (* array<tag, 3> *)
          TMem nocv (TName nocv 5) (TTag nocv)].                   (* tag X::* *)
  split; [done|]. intros t Ht.
  repeat (apply elem_of_cons in Ht as [->|Ht]; [done|]). by apply elem_of_nil in Ht.
Qed.

(** ** Examples: the hypotheses are met by concrete cases *)

(** An argument of type 20, which is converted to 0 by a promotion (rank 1) and to 3, 21 and 22
    by conversions of rank 2. *)
Example C21_overloads_ex :
  let r (u v : uid) := if decide (u = v) then Some 0 else if decide (u = 20) then
      (match v with 0 => Some 1 | 3 => Some 2 | 21 | 22 => Some 2 | _ => None end) else None in
  let C := Cfg (te C0) (lim C0) (ndebug C0) (fb_deref C0) r (cv C0) (dv C0) in
  resolve C [IPlain 0; IPlain 3] 20 = Some 0 /\ resolve C [IPlain 0; IPlain 3; IPlain 0; IPlain 21] 20 = Some 2 /\
  resolve C [IPlain 21; IPlain 22] 20 = None /\ resolve C [IPlain 21; IWrap 22; IPlain 20] 20 = Some 2 /\
  resolve C [IPlain 4] 20 = None.
Proof. repeat split; by vm_compute. Qed.
(** A platform with 8 bit chars, 32 bit ints, 64 bit pointers. *)
Definition P0 : platform := Platform 32 8 (8, 8)%Z (fun u => if decide (u = 3) then (24, 4)%Z else (16, 16)%Z).
Example C33_ex : sane P0 /\ (0 < 126 <= int_max P0)%Z /\
  which_type P0 true 126 = WChar /\ store P0 WChar true 125 = Some (-126)%Z /\ load_which P0 (-126) = Some 125%Z /\
  which_type P0 true 127 = WInt /\ which_type P0 false 126 = WInt.
Proof. repeat split; by vm_compute. Qed.
(** A signed char for more types than that would not do. *)
Example C33_tight_ex : store P0 WChar false 200 = Some (-56)%Z /\ store P0 WChar true 55 = Some (-56)%Z.
Proof. repeat split; by vm_compute. Qed.
Notation E4 := (env_of C0 true false 8 8 eq0 lt0 (throws_at [11]) (two_assign VA)).
Notation s4 := (state_of C0 true false 8 8 eq0 lt0 (throws_at [11]) (two_assign VA)).
Example C33_state_ex : exists a o, reached C0 true false eq0 lt0 E4 s4 /\ E4 !! 1 = Some (BVar VA a) /\
  mem s4 !! a = Some (Cell KVar (Some o) (Some (-1)%Z)) /\ store P0 WChar true 0 = Some (-1)%Z.
Proof. do 2 eexists. split; [apply runs_reached; by vm_compute|]. split; [vm_compute; reflexivity|]. split; vm_compute; reflexivity. Qed.
Example C34_ex : storage_of P0 C0 [IPlain 3; IWrap 4] = Some (24, 8)%Z /\ has_fallback C0 [IPlain 3; IWrap 4] = false /\
  make_storage P0 true [(3, 2); (5, 3)]%Z = Some (6, 6)%Z.
Proof. repeat split; by vm_compute. Qed.
Example C28_ex : let tys := [BPlain (OTy true false 1); BWrap (plain 2); BRef (OTy true false 3)] in
  strict_get_compiles false tys (UObj (plain 1)) = false /\
  strict_get_compiles true tys (UObj (plain 1)) = true /\
  strict_get_compiles false tys (UObj (plain 2)) = true /\
  strict_get_compiles false tys (UObj (OTy true false 3)) = true /\
  strict_get_compiles false tys (UObj (plain 3)) = false /\
  map (relaxed_get true (UObj (plain 1))) tys = [true; false; false] /\
  map (relaxed_get true (ULRef (plain 4))) [BPlain (plain 4); BWrap (plain 4); BRef (plain 4)] = [false; false; true] /\
  map (relaxed_get false (ULRef (plain 4))) [BPlain (plain 4); BWrap (plain 4); BRef (plain 4)] = [true; true; true].
Proof. repeat split; by vm_compute. Qed.
Example C29_ex : let base b d := bool_decide (b = 1 /\ d = 2) in
  map (polymorphic_relaxed_get base false (UObj (plain 1)))
      [BPlain (plain 1); BWrap (plain 2); BPlain (plain 5); BRef (plain 2); BPlain (OTy true false 2)] =
  [Some true; Some true; Some false; Some true; Some false] /\
  polymorphic_strict_get_compiles base [BPlain (plain 5); BWrap (plain 2)] (UObj (plain 1)) = true /\
  polymorphic_strict_get_compiles base [BPlain (plain 5); BWrap (plain 1)] (UObj (plain 2)) = false.
Proof. repeat split; by vm_compute. Qed.
(** make_recursive_variant<int, vector<tag>, tag const*, map<int, pair<tag, tag&> >,
    tag ( * )(int, variant<tag, int>)> *)
Definition rec_args : list ty :=
  [TName nocv 5; TApp nocv 7 [TTag nocv]; TPtr nocv (TTag (true, false));
   TApp nocv 8 [TName nocv 5; TApp nocv 9 [TTag nocv; TLRef (TTag nocv)]];
   TPtr nocv (TFun (TTag nocv) [TName nocv 5; TVariant nocv [TTag nocv; TName nocv 5]])].
Definition rec_self : ty := make_recursive_variant rec_args.
Example C37_ex : (forall t, t ∈ rec_args -> supported t) /\ is_class rec_self = true /\ occurs rec_self = false /\
  recursive_enabled_types rec_args =
    [TName nocv 5; recursive_wrapper (TApp nocv 7 [rec_self]); TPtr nocv (TRecVariant (true, false) rec_args);
     recursive_wrapper (TApp nocv 8 [TName nocv 5; TApp nocv 9 [rec_self; TLRef rec_self]]);
     TPtr nocv (TFun rec_self [TName nocv 5; TVariant nocv [rec_self; TName nocv 5]])].
Proof.
  split; [|repeat split; by vm_compute]. intros t Ht.
  repeat (apply elem_of_cons in Ht as [->|Ht]; [by apply (SubstFacts.supported_only rec_self); vm_compute|]).
  by apply elem_of_nil in Ht.
Qed.

(** Assumptions of all theorems of this file (their union). *)
Definition PropsTypes_all :=
  (C21_overloads, C33_encoding, C33_injective, C33_state, C34_holds, C34_least, C34_power_of_two, C28_relaxed, C28_relaxed_reference, C28_strict_exact,
   C28_state_machine, C48_accepted_never_found_refuted, C48_reference_never_found_refuted,
   C48_rejected_found_refuted, C29_types, C29_strict_exact, C49_reference_rejected_refuted,
   C49_const_rejected_refuted, C37_exact, C37_others, C37_gone, C37_bounded_types, C37_qualifiers, C38_missed_refuted).
Print Assumptions PropsTypes_all.
