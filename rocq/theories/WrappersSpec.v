(** What programs with recursive_wrapper variables do. Specification: independent of the
    model's helpers. *)
From stdpp Require Import base gmap list numbers.
From Coq Require Import ZArith.
From Verif Require Import Base Types Variant Values Client Observe Spec Owned Wrappers.

(** What a wrapper variable stands for: T, what get_pointer() returns, and the value there. *)
Definition wstate := gmap name (uid * loc * uval).

(** A wrapper of type [u] at [l] whose pointer [p] leads to a live heap object of value [v]. *)
Definition wrap_holds (C : cfg) (m : gmap loc cell) (u : uid) (l p : loc) (v : uval) : Prop :=
  m !! l = Some (Cell KStk (Some (OWrap u p)) None) /\
  exists o n, m !! p = Some (Cell KHeap (Some o) None) /\ see_obj C m n u o = Some v.
Definition wshows (C : cfg) (m : gmap loc cell) (F : wenv) (φ : wstate) : Prop :=
  forall x, match F !! x, φ !! x with
            | Some (u, l), Some (u', p, v) => u' = u /\ wrap_holds C m u l p v
            | None, None => True
            | _, _ => False
            end.

Section wspec.
Context (C : cfg) (st nb : bool) (eqf ltf : uid -> uval -> uval -> bool).

(** When a command may be issued: it compiles, and assignments do not read member variants
    that are parked (C15). [D] bounds the depth of default construction. *)
Definition wtyped (D : nat) (σ : astate) (φ : wstate) (c : wcmd) : Prop :=
  match c with
  | PMain c => typed C st nb D σ c /\ unparked C σ c
  | PDefault x u => φ !! x = None /\
      exists v, defval C D true u = Some v /\ (st = true -> determinate v = true)
  | PCopy x y | PMove x y => φ !! x = None /\ is_Some (φ !! y)
  | PFrom x y _ => φ !! x = None /\ exists u v, is_obj σ y u v
  | PAssign x y => exists u p1 v1 p2 v2, φ !! x = Some (u, p1, v1) /\ φ !! y = Some (u, p2, v2) /\
      (x <> y -> clean v2 = true)
  | PMoveAssign x y | PSwap x y => exists u p1 v1 p2 v2,
      φ !! x = Some (u, p1, v1) /\ φ !! y = Some (u, p2, v2)
  | PAssignFrom x y _ => exists u p v1 v2, φ !! x = Some (u, p, v1) /\ is_obj σ y u v2 /\ clean v2 = true
  | PDrop x | PGet x => is_Some (φ !! x)
  | PTake z x => σ !! z = None /\ is_Some (φ !! x)
  end.

(** What a command does to variables, to wrappers, and its outcome. A wrapper's pointer
    changes by construction, move assignment and swap only. *)
Inductive wstep (σ : astate) (φ : wstate) : wcmd -> out -> astate -> wstate -> Prop :=
  | w_main c o σ' : astep C eqf ltf σ c o σ' -> wstep σ φ (PMain c) o σ' φ
  | w_default D x u v p : defval C D true u = Some v -> wstep σ φ (PDefault x u) ODone σ (<[x := (u, p, v)]> φ)
  | w_default_x x u e : wstep σ φ (PDefault x u) (OThrew e) σ φ
  | w_copy x y u p q v : φ !! y = Some (u, p, v) ->
      wstep σ φ (PCopy x y) ODone σ (<[x := (u, q, erase v)]> φ)
  | w_copy_x x y e : wstep σ φ (PCopy x y) (OThrew e) σ φ
  | w_move x y u p q v v' : φ !! y = Some (u, p, v) -> moved_from v v' ->
      wstep σ φ (PMove x y) ODone σ (<[x := (u, q, erase v)]> (<[y := (u, p, v')]> φ))
  | w_move_x x y u p v v' e : φ !! y = Some (u, p, v) -> moved_from v v' ->
      wstep σ φ (PMove x y) (OThrew e) σ (<[y := (u, p, v')]> φ)
  | w_from x y mv u q v v' : is_obj σ y u v -> operand_after mv v v' ->
      wstep σ φ (PFrom x y mv) ODone (<[y := AObj u v']> σ) (<[x := (u, q, erase v)]> φ)
  | w_from_x x y mv u v v' e : is_obj σ y u v -> operand_after mv v v' ->
      wstep σ φ (PFrom x y mv) (OThrew e) (<[y := AObj u v']> σ) φ
  | w_assign x y u p1 v1 p2 v2 : x <> y -> φ !! x = Some (u, p1, v1) -> φ !! y = Some (u, p2, v2) ->
      wstep σ φ (PAssign x y) ODone σ (<[x := (u, p1, v2)]> φ)
  | w_assign_x x y u p1 v1 v' e : x <> y -> φ !! x = Some (u, p1, v1) -> nt_cassign (te C u) = false ->
      wstep σ φ (PAssign x y) (OThrew e) σ (<[x := (u, p1, v')]> φ)
  | w_assign_self x : wstep σ φ (PAssign x x) ODone σ φ
  | w_assign_self_x x u p v v' e : φ !! x = Some (u, p, v) -> nt_cassign (te C u) = false -> moved_from v v' ->
      wstep σ φ (PAssign x x) (OThrew e) σ (<[x := (u, p, v')]> φ)
  | w_move_assign x y f g : φ !! x = Some f -> φ !! y = Some g ->
      wstep σ φ (PMoveAssign x y) ODone σ (<[x := g]> (<[y := f]> φ))
  | w_swapped x y f g : φ !! x = Some f -> φ !! y = Some g ->
      wstep σ φ (PSwap x y) ODone σ (<[x := g]> (<[y := f]> φ))
  | w_assign_from_copy x y u p v1 v2 : φ !! x = Some (u, p, v1) -> is_obj σ y u v2 ->
      wstep σ φ (PAssignFrom x y false) ODone σ (<[x := (u, p, v2)]> φ)
  | w_assign_from_copy_x x y u p v1 v' e : φ !! x = Some (u, p, v1) -> nt_cassign (te C u) = false ->
      wstep σ φ (PAssignFrom x y false) (OThrew e) σ (<[x := (u, p, v')]> φ)
  | w_assign_from_move x y u p v1 v2 v2' : φ !! x = Some (u, p, v1) -> is_obj σ y u v2 ->
      (clean v1 = true -> clean v2' = true) ->
      wstep σ φ (PAssignFrom x y true) ODone (<[y := AObj u v2']> σ) (<[x := (u, p, v2)]> φ)
  | w_assign_from_move_x x y u p v1 v' v2' e : φ !! x = Some (u, p, v1) ->
      nt_massign (te C u) = false -> (clean v1 = true -> clean v2' = true) ->
      wstep σ φ (PAssignFrom x y true) (OThrew e) (<[y := AObj u v2']> σ) (<[x := (u, p, v')]> φ)
  | w_drop x : wstep σ φ (PDrop x) ODone σ (delete x φ)
  | w_get x u p v : φ !! x = Some (u, p, v) -> wstep σ φ (PGet x) (OVal u (erase v)) σ φ
  | w_take z x u p v : φ !! x = Some (u, p, v) ->
      wstep σ φ (PTake z x) ODone (<[z := AObj u (erase v)]> σ) φ
  | w_take_x z x u p v e : φ !! x = Some (u, p, v) -> nt_copy (te C u) = false ->
      wstep σ φ (PTake z x) (OThrew e) σ φ.

(** Results, permission and histories, as in History.v. *)
Definition wyields (c : wcmd) (E : env) (F : wenv) (s : state) (r : wresult) : Prop :=
  exists n0, forall n, n0 <= n -> wexec C n eqf ltf c E F s = r.
Definition wadmissible (E : env) (F : wenv) (s : state) (c : wcmd) : Prop :=
  exists D σ φ, shows C (mem s) E σ /\ wshows C (mem s) F φ /\ wtyped D σ φ c.
Inductive whistory (orc : nat -> Z) : list wcmd -> env -> wenv -> state -> Prop :=
  | whistory_start : whistory orc [] ∅ ∅ (init orc)
  | whistory_step h E F s c E' F' o s' :
      whistory orc h E F s -> wadmissible E F s c -> wyields c E F s (WDone E' F' o s') ->
      whistory orc (h ++ [c]) E' F' s'.
Definition wreached (E : env) (F : wenv) (s : state) : Prop := exists orc h, whistory orc h E F s.
(** A permitted command after a history, and where it leads. *)
Definition wtakes (c : wcmd) (E : env) (F : wenv) (s : state) (E' : env) (F' : wenv) (o : out) (s' : state) : Prop :=
  wreached E F s /\ wadmissible E F s c /\ wyields c E F s (WDone E' F' o s').
End wspec.

(** What a wrapper variable owns (Owned.v): itself, its block and what the object there owns. *)
Definition owned_wrap (C : cfg) (m : gmap loc cell) (n : nat) (f : uid * loc) : option (list loc) :=
  match m !! f.2 with
  | Some (Cell _ (Some o) _) =>
      match owned_by m (owned_obj C m n) (IWrap f.1) o with Some ls => Some (f.2 :: ls) | None => None end
  | _ => None
  end.
(** All names between them own all of memory, and no address twice. *)
Definition wforest (C : cfg) (m : gmap loc cell) (E : env) (F : wenv) : Prop :=
  exists n lss lsw,
    mapM (fun p : name * bnd => owned_bnd C m n p.2) (map_to_list E) = Some lss /\
    mapM (fun p : name * (uid * loc) => owned_wrap C m n p.2) (map_to_list F) = Some lsw /\
    NoDup (concat lss ++ concat lsw) /\
    forall l, is_Some (m !! l) <-> l ∈ concat lss ++ concat lsw.

(** The operations of T that may throw in a command on wrappers (OriginSpec.v names where they come
    from); [None]: the documentation says that the command will not throw. *)
Definition woperations (c : wcmd) : option (list uop) :=
  match c with
  | PMain _ => None
  | PDefault _ _ => Some [OpDefault]
  | PCopy _ _ | PTake _ _ => Some [OpCopy]
  | PMove _ _ => Some [OpMove]
  | PFrom _ _ mv => Some (if mv then [OpMove] else [OpCopy])
  | PAssign _ _ => Some [OpCopyAssign; OpCopy]
  | PAssignFrom _ _ mv => Some (if mv then [OpMoveAssign; OpMove; OpCopy] else [OpCopyAssign; OpCopy])
  | PMoveAssign _ _ | PSwap _ _ | PDrop _ | PGet _ => None
  end.
(** T, for the command. *)
Definition wsubject (E : env) (F : wenv) (c : wcmd) : option uid :=
  match c with
  | PMain _ => None
  | PDefault _ u => Some u
  | PFrom _ y _ => match E !! y with Some (BObj u _) => Some u | _ => None end
  | PCopy _ x | PMove _ x | PTake _ x | PAssign x _ | PAssignFrom x _ _ | PMoveAssign x _ | PSwap x _
  | PDrop x | PGet x => fst <$> F !! x
  end.

(** The wrapper named [x] is constructed, re-pointed or destroyed by the command. *)
Definition repoints (c : wcmd) (x : name) : Prop :=
  match c with
  | PMain _ | PAssign _ _ | PAssignFrom _ _ _ | PGet _ | PTake _ _ => False
  | PDefault y _ | PCopy y _ | PMove y _ | PFrom y _ _ | PDrop y => x = y
  | PMoveAssign y z | PSwap y z => x = y \/ x = z
  end.
