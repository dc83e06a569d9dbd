(** What programs with references into contents do. Specification: independent of the model's
    helpers. *)
From stdpp Require Import base gmap list numbers.
From Coq Require Import ZArith.
From Verif Require Import Base Types Variant Values Client Observe Spec Places.

(** A variable that is set aside: its value without the member variants of its object, and
    the names of the references to these, in order. *)
Definition kstate := gmap name (aval * list name).

(** Its value when the member variants hold [ks]. *)
Definition fill (α : aval) (ks : list vval) : aval :=
  match α with
  | AVar tys k => AVar tys (k.1, match k.2 with UV z _ => UV z ks end)
  | AObj u v => AObj u (match v with UV z _ => UV z ks end)
  end.
(** What memory shows of it (Observe.v), not looking at member variants. *)
Definition see_top (u : uid) (o : obj) : option uval :=
  match o with OUser u' z _ => if decide (u' = u) then Some (UV z []) else None | _ => None end.
Definition shell_holds (m : gmap loc cell) (b : bnd) (α : aval) : Prop :=
  match b, α with
  | BVar tys a, AVar tys' k => tys' = tys /\ see_var m see_top tys a = Some k
  | BObj u a, AObj u' v => u' = u /\ exists o, m !! a = Some (Cell KStk (Some o) None) /\ see_top u o = Some v
  | _, _ => False
  end.
Definition kshows (m : gmap loc cell) (K : kenv) (κ : kstate) : Prop :=
  forall x, match K !! x, κ !! x with
            | Some (b, refs), Some (α, rs) => rs = refs.*1 /\ shell_holds m b α
            | None, None => True
            | _, _ => False
            end.

Section rspec.
Context (C : cfg) (st nb : bool) (eqf ltf : uid -> uval -> uval -> bool).

(** [rs] refer to member variants of some variable. *)
Definition refers (κ : kstate) (r : name) : Prop := exists x α rs, κ !! x = Some (α, rs) /\ r ∈ rs.

(** When a command may be issued: it compiles and does not use a variable that is set aside;
    the operands are not parked (C15) and not part of their targets (C18). *)
Definition rtyped (D : nat) (σ : astate) (κ : kstate) (c : rcmd) : Prop :=
  match c with
  | RMain c => typed C st nb D σ c /\ unparked C σ c /\
      (forall x, declares c = Some x -> κ !! x = None) /\ (forall r, c = CDrop r -> ~ refers κ r)
  | ROpen x u rs =>
      ((exists tys k, is_var σ x tys k) \/ exists v, is_obj σ x u v) /\
      NoDup rs /\ length rs = length (ut_members (te C u)) /\ forall r, r ∈ rs -> σ !! r = None /\ κ !! r = None
  | RClose x => exists α rs, κ !! x = Some (α, rs) /\ forall r, r ∈ rs -> is_Some (σ !! r)
  | RFromGet x tys y u mv => σ !! x = None /\ κ !! x = None /\ good_tys C st nb tys /\
      (exists i, best_match C tys u i) /\ exists tys2 k2, is_var σ y tys2 k2
  | RAssignGet x y u mv => x <> y /\ exists tys k1 tys2 k2, is_var σ x tys k1 /\ is_var σ y tys2 k2 /\
      (exists i, best_match C tys u i) /\ clean k2.2 = true
  | RPokeGet x u y => x <> y /\ exists tys k1 tys2 k2, is_var σ x tys k1 /\ is_var σ y tys2 k2 /\ clean k2.2 = true
  end.

(** What a command does. References are variables; what is done to them has been done to the
    variable when their scope ends. An operand get<u>(y) is an object of its own, [o], whose value
    afterwards is that of the content of [y]. *)
Inductive rstep (σ : astate) (κ : kstate) : rcmd -> out -> astate -> kstate -> Prop :=
  | r_main c o σ' : astep C eqf ltf σ c o σ' -> rstep σ κ (RMain c) o σ' κ
  | r_open_var x u rs tys bi z ks : is_var σ x tys (bi, UV z ks) -> has tys (bi, UV z ks) u ->
      rstep σ κ (ROpen x u rs) ODone
        (list_to_map (zip rs (zip_with AVar (ut_members (te C u)) ks)) ∪ delete x σ)
        (<[x := (AVar tys (bi, UV z []), rs)]> κ)
  | r_open_bad x u rs tys k : is_var σ x tys k -> ~ has tys k u ->
      rstep σ κ (ROpen x u rs) (OThrew XBadGet) σ κ
  | r_open_obj x u rs z ks : is_obj σ x u (UV z ks) ->
      rstep σ κ (ROpen x u rs) ODone
        (list_to_map (zip rs (zip_with AVar (ut_members (te C u)) ks)) ∪ delete x σ)
        (<[x := (AObj u (UV z []), rs)]> κ)
  | r_close x α rs ks : κ !! x = Some (α, rs) -> Forall2 (fun r k => exists tys, is_var σ r tys k) rs ks ->
      rstep σ κ (RClose x) ODone (<[x := fill α ks]> (foldr delete σ rs)) (delete x κ)
  | r_from_get x tys y u mv tys2 k2 o r σ1 v' : is_var σ y tys2 k2 -> has tys2 k2 u -> σ !! o = None -> o <> x ->
      astep C eqf ltf (<[o := AObj u k2.2]> σ) (CFrom x tys o mv) r σ1 -> is_obj σ1 o u v' ->
      rstep σ κ (RFromGet x tys y u mv) r (<[y := AVar tys2 (k2.1, v')]> (delete o σ1)) κ
  | r_from_get_bad x tys y u mv tys2 k2 : is_var σ y tys2 k2 -> ~ has tys2 k2 u ->
      rstep σ κ (RFromGet x tys y u mv) (OThrew XBadGet) σ κ
  | r_assign_get x y u mv tys2 k2 o r σ1 v' : is_var σ y tys2 k2 -> has tys2 k2 u -> σ !! o = None ->
      astep C eqf ltf (<[o := AObj u k2.2]> σ) (CAssignFrom x o mv) r σ1 -> is_obj σ1 o u v' ->
      rstep σ κ (RAssignGet x y u mv) r (<[y := AVar tys2 (k2.1, v')]> (delete o σ1)) κ
  | r_assign_get_bad x y u mv tys2 k2 : is_var σ y tys2 k2 -> ~ has tys2 k2 u ->
      rstep σ κ (RAssignGet x y u mv) (OThrew XBadGet) σ κ
  | r_poke_get x y u tys2 k2 o r σ1 : is_var σ y tys2 k2 -> has tys2 k2 u -> σ !! o = None ->
      astep C eqf ltf (<[o := AObj u k2.2]> σ) (CPoke x u o) r σ1 ->
      rstep σ κ (RPokeGet x u y) r (delete o σ1) κ
  | r_poke_get_bad x y u tys2 k2 : is_var σ y tys2 k2 -> ~ has tys2 k2 u ->
      rstep σ κ (RPokeGet x u y) (OThrew XBadGet) σ κ.

(** Results, permission and histories, as in History.v. *)
Definition ryields (c : rcmd) (E : env) (K : kenv) (s : state) (r : rresult) : Prop :=
  exists n0, forall n, n0 <= n -> rexec C n eqf ltf c E K s = r.
Definition radmissible (E : env) (K : kenv) (s : state) (c : rcmd) : Prop :=
  exists D σ κ, shows C (mem s) E σ /\ kshows (mem s) K κ /\ rtyped D σ κ c.
Inductive rhistory (orc : nat -> Z) : list rcmd -> env -> kenv -> state -> Prop :=
  | rhistory_start : rhistory orc [] ∅ ∅ (init orc)
  | rhistory_step h E K s c E' K' o s' :
      rhistory orc h E K s -> radmissible E K s c -> ryields c E K s (RDone E' K' o s') ->
      rhistory orc (h ++ [c]) E' K' s'.
Definition rreached (E : env) (K : kenv) (s : state) : Prop := exists orc h, rhistory orc h E K s.
(** A permitted command after a history, and where it leads. *)
Definition rtakes (c : rcmd) (E : env) (K : kenv) (s : state) (E' : env) (K' : kenv) (o : out) (s' : state) : Prop :=
  rreached E K s /\ radmissible E K s c /\ ryields c E K s (RDone E' K' o s').
End rspec.

(** [l] is the address of the object of type [u] that [b] stands for, or that the variant [b]
    contains, and [refs] are its member variants, in order. *)
Definition content_of (m : gmap loc cell) (b : bnd) (l : loc) : Prop :=
  match b with BVar _ a => stored_at m a l | BObj _ a => l = a end.
Definition points (C : cfg) (m : gmap loc cell) (b : bnd) (u : uid) (l : loc) (refs : list bnd) : Prop :=
  content_of m b l /\ exists kd w z ls, m !! l = Some (Cell kd (Some (OUser u z ls)) w) /\
    length ls = length (ut_members (te C u)) /\ refs = zip_with BVar (ut_members (te C u)) ls.
