(** Vocabulary for queries. Specification. *)
From stdpp Require Import base gmap list numbers.
From Coq Require Import ZArith.
From Verif Require Import Base Types Variant Sem Values Client Observe Reach Queries.

(** Nothing the program can notice has changed: memory, allocator, trace, oracle. *)
Definition unchanged (s s' : state) : Prop :=
  mem s' = mem s /\ nxt s' = nxt s /\ tr s' = tr s /\ orc s' = orc s /\ opos s' = opos s.

(** The computation [m n] (at level [n] of the semantics of user types) gives [r] in state [s],
    at all sufficiently high levels, and changes nothing. *)
Definition says {A} (m : nat -> M A) (s : state) (r : A) : Prop :=
  exists s', (exists n0, forall n, n0 <= n -> m n s = Ok r s') /\ unchanged s s'.

(** Comparisons, hashes and printing see values without the backup flags. *)
Definition seen2 {A} (f : uid -> uval -> uval -> A) : uid -> uval -> uval -> A :=
  fun u v w => f u (erase v) (erase w).
Definition seen1 {A} (f : uid -> uval -> A) : uid -> uval -> A := fun u v => f u (erase v).

(** Strict weak orders. *)
Record strict_weak {A} (R : A -> A -> Prop) : Prop := StrictWeak {
  sw_irrefl x : ~ R x x;
  sw_trans x y z : R x y -> R y z -> R x z;
  sw_incomp x y z : ~ R x y -> ~ R y x -> ~ R y z -> ~ R z y -> ~ R x z /\ ~ R z x
}.

Section relations.
Context (C : cfg) (eqf ltf : uid -> uval -> uval -> bool) (E : env) (s : state) (tys : list ity).

(** [x] names a variant with bounded types [tys]. *)
Definition is_variant (x : name) : Prop := exists a, E !! x = Some (BVar tys a).

(** Two variants [x] and [y] of the same type, and what an operator says about them. *)
Definition compares (op : usem -> loc -> loc -> M bool) (x y : name) (r : bool) : Prop :=
  exists a b, E !! x = Some (BVar tys a) /\ E !! y = Some (BVar tys b) /\
    says (fun n => op (sem C n) a b) s r.
Definition is_eq := compares (fun S => var_eq C S tys (seen2 eqf)).
Definition is_ne := compares (fun S => var_ne C S tys (seen2 eqf)).
Definition is_lt := compares (fun S => var_lt C S tys (seen2 ltf)).
Definition is_gt := compares (fun S => var_gt C S tys (seen2 ltf)).
Definition is_le := compares (fun S => var_le C S tys (seen2 ltf)).
Definition is_ge := compares (fun S => var_ge C S tys (seen2 ltf)).

(** What hashing [x] gives, with boost::hash and with std::hash; printing it to a stream. *)
Definition hashes (hashf : uid -> uval -> Z) (combine : Z -> Z -> Z) (x : name) (r : Z) : Prop :=
  exists a, E !! x = Some (BVar tys a) /\ says (fun n => var_hash C (sem C n) tys (seen1 hashf) combine a) s r.
Definition std_hashes (hashf : uid -> uval -> Z) (combine : Z -> Z -> Z) (x : name) (r : Z) : Prop :=
  exists a, E !! x = Some (BVar tys a) /\ says (fun n => std_hash C (sem C n) tys (seen1 hashf) combine a) s r.
Definition prints (print : uid -> uval -> list Z) (out : list Z) (x : name) (r : list Z) : Prop :=
  exists a, E !! x = Some (BVar tys a) /\ says (fun n => var_print C (sem C n) tys (seen1 print) out a) s r.
End relations.

(** The object of type [u] at [l] is the content of the variant named [x]. *)
Definition content_of (C : cfg) (E : env) (s : state) (x : name) (u : uid) (l : loc) : Prop :=
  exists tys k t a, sees C E s x tys k /\ tys !! k.1.2 = Some t /\ u = ity_uid t /\ value_at C s l u k.2 /\
    E !! x = Some (BVar tys a) /\ stored_at (mem s) a l.
