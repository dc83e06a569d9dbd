(** The unrolled switch of visitation (detail/visitation_impl.hpp). *)
From stdpp Require Import base list numbers.
From Coq Require Import ZArith.

Section dispatch.
Context {T : Type}.

(** What the generated code does for a given index: calls the visitor on type [t],
    reaches [forced_return] (detail/visitation_impl.hpp:151-158, 166-181), or (never, in
    code that compiles) does not end its instantiation. *)
Inductive dres := DCase (t : T) | DForced | DDiverge.

(** The cases [Which::value + 0 .. Which::value + (n-1)] of one switch
    (detail/visitation_impl.hpp:214-232). [rest] is the remaining type sequence seen
    through the never-ending visitation_impl_step (73-89): past the end the step's type is
    apply_visitor_unrolled, here [None]. *)
Fixpoint switch_cases (n : nat) (w : Z) (rest : list T) (lw : Z) : option (option T) :=
  match n with
  | 0 => None
  | S n' => if decide (lw = w) then Some (head rest)
            else switch_cases n' (w + 1)%Z (tail rest) lw
  end.

(** visitation_impl (detail/visitation_impl.hpp:166-256): one switch of [L] cases, then the
    next instantiation with [Which + L] and the step advanced [L] times, until that step's
    type is apply_visitor_unrolled. Template recursion is on explicit fuel. *)
Fixpoint visitation_impl (fuel L : nat) (w : Z) (rest : list T) (lw : Z) : dres :=
  match fuel with
  | 0 => DDiverge
  | S f =>
      match switch_cases L w rest lw with
      | Some (Some t) => DCase t
      | Some None => DForced
      | None =>
          match drop L rest with
          | [] => DForced
          | rest' => visitation_impl f L (w + Z.of_nat L)%Z rest' lw
          end
      end
  end.

(** internal_apply_visitor_impl (variant.hpp:2185-2208): starts at index 0 with the whole
    type sequence. *)
Definition visitation (L : nat) (tys : list T) (lw : Z) : dres :=
  visitation_impl (S (length tys)) L 0%Z tys lw.

End dispatch.
Arguments dres : clear implicits.
