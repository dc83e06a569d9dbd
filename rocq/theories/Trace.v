(** What a trace of lifetime events says about an address.  Specification vocabulary: it
    reads the trace only, not the memory. *)
From stdpp Require Import base gmap list numbers.
From Coq Require Import ZArith.
From Verif Require Import Base.

(** Which object lives in the storage at [l] after the events [t] (newest first); [None] if
    the events at [l] make no sense: an object constructed where one lives, or destroyed
    where none of its type lives. *)
Fixpoint occupant (l : loc) (t : list event) : option (option otag) :=
  match t with
  | [] => Some None
  | EvC k l' :: t' =>
      if decide (l' = l) then match occupant l t' with Some None => Some (Some k) | _ => None end
      else occupant l t'
  | EvD k l' :: t' =>
      if decide (l' = l) then match occupant l t' with
                              | Some (Some k') => if decide (k' = k) then Some None else None
                              | _ => None
                              end
      else occupant l t'
  | _ :: t' => occupant l t'
  end.

(** Life of a heap block. *)
Inductive bstate := BNever | BLive | BFreed.

(** State of the heap block at [l] after the events [t]; [None] if they make no sense: a
    block allocated twice, freed when not allocated, or freed with an object living in it. *)
Fixpoint block (l : loc) (t : list event) : option bstate :=
  match t with
  | [] => Some BNever
  | EvNew _ l' :: t' =>
      if decide (l' = l) then match block l t' with Some BNever => Some BLive | _ => None end
      else block l t'
  | EvDel l' :: t' =>
      if decide (l' = l) then match block l t', occupant l t' with
                              | Some BLive, Some None => Some BFreed
                              | _, _ => None
                              end
      else block l t'
  | _ :: t' => block l t'
  end.

(** The type of the object living at [l]; whether [l] is a heap block. *)
Definition tag_at (m : gmap loc cell) (l : loc) : option otag :=
  match m !! l with
  | Some c => match cc c with Some o => Some (tag_of o) | None => None end
  | None => None
  end.
Definition is_block (m : gmap loc cell) (l : loc) : Prop :=
  exists c, m !! l = Some c /\ ck c = KHeap.

(** Number of occurrences of an event. *)
Fixpoint cnt (e : event) (t : list event) : nat :=
  match t with
  | [] => 0
  | e' :: t' => if decide (e = e') then S (cnt e t') else cnt e t'
  end.

Definition ev_loc (e : event) : loc :=
  match e with EvC _ l => l | EvD _ l => l | EvNew _ l => l | EvDel l => l end.
