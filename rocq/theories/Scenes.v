(** The histories that the Examples use. *)
From stdpp Require Import base gmap list numbers.
From Coq Require Import ZArith.
From Verif Require Import Base Types Variant Values Client Samples.

(** variant<loud, node>: no fallback type, every alternative may throw on copy and move. *)
Definition VA : list ity := [IPlain 3; IPlain 4].
(** variant<string, recursive_wrapper<node>>: the type of a node's member. *)
Definition VL : list ity := [IPlain 2; IWrap 4].
(** variant<loud, node, blank>: with a fallback type. *)
Definition VF : list ity := [IPlain 3; IPlain 4; IPlain 1].
(** variant<loud, string>. *)
Definition VS : list ity := [IPlain 3; IPlain 2].
(** variant<string, int>: nothrow moves. *)
Definition VN : list ity := [IPlain 2; IPlain 0].
(** variant<blank, loud, recursive_wrapper<tree>>: the type of a tree's members. *)
Definition VT : list ity := [IPlain 1; IPlain 3; IWrap 7].
(** variant<string, string, loud>: a type twice. *)
Definition VD : list ity := [IPlain 2; IPlain 2; IPlain 3].

(** Objects: 10: a string 7; 11: variant<string, wrapper<node>> holding it; 12: a node 9 with
    that member; 13: loud 5. *)
Definition objects : list cmd := [CMake 10 2 7 []; CFrom 11 VL 10 false; CMake 12 4 9 [11]; CMake 13 3 5 []].
Definition node9 : uval := UV (Some 9%Z) [(false, 0, UV (Some 7%Z) [])].
Definition loud5 : uval := UV (Some 5%Z) [].
Definition str7 : uval := UV (Some 7%Z) [].

(** 1 holds loud 5, 2 holds node 9. *)
Definition two (V : list ity) : list cmd := objects ++ [CFrom 1 V 13 false; CFrom 2 V 12 false].
(** ... then 1 = 2. *)
Definition two_assign (V : list ity) : list cmd := two V ++ [CAssign 1 2].
(** 1 holds loud 5, 3 loud 6; 2 is assigned to both. *)
Definition two_parked (V : list ity) : list cmd := two V ++ [CMake 14 3 6 []; CFrom 3 V 14 false; CAssign 1 2; CAssign 3 2].

(** A two level tree: 3 = variant holding a tree node 1 over a tree node 2 over loud 5 and
    blank. *)
Definition trees : list cmd := [
  CMake 13 3 5 []; CDefault 20 VT; CFrom 21 VT 13 false; CMake 22 7 2 [21; 20];
  CFrom 23 VT 22 false; CMake 24 7 1 [23; 20]; CFrom 3 VT 24 false].
Definition tree2 : uval := UV (Some 2%Z) [(false, 1, loud5); (false, 0, UV (Some 1%Z) [])].
Definition tree1 : uval := UV (Some 1%Z) [(false, 2, tree2); (false, 0, UV (Some 1%Z) [])].
