(** Queries of variants with bounded reference types (C79). The statements use RefQueriesSpec.v, ReferencesSpec.v and the
    model's functions only; the proofs are in RefQueriesFacts.v. *)
From Coq.ssr Require Import ssreflect.
From Coq Require Import ZArith Lia.
From iris.prelude Require Import prelude.
From stdpp Require Import gmap list numbers.
From Verif Require Import Base Types Variant Sem Values Client Observe Spec History Reach References ReferencesSpec Ask RefQueries RefQueriesSpec.
From Verif Require Import Samples Scenes Check Runs.
From Verif Require RefQueriesFacts PropsReferences.

(** *** C79. get finds the object that the variant refers to, or contains, if it has the type asked for; a const object
    only if a const one is asked for, or the variant is const. Nothing happens. *)
Theorem C79_get : forall C, 0 < lim C -> forall cvar tys a i c u l cu u' s, gives (mem s) cvar tys a i c u l ->
  exists p, r_get C cvar tys a cu u' s = Ok p s /\
    forall l', p = Some l' <-> l' = l /\ u' = u /\ (c = true -> cu = true \/ cvar = true).
Proof. exact RefQueriesFacts.get_gives. Qed.
(** The form that returns a reference throws bad_get if there is none. *)
Theorem C79_get_ref : forall C, 0 < lim C -> forall cvar tys a i c u l cu u' s, gives (mem s) cvar tys a i c u l ->
  (u' = u /\ (c = true -> cu = true \/ cvar = true) -> r_get_ref C cvar tys a cu u' s = Ok l s) /\
  (~ (u' = u /\ (c = true -> cu = true \/ cvar = true)) -> r_get_ref C cvar tys a cu u' s = throw XBadGet s).
Proof. exact RefQueriesFacts.get_ref_gives. Qed.
(** type() is the object's type. *)
Theorem C79_type : forall C, 0 < lim C -> forall tys a i c u l s, gives (mem s) true tys a i c u l -> r_type C tys a s = Ok u s.
Proof. exact RefQueriesFacts.type_gives. Qed.
(** Comparison: of the alternatives, then of the objects, wherever they are; left and right remain so. *)
Theorem C79_equal : forall C S, 0 < lim C -> forall tys cmp a i c u l b j c' u' l' s,
  gives (mem s) true tys a i c u l -> gives (mem s) true tys b j c' u' l' ->
  (i <> j -> r_eq C S tys cmp a b s = Ok false s) /\ (i = j -> r_eq C S tys cmp a b s = compared S cmp u l l' s).
Proof. exact RefQueriesFacts.eq_gives. Qed.
Theorem C79_less : forall C S, 0 < lim C -> forall tys cmp a i c u l b j c' u' l' s,
  gives (mem s) true tys a i c u l -> gives (mem s) true tys b j c' u' l' ->
  (i < j -> r_lt C S tys cmp a b s = Ok true s) /\ (j < i -> r_lt C S tys cmp a b s = Ok false s) /\
  (i = j -> r_lt C S tys cmp a b s = compared S cmp u l l' s).
Proof. exact RefQueriesFacts.lt_gives. Qed.
(** In programs, for variants that refer to objects with names: comparison is of the values that these have. *)
Theorem C79_programs : forall C st nb, good_env C st nb -> forall S eqf ltf orc h E R s tys a b i j c c' u u' l l' z w v v' cmp,
  mixed C S st nb eqf ltf orc h E R s ->
  refers_to (mem s) tys a i c u l -> refers_to (mem s) tys b j c' u' l' ->
  E !! z = Some (BObj u l) -> sees_obj C E s z u v -> E !! w = Some (BObj u' l') -> sees_obj C E s w u' v' ->
  exists e t, says (fun n => r_eq C (sem C n) tys cmp a b) s e /\ says (fun n => r_lt C (sem C n) tys cmp a b) s t /\
    (e = true <-> i = j /\ cmp u v v' = true) /\ (t = true <-> i < j \/ i = j /\ cmp u v v' = true).
Proof. exact RefQueriesFacts.programs. Qed.

(** ** Samples: variables 1 and 2 are variant<string&, const loud&, int>; 1 refers to object 10, a string 7, and 2 to
    object 13, loud 5. *)
Definition TR : list rty := [RRef false 2; RRef true 3; RInt (IPlain 0)].
Definition S8 : usem := sem C0 8.
Definition s_obj : state := state_of C0 true false 8 8 eq0 lt0 calm objects.
Definition e_obj : env := env_of C0 true false 8 8 eq0 lt0 calm objects.
Definition l_str : loc := match e_obj !! 10 with Some (BObj _ l) => l | _ => xH end.
Definition l_loud : loc := match e_obj !! 13 with Some (BObj _ l) => l | _ => xH end.
Definition after {A} (d : A) (r : res A) : A * state := match r with Ok a s => (a, s) | _ => (d, s_obj) end.
Definition both : renv * state :=
  after ∅ (rexecs C0 S8 [RNew 1 TR 2 l_str false; RNew 2 TR 3 l_loud false; RCopy 3 1 false] ∅ s_obj).
Definition addr (x : name) : loc := match both.1 !! x with Some (_, b) => b | None => xH end.

(** Not so: that get finds in a variant what it finds in the variant as const. A variant<..., const loud&, ...> that
    refers to a loud: get<loud> finds it if the variant is const, and gives null if not. *)
Theorem C79_const_refuted : exists C tys a u l s, refers_to (mem s) tys a 1 true u l /\
  r_get C true tys a false u s = Ok (Some l) s /\ r_get C false tys a false u s = Ok None s.
Proof. exists C0, TR, (addr 2), 3, l_loud, both.2. split; [split; by vm_compute|]. split; by vm_compute. Qed.

Example C79_ex : 0 < lim C0 /\ gives (mem both.2) false TR (addr 1) 0 false 2 l_str /\ gives (mem both.2) true TR (addr 1) 0 false 2 l_str /\
  gives (mem both.2) true TR (addr 2) 1 true 3 l_loud /\ gives (mem both.2) true TR (addr 3) 0 false 2 l_str.
Proof. split; [vm_compute; lia|]. do 3 (split; [left; split; by vm_compute|]). left; split; by vm_compute. Qed.
Example C79_runs_ex : r_get C0 false TR (addr 1) false 2 both.2 = Ok (Some l_str) both.2 /\ r_get C0 true TR (addr 1) false 3 both.2 = Ok None both.2 /\
  r_type C0 TR (addr 2) both.2 = Ok 3 both.2 /\
  r_eq C0 S8 TR eq0 (addr 1) (addr 3) both.2 = Ok true both.2 /\ r_eq C0 S8 TR eq0 (addr 1) (addr 2) both.2 = Ok false both.2 /\
  r_lt C0 S8 TR lt0 (addr 1) (addr 2) both.2 = Ok true both.2 /\ r_lt C0 S8 TR lt0 (addr 1) (addr 3) both.2 = Ok false both.2 /\
  r_get_ref C0 false TR (addr 2) false 3 both.2 = throw XBadGet both.2 /\ r_get_ref C0 false TR (addr 2) true 3 both.2 = Ok l_loud both.2.
Proof. do 8 (split; [by vm_compute|]). by vm_compute. Qed.
(** Variables 1 and 3 refer to the same string. *)
Definition copied : renv * state := after ∅ (rexec C0 S8 (RCopy 3 1 false) PropsReferences.one.1 PropsReferences.one.2).
Definition caddr (x : name) : loc := match copied.1 !! x with Some (_, b) => b | None => xH end.
Example C79_programs_ex : exists h, mixed C0 S8 true false eq0 lt0 calm h e_obj copied.1 copied.2 /\ good_env C0 true false /\
  refers_to (mem copied.2) TR (caddr 1) 0 false 2 l_str /\ refers_to (mem copied.2) TR (caddr 3) 0 false 2 l_str /\
  e_obj !! 10 = Some (BObj 2 l_str) /\ sees_obj C0 e_obj copied.2 10 2 str7.
Proof.
  destruct PropsReferences.one_mixed as [h Hh]. eexists. split.
  { eapply (mixed_ref _ _ _ _ _ _ _ _ _ _ _ (RCopy 3 1 false)); [exact Hh| |].
    - split; [by vm_compute|]. exists (TR, PropsReferences.ref_addr PropsReferences.one.1 1). by vm_compute.
    - by vm_compute. }
  split; [apply C0_good|]. split; [split; by vm_compute|]. split; [split; by vm_compute|]. split; [by vm_compute|]. by_run.
Qed.

Definition PropsRefQueries_all := (C79_get, C79_get_ref, C79_type, C79_equal, C79_less, C79_programs, C79_const_refuted).
Print Assumptions PropsRefQueries_all.
