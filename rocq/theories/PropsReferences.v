(** Variants with bounded reference types (C55). The statements use ReferencesSpec.v, Reach.v, and the
    model's functions only; the proofs are in ReferencesFacts.v. *)
From Coq.ssr Require Import ssreflect.
From Coq Require Import ZArith Lia.
From iris.prelude Require Import prelude.
From stdpp Require Import gmap list numbers.
From Verif Require Import Base Types Variant Sem Values Client Observe Spec History Reach References ReferencesSpec Samples Scenes Check Runs.
From Verif Require ReferencesFacts.

(** *** C55. Which alternative an operand goes to, and how it is passed. *)
Theorem C55_overloads : forall C tys u k u' q i,
  (exists o, chosen C tys u k = Some o /\ o_param o = way_param q u' /\ o_index o = i) <-> picks C tys u k u' q i.
Proof. exact ReferencesFacts.chosen_picks. Qed.
(** A reference to non-const is made from a non-const lvalue of that very type only. *)
Theorem C55_exact : forall C tys u k u' q i u0,
  picks C tys u k u' q i -> tys !! i = Some (RRef false u0) -> u0 = u /\ u' = u /\ k = LV false.
Proof. exact ReferencesFacts.ref_exact. Qed.
(** Without bounded references, all is as in the model of the other variants. *)
Theorem C55_no_references : forall C S tys a u s k st,
  rvar_from C S (map RInt tys) a u s k st =
  var_from C S tys a u s (match k with RV false => true | _ => false end) st.
Proof. exact ReferencesFacts.rvar_from_value. Qed.

(** Construction from an lvalue: the variant refers to the operand; nothing else happens. *)
Theorem C55_construct : forall C S tys a u l c i c' s, binds C tys u c i c' -> raw (mem s) a ->
  exists s', rvar_from C S tys a u l (LV c) s = Ok tt s' /\
    only_at s a (Cell KVar (Some (ORef u l)) (Some (Z.of_nat i))) (EvC (TRef u) a) s' /\
    refers_to (mem s') tys a i c' u l.
Proof. exact ReferencesFacts.rvar_from_ref. Qed.
(** Copying and moving: another variant that refers to the same object. *)
Theorem C55_copy : forall C S, 0 < lim C -> forall tys a b i c u l s,
  refers_to (mem s) tys b i c u l -> raw (mem s) a ->
  exists s', rvar_copy C S tys a b s = Ok tt s' /\ rvar_move C S tys a b s = Ok tt s' /\
    only_at s a (Cell KVar (Some (ORef u l)) (Some (Z.of_nat i))) (EvC (TRef u) a) s' /\
    refers_to (mem s') tys a i c u l /\ refers_to (mem s') tys b i c u l.
Proof. exact ReferencesFacts.rvar_copy_ref. Qed.
(** Destruction: the object is left alone. *)
Theorem C55_destroy : forall C S, 0 < lim C -> forall tys a i c u l s, refers_to (mem s) tys a i c u l ->
  exists s', rvar_destroy C S tys a s = Ok tt s' /\
    only_at s a (Cell KVar None (Some (Z.of_nat i))) (EvD (TRef u) a) s'.
Proof. exact ReferencesFacts.rvar_destroy_ref. Qed.
(** Visitation passes the object itself, const as the reference says, not as the variant is. *)
Theorem C55_visit : forall C, 0 < lim C -> forall A cvar tys a i c u l (f : bool -> uid -> loc -> M A) s,
  refers_to (mem s) tys a i c u l -> r_apply C cvar tys a f s = f c u l s.
Proof. exact (fun C HL A => @ReferencesFacts.r_apply_ref C HL A). Qed.
(** Of another alternative it passes the object in the variant or in the recursive_wrapper, const as the variant
    is; and another variant is constructed as from that object, const, lvalue or rvalue as the variant is. *)
Theorem C55_visit_value : forall C, 0 < lim C -> forall A cvar tys a i u l (f : bool -> uid -> loc -> M A) s,
  contains (mem s) tys a i u l -> r_apply C cvar tys a f s = f cvar u l s.
Proof. exact (fun C HL A => @ReferencesFacts.r_apply_value C HL A). Qed.
Theorem C55_convert_value : forall C S, 0 < lim C -> forall tys a tys' b i u l k s, contains (mem s) tys' b i u l ->
  rvar_convert C S tys a tys' b k s = rvar_from C S tys a u l k s.
Proof. exact ReferencesFacts.rvar_convert_value. Qed.
(** Construction of another variant from an lvalue: as from the object, as an lvalue. *)
Theorem C55_convert : forall C S, 0 < lim C -> forall tys a tys' b cvar i c u l s, refers_to (mem s) tys' b i c u l ->
  rvar_convert C S tys a tys' b (LV cvar) s = rvar_from C S tys a u l (LV c) s.
Proof. exact ReferencesFacts.rvar_convert_lv. Qed.
(** From an rvalue: as from the object, as an rvalue! *)
Theorem C55_convert_rvalue : forall C S, 0 < lim C -> forall tys a tys' b i u l s, refers_to (mem s) tys' b i false u l ->
  rvar_convert C S tys a tys' b (RV false) s = rvar_from C S tys a u l (RV false) s.
Proof. exact ReferencesFacts.rvar_convert_rv. Qed.
(** A const object is not moved from. *)
Theorem C55_convert_const : forall C S, 0 < lim C -> forall tys a tys' b i u l s, refers_to (mem s) tys' b i true u l ->
  rvar_convert C S tys a tys' b (RV false) s = rvar_from C S tys a u l (LV true) s.
Proof. exact ReferencesFacts.rvar_convert_const. Qed.

(** Whole programs. Commands on variants without references work as ever, and leave all references
    as they are, wherever the objects are. *)
Theorem C55_commands : forall C S st nb eqf ltf orc h E R s c, good_env C st nb ->
  mixed C S st nb eqf ltf orc h E R s -> admissible C st nb E s c ->
  exists E' o s' σ σ', yields C eqf ltf c E s (Done E' o s') /\
    shows C (mem s) E σ /\ shows C (mem s') E' σ' /\ astep C eqf ltf σ c o σ' /\
    forall x c' u l, points R s x c' u l <-> points R s' x c' u l.
Proof. exact (fun C S st nb eqf ltf orc h E R s c HC => ReferencesFacts.mixed_cmd_ok C S st nb HC eqf ltf orc h E R s c). Qed.
(** Commands on variants with references neither fail nor disturb anything. *)
Theorem C55_undisturbed : forall C S st nb eqf ltf orc h E R s c, good_env C st nb ->
  mixed C S st nb eqf ltf orc h E R s -> permitted C R s c ->
  exists R' s', rexec C S c R s = Ok R' s' /\ undisturbed C E s s'.
Proof. exact (fun C S st nb eqf ltf orc h E R s c HC => ReferencesFacts.mixed_ref_ok C S st nb HC eqf ltf orc h E R s c). Qed.
(** Every variable refers to something; to what, its origin says. *)
Theorem C55_variables : forall C S st nb eqf ltf orc h E R s x, good_env C st nb ->
  mixed C S st nb eqf ltf orc h E R s -> is_Some (R !! x) -> exists c u l, points R s x c u l.
Proof. exact (fun C S st nb eqf ltf orc h E R s x HC => ReferencesFacts.mixed_points C S st nb HC eqf ltf orc h E R s x). Qed.
Theorem C55_new : forall C S st nb eqf ltf orc h E R s x tys u l c R' s' i c', good_env C st nb ->
  mixed C S st nb eqf ltf orc h E R s -> R !! x = None -> binds C tys u c i c' ->
  rexec C S (RNew x tys u l c) R s = Ok R' s' ->
  points R' s' x c' u l /\ forall z c0 u0 l0, z <> x -> points R s z c0 u0 l0 <-> points R' s' z c0 u0 l0.
Proof. exact (fun C S st nb eqf ltf orc h E R s x tys u l c R' s' i c' HC => ReferencesFacts.mixed_new C S st nb HC eqf ltf orc h E R s x tys u l c R' s' i c'). Qed.
Theorem C55_same : forall C S st nb eqf ltf orc h E R s x y mv R' s' c u l, good_env C st nb ->
  mixed C S st nb eqf ltf orc h E R s -> R !! x = None -> points R s y c u l ->
  rexec C S (RCopy x y mv) R s = Ok R' s' ->
  points R' s' x c u l /\ forall z c0 u0 l0, z <> x -> points R s z c0 u0 l0 <-> points R' s' z c0 u0 l0.
Proof. exact (fun C S st nb eqf ltf orc h E R s x y mv R' s' c u l HC => ReferencesFacts.mixed_copy C S st nb HC eqf ltf orc h E R s x y mv R' s' c u l). Qed.
Theorem C55_drop : forall C S st nb eqf ltf orc h E R s x R' s', good_env C st nb ->
  mixed C S st nb eqf ltf orc h E R s -> is_Some (R !! x) -> rexec C S (RDrop x) R s = Ok R' s' ->
  R' !! x = None /\ forall z c0 u0 l0, z <> x -> points R s z c0 u0 l0 <-> points R' s' z c0 u0 l0.
Proof. exact (fun C S st nb eqf ltf orc h E R s x R' s' HC => ReferencesFacts.mixed_drop C S st nb HC eqf ltf orc h E R s x R' s'). Qed.

(** ** Samples: variant<string&, const loud&, int>; object 10 is a string 7, object 13 loud 5. *)
Definition TR : list rty := [RRef false 2; RRef true 3; RInt (IPlain 0)].
Definition S8 : usem := sem C0 8.
Definition s_obj : state := state_of C0 true false 8 8 eq0 lt0 calm objects.
Definition e_obj : env := env_of C0 true false 8 8 eq0 lt0 calm objects.
Definition l_str : loc := match e_obj !! 10 with Some (BObj _ l) => l | _ => xH end.
Definition l_loud : loc := match e_obj !! 13 with Some (BObj _ l) => l | _ => xH end.
Definition after {A} (d : A) (r : res A) : A * state := match r with Ok a s => (a, s) | _ => (d, s_obj) end.
Definition one : renv * state := after ∅ (rexec C0 S8 (RNew 1 TR 2 l_str false) ∅ s_obj).

Lemma picks_sample C tys u k u' q i :
  match chosen C tys u k with Some o => bool_decide (o_param o = way_param q u') && bool_decide (o_index o = i) | None => false end = true ->
  picks C tys u k u' q i.
Proof.
  intros H. apply C55_overloads. destruct (chosen C tys u k) as [o|]; [|done].
  apply andb_true_iff in H as [H1%bool_decide_eq_true H2%bool_decide_eq_true]. by exists o.
Qed.
Lemma binds_string : binds C0 TR 2 false 0 false.
Proof. split; [|done]. exists ByRef. apply picks_sample. by vm_compute. Qed.
Lemma start_mixed : exists h, mixed C0 S8 true false eq0 lt0 calm h e_obj ∅ s_obj.
Proof.
  unfold s_obj, e_obj, state_of, env_of, run_of.
  destruct (checked C0 true false 8 8 eq0 lt0 objects ∅ (init calm)) as [[[E s] os]|] eqn:Hc; [|by vm_compute in Hc].
  eexists. eapply ReferencesFacts.history_mixed. by eapply checked_start.
Qed.
Lemma value_sample C s l u v :
  match mem s !! l with Some x => match cc x with Some o => see_obj C (mem s) 8 u o | None => None end | None => None end = Some v ->
  value_at C s l u v.
Proof. destruct (mem s !! l) as [x|] eqn:Hx; [|done]. destruct (cc x) as [o|] eqn:Ho; [|done]. intros H. by exists x, o, 8. Qed.
Definition ref_addr (R : renv) (x : name) : loc := match R !! x with Some (_, b) => b | None => xH end.
Lemma string_there : value_at C0 s_obj l_str 2 str7.
Proof. apply value_sample. by vm_compute. Qed.
Lemma one_runs : rexec C0 S8 (RNew 1 TR 2 l_str false) ∅ s_obj = Ok one.1 one.2.
Proof. by vm_compute. Qed.
Lemma one_permitted : permitted C0 ∅ s_obj (RNew 1 TR 2 l_str false).
Proof. split; [done|]. split; [exists 0, false; apply binds_string|exists str7; apply string_there]. Qed.
Lemma one_mixed : exists h, mixed C0 S8 true false eq0 lt0 calm h e_obj one.1 one.2.
Proof. destruct start_mixed as [h Hh]. eexists. eapply mixed_ref; [exact Hh|apply one_permitted|apply one_runs]. Qed.

Example C55_overloads_ex :
  (* string lvalue: string&; const string: no alternative; a loud, const or not: const loud& *)
  picks C0 TR 2 (LV false) 2 ByRef 0 /\ chosen C0 TR 2 (LV true) = None /\
  picks C0 TR 3 (LV false) 3 ByCRef 1 /\ picks C0 TR 3 (RV false) 3 ByCRef 1 /\
  (* an alternative for the values of the type gets the rvalues only *)
  picks C0 [RInt (IPlain 2); RRef false 2; RRef true 2] 2 (LV false) 2 ByRef 1 /\
  picks C0 [RInt (IPlain 2); RRef false 2; RRef true 2] 2 (LV true) 2 ByCRef 2 /\
  picks C0 [RInt (IPlain 2); RRef false 2; RRef true 2] 2 (RV false) 2 ByRRef 0 /\
  (* an int converts to a string, not to a string& *)
  picks C0 [RRef false 2; RRef true 2] 0 (LV false) 2 ByCRef 1.
Proof. repeat split; try by vm_compute. all: apply picks_sample; by vm_compute. Qed.
Example C55_construct_ex : exists s a, binds C0 TR 2 false 0 false /\ raw (mem s) a.
Proof.
  exists (after xH (new_cell KVar s_obj)).2, (after xH (new_cell KVar s_obj)).1. split; [apply binds_string|by vm_compute].
Qed.
(** variant<const loud&, string> from the string: it contains one. Converting it to variant<string&> is possible if it
    is a non-const lvalue; then that refers into the variant. *)
Definition TV : list rty := [RRef true 3; RInt (IPlain 2)].
Definition a_val : loc := (after xH (new_cell KVar s_obj)).1.
Definition s_val : state := (after tt (rvar_from C0 S8 TV a_val 2 l_str (LV false) (after xH (new_cell KVar s_obj)).2)).2.
Definition b_val : loc := (after xH (new_cell KVar s_val)).1.
Definition s_val2 : state := (after xH (new_cell KVar s_val)).2.
Example C55_value_ex : contains (mem s_val2) TV a_val 1 2 a_val /\ 0 < lim C0 /\
  refers_to (mem (after tt (rvar_convert C0 S8 [RRef false 2] b_val TV a_val (LV false) s_val2)).2) [RRef false 2] b_val 0 false 2 a_val /\
  rvar_convert C0 S8 [RRef false 2] b_val TV a_val (LV true) s_val2 = Fault FIllTyped.
Proof.
  split; [eexists; split; [by vm_compute|left; by vm_compute]|]. split; [vm_compute; lia|]. split; by vm_compute.
Qed.
Example C55_refers_ex : exists a, refers_to (mem one.2) TR a 0 false 2 l_str /\ 0 < lim C0 /\
  (exists s b, refers_to (mem s) TR a 0 false 2 l_str /\ raw (mem s) b).
Proof.
  exists (ref_addr one.1 1). split; [by vm_compute|]. split; [vm_compute; lia|].
  exists (after xH (new_cell KVar one.2)).2, (after xH (new_cell KVar one.2)).1. split; by vm_compute.
Qed.
Example C55_refers_const_ex : exists R s, rexec C0 S8 (RNew 1 TR 3 l_loud true) ∅ s_obj = Ok R s /\
  refers_to (mem s) TR (ref_addr R 1) 1 true 3 l_loud /\ value_at C0 s l_loud 3 loud5.
Proof.
  set (r := after ∅ (rexec C0 S8 (RNew 1 TR 3 l_loud true) ∅ s_obj)). exists r.1, r.2. split; [by vm_compute|].
  split; [by vm_compute|apply value_sample; by vm_compute].
Qed.
Example C55_programs_ex : exists h E R s R' s' R'' s'',
  good_env C0 true false /\ mixed C0 S8 true false eq0 lt0 calm h E R s /\ points R s 1 false 2 l_str /\
  value_at C0 s l_str 2 str7 /\
  permitted C0 R s (RCopy 2 1 true) /\ rexec C0 S8 (RCopy 2 1 true) R s = Ok R' s' /\
  permitted C0 R' s' (RDrop 1) /\ rexec C0 S8 (RDrop 1) R' s' = Ok R'' s'' /\ points R'' s'' 2 false 2 l_str /\
  admissible C0 true false E s (CDrop 10).
Proof.
  destruct one_mixed as [h Hh]. exists h, e_obj, one.1, one.2.
  set (two := after ∅ (rexec C0 S8 (RCopy 2 1 true) one.1 one.2)). set (three := after ∅ (rexec C0 S8 (RDrop 1) two.1 two.2)).
  exists two.1, two.2, three.1, three.2. split; [apply C0_good|]. split; [done|].
  split. { exists TR, (ref_addr one.1 1), 0. split; by vm_compute. }
  split. { apply value_sample. by vm_compute. }
  split. { split; [by vm_compute|]. exists (TR, ref_addr one.1 1). by vm_compute. }
  split; [by vm_compute|]. split. { exists (TR, ref_addr two.1 1). by vm_compute. } split; [by vm_compute|].
  split. { exists TR, (ref_addr three.1 2), 0. split; by vm_compute. }
  apply (nextb_ok C0 true false 8 8). by vm_compute.
Qed.

(** Refuted: construction from an rvalue variant leaves the objects it refers to alone. The string
    is moved out of, though nobody gave it away. *)
Definition moved : loc * state :=
  after xH (local_variant (fun a => rvar_convert C0 S8 [RInt (IPlain 2)] a TR (ref_addr one.1 1) (RV false)) one.2).
Theorem C55_convert_move_refuted : exists C S h E R s x tys b l v a s',
  mixed C S true false eq0 lt0 calm h E R s /\ R !! x = Some (tys, b) /\ points R s x false 2 l /\
  value_at C s l 2 v /\
  local_variant (fun a => rvar_convert C S [RInt (IPlain 2)] a tys b (RV false)) s = Ok a s' /\
  ~ value_at C s' l 2 v.
Proof.
  destruct one_mixed as [h Hh]. exists C0, S8, h, e_obj, one.1, one.2, 1, TR, (ref_addr one.1 1), l_str, str7, moved.1, moved.2.
  split; [done|]. split; [by vm_compute|]. split. { exists TR, (ref_addr one.1 1), 0. split; by vm_compute. }
  split. { apply value_sample. by vm_compute. }
  split; [by vm_compute|]. intros (x&o&n&Hx&Ho&Hs). vm_compute in Hx. injection Hx as <-. injection Ho as <-.
  destruct n; [done|]. by vm_compute in Hs.
Qed.
(** Refuted: a variant constructed from an object that lives on can be read. If the object is
    converted, the const reference refers to a temporary that is gone. *)
Definition with_int : list cmd := [CMake 10 0 3 []].
Definition s_int : state := state_of C0 true false 8 8 eq0 lt0 calm with_int.
Definition e_int : env := env_of C0 true false 8 8 eq0 lt0 calm with_int.
Definition l_int : loc := match e_int !! 10 with Some (BObj _ l) => l | _ => xH end.
Definition dangling : loc * state := after xH (local_variant (fun a => rvar_from C0 S8 [RRef true 2] a 0 l_int (LV false)) s_int).
Definition l_gone : loc := match mem dangling.2 !! dangling.1 with Some (Cell _ (Some (ORef _ p)) _) => p | _ => xH end.
Theorem C55_dangling_refuted : exists C S E s l v tys a s' l',
  reached C true false eq0 lt0 E s /\ value_at C s l 0 v /\ picks C tys 0 (LV false) 2 ByCRef 0 /\
  local_variant (fun a => rvar_from C S tys a 0 l (LV false)) s = Ok a s' /\ value_at C s' l 0 v /\
  refers_to (mem s') tys a 0 true 2 l' /\ mem s' !! l' = None /\
  r_apply C false tys a (fun _ _ p => get_obj p) s' = Fault FDeadObject.
Proof.
  exists C0, S8, e_int, s_int, l_int, (UV (Some 3%Z) []), [RRef true 2], dangling.1, dangling.2, l_gone.
  split; [apply runs_reached; by vm_compute|]. split; [apply value_sample; by vm_compute|]. split; [apply picks_sample; by vm_compute|].
  split; [by vm_compute|]. split; [apply value_sample; by vm_compute|]. repeat split; by vm_compute.
Qed.

Definition PropsReferences_all :=
  (C55_overloads, C55_exact, C55_no_references, C55_construct, C55_copy, C55_destroy, C55_visit, C55_visit_value, C55_convert_value, C55_convert, C55_convert_rvalue, C55_convert_const,
   C55_commands, C55_undisturbed, C55_variables, C55_new, C55_same, C55_drop, C55_convert_move_refuted, C55_dangling_refuted).
Print Assumptions PropsReferences_all.
