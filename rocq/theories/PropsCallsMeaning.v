(** What programs with recursive functions do to the values of their variables (C73). The statements use
    CallsMeaningSpec.v; the proofs are in CallsMeaningFacts.v. *)
From stdpp Require Import base gmap list numbers.
From Coq Require Import ZArith Lia.
From Verif Require Import Base Types Variant Sem Values Client Observe Spec Trace History Reach Places PlacesSpec Programs ProgramsSpec PlacesAlikeSpec MeaningSpec Calls CallsSpec CallsMeaningSpec.
From Verif Require Import Check Samples Runs Scenes Link.
From Verif Require ObserveFacts PlacesFacts ProgramsFacts MeaningFacts CallsFacts CallsMeaningFacts.
From Verif Require Import PropsPrograms PropsMeaning PropsCalls.

(** *** C73: programs with recursive functions do to the values of their variables what [fmeans] says:
    in it, a function works on the values of its parameters, and no names but its own occur. *)
Theorem C73_meaning : forall C st eqf ltf, good_env C st true ->
  forall Φ sigs N, funcs_compile C st true sigs N Φ -> forall p (E : env) (K : kenv) s d n m σ κ,
  (forall x, is_Some (E !! x) \/ is_Some (K !! x) \/ fmentions p x -> x < N) ->
  fcompiles C st true sigs (bnd_ty <$> E) (dom K) p -> rreached C st true eqf ltf E K s ->
  shows C (mem s) E σ -> kshows (mem s) K κ ->
  match prun C n m eqf ltf (unroll Φ N d p) E K s with
  | PRet E' K' s' => E' = E /\ K' = K /\
      exists σ', shows C (mem s') E σ' /\ kshows (mem s') K κ /\ fmeans C eqf ltf Φ p σ None σ'
  | PExn e E' K' s' => E' = E /\ K' = K /\
      exists σ', shows C (mem s') E σ' /\ kshows (mem s') K κ /\ fmeans C eqf ltf Φ p σ (Some e) σ'
  | _ => True
  end.
Proof. exact CallsMeaningFacts.program_meaning. Qed.
(** The rule for recursive functions: what their bodies do if the calls in them do [S], is [S]; then the
    calls do [S]. *)
Theorem C73_rule : forall C eqf ltf Φ (S : nat -> astate -> option exn -> astate -> Prop),
  (forall f F σ0 r σ1, Φ !! f = Some F -> fmeans_with C eqf ltf Φ S (fn_body F) σ0 r σ1 -> S f σ0 r σ1) ->
  forall p σ r σ', fmeans C eqf ltf Φ p σ r σ' -> fmeans_with C eqf ltf Φ S p σ r σ'.
Proof. exact CallsMeaningFacts.recursive_rule. Qed.

(** *** Mirroring trees of any depth: mirror(x) ends, normally with the mirror image in [x], or by an
    exception; other variables keep their values in both cases. [u] is the type of the trees, with two
    members of the same variant type; the other types in it have no variants as members. *)
Theorem C73_mirror : forall C eqf ltf u tys, ut_members (te C u) = [tys; tys] ->
  (forall t, t ∈ tys -> ity_uid t <> u -> ut_members (te C (ity_uid t)) = []) -> forall st, good_env C st true ->
  forall N (E : env) (K : kenv) s x k d m, 32 <= N ->
  (forall y, is_Some (E !! y) \/ is_Some (K !! y) -> y < N) -> rreached C st true eqf ltf E K s ->
  sees C E s x tys k -> udepth k.2 < d ->
  exists s', rreached C st true eqf ltf E K s' /\
    (forall y tys' k', y <> x -> sees C E s y tys' k' -> sees C E s' y tys' k') /\
    (forall y u' v', sees_obj C E s y u' v' -> sees_obj C E s' y u' v') /\
    ((proceeds C eqf ltf (unroll [mirror_func u] N d (FCall 0 [x])) m E K s (PRet E K s') /\
      sees C E s' x tys (k.1, mirror_image k.2)) \/
     exists e, proceeds C eqf ltf (unroll [mirror_func u] N d (FCall 0 [x])) m E K s (PExn e E K s')).
Proof. exact CallsMeaningFacts.mirror_runs. Qed.

(** *** Examples *)
(** The hypotheses are those of C72: the tree of the scenes. Here is what mirroring it means. *)
Example C73_example_meaning : exists E s E' K' s' σ σ', rreached C1 true true eq0 lt0 E ∅ s /\
  (forall x, is_Some (E !! x) \/ is_Some ((∅ : kenv) !! x) \/ fmentions (FCall 0 [3]) x -> x < 50) /\
  fcompiles C1 true true [[TVar VT]] (bnd_ty <$> E) (dom (∅ : kenv)) (FCall 0 [3]) /\
  shows C1 (mem s) E σ /\ kshows (mem s) (∅ : kenv) ∅ /\
  prun C1 8 0 eq0 lt0 (unroll [mirror] 50 4 (FCall 0 [3])) E ∅ s = PRet E' K' s' /\
  is_var σ 3 VT (false, 2, tree1) /\ fmeans C1 eq0 lt0 [mirror] (FCall 0 [3]) σ None σ' /\ is_var σ' 3 VT (false, 2, mirrored).
Proof.
  destruct C72_example_mirror as (E&s&E'&K'&s'&Hr&HN&Hc&_&H3&_&Hrun&H3'&_).
  destruct (ProgramsFacts.looks C1 true true eq0 lt0 C1_good _ _ _ Hr) as (σ&κ&Hs&Hk&_).
  assert (Hκ : kshows (mem s) (∅ : kenv) ∅) by (intros x; done).
  pose proof (C73_meaning C1 true eq0 lt0 C1_good [mirror] _ 50 mirror_compiles (FCall 0 [3]) E ∅ s 4 8 0 σ ∅ HN Hc Hr Hs Hκ) as Hm.
  rewrite Hrun in Hm. destruct Hm as (->&->&σ'&Hs'&_&Hm). exists E, s, E, ∅, s', σ, σ'. split; [done|]. split; [done|]. split; [done|]. split; [done|]. split; [done|].
  split; [done|]. split; [by eapply seen|]. split; [done|]. by eapply seen.
Qed.
Example C73_example_mirror : ut_members (te C1 7) = [VT; VT] /\
  (forall t, t ∈ VT -> ity_uid t <> 7 -> ut_members (te C1 (ity_uid t)) = []) /\ good_env C1 true true /\
  mirror_func 7 = mirror /\ mirror_image tree1 = mirrored /\ mirror_image mirrored = tree1 /\ tree1 <> mirrored /\
  exists E s, (forall y, is_Some (E !! y) \/ is_Some ((∅ : kenv) !! y) -> y < 50) /\ rreached C1 true true eq0 lt0 E ∅ s /\
    sees C1 E s 3 VT (false, 2, tree1) /\ udepth tree1 < 4.
Proof.
  split; [by vm_compute|]. split. { intros t Ht. destruct (VT_cases t Ht) as [->|[->| ->]]; by vm_compute. }
  split; [exact C1_good|]. split; [done|]. split; [by vm_compute|]. split; [by vm_compute|]. split; [done|].
  destruct C72_example_mirror as (E&s&E'&K'&s'&Hr&HN&_&_&H3&Hd&_). exists E, s. split; [|done]. intros y [Hy|Hy]; apply HN; auto.
Qed.
(** The rule, for void f(T& x) { f(x); }: its calls do not return. *)
Example C73_example_rule : forall σ r σ', ~ fmeans C1 eq0 lt0 [endless] (FCall 0 [3]) σ r σ'.
Proof.
  intros σ r σ' H. apply (C73_rule _ _ _ _ (fun _ _ _ _ => False)) in H.
  - by inversion H.
  - intros [|f] F σ0 r0 σ1 HF Hb; [|done]. injection HF as <-. by inversion Hb.
Qed.

Definition PropsCallsMeaning_all := (C73_meaning, C73_rule, C73_mirror).
Print Assumptions PropsCallsMeaning_all.
