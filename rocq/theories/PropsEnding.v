(** Recursive functions over variants that need heap backups end (C77). The statements use EndingSpec.v; the proofs
    are in EndingFacts.v and AppendFacts.v. *)
From stdpp Require Import base gmap list numbers.
From Coq Require Import ZArith Lia.
From Verif Require Import Base Types Variant Sem Values Client Observe Spec Trace History Reach Places PlacesSpec Programs ProgramsSpec PlacesAlikeSpec MeaningSpec Calls CallsSpec CallsMeaningSpec BlameSpec TidySpec GuardsSpec EndingSpec.
From Verif Require Import Check Samples Runs Scenes Link.
From Verif Require ObserveFacts PlacesFacts ProgramsFacts EndingFacts AppendFacts.
From Verif Require Import PropsPrograms PropsMeaning PropsCalls PropsTidy PropsGuards.

(** [nb] = false: also for variants that may need a backup. *)
Section props.
Context (C : cfg) (st nb : bool) (eqf ltf : uid -> uval -> uval -> bool) (HC : good_env C st nb).
Context (Φ : list func) (sigs : list (list vty)) (N : nat) (HΦ : funcs_compile C st nb sigs N Φ) (HS : Forall structural_func Φ).
Notation rreached := (rreached C st nb eqf ltf).
Notation types := (fmap bnd_ty).

(** *** C77: structural recursion ends, whatever fails, if the functions have no try blocks and no content is in
    a backup at the beginning; and it does to values what it says. *)
Theorem C77_terminates : Forall (fun F => ftryless (fn_body F)) Φ -> forall p (E : env) (K : kenv) s σ κ,
  (forall x, is_Some (E !! x) \/ is_Some (K !! x) \/ fmentions p x -> x < N) -> ftryless p ->
  fcompiles C st nb sigs (types E) (dom K) p -> loopless p -> rreached E K s -> all_but C nobody E s ->
  shows C (mem s) E σ -> kshows (mem s) K κ ->
  exists d0 n0 r, (forall d n m, d0 <= d -> n0 <= n -> prun C n m eqf ltf (unroll Φ N d p) E K s = r) /\
    match r with
    | PRet E' K' s' => E' = E /\ K' = K /\ rreached E K s' /\ all_but C nobody E s' /\
        exists σ', shows C (mem s') E σ' /\ kshows (mem s') K κ /\ fmeans C eqf ltf Φ p σ None σ'
    | PExn e E' K' s' => E' = E /\ K' = K /\ rreached E K s' /\
        exists σ', shows C (mem s') E σ' /\ kshows (mem s') K κ /\ fmeans C eqf ltf Φ p σ (Some e) σ'
    | _ => False
    end.
Proof. intros HG p E K s σ κ. exact (EndingFacts.tryless_ends C st nb eqf ltf HC Φ sigs N HΦ HS p E K s σ κ HG). Qed.
(** With try blocks, while nothing fails. *)
Theorem C77_calm : forall p (E : env) (K : kenv) s σ κ,
  (forall x, is_Some (E !! x) \/ is_Some (K !! x) \/ fmentions p x -> x < N) ->
  fcompiles C st nb sigs (types E) (dom K) p -> loopless p -> rreached E K s -> calm_from s -> tidy C E K s ->
  shows C (mem s) E σ -> kshows (mem s) K κ ->
  exists d0 n0 r, (forall d n m, d0 <= d -> n0 <= n -> prun C n m eqf ltf (unroll Φ N d p) E K s = r) /\
    match r with
    | PRet E' K' s' => E' = E /\ K' = K /\ rreached E K s' /\ calm_from s' /\ tidy C E K s' /\
        exists σ', shows C (mem s') E σ' /\ kshows (mem s') K κ /\ fmeans C eqf ltf Φ p σ None σ'
    | PExn e E' K' s' => E' = E /\ K' = K /\ rreached E K s' /\ calm_from s' /\ tidy C E K s' /\ e = XBadGet /\
        exists σ', shows C (mem s') E σ' /\ kshows (mem s') K κ /\ fmeans C eqf ltf Φ p σ (Some e) σ'
    | _ => False
    end.
Proof. exact (EndingFacts.calm_ends C st nb eqf ltf HC Φ sigs N HΦ HS). Qed.
(** In general, if no operand is in a backup in the course of the run; with as many nested calls as variants are
    nested in the first argument. *)
Theorem C77_bound : forall f x xs (E : env) (K : kenv) s tys k d n m,
  (forall z, is_Some (E !! z) \/ is_Some (K !! z) \/ z ∈ x :: xs -> z < N) ->
  fcompiles C st nb sigs (types E) (dom K) (FCall f (x :: xs)) -> rreached E K s ->
  (forall c E' K' s', issues C n m eqf ltf (unroll Φ N d (FCall f (x :: xs))) E K s c E' K' s' ->
     rreached E' K' s' -> sources_unparked C E' s' c) ->
  sees C E s x tys k -> udepth k.2 < d ->
  prun C n m eqf ltf (unroll Φ N d (FCall f (x :: xs))) E K s <> PMore.
Proof. exact (EndingFacts.call_bound C st nb eqf ltf HC Φ sigs N HΦ HS). Qed.
End props.

(** Appending to a list of variants that need backups: the last element is replaced by the second list, at any
    length; or, if something fails, an exception. Neither changes anything else. *)
Theorem C77_append : forall C eqf ltf u tys, ut_members (te C u) = [tys] ->
  (forall t, t ∈ tys -> ity_uid t <> u -> ut_members (te C (ity_uid t)) = []) -> forall st nb, good_env C st nb ->
  forall N (E : env) (K : kenv) s x y k w d m, 32 <= N -> x <> y ->
  (forall z, is_Some (E !! z) \/ is_Some (K !! z) -> z < N) -> rreached C st nb eqf ltf E K s -> all_but C nobody E s ->
  sees C E s x tys k -> sees C E s y tys w -> udepth k.2 < d ->
  exists s', rreached C st nb eqf ltf E K s' /\
    (forall z tys' k', z <> x -> sees C E s z tys' k' -> sees C E s' z tys' k') /\
    (forall z u' v', sees_obj C E s z u' v' -> sees_obj C E s' z u' v') /\
    ((proceeds C eqf ltf (unroll [append_func u] N d (FCall 0 [x; y])) m E K s (PRet E K s') /\ all_but C nobody E s' /\
      sees C E s' x tys (append_image w k.1 k.2)) \/
     exists e, ~ (calm_from s /\ tidy C E K s) /\
      proceeds C eqf ltf (unroll [append_func u] N d (FCall 0 [x; y])) m E K s (PExn e E K s')).
Proof. exact AppendFacts.append_runs. Qed.

(** *** Examples *)
(** Lists of louds, whose variants need backups: 9 over loud 7, and 6 over loud 8. *)
Definition t_item := UTraits false false false false false DIUser false [[IPlain 3; IWrap 4]] None.
Definition C2 : cfg := table_cfg [t_int; t_blank; t_string; t_loud; t_item] t_int [] 20 false false.
Definition VI : list ity := [IPlain 3; IWrap 4].
Lemma C2_good : good_env C2 true false.
Proof. apply good_cfg_ok. by vm_compute. Qed.
Definition items : list cmd := [CMake 10 3 7 []; CFrom 11 VI 10 false; CMake 12 4 9 [11]; CFrom 1 VI 12 false;
  CMake 13 3 8 []; CFrom 14 VI 13 false; CMake 15 4 6 [14]; CFrom 2 VI 15 false].
Definition item9 : uval := UV (Some 9%Z) [(false, 0, UV (Some 7%Z) [])].
Definition item6 : uval := UV (Some 6%Z) [(false, 0, UV (Some 8%Z) [])].
Lemma C2_members : ut_members (te C2 4) = [VI] /\ (forall t, t ∈ VI -> ity_uid t <> 4 -> ut_members (te C2 (ity_uid t)) = []).
Proof. split; [done|]. intros t Ht. apply elem_of_cons in Ht as [->|Ht]; [done|]. apply elem_of_list_singleton in Ht as ->. done. Qed.
Lemma append_compiles : funcs_compile C2 true false [[TVar VI; TVar VI]] 50 [append_func 4].
Proof. destruct C2_members as [H1 H2]. apply (AppendFacts.append_types C2 eq0 lt0 4 VI H1 H2). lia. Qed.

(** If nothing fails, variable 1 becomes the list 9, 6, 8. If copying the 6 fails, the function ends by the
    exception, and the 7, the member of a member, is in a backup. *)
Example C77_example_append : exists E s E' K' s', rreached C2 true false eq0 lt0 E ∅ s /\ all_but C2 nobody E s /\
  calm_from s /\ tidy C2 E ∅ s /\ (forall z, is_Some (E !! z) \/ is_Some ((∅ : kenv) !! z) -> z < 50) /\
  sees C2 E s 1 VI (false, 1, item9) /\ sees C2 E s 2 VI (false, 1, item6) /\ udepth item9 < 3 /\
  prun C2 12 0 eq0 lt0 (unroll [append_func 4] 50 3 (FCall 0 [1; 2])) E ∅ s = PRet E' K' s' /\
  sees C2 E' s' 1 VI (append_image (false, 1, item6) (false, 1) item9) /\
  append_image (false, 1, item6) (false, 1) item9 = (false, 1, UV (Some 9%Z) [(false, 1, item6)]).
Proof.
  assert (H : exists E s, reached C2 true false eq0 lt0 E s /\ all_but C2 nobody E s /\ calm_from s /\ tidy C2 E ∅ s /\
  (forall z, is_Some (E !! z) -> z < 50) /\ sees C2 E s 1 VI (false, 1, item9) /\ sees C2 E s 2 VI (false, 1, item6) /\
  exists E' K' s', prun C2 12 0 eq0 lt0 (unroll [append_func 4] 50 3 (FCall 0 [1; 2])) E ∅ s = PRet E' K' s' /\
  sees C2 E' s' 1 VI (append_image (false, 1, item6) (false, 1) item9)).
  { run_state C2 true false calm items. split; [by_run|]. split; [apply tidyb_all; by vm_compute|]. split; [intros i _; by vm_compute|].
    split; [apply tidyb_ok; by vm_compute|].
    split. { intros x Hx. apply elem_of_dom in Hx. revert x Hx. apply (bool_decide_unpack _). by vm_compute. }
    split; [by_run|]. split; [by_run|].
    match goal with |- exists E1 K1 s1, ?r = _ /\ _ => destruct (after_ret r) as (KK&Hr) end; [by vm_compute|].
    eexists. exists KK. eexists. split; [exact Hr|]. clear Hr. by_run. }
  destruct H as (E&s&Hr&Hb&Hq&Ht&HN&H1&H2&E'&K'&s'&Hrun&H1'). exists E, s, E', K', s'. split; [by apply to_rreached|].
  do 3 (split; [done|]). split. { intros x [Hx|Hx]; [by apply HN|by destruct Hx]. }
  do 2 (split; [done|]). split; [by vm_compute; lia|]. done.
Qed.
Example C77_example_failed : exists E s e E' K' s', rreached C2 true false eq0 lt0 E ∅ s /\ all_but C2 nobody E s /\
  Forall structural_func [append_func 4] /\ Forall (fun F => ftryless (fn_body F)) [append_func 4] /\
  ftryless (FCall 0 [1; 2]) /\ loopless (FCall 0 [1; 2]) /\ funcs_compile C2 true false [[TVar VI; TVar VI]] 50 [append_func 4] /\
  fcompiles C2 true false [[TVar VI; TVar VI]] (bnd_ty <$> E) (dom (∅ : kenv)) (FCall 0 [1; 2]) /\
  prun C2 12 0 eq0 lt0 (unroll [append_func 4] 50 3 (FCall 0 [1; 2])) E ∅ s = PExn e E' K' s' /\
  sees C2 E' s' 1 VI (false, 1, UV (Some 9%Z) [(true, 0, UV (Some 7%Z) [])]) /\ sees C2 E' s' 2 VI (false, 1, item6).
Proof.
  assert (H : exists E s, reached C2 true false eq0 lt0 E s /\ all_but C2 nobody E s /\
  fcompiles C2 true false [[TVar VI; TVar VI]] (bnd_ty <$> E) (dom (∅ : kenv)) (FCall 0 [1; 2]) /\
  exists e E' K' s', prun C2 12 0 eq0 lt0 (unroll [append_func 4] 50 3 (FCall 0 [1; 2])) E ∅ s = PExn e E' K' s' /\
  sees C2 E' s' 1 VI (false, 1, UV (Some 9%Z) [(true, 0, UV (Some 7%Z) [])]) /\ sees C2 E' s' 2 VI (false, 1, item6)).
  { run_state C2 true false (throws_at [17]) items. split; [by_run|]. split; [apply tidyb_all; by vm_compute|].
    split. { exists [TVar VI; TVar VI]. split; [done|]. split; [apply (bool_decide_unpack _); by vm_compute|].
             constructor; [by vm_compute|constructor; [by vm_compute|constructor]]. }
    match goal with |- exists e E1 K1 s1, ?r = _ /\ _ => destruct (after_exn r) as (e&KK&Hr) end; [by vm_compute|].
    exists e. eexists. exists KK. eexists. split; [exact Hr|]. clear Hr. split; by_run. }
  destruct H as (E&s&Hr&Hb&Hc&e&E'&K'&s'&Hrun&H1&H2). exists E, s, e, E', K', s'. split; [by apply to_rreached|]. split; [done|].
  split; [apply AppendFacts.append_structure|]. split; [apply AppendFacts.append_tryless|]. do 2 (split; [done|]).
  split; [exact append_compiles|]. done.
Qed.

(** Without the condition on try blocks it is false: the same failure, caught; then 2 = 1 goes wrong. *)
Definition caught_prog : fprog := FSeq (FTry (FCall 0 [1; 2]) FSkip) (FDo (RMain (CAssign 2 1))).
Theorem C77_try_refuted : exists E s, rreached C2 true false eq0 lt0 E ∅ s /\ all_but C2 nobody E s /\
  (forall x, is_Some (E !! x) \/ is_Some ((∅ : kenv) !! x) \/ fmentions caught_prog x -> x < 50) /\
  fcompiles C2 true false [[TVar VI; TVar VI]] (bnd_ty <$> E) (dom (∅ : kenv)) caught_prog /\ loopless caught_prog /\
  funcs_compile C2 true false [[TVar VI; TVar VI]] 50 [append_func 4] /\ Forall structural_func [append_func 4] /\
  prun C2 12 0 eq0 lt0 (unroll [append_func 4] 50 3 caught_prog) E ∅ s = PWrong FAssert.
Proof.
  assert (H : exists E s, reached C2 true false eq0 lt0 E s /\ all_but C2 nobody E s /\ (forall z, is_Some (E !! z) -> z < 50) /\
  fcompiles C2 true false [[TVar VI; TVar VI]] (bnd_ty <$> E) (dom (∅ : kenv)) caught_prog /\
  prun C2 12 0 eq0 lt0 (unroll [append_func 4] 50 3 caught_prog) E ∅ s = PWrong FAssert).
  { run_state C2 true false (throws_at [17]) items. split; [by_run|]. split; [apply tidyb_all; by vm_compute|].
    split. { intros x Hx. apply elem_of_dom in Hx. revert x Hx. apply (bool_decide_unpack _). by vm_compute. }
    split; [|by vm_compute]. split; [split; [|done]|exists VI; split; by vm_compute].
    exists [TVar VI; TVar VI]. split; [done|]. split; [apply (bool_decide_unpack _); by vm_compute|].
    constructor; [by vm_compute|constructor; [by vm_compute|constructor]]. }
  destruct H as (E&s&Hr&Hb&HN&Hc&Hrun). exists E, s. split; [by apply to_rreached|]. split; [done|].
  split. { intros x [Hx|[Hx|[[Hx|Hx]|Hx]]]; [by apply HN|by destruct Hx|apply in_pair in Hx; lia|done|apply in_pair in Hx; lia]. }
  split; [done|]. split; [done|]. split; [exact append_compiles|]. split; [apply AppendFacts.append_structure|]. done.
Qed.

Definition PropsEnding_all := (C77_terminates, C77_calm, C77_bound, C77_append, C77_try_refuted).
Print Assumptions PropsEnding_all.
