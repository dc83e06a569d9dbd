(** Proofs behind the properties of single operations. *)
From stdpp Require Import gmap.
From iris.proofmode Require Import tactics.
From Verif Require Import Base Types TypesFacts Dispatch Variant Sem Values ValuesFacts Client Observe ObserveFacts Spec Trace TraceFacts History Owned OwnedFacts.
From Verif Require Import Heap Wp Rep Link World ClientProof Levels HistoryProof Reach ReachFacts Raises ReadOnly CoreFacts LifeFacts.

Section ops.
Context (C : cfg) (st nb : bool) (eqf ltf : uid -> uval -> uval -> bool).
Context (HC : good_env C st nb).
Notation reached := (reached C st nb eqf ltf).
Notation step := (step C st nb eqf ltf).
Notation yields := (yields C eqf ltf).
Notation admissible := (admissible C st nb).
Notation sees := (sees C).
Notation sees_obj := (sees_obj C).
Notation same_at := (same_at C).

(** A step with its abstract states; the command was typed in the first. *)
Lemma step_open c E s E' o s' : step c E s E' o s' ->
  exists σ σ' D, shows C (mem s) E σ /\ shows C (mem s') E' σ' /\ Spec.astep C eqf ltf σ c o σ' /\
    typed C st nb D σ c /\ unparked C σ c.
Proof.
  intros H. destruct (step_spec _ _ _ _ _ HC _ _ _ _ _ _ H) as (σ&σ'&Hs&Hs'&Ha&_).
  destruct H as (_&(D&σ0&Hs0&Ht&Hu)&_). rewrite (shows_unique _ _ _ _ _ Hs0 Hs) in Ht Hu. by exists σ, σ', D.
Qed.

Lemma same_all E s E' s' σ : shows C (mem s) E σ -> shows C (mem s') E' σ -> E' = E -> forall z, same_at E s E' s' z.
Proof. intros Hs Hs' -> z. by eapply shows_same. Qed.

Ltac op_inv H :=
  let Ha := fresh "Ha" in
  destruct (step_open _ _ _ _ _ _ H) as (σ&σ'&D&Hs&Hs'&Ha&Hty&Hun);
  repeat match goal with
    | Hx : sees _ _ _ _ _ |- _ => apply (sees_is_var _ _ _ _ _ _ _ Hs) in Hx
    | Hx : sees_obj _ _ _ _ _ |- _ => apply (sees_obj_is_obj _ _ _ _ _ _ _ Hs) in Hx
    end;
  simpl in Hty, Hun; inversion Ha; subst; clear Ha; unfold is_var, is_obj in *;
  repeat match goal with H : exists _, _ |- _ => destruct H | H : _ /\ _ |- _ => destruct H end;
  simplify_map_eq;
  repeat match goal with
    | H1 : σ !! ?x = None, H2 : σ !! ?y = Some _ |- _ =>
        lazymatch goal with _ : x <> y |- _ => fail | _ => assert (x <> y) by (intros ->; congruence) end
    | H1 : σ !! ?x = Some (AVar _ _), H2 : σ !! ?y = Some (AObj _ _) |- _ =>
        lazymatch goal with _ : x <> y |- _ => fail | _ => assert (x <> y) by (intros ->; congruence) end
    end.
Ltac look := simplify_map_eq; repeat first
  [ rewrite lookup_insert | rewrite lookup_insert_ne; [|first [done | by apply not_eq_sym | by intros ->]] ]; first [done|congruence].
Ltac see := first [ eapply is_var_sees; [eassumption|]; unfold is_var; look
                  | eapply is_obj_sees; [eassumption|]; unfold is_obj; look ].
Ltac thr H := match type of H with step _ _ _ _ (OThrew _) _ => destruct H as (_&_&H); apply yields_throw in H; subst end.

(** ** Construction *)
Lemma copy_done x y E s E' s' tys k : step (CCopy x y) E s E' ODone s' -> sees E s y tys k ->
  sees E' s' x tys (erasev k) /\ sees E' s' y tys k.
Proof. intros H Hy. op_inv H. split; see. Qed.
Lemma copy_threw x y E s E' e s' tys k : step (CCopy x y) E s E' (OThrew e) s' -> sees E s y tys k ->
  E' = E /\ (forall z, same_at E s E' s' z) /\ exists t, tys !! k.1.2 = Some t /\ ~ nothrow_copy C t.
Proof.
  intros H Hy. op_inv H. thr H. split; [done|]. split; [by eapply same_all|]. eauto.
Qed.

Lemma move_done x y E s E' s' tys k : step (CMove x y) E s E' ODone s' -> sees E s y tys k ->
  sees E' s' x tys (erasev k) /\ exists v', sees E' s' y tys (k.1, v') /\ skel v' = skel k.2.
Proof. intros H Hy. op_inv H. split; [see|]. eexists. split; [see|done]. Qed.
Lemma move_threw x y E s E' e s' tys k : step (CMove x y) E s E' (OThrew e) s' -> sees E s y tys k ->
  E' = E /\ (exists v', sees E' s' y tys (k.1, v') /\ skel v' = skel k.2) /\
  exists t, tys !! k.1.2 = Some t /\ ~ nothrow_move C t.
Proof.
  intros H Hy. op_inv H. thr H. split; [done|]. split; [|by eauto]. eexists. split; [see|done].
Qed.

Lemma default_done x tys E s E' s' : step (CDefault x tys) E s E' ODone s' ->
  exists t r d v, tys = t :: r /\ idefval C d t = Some v /\ sees E' s' x tys (false, 0, v).
Proof. intros H. op_inv H. do 4 eexists. split; [done|]. split; [done|]. see. Qed.
Lemma default_plain x u r E s E' s' : step (CDefault x (IPlain u :: r)) E s E' ODone s' ->
  ut_members (te C u) = [] -> sees E' s' x (IPlain u :: r) (false, 0, UV (Some (dv C u)) []).
Proof.
  intros H Hm. destruct (default_done _ _ _ _ _ _ H) as (t&r'&d&v&[= <- <-]&Hd&Hx).
  destruct d as [|d]; [done|]. simpl in Hd. rewrite Hm /= in Hd. by injection Hd as <-.
Qed.
Lemma default_threw x tys E s E' e s' : step (CDefault x tys) E s E' (OThrew e) s' ->
  E' = E /\ (forall z, same_at E s E' s' z) /\ exists t r, tys = t :: r /\ ~ nothrow_default C t.
Proof. intros H. op_inv H. thr H. split; [done|]. split; [by eapply same_all|]. eauto. Qed.

Lemma from_done x tys y mv E s E' s' u v : step (CFrom x tys y mv) E s E' ODone s' -> sees_obj E s y u v ->
  exists i t v', best_match C tys u i /\ tys !! i = Some t /\
    sees E' s' x tys (false, i, converted C u (ity_uid t) v) /\
    sees_obj E' s' y u v' /\ operand_after mv v v'.
Proof.
  intros H Hy. op_inv H. do 3 eexists. split; [done|]. split; [done|]. split; [see|]. split; [|done].
  see.
Qed.
Lemma from_threw x tys y mv E s E' e s' u v : step (CFrom x tys y mv) E s E' (OThrew e) s' -> sees_obj E s y u v ->
  E' = E /\ (exists v', sees_obj E' s' y u v' /\ operand_after mv v v') /\
  exists i t, best_match C tys u i /\ tys !! i = Some t /\
    (ity_uid t = u -> if mv then ~ nothrow_move C t else ~ nothrow_copy C t).
Proof.
  intros H Hy. op_inv H. thr H. split; [done|]. split; [|by eauto 10]. eexists. split; [|done]. see.
Qed.

Lemma convert_done x tys y mv E s E' s' tys2 k2 : step (CConvert x tys y mv) E s E' ODone s' -> sees E s y tys2 k2 ->
  exists t2 i t v', tys2 !! k2.1.2 = Some t2 /\ best_match C tys (ity_uid t2) i /\ tys !! i = Some t /\
    sees E' s' x tys (false, i, converted C (ity_uid t2) (ity_uid t) k2.2) /\
    sees E' s' y tys2 (k2.1, v') /\ operand_after mv k2.2 v'.
Proof.
  intros H Hy. op_inv H. match goal with H : foreign _ _ _ _ _ |- _ => destruct H as (t2&i&t&?&?&?&->) end.
  do 4 eexists. do 3 (split; [done|]). split; [see|]. split; [|done]. see.
Qed.
Lemma convert_threw x tys y mv E s E' e s' tys2 k2 : step (CConvert x tys y mv) E s E' (OThrew e) s' -> sees E s y tys2 k2 ->
  E' = E /\ (exists v', sees E' s' y tys2 (k2.1, v') /\ operand_after mv k2.2 v') /\ foreign_may_throw C tys tys2 k2 mv.
Proof. intros H Hy. op_inv H. thr H. split; [done|]. split; [|done]. eexists. split; [|done]. see. Qed.

(** ** Assignment *)
Lemma assign_done x y E s E' s' tys k : step (CAssign x y) E s E' ODone s' -> sees E s y tys k ->
  sees E' s' x tys k /\ sees E' s' y tys k.
Proof. intros H Hy. op_inv H; split; see. Qed.
Lemma massign_done x y E s E' s' tys k : x <> y -> step (CMoveAssign x y) E s E' ODone s' -> sees E s y tys k ->
  sees E' s' x tys k /\ exists k', sees E' s' y tys k' /\ k'.1 = k.1.
Proof.
  intros Hne H Hy. op_inv H. split; [see|]. match goal with H : move_source _ _ _ |- _ => destruct H as [? _] end.
  eexists. split; [|done]. see.
Qed.
Lemma massign_self x E s E' o s' tys k : step (CMoveAssign x x) E s E' o s' -> sees E s x tys k ->
  exists v', sees E' s' x tys (k.1, v') /\ skel v' = skel k.2.
Proof. intros H Hy. op_inv H; (eexists; split; [see|done]). Qed.

Notation fallback_value := (fallback_value C).

Lemma failed_left tys k1 t2 k' : failed C tys k1 t2 k' -> old_value k1 k' \/ fallback_value tys k'.
Proof. destruct 1; [by left|right; eexists _, _; done|by left]. Qed.

Lemma assign_threw x y E s E' e s' tys k1 k2 : x <> y -> step (CAssign x y) E s E' (OThrew e) s' ->
  sees E s x tys k1 -> sees E s y tys k2 ->
  E' = E /\ sees E' s' y tys k2 /\ exists k', sees E' s' x tys k' /\ copy_failed C tys k1 k2 k'.
Proof. intros Hne H Hx Hy. op_inv H. thr H. split; [done|]. split; [see|]. eexists. split; [see|done]. Qed.
Lemma massign_threw x y E s E' e s' tys k1 k2 : x <> y -> step (CMoveAssign x y) E s E' (OThrew e) s' ->
  sees E s x tys k1 -> sees E s y tys k2 ->
  E' = E /\ (exists k2', sees E' s' y tys k2' /\ k2'.1 = k2.1) /\
  exists k', sees E' s' x tys k' /\ move_failed C tys k1 k2 k'.
Proof.
  intros Hne H Hx Hy. op_inv H. thr H. split; [done|]. split; [|eexists; split; [see|done]].
  match goal with H : move_source _ _ _ |- _ => destruct H as [? _] end. eexists. split; [|done]. see.
Qed.

Lemma assign_self_threw x E s E' e s' tys k : step (CAssign x x) E s E' (OThrew e) s' -> sees E s x tys k ->
  E' = E /\ exists v' t, sees E' s' x tys (k.1, v') /\ skel v' = skel k.2 /\ tys !! k.1.2 = Some t /\ ~ nothrow_cassign C t.
Proof.
  intros H Hx. pose proof H as (_&_&Hy). apply yields_throw in Hy as ->. op_inv H.
  split; [done|]. eexists _, _. split; [see|]. done.
Qed.

(** C07 *)
Lemma assign_left x y E s E' e s' tys k1 k2 : x <> y -> step (CAssign x y) E s E' (OThrew e) s' ->
  sees E s x tys k1 -> sees E s y tys k2 ->
  sees E' s' y tys k2 /\ exists k', sees E' s' x tys k' /\
    (old_value k1 k' \/ (k1.1.2 = k2.1.2 /\ k'.1 = k1.1) \/ fallback_value tys k').
Proof.
  intros Hne H Hx Hy. destruct (assign_threw _ _ _ _ _ _ _ _ _ _ Hne H Hx Hy) as (_&Hy'&k'&Hx'&Hf).
  split; [done|]. exists k'. split; [done|]. destruct Hf as [t k' Ht Hi _ Hk|t k' Ht _ Hf].
  - right; left. split; [by rewrite Hi|done].
  - destruct (failed_left _ _ _ _ Hf); auto.
Qed.
Lemma massign_left x y E s E' e s' tys k1 k2 : x <> y -> step (CMoveAssign x y) E s E' (OThrew e) s' ->
  sees E s x tys k1 -> sees E s y tys k2 ->
  (exists k2', sees E' s' y tys k2' /\ k2'.1 = k2.1) /\ exists k', sees E' s' x tys k' /\
    (old_value k1 k' \/ (k1.1.2 = k2.1.2 /\ k'.1 = k1.1) \/ fallback_value tys k').
Proof.
  intros Hne H Hx Hy. destruct (massign_threw _ _ _ _ _ _ _ _ _ _ Hne H Hx Hy) as (_&Hy'&k'&Hx'&Hf).
  split; [done|]. exists k'. split; [done|]. destruct Hf as [t k' Ht Hi _ Hk|t k' Ht _ _ Hf].
  - right; left. split; [by rewrite Hi|done].
  - destruct (failed_left _ _ _ _ Hf); auto.
Qed.

(** C08 *)
Lemma assign_strong x y E s E' e s' tys k1 k2 t : step (CAssign x y) E s E' (OThrew e) s' ->
  sees E s x tys k1 -> sees E s y tys k2 -> k1.1.2 <> k2.1.2 -> tys !! k2.1.2 = Some t ->
  nothrow_copy C t \/ nothrow_move C t -> sees E' s' x tys k1 /\ ~ nothrow_copy C t.
Proof.
  intros H Hx Hy Hi Ht Hn. destruct (decide (x = y)) as [->|Hne].
  { exfalso. op_inv H; done. }
  destruct (assign_threw _ _ _ _ _ _ _ _ _ _ Hne H Hx Hy) as (_&Hy'&k'&Hx'&Hf).
  destruct Hf as [t' k' Ht' Hi' _ Hk|t' k' Ht' _ Hf]; [by rewrite Hi' in Hi|]. rewrite Ht in Ht'. injection Ht' as <-.
  destruct Hf as [|j u [? ?] ?|k' [? ?] ? ? ? ?]; [done|tauto..].
Qed.
Lemma massign_strong x y E s E' o s' tys k1 k2 t : step (CMoveAssign x y) E s E' o s' ->
  sees E s x tys k1 -> sees E s y tys k2 -> k1.1.2 <> k2.1.2 -> tys !! k2.1.2 = Some t ->
  nothrow_copy C t \/ nothrow_move C t -> o = ODone.
Proof.
  intros H Hx Hy Hi Ht Hn. destruct (decide (x = y)) as [->|Hne].
  { exfalso. op_inv H; done. }
  op_inv H; [done|].
  match goal with H : move_failed _ _ _ _ _ |- _ => destruct H as [t' k' Ht' Hi' _ Hk|t' k' Ht' _ Hd Hf] end; [by rewrite Hi' in Hi|].
  rewrite Ht in Ht'. injection Ht' as <-. destruct Hd. tauto.
Qed.

(** C09, C10 *)
Lemma fallback_some tys : (exists t, t ∈ tys /\ nothrow_default C t) -> ~ no_fallback C tys.
Proof. intros (t&Ht&Hn) H. by apply (H t). Qed.

Lemma assign_fallback x y E s E' e s' tys k1 k2 t : step (CAssign x y) E s E' (OThrew e) s' ->
  sees E s x tys k1 -> sees E s y tys k2 -> k1.1.2 <> k2.1.2 -> tys !! k2.1.2 = Some t ->
  doubly_throwing C t -> (exists t, t ∈ tys /\ nothrow_default C t) ->
  exists j u, fallback C tys j u /\ sees E' s' x tys (false, j, default_init C u).
Proof.
  intros H Hx Hy Hi Ht Hd Hfb. destruct (decide (x = y)) as [->|Hne].
  { exfalso. op_inv H; done. }
  destruct (assign_threw _ _ _ _ _ _ _ _ _ _ Hne H Hx Hy) as (_&Hy'&k'&Hx'&Hf).
  destruct Hf as [t' k' Ht' Hi' _ Hk|t' k' Ht' _ Hf]; [by rewrite Hi' in Hi|]. rewrite Ht in Ht'. injection Ht' as <-.
  destruct Hf as [? ?|j u ? ?|k' ? Hno ? ? ?].
  - by destruct Hd.
  - by exists j, u.
  - by destruct (fallback_some tys Hfb).
Qed.
Lemma massign_fallback x y E s E' e s' tys k1 k2 : step (CMoveAssign x y) E s E' (OThrew e) s' ->
  sees E s x tys k1 -> sees E s y tys k2 -> k1.1.2 <> k2.1.2 ->
  (exists t, t ∈ tys /\ nothrow_default C t) ->
  exists j u, fallback C tys j u /\ sees E' s' x tys (false, j, default_init C u).
Proof.
  intros H Hx Hy Hi Hfb. destruct (decide (x = y)) as [->|Hne].
  { exfalso. op_inv H; done. }
  destruct (massign_threw _ _ _ _ _ _ _ _ _ _ Hne H Hx Hy) as (_&Hy'&k'&Hx'&Hf).
  destruct Hf as [t' k' Ht' Hi' _ Hk|t' k' Ht' _ Hd Hf]; [by rewrite Hi' in Hi|].
  destruct Hf as [? ?|j u ? ?|k' ? Hno ? ? ?].
  - by destruct Hd.
  - by exists j, u.
  - by destruct (fallback_some tys Hfb).
Qed.

Lemma assign_kept x y E s E' e s' tys k1 k2 : step (CAssign x y) E s E' (OThrew e) s' ->
  sees E s x tys k1 -> sees E s y tys k2 -> k1.1.2 <> k2.1.2 -> no_fallback C tys ->
  exists k', sees E' s' x tys k' /\ old_value k1 k'.
Proof.
  intros H Hx Hy Hi Hfb. destruct (decide (x = y)) as [->|Hne].
  { exfalso. op_inv H; done. }
  destruct (assign_threw _ _ _ _ _ _ _ _ _ _ Hne H Hx Hy) as (_&Hy'&k'&Hx'&Hf).
  destruct Hf as [t' k' Ht' Hi' _ Hk|t' k' Ht' _ Hf]; [by rewrite Hi' in Hi|].
  exists k'. split; [done|]. destruct Hf as [? ?|j u ? Hf|k' ? Hno ? ? ?]; [done| |done].
  exfalso. destruct Hf as (Hj&Hn&_). apply (Hfb (IPlain u)); [by eapply elem_of_list_lookup_2|]. by exists u.
Qed.
Lemma massign_kept x y E s E' e s' tys k1 k2 : step (CMoveAssign x y) E s E' (OThrew e) s' ->
  sees E s x tys k1 -> sees E s y tys k2 -> k1.1.2 <> k2.1.2 -> no_fallback C tys ->
  exists k', sees E' s' x tys k' /\ old_value k1 k'.
Proof.
  intros H Hx Hy Hi Hfb. destruct (decide (x = y)) as [->|Hne].
  { exfalso. op_inv H; done. }
  destruct (massign_threw _ _ _ _ _ _ _ _ _ _ Hne H Hx Hy) as (_&Hy'&k'&Hx'&Hf).
  destruct Hf as [t' k' Ht' Hi' _ Hk|t' k' Ht' _ Hd Hf]; [by rewrite Hi' in Hi|].
  exists k'. split; [done|]. destruct Hf as [? ?|j u ? Hf|k' ? Hno ? ? ?]; [done| |done].
  exfalso. destruct Hf as (Hj&Hn&_). apply (Hfb (IPlain u)); [by eapply elem_of_list_lookup_2|]. by exists u.
Qed.

(** ** Assignment from values and foreign variants *)
Lemma assign_from_done x y mv E s E' s' tys k1 u v : step (CAssignFrom x y mv) E s E' ODone s' ->
  sees E s x tys k1 -> sees_obj E s y u v ->
  exists t1 k', tys !! k1.1.2 = Some t1 /\ sees E' s' x tys k' /\
    (ity_uid t1 = u -> k' = (k1.1, v)) /\
    (ity_uid t1 <> u -> exists i t, best_match C tys u i /\ tys !! i = Some t /\
                                    k' = (false, i, converted C u (ity_uid t) v)) /\
    (mv = false -> sees_obj E' s' y u v).
Proof.
  intros H Hx Hy. op_inv H. match goal with H : assigned_from _ _ _ _ _ _ |- _ => destruct H as (t1&?&?&?) end.
  exists t1. eexists. split; [done|]. split; [see|]. split; [done|]. split; [done|]. intros ->.
  match goal with H : from_source _ _ _ _ |- _ => unfold from_source in H; subst end. see.
Qed.
Lemma assign_from_threw x y mv E s E' e s' tys k1 u v : step (CAssignFrom x y mv) E s E' (OThrew e) s' ->
  sees E s x tys k1 -> sees_obj E s y u v ->
  E' = E /\ (mv = false -> sees_obj E' s' y u v) /\ exists k' t1, sees E' s' x tys k' /\ tys !! k1.1.2 = Some t1 /\
    (ity_uid t1 = u -> k'.1 = k1.1) /\
    (ity_uid t1 <> u -> old_value k1 k' \/ fallback_value tys k' \/ k'.1 = k1.1).
Proof.
  intros H Hx Hy. op_inv H. thr H. split; [done|]. split.
  { intros ->. match goal with H : from_source _ _ _ _ |- _ => unfold from_source in H; subst end. see. }
  match goal with H : from_failed _ _ _ _ _ _ _ |- _ =>
    destruct H as [t1 k' Ht1 Hu ? Hk|t1 i t Ht1 Hu ? ? ?|t1 i t k' Ht1 Hu ? ? Hf] end.
  - exists k', t1. split; [see|]. split; [done|]. done.
  - exists k1, t1. split; [see|]. split; [done|]. split; [done|]. intros _. by left.
  - exists k', t1. split; [see|]. split; [done|]. split; [done|]. intros _.
    destruct Hf as [t' k' Ht' _ _ Hk|t' k' Ht' _ _ Hf]; [by right; right|]. destruct (failed_left _ _ _ _ Hf); auto.
Qed.

Lemma assign_convert_done x y mv E s E' s' tys k1 tys2 k2 : step (CAssignConvert x y mv) E s E' ODone s' ->
  sees E s x tys k1 -> sees E s y tys2 k2 ->
  exists t2 i t v', tys2 !! k2.1.2 = Some t2 /\ best_match C tys (ity_uid t2) i /\ tys !! i = Some t /\
    sees E' s' x tys (false, i, converted C (ity_uid t2) (ity_uid t) k2.2) /\
    sees E' s' y tys2 (k2.1, v') /\ operand_after mv k2.2 v'.
Proof.
  intros H Hx Hy. op_inv H. match goal with H : foreign _ _ _ _ _ |- _ => destruct H as (t2&i&t&?&?&?&->) end.
  do 4 eexists. do 3 (split; [done|]). split; [see|]. split; [|done]. see.
Qed.
Lemma assign_convert_threw x y mv E s E' e s' tys k1 tys2 k2 : step (CAssignConvert x y mv) E s E' (OThrew e) s' ->
  sees E s x tys k1 -> sees E s y tys2 k2 ->
  E' = E /\ (exists v', sees E' s' y tys2 (k2.1, v') /\ operand_after mv k2.2 v') /\
  exists k', sees E' s' x tys k' /\ (old_value k1 k' \/ fallback_value tys k' \/ k'.1 = k1.1).
Proof.
  intros H Hx Hy. op_inv H. thr H. split; [done|]. split; [eexists; split; [see|done]|].
  eexists. split; [see|].
  match goal with H : _ \/ move_failed _ _ _ _ _ |- _ => destruct H as [[-> _]|Hf] end; [by left|].
  destruct Hf as [t' k' Ht' _ _ Hk|t' k' Ht' _ _ Hf]; [by right; right|]. destruct (failed_left _ _ _ _ Hf); auto.
Qed.

(** ** swap *)
Lemma swap_done x y E s E' s' tys k1 k2 : x <> y -> step (CSwap x y) E s E' ODone s' ->
  sees E s x tys k1 -> sees E s y tys k2 ->
  exists ka kb, sees E' s' x tys ka /\ sees E' s' y tys kb /\ erasev ka = erasev k2 /\ erasev kb = erasev k1.
Proof.
  intros Hne H Hx Hy. op_inv H. do 2 eexists. split; [see|]. split; [see|].
  match goal with H : swapped _ _ _ _ |- _ => destruct H as [Hsw1 Hsw2] end.
  destruct (decide (k1.1.2 = k2.1.2)) as [Hi|Hi].
  - destruct (Hsw1 Hi) as [-> ->]. unfold erasev. simpl. by rewrite Hi erase_erase.
  - destruct (Hsw2 Hi) as [-> ->]. unfold erasev. simpl. by rewrite erase_erase.
Qed.
Lemma swap_self x E s E' s' tys k : step (CSwap x x) E s E' ODone s' -> sees E s x tys k ->
  exists k', sees E' s' x tys k' /\ erasev k' = erasev k /\ (clean k.2 = true -> k' = k).
Proof.
  intros H Hx. op_inv H. match goal with H : self_swap _ _ |- _ => destruct H as [He Hc] end.
  eexists. split; [see|]. unfold erasev. simpl. split; [by rewrite He|].
  intros Hk. rewrite (Hc Hk). by destruct k.
Qed.
Lemma swap_twice x y E s E' s' E'' s'' tys k1 k2 : x <> y ->
  step (CSwap x y) E s E' ODone s' -> step (CSwap x y) E' s' E'' ODone s'' ->
  sees E s x tys k1 -> sees E s y tys k2 ->
  exists ka kb, sees E'' s'' x tys ka /\ sees E'' s'' y tys kb /\ erasev ka = erasev k1 /\ erasev kb = erasev k2.
Proof.
  intros Hne H1 H2 Hx Hy. destruct (swap_done _ _ _ _ _ _ _ _ _ Hne H1 Hx Hy) as (ka&kb&Ha&Hb&Ea&Eb).
  destruct (swap_done _ _ _ _ _ _ _ _ _ Hne H2 Ha Hb) as (kc&kd&Hc&Hd&Ec&Ed).
  exists kc, kd. repeat split; congruence.
Qed.
Lemma move_failed_left tys k1 k2 k' : move_failed C tys k1 k2 k' -> k'.1.2 = k1.1.2 \/ fallback_value tys k'.
Proof.
  destruct 1 as [t' k' Ht' _ _ Hk|t' k' Ht' _ _ Hf]; [left; by rewrite Hk|].
  destruct (failed_left _ _ _ _ Hf) as [[? ?]|?]; auto.
Qed.
Lemma swap_threw x y E s E' e s' tys k1 k2 : x <> y -> step (CSwap x y) E s E' (OThrew e) s' ->
  sees E s x tys k1 -> sees E s y tys k2 ->
  E' = E /\ exists ka kb, sees E' s' x tys ka /\ sees E' s' y tys kb /\
    (ka.1.2 = k1.1.2 \/ fallback_value tys ka) /\
    (kb.1.2 = k2.1.2 \/ fallback_value tys kb \/ kb = k1).
Proof.
  intros Hne H Hx Hy. op_inv H. thr H. split; [done|]. do 2 eexists. split; [see|]. split; [see|].
  match goal with H : swap_failed _ _ _ _ _ _ |- _ => destruct H as [t ka kb Hi Ht Hth Ha Hb|t v' Hi Ht Hn Hm|v' ka kb Hi Hm Hf Hs1|v' ka0 ka Hi Hm Hs1 Hf] end.
  - rewrite Ha Hb. auto.
  - auto.
  - destruct Hs1 as [Hk _]. rewrite Hk. split; [by left|]. apply move_failed_left in Hf. simpl in Hf. tauto.
  - destruct Hs1 as [Hk _]. apply move_failed_left in Hf. rewrite Hk in Hf. auto.
Qed.

(** ** Queries *)
Lemma which_spec x E s E' o s' tys k : step (CWhich x) E s E' o s' -> sees E s x tys k -> o = OWhich (Z.of_nat k.1.2).
Proof. intros H Hx. by op_inv H. Qed.
Lemma read_spec x E s E' o s' tys k t : step (CRead x) E s E' o s' -> sees E s x tys k -> tys !! k.1.2 = Some t ->
  o = OVal (ity_uid t) (erase k.2).
Proof. intros H Hx Ht. by op_inv H. Qed.
Lemma type_spec x E s E' o s' tys k t : step (CType x) E s E' o s' -> sees E s x tys k -> tys !! k.1.2 = Some t ->
  o = OType (ity_uid t).
Proof. intros H Hx Ht. by op_inv H. Qed.
Lemma get_spec x u E s E' o s' tys k t : step (CGet x u) E s E' o s' -> sees E s x tys k -> tys !! k.1.2 = Some t ->
  o = OGet (if decide (ity_uid t = u) then Some (erase k.2) else None).
Proof.
  intros H Hx Ht. op_inv H.
  - match goal with H : has _ _ _ |- _ => destruct H as (t'&Ht'&Hu) end. simplify_eq. by rewrite decide_True.
  - rewrite decide_False //. intros Hu. match goal with H : ~ has _ _ _ |- _ => apply H end. by exists t.
Qed.
Lemma get_ref_spec x u E s E' o s' tys k t : step (CGetRef x u) E s E' o s' -> sees E s x tys k -> tys !! k.1.2 = Some t ->
  o = if decide (ity_uid t = u) then OVal u (erase k.2) else OThrew XBadGet.
Proof.
  intros H Hx Ht. op_inv H.
  - match goal with H : has _ _ _ |- _ => destruct H as (t'&Ht'&Hu) end. simplify_eq. by rewrite decide_True.
  - rewrite decide_False //. intros Hu. match goal with H : ~ has _ _ _ |- _ => apply H end. by exists t.
Qed.
Lemma poke_foreign x u y E s E' e s' tys k t : step (CPoke x u y) E s E' (OThrew e) s' -> sees E s x tys k ->
  tys !! k.1.2 = Some t -> ity_uid t = u -> foreign_exn e.
Proof.
  intros (Hr&_&n&Hn) (a&Hx&Hk) Ht <-.
  destruct (CoreFacts.reached_locates _ _ _ _ _ HC _ _ _ _ _ Hr Hx) as (k'&t'&l&(a'&Hx'&Hk')&Ht'&_&_&Hv&_).
  simplify_eq. rewrite (var_holds_unique _ _ _ _ _ _ Hk' Hk) in Ht'. simplify_eq.
  specialize (Hn n ltac:(lia)). unfold exec, op, need_var, need_obj in Hn. rewrite Hx in Hn. simpl in Hn.
  unfold bind in Hn. simpl in Hn. destruct (E !! y) as [[?|? b]|]; simpl in Hn; [done| |done].
  unfold var_poke, var_get_ref, var_get, bind in Hn. rewrite Hv /= decide_True // /= in Hn.
  pose proof (rs_cassign _ _ (r_sem foreign_exn (fun e H => H) C n) (ity_uid t) l b s) as Hf.
  destruct (us_cassign _ _ _ _ s) as [[] s1|e1 s1|]; simpl in *; by simplify_eq.
Qed.
Lemma poke_spec x u y E s E' o s' tys k t v : step (CPoke x u y) E s E' o s' -> sees E s x tys k -> sees_obj E s y u v ->
  tys !! k.1.2 = Some t ->
  if decide (ity_uid t = u) then
    match o with
    | ODone => sees E' s' x tys (k.1, v) /\ sees_obj E' s' y u v
    | OThrew e => foreign_exn e /\ nt_cassign (te C u) = false /\ exists v', sees E' s' x tys (k.1, v')
    | _ => False
    end
  else o = OThrew XBadGet /\ forall z, same_at E s E' s' z.
Proof.
  intros H Hx Hy Ht.
  assert (Hf : forall e, o = OThrew e -> ity_uid t = u -> foreign_exn e) by (intros e -> Hu; by eapply poke_foreign).
  op_inv H.
  - match goal with H : has _ _ _ |- _ => destruct H as (t'&Ht'&Hu) end. simplify_eq. rewrite decide_True //. split; see.
  - match goal with H : has _ _ _ |- _ => destruct H as (t'&Ht'&Hu) end. simplify_eq. rewrite decide_True //.
    split; [by apply Hf|]. split; [done|]. eexists. see.
  - rewrite decide_False.
    + split; [done|]. thr H. by eapply same_all.
    + intros Hu. match goal with H : ~ has _ _ _ |- _ => apply H end. by exists t.
Qed.

Lemma eq_spec x y E s E' o s' tys k1 k2 t : step (CEq x y) E s E' o s' ->
  sees E s x tys k1 -> sees E s y tys k2 -> tys !! k1.1.2 = Some t ->
  exists b, o = OBool b /\
    (b = true <-> k1.1.2 = k2.1.2 /\ eqf (ity_uid t) (erase k1.2) (erase k2.2) = true).
Proof. intros H Hx Hy Ht. op_inv H. eauto. Qed.
Lemma lt_spec x y E s E' o s' tys k1 k2 t : step (CLt x y) E s E' o s' ->
  sees E s x tys k1 -> sees E s y tys k2 -> tys !! k1.1.2 = Some t ->
  exists b, o = OBool b /\
    (b = true <-> k1.1.2 < k2.1.2 \/ k1.1.2 = k2.1.2 /\ ltf (ity_uid t) (erase k1.2) (erase k2.2) = true).
Proof. intros H Hx Hy Ht. op_inv H. eauto. Qed.

(** Queries cannot tell a parked content. *)
Lemma transparent1 q x1 x2 E1 s1 E2 s2 E1' o1 s1' E2' o2 s2' tys k1 k2 : unary q ->
  step (q x1) E1 s1 E1' o1 s1' -> step (q x2) E2 s2 E2' o2 s2' ->
  sees E1 s1 x1 tys k1 -> sees E2 s2 x2 tys k2 -> erasev k1 = erasev k2 -> o1 = o2.
Proof.
  intros Hq H1 H2 Hx1 Hx2 He. unfold erasev in He. injection He as Hi He.
  assert (exists t, tys !! k1.1.2 = Some t) as [t Ht].
  { destruct (present_ok _ _ _ _ _ HC _ _ _ _ (proj1 H1) (present_var _ _ _ _ _ _ Hx1)) as (t&Ht&_). eauto. }
  assert (tys !! k2.1.2 = Some t) as Ht2 by congruence.
  destruct Hq as [->|[->|[->|[[u ->]|[u ->]]]]].
  - rewrite (which_spec _ _ _ _ _ _ _ _ H1 Hx1) (which_spec _ _ _ _ _ _ _ _ H2 Hx2) Hi //.
  - rewrite (read_spec _ _ _ _ _ _ _ _ _ H1 Hx1 Ht) (read_spec _ _ _ _ _ _ _ _ _ H2 Hx2 Ht2) He //.
  - rewrite (type_spec _ _ _ _ _ _ _ _ _ H1 Hx1 Ht) (type_spec _ _ _ _ _ _ _ _ _ H2 Hx2 Ht2) //.
  - rewrite (get_spec _ _ _ _ _ _ _ _ _ _ H1 Hx1 Ht) (get_spec _ _ _ _ _ _ _ _ _ _ H2 Hx2 Ht2) He //.
  - rewrite (get_ref_spec _ _ _ _ _ _ _ _ _ _ H1 Hx1 Ht) (get_ref_spec _ _ _ _ _ _ _ _ _ _ H2 Hx2 Ht2) He //.
Qed.
Lemma bool_iff b b' : (b = true <-> b' = true) -> b = b'.
Proof. destruct b, b'; naive_solver. Qed.
Lemma transparent2 q x1 x2 y1 y2 E1 s1 E2 s2 E1' o1 s1' E2' o2 s2' tys k1 k2 l1 l2 : q = CEq \/ q = CLt ->
  step (q x1 y1) E1 s1 E1' o1 s1' -> step (q x2 y2) E2 s2 E2' o2 s2' ->
  sees E1 s1 x1 tys k1 -> sees E2 s2 x2 tys k2 -> erasev k1 = erasev k2 ->
  sees E1 s1 y1 tys l1 -> sees E2 s2 y2 tys l2 -> erasev l1 = erasev l2 -> o1 = o2.
Proof.
  intros Hq H1 H2 Hx1 Hx2 He Hy1 Hy2 He'. unfold erasev in He, He'. injection He as Hi He. injection He' as Hi' He'.
  assert (exists t, tys !! k1.1.2 = Some t) as [t Ht].
  { destruct (present_ok _ _ _ _ _ HC _ _ _ _ (proj1 H1) (present_var _ _ _ _ _ _ Hx1)) as (t&Ht&_). eauto. }
  assert (tys !! k2.1.2 = Some t) as Ht2 by congruence.
  destruct Hq as [->| ->].
  - destruct (eq_spec _ _ _ _ _ _ _ _ _ _ _ H1 Hx1 Hy1 Ht) as (b1&->&Hb1).
    destruct (eq_spec _ _ _ _ _ _ _ _ _ _ _ H2 Hx2 Hy2 Ht2) as (b2&->&Hb2).
    f_equal. apply bool_iff. rewrite Hb1 Hb2 Hi Hi' He He' //.
  - destruct (lt_spec _ _ _ _ _ _ _ _ _ _ _ H1 Hx1 Hy1 Ht) as (b1&->&Hb1).
    destruct (lt_spec _ _ _ _ _ _ _ _ _ _ _ H2 Hx2 Hy2 Ht2) as (b2&->&Hb2).
    f_equal. apply bool_iff. rewrite Hb1 Hb2 Hi Hi' He He' //.
Qed.

(** ** noexcept *)
Lemma drop_nothrow x E s E' o s' : step (CDrop x) E s E' o s' -> o = ODone.
Proof. intros H. by op_inv H. Qed.
Lemma query_nothrow c E s E' o s' : query c = true -> step c E s E' o s' -> forall e, o = OThrew e -> e = XBadGet.
Proof. intros Hq H e ->. destruct c; try done; by op_inv H. Qed.
Lemma move_nothrow x y E s E' o s' tys k t : step (CMove x y) E s E' o s' -> sees E s y tys k -> tys !! k.1.2 = Some t ->
  nothrow_move C t -> o = ODone.
Proof. intros H Hy Ht Hn. by op_inv H. Qed.
Lemma copy_nothrow x y E s E' o s' tys k t : step (CCopy x y) E s E' o s' -> sees E s y tys k -> tys !! k.1.2 = Some t ->
  nothrow_copy C t -> o = ODone.
Proof. intros H Hy Ht Hn. by op_inv H. Qed.
Lemma default_nothrow x t r E s E' o s' : step (CDefault x (t :: r)) E s E' o s' -> nothrow_default C t -> o = ODone.
Proof. intros H Hn. by op_inv H. Qed.
Lemma massign_nothrow x y E s E' o s' tys k : step (CMoveAssign x y) E s E' o s' -> sees E s y tys k ->
  (forall t, t ∈ tys -> nothrow_move C t /\ nothrow_massign C t) -> o = ODone.
Proof.
  intros H Hy Hn. op_inv H; try done.
  - match goal with H : move_failed _ _ _ _ _ |- _ => destruct H as [t' k' Ht' _ Hm Hk|t' k' Ht' _ [_ Hm] Hf] end;
      destruct (Hn t'); try done; by eapply elem_of_list_lookup_2.
  - match goal with Ht : _ !! _ = Some ?t |- _ => destruct (Hn t); [by eapply elem_of_list_lookup_2|done] end.
Qed.

(** ** Parked content *)
Lemma parked_why E s x tys i v : reached E s -> sees E s x tys (true, i, v) ->
  no_fallback C tys /\ exists t, tys !! i = Some t /\ doubly_throwing C t.
Proof.
  intros Hr Hx. destruct (present_ok _ _ _ _ _ HC _ _ _ _ Hr (present_var _ _ _ _ _ _ Hx)) as (t&Ht&_&Hb).
  destruct (Hb eq_refl) as (_&?&?). eauto.
Qed.
Lemma parked_threw x y E s E' e s' tys i v k2 : x <> y -> step (CAssign x y) E s E' (OThrew e) s' ->
  sees E s x tys (true, i, v) -> sees E s y tys k2 -> k2.1 <> (true, i) -> sees E' s' x tys (true, i, v).
Proof.
  intros Hne H Hx Hy Hk2. destruct (parked_why _ _ _ _ _ _ (proj1 H) Hx) as [Hno _].
  op_inv H. match goal with H : copy_failed _ _ _ _ _ |- _ => destruct H as [t' k' Ht' Hi' _ Hk|t' k' Ht' _ Hf] end; [done|].
  destruct Hf as [? ?|j u ? Hf|k' ? _ ? ? Hk]; [see| |].
  - exfalso. destruct Hf as (Hj&Hn&_). apply (Hno (IPlain u)); [by eapply elem_of_list_lookup_2|]. by exists u.
  - rewrite (Hk eq_refl) in Hs'. see.
Qed.
Lemma assign_unparks x y E s E' s' tys k1 k : x <> y -> step (CAssign x y) E s E' ODone s' ->
  sees E s x tys k1 -> sees E s y tys k -> k1.1 <> k.1 -> sees E' s' x tys k /\ cleanv k = true.
Proof.
  intros Hne H Hx Hy Hk. op_inv H. split; [see|].
  destruct (Hun Hne _ _ _ ltac:(eassumption) ltac:(eassumption)) as [Hc Hp]. unfold cleanv. rewrite Hc andb_true_r.
  apply negb_true_iff. destruct (k.1.1) eqn:Hb; [|done]. by specialize (Hp eq_refl).
Qed.

(** ** Reuse *)
Lemma reuse E s x tys k : reached E s -> sees E s x tys k ->
  admissible E s (CRead x) /\ admissible E s (CWhich x) /\ admissible E s (CDrop x) /\
  (forall z, E !! z = None -> admissible E s (CCopy z x) /\ admissible E s (CMove z x)) /\
  (forall y k2, sees E s y tys k2 ->
     admissible E s (CEq x y) /\ admissible E s (CLt x y) /\
     (clean k2.2 = true -> (k2.1.1 = true -> k.1 = k2.1) ->
        admissible E s (CAssign x y) /\ admissible E s (CMoveAssign x y))) /\
  (forall y u v mv i, sees_obj E s y u v -> clean v = true -> best_match C tys u i ->
     admissible E s (CAssignFrom x y mv)).
Proof.
  intros Hr Hx. destruct (reached_shows _ _ _ _ _ HC _ _ Hr) as [σ Hs].
  apply (sees_is_var _ _ _ _ _ _ _ Hs) in Hx.
  assert (Hfresh : forall z, E !! z = None -> σ !! z = None).
  { intros z Hz. specialize (Hs z). rewrite Hz in Hs. by destruct (σ !! z). }
  split; [exists 0, σ; split; [done|]; split; [simpl; eauto|done]|].
  split; [exists 0, σ; split; [done|]; split; [simpl; eauto|done]|].
  split; [exists 0, σ; split; [done|]; split; [simpl; eauto|done]|].
  split.
  { intros z Hz. apply Hfresh in Hz.
    split; (exists 0, σ; split; [done|]; split; [simpl; split; [done|]; by eexists _, _|done]). }
  split.
  - intros y k2 Hy. apply (sees_is_var _ _ _ _ _ _ _ Hs) in Hy.
    split; [exists 0, σ; split; [done|]; split; [by eexists _, _, _|done]|].
    split; [exists 0, σ; split; [done|]; split; [by eexists _, _, _|done]|].
    intros Hc Hp. assert (forall tys0 k1 k2, is_var σ x tys0 k1 -> is_var σ y tys0 k2 ->
      clean k2.2 = true /\ (k2.1.1 = true -> k1.1 = k2.1)).
    { intros tys0 k1 k0 H1 H2. unfold is_var in *. by simplify_map_eq. }
    split; (exists 0, σ; split; [done|]; split; [by eexists _, _, _|simpl; eauto]).
  - intros y u v mv i Hy Hc Hb. apply (sees_obj_is_obj _ _ _ _ _ _ _ Hs) in Hy.
    exists 0, σ. split; [done|]. split; [by eexists _, _, _, _, _|]. simpl. intros u0 v0 H. unfold is_obj in *. by simplify_map_eq.
Qed.

(** ** Members of recursive variants *)
Lemma child_done z x u j E s E' s' tys k t d ks : step (CChild z x u j) E s E' ODone s' ->
  sees E s x tys k -> tys !! k.1.2 = Some t -> k.2 = UV d ks ->
  ity_uid t = u /\ exists tys' k', ut_members (te C u) !! j = Some tys' /\ ks !! j = Some k' /\
    sees E' s' z tys' (erasev k') /\ sees E' s' x tys k.
Proof.
  intros H Hx Ht Hk. op_inv H. match goal with H : has _ _ _ |- _ => destruct H as (t'&Ht'&Hu) end. simplify_eq.
  match goal with H1 : k.2 = UV _ _, H2 : k.2 = UV _ _ |- _ => rewrite H1 in H2; injection H2 as ? ?; subst end.
  split; [done|]. do 2 eexists. split; [done|]. split; [done|]. split; see.
Qed.
Lemma set_child_done x u j y E s E' s' tys k d ks tys' ky : step (CSetChild x u j y) E s E' ODone s' ->
  sees E s x tys k -> k.2 = UV d ks -> sees E s y tys' ky ->
  j < length ks /\ sees E' s' x tys (k.1, UV d (<[j := ky]> ks)) /\ sees E' s' y tys' ky.
Proof.
  intros H Hx Hk Hy. op_inv H.
  match goal with H1 : k.2 = UV _ _, H2 : k.2 = UV _ _ |- _ => rewrite H1 in H2; injection H2 as ? ?; subst end.
  split; [by eapply lookup_lt_Some|]. split; see.
Qed.
End ops.
