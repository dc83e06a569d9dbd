(** What commands throw from is instantiated (proofs). *)
From Coq.ssr Require Import ssreflect.
From Coq Require Import ZArith Lia.
From iris.prelude Require Import prelude.
From stdpp Require Import gmap list numbers.
From Verif Require Import Base Types TypesFacts Dispatch DispatchFacts Values Client Observe Spec History Reach ReachFacts Raises Link.
From Verif Require Import OriginSpec Variant Sem Requires RequiresSpec RequiresFacts Needs.
From Verif Require Origins OriginFacts.

Section facts.
Context (C : cfg) (st nb : bool) (eqf ltf : uid -> uval -> uval -> bool) (HC : good_env C st nb).
Notation step := (step C st nb eqf ltf).

Definition needed (E : env) (c : cmd) (e : exn) : Prop := e = XBadGet \/ rg (needs C (required C E c)) e.
Lemma n_op n E c : raises (needed E c) (op C n eqf ltf E c).
Proof.
  set (R := needs C (required C E c)).
  assert (HR : forall k u tys o k' u', R k u -> tys ∈ ut_members (te C u) -> member_op k = Some o -> (k', u') ∈ inst C o tys -> R k' u').
  { intros. by eapply needs_member. }
  pose proof (n_sem C st nb HC R HR n) as HS.
  assert (Hw : forall A (m : M A), raises (rg R) m -> raises (needed E c) m).
  { intros A m. apply Origins.raises_weaken. intros e He. by right. }
  assert (Hg : forall tys a u B (f : loc -> M B), (forall l, raises (rg R) (f l)) -> raises (needed E c) (bind (var_get_ref C tys a u) f)).
  { intros tys a u B f Hf. apply (n_get_ref C st nb HC R). done. }
  assert (Ht : all R (required C E c)) by (intros k u Hi; by apply needs_top).
  assert (Hm : forall P u l j, raises P (member C u l j)).
  { intros. unfold member. apply raises_bind; [apply raises_expect|]. intros r. repeat case_match; first [apply raises_ret|apply raises_faulty]. }
  assert (Hf : forall P x, raises P (need_fresh E x)) by (intros; unfold need_fresh; case_match; first [apply raises_ret|apply raises_faulty]).
  assert (Hv : forall P x B (f : list ity * loc -> M B), (forall tys a, E !! x = Some (BVar tys a) -> raises P (f (tys, a))) -> raises P (bind (need_var E x) f)).
  { intros P x B f H. unfold need_var. destruct (E !! x) as [[tys a|]|]; try (intros s; exact I). intros s. by apply H. }
  assert (Ho : forall P x B (f : uid * loc -> M B), (forall u a, E !! x = Some (BObj u a) -> raises P (f (u, a))) -> raises P (bind (need_obj E x) f)).
  { intros P x B f H. unfold need_obj. destruct (E !! x) as [[|u a]|]; try (intros s; exact I). intros s. by apply H. }
  assert (Hvs : forall P xs, raises P (need_vars E xs)).
  { intros P xs. induction xs as [|x xs IH]; simpl; [apply raises_ret|]. apply Hv. intros.
    apply raises_bind; [done|]. intros. apply raises_ret. }
  assert (Hnew : forall P x tys k, (forall a, raises P (k a)) -> raises P (new_var E x tys k)).
  { intros. unfold new_var. apply raises_bind; [apply Hf|]. intros. apply raises_bind; [by apply raises_local_variant|]. intros. apply raises_ret. }
  assert (Hseq : forall P (m : M unit) (r : env * out), raises P m -> raises P (bind m (fun _ => ret r))).
  { intros. apply raises_bind; [done|]. intros. apply raises_ret. }
  destruct c; cbn [op]; cbn [required] in Ht; unfold list_at, uid_at in Ht.
  - (* CMake *)
    apply Hw. apply raises_bind; [apply Hf|]. intros. apply raises_bind; [apply Hvs|]. intros.
    apply raises_bind; [|intros; apply raises_ret]. apply raises_stack_obj. intros. apply raises_bind.
    { apply n_maybe, Ht. by left. }
    intros. apply raises_bind; [|intros; apply raises_construct]. apply n_make_members.
    intros. apply (n_var_copy C st nb HC R _ HS). eapply members_all; [exact HR|apply Ht; by left|done|done].
  - (* CDrop *)
    apply Hw. destruct (E !! x) as [[tys a|u a]|]; [| |apply raises_faulty].
    + apply raises_bind; [apply n_var_destroy|]. intros. apply Hseq, raises_drop_cell.
    + apply raises_bind; [apply (k_destroy _ _ _ HS)|]. intros. apply Hseq, raises_drop_cell.
  - (* CDefault *)
    apply Hw, Hnew. intros. by eapply n_var_default.
  - (* CFrom *)
    apply Hw, Ho. intros u a0 Hx. apply Hnew. intros. rewrite Hx in Ht. by eapply n_var_from.
  - (* CCopy *)
    apply Hw, Hv. intros tys a0 Hx. apply Hnew. intros. rewrite Hx in Ht. by eapply n_var_copy.
  - (* CMove *)
    apply Hw, Hv. intros tys a0 Hx. apply Hnew. intros. rewrite Hx in Ht. by eapply n_var_move.
  - (* CConvert *)
    apply Hw, Hv. intros tys2 a0 Hx. apply Hnew. intros. rewrite Hx in Ht. by eapply n_var_convert.
  - (* CAssign *)
    apply Hw, Hv. intros tys a Hx. apply Hv. intros. apply Hseq. rewrite Hx in Ht. by eapply n_var_assign.
  - (* CMoveAssign *)
    apply Hw, Hv. intros tys a Hx. apply Hv. intros. apply Hseq. rewrite Hx in Ht. by eapply n_var_massign.
  - (* CAssignFrom *)
    apply Hw, Hv. intros tys a Hx. apply Ho. intros u b Hy. apply Hseq. rewrite Hx Hy in Ht. by eapply n_var_assign_from.
  - (* CAssignConvert *)
    apply Hw, Hv. intros tys a Hx. apply Hv. intros tys2 b Hy. apply Hseq. rewrite Hx Hy in Ht. by eapply n_var_assign_convert.
  - (* CSwap *)
    apply Hw, Hv. intros tys a Hx. apply Hv. intros. apply Hseq. rewrite Hx in Ht. by eapply n_var_swap.
  - (* CPoke *)
    apply Hv. intros tys a Hx. apply Ho. intros. apply Hseq. unfold var_poke. apply Hg. intros l.
    apply (k_cassign _ _ _ HS). apply Ht. by left.
  - (* CTake *)
    apply raises_bind; [apply Hf|]. intros. apply Hv. intros tys a0 Hx. apply Hg. intros l.
    apply raises_bind; [|intros; apply raises_ret]. apply raises_stack_obj. intros.
    apply (k_copy _ _ _ HS). apply Ht. by left.
  - (* CChild *)
    apply Hv. intros tys a0 Hx. apply Hg. intros l. apply Origins.raises_bind_ok; [apply Hm|].
    intros s [tys' a'] s' Hmem. apply Hnew. intros. eapply n_var_copy; [done|exact HS|].
    unfold member, bind in Hmem. destruct (expect_user _ _ _) as [r s1| |]; try done.
    destruct (ut_members _ !! j) as [tys1|] eqn:Hj; [|done]. destruct (r.2 !! j); [|done]. by injection Hmem as <- _ _.
  - (* CSetChild *)
    apply Hv. intros tys a0 Hx. apply Hv. intros tys2 a2 Hy. apply Hg. intros l. apply Origins.raises_bind_ok; [apply Hm|].
    intros s [tys' a'] s' Hmem. apply Hseq. eapply n_var_assign; [done|exact HS|].
    unfold member, bind in Hmem. destruct (expect_user _ _ _) as [r s1| |]; try done.
    destruct (ut_members _ !! j) as [tys1|] eqn:Hj; [|done]. destruct (r.2 !! j); [|done]. by injection Hmem as <- _ _.
  - (* CWhich *)
    apply Hv. intros. apply raises_bind; [apply raises_which|]. intros. apply raises_ret.
  - (* CRead *)
    apply Hv. intros. apply raises_bind; [by eapply n_var_read|]. intros. apply raises_ret.
  - (* CGet *)
    apply Hv. intros. apply raises_bind; [by eapply (n_var_get C st nb HC)|]. intros [l|]; [|apply raises_ret].
    apply raises_bind; [apply (k_read _ _ _ HS)|]. intros. apply raises_ret.
  - (* CGetRef *)
    apply Hv. intros. apply Hg. intros. apply raises_bind; [apply (k_read _ _ _ HS)|]. intros. apply raises_ret.
  - (* CType *)
    apply Hv. intros. apply raises_bind; [by eapply (n_var_type C st nb HC)|]. intros. apply raises_ret.
  - (* CEq *)
    apply Hv. intros. apply Hv. intros. apply raises_bind; [by eapply n_var_eq|]. intros. apply raises_ret.
  - (* CLt *)
    apply Hv. intros. apply Hv. intros. apply raises_bind; [by eapply n_var_lt|]. intros. apply raises_ret.
Qed.

Lemma threw_needs c E s E' k u n s' : step c E s E' (OThrew (XUser k u n)) s' -> needs C (required C E c) k u.
Proof.
  intros H. destruct (OriginFacts.op_threw _ _ _ _ _ _ _ _ _ _ _ H) as [m Hm]. pose proof (n_op m E c s) as Hr. rewrite Hm in Hr.
  by destruct Hr.
Qed.

(** ** Moves with a fallback type *)
(** What moves need: no copies, but of nothrow copyable types. *)
Definition moving (tys : list ity) (k : uop) (u : uid) : Prop :=
  (exists t, t ∈ tys /\ ity_uid t = u) /\
  (k ∈ [OpDefault; OpMove; OpMoveAssign; OpSwap] \/ k = OpCopy /\ nt_copy (te C u) = true).
Lemma moving_massign tys k u : has_fallback C tys = true -> (k, u) ∈ r_var_massign C tys -> moving tys k u.
Proof.
  intros Hf. unfold r_var_massign. rewrite elem_of_app !elem_of_list_bind. intros [(x&Hi&Hx)|(x&Hi&Hx)]; apply visits_in in Hx.
  - destruct x as [t|t]; [|destruct Hx as [Hx _]]; destruct t as [v|v]; simpl in Hi; try (by apply elem_of_nil in Hi);
      apply elem_of_list_singleton in Hi; injection Hi as -> ->; (split; [by eexists|left; set_solver]).
  - destruct x as [t|t]; [|unfold never_uses_backup in Hx; rewrite Hf in Hx; by destruct Hx].
    unfold r_move_assigner in Hi. cbn [s_nt_copy s_nt_move r_rhs_copy r_rhs_move] in Hi. rewrite Hf in Hi.
    destruct (it_move C t).
    { apply elem_of_list_singleton in Hi. injection Hi as -> ->. split; [by eexists|left; set_solver]. }
    destruct (it_copy C t) eqn:Hc.
    { apply elem_of_list_singleton in Hi. injection Hi as -> ->. split; [by eexists|right]. destruct t; [|done]. done. }
    apply elem_of_app in Hi as [Hi|Hi].
    { apply elem_of_list_singleton in Hi. injection Hi as -> ->. split; [by eexists|left; set_solver]. }
    unfold r_fallback in Hi. destruct (find_fallback C tys) as [[i m]|] eqn:E; [|by apply elem_of_nil in Hi].
    destruct (fb_deref C); [|by apply elem_of_nil in Hi]. apply find_fallback_Some in E as (->&(t'&Ht'&_)&_). simpl in Hi. rewrite Ht' in Hi.
    apply elem_of_list_singleton in Hi. injection Hi as -> ->. split; [|left; set_solver]. exists t'. split; [|done].
    by eapply elem_of_list_lookup_2.
Qed.
Lemma moving_inst o tys k u : has_fallback C tys = true -> o ∈ [VDefault; VMove; VMoveAssign; VSwap] -> (k, u) ∈ inst C o tys -> moving tys k u.
Proof.
  intros Hf Ho Hi. rewrite !elem_of_cons elem_of_nil in Ho.
  assert (Hmv : (k, u) ∈ (visits C tys ≫= r_move_into) -> moving tys k u).
  { rewrite elem_of_list_bind. intros (x&Hj&Hx%visits_in). destruct x as [t|t]; [|destruct Hx as [Hx _]]; simpl in Hj;
      apply elem_of_list_singleton in Hj; injection Hj as -> ->; (split; [by eexists|left; set_solver]). }
  destruct Ho as [->|[->|[->|[->|[]]]]]; cbn [inst] in Hi.
  - destruct tys as [|t r]; simpl in Hi; [by apply elem_of_nil in Hi|]. apply elem_of_list_singleton in Hi. injection Hi as -> ->.
    split; [exists t; split; [by left|done]|left; set_solver].
  - by apply Hmv.
  - by apply moving_massign.
  - apply elem_of_app in Hi as [Hi|Hi]; [|apply elem_of_app in Hi as [Hi|Hi]; [by apply Hmv|by apply moving_massign]].
    apply elem_of_list_bind in Hi as (x&Hj&Hx%visits_in). unfold r_swap_with in Hj.
    assert (Ht : exists t, t ∈ tys /\ match x with SInt t | SBk t => ity_uid t end = ity_uid t).
    { destruct x as [t|t]; [|destruct Hx as [Hx _]]; by exists t. }
    destruct Ht as (t&Ht&Hu). rewrite Hu in Hj. split; [exists t; split; [done|]|].
    + destruct (ut_swap _); set_solver.
    + left. destruct (ut_swap _); set_solver.
Qed.
Lemma moves_only x y c E s E' k u n s' : c = CMoveAssign x y \/ c = CSwap x y -> step c E s E' (OThrew (XUser k u n)) s' ->
  (forall tys', tys' = types_at E x \/ (exists u', part C (types_at E x) u' /\ tys' ∈ ut_members (te C u')) -> ~ no_fallback C tys') ->
  k ∈ [OpDefault; OpMove; OpMoveAssign; OpSwap].
Proof.
  intros Hc Hst Hf. pose proof (threw_needs _ _ _ _ _ _ _ _ Hst) as Hn.
  assert (Hh : forall tys', tys' = types_at E x \/ (exists u', part C (types_at E x) u' /\ tys' ∈ ut_members (te C u')) -> has_fallback C tys' = true).
  { intros tys' H. specialize (Hf tys' H). destruct (has_fallback C tys') eqn:Eh; [done|]. destruct Hf. by apply no_fallback_it. }
  assert (Hmv : part C (types_at E x) u /\ (k ∈ [OpDefault; OpMove; OpMoveAssign; OpSwap] \/ k = OpCopy /\ nt_copy (te C u) = true)).
  { clear Hst. induction Hn as [k u Hi|k u tys o k' u' Hn IH Hm Ho Hi].
    - assert (Hm : moving (types_at E x) k u).
      { assert (He : list_at E x = types_at E x \/ list_at E x = []).
        { unfold list_at, types_at. destruct (E !! x) as [[]|]; auto. }
        assert (Hi' : exists o, o ∈ [VDefault; VMove; VMoveAssign; VSwap] /\ (k, u) ∈ inst C o (list_at E x)).
        { destruct Hc as [-> | ->]; cbn [required] in Hi; eexists; (split; [|exact Hi]); set_solver. }
        destruct Hi' as (o&Ho&Hi'). destruct He as [He|He]; rewrite He in Hi'.
        - eapply moving_inst; [apply Hh; by left|exact Ho|done].
        - exfalso. rewrite !elem_of_cons elem_of_nil in Ho. destruct Ho as [->|[->|[->|[->|Ho]]]]; [by apply elem_of_nil in Hi'..|done]. }
      destruct Hm as ((t&Ht&<-)&Hk). split; [by apply part_top|done].
    - destruct IH as (Hp&Hk). destruct Hk as [Hk|[-> Hk]].
      + assert (Ho' : o ∈ [VDefault; VMove; VMoveAssign; VSwap]).
        { rewrite !elem_of_cons elem_of_nil in Hk. destruct Hk as [->|[->|[->|[->|[]]]]]; injection Ho as <-; set_solver. }
        destruct (moving_inst o tys k' u') as ((t&Ht&<-)&Hk'); [apply Hh; right; by eexists|done..|].
        split; [by eapply part_member|done].
      + rewrite (ge_copy _ _ _ HC _ Hk) in Hm. by apply elem_of_nil in Hm. }
  destruct Hmv as [_ [Hk|[-> Hk]]]; [done|]. exfalso.
  destruct (OriginFacts.threw_from C st nb eqf ltf HC _ _ _ _ _ _ Hst) as [[? _]|(_&Ht&_)]; [done|]. simpl in Ht. by rewrite Hk in Ht.
Qed.
End facts.
