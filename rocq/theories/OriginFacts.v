(** Where the exceptions of commands come from (proofs). *)
From Coq.ssr Require Import ssreflect.
From Coq Require Import ZArith Lia.
From iris.prelude Require Import prelude.
From stdpp Require Import gmap list numbers.
From Verif Require Import Base Types TypesFacts Dispatch DispatchFacts Values Client Observe Spec History Reach ReachFacts Raises Link LifeFacts.
From Verif Require Import OriginSpec Variant Sem Origins.
From Verif Require Rep Wp CoreFacts HistoryProof CostFacts OpFacts.

Lemma part_closed C ts : forall u tys t, part C ts u -> tys ∈ ut_members (te C u) -> t ∈ tys -> part C ts (ity_uid t).
Proof. intros. by eapply part_member. Qed.
Lemma org_from C K ts e : org C (part C ts) K e <-> from C K ts e.
Proof. by destruct e. Qed.

Section facts.
Context (C : cfg) (st nb : bool) (eqf ltf : uid -> uval -> uval -> bool) (HC : good_env C st nb).
Notation step := (step C st nb eqf ltf).

Definition origin (E : env) (c : cmd) (e : exn) : Prop :=
  e = XBadGet /\ uses_get c = true \/ from C (operations c) (subject E c) e.

Lemma o_op n E c : raises (origin E c) (op C n eqf ltf E c).
Proof.
  pose proof (o_sem C st nb HC (part C (subject E c)) (part_closed C _) n) as HS.
  assert (Hw : forall A (m : M A), raises (org C (part C (subject E c)) (operations c)) m -> raises (origin E c) m).
  { intros A m. apply raises_weaken. intros e He. right. by apply org_from. }
  assert (Hg : uses_get c = true -> forall tys a u B (f : loc -> M B), (forall t l, t ∈ tys -> ity_uid t = u ->
    raises (org C (part C (subject E c)) (operations c)) (f l)) -> raises (origin E c) (bind (var_get_ref C tys a u) f)).
  { intros Hc tys a u B f Hf. eapply raises_weaken; [|eapply (o_get_ref C st nb HC); exact Hf].
    intros e [->|He]; [by left|right; by apply org_from]. }
  assert (Hs : forall ts : list ity, (forall t, t ∈ ts -> t ∈ subject E c) -> forall t, t ∈ ts -> part C (subject E c) (ity_uid t)).
  { intros ts H t Ht. apply part_top, H, Ht. }
  assert (Hm : forall P u l j, raises P (member C u l j)).
  { intros. unfold member. apply raises_bind; [apply raises_expect|]. intros r. repeat case_match; first [apply raises_ret|apply raises_faulty]. }
  assert (Hf : forall P x, raises P (need_fresh E x)) by (intros; unfold need_fresh; case_match; first [apply raises_ret|apply raises_faulty]).
  assert (Hv : forall P x B (f : list ity * loc -> M B), (forall tys a, E !! x = Some (BVar tys a) -> raises P (f (tys, a))) -> raises P (bind (need_var E x) f)).
  { intros P x B f H. unfold need_var. destruct (E !! x) as [[tys a|]|]; try (intros s; exact I). intros s. by apply H. }
  assert (Ho : forall P x B (f : uid * loc -> M B), (forall u a, E !! x = Some (BObj u a) -> raises P (f (u, a))) -> raises P (bind (need_obj E x) f)).
  { intros P x B f H. unfold need_obj. destruct (E !! x) as [[|u a]|]; try (intros s; exact I). intros s. by apply H. }
  assert (Hvs : forall P xs, raises P (need_vars E xs)).
  { intros P xs. induction xs as [|x xs IH]; simpl; [apply raises_ret|]. apply Hv. intros.
    apply raises_bind; [done|]. intros. apply raises_ret. }
  assert (Hnew : forall P x tys k, (forall a, raises P (k a)) -> raises P (new_var E x tys k)).
  { intros. unfold new_var. apply raises_bind; [apply Hf|]. intros. apply raises_bind; [by apply raises_local_variant|]. intros. apply raises_ret. }
  assert (Hseq : forall P (m : M unit) (r : env * out), raises P m -> raises P (bind m (fun _ => ret r))).
  { intros. apply raises_bind; [done|]. intros. apply raises_ret. }
  destruct c; simpl in Hw, Hg, Hs, HS; cbn [op].
  - (* CMake *)
    apply Hw. apply raises_bind; [apply Hf|]. intros. apply raises_bind; [apply Hvs|]. intros.
    apply raises_bind; [|intros; apply raises_ret]. apply raises_stack_obj. intros. apply raises_bind.
    { apply o_maybe; [set_solver|done|]. apply (part_top C [IPlain u] (IPlain u)). set_solver. }
    intros. apply raises_bind; [|intros; apply raises_construct]. apply o_make_members.
    intros. eapply o_var_copy; [done|exact HS| |set_solver].
    intros t Ht. eapply part_member; [|done|done]. apply (part_top C [IPlain u] (IPlain u)). set_solver.
  - (* CDrop *)
    apply Hw. destruct (E !! x) as [[tys a|u a]|]; [| |apply raises_faulty].
    + apply raises_bind; [apply o_var_destroy|]. intros. apply Hseq, raises_drop_cell.
    + apply raises_bind; [apply (g_destroy _ _ _ HS)|]. intros. apply Hseq, raises_drop_cell.
  - (* CDefault *)
    apply Hw, Hnew. intros. eapply o_var_default; [exact HS| |set_solver].
    intros t Ht. apply (Hs tys); [done|]. destruct tys; [done|]. injection Ht as ->. by left.
  - (* CFrom *)
    apply Hw, Ho. intros u a0 Hx. apply Hnew. intros. eapply o_var_from; [exact HS|by apply Hs|..]; destruct mv; try done; set_solver.
  - (* CCopy *)
    apply Hw, Hv. intros tys a0 Hx. apply Hnew. intros. unfold subject, types_at in *. rewrite Hx in HS Hs |- *.
    eapply o_var_copy; [done|exact HS|by apply Hs|set_solver].
  - (* CMove *)
    apply Hw, Hv. intros tys a0 Hx. apply Hnew. intros. unfold subject, types_at in *. rewrite Hx in HS Hs |- *.
    eapply o_var_move; [done|exact HS|by apply Hs|set_solver].
  - (* CConvert *)
    apply Hw, Hv. intros tys2 a0 Hx. apply Hnew. intros. eapply o_var_convert; [done|exact HS|by apply Hs|..]; destruct mv; try done; set_solver.
  - (* CAssign *)
    apply Hw, Hv. intros tys a Hx. apply Hv. intros. apply Hseq. unfold subject, types_at in *. rewrite Hx in HS Hs |- *.
    eapply o_var_assign; [done|exact HS|by apply Hs|set_solver..].
  - (* CMoveAssign *)
    apply Hw, Hv. intros tys a Hx. apply Hv. intros. apply Hseq. unfold subject, types_at in *. rewrite Hx in HS Hs |- *.
    eapply o_var_massign; [done|exact HS|by apply Hs|set_solver..].
  - (* CAssignFrom *)
    apply Hw, Hv. intros tys a Hx. apply Ho. intros. apply Hseq. unfold subject, types_at in *. rewrite Hx in HS Hs |- *.
    eapply o_var_assign_from; [done|exact HS|by apply Hs|..]; destruct mv; try done; set_solver.
  - (* CAssignConvert *)
    apply Hw, Hv. intros tys a Hx. apply Hv. intros. apply Hseq. unfold subject, types_at in *. rewrite Hx in HS Hs |- *.
    eapply o_var_assign_convert; [done|exact HS|by apply Hs|set_solver..].
  - (* CSwap *)
    apply Hw, Hv. intros tys a Hx. apply Hv. intros. apply Hseq. unfold subject, types_at in *. rewrite Hx in HS Hs |- *.
    eapply o_var_swap; [done|exact HS|by apply Hs|set_solver..].
  - (* CPoke *)
    apply Hv. intros tys a Hx. apply Ho. intros. apply Hseq. unfold var_poke. apply Hg; [done|]. intros t l Ht <-.
    apply (g_cassign _ _ _ HS); [|set_solver..]. apply part_top. unfold types_at. by rewrite Hx.
  - (* CTake *)
    apply raises_bind; [apply Hf|]. intros. apply Hv. intros tys a0 Hx. apply Hg; [done|]. intros t l Ht <-.
    apply raises_bind; [|intros; apply raises_ret]. apply raises_stack_obj. intros.
    apply (g_copy _ _ _ HS); [|set_solver..]. apply part_top. unfold types_at. by rewrite Hx.
  - (* CChild *)
    apply Hv. intros tys a0 Hx. apply Hg; [done|]. intros t l Ht <-. apply raises_bind_ok; [apply Hm|].
    intros s [tys' a'] s' Hmem. apply Hnew. intros. eapply o_var_copy; [done|exact HS| |set_solver].
    intros t' Ht'. unfold member, bind in Hmem. destruct (expect_user _ _ _) as [r s1| |]; try done.
    destruct (ut_members _ !! j) as [tys1|] eqn:Hj; [|done]. destruct (r.2 !! j); [|done]. injection Hmem as <- _ _.
    eapply part_member; [|by eapply elem_of_list_lookup_2|done]. apply part_top. unfold types_at. by rewrite Hx.
  - (* CSetChild *)
    apply Hv. intros tys a0 Hx. apply Hv. intros tys2 a2 Hy. apply Hg; [done|]. intros t l Ht <-. apply raises_bind_ok; [apply Hm|].
    intros s [tys' a'] s' Hmem. apply Hseq. eapply o_var_assign; [done|exact HS| |set_solver..].
    intros t' Ht'. unfold member, bind in Hmem. destruct (expect_user _ _ _) as [r s1| |]; try done.
    destruct (ut_members _ !! j) as [tys1|] eqn:Hj; [|done]. destruct (r.2 !! j); [|done]. injection Hmem as <- _ _.
    eapply part_member; [|by eapply elem_of_list_lookup_2|done]. apply part_top. unfold types_at. by rewrite Hx.
  - (* CWhich *)
    apply Hv. intros. apply raises_bind; [apply raises_which|]. intros. apply raises_ret.
  - (* CRead *)
    apply Hv. intros. apply raises_bind; [by eapply o_var_read|]. intros. apply raises_ret.
  - (* CGet *)
    apply Hv. intros. apply raises_bind; [by eapply (o_var_get C st nb HC)|]. intros [l|]; [|apply raises_ret].
    apply raises_bind; [apply (g_read _ _ _ HS)|]. intros. apply raises_ret.
  - (* CGetRef *)
    apply Hv. intros. apply Hg; [done|]. intros. apply raises_bind; [apply (g_read _ _ _ HS)|]. intros. apply raises_ret.
  - (* CType *)
    apply Hv. intros. apply raises_bind; [by eapply (o_var_type C st nb HC)|]. intros. apply raises_ret.
  - (* CEq *)
    apply Hv. intros. apply Hv. intros. apply raises_bind; [by eapply o_var_eq|]. intros. apply raises_ret.
  - (* CLt *)
    apply Hv. intros. apply Hv. intros. apply raises_bind; [by eapply o_var_lt|]. intros. apply raises_ret.
Qed.

(** What threw. *)
Lemma op_threw c E s E' e s' : step c E s E' (OThrew e) s' -> exists n, op C n eqf ltf E c s = Exn e s'.
Proof.
  intros (_&_&n0&Hy). exists n0. specialize (Hy n0 ltac:(lia)). unfold exec in Hy.
  pose proof (HistoryProof.op_returns C eqf ltf n0 E c s) as Ho.
  destruct (op C n0 eqf ltf E c s) as [[E1 o1] s1|e1 s1|f]; [| |done].
  - injection Hy as -> -> ->. by destruct (Ho _ _ eq_refl e).
  - by injection Hy as _ -> ->.
Qed.

Lemma threw_from c E s E' e s' : step c E s E' (OThrew e) s' ->
  e = XBadGet /\ uses_get c = true \/ from C (operations c) (subject E c) e.
Proof. intros H. destruct (op_threw _ _ _ _ _ _ H) as [n Hn]. pose proof (o_op n E c s) as Hr. by rewrite Hn in Hr. Qed.

(** ** By content *)
Lemma never_uses tys t : no_fallback C tys -> doubly_throwing C t -> never_uses_backup C tys t = false.
Proof.
  intros Hf%no_fallback_it [Hc%not_nothrow_copy Hm%not_nothrow_move]. unfold never_uses_backup. by rewrite Hf Hc Hm.
Qed.
(** A parked content is visited as such. *)
Lemma visit_at {A} E s x tys a k t (f : sty -> loc -> M A) : reached C st nb eqf ltf E s ->
  E !! x = Some (BVar tys a) -> var_holds C (mem s) tys a k -> tys !! k.1.2 = Some t ->
  visit C tys a f s = f (if k.1.1 then SBk t else SInt t) a s.
Proof.
  intros Hre Ex Ha Ht. destruct (CostFacts.holds_which _ _ _ _ _ Ha) as (w&t'&Hr&Ht'&Hw&Ew). rewrite Ht in Ht'. injection Ht' as <-.
  unfold visit, bind. rewrite Hr Hw (visitation_lookup _ _ _ t) //; [|apply (ge_lim _ _ _ HC)].
  destruct k as [[[|] i] v]; simpl in *.
  - destruct (OpFacts.parked_why C st nb eqf ltf HC E s x tys i v Hre) as (Hf&t'&Ht'&Hd); [by exists a|].
    rewrite Ht in Ht'. injection Ht' as <-. rewrite never_uses // decide_False //. lia.
  - rewrite decide_True; [|lia]. by destruct (never_uses_backup C tys t).
Qed.

Definition U2 (b : Prop) (t1 t2 : ity) (u : uid) : Prop := part C [t2] u \/ b /\ part C [t1] u.
Lemma U2_closed b t1 t2 : forall u tys t, U2 b t1 t2 u -> tys ∈ ut_members (te C u) -> t ∈ tys -> U2 b t1 t2 (ity_uid t).
Proof. intros u tys t [H|[Hb H]] Ht Hin; [left|right; split; [done|]]; by eapply part_member. Qed.
Lemma org_U2 b t1 t2 K e : org C (U2 b t1 t2) K e -> from C K [t2] e \/ b /\ from C K [t1] e.
Proof. destruct e as [k u n|n| |]; simpl; [|by left|done..]. intros (Hk&Hn&[Hu|[Hb Hu]]); auto. Qed.
Lemma part_self t : part C [t] (ity_uid t). Proof. apply part_top. set_solver. Qed.
Lemma sem_part t n : graded C (part C [t]) (sem C n). Proof. apply (o_sem C st nb HC), part_closed. Qed.

(** Assignment across alternatives. *)
Section across.
Context (n : nat) (E : env) (s : state) (x : name) (tys : list ity) (a : loc) (k1 : vval) (t1 t2 : ity).
Context (Hre : reached C st nb eqf ltf E s) (Ex : E !! x = Some (BVar tys a)) (Ha : var_holds C (mem s) tys a k1)
  (Ht1 : tys !! k1.1.2 = Some t1).

Lemma assign_4_at rw src e s' : no_fallback C tys -> doubly_throwing C t2 ->
  assign_4 C (sem C n) tys a rw (SInt t2) src s = Exn e s' ->
  from C [OpCopy] [t2] e \/ backs_up C tys t1 t2 /\ k1.1.1 = false /\ from C [OpCopy] [t1] e.
Proof.
  intros Hnf Hd H. unfold assign_4 in H. rewrite (visit_at E s x tys a k1 t1) // in H.
  set (b := backs_up C tys t1 t2 /\ k1.1.1 = false).
  assert (from C [OpCopy] [t2] e \/ b /\ from C [OpCopy] [t1] e); [|unfold b in *; tauto].
  apply org_U2.
  pose proof (o_backup_assigner C (U2 b t1 t2) _ (o_sem C st nb HC _ (U2_closed b t1 t2) n) [OpCopy]
    a rw (SInt t2) src (if k1.1.1 then SBk t1 else SInt t1) a) as Hr.
  specialize (Hr (or_introl (part_self t2))). unfold b in Hr |- *.
  destruct k1.1.1 eqn:Hk.
  - specialize (Hr I ltac:(set_solver) s). by rewrite H in Hr.
  - assert (Hm0 : it_move C t1 = false -> U2 (backs_up C tys t1 t2 /\ false = false) t1 t2 (ity_uid t1)); [|specialize (Hr Hm0 ltac:(set_solver) s); by rewrite H in Hr]. intros Hm. right. split; [|apply part_self].
    split; [|done]. split; [done|]. split; [done|]. by apply not_nothrow_move.
Qed.
Lemma assigner_at rw src e s' : assigner C (sem C n) tys a rw (SInt t2) src s = Exn e s' ->
  from C [OpCopy] [t2] e \/ backs_up C tys t1 t2 /\ k1.1.1 = false /\ from C [OpCopy] [t1] e.
Proof.
  pose proof (o_s_copy C (part C [t2]) _ (sem_part t2 n) [OpCopy] (SInt t2)) as Hcp. simpl in Hcp.
  assert (Hc : forall d, raises (org C (part C [t2]) [OpCopy]) (i_copy (sem C n) t2 d src)).
  { intros d. apply (Hcp d src); [apply part_self|set_solver]. }
  assert (Hfin : forall m : M unit, raises (org C (part C [t2]) [OpCopy]) m -> m s = Exn e s' -> from C [OpCopy] [t2] e).
  { intros m Hr H. specialize (Hr s). rewrite H in Hr. by apply org_from. }
  unfold assigner. simpl. destruct (it_copy C t2) eqn:Hcc.
  { intros H. left. eapply Hfin; [|exact H]. unfold assign_1. apply raises_noexcept. }
  destruct (it_move C t2) eqn:Hm.
  { intros H. left. eapply Hfin; [|exact H]. unfold assign_2. simpl. apply raises_scoped.
    - apply raises_stack_obj. done.
    - intros. apply (o_i_destroy C (part C [t2]) _ (sem_part t2 n)).
    - intros. apply raises_bind; [apply o_destroy_content|]. intros. apply raises_bind; [|intros; apply raises_indicate].
      by apply (o_i_move_nt C (part C [t2]) _ (sem_part t2 n)). }
  destruct (has_fallback C tys) eqn:Hf.
  { intros H. left. eapply Hfin; [|exact H]. unfold assign_3. apply raises_bind; [apply o_destroy_content|]. intros.
    apply raises_bind; [|intros; apply raises_indicate]. apply raises_on_exn; [apply Hc|apply o_construct_fallback]. }
  apply assign_4_at; [by apply no_fallback_it|]. apply doubly_throwing_it. unfold Rep.dthrow. by rewrite Hcc Hm.
Qed.
Lemma move_assigner_at rw src e s' : move_assigner C (sem C n) tys a rw (SInt t2) src s = Exn e s' ->
  doubly_throwing C t2 /\
  (~ no_fallback C tys /\ from C [OpMove] [t2] e \/
   no_fallback C tys /\ (from C [OpCopy] [t2] e \/ backs_up C tys t1 t2 /\ k1.1.1 = false /\ from C [OpCopy] [t1] e)).
Proof.
  unfold move_assigner. simpl. destruct (it_move C t2) eqn:Hm.
  { unfold massign_move, noexcept. by destruct (bind _ _ _). }
  destruct (it_copy C t2) eqn:Hcc.
  { unfold noexcept. by destruct (assign_1 _ _ _ _ _ _ _ _). }
  assert (Hd : doubly_throwing C t2) by (apply doubly_throwing_it; unfold Rep.dthrow; by rewrite Hcc Hm).
  intros H. split; [done|]. destruct (has_fallback C tys) eqn:Hf.
  - left. split; [rewrite no_fallback_it Hf; done|]. apply org_from.
    assert (Hr : raises (org C (part C [t2]) [OpMove]) (massign_fallback C (sem C n) tys a rw (SInt t2) src)); [|specialize (Hr s); by rewrite H in Hr].
    unfold massign_fallback. apply raises_bind; [apply o_destroy_content|]. intros. apply raises_bind; [|intros; apply raises_indicate].
    apply raises_on_exn; [|apply o_construct_fallback]. simpl. eapply o_i_move; [apply sem_part|apply part_self|set_solver].
  - right. split; [by apply no_fallback_it|]. eapply assign_4_at; [by apply no_fallback_it|done|exact H].
Qed.
End across.

(** The source of an assignment across alternatives is not parked. *)
Lemma not_parked (mv : bool) x y E s tys k1 k2 :
  admissible C st nb E s (if mv then CMoveAssign x y else CAssign x y) -> sees C E s x tys k1 -> sees C E s y tys k2 ->
  k1.1 <> k2.1 -> k2.1.1 = false.
Proof.
  intros (D&σ&Hsh&_&Hu) Hx Hy Hk. assert (x <> y).
  { intros ->. apply (sees_is_var _ _ _ _ _ _ _ Hsh) in Hx, Hy. unfold is_var in *. rewrite Hx in Hy. by injection Hy as ->. }
  apply (sees_is_var _ _ _ _ _ _ _ Hsh) in Hx, Hy.
  destruct mv; destruct (Hu ltac:(done) _ _ _ Hx Hy) as [_ H1]; destruct k2.1.1; try done; by destruct Hk, H1.
Qed.

Lemma assign_ops x y E s E' e s' tys k1 k2 t1 t2 : step (CAssign x y) E s E' (OThrew e) s' ->
  sees C E s x tys k1 -> sees C E s y tys k2 -> tys !! k1.1.2 = Some t1 -> tys !! k2.1.2 = Some t2 ->
  if decide (k1.1 = k2.1) then
    from C [OpCopyAssign; OpCopy] [t2] e /\ (ut_members (te C (ity_uid t2)) = [] -> from C [OpCopyAssign] [t2] e)
  else from C [OpCopy] [t2] e \/ backs_up C tys t1 t2 /\ k1.1.1 = false /\ from C [OpCopy] [t1] e.
Proof.
  intros H Hsx Hsy Ht1 Ht2. destruct (op_threw _ _ _ _ _ _ H) as [n Hn]. destruct Hsx as (a&Ea&Ha), Hsy as (b&Eb&Hb).
  simpl in Hn. unfold need_var, bind in Hn. rewrite Ea Eb /= in Hn.
  destruct (var_assign C (sem C n) tys a b s) as [r s1|e1 s1|f] eqn:Em; [done| |done]. injection Hn as -> ->.
  unfold var_assign, bind in Em.
  destruct (CostFacts.holds_which _ _ _ _ _ Ha) as (wa&ta&Ra&Hta&Wa&Wa'), (CostFacts.holds_which _ _ _ _ _ Hb) as (wb&tb&Rb&Htb&Wb&Wb').
  rewrite Ra Rb in Em. destruct (decide (k1.1 = k2.1)) as [Hk|Hk].
  - assert (Hw : wa = wb) by (by rewrite Wa' Wb' Hk). rewrite decide_True // in Em. rewrite (visit_at E s x tys a k1 t1) // in Em; [|apply H].
    rewrite Hk Ht2 in Ht1. injection Ht1 as <-.
    assert (Hr : forall K, (forall l r, raises (org C (part C [t2]) K) (i_cassign (sem C n) t2 l r)) -> from C K [t2] e).
    { intros K Hr. apply org_from. destruct k1.1.1; simpl in Em.
      - assert (Hr' : raises (org C (part C [t2]) K) (assign_storage (sem C n) b (SBk t2) a)); [|specialize (Hr' s); simpl in Hr'; by rewrite Em in Hr'].
        simpl. apply raises_bind; [apply raises_bk_get|]. intros. apply raises_bind; [apply raises_bk_get|]. done.
      - specialize (Hr a b s). by rewrite Em in Hr. }
    split; [|intros Hm]; apply Hr; intros l r.
    + eapply o_i_cassign; [apply sem_part|apply part_self|set_solver..].
    + destruct t2 as [u|u]; simpl in *.
      * apply o_cassign_flat; [apply (part_self (IPlain u))|done|set_solver].
      * apply raises_bind; [apply raises_wrap_ptr|]. intros. apply raises_bind; [apply raises_wrap_ptr|]. intros.
        apply o_cassign_flat; [apply (part_self (IWrap u))|done|set_solver].
  - assert (Hw : wa <> wb).
    { rewrite Wa' Wb'. intros Hw. apply Hk. destruct k1 as [[[] i] v], k2 as [[[] j] w]; simpl in *; f_equal; lia. }
    rewrite decide_False // in Em.
    rewrite (visit_at E s y tys b k2 t2) // in Em; [|apply H].
    rewrite (not_parked false x y E s tys k1 k2) // in Em; [|apply H|by exists a|by exists b].
    eapply assigner_at; [apply H|exact Ea|exact Ha|done|exact Em].
Qed.

Lemma move_assign_ops x y E s E' e s' tys k1 k2 t1 t2 : step (CMoveAssign x y) E s E' (OThrew e) s' ->
  sees C E s x tys k1 -> sees C E s y tys k2 -> tys !! k1.1.2 = Some t1 -> tys !! k2.1.2 = Some t2 ->
  if decide (k1.1 = k2.1) then
    exists u, t2 = IPlain u /\ from C [OpMoveAssign; OpMove; OpCopy] [t2] e /\
              (ut_members (te C u) = [] -> from C [OpMoveAssign] [t2] e)
  else doubly_throwing C t2 /\
    (~ no_fallback C tys /\ from C [OpMove] [t2] e \/
     no_fallback C tys /\ (from C [OpCopy] [t2] e \/ backs_up C tys t1 t2 /\ k1.1.1 = false /\ from C [OpCopy] [t1] e)).
Proof.
  intros H Hsx Hsy Ht1 Ht2. destruct (op_threw _ _ _ _ _ _ H) as [n Hn]. destruct Hsx as (a&Ea&Ha), Hsy as (b&Eb&Hb).
  simpl in Hn. unfold need_var, bind in Hn. rewrite Ea Eb /= in Hn.
  destruct (var_massign C (sem C n) tys a b s) as [r s1|e1 s1|f] eqn:Em; [done| |done]. injection Hn as -> ->.
  assert (Em' : variant_massign C (sem C n) tys a b s = Exn e s').
  { revert Em. unfold var_massign, noexcept_if, noexcept. destruct (_ && _); [|done]. by destruct (variant_massign _ _ _ _ _ _). }
  clear Em. rename Em' into Em. unfold variant_massign, bind in Em.
  destruct (CostFacts.holds_which _ _ _ _ _ Ha) as (wa&ta&Ra&Hta&Wa&Wa'), (CostFacts.holds_which _ _ _ _ _ Hb) as (wb&tb&Rb&Htb&Wb&Wb').
  rewrite Ra Rb in Em. destruct (decide (k1.1 = k2.1)) as [Hk|Hk].
  - assert (Hw : wa = wb) by (by rewrite Wa' Wb' Hk). rewrite decide_True // in Em. rewrite (visit_at E s x tys a k1 t1) // in Em; [|apply H].
    rewrite Hk Ht2 in Ht1. injection Ht1 as <-.
    assert (Hr : forall P, (forall l r, raises P (i_massign (sem C n) t2 l r)) -> P e).
    { intros P Hr. destruct k1.1.1; simpl in Em.
      - assert (Hr' : raises P (move_storage (sem C n) b (SBk t2) a)); [|specialize (Hr' s); simpl in Hr'; by rewrite Em in Hr'].
        simpl. apply raises_bind; [apply raises_bk_get|]. intros. apply raises_bind; [apply raises_bk_get|]. done.
      - specialize (Hr a b s). by rewrite Em in Hr. }
    destruct t2 as [u|u].
    + exists u. split; [done|]. split; [|intros Hm]; apply org_from, Hr; intros l r.
      * eapply o_i_massign; [apply sem_part|apply part_self|set_solver..].
      * simpl. apply o_massign_flat; [apply (part_self (IPlain u))|done|set_solver].
    + exfalso. apply (Hr (fun _ => False)). intros l r. simpl. apply raises_noexcept.
  - assert (Hw : wa <> wb).
    { rewrite Wa' Wb'. intros Hw. apply Hk. destruct k1 as [[[] i] v], k2 as [[[] j] w]; simpl in *; f_equal; lia. }
    rewrite decide_False // in Em.
    rewrite (visit_at E s y tys b k2 t2) // in Em; [|apply H].
    rewrite (not_parked true x y E s tys k1 k2) // in Em; [|apply H|by exists a|by exists b].
    eapply move_assigner_at; [apply H|exact Ea|exact Ha|done|exact Em].
Qed.

(** Construction. *)
Lemma new_threw E s x tys k e s' : reached C st nb eqf ltf E s -> new_var E x tys k s = Exn e s' -> exists a s0 s1,
  mem s !! a = None /\ mem s0 = <[a := Cell KVar None None]> (mem s) /\ k a s0 = Exn e s1.
Proof.
  intros Hr. destruct (CoreFacts.reached_inv _ _ _ _ _ HC _ _ Hr) as (B&σ&Hi).
  assert (Hf : mem s !! nxt s = None).
  { destruct (mem s !! nxt s) eqn:Hm; [|done]. apply (Wp.gi_fresh _ _ (HistoryProof.inv_ginv _ _ _ _ _ _ _ Hi)) in Hm. lia. }
  unfold new_var, need_fresh, local_variant, bind, new_cell, on_exn. destruct (E !! x); [done|]. simpl.
  match goal with |- context [k (nxt s) ?s0] => set (s1 := s0) end. intros H. exists (nxt s), s1.
  destruct (k (nxt s) s1) as [r s2|e2 s2|f] eqn:Ek; [done| |done].
  pose proof (raises_drop_cell (fun _ => False) (nxt s) s2) as Hd. destruct (drop_cell (nxt s) s2); try done.
  injection H as -> ->. by exists s2.
Qed.
Lemma holds_which_new s s0 tys a b k : var_holds C (mem s) tys b k -> mem s !! a = None ->
  mem s0 = <[a := Cell KVar None None]> (mem s) ->
  exists w t, read_which b s0 = Ok w s0 /\ tys !! k.1.2 = Some t /\ which_of w = Z.of_nat k.1.2.
Proof.
  intros Hb Ha Hm. destruct (CostFacts.holds_which _ _ _ _ _ Hb) as (w&t&Hr&Ht&Hw&_). exists w, t. split; [|done].
  assert (a <> b) by (intros ->; unfold read_which, get_cell, bind in Hr; by rewrite Ha in Hr).
  revert Hr. unfold read_which, get_cell, bind. rewrite Hm lookup_insert_ne //.
  destruct (mem s !! b) as [c|]; [|done]. simpl. destruct (cw c); [|done]. unfold ret. by intros [= ->].
Qed.
Lemma visit_new {A} s s0 tys a b k t (f : sty -> loc -> M A) : var_holds C (mem s) tys b k -> mem s !! a = None ->
  mem s0 = <[a := Cell KVar None None]> (mem s) -> tys !! k.1.2 = Some t ->
  exists x, sty_ity x = t /\ visit C tys b f s0 = f x b s0.
Proof.
  intros Hb Ha Hm Ht. destruct (holds_which_new _ _ _ _ _ _ Hb Ha Hm) as (w&t'&Hr&Ht'&Hw). rewrite Ht in Ht'. injection Ht' as <-.
  destruct (CostFacts.visit_which C st nb HC tys b w _ t f s0 Hr Hw Ht) as [H|H]; [by exists (SInt t)|by exists (SBk t)].
Qed.

Lemma construct_ops (mv : bool) x y E s E' e s' tys k t : step (if mv then CMove x y else CCopy x y) E s E' (OThrew e) s' ->
  sees C E s y tys k -> tys !! k.1.2 = Some t -> from C [if mv then OpMove else OpCopy] [t] e.
Proof.
  intros H (b&Eb&Hb) Ht. destruct (op_threw _ _ _ _ _ _ H) as [n Hn].
  assert (Hn' : new_var E x tys (fun a => if mv then var_move C (sem C n) tys a b else var_copy C (sem C n) tys a b) s = Exn e s').
  { destruct mv; simpl in Hn; unfold need_var, bind in Hn; rewrite Eb /= in Hn; exact Hn. }
  destruct (new_threw _ _ _ _ _ _ _ (proj1 H) Hn') as (a&s0&s1&Ha&Hm&Hk). apply org_from.
  assert (Hv : bind (visit C tys b (if mv then move_into C (sem C n) a else copy_into (sem C n) a)) (fun _ => let! w := which b in indicate_which a w) s0 = Exn e s1).
  { destruct mv; [|exact Hk]. revert Hk. unfold var_move, noexcept_if, noexcept. destruct (move_noexcept_constructible C tys); [|done].
    by destruct (bind _ _ s0). }
  unfold bind in Hv. destruct (visit_new s s0 tys a b k t (if mv then move_into C (sem C n) a else copy_into (sem C n) a) Hb Ha Hm Ht) as (z&Hz&Hvz).
  rewrite Hvz in Hv. clear Hvz. subst t.
  assert (Hr : raises (org C (part C [sty_ity z]) [if mv then OpMove else OpCopy])
    (bind ((if mv then move_into C (sem C n) a else copy_into (sem C n) a) z b) (fun _ => let! w := which b in indicate_which a w))).
  { apply raises_bind.
    - destruct mv; [eapply o_move_into|eapply o_copy_into]; first [apply sem_part|apply part_self|set_solver].
    - intros. apply raises_bind; [apply raises_which|]. intros. apply raises_indicate. }
  specialize (Hr s0). unfold bind in Hr. by rewrite Hv in Hr.
Qed.

Lemma default_ops x tys E s E' e s' : step (CDefault x tys) E s E' (OThrew e) s' ->
  exists t, head tys = Some t /\ ~ nothrow_default C t /\ from C [OpDefault] [t] e.
Proof.
  intros H. destruct (op_threw _ _ _ _ _ _ H) as [n Hn]. simpl in Hn.
  destruct (new_threw _ _ _ _ _ _ _ (proj1 H) Hn) as (a&s0&s1&_&_&Hk). destruct tys as [|t r]; [done|].
  exists t. split; [done|]. unfold var_default in Hk. destruct (it_default C t) eqn:Hd.
  { unfold noexcept_if, noexcept in Hk. by destruct (bind _ _ s0). }
  cbn [noexcept_if] in Hk. split; [by apply not_nothrow_default|]. apply org_from.
  assert (Hr : raises (org C (part C [t]) [OpDefault]) (bind (i_value (sem C n) t a) (fun _ => indicate_which a 0)));
    [|specialize (Hr s0); by rewrite Hk in Hr].
  apply raises_bind; [|intros; apply raises_indicate]. eapply o_i_value; [apply sem_part|apply part_self|set_solver].
Qed.

Lemma from_ops x tys y (mv : bool) E s E' e s' u v i t : step (CFrom x tys y mv) E s E' (OThrew e) s' ->
  sees_obj C E s y u v -> best_match C tys u i -> tys !! i = Some t ->
  from C (if decide (ity_uid t = u) then [if mv then OpMove else OpCopy] else [OpConvert; OpMove]) [t] e.
Proof.
  intros H (b&Eb&_) Hi Ht. destruct (op_threw _ _ _ _ _ _ H) as [n Hn]. simpl in Hn. unfold need_obj, bind in Hn. rewrite Eb /= in Hn.
  destruct (new_threw _ _ _ _ _ _ _ (proj1 H) Hn) as (a&s0&s1&_&_&Hk). apply best_match_resolve in Hi. apply org_from.
  assert (Hr : raises (org C (part C [t]) (if decide (ity_uid t = u) then [if mv then OpMove else OpCopy] else [OpConvert; OpMove]))
    (var_from C (sem C n) tys a u b mv)); [|specialize (Hr s0); by rewrite Hk in Hr].
  unfold var_from, initialize. rewrite Hi Ht. apply raises_bind; [|intros; apply raises_indicate].
  apply raises_bind; [|intros; apply raises_ret]. case_decide as Hu.
  - destruct mv; [eapply o_i_move_from|eapply o_i_copy_from]; first [apply sem_part|apply part_self|set_solver].
  - apply raises_scoped.
    + apply raises_stack_obj. intros. apply o_convert_obj; [apply part_self|set_solver].
    + intros. apply (g_destroy _ _ _ (sem_part t n)).
    + intros. eapply o_i_move_from; [apply sem_part|apply part_self|set_solver].
Qed.
End facts.
