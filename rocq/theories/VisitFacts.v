(** Visitation of several variants, some of them rvalues (proofs). *)
From stdpp Require Import gmap.
From iris.proofmode Require Import tactics.
From iris.bi Require Import big_op.
From Verif Require Import Base Types TypesFacts Dispatch Variant Sem Values ValuesFacts Client Observe ObserveFacts Spec Trace TraceFacts History Owned OwnedFacts.
From Verif Require Import Heap Wp Rep Link SpecInt SpecVar SpecAssign SpecSem SpecQuery World ClientProof Levels HistoryProof Reach ReachFacts CoreFacts LifeFacts.
From Verif Require Import Queries Ask QueryFacts VisitSpec.

(** ** Preparation and call taken apart *)

(** [leave fins m]: [m], then the scope exits [fins] in this order, whether [m] returns or
    throws. *)
Fixpoint leave {A} (fins : list (M unit)) (m : M A) : M A :=
  match fins with [] => m | fin :: r => leave r (finally m fin) end.
Lemma leave_fault {A} fins (m : M A) s x : m s = Fault x -> leave fins m s = Fault x.
Proof.
  revert m. induction fins as [|fin fins IH]; intros m H; simpl; [done|]. apply IH. unfold finally. by rewrite H.
Qed.
Lemma leave_threw {A} fins (m : M A) s e s' a s3 : m s = Exn e s' -> leave fins m s <> Ok a s3.
Proof.
  revert m s'. induction fins as [|fin fins IH]; intros m s' H; simpl; [by rewrite H|].
  destruct (fin s') as [u s4|e' s4|x] eqn:Hf.
  - eapply IH. unfold finally. by rewrite H Hf.
  - rewrite (leave_fault _ _ _ FTerminate); [done|]. unfold finally. by rewrite H Hf.
  - rewrite (leave_fault _ _ _ x); [done|]. unfold finally. by rewrite H Hf.
Qed.
Lemma leave_ok {A} fins (m : M A) (m' : M unit) s s' s2 s3 a : m s = Ok a s2 -> m' s' = Ok tt s2 ->
  leave fins m' s' = Ok tt s3 -> leave fins m s = Ok a s3.
Proof.
  revert m m' s2. induction fins as [|fin fins IH]; intros m m' s2 H H' Hl; simpl in *; [congruence|].
  destruct (fin s2) as [[] s4|e s4|x] eqn:Hf.
  - eapply (IH _ _ s4); [..|exact Hl]; unfold finally; [by rewrite H Hf|by rewrite H' Hf].
  - exfalso. eapply leave_threw; [|exact Hl]. unfold finally. by rewrite H' Hf.
  - rewrite (leave_fault _ _ _ x) in Hl; [done|]. unfold finally. by rewrite H' Hf.
Qed.
Lemma leave_exn {A} fins (m : M A) (m' : M unit) s s' s2 s3 e : m s = Exn e s2 -> m' s' = Ok tt s2 ->
  leave fins m' s' = Ok tt s3 -> leave fins m s = Exn e s3.
Proof.
  revert m m' s2. induction fins as [|fin fins IH]; intros m m' s2 H H' Hl; simpl in *; [congruence|].
  destruct (fin s2) as [[] s4|e' s4|x] eqn:Hf.
  - eapply (IH _ _ s4); [..|exact Hl]; unfold finally; [by rewrite H Hf|by rewrite H' Hf].
  - exfalso. eapply leave_threw; [|exact Hl]. unfold finally. by rewrite H' Hf.
  - rewrite (leave_fault _ _ _ x) in Hl; [done|]. unfold finally. by rewrite H' Hf.
Qed.

Section prep.
Context (C : cfg) (S : usem).
Notation prepared := (list arg * list (M unit))%type.

Definition cleanup {A} (m : M A) (h : M unit) : M A := fun s =>
  match m s with
  | Ok a s' => Ok a s'
  | Exn e s' => match h s' with
                | Ok _ s'' => Exn e s''
                | Exn _ _ => Fault FTerminate
                | Fault f => Fault f
                end
  | Fault f => Fault f
  end.
Definition hold (mk : M loc) (d : loc -> M unit) (body : loc -> M prepared) : M prepared :=
  let! x := mk in
  let! p := cleanup (body x) (do! d x in drop_cell x) in
  ret (p.1, p.2 ++ [do! d x in drop_cell x]).

Fixpoint prep_call (done : list arg) (values : list arg) : M prepared :=
  match values with
  | [] => ret (done, [])
  | (u, l, true) :: r =>
      hold (stack_obj (fun x => us_move S u x l)) (us_destroy S u) (fun x => prep_call (done ++ [(u, x, true)]) r)
  | (u, l, false) :: r => prep_call (done ++ [(u, l, false)]) r
  end.
Fixpoint prep_one (vs : list visitable) (values : list arg) : M prepared :=
  match vs with
  | [] => prep_call [] values
  | (tys, a, true) :: r =>
      hold (local_variant (fun x => var_move C S tys x a)) (var_destroy C S tys)
           (fun x => visit1 C (fun g => prep_one r (values ++ [g])) tys x true)
  | (tys, a, false) :: r => visit1 C (fun g => prep_one r (values ++ [g])) tys a false
  end.

Lemma leave_app {A} fins fin (m : M A) : leave (fins ++ [fin]) m = finally (leave fins m) fin.
Proof. revert m. induction fins as [|f fins IH]; intros m; simpl; [done|]. by rewrite IH. Qed.

Context {A : Type} (f : list arg -> M A).
Notation rest := (fun p : prepared => leave p.2 (f p.1)).

Lemma scoped_hold mk d (body : loc -> M A) (pbody : loc -> M prepared) s :
  (forall x s, body x s = bind (pbody x) rest s) ->
  scoped mk d body s = bind (hold mk d pbody) rest s.
Proof.
  intros Hb. unfold scoped, hold, bind at 1 3 4. destruct (mk s) as [x s1|e s1|x]; [|done..].
  unfold finally, bind at 2 3. unfold cleanup, ret, bind in *. rewrite Hb.
  destruct (pbody x s1) as [[args fins] s2|e s2|?]; [|by destruct (d x s2) as [? s3|?|?]; [destruct (drop_cell x s3)|..]|done].
  simpl. rewrite leave_app. done.
Qed.
Lemma visit1_bind tys a mv (g : arg -> M A) (pg : arg -> M prepared) s :
  (forall x s, g x s = bind (pg x) rest s) ->
  visit1 C g tys a mv s = bind (visit1 C pg tys a mv) rest s.
Proof.
  intros Hg. unfold visit1, visit_user, visit, bind. destruct (read_which a s) as [w s1|e s1|?]; [|done..].
  destruct (visitation _ _ _) as [t| |]; [|done..].
  assert (forall l s, unwrap_int t l (fun u l => g (u, l, mv)) s =
    match unwrap_int t l (fun u l => pg (u, l, mv)) s with Ok p s' => leave p.2 (f p.1) s' | Exn e s' => Exn e s' | Fault x => Fault x end) as Hu.
  { intros l s'. destruct t as [u|u]; simpl; [apply Hg|]. unfold bind. destruct (wrap_ptr u l s'); [|done..]. apply Hg. }
  destruct (never_uses_backup C tys t); [apply Hu|]. destruct (decide _); [apply Hu|].
  simpl. unfold bind. destruct (bk_get t a s1); [|done..]. apply Hu.
Qed.

Lemma do_call_prep pre values s : do_call S f pre values s = bind (prep_call pre values) rest s.
Proof.
  revert pre s. induction values as [|[[u l] []] r IH]; intros pre s; simpl; [done| |apply IH].
  apply scoped_hold. intros x s'. apply IH.
Qed.
Lemma one_by_one_prep vs values value s : one_by_one C S f vs values value s = bind (prep_one vs (values ++ [value])) rest s.
Proof.
  revert values value s. induction vs as [|[[tys a] []] r IH]; intros values value s; simpl.
  - apply do_call_prep.
  - apply scoped_hold. intros x s'. apply visit1_bind. intros g s''. apply IH.
  - apply visit1_bind. intros g s''. apply IH.
Qed.
End prep.

(** ** Preparation, in the logic *)
Section wps.
Context (C : cfg) (W : wpar) (Hwf : wf_env C W) (Hlim : 0 < lim C) (S : usem) (k0 : nat) (Hok : usem_ok C W k0 S).
Notation wp := (wp W).
Notation tobj := (tobj C W).
Notation Rvar := (Rvar C W).
Notation R := (R C W).
Notation prepared := (list arg * list (M unit))%type.

Lemma wp_cleanup {A} (m : M A) (hd : M unit) Q X :
  wp m Q (fun e => wp hd (fun _ => X e) (fun _ => False%I)) ⊢ wp (cleanup m hd) Q X.
Proof.
  constructor; intros h Hw. apply wp_unfold. intros s hf Hm Hd Hg. apply wp_unfold in Hw. specialize (Hw s hf Hm Hd Hg). unfold cleanup.
  destruct (m s) as [a s'|e s'|x]; [done| |done].
  destruct Hw as (h'&Hm'&Hd'&Hg'&Ht'&Hw'). apply wp_unfold in Hw'. specialize (Hw' s' hf Hm' Hd' Hg').
  destruct (hd s') as [a s''|e' s''|x]; [|by destruct Hw' as (?&?&?&?&?&[])|done].
  rewrite -Ht'. done.
Qed.

(** What memory shows at [l]. *)
Definition shown (l : loc) (u : uid) (v : uval) : hprop :=
  {| hholds h := forall s, h ⊆ mem s -> value_at C s l u v |}.
Global Instance shown_absorbing l u v : Absorbing (shown l u v).
Proof.
  constructor. intros h (h1&h2&->&Hd&_&H) s Hs. apply H. etrans; [|exact Hs]. by apply map_union_subseteq_r.
Qed.
Lemma tobj_shown l kd w u v : tobj l kd w u v ⊢ shown l u v.
Proof.
  constructor. intros h (o&h1&h2&->&Hd&Hp&HR) s Hs. exists (Cell kd (Some o) w), o, (depth v).
  split; [|split; [done|]].
  - by eapply pt_see, sub_l.
  - eapply R_see; [done| |done]. by eapply sub_r.
Qed.
Lemma shown_mono (T T' : hprop) l u v : (T ⊢ shown l u v) -> T ∗ T' ⊢ shown l u v.
Proof. intros H. iIntros "[H _]". by iApply H. Qed.

(** Contents found so far: lvalues, and rvalues that are owned. *)
Record ent := Ent { e_u : uid; e_l : loc; e_mv : bool; e_kd : ckind; e_w : option Z }.
Definition arg_of (e : ent) : arg := (e_u e, e_l e, e_mv e).
Definition src1 (e : ent * uval) : hprop :=
  if e_mv e.1 then tobj (e_l e.1) (e_kd e.1) (e_w e.1) (e_u e.1) e.2 else emp%I.
Definition src (es : list (ent * uval)) : hprop := [∗ list] e ∈ es, src1 e.
Definition moved {A} (e e' : A * uval) : Prop := e'.1 = e.1 /\ skel e'.2 = skel e.2.
(** Variants still to be visited. *)
Record pnd := Pnd { p_tys : list ity; p_a : loc; p_mv : bool; p_b : bool; p_i : nat; p_t : ity; p_l : loc }.
Definition vis_of (p : pnd) : visitable := (p_tys p, p_a p, p_mv p).
Definition pres1 (p : pnd * uval) : hprop :=
  if p_mv p.1 then Rvar (p_tys p.1) (p_a p.1) (p_b p.1, p_i p.1, p.2) else emp%I.
Definition pres (ps : list (pnd * uval)) : hprop := [∗ list] p ∈ ps, pres1 p.

(** What should be passed, and that it is, given [T]. *)
Definition tgt : Type := uid * loc * bool * uval.
Definition etgt (e : ent * uval) : tgt := (e_u e.1, e_l e.1, e_mv e.1, e.2).
Definition ptgt (p : pnd * uval) : tgt := (ity_uid (p_t p.1), p_l p.1, p_mv p.1, p.2).
Definition gives (T : hprop) (t : tgt) (g : arg) : Prop :=
  g.1.1 = t.1.1.1 /\ g.2 = t.1.2 /\
  if t.1.2 then exists v, erase v = erase t.2 /\ (T ⊢ shown g.1.2 g.1.1 v) else g.1.2 = t.1.1.2.
Lemma gives_mono T T' t g : gives T t g -> gives (T ∗ T') t g.
Proof.
  intros (H1&H2&H3). split; [done|]. split; [done|]. destruct (t.1.2); [|done].
  destruct H3 as (v&Hv&H). exists v. split; [done|]. by apply shown_mono.
Qed.
Lemma gives_erase T t v v' g : erase v' = erase v -> gives T (t, v') g -> gives T (t, v) g.
Proof.
  intros He (H1&H2&H3). split; [done|]. split; [done|]. simpl in *. destruct t as [[u l] []]; simpl in *; [|done].
  destruct H3 as (v2&Hv&H). exists v2. split; [congruence|done].
Qed.

Definition leaves (T : hprop) (fins : list (M unit)) : Prop :=
  T ⊢ wp (leave fins (ret tt)) (λ _, emp) (λ _, False).
Lemma leaves_app T T' fins fin : leaves T fins -> (T' ⊢ wp fin (λ _, emp) (λ _, False)) -> leaves (T ∗ T') (fins ++ [fin]).
Proof.
  intros H H'. unfold leaves. rewrite leave_app. iIntros "[HT HT']". iApply wp_finally.
  iApply (wp_wand with "[HT]"); [by iApply H|]. iSplit; [|by iIntros (e) "[]"].
  iIntros ([]) "_". by iApply H'.
Qed.

(** May throw. *)
Definition etrouble (e : ent * uval) : Prop := e_mv e.1 = true /\ nt_move (te C (e_u e.1)) = false.
Definition ptrouble (p : pnd * uval) : Prop :=
  p_mv p.1 = true /\ (nt_move (te C (ity_uid (p_t p.1))) = false \/ it_move C (p_t p.1) = false).

Lemma moved_refl {A} (es : list (A * uval)) : Forall2 moved es es.
Proof. induction es as [|e es IH]; constructor; [done|exact IH]. Qed.

Lemma prep_call_wp es : Forall (fun e => depth e.2 <= k0) es -> forall pre,
  src es ⊢ wp (prep_call S pre ((λ e, arg_of e.1) <$> es))
    (λ p, ∃ es' args T, ⌞Forall2 moved es es' /\ p.1 = pre ++ args /\ Forall2 (gives T) (etgt <$> es) args /\ leaves T p.2⌟ ∗
            src es' ∗ T)
    (λ _, ∃ es', ⌞Forall2 moved es es' /\ Exists etrouble es⌟ ∗ src es').
Proof.
  induction es as [|[e v] es IH]; intros Hd pre; simpl.
  { iIntros "_". iApply wp_ret. iExists [], [], emp%I. iSplitR; last (unfold src; simpl; iSplitR; done). iPureIntro.
    split; [constructor|]. split; [by rewrite app_nil_r|]. split; [constructor|]. unfold leaves. simpl. by iIntros "_"; iApply wp_ret. }
  apply Forall_cons in Hd as [Hd1 Hd]. specialize (IH Hd).
  destruct e as [u l mv kd w]. unfold arg_of, src1; simpl. destruct mv; simpl.
  - iIntros "[H1 H]". unfold hold. iApply wp_bind. iApply stack_obj_wp. iIntros (q) "Hq".
    iApply (ok_move _ _ _ _ Hok with "[$Hq $H1]"); [done|]. iSplit; last first.
    { iIntros (e) "(%Hn & Hq & %v' & %Hv' & H1)". iFrame "Hq". iExists ((Ent u l true kd w, v') :: es).
      unfold src; simpl. unfold src1 at 3; simpl. iFrame. iPureIntro. split; [constructor; [done|apply moved_refl]|]. by constructor. }
    iIntros ([]) "(Hq & %v' & %Hv' & H1)". iApply wp_bind. iApply wp_cleanup.
    iApply (wp_wand with "[H]"); [by iApply IH|].
    assert (Hfin : forall v1, depth v1 <= k0 ->
      tobj q KStk None u v1 ⊢ wp (do! us_destroy S u q in drop_cell q) (λ _, emp) (λ _, False)).
    { intros v1 Hv1. iIntros "Hq". iApply wp_bind. iApply (ok_destroy _ _ _ _ Hok with "Hq"); [done|].
      iSplit; [|by iIntros (?) "[]"]. iIntros ([]) "Hq". iApply (wp_drop_cell _ _ KStk); [done|]. by iFrame. }
    assert (Hde : depth (erase v) <= k0) by (rewrite depth_erase; done).
    iSplit.
    + iIntros (p) "(%es' & %args & %T & (%Hm & %Hp & %Hg & %Hl) & Hs & HT)". iApply wp_ret.
      iExists ((Ent u l true kd w, v') :: es'), ((u, q, true) :: args), (T ∗ tobj q KStk None u (erase v))%I.
      unfold src; simpl. unfold src1 at 2; simpl. iFrame. iPureIntro.
      split; [by constructor|]. split; [by rewrite Hp -app_assoc|]. split.
      * constructor.
        -- split; [done|]. split; [done|]. simpl. exists (erase v). split; [apply erase_erase|].
           rewrite (comm bi_sep). apply shown_mono, tobj_shown.
        -- eapply Forall2_impl; [done|]. intros; by apply gives_mono.
      * apply leaves_app; [done|]. by apply Hfin.
    + iIntros (e) "(%es' & (%Hm & %Ht) & Hs)". iApply (wp_wand with "[Hq]"); [by iApply (Hfin with "Hq")|].
      iSplit; [|by iIntros (?) "[]"]. iIntros ([]) "_". iExists ((Ent u l true kd w, v') :: es').
      unfold src; simpl. unfold src1 at 2; simpl. iFrame. iPureIntro. split; [by constructor|by right].
  - iIntros "[_ H]". iApply (wp_wand with "[H]"); [by iApply IH|]. iSplit.
    + iIntros (p) "(%es' & %args & %T & (%Hm & %Hp & %Hg & %Hl) & Hs & HT)".
      iExists ((Ent u l false kd w, v) :: es'), ((u, l, false) :: args), T.
      unfold src; simpl. unfold src1 at 2; simpl. iFrame. iPureIntro.
      split; [by constructor|]. split; [by rewrite Hp -app_assoc|]. split; [|done]. by constructor.
    + iIntros (e) "(%es' & (%Hm & %Ht) & Hs)". iExists ((Ent u l false kd w, v) :: es').
      unfold src; simpl. unfold src1 at 2; simpl. iFrame. iPureIntro. split; [by constructor|by right].
Qed.

Lemma moved_depth {A} (e e' : A * uval) : moved e e' -> depth e'.2 = depth e.2.
Proof. intros [_ H]. by apply skel_depth. Qed.

Lemma prep_one_wp (L : hprop) ps : forall es,
  Forall (fun e => depth e.2 <= k0) es ->
  Forall (fun p : pnd * uval => depth p.2 <= k0 /\ p_tys p.1 !! p_i p.1 = Some (p_t p.1) /\
    (p_mv p.1 = false -> L ⊢ locates C (p_tys p.1) (p_a p.1) (ity_uid (p_t p.1)) (p_l p.1))) ps ->
  L ∗ src es ∗ pres ps ⊢ wp (prep_one C S ((λ p, vis_of p.1) <$> ps) ((λ e, arg_of e.1) <$> es))
    (λ p, ∃ es' ps' T, ⌞Forall2 moved es es' /\ Forall2 moved ps ps' /\
            Forall2 (gives T) ((etgt <$> es) ++ (ptgt <$> ps)) p.1 /\ leaves T p.2⌟ ∗ L ∗ src es' ∗ pres ps' ∗ T)
    (λ _, ∃ es' ps', ⌞Forall2 moved es es' /\ Forall2 moved ps ps' /\ (Exists etrouble es \/ Exists ptrouble ps)⌟ ∗
            L ∗ src es' ∗ pres ps').
Proof.
  induction ps as [|[p v] ps IH]; intros es Hes Hps; simpl.
  { iIntros "(HL & Hs & Hp)". iApply (wp_wand with "[Hs]"); [by iApply prep_call_wp|]. iSplit.
    - iIntros (p) "(%es' & %args & %T & (%Hm & %Hp & %Hg & %Hl) & Hs & HT)". iExists es', [], T. iFrame. iPureIntro.
      split; [done|]. split; [constructor|]. rewrite app_nil_r Hp. done.
    - iIntros (e) "(%es' & (%Hm & %Ht) & Hs)". iExists es', []. iFrame. iPureIntro. split; [done|]. split; [constructor|by left]. }
  apply Forall_cons in Hps as [(Hd&Ht&Hloc) Hps]. destruct p as [tys a mv b i t l]. unfold vis_of; simpl in *.
  destruct mv; simpl.
  - iIntros "(HL & Hs & Hp)". unfold pres; simpl. iDestruct "Hp" as "[Hv Hp]". unfold pres1 at 1; simpl.
    unfold hold. iApply wp_bind. iApply local_variant_wp. iIntros (q) "Hq".
    iApply (var_move_spec C W Hwf k0 S Hok with "[$Hq $Hv]"); [done|]. simpl. iSplit; last first.
    { iIntros (e) "(%Hn & Hq & %v' & %Hv' & Hv)". iSplitL "Hq"; [by iExists _|].
      iExists es, ((Pnd tys a true b i t l, v') :: ps). unfold pres; simpl. unfold pres1 at 3; simpl. iFrame. iPureIntro.
      split; [apply moved_refl|]. split; [constructor; [done|apply moved_refl]|]. right. left. split; [done|]. right.
      destruct Hn as (t'&Ht'&Hn). simpl in *. congruence. }
    iIntros ([]) "(Hq & %v' & %Hv' & Hv)". iApply wp_bind. iApply wp_cleanup.
    assert (Hfin : forall k1, depth k1.2 <= k0 ->
      Rvar tys q k1 ⊢ wp (do! var_destroy C S tys q in drop_cell q) (λ _, emp) (λ _, False)).
    { intros k1 Hk1. iIntros "Hq". iApply wp_bind. iApply (var_destroy_spec C W Hwf k0 S Hok with "Hq"); [done|].
      iSplit; [|by iIntros (?) "[]"]. iIntros ([]) "[%w Hq]". iApply (wp_drop_cell _ _ KVar); [done|]. by iFrame. }
    iDestruct (Rvar_open _ _ Hlim with "Hq") as (t' lq kd w) "[%Ht' Hq]". simpl in Ht'. rewrite Ht in Ht'. injection Ht' as <-.
    unfold visit1. iApply (wp_visit_user W C _ _ (ity_uid t) lq). iSplit; [by rewrite bi.and_elim_l|]. rewrite bi.and_elim_r.
    iDestruct "Hq" as "[Hq Hclose]". simpl.
    set (e1 := (Ent (ity_uid t) lq true kd w, erase v)).
    pose proof (IH (es ++ [e1])) as IH'. rewrite fmap_app in IH'.
    assert (He1 : depth (erase v) <= k0) by (rewrite depth_erase; done).
    iApply (wp_wand with "[HL Hs Hq Hp]").
    { iApply IH'; [apply Forall_app; split; [done|]; by repeat constructor|done|]. iFrame "HL Hp". unfold src. rewrite big_sepL_app /=.
      iFrame "Hs". unfold src1; simpl. by iFrame. }
    iSplit.
    + iIntros (p) "(%es' & %ps' & %T & (%Hm & %Hm2 & %Hg & %Hl) & HL & Hs & Hp & HT)".
      apply Forall2_app_inv_l in Hm as (es1&es2&Hm1&Hme&->). apply Forall2_cons_inv_l in Hme as ([e2 v2]&es3&[He2 Hv2]&Hn&->).
      apply Forall2_nil_inv_l in Hn as ->. simpl in He2, Hv2. subst e2. unfold src. rewrite big_sepL_app /=.
      iDestruct "Hs" as "(Hs & Hq & _)". unfold src1 at 2; simpl. iDestruct ("Hclose" with "Hq") as "Hq".
      iApply wp_ret. iExists es1, ((Pnd tys a true b i t l, v') :: ps'), (T ∗ Rvar tys q (false, i, v2))%I.
      unfold pres; simpl. unfold pres1 at 2; simpl. iFrame. iPureIntro. split; [done|]. split; [by constructor|]. split.
      * rewrite fmap_app -app_assoc /= in Hg. eapply Forall2_impl; [|intros x y; apply gives_mono].
        apply Forall2_app_inv_l in Hg as (g1&g2&Hg1&Hg2&->). apply Forall2_cons_inv_l in Hg2 as (g&g3&Hgg&Hg3&->).
        apply Forall2_app; [done|]. constructor; [|done]. unfold ptgt; simpl.
        destruct Hgg as (G1&G2&G3). split; [done|]. split; [done|]. simpl in *. destruct G3 as (v3&Hv3&G3).
        exists v3. split; [by rewrite Hv3 erase_erase|done].
      * apply leaves_app; [done|]. apply Hfin. simpl. rewrite (skel_depth v2 (erase v)) //.
    + iIntros (e) "(%es' & %ps' & (%Hm & %Hm2 & %Hor) & HL & Hs & Hp)".
      apply Forall2_app_inv_l in Hm as (es1&es2&Hm1&Hme&->). apply Forall2_cons_inv_l in Hme as ([e2 v2]&es3&[He2 Hv2]&Hn&->).
      apply Forall2_nil_inv_l in Hn as ->. simpl in He2, Hv2. subst e2. unfold src. rewrite big_sepL_app /=.
      iDestruct "Hs" as "(Hs & Hq & _)". unfold src1 at 2; simpl. iDestruct ("Hclose" with "Hq") as "Hq".
      iApply (wp_wand with "[Hq]"); [iApply (Hfin with "Hq"); simpl; rewrite (skel_depth v2 (erase v)) //|].
      iSplit; [|by iIntros (?) "[]"]. iIntros ([]) "_".
      iExists es1, ((Pnd tys a true b i t l, v') :: ps'). unfold pres; simpl. unfold pres1 at 2; simpl. iFrame. iPureIntro.
      split; [done|]. split; [by constructor|]. destruct Hor as [Hor|Hor]; [|by right; right].
      apply Exists_app in Hor as [Hor|Hor]; [by left|]. apply Exists_cons in Hor as [Hor|Hor]; [|by apply Exists_nil in Hor].
      right. left. destruct Hor as [_ Hor]. split; [done|]. by left.
  - iIntros "(HL & Hs & Hp)". unfold pres; simpl. iDestruct "Hp" as "[Hv Hp]". unfold pres1 at 1; simpl.
    unfold visit1. iApply (wp_visit_user W C _ _ (ity_uid t) l). iSplit; [iClear "Hs Hp"; iApply (Hloc eq_refl with "HL")|].
    set (e1 := (Ent (ity_uid t) l false KStk None, v)).
    pose proof (IH (es ++ [e1])) as IH'. rewrite fmap_app in IH'.
    iApply (wp_wand with "[HL Hs Hp]").
    { iApply IH'; [apply Forall_app; split; [done|]; by repeat constructor|done|]. iFrame "HL Hp". unfold src. rewrite big_sepL_app /=.
      iFrame "Hs". unfold src1; simpl. done. }
    iSplit.
    + iIntros (p) "(%es' & %ps' & %T & (%Hm & %Hm2 & %Hg & %Hl) & HL & Hs & Hp & HT)".
      apply Forall2_app_inv_l in Hm as (es1&es2&Hm1&Hme&->). apply Forall2_cons_inv_l in Hme as ([e2 v2]&es3&[He2 Hv2]&Hn&->).
      apply Forall2_nil_inv_l in Hn as ->. simpl in He2, Hv2. subst e2. unfold src. rewrite big_sepL_app /=.
      iDestruct "Hs" as "(Hs & _ & _)".
      iExists es1, ((Pnd tys a false b i t l, v) :: ps'), T.
      unfold pres; simpl. unfold pres1 at 2; simpl. iFrame. iPureIntro. split; [done|]. split; [by constructor|]. split; [|done].
      by rewrite fmap_app -app_assoc /= in Hg.
    + iIntros (e) "(%es' & %ps' & (%Hm & %Hm2 & %Hor) & HL & Hs & Hp)".
      apply Forall2_app_inv_l in Hm as (es1&es2&Hm1&Hme&->). apply Forall2_cons_inv_l in Hme as ([e2 v2]&es3&[He2 Hv2]&Hn&->).
      apply Forall2_nil_inv_l in Hn as ->. simpl in He2, Hv2. subst e2. unfold src. rewrite big_sepL_app /=.
      iDestruct "Hs" as "(Hs & _ & _)".
      iExists es1, ((Pnd tys a false b i t l, v) :: ps'). unfold pres; simpl. unfold pres1 at 2; simpl. iFrame. iPureIntro.
      split; [done|]. split; [by constructor|]. destruct Hor as [Hor|Hor]; [|by right; right].
      apply Exists_app in Hor as [Hor|Hor]; [by left|]. apply Exists_cons in Hor as [Hor|Hor]; [|by apply Exists_nil in Hor].
      by destruct Hor.
Qed.

Lemma visit_many_wp (L : hprop) p0 ps :
  Forall (fun p : pnd * uval => depth p.2 <= k0 /\ p_tys p.1 !! p_i p.1 = Some (p_t p.1) /\
    (p_mv p.1 = false -> L ⊢ locates C (p_tys p.1) (p_a p.1) (ity_uid (p_t p.1)) (p_l p.1))) (p0 :: ps) ->
  L ∗ pres (p0 :: ps) ⊢
    wp (visit1 C (fun g => prep_one C S ((λ p, vis_of p.1) <$> ps) [g]) (p_tys p0.1) (p_a p0.1) (p_mv p0.1))
    (λ p, ∃ ps' T, ⌞Forall2 moved (p0 :: ps) ps' /\ Forall2 (gives T) (ptgt <$> (p0 :: ps)) p.1 /\ leaves T p.2⌟ ∗
            L ∗ pres ps' ∗ T)
    (λ _, ∃ ps', ⌞Forall2 moved (p0 :: ps) ps' /\ Exists ptrouble (p0 :: ps)⌟ ∗ L ∗ pres ps').
Proof.
  intros [(Hd&Ht&Hloc) Hps]%Forall_cons. destruct p0 as [[tys a mv b i t l] v]. simpl in *.
  iIntros "[HL Hp]". unfold pres; simpl. iDestruct "Hp" as "[Hv Hp]". unfold pres1 at 1; simpl. destruct mv.
  - iDestruct (Rvar_open _ _ Hlim with "Hv") as (t' lq kd w) "[%Ht' Hq]". simpl in Ht'. rewrite Ht in Ht'. injection Ht' as <-.
    unfold visit1. iApply (wp_visit_user W C _ _ (ity_uid t) lq). iSplit; [by rewrite bi.and_elim_l|]. rewrite bi.and_elim_r.
    iDestruct "Hq" as "[Hq Hclose]". simpl.
    iApply (wp_wand with "[HL Hq Hp]").
    { iApply (prep_one_wp L ps [(Ent (ity_uid t) lq true kd w, v)]); [by repeat constructor|done|]. iFrame "HL Hp".
      unfold src, src1; simpl. by iFrame. }
    iSplit.
    + iIntros (p) "(%es' & %ps' & %T & (%Hm & %Hm2 & %Hg & %Hl) & HL & Hs & Hp & HT)".
      apply Forall2_cons_inv_l in Hm as ([e2 v2]&es3&[He2 Hv2]&Hn&->).
      apply Forall2_nil_inv_l in Hn as ->. simpl in He2, Hv2. subst e2. unfold src, src1; simpl.
      iDestruct "Hs" as "[Hq _]". iDestruct ("Hclose" with "Hq") as "Hq".
      iExists ((Pnd tys a true b i t l, v2) :: ps'), T. unfold pres; simpl. unfold pres1 at 2; simpl. iFrame. iPureIntro.
      split; [by constructor|]. split; [|done]. simpl in Hg. apply Forall2_cons_inv_l in Hg as (g&g3&Hgg&Hg3&->). by constructor.
    + iIntros (e) "(%es' & %ps' & (%Hm & %Hm2 & %Hor) & HL & Hs & Hp)".
      apply Forall2_cons_inv_l in Hm as ([e2 v2]&es3&[He2 Hv2]&Hn&->).
      apply Forall2_nil_inv_l in Hn as ->. simpl in He2, Hv2. subst e2. unfold src, src1; simpl.
      iDestruct "Hs" as "[Hq _]". iDestruct ("Hclose" with "Hq") as "Hq".
      iExists ((Pnd tys a true b i t l, v2) :: ps'). unfold pres; simpl. unfold pres1 at 2; simpl. iFrame. iPureIntro.
      split; [by constructor|]. destruct Hor as [Hor|Hor]; [|by right].
      apply Exists_cons in Hor as [[_ Hor]|Hor]; [|by apply Exists_nil in Hor]. left. split; [done|]. by left.
  - unfold visit1. iApply (wp_visit_user W C _ _ (ity_uid t) l). iSplit; [iClear "Hp Hv"; iApply (Hloc eq_refl with "HL")|].
    iApply (wp_wand with "[HL Hv Hp]").
    { iApply (prep_one_wp L ps [(Ent (ity_uid t) l false KStk None, v)]); [by repeat constructor|done|]. iFrame "HL Hp".
      unfold src, src1; simpl. by iFrame. }
    iSplit.
    + iIntros (p) "(%es' & %ps' & %T & (%Hm & %Hm2 & %Hg & %Hl) & HL & Hs & Hp & HT)".
      apply Forall2_cons_inv_l in Hm as ([e2 v2]&es3&[He2 Hv2]&Hn&->).
      apply Forall2_nil_inv_l in Hn as ->. simpl in He2, Hv2. subst e2. unfold src, src1; simpl.
      iDestruct "Hs" as "[_ _]".
      iExists ((Pnd tys a false b i t l, v2) :: ps'), T. unfold pres; simpl. unfold pres1 at 2; simpl. iFrame. iPureIntro.
      split; [by constructor|]. split; [|done]. simpl in Hg. apply Forall2_cons_inv_l in Hg as (g&g3&Hgg&Hg3&->). by constructor.
    + iIntros (e) "(%es' & %ps' & (%Hm & %Hm2 & %Hor) & HL & Hs & Hp)".
      apply Forall2_cons_inv_l in Hm as ([e2 v2]&es3&[He2 Hv2]&Hn&->).
      apply Forall2_nil_inv_l in Hn as ->. simpl in He2, Hv2. subst e2. unfold src, src1; simpl.
      iDestruct "Hs" as "[_ _]".
      iExists ((Pnd tys a false b i t l, v2) :: ps'). unfold pres; simpl. unfold pres1 at 2; simpl. iFrame. iPureIntro.
      split; [by constructor|]. destruct Hor as [Hor|Hor]; [|by right].
      apply Exists_cons in Hor as [[? Hor]|Hor]; [done|by apply Exists_nil in Hor].
Qed.

(** *** Taking the rvalue variables out of the world *)
Notation world := (world C W).
Definition rest {A} (xs : list (name * bool)) (m : gmap name A) : gmap name A :=
  foldr (fun (x : name * bool) m => if x.2 then delete x.1 m else m) m xs.
Fixpoint ins (xs : list (name * bool)) (ps : list (pnd * uval)) (σ : astate) : astate :=
  match xs, ps with
  | x :: xs, p :: ps => ins xs ps (if x.2 then <[x.1 := AVar (p_tys p.1) (p_b p.1, p_i p.1, p.2)]> σ else σ)
  | _, _ => σ
  end.
Definition item (E : env) (σ : astate) (x : name * bool) (p : pnd * uval) : Prop :=
  E !! x.1 = Some (BVar (p_tys p.1) (p_a p.1)) /\ p_mv p.1 = x.2 /\
  σ !! x.1 = Some (AVar (p_tys p.1) (p_b p.1, p_i p.1, p.2)).
Definition eitem (E : env) (x : name * bool) (p : pnd * uval) : Prop :=
  E !! x.1 = Some (BVar (p_tys p.1) (p_a p.1)) /\ p_mv p.1 = x.2.

Lemma once_cons x xs : rvalues_once (x :: xs) ->
  rvalues_once xs /\ (x.2 = true -> forall b, (x.1, b) ∉ xs) /\ ((x.1, true) ∈ xs -> False).
Proof.
  intros H. clear -H. split; [|split].
  - intros i j z b Hi Hj. specialize (H (Datatypes.S i) (Datatypes.S j) z b Hi Hj). lia.
  - intros Hx b [j Hj]%elem_of_list_lookup. destruct x as [z ?]; simpl in *; subst.
    by specialize (H 0 (Datatypes.S j) z b eq_refl Hj).
  - intros [j Hj]%elem_of_list_lookup. destruct x as [z b]; simpl in *. by specialize (H (Datatypes.S j) 0 z b Hj eq_refl).
Qed.
Lemma rest_lookup {A} xs (m : gmap name A) z : (z, true) ∉ xs -> rest xs m !! z = m !! z.
Proof.
  induction xs as [|[y []] xs IH]; intros Hz; simpl; [done| |].
  - apply not_elem_of_cons in Hz as [Hne Hz]. rewrite lookup_delete_ne; [|congruence]. by apply IH.
  - apply not_elem_of_cons in Hz as [_ Hz]. by apply IH.
Qed.
Lemma rest_insert {A} xs (m : gmap name A) z a : (z, true) ∉ xs -> rest xs (<[z := a]> m) = <[z := a]> (rest xs m).
Proof.
  induction xs as [|[y []] xs IH]; intros Hz; simpl; [done| |].
  - apply not_elem_of_cons in Hz as [Hne Hz]. rewrite IH // delete_insert_ne //. congruence.
  - apply not_elem_of_cons in Hz as [_ Hz]. by apply IH.
Qed.
Lemma ins_other xs ps σ z : (z, true) ∉ xs -> ins xs ps σ !! z = σ !! z.
Proof.
  revert ps σ. induction xs as [|[y []] xs IH]; intros [|p ps] σ Hz; simpl; [done..| |done|].
  - apply not_elem_of_cons in Hz as [Hne Hz]. rewrite IH // lookup_insert_ne //. congruence.
  - apply not_elem_of_cons in Hz as [_ Hz]. by apply IH.
Qed.
Lemma ins_at xs ps σ i z p : rvalues_once xs -> xs !! i = Some (z, true) -> ps !! i = Some p ->
  ins xs ps σ !! z = Some (AVar (p_tys p.1) (p_b p.1, p_i p.1, p.2)).
Proof.
  revert ps σ i. induction xs as [|x xs IH]; intros [|p1 ps] σ i Ho Hx Hp; [done..|].
  apply once_cons in Ho as (Ho&H1&H2). destruct i as [|i]; simpl in *.
  - injection Hx as ->. injection Hp as ->. simpl. rewrite ins_other; [apply lookup_insert|]. by apply (H1 eq_refl).
  - by eapply IH.
Qed.
Lemma world_split E σ xs ps : rvalues_once xs -> Forall2 (item E σ) xs ps ->
  world E σ ⊢ world (rest xs E) (rest xs σ) ∗ pres ps.
Proof.
  intros Ho H. induction H as [|x p xs ps (Hx&Hm&Hσ) H IH]; simpl.
  { iIntros "H". iFrame. unfold pres; simpl. done. }
  apply once_cons in Ho as (Ho&H1&H2). iIntros "H". iDestruct (IH Ho with "H") as "[H Hp]".
  unfold pres; simpl. unfold pres1 at 2. rewrite Hm. destruct (x.2); [|by iFrame].
  iDestruct (world_delete _ _ _ _ x.1 with "H") as (b) "(%Hb & Ho & H)"; [by rewrite rest_lookup|].
  rewrite rest_lookup // Hx in Hb. injection Hb as <-. simpl. iDestruct "Ho" as "[_ Ho]". iFrame.
Qed.
Lemma world_join E σ xs ps : rvalues_once xs -> Forall2 (eitem E) xs ps ->
  world (rest xs E) (rest xs σ) ∗ pres ps ⊢ world E (ins xs ps σ).
Proof.
  intros Ho H. revert σ. induction H as [|x p xs ps (Hx&Hm) H IH]; intros σ; simpl.
  { unfold pres; simpl. iIntros "[H _]". iFrame. }
  apply once_cons in Ho as (Ho&H1&H2). iIntros "[H Hp]". unfold pres; simpl. unfold pres1 at 1. rewrite Hm.
  destruct (x.2) eqn:Hx2; [|by iDestruct "Hp" as "[_ Hp]"; iApply (IH Ho); iFrame].
  iDestruct "Hp" as "[Hv Hp]". iApply (IH Ho). rewrite rest_insert //. iFrame "Hp".
  iDestruct (world_insert _ _ _ _ x.1 (BVar (p_tys p.1) (p_a p.1)) (AVar (p_tys p.1) (p_b p.1, p_i p.1, p.2)) with "[$H Hv]") as "H".
  { by rewrite lookup_delete. } { simpl. by iFrame. }
  rewrite !insert_delete_insert insert_id //. by rewrite rest_lookup.
Qed.
Lemma pres_unique E σ xs ps ps' : Forall2 (item E σ) xs ps -> Forall2 (item E σ) xs ps' -> pres ps = pres ps'.
Proof.
  intros H. revert ps'. induction H as [|x p xs ps (Hx&Hm&Hσ) H IH]; intros ps' H'.
  - by apply Forall2_nil_inv_l in H' as ->.
  - apply Forall2_cons_inv_l in H' as (p'&ps1&(Hx'&Hm'&Hσ')&H'&->). unfold pres in *; simpl. rewrite (IH _ H'). f_equal.
    unfold pres1. rewrite Hm Hm'. rewrite Hx in Hx'. rewrite Hσ in Hσ'.
    injection Hx' as E1 E2. injection Hσ' as E3 E4 E5 E6. by rewrite E1 E2 E4 E5 E6.
Qed.
End wps.

(** ** In reachable states *)
Definition exactly (hL : heap) : hprop := {| hholds h := h = hL |}.

Section final.
Context (C : cfg) (st nb : bool) (eqf ltf : uid -> uval -> uval -> bool).
Context (HC : good_env C st nb).
Notation reached := (reached C st nb eqf ltf).
Notation W := (WPar st nb).
Notation sees := (sees C).
Let Hwf : wf_env C W := good_env_wf C st nb HC.
Let Hlim : 0 < lim C := ge_lim _ _ _ HC.

Section one.
Context (E : env) (s : state) (B : nat) (σ : astate) (Hi : inv C st nb B E s σ).
Context (xs : list (name * bool)) (Ho : rvalues_once xs).

Lemma item_sees x p : item E σ x p -> sees E s x.1 (p_tys p.1) (p_b p.1, p_i p.1, p.2).
Proof. intros (_&_&H). eapply is_var_sees; [by eapply inv_shows|done]. Qed.

Lemma after_world ps ps' s3 : Forall2 (item E σ) xs ps -> Forall2 moved ps ps' ->
  world C W E (ins xs ps' σ) (mem s3) -> after_visit C E s s3 xs.
Proof.
  intros Hp Hm Hw. pose proof (inv_shows _ _ _ _ _ _ _ Hi) as Hs.
  pose proof (world_shows C W _ _ _ (mem s3) Hw ltac:(done)) as Hs3.
  assert (Hat : forall z, (z, true) ∈ xs -> exists p v', item E σ (z, true) p /\ skel v' = skel p.2 /\
    ins xs ps' σ !! z = Some (AVar (p_tys p.1) (p_b p.1, p_i p.1, v'))).
  { intros z [i Hz]%elem_of_list_lookup. destruct (Forall2_lookup_l _ _ _ _ _ Hp Hz) as (p&Hpi&Hit).
    destruct (Forall2_lookup_l _ _ _ _ _ Hm Hpi) as (p'&Hpi'&[Hm1 Hm2]). exists p, p'.2. split; [done|]. split; [done|].
    erewrite ins_at; [|exact Ho|exact Hz|exact Hpi']. by rewrite Hm1. }
  split; [|split].
  - eapply (world_forest C W (mem s3) B); [exact Hw|]. intros z α Hz.
    destruct (decide ((z, true) ∈ xs)) as [Hin|Hin].
    + destruct (Hat z Hin) as (p&v'&(_&_&Hσ)&Hv&Hz'). rewrite Hz' in Hz. injection Hz as <-.
      destruct (inv_aok _ _ _ _ _ _ _ Hi _ _ Hσ) as [H1 H2]. split; [done|]. simpl in *. rewrite (skel_depth v' p.2) //.
    + rewrite ins_other // in Hz. by eapply (inv_aok _ _ _ _ _ _ _ Hi).
  - intros z tys k Hz Hk. destruct (Hat z Hz) as (p&v'&(_&_&Hσ)&Hv&Hz').
    pose proof (sees_is_var _ _ _ _ _ _ _ Hs Hk) as Hk'. unfold is_var in Hk'. simpl in Hσ. rewrite Hσ in Hk'. injection Hk' as <- <-.
    exists v'. split; [|done]. by eapply is_var_sees.
  - intros z Hz. eapply shows_same; [done..|]. by rewrite ins_other.
Qed.

(** Everything about the variables to be visited, given the part [hL] of memory that the rvalues
    do not own. *)
Definition ready (hL : heap) (x : name * bool) (p : pnd * uval) : Prop :=
  item E σ x p /\ depth p.2 <= B /\ p_tys p.1 !! p_i p.1 = Some (p_t p.1) /\
  (x.2 = false -> (exactly hL ⊢ locates C (p_tys p.1) (p_a p.1) (ity_uid (p_t p.1)) (p_l p.1)) /\
                  (exactly hL ⊢ shown C (p_l p.1) (ity_uid (p_t p.1)) p.2) /\
                  (exactly hL ⊢ stored (p_a p.1) (p_l p.1))).

Lemma item_exists (vs : list visitable) : Forall2 (visited E) xs vs ->
  exists ps, Forall2 (item E σ) xs ps /\ (λ p, vis_of p.1) <$> ps = vs.
Proof.
  clear Ho. pose proof (inv_shows _ _ _ _ _ _ _ Hi) as Hs.
  induction 1 as [|[x mv] [[tys a] mv'] xs' vs [Hx Hmv] _ (ps&Hps&Hvs)]; simpl in *; [by exists []|]. subst mv'.
  pose proof (Hs x) as Hsx. rewrite Hx in Hsx. destruct (σ !! x) as [[tys' k|u v]|] eqn:Hσ; [|done..].
  destruct Hsx as [-> Hk]. destruct k as [[b i] v].
  exists ((Pnd tys a mv b i (IPlain 0) 1%positive, v) :: ps). split; [|by rewrite fmap_cons Hvs]. by constructor.
Qed.

Lemma pres_sub hL (Hw : world C W (rest xs E) (rest xs σ) hL) x p : x ∈ xs -> item E σ x p ->
  exists p', ready hL x p' /\ vis_of p'.1 = vis_of p.1.
Proof.
  intros Hin (Hx&Hm&Hσ). destruct p as [[tys a mv b i t l] v]; simpl in *.
  destruct (inv_aok _ _ _ _ _ _ _ Hi _ _ Hσ) as [_ Hd]. simpl in Hd.
  assert (Hopen : forall h', Rep.Rvar C W tys a (b, i, v) h' -> exists t l, tys !! i = Some t /\
     locates C tys a (ity_uid t) l h' /\ stored a l h' /\ shown C l (ity_uid t) v h').
  { intros h' HR. apply (hprop_in_entails _ _ (Rvar_open_stored C W Hlim tys a (b, i, v))) in HR.
    destruct HR as (t1&l1&kd&w&h3&h4&->&_&Htt&Hl&Hst&HT).
    destruct (apure_inv (tys !! i = Some t1) _ Htt) as [-> Htt']. rewrite left_id_L. exists t1, l1.
    split; [done|]. split; [done|]. split; [done|]. destruct HT as (h5&h6&->&_&HT&_).
    apply (hprop_in_entails _ _ (tobj_shown C W _ _ _ _ _)) in HT. intros s' Hs'. apply HT. by eapply sub_l. }
  assert (Hself : exists h', h' ⊆ mem s /\ Rep.Rvar C W tys a (b, i, v) h').
  { destruct (own_part C W E σ x.1 _ _ _ (inv_world _ _ _ _ _ _ _ Hi) Hx Hσ) as (h'&Hsub&Ho'). simpl in Ho'.
    destruct Ho' as (h1&h2&->&_&Ht&HR). destruct (apure_inv (tys = tys) _ Ht) as [-> _]. rewrite left_id_L in Hsub. by exists h2. }
  destruct (x.2) eqn:Hx2.
  - destruct Hself as (h'&_&HR). destruct (Hopen _ HR) as (t1&l1&Ht1&_).
    exists (Pnd tys a mv b i t1 l1, v). split; [|done]. split; [by split; [|split; [rewrite Hx2|]]|]. split; [done|]. split; [done|].
    by rewrite Hx2.
  - assert (Hn : (x.1, true) ∉ xs).
    { intros [j Hj]%elem_of_list_lookup. apply elem_of_list_lookup in Hin as [j' Hj']. destruct x as [z mz]; simpl in *; subst mz.
      pose proof (Ho j j' z false Hj Hj') as ->. rewrite Hj in Hj'. done. }
    destruct (own_part C W _ _ x.1 (BVar tys a) (AVar tys (b, i, v)) _ Hw) as (h'&Hsub&Ho'); [by rewrite rest_lookup..|].
    simpl in Ho'. destruct Ho' as (h1&h2&->&_&Ht&HR). destruct (apure_inv (tys = tys) _ Ht) as [-> _]. rewrite left_id_L in Hsub.
    destruct (Hopen _ HR) as (t1&l1&Ht1&Hl&Hst&Hsh).
    exists (Pnd tys a mv b i t1 l1, v). split; [|done]. split; [by split; [|split; [rewrite Hx2|]]|]. split; [done|]. split; [done|].
    intros _. simpl. split; [|split]; constructor; intros h ->.
    + intros A f s' Hs'. apply Hl. by etrans.
    + intros s' Hs'. apply Hsh. by etrans.
    + intros m Hs'. apply Hst. by etrans.
Qed.

Lemma ready_exists (vs : list visitable) : Forall2 (visited E) xs vs ->
  exists hL hR ps, Forall2 (ready hL) xs ps /\ (λ p, vis_of p.1) <$> ps = vs /\
    mem s = hL ∪ hR /\ hL ##ₘ hR /\ world C W (rest xs E) (rest xs σ) hL /\ pres C W ps hR.
Proof.
  intros Hvs. destruct (item_exists _ Hvs) as (ps&Hps&Hv).
  pose proof (hprop_in_entails _ _ (world_split C W E σ xs ps Ho Hps) _ (inv_world _ _ _ _ _ _ _ Hi)) as (hL&hR&Hm&Hd&Hw&Hp).
  assert (Hex : exists ps', Forall2 (ready hL) xs ps' /\ (λ p, vis_of p.1) <$> ps' = vs).
  { clear Hvs Hp. assert (Hsub : forall x, x ∈ xs -> x ∈ xs) by done. revert Hsub Hps. generalize xs at 1 3 4. intros xs'.
    revert vs xs' Hv. induction ps as [|p ps IH]; intros vs xs' Hv Hsub Hps.
    - apply Forall2_nil_inv_r in Hps as ->. exists []. split; [constructor|done].
    - apply Forall2_cons_inv_r in Hps as (x&xs1&Hx&Hps&->). destruct vs as [|v vs]; [done|]. injection Hv as Hv1 Hv2.
      destruct (pres_sub hL Hw x p) as (p'&Hr&Hv'); [apply Hsub; left|done|].
      destruct (IH vs xs1 Hv2) as (ps'&Hps'&Hv''); [intros; apply Hsub; by right|done|].
      exists (p' :: ps'). split; [by constructor|]. by rewrite fmap_cons Hv' Hv1 Hv''. }
  destruct Hex as (ps'&Hr&Hv'). exists hL, hR, ps'. split; [done|]. split; [done|]. split; [done|]. split; [done|]. split; [done|].
  rewrite -(pres_unique C W E σ xs ps ps'); [done|done|]. eapply Forall2_impl; [exact Hr|]. by intros ?? [? _].
Qed.

Lemma ready_trouble hL x p : ready hL x p -> ptrouble C p -> x.2 = true /\ move_may_throw C E s x.1.
Proof.
  intros (Hit&_&Ht&_) [Hm Hn]. pose proof Hit as (_&Hm'&_). split; [congruence|].
  exists (p_tys p.1), (p_b p.1, p_i p.1, p.2), (p_t p.1). split; [by apply item_sees|]. split; [done|].
  intros (u&Hu&Hnt). rewrite Hu /= in Hn. destruct Hn; congruence.
Qed.
Lemma ready_passes hL s1 (T : hprop) hT x p g : ready hL x p -> hL ⊆ mem s -> hL ⊆ mem s1 -> T hT -> hT ⊆ mem s1 ->
  gives C T (ptgt p) g -> passes C E s s1 x g.
Proof.
  intros (Hit&_&Ht&Hl) HLs HLs1 HT HTs (G1&G2&G3). pose proof Hit as (Hx&Hm&_). unfold ptgt in *; simpl in *.
  split; [congruence|]. destruct (x.2) eqn:Hx2; rewrite Hm in G3.
  - destruct G3 as (v&Hv&Hsh). exists (p_tys p.1), (p_b p.1, p_i p.1, p.2), (p_t p.1), v.
    split; [by apply item_sees|]. split; [done|]. split; [done|]. split; [|done].
    rewrite -G1. by apply (hprop_in_entails _ _ Hsh _ HT).
  - destruct (Hl eq_refl) as (_&Hsh&Hst). exists (p_tys p.1), (p_b p.1, p_i p.1, p.2), (p_t p.1), p.2.
    split; [by apply item_sees|]. split; [done|]. split; [done|]. rewrite G3. split; [|split; [done|]].
    { by apply (hprop_in_entails _ _ Hsh hL). }
    intros _. split; [done|]. exists (p_tys p.1), (p_b p.1, p_i p.1, p.2), (p_t p.1), (p_a p.1).
    split; [by apply item_sees|]. split; [done|]. split; [done|]. split; [by apply (hprop_in_entails _ _ Hsh hL)|].
    split; [done|]. by apply (hprop_in_entails _ _ Hst hL).
Qed.
Lemma same_memory_ginv s1 s2 : same_memory s1 s2 -> ginv W s1 -> ginv W s2.
Proof.
  intros (Hm&Hn&Ht&Hind) [H1 H2 H3 H4 H5 H6]. split.
  - intros l c. rewrite Hm Hn. apply H1.
  - intros l. rewrite Ht Hm. apply H2.
  - intros l. rewrite Ht Hm. apply H3.
  - intros e. rewrite Ht Hn. apply H4.
  - intros H. rewrite Hind; auto.
  - intros H l. rewrite Ht. auto.
Qed.

Definition outcome n (vs : list visitable) : Prop :=
  (exists e s', (forall A (f : list arg -> M A), visit_many C (sem C n) f vs s = Exn e s') /\ thrown s' = e :: thrown s /\
     after_visit C E s s' xs /\ Exists (fun x => x.2 = true /\ move_may_throw C E s x.1) xs) \/
  (exists args s1 fins, Forall2 (passes C E s s1) xs args /\ thrown s1 = thrown s /\
     (forall A (f : list arg -> M A), visit_many C (sem C n) f vs s = leave fins (f args) s1) /\
     forall s2, same_memory s1 s2 -> exists s3, leave fins (ret tt) s2 = Ok tt s3 /\ thrown s3 = thrown s2 /\
       after_visit C E s s3 xs).

Lemma outcome_many n v0 v1 v2 vs : B <= n -> Forall2 (visited E) xs (v0 :: v1 :: v2 :: vs) ->
  outcome n (v0 :: v1 :: v2 :: vs).
Proof.
  intros Hn Hvs. pose proof (sem_ok C W Hwf n B ltac:(lia)) as Hok.
  destruct (ready_exists _ Hvs) as (hL&hR&ps&Hr&Hps&Hmem&Hdisj&Hw&Hp).
  assert (Hit : Forall2 (item E σ) xs ps) by (eapply Forall2_impl; [exact Hr|]; by intros ?? [? _]).
  assert (Hall : Forall (fun p : pnd * uval => depth p.2 <= B /\ p_tys p.1 !! p_i p.1 = Some (p_t p.1) /\
    (p_mv p.1 = false -> exactly hL ⊢ locates C (p_tys p.1) (p_a p.1) (ity_uid (p_t p.1)) (p_l p.1))) ps).
  { apply Forall_forall. intros p Hpin. apply elem_of_list_lookup in Hpin as [i Hpi].
    destruct (Forall2_lookup_r _ _ _ _ _ Hr Hpi) as (x&Hx&Hrx). destruct Hrx as ((_&Hm&_)&Hd&Ht&Hl).
    split; [done|]. split; [done|]. intros Hmv. apply Hl. congruence. }
  destruct ps as [|p0 ps]; [done|]. rewrite fmap_cons in Hps. injection Hps as Hv0 Hps.
  pose proof (visit_many_wp C W Hwf Hlim (sem C n) B Hok (exactly hL) p0 ps Hall) as Hwp.
  assert (Hpre : (exactly hL ∗ pres C W (p0 :: ps))%I (mem s)) by (exists hL, hR; done).
  apply (hprop_in_entails _ _ Hwp) in Hpre. apply wp_unfold in Hpre.
  specialize (Hpre s ∅). rewrite right_id_L in Hpre. specialize (Hpre eq_refl (map_disjoint_empty_r _) (inv_ginv _ _ _ _ _ _ _ Hi)).
  assert (HLs : hL ⊆ mem s) by (rewrite Hmem; by apply map_union_subseteq_l).
  assert (Heq : forall A (f : list arg -> M A), visit_many C (sem C n) f (v0 :: v1 :: v2 :: vs) s =
    bind (visit1 C (fun g => prep_one C (sem C n) (v1 :: v2 :: vs) [g]) (p_tys p0.1) (p_a p0.1) (p_mv p0.1))
         (fun p => leave p.2 (f p.1)) s).
  { intros A f. rewrite -Hv0. unfold vis_of. destruct v1 as [[tys1 a1] mv1].
    change (visit1 C (one_by_one C (sem C n) f ((tys1, a1, mv1) :: v2 :: vs) []) (p_tys p0.1) (p_a p0.1) (p_mv p0.1) s =
      bind (visit1 C (fun g => prep_one C (sem C n) ((tys1, a1, mv1) :: v2 :: vs) [g]) (p_tys p0.1) (p_a p0.1) (p_mv p0.1))
         (fun p => leave p.2 (f p.1)) s).
    apply visit1_bind. intros g s'. apply one_by_one_prep. }
  rewrite Hps in Hpre. unfold bind in Heq.
  destruct (visit1 C _ (p_tys p0.1) (p_a p0.1) (p_mv p0.1) s) as [[args fins] s1|e s1|x] eqn:Hv; [| |done].
  - right. destruct Hpre as (h'&Hm1&_&Hg1&Hth&HQ). rewrite right_id_L in Hm1.
    destruct HQ as (ps'&T&ha&hb&->&_&Hpure&HQ). apply apure_inv in Hpure as [-> (Hmv&Hgv&Hlv)].
    rewrite left_id_L in Hm1. pose proof HQ as HQ'. destruct HQ' as (hc&hd&->&Hd1&->&hp&hT&->&Hd2&_&HT). simpl in Hgv, Hlv.
    exists args, s1, fins. split; [|split; [done|split; [exact Heq|]]].
    + assert (hL ⊆ mem s1) by (rewrite Hm1; by apply map_union_subseteq_l).
      assert (hT ⊆ mem s1). { rewrite Hm1. etrans; [|by apply map_union_subseteq_r]. by apply map_union_subseteq_r. }
      clear Heq Hv Hmv Hwp Hall Hit. change (Forall2 (gives C T) (ptgt <$> (p0 :: ps)) args) in Hgv. rewrite Forall2_fmap_l in Hgv. eapply Forall2_transitive; [|exact Hr|exact Hgv].
      intros x p g Hrx Hgg. by eapply ready_passes.
    + intros s2 Hs2.
      assert (HE : (exactly hL ∗ pres C W ps' ∗ T)%I ⊢ wp W (leave fins (ret tt)) (λ _, world C W E (ins xs ps' σ)) (λ _, False)).
      { iIntros "(HL & Hps & HT)". iApply (wp_wand with "[HT]"); [by iApply Hlv|]. iSplit; [|by iIntros (?) "[]"].
        iIntros ([]) "_". iApply (world_join C W E σ xs ps' Ho).
        - clear -Hit Hmv. revert xs Hit. induction Hmv as [|p p' ps1 ps2 [Hm1 _] _ IH]; intros xs Hit.
          + by apply Forall2_nil_inv_r in Hit as ->.
          + apply Forall2_cons_inv_r in Hit as (x&xs1&(Hx&Hm&_)&Hit&->). constructor; [|by apply IH]. unfold eitem. by rewrite Hm1.
        - iFrame "Hps". iStopProof. constructor. intros h ->. exact Hw. }
      apply (hprop_in_entails _ _ HE) in HQ. apply wp_unfold in HQ. specialize (HQ s2 ∅).
      rewrite right_id_L in HQ. specialize (HQ ltac:(destruct Hs2 as (->&_); exact Hm1) (map_disjoint_empty_r _) (same_memory_ginv _ _ Hs2 Hg1)).
      destruct (leave fins (ret tt) s2) as [[] s3|e s3|x] eqn:Hlf; [|by destruct HQ as (?&?&?&?&?&[])|done].
      destruct HQ as (h3&Hm3&_&_&Hth3&Hw3). rewrite right_id_L in Hm3. subst h3. exists s3. split; [done|]. split; [done|].
      by eapply after_world.
  - left. destruct Hpre as (h'&Hm1&_&Hg1&Hth&HQ). rewrite right_id_L in Hm1. subst h'.
    destruct HQ as (ps'&ha&hb&Hab&_&Hpure&HQ). apply apure_inv in Hpure as [-> (Hmv&Htr)].
    rewrite left_id_L in Hab. subst hb. exists e, s1. split; [exact Heq|]. split; [done|]. split.
    + eapply (after_world (p0 :: ps) ps'); [done..|].
      assert (HE : (exactly hL ∗ pres C W ps')%I ⊢ world C W E (ins xs ps' σ)).
      { iIntros "(HL & Hps)". iApply (world_join C W E σ xs ps' Ho).
        - clear -Hit Hmv. revert xs Hit. induction Hmv as [|p p' ps1 ps2 [Hm1 _] _ IH]; intros xs Hit.
          + by apply Forall2_nil_inv_r in Hit as ->.
          + apply Forall2_cons_inv_r in Hit as (x&xs1&(Hx&Hm&_)&Hit&->). constructor; [|by apply IH]. unfold eitem. by rewrite Hm1.
        - iFrame "Hps". iStopProof. constructor. intros h ->. exact Hw. }
      by apply (hprop_in_entails _ _ HE).
    + clear -Hi Hr Htr. revert Hr Htr. generalize (p0 :: ps). intros ps1 Hr Htr. induction Hr as [|x p xs ps1 Hrx Hr IH].
      * by apply Exists_nil in Htr.
      * apply Exists_cons in Htr as [Htr|Htr]; [left; by eapply ready_trouble|right; by apply IH].
Qed.

Lemma after_same s2 : reached E s -> same_memory s s2 -> after_visit C E s s2 xs.
Proof.
  intros Hr (Hm&_). assert (Hsame : forall z tys k, sees E s2 z tys k <-> sees E s z tys k).
  { intros z tys k. unfold Reach.sees. by rewrite Hm. }
  split; [rewrite Hm; by eapply LifeFacts.ownership|]. split.
  - intros z tys k _ Hk. exists k.2. split; [|done]. apply Hsame. by destruct k as [[??]?].
  - intros z _. split; [done|]. split; [intros; symmetry; apply Hsame|]. intros u v. unfold sees_obj. by rewrite Hm.
Qed.
Lemma view_passes x tys a k u l mv : E !! x = Some (BVar tys a) -> sees E s x tys k -> view C s tys a k u l ->
  passes C E s s (x, mv) (u, l, mv).
Proof.
  intros Hx Hk V. split; [done|]. pose proof V as [(t&Ht&<-) Hv Hst _ _ _]. exists tys, k, t, k.2. simpl.
  split; [done|]. split; [done|]. split; [done|]. split; [done|]. split; [done|]. intros _. split; [done|]. by eapply view_content.
Qed.
Lemma outcome_here n vs args : reached E s -> Forall2 (passes C E s s) xs args ->
  (forall A (f : list arg -> M A), visit_many C (sem C n) f vs s = f args s) -> outcome n vs.
Proof.
  intros Hr Ha Hv. right. exists args, s, []. split; [done|]. split; [done|]. split; [done|].
  intros s2 Hs2. exists s2. split; [done|]. split; [done|]. by apply after_same.
Qed.
End one.

Lemma visit_outcome E s xs vs : reached E s -> rvalues_once xs -> Forall2 (visited E) xs vs ->
  exists n0, forall n, n0 <= n -> outcome E s xs n vs.
Proof.
  intros Hr Ho Hvs. destruct (reached_inv _ _ _ _ _ HC _ _ Hr) as (B&σ&Hi). exists B. intros n Hn.
  destruct vs as [|v0 [|v1 [|v2 vs]]]; [| | |by eapply outcome_many].
  - apply Forall2_nil_inv_r in Hvs as ->. eapply (outcome_here _ _ _ _ _ []); [done|constructor|done].
  - apply Forall2_cons_inv_r in Hvs as ([x mv]&xs1&[Hx Hm]&Hvs&->). apply Forall2_nil_inv_r in Hvs as ->.
    destruct v0 as [[tys a] mv0]; simpl in *; subst mv0.
    destruct (variant_view C st nb eqf ltf HC E s Hr _ _ _ Hx) as (k&u&l&Hk&V).
    eapply (outcome_here _ _ _ _ _ [(u, l, mv)]); [done| |].
    + constructor; [by eapply view_passes|constructor].
    + intros A f. simpl. unfold visit1. rewrite (view_visit _ _ _ _ _ _ _ V) //.
  - apply Forall2_cons_inv_r in Hvs as ([x mv]&xs1&[Hx Hm]&Hvs&->).
    apply Forall2_cons_inv_r in Hvs as ([y mv']&xs2&[Hy Hm']&Hvs&->). apply Forall2_nil_inv_r in Hvs as ->.
    destruct v0 as [[tys a] mv0], v1 as [[tys' b] mv1]; simpl in *; subst mv0 mv1.
    destruct (variant_view C st nb eqf ltf HC E s Hr _ _ _ Hx) as (k&u&l&Hk&V).
    destruct (variant_view C st nb eqf ltf HC E s Hr _ _ _ Hy) as (k'&u'&l'&Hk'&V').
    eapply (outcome_here _ _ _ _ _ [(u, l, mv); (u', l', mv')]); [done| |].
    + constructor; [by eapply view_passes|]. constructor; [by eapply view_passes|constructor].
    + intros A f. simpl. unfold visit2, visit1, binary_unwrap, visit1, binary_invoke.
      rewrite (view_visit _ _ _ _ _ _ _ V) // (view_visit _ _ _ _ _ _ _ V') //.
Qed.

Lemma visit_every E s xs vs : reached E s -> rvalues_once xs -> Forall2 (visited E) xs vs ->
  exists n0, forall n, n0 <= n ->
    (exists e s', (forall A (f : list arg -> M A), visit_many C (sem C n) f vs s = Exn e s') /\
       after_visit C E s s' xs /\ Exists (fun x => x.2 = true /\ move_may_throw C E s x.1) xs) \/
    (exists args s1, Forall2 (passes C E s s1) xs args /\
       forall A (f : list arg -> M A),
         match f args s1 with
         | Ok a s2 => same_memory s1 s2 -> exists s3, visit_many C (sem C n) f vs s = Ok a s3 /\ after_visit C E s s3 xs
         | Exn e s2 => same_memory s1 s2 -> exists s3, visit_many C (sem C n) f vs s = Exn e s3 /\ after_visit C E s s3 xs
         | Fault x => visit_many C (sem C n) f vs s = Fault x
         end).
Proof.
  intros Hr Ho Hvs. destruct (visit_outcome _ _ _ _ Hr Ho Hvs) as (n0&H). exists n0. intros n Hn.
  destruct (H n Hn) as [(e&s'&He&_&Ha&Hx)|(args&s1&fins&Hp&_&He&Hl)]; [left; by exists e, s'|]. right.
  exists args, s1. split; [done|]. intros A f. destruct (f args s1) as [a s2|e s2|x] eqn:Hf.
  - intros Hs2. destruct (Hl s2 Hs2) as (s3&Hl3&_&Ha). exists s3. split; [|done]. rewrite He. by eapply leave_ok.
  - intros Hs2. destruct (Hl s2 Hs2) as (s3&Hl3&_&Ha). exists s3. split; [|done]. rewrite He. by eapply leave_exn.
  - rewrite He. by apply leave_fault.
Qed.
End final.
