(** Concrete programs with references into contents, executed and checked by computation, for the
    Examples (proofs). *)
From Coq.ssr Require Import ssreflect.
From Coq Require Import ZArith Lia.
From iris.prelude Require Import prelude.
From stdpp Require Import gmap list numbers.
From Verif Require Import Base Types Variant Values Client Observe Spec History Levels Reach Check Samples Runs.
From Verif Require Import Places PlacesSpec PlacesFacts.

Section check.
Context (C : cfg) (st nb : bool) (D n : nat) (eqf ltf : uid -> uval -> uval -> bool).

Definition kdecode1 (m : gmap loc cell) (f : bnd * list (name * bnd)) : option (aval * list name) :=
  match f.1 with
  | BVar tys a => match see_var m see_top tys a with Some k => Some (AVar tys k, f.2.*1) | None => None end
  | BObj u a => match m !! a with
                | Some (Cell KStk (Some o) None) =>
                    match see_top u o with Some v => Some (AObj u v, f.2.*1) | None => None end
                | _ => None
                end
  end.
Definition kdecode (m : gmap loc cell) (K : kenv) : kstate := omap (kdecode1 m) K.
Definition kdecodable (m : gmap loc cell) (K : kenv) : bool :=
  forallb (fun p => match kdecode1 m p.2 with Some _ => true | None => false end) (map_to_list K).

Lemma kdecode_shows m K : kdecodable m K = true -> kshows m K (kdecode m K).
Proof.
  intros H x. unfold kdecode, kenv, kstate in *. rewrite lookup_omap.
  destruct (K !! x) as [[b refs]|] eqn:Hx; [|done]. simpl.
  unfold kdecodable in H. rewrite forallb_forall in H.
  assert (Hin : (x, (b, refs)) ∈ map_to_list K) by by apply elem_of_map_to_list.
  apply elem_of_list_In, H in Hin. simpl in Hin. unfold kdecode1 in *. simpl in *. destruct b as [tys a|u a].
  - destruct (see_var m see_top tys a) eqn:Hs; [|done]. done.
  - destruct (m !! a) as [[[] [o|] [?|]]|] eqn:Hm; try done. destruct (see_top u o) eqn:Ho; [|done].
    split; [done|]. split; [done|]. by exists o.
Qed.

Definition rtypedb (σ : astate) (κ : kstate) (c : rcmd) : bool :=
  match c with
  | RMain c => typedb C st nb D σ c && unparkedb C σ c &&
      match declares c with Some x => bool_decide (κ !! x = None) | None => true end &&
      match c with CDrop r => forallb (fun p : name * (aval * list name) => bool_decide (r ∉ p.2.2)) (map_to_list (κ : gmap name (aval * list name))) | _ => true end
  | ROpen x u rs =>
      match σ !! x with Some (AVar _ _) => true | Some (AObj u' _) => bool_decide (u' = u) | None => false end &&
      bool_decide (NoDup rs) && bool_decide (length rs = length (ut_members (te C u))) &&
      forallb (fun r => bool_decide (σ !! r = None) && bool_decide (κ !! r = None)) rs
  | RClose x => match κ !! x with Some (_, rs) => forallb (fun r => bool_decide (is_Some (σ !! r))) rs | None => false end
  | RFromGet x tys y u mv => bool_decide (σ !! x = None) && bool_decide (κ !! x = None) && good_tysb C st nb tys &&
      matches C tys u && match σ !! y with Some (AVar _ _) => true | _ => false end
  | RAssignGet x y u mv => bool_decide (x <> y) &&
      match σ !! x, σ !! y with
      | Some (AVar tys _), Some (AVar _ k2) => matches C tys u && clean k2.2
      | _, _ => false
      end
  | RPokeGet x u y => bool_decide (x <> y) &&
      match σ !! x, σ !! y with Some (AVar tys _), Some (AVar _ k2) => clean k2.2 | _, _ => false end
  end.
Lemma rtypedb_ok σ κ c : rtypedb σ κ c = true -> rtyped C st nb D σ κ c.
Proof.
  unfold rtypedb, rtyped. destruct c.
  - intros [[[H1 H2]%andb_true_iff H3]%andb_true_iff H4]%andb_true_iff. split; [by apply typedb_ok|]. split; [by apply unparkedb_ok|].
    split. { intros x Hx. rewrite Hx in H3. by apply bool_decide_eq_true in H3. }
    intros r -> (x&α&rs&Hx&Hr). rewrite forallb_forall in H4. unfold kstate in *.
    assert (Hin : (x, (α, rs)) ∈ map_to_list κ) by by apply elem_of_map_to_list.
    apply elem_of_list_In, H4 in Hin. by apply bool_decide_eq_true in Hin.
  - intros [[[H1 H2%bool_decide_eq_true]%andb_true_iff H3%bool_decide_eq_true]%andb_true_iff H4]%andb_true_iff.
    split. { destruct (σ !! x) as [[tys k|u' v]|] eqn:Hx; [|apply bool_decide_eq_true in H1; subst|done]; [left; by exists tys, k|right; by exists v]. }
    split; [done|]. split; [done|]. intros r Hr. rewrite forallb_forall in H4. apply elem_of_list_In, H4 in Hr.
    by apply andb_true_iff in Hr as [?%bool_decide_eq_true ?%bool_decide_eq_true].
  - destruct (κ !! x) as [[α rs]|] eqn:Hx; [|done]. intros H. exists α, rs. split; [done|]. intros r Hr.
    rewrite forallb_forall in H. apply elem_of_list_In, H in Hr. by apply bool_decide_eq_true in Hr.
  - intros [[[[H1%bool_decide_eq_true H2%bool_decide_eq_true]%andb_true_iff H3]%andb_true_iff H4]%andb_true_iff H5]%andb_true_iff.
    split; [done|]. split; [done|]. split; [by apply good_tysb_ok|]. split; [by apply matches_ok|].
    destruct (σ !! y) as [[tys2 k2|]|] eqn:Hy; try done. by exists tys2, k2.
  - intros [H1%bool_decide_eq_true H2]%andb_true_iff. split; [done|].
    destruct (σ !! x) as [[tys k1|]|] eqn:Hx, (σ !! y) as [[tys2 k2|]|] eqn:Hy; try done.
    apply andb_true_iff in H2 as [H2 H3]. exists tys, k1, tys2, k2. split; [done|]. split; [done|].
    split; [by apply matches_ok|done].
  - intros [H1%bool_decide_eq_true H2]%andb_true_iff. split; [done|].
    destruct (σ !! x) as [[tys k1|]|] eqn:Hx, (σ !! y) as [[tys2 k2|]|] eqn:Hy; try done.
    by exists tys, k1, tys2, k2.
Qed.

Definition rnextb (E : env) (K : kenv) (s : state) (c : rcmd) : bool :=
  decodable C n (mem s) E && kdecodable (mem s) K && rtypedb (decode C n (mem s) E) (kdecode (mem s) K) c.
Lemma rnextb_ok E K s c : rnextb E K s c = true -> radmissible C st nb E K s c.
Proof.
  intros [[H1 H2]%andb_true_iff H3]%andb_true_iff. exists D, (decode C n (mem s) E), (kdecode (mem s) K).
  split; [by apply decode_shows|]. split; [by apply kdecode_shows|by apply rtypedb_ok].
Qed.

Fixpoint rchecked (h : list rcmd) (E : env) (K : kenv) (s : state) : option (env * kenv * state) :=
  match h with
  | [] => Some (E, K, s)
  | c :: h' => if rnextb E K s c then
                 match rexec C n eqf ltf c E K s with
                 | RDone E' K' _ s' => rchecked h' E' K' s'
                 | RFaulted _ => None
                 end
               else None
  end.
Lemma rexec_yields c E K s E' K' o s' : rexec C n eqf ltf c E K s = RDone E' K' o s' -> ryields C eqf ltf c E K s (RDone E' K' o s').
Proof. intros H. exists n. intros n' Hn. rewrite (rexec_mono C n n') //. by rewrite H. Qed.
Lemma rchecked_history orc h : forall h0 E K s E' K' s', rhistory C st nb eqf ltf orc h0 E K s ->
  rchecked h E K s = Some (E', K', s') -> rhistory C st nb eqf ltf orc (h0 ++ h) E' K' s'.
Proof.
  induction h as [|c h IH]; intros h0 E K s E' K' s' Hh; simpl.
  - intros [= <- <- <-]. by rewrite right_id_L.
  - destruct (rnextb E K s c) eqn:Hn; [|done]. destruct (rexec C n eqf ltf c E K s) as [E1 K1 o1 s1|] eqn:He; [|done].
    intros H. rewrite cons_middle assoc_L. eapply IH; [|exact H].
    eapply rhistory_step; [done|by apply rnextb_ok|by apply rexec_yields].
Qed.

Context (orc : nat -> Z) (h : list rcmd).
Definition rrun_of := rchecked h ∅ ∅ (init orc).
Definition renv_of : env := match rrun_of with Some (E, _, _) => E | None => ∅ end.
Definition rkept_of : kenv := match rrun_of with Some (_, K, _) => K | None => ∅ end.
Definition rstate_of : state := match rrun_of with Some (_, _, s) => s | None => init orc end.
Lemma rruns_reached : bool_decide (is_Some rrun_of) = true -> rreached C st nb eqf ltf renv_of rkept_of rstate_of.
Proof.
  intros H%bool_decide_eq_true. unfold renv_of, rkept_of, rstate_of, rrun_of in *.
  destruct (rchecked h ∅ ∅ (init orc)) as [[[E K] s]|] eqn:Hc; [|by destruct H]. exists orc, h.
  apply (rchecked_history orc h [] _ _ _ _ _ _ (rhistory_start _ _ _ _ _ _) Hc).
Qed.

Context (c : rcmd).
Definition rnext_of := rexec C n eqf ltf c renv_of rkept_of rstate_of.
Definition rnext_env : env := match rnext_of with RDone E _ _ _ => E | _ => ∅ end.
Definition rnext_kept : kenv := match rnext_of with RDone _ K _ _ => K | _ => ∅ end.
Definition rnext_out : out := match rnext_of with RDone _ _ o _ => o | _ => ODone end.
Definition rnext_state : state := match rnext_of with RDone _ _ _ s => s | _ => init orc end.
Definition rnext_ok : bool :=
  bool_decide (is_Some rrun_of) && rnextb renv_of rkept_of rstate_of c &&
  match rnext_of with RDone _ _ _ _ => true | _ => false end.
Lemma rnext_takes o : rnext_ok = true -> rnext_out = o ->
  rtakes C st nb eqf ltf c renv_of rkept_of rstate_of rnext_env rnext_kept o rnext_state.
Proof.
  unfold rnext_ok. intros [[H1 H2]%andb_true_iff H3]%andb_true_iff <-. split; [by apply rruns_reached|].
  split; [by apply rnextb_ok|]. unfold rnext_env, rnext_kept, rnext_out, rnext_state in *.
  destruct rnext_of as [E K o s|f] eqn:Hn; [|done]. by apply rexec_yields.
Qed.
End check.

Ltac rrun_state C st nb orc h :=
  exists (renv_of C st nb 8 8 eq0 lt0 orc h), (rkept_of C st nb 8 8 eq0 lt0 orc h), (rstate_of C st nb 8 8 eq0 lt0 orc h).
Ltac rrun_step C st nb orc h c :=
  rrun_state C st nb orc h;
  exists (rnext_env C st nb 8 8 eq0 lt0 orc h c), (rnext_kept C st nb 8 8 eq0 lt0 orc h c), (rnext_state C st nb 8 8 eq0 lt0 orc h c).
Ltac by_rrun :=
  first [ apply rruns_reached; by vm_compute
        | apply rnext_takes; by vm_compute
        | lazymatch goal with |- _ = _ => by vm_compute end ].
