(** Concrete programs with recursive_wrapper variables, executed and checked by computation, for the
    Examples (proofs). *)
From Coq.ssr Require Import ssreflect.
From Coq Require Import ZArith Lia.
From iris.prelude Require Import prelude.
From stdpp Require Import gmap list numbers.
From Verif Require Import Base Types Variant Values Client Observe Spec History Levels Reach Check Samples Runs.
From Verif Require Import Wrappers WrappersSpec WrappersFacts.

Section check.
Context (C : cfg) (st nb : bool) (D n : nat) (eqf ltf : uid -> uval -> uval -> bool).

Definition wdecode1 (m : gmap loc cell) (f : uid * loc) : option (uid * loc * uval) :=
  match m !! f.2 with
  | Some (Cell KStk (Some (OWrap u p)) None) =>
      if decide (u = f.1) then
        match m !! p with
        | Some (Cell KHeap (Some o) None) => match see_obj C m n u o with Some v => Some (u, p, v) | None => None end
        | _ => None
        end
      else None
  | _ => None
  end.
Definition wdecode (m : gmap loc cell) (F : wenv) : wstate := omap (wdecode1 m) F.
Definition wdecodable (m : gmap loc cell) (F : wenv) : bool :=
  forallb (fun p => match wdecode1 m p.2 with Some _ => true | None => false end) (map_to_list F).

Lemma wdecode1_holds m u l u' p v : wdecode1 m (u, l) = Some (u', p, v) -> u' = u /\ wrap_holds C m u l p v.
Proof.
  unfold wdecode1. simpl. destruct (m !! l) as [[[] [[|u1 p1| | |]|] [?|]]|] eqn:Hl; try done.
  case_decide; [subst u1|done]. destruct (m !! p1) as [[[] [o|] [?|]]|] eqn:Hp; try done.
  destruct (see_obj C m n u o) eqn:Ho; [|done]. intros [= <- <- <-]. split; [done|]. split; [done|]. by exists o, n.
Qed.
Lemma wdecode_shows m F : wdecodable m F = true -> wshows C m F (wdecode m F).
Proof.
  intros H x. unfold wdecode, wenv, wstate in *. rewrite lookup_omap.
  destruct (F !! x) as [[u l]|] eqn:Hx; [|done]. simpl.
  unfold wdecodable in H. rewrite forallb_forall in H.
  assert (Hin : (x, (u, l)) ∈ map_to_list F) by by apply elem_of_map_to_list.
  apply elem_of_list_In, H in Hin. simpl in Hin.
  destruct (wdecode1 m (u, l)) as [[[u' p] v]|] eqn:Hd; [|done]. by apply wdecode1_holds.
Qed.

Definition wtypedb (σ : astate) (φ : wstate) (c : wcmd) : bool :=
  match c with
  | PMain c => typedb C st nb D σ c && unparkedb C σ c
  | PDefault x u => bool_decide (φ !! x = None) &&
      match defval C D true u with Some v => negb st || determinate v | None => false end
  | PCopy x y | PMove x y => bool_decide (φ !! x = None) && bool_decide (is_Some (φ !! y))
  | PFrom x y _ => bool_decide (φ !! x = None) && match σ !! y with Some (AObj _ _) => true | _ => false end
  | PAssign x y => match φ !! x, φ !! y with
                   | Some (u1, _, _), Some (u2, _, v2) => bool_decide (u1 = u2) && (bool_decide (x = y) || clean v2)
                   | _, _ => false
                   end
  | PMoveAssign x y | PSwap x y => match φ !! x, φ !! y with
                   | Some (u1, _, _), Some (u2, _, v2) => bool_decide (u1 = u2)
                   | _, _ => false
                   end
  | PAssignFrom x y _ => match φ !! x, σ !! y with
                   | Some (u1, _, _), Some (AObj u2 v2) => bool_decide (u1 = u2) && clean v2
                   | _, _ => false
                   end
  | PDrop x | PGet x => bool_decide (is_Some (φ !! x))
  | PTake z x => bool_decide (σ !! z = None) && bool_decide (is_Some (φ !! x))
  end.
Lemma wtypedb_ok σ φ c : wtypedb σ φ c = true -> wtyped C st nb D σ φ c.
Proof.
  unfold wtypedb, wtyped. destruct c.
  - intros [H1 H2]%andb_true_iff. split; [by apply typedb_ok|by apply unparkedb_ok].
  - intros [H1%bool_decide_eq_true H2]%andb_true_iff. split; [done|]. destruct (defval C D true u) as [v|]; [|done].
    exists v. split; [done|]. intros ->. done.
  - intros [H1%bool_decide_eq_true H2%bool_decide_eq_true]%andb_true_iff. done.
  - intros [H1%bool_decide_eq_true H2%bool_decide_eq_true]%andb_true_iff. done.
  - intros [H1%bool_decide_eq_true H2]%andb_true_iff. split; [done|]. destruct (σ !! y) as [[|u v]|] eqn:Hy; try done.
    exists u, v. done.
  - destruct (φ !! x) as [[[u1 p1] v1]|], (φ !! y) as [[[u2 p2] v2]|]; try done.
    intros [->%bool_decide_eq_true H2]%andb_true_iff. exists u2, p1, v1, p2, v2. split; [done|]. split; [done|]. intros Hne.
    apply orb_true_iff in H2 as [H2%bool_decide_eq_true|H2]; done.
  - destruct (φ !! x) as [[[u1 p1] v1]|], (φ !! y) as [[[u2 p2] v2]|]; try done.
    intros ->%bool_decide_eq_true. by exists u2, p1, v1, p2, v2.
  - destruct (φ !! x) as [[[u1 p1] v1]|], (σ !! y) as [[|u2 v2]|] eqn:Hy; try done.
    intros [->%bool_decide_eq_true H2]%andb_true_iff. by exists u2, p1, v1, v2.
  - destruct (φ !! x) as [[[u1 p1] v1]|], (φ !! y) as [[[u2 p2] v2]|]; try done.
    intros ->%bool_decide_eq_true. by exists u2, p1, v1, p2, v2.
  - by intros ?%bool_decide_eq_true.
  - by intros ?%bool_decide_eq_true.
  - intros [H1%bool_decide_eq_true H2%bool_decide_eq_true]%andb_true_iff. done.
Qed.

Definition wnextb (E : env) (F : wenv) (s : state) (c : wcmd) : bool :=
  decodable C n (mem s) E && wdecodable (mem s) F && wtypedb (decode C n (mem s) E) (wdecode (mem s) F) c.
Lemma wnextb_ok E F s c : wnextb E F s c = true -> wadmissible C st nb E F s c.
Proof.
  intros [[H1 H2]%andb_true_iff H3]%andb_true_iff. exists D, (decode C n (mem s) E), (wdecode (mem s) F).
  split; [by apply decode_shows|]. split; [by apply wdecode_shows|by apply wtypedb_ok].
Qed.

Fixpoint wchecked (h : list wcmd) (E : env) (F : wenv) (s : state) : option (env * wenv * state) :=
  match h with
  | [] => Some (E, F, s)
  | c :: h' => if wnextb E F s c then
                 match wexec C n eqf ltf c E F s with
                 | WDone E' F' _ s' => wchecked h' E' F' s'
                 | WFaulted _ => None
                 end
               else None
  end.
Lemma wexec_yields c E F s E' F' o s' : wexec C n eqf ltf c E F s = WDone E' F' o s' -> wyields C eqf ltf c E F s (WDone E' F' o s').
Proof. intros H. exists n. intros n' Hn. rewrite (wexec_mono C n n') //. by rewrite H. Qed.
Lemma wchecked_history orc h : forall h0 E F s E' F' s', whistory C st nb eqf ltf orc h0 E F s ->
  wchecked h E F s = Some (E', F', s') -> whistory C st nb eqf ltf orc (h0 ++ h) E' F' s'.
Proof.
  induction h as [|c h IH]; intros h0 E F s E' F' s' Hh; simpl.
  - intros [= <- <- <-]. by rewrite right_id_L.
  - destruct (wnextb E F s c) eqn:Hn; [|done]. destruct (wexec C n eqf ltf c E F s) as [E1 F1 o1 s1|] eqn:He; [|done].
    intros H. rewrite cons_middle assoc_L. eapply IH; [|exact H].
    eapply whistory_step; [done|by apply wnextb_ok|by apply wexec_yields].
Qed.

Context (orc : nat -> Z) (h : list wcmd).
Definition wrun_of := wchecked h ∅ ∅ (init orc).
Definition wenv_of : env := match wrun_of with Some (E, _, _) => E | None => ∅ end.
Definition wraps_of : wenv := match wrun_of with Some (_, F, _) => F | None => ∅ end.
Definition wstate_of : state := match wrun_of with Some (_, _, s) => s | None => init orc end.
Lemma wruns_reached : bool_decide (is_Some wrun_of) = true -> wreached C st nb eqf ltf wenv_of wraps_of wstate_of.
Proof.
  intros H%bool_decide_eq_true. unfold wenv_of, wraps_of, wstate_of, wrun_of in *.
  destruct (wchecked h ∅ ∅ (init orc)) as [[[E F] s]|] eqn:Hc; [|by destruct H]. exists orc, h.
  apply (wchecked_history orc h [] _ _ _ _ _ _ (whistory_start _ _ _ _ _ _) Hc).
Qed.

Context (c : wcmd).
Definition wnext_of := wexec C n eqf ltf c wenv_of wraps_of wstate_of.
Definition wnext_env : env := match wnext_of with WDone E _ _ _ => E | _ => ∅ end.
Definition wnext_wraps : wenv := match wnext_of with WDone _ F _ _ => F | _ => ∅ end.
Definition wnext_out : out := match wnext_of with WDone _ _ o _ => o | _ => ODone end.
Definition wnext_state : state := match wnext_of with WDone _ _ _ s => s | _ => init orc end.
Definition wnext_ok : bool :=
  bool_decide (is_Some wrun_of) && wnextb wenv_of wraps_of wstate_of c &&
  match wnext_of with WDone _ _ _ _ => true | _ => false end.
Lemma wnext_takes o : wnext_ok = true -> wnext_out = o ->
  wtakes C st nb eqf ltf c wenv_of wraps_of wstate_of wnext_env wnext_wraps o wnext_state.
Proof.
  unfold wnext_ok. intros [[H1 H2]%andb_true_iff H3]%andb_true_iff <-. split; [by apply wruns_reached|].
  split; [by apply wnextb_ok|]. unfold wnext_env, wnext_wraps, wnext_out, wnext_state in *.
  destruct wnext_of as [E F o s|f] eqn:Hn; [|done]. by apply wexec_yields.
Qed.
End check.

Ltac wrun_state C st nb orc h :=
  exists (wenv_of C st nb 8 8 eq0 lt0 orc h), (wraps_of C st nb 8 8 eq0 lt0 orc h), (wstate_of C st nb 8 8 eq0 lt0 orc h).
Ltac wrun_step C st nb orc h c :=
  wrun_state C st nb orc h;
  exists (wnext_env C st nb 8 8 eq0 lt0 orc h c), (wnext_wraps C st nb 8 8 eq0 lt0 orc h c), (wnext_state C st nb 8 8 eq0 lt0 orc h c).
Ltac by_wrun :=
  first [ apply wruns_reached; by vm_compute
        | apply wnext_takes; by vm_compute
        | lazymatch goal with |- _ = _ => by vm_compute end ].
