(** Exceptions are answers of the oracle (proofs). *)
From Coq.ssr Require Import ssreflect.
From Coq Require Import ZArith Lia.
From iris.prelude Require Import prelude.
From stdpp Require Import gmap list numbers.
From Verif Require Import Base Types Variant Sem Values Client Observe Spec History Reach Raises HistoryProof LifeFacts Asks AnswerSpec.

Section answer.
Context (C : cfg) (st nb : bool) (eqf ltf : uid -> uval -> uval -> bool).
Notation yields := (yields C eqf ltf).
Notation step := (step C st nb eqf ltf).

Lemma yields_later c E s E' o s' : yields c E s (Done E' o s') ->
  later s s' /\ match o with OThrew e => answered s s' e | _ => True end.
Proof.
  intros [n Hn]. specialize (Hn n ltac:(done)). unfold exec in Hn.
  pose proof (op_returns C eqf ltf n E c s) as Ho. pose proof (r_op C n eqf ltf E c s) as Hr.
  destruct (op C n eqf ltf E c s) as [[E1 o1] s1|e1 s1|f]; [| |done].
  - injection Hn as -> -> ->. split; [done|]. destruct o; try done. by destruct (Ho _ _ eq_refl e).
  - injection Hn as _ <- <-. done.
Qed.

Lemma step_answered c E s E' o s' : step c E s E' o s' ->
  orc s' = orc s /\ opos s <= opos s' /\ match o with OThrew e => answered s s' e | _ => True end.
Proof. intros (_&_&Hy). by destruct (yields_later _ _ _ _ _ _ Hy) as [[? ?] ?]. Qed.

Context (HC : good_env C st nb).
Lemma step_calm c E s E' o s' : step c E s E' o s' -> (forall i, opos s <= i -> orc s i = 0%Z) ->
  forall e, o = OThrew e -> e = XBadGet /\ uses_get c = true.
Proof.
  intros H Hz e ->. destruct (step_answered _ _ _ _ _ _ H) as (_&_&Ha).
  destruct (exceptions C st nb eqf ltf HC _ _ _ _ _ _ H) as (_&_&[Hf|?]); [|done].
  destruct Hf as [(k&u&i&->)|(i&->)]; simpl in Ha; destruct Ha as [? Hn]; destruct Hn; apply Hz; lia.
Qed.

Lemma thrown_answers E s : reached C st nb eqf ltf E s ->
  NoDup (omap exn_at (thrown s)) /\ (forall e i, e ∈ thrown s -> exn_at e = Some i -> i < opos s /\ orc s i <> 0%Z).
Proof.
  intros (orc0&h&Hh). induction Hh as [|h E s c E' o s' Hh IH Ha Hy]; [split; [constructor|set_solver]|].
  destruct IH as [IHn IHe].
  assert (Hst : step c E s E' o s') by (split; [by exists orc0, h|done]).
  destruct (step_answered _ _ _ _ _ _ Hst) as (Ho&Hp&He).
  pose proof (exceptions C st nb eqf ltf HC _ _ _ _ _ _ Hst) as Hx.
  assert (Hsame : thrown s' = thrown s -> NoDup (omap exn_at (thrown s')) /\
    (forall e i, e ∈ thrown s' -> exn_at e = Some i -> i < opos s' /\ orc s' i <> 0%Z)).
  { intros ->. split; [done|]. intros e i H1 H2. destruct (IHe e i H1 H2). rewrite Ho. split; [lia|done]. }
  destruct o; try by apply Hsame. clear Hsame.
  destruct Hx as (->&_). split.
  - simpl. destruct (exn_at e) as [i|] eqn:Hi; [|done]. constructor; [|done].
    intros (e2&Hin&H2)%elem_of_list_omap. destruct (IHe _ _ Hin H2). destruct e; simplify_eq/=; lia.
  - intros e2 i [->|Hin]%elem_of_cons Hi.
    + rewrite Ho. destruct e; simplify_eq/=; split; try lia; by destruct He.
    + destruct (IHe _ _ Hin Hi). rewrite Ho. split; [lia|done].
Qed.
End answer.
