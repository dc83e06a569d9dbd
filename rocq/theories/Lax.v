(** Histories without the conditions on type lists: what the library accepts. Vocabulary for
    the defects. Specification. *)
From Coq.ssr Require Import ssreflect.
From Coq Require Import ZArith Lia.
From iris.prelude Require Import prelude.
From stdpp Require Import gmap list numbers.
From Verif Require Import Base Types Dispatch Variant Sem Values Client Observe Spec History Check Levels.

Section lax.
Context (C : cfg) (eqf ltf : uid -> uval -> uval -> bool).

(** The command compiles, with any lists of bounded types, and no value is assigned out of a
    heap backup. *)
Definition lax_admissible (E : env) (s : state) (c : cmd) : Prop :=
  exists D σ, shows C (mem s) E σ /\ typed_with C false D σ (fun _ => True) c /\ unparked C σ c.

Inductive lax_reached : env -> state -> Prop :=
  | lax_start orc : lax_reached ∅ (init orc)
  | lax_step E s c E' o s' :
      lax_reached E s -> lax_admissible E s c -> yields C eqf ltf c E s (Done E' o s') ->
      lax_reached E' s'.

(** Checked runs. *)
Context (D n : nat).
Definition lax_nextb (E : env) (s : state) (c : cmd) : bool :=
  let σ := decode C n (mem s) E in
  decodable C n (mem s) E && typedb_with C false D σ (fun _ => true) c && unparkedb C σ c.
Lemma lax_nextb_ok E s c : lax_nextb E s c = true -> lax_admissible E s c.
Proof.
  unfold lax_nextb. intros [[Hd Ht]%andb_true_iff Hu]%andb_true_iff.
  exists D, (decode C n (mem s) E). split; [by apply decode_shows|].
  split; [by eapply typedb_with_ok|by apply unparkedb_ok].
Qed.
Fixpoint lax_run (h : list cmd) (E : env) (s : state) : option (env * state) :=
  match h with
  | [] => Some (E, s)
  | c :: h' => if lax_nextb E s c then
                 match exec C n eqf ltf c E s with Done E' o s' => lax_run h' E' s' | Faulted _ => None end
               else None
  end.
Lemma lax_run_reached h : forall E s E' s', lax_reached E s -> lax_run h E s = Some (E', s') -> lax_reached E' s'.
Proof.
  induction h as [|c h IH]; simpl; intros E s E' s' Hr Hh; [by injection Hh as -> ->|].
  destruct (lax_nextb E s c) eqn:Hn; [|done]. destruct (exec C n eqf ltf c E s) as [E1 o s1|] eqn:Hx; [|done].
  eapply IH; [|done]. eapply lax_step; [done|by apply lax_nextb_ok|]. by apply (exec_yields C n).
Qed.

Context (orc : nat -> Z) (h : list cmd).
Definition lax_of : option (env * state) := lax_run h ∅ (init orc).
Definition lax_env : env := match lax_of with Some p => p.1 | None => ∅ end.
Definition lax_state : state := match lax_of with Some p => p.2 | None => init orc end.
Definition lax_runs : bool := match lax_of with Some _ => true | None => false end.
Lemma lax_runs_ok : lax_runs = true -> lax_reached lax_env lax_state.
Proof.
  unfold lax_runs, lax_env, lax_state. destruct lax_of as [[E s]|] eqn:Hl; [|done]. intros _.
  by eapply lax_run_reached; [constructor|].
Qed.
End lax.

(** A result that does not depend on the level, for a computation [f n] at level [n]. *)
Definition settles {A} (f : nat -> M A) (s : state) (r : res A) : Prop :=
  exists n0, forall n, n0 <= n -> f n s = r.

Lemma fault_yields C eqf ltf n c E s f : f <> FFuel -> exec C n eqf ltf c E s = Faulted f ->
  yields C eqf ltf c E s (Faulted f).
Proof. intros Hf Hx. exists n. intros n' Hn. rewrite -Hx. apply exec_mono; [done|]. rewrite Hx. congruence. Qed.
