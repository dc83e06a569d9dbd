(** Concrete runs, for the Examples: a history is executed and checked by computation; its
    last state and the next step are then states and steps of the kind the theorems speak
    about. *)
From Coq.ssr Require Import ssreflect.
From Coq Require Import ZArith Lia.
From iris.prelude Require Import prelude.
From stdpp Require Import gmap list numbers.
From Verif Require Import Base Types Variant Values Client Observe Spec History Levels Reach Check Samples.

Section runs.
Context (C : cfg) (st nb : bool) (D n : nat) (eqf ltf : uid -> uval -> uval -> bool).
Context (orc : nat -> Z) (h : list cmd).

(** The state after [h]. *)
Definition run_of : option (env * state * list out) := checked C st nb D n eqf ltf h ∅ (init orc).
Definition env_of : env := match run_of with Some (E, _, _) => E | None => ∅ end.
Definition state_of : state := match run_of with Some (_, s, _) => s | None => init orc end.

Definition runs : bool := match run_of with Some _ => true | None => false end.
Lemma runs_reached : runs = true -> reached C st nb eqf ltf env_of state_of.
Proof.
  unfold runs, env_of, state_of, run_of. destruct (checked _ _ _ _ _ _ _ _ _ _) as [[[E s] os]|] eqn:Hc; [|done].
  intros _. exists orc, h. by eapply checked_start.
Qed.

(** One more command [c]. *)
Section next.
Context (c : cmd).
Definition next_of : result := exec C n eqf ltf c env_of state_of.
Definition next_env : env := match next_of with Done E _ _ => E | Faulted _ => ∅ end.
Definition next_out : out := match next_of with Done _ o _ => o | Faulted _ => ODone end.
Definition next_state : state := match next_of with Done _ _ s => s | Faulted _ => init orc end.
Definition next_ok : bool :=
  runs && nextb C st nb D n env_of state_of c && match next_of with Done _ _ _ => true | Faulted _ => false end.

Lemma next_step o : next_ok = true -> next_out = o ->
  step C st nb eqf ltf c env_of state_of next_env o next_state.
Proof.
  unfold next_ok. intros [[H1 H2]%andb_true_iff H3]%andb_true_iff <-. split; [by apply runs_reached|].
  split; [by apply (nextb_ok C st nb D n)|]. unfold next_env, next_out, next_state in *.
  destruct next_of as [E o s|f] eqn:Hn; [|done]. by apply (exec_yields C n).
Qed.

(** And another. *)
Context (c2 : cmd).
Definition next2_of : result := exec C n eqf ltf c2 next_env next_state.
Definition next2_env : env := match next2_of with Done E _ _ => E | Faulted _ => ∅ end.
Definition next2_out : out := match next2_of with Done _ o _ => o | Faulted _ => ODone end.
Definition next2_state : state := match next2_of with Done _ _ s => s | Faulted _ => init orc end.
Definition next2_ok : bool :=
  next_ok && nextb C st nb D n next_env next_state c2 && match next2_of with Done _ _ _ => true | Faulted _ => false end.
Lemma next2_step o : next2_ok = true -> next2_out = o ->
  step C st nb eqf ltf c2 next_env next_state next2_env o next2_state.
Proof.
  unfold next2_ok. intros [[H1 H2]%andb_true_iff H3]%andb_true_iff <-.
  split; [|split; [by apply (nextb_ok C st nb D n)|]].
  - destruct (next_step _ H1 eq_refl) as [(orc'&h'&Hh) (Ha&Hy)]. exists orc', (h' ++ [c]). by eapply history_step.
  - unfold next2_env, next2_out, next2_state in *. destruct next2_of as [E o s|f] eqn:Hn; [|done]. by apply (exec_yields C n).
Qed.
End next.
End runs.

(** What a name shows, computed. *)
Definition look (C : cfg) (n : nat) (E : env) (s : state) (x : name) : option aval :=
  match E !! x with Some b => decode1 C n (mem s) b | None => None end.
Lemma look_sees C n E s x tys k : look C n E s x = Some (AVar tys k) -> sees C E s x tys k.
Proof.
  unfold look. destruct (E !! x) as [[tys' a|u a]|] eqn:Hx; [| |done]; simpl.
  - destruct (see_var (mem s) (see_obj C (mem s) n) tys' a) as [v|] eqn:Hv; [|done]. intros [= -> ->].
    exists a. split; [done|]. by exists n.
  - destruct (mem s !! a) as [[[] [o|] [?|]]|]; try done. by destruct (see_obj C (mem s) n u o).
Qed.
Lemma look_sees_obj C n E s x u v : look C n E s x = Some (AObj u v) -> sees_obj C E s x u v.
Proof.
  unfold look. destruct (E !! x) as [[tys' a|u' a]|] eqn:Hx; [| |done]; simpl.
  - by destruct (see_var (mem s) (see_obj C (mem s) n) tys' a).
  - destruct (mem s !! a) as [[[] [o|] [?|]]|] eqn:Hm; try done.
    destruct (see_obj C (mem s) n u' o) as [v'|] eqn:Ho; [|done]. intros [= -> ->].
    exists a. split; [done|]. by exists o, n.
Qed.

(** The state after [h] is reached and shows [α] under the names; the step after it has
    outcome [o]. *)
Ltac run_state C st nb orc h :=
  exists (env_of C st nb 8 8 eq0 lt0 orc h), (state_of C st nb 8 8 eq0 lt0 orc h).
Ltac run_step C st nb orc h c :=
  exists (env_of C st nb 8 8 eq0 lt0 orc h), (state_of C st nb 8 8 eq0 lt0 orc h),
         (next_env C st nb 8 8 eq0 lt0 orc h c), (next_state C st nb 8 8 eq0 lt0 orc h c).
Ltac by_run :=
  first [ apply runs_reached; by vm_compute
        | apply next_step; by vm_compute
        | apply (look_sees _ 8); by vm_compute
        | apply (look_sees_obj _ 8); by vm_compute
        | by vm_compute ].
Ltac by_runs := repeat match goal with |- _ /\ _ => split end; by_run.
