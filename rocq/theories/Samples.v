(** Sample types for the Examples, and a check that they satisfy the conditions on user
    types. *)
From Coq.ssr Require Import ssreflect.
From Coq Require Import ZArith Lia.
From iris.prelude Require Import prelude.
From stdpp Require Import gmap list numbers.
From Verif Require Import Base Types TypesFacts Variant Values Client Observe Spec History Check.

(** Implicit conversions as a table: (from, to, rank). *)
Definition table_rank (tab : list (uid * uid * nat)) (u u' : uid) : option nat :=
  if decide (u' = u) then Some 0
  else match list_find (fun e => e.1 = (u, u')) tab with Some (_, e) => Some e.2 | None => None end.

(** A configuration from a list of traits; other type names get those of [d]. *)
Definition table_cfg (ts : list utraits) (d : utraits) (tab : list (uid * uid * nat))
    (l : nat) (nd fb : bool) : cfg :=
  {| te := fun u => nth u ts d; lim := l; ndebug := nd; fb_deref := fb;
     rank := table_rank tab; cv := fun u u' z => (z + 1000)%Z; dv := fun u => Z.of_nat u |}.

Section check.
Context (ts : list utraits) (d : utraits) (tab : list (uid * uid * nat)) (l : nat) (nd fb : bool).
Let C := table_cfg ts d tab l nd fb.

Definition nil {A} (l : list A) : bool := match l with [] => true | _ => false end.
Lemma nil_true {A} (k : list A) : nil k = true -> k = [].
Proof. by destruct k. Qed.

Definition massignb (t : ity) : bool := match t with IPlain u => nt_massign (te C u) | IWrap _ => true end.
Definition throwing_swapb (u : uid) : bool :=
  match ut_swap (te C u) with
  | Some b => negb b
  | None => negb (nt_move (te C u)) || negb (nt_massign (te C u))
  end.
Lemma throwing_swapb_ok u : throwing_swapb u = false -> ~ throwing_swap C u.
Proof.
  unfold throwing_swapb, throwing_swap. destruct (ut_swap (te C u)) as [[]|]; [done..|].
  by destruct (nt_move _), (nt_massign _); intros ? [?|?].
Qed.
Definition good_traits (st nb : bool) (t : utraits) : bool :=
  let ms := ut_members t in
  forallb (good_tysb C st nb) ms &&
  (negb (nt_copy t) || nil ms) && (negb (nt_cassign t) || nil ms) &&
  (negb (nt_move t) || forallb (forallb (it_move C)) ms) &&
  (negb (nt_massign t) || forallb (forallb (fun t => it_move C t && massignb t)) ms) &&
  (match ut_swap t with
   | Some true => forallb (forallb (fun t => it_move C t && massignb t && negb (throwing_swapb (ity_uid t)))) ms
   | _ => true
   end) &&
  (negb (nt_default t) || forallb (fun tys => match tys with t :: _ => it_default C t | [] => true end) ms) &&
  (bool_decide (ut_init t = DIUser) || nil ms).
Definition good_cfg (st nb : bool) : bool :=
  bool_decide (0 < l) && forallb (good_traits st nb) (d :: ts) &&
  forallb (fun e => nil (ut_members (te C e.1.2))) tab.

Lemma good_cfg_ok st nb : good_cfg st nb = true -> good_env C st nb.
Proof.
  unfold good_cfg. intros [[Hl Ht]%andb_true_iff Hc]%andb_true_iff.
  apply bool_decide_eq_true in Hl. rewrite forallb_forall in Ht. rewrite forallb_forall in Hc.
  assert (Hte : forall u, good_traits st nb (te C u) = true).
  { intros u. apply Ht. simpl. destruct (nth_in_or_default u ts d) as [H| ->]; [by right|by left]. }
  clear Ht.
  assert (Hu : forall u, let t := te C u in let ms := ut_members t in
    forallb (good_tysb C st nb) ms = true /\ (nt_copy t = true -> ms = []) /\ (nt_cassign t = true -> ms = []) /\
    (nt_move t = true -> forallb (forallb (it_move C)) ms = true) /\
    (nt_massign t = true -> forallb (forallb (fun t => it_move C t && massignb t)) ms = true) /\
    (ut_swap t = Some true ->
       forallb (forallb (fun t => it_move C t && massignb t && negb (throwing_swapb (ity_uid t)))) ms = true) /\
    (nt_default t = true -> forallb (fun tys => match tys with t :: _ => it_default C t | [] => true end) ms = true) /\
    (ut_init t <> DIUser -> ms = [])).
  { intros u t ms. specialize (Hte u). unfold good_traits in Hte. fold t in Hte. fold ms in Hte.
    repeat match goal with H : (_ && _) = true |- _ => apply andb_true_iff in H as [? ?] end.
    repeat split; intros; repeat match goal with H : (_ || _) = true |- _ => apply orb_true_iff in H as [?|?] end; try done;
    try (by apply nil_true); try (by rewrite ?bool_decide_eq_true in H H0); try congruence;
    match goal with H : negb ?b = true, H' : ?b = true |- _ => by rewrite H' in H | _ => idtac end.
    all: try by (match goal with H : bool_decide _ = true |- _ => apply bool_decide_eq_true in H end).
    all: match goal with Hs : _ = Some true, H : _ = true |- _ => by rewrite Hs in H end. }
  clear Hte.
  assert (Hin : forall (f : list ity -> bool) ms tys, forallb f ms = true -> tys ∈ ms -> f tys = true).
  { intros f ms tys Hf Hi. rewrite forallb_forall in Hf. by apply Hf, elem_of_list_In. }
  assert (Hin' : forall (f : ity -> bool) ms t, forallb f ms = true -> t ∈ ms -> f t = true).
  { intros f ms tys Hf Hi. rewrite forallb_forall in Hf. by apply Hf, elem_of_list_In. }
  split.
  - done.
  - intros u tys H. apply good_tysb_ok. destruct (Hu u) as (H1&_). by eapply Hin.
  - intros u. by destruct (Hu u) as (_&H1&_).
  - intros u. by destruct (Hu u) as (_&_&H1&_).
  - intros u tys t Hm Ht Hi. destruct (Hu u) as (_&_&_&H1&_). apply it_move_true.
    eapply Hin'; [|done]. by eapply (Hin (forallb (it_move C))); [apply H1|].
  - intros u tys t Hm Ht Hi. destruct (Hu u) as (_&_&_&_&H1&_).
    pose proof (Hin _ _ _ (H1 Hm) Ht) as H2. pose proof (Hin' _ _ _ H2 Hi) as H3.
    apply andb_true_iff in H3 as [H3 H4]. split; [by apply it_move_true|]. by destruct t.
  - intros u tys t Hm Ht Hi. destruct (Hu u) as (_&_&_&_&_&H1&_).
    pose proof (Hin _ _ _ (H1 Hm) Ht) as H2. pose proof (Hin' _ _ _ H2 Hi) as H3.
    apply andb_true_iff in H3 as [[H3 H4]%andb_true_iff H5%negb_true_iff].
    split; [by apply it_move_true|]. split; [by destruct t|]. by apply throwing_swapb_ok.
  - intros u tys t Hm Ht Hi. destruct (Hu u) as (_&_&_&_&_&_&H1&_).
    pose proof (Hin _ _ _ (H1 Hm) Ht) as H2. destruct tys as [|t' tys]; [done|]. injection Hi as ->.
    by apply it_default_true.
  - intros u. by destruct (Hu u) as (_&_&_&_&_&_&_&H1).
  - intros u u' [r Hr] Hne. simpl in Hr. unfold table_rank in Hr. rewrite decide_False in Hr; last congruence.
    destruct (list_find _ tab) as [[i e]|] eqn:Hf; [|done].
    apply list_find_Some in Hf as (Hi&He&_). apply nil_true.
    apply elem_of_list_lookup_2, elem_of_list_In, Hc in Hi. by rewrite He in Hi.
Qed.

End check.

(** ** The sample types

    0: like int. 1: boost::blank. 2: like std::string, without default constructor. 3: every
    operation may throw. 4: a list node holding variant<2, recursive_wrapper<4>>. 5: nothrow
    copy, throwing move. 6: nothrow default constructor that sets a value, otherwise like 3.
    7: a tree node holding two variant<blank, 3, recursive_wrapper<7>>. *)
Definition t_int := UTraits true true true true true DITriv false [] None.
Definition t_blank := UTraits true true true true true DIEmpty true [] None.
Definition t_string := UTraits false false true false true DIUser false [] None.
Definition t_loud := UTraits false false false false false DIUser false [] None.
Definition t_node := UTraits false false false false false DIUser false [[IPlain 2; IWrap 4]] None.
Definition t_sticky := UTraits false true false true false DIUser false [] None.
Definition t_user := UTraits true false false false false DIUser false [] None.
Definition t_tree := UTraits false false false false false DIUser false
  [[IPlain 1; IPlain 3; IWrap 7]; [IPlain 1; IPlain 3; IWrap 7]] None.

Definition types := [t_int; t_blank; t_string; t_loud; t_node; t_sticky; t_user; t_tree].
(** int converts to the string-like type, everything-throws to int. *)
Definition convs : list (uid * uid * nat) := [(0, 2, 1); (3, 0, 2)].

(** The code as it is, with assertions; limit 20 as in the default configuration. *)
Definition C0 : cfg := table_cfg types t_int convs 20 false false.
(** Only types for which the stronger conditions hold. *)
Definition types_nb := [t_int; t_blank; t_string; t_loud; t_loud; t_sticky; t_user; t_tree].
Definition C1 : cfg := table_cfg types_nb t_int convs 20 false false.
(** Assertions off; the code repaired. *)
Definition C0_nd : cfg := table_cfg types t_int convs 20 true false.
Definition C0_fix : cfg := table_cfg types t_int convs 20 false true.

Lemma C0_good : good_env C0 true false.
Proof. apply good_cfg_ok. by vm_compute. Qed.
Lemma C0_good' : good_env C0 false false.
Proof. apply good_cfg_ok. by vm_compute. Qed.
Lemma C1_good : good_env C1 true true.
Proof. apply good_cfg_ok. by vm_compute. Qed.
Lemma C1_good' : good_env C1 false true.
Proof. apply good_cfg_ok. by vm_compute. Qed.

(** Comparisons of the sample types: by data. *)
Definition eq0 (u : uid) (v w : uval) : bool :=
  match v, w with UV x _, UV y _ => bool_decide (x = y) end.
Definition lt0 (u : uid) (v w : uval) : bool :=
  match v, w with UV (Some x) _, UV (Some y) _ => bool_decide (x < y)%Z | _, _ => false end.

(** Oracles: nothing throws; the question [i] is answered [1], that is, throws. *)
Definition calm : nat -> Z := fun _ => 0%Z.
Definition throws_at (ps : list nat) : nat -> Z := fun i => if decide (i ∈ ps) then 1%Z else 0%Z.

(** Abbreviations for Examples. *)
Definition summary (r : option (env * state * list out)) : option (list out) :=
  match r with Some (_, _, os) => Some os | None => None end.
