(** Weakest preconditions for the machine of Base.v. Proof infrastructure. *)
From stdpp Require Import gmap.
From iris.proofmode Require Import tactics.
From Verif Require Import Base Heap Trace.


(** What the proof additionally tracks: [strict]: no indeterminate value is ever read;
    [nobk]: no backup is ever allocated. *)
Record wpar := WPar { strict : bool; nobk : bool }.

(** Invariant of all runs. *)
Record ginv (W : wpar) (s : state) : Prop := GInv {
  gi_fresh : forall l c, mem s !! l = Some c -> (l < nxt s)%positive;
  gi_life : forall l, occupant l (tr s) = Some (tag_at (mem s) l);
  gi_block : forall l, exists b, block l (tr s) = Some b /\ (b = BLive <-> is_block (mem s) l);
  gi_evs : forall e, e ∈ tr s -> (ev_loc e < nxt s)%positive;
  gi_strict : strict W = true -> ind s = false;
  gi_nobk : nobk W = true -> forall l, EvNew APBackup l ∉ tr s
}.

Lemma munion_assoc (h1 h2 h3 : heap) : h1 ∪ (h2 ∪ h3) = h1 ∪ h2 ∪ h3.
Proof. apply (assoc_L (∪)). Qed.

Section wp.
Context (W : wpar).

Definition wp {A} (m : M A) (Q : A -> hprop) (X : exn -> hprop) : hprop :=
  {| hholds h := forall s hf,
       mem s = h ∪ hf -> h ##ₘ hf -> ginv W s ->
       match m s with
       | Ok a s' => exists h', mem s' = h' ∪ hf /\ h' ##ₘ hf /\ ginv W s' /\
                               thrown s' = thrown s /\ Q a h'
       | Exn e s' => exists h', mem s' = h' ∪ hf /\ h' ##ₘ hf /\ ginv W s' /\
                                thrown s' = e :: thrown s /\ X e h'
       | Fault _ => False
       end |}.

Lemma wp_unfold {A} (m : M A) Q X h :
  wp m Q X h <-> forall s hf,
       mem s = h ∪ hf -> h ##ₘ hf -> ginv W s ->
       match m s with
       | Ok a s' => exists h', mem s' = h' ∪ hf /\ h' ##ₘ hf /\ ginv W s' /\
                               thrown s' = thrown s /\ Q a h'
       | Exn e s' => exists h', mem s' = h' ∪ hf /\ h' ##ₘ hf /\ ginv W s' /\
                                thrown s' = e :: thrown s /\ X e h'
       | Fault _ => False
       end.
Proof. done. Qed.

Implicit Types (h hf : heap).

Lemma wp_ret {A} (a : A) Q X : Q a ⊢ wp (ret a) Q X.
Proof.
  constructor; intros h HQ s hf Hm Hd Hg. simpl. exists h; auto.
Qed.

Lemma wp_bind {A B} (m : M A) (f : A -> M B) Q X :
  wp m (fun a => wp (f a) Q X) X ⊢ wp (bind m f) Q X.
Proof.
  constructor; intros h Hw s hf Hm Hd Hg. specialize (Hw s hf Hm Hd Hg). unfold bind.
  destruct (m s) as [a s'|e s'|x]; [|done|done].
  destruct Hw as (h'&Hm'&Hd'&Hg'&Ht'&Hw'). rewrite -Ht'. exact (Hw' s' hf Hm' Hd' Hg').
Qed.

Lemma wp_wand {A} (m : M A) Q X Q' X' :
  wp m Q X ⊢ ((∀ a, Q a -∗ Q' a) ∧ (∀ e, X e -∗ X' e)) -∗ wp m Q' X'.
Proof.
  apply bi.wand_intro_r. constructor; intros h (h1&h2&->&Hd12&Hw&Hk) s hf Hm Hd Hg.
  apply map_disjoint_union_l in Hd as [Hd1 Hd2].
  specialize (Hw s (h2 ∪ hf)). rewrite munion_assoc in Hw.
  specialize (Hw Hm ltac:(by apply map_disjoint_union_r_2) Hg).
  destruct Hk as [HkQ HkX].
  destruct (m s) as [a s'|e s'|x]; [| |done].
  - destruct Hw as (h'&Hm'&Hd'&Hg'&Ht'&Hw').
    apply map_disjoint_union_r in Hd' as [Hd1' Hd2'].
    exists (h2 ∪ h'). split.
    { rewrite Hm' munion_assoc. f_equal. by apply map_union_comm. }
    split; [by apply map_disjoint_union_l_2|]. split; [done|]. split; [done|].
    apply HkQ; done.
  - destruct Hw as (h'&Hm'&Hd'&Hg'&Ht'&Hw').
    apply map_disjoint_union_r in Hd' as [Hd1' Hd2'].
    exists (h2 ∪ h'). split.
    { rewrite Hm' munion_assoc. f_equal. by apply map_union_comm. }
    split; [by apply map_disjoint_union_l_2|]. split; [done|]. split; [done|].
    apply HkX; done.
Qed.

Lemma wp_on_exn {A} (m : M A) (hd : M unit) Q X :
  wp m Q (fun e => wp hd (fun _ => X e) (fun _ => False%I)) ⊢ wp (on_exn m hd) Q X.
Proof.
  constructor; intros h Hw s hf Hm Hd Hg. specialize (Hw s hf Hm Hd Hg). unfold on_exn.
  destruct (m s) as [a s'|e s'|x]; [done| |done].
  destruct Hw as (h'&Hm'&Hd'&Hg'&Ht'&Hw'). specialize (Hw' s' hf Hm' Hd' Hg').
  destruct (hd s') as [a s''|e' s''|x]; [|by destruct Hw' as (?&?&?&?&?&[])|done].
  rewrite -Ht'. done.
Qed.

Lemma wp_finally {A} (m : M A) (hd : M unit) Q X :
  wp m (fun a => wp hd (fun _ => Q a) (fun _ => False%I))
       (fun e => wp hd (fun _ => X e) (fun _ => False%I)) ⊢ wp (finally m hd) Q X.
Proof.
  constructor; intros h Hw s hf Hm Hd Hg. specialize (Hw s hf Hm Hd Hg). unfold finally.
  destruct (m s) as [a s'|e s'|x]; [| |done].
  - destruct Hw as (h'&Hm'&Hd'&Hg'&Ht'&Hw'). specialize (Hw' s' hf Hm' Hd' Hg').
    destruct (hd s') as [[] s''|e' s''|x]; [|by destruct Hw' as (?&?&?&?&?&[])|done].
    rewrite -Ht'. done.
  - destruct Hw as (h'&Hm'&Hd'&Hg'&Ht'&Hw'). specialize (Hw' s' hf Hm' Hd' Hg').
    destruct (hd s') as [a s''|e' s''|x]; [|by destruct Hw' as (?&?&?&?&?&[])|done].
    rewrite -Ht'. done.
Qed.

Lemma wp_noexcept {A} (m : M A) Q X :
  wp m Q (fun _ => False%I) ⊢ wp (noexcept m) Q X.
Proof.
  constructor; intros h Hw s hf Hm Hd Hg. specialize (Hw s hf Hm Hd Hg). unfold noexcept.
  destruct (m s) as [a s'|e s'|x]; [done| |done].
  by destruct Hw as (?&?&?&?&?&[]).
Qed.

Lemma wp_noexcept_if {A} (b : bool) (m : M A) Q X :
  wp m Q (fun e => if b then False%I else X e) ⊢ wp (noexcept_if b m) Q X.
Proof. destruct b; simpl; [apply wp_noexcept | done]. Qed.

(** ** Helpers about the invariant *)

Lemma ginv_ext s s' :
  ginv W s -> mem s' = mem s -> nxt s' = nxt s -> tr s' = tr s -> ind s' = ind s -> ginv W s'.
Proof.
  intros [H1 H2 H3 H4 H5 H6] Hm Hn Ht Hi. split.
  - intros l c. rewrite Hm Hn. apply H1.
  - intros l. rewrite Ht Hm. apply H2.
  - intros l. rewrite Ht Hm. apply H3.
  - intros e. rewrite Ht Hn. apply H4.
  - rewrite Hi. done.
  - rewrite Ht. done.
Qed.

Lemma wp_throw {A} (e : exn) Q X : X e ⊢ wp (throw (A:=A) e) Q X.
Proof.
  constructor; intros h HX s hf Hm Hd Hg. simpl. exists h. repeat split; try done.
  - apply (gi_fresh _ _ Hg).
  - apply (gi_life _ _ Hg).
  - apply (gi_block _ _ Hg).
  - apply (gi_evs _ _ Hg).
  - apply (gi_strict _ _ Hg).
  - apply (gi_nobk _ _ Hg).
Qed.

Lemma wp_choose Q X : (∀ z, Q z) ⊢ wp choose Q X.
Proof.
  constructor; intros h HX s hf Hm Hd Hg. simpl. exists h. split; [done|]. split; [done|].
  split; [by eapply ginv_ext|]. split; [done|]. apply HX.
Qed.

Lemma wp_note_read z Q X : ⌞strict W = true -> z <> None⌟ ∗ Q tt ⊢ wp (note_read z) Q X.
Proof.
  constructor; intros h (h1&h2&->&Hdd&Hz&HQ) s hf Hm Hd Hg.
  apply hprop_unfold_apure in Hz as [-> Hz]. rewrite left_id_L in Hm Hd |- *.
  simpl. exists h2. split; [done|]. split; [done|].
  split; [|done]. destruct Hg as [H1 H2 H3 H4 H5 H6]. split; simpl; auto.
  intros Hs. destruct z; [auto|]. by specialize (Hz Hs).
Qed.

Lemma wp_maybe_throw k u nt Q X :
  Q tt ∧ (∀ e, ⌞nt = false⌟ -∗ X e) ⊢ wp (maybe_throw k u nt) Q X.
Proof.
  constructor; intros h [HQ HX] s hf Hm Hd Hg. unfold maybe_throw. destruct nt.
  { exists h. auto. }
  simpl. destruct (decide _).
  - exists h. split; [done|]. split; [done|]. split; [by eapply ginv_ext|]. done.
  - exists h. split; [done|]. split; [done|]. split; [by eapply ginv_ext|]. split; [done|].
    assert (H := HX (XUser k u (opos s)) ∅ ltac:(apply map_disjoint_empty_r)).
    rewrite right_id_L in H. apply H. by apply hprop_unfold_apure.
Qed.

(** A heap owning a cell. *)
Lemma pt_lookup l c h hf : (l ↦ c : hprop)%I h -> (h ∪ hf) !! l = Some c.
Proof. unfold pt, hholds. intros ->. apply lookup_union_Some_l, lookup_singleton. Qed.

Lemma pt_update l c c' h1 h2 hf :
  (l ↦ c : hprop)%I h1 -> h1 ##ₘ h2 -> h1 ∪ h2 ##ₘ hf ->
  <[l := c']> (h1 ∪ h2 ∪ hf) = {[l := c']} ∪ h2 ∪ hf /\
  {[l := c']} ##ₘ h2 /\ {[l := c']} ∪ h2 ##ₘ hf.
Proof.
  unfold pt, hholds. intros -> Hd Hd'.
  apply map_disjoint_union_l in Hd' as [Hd1 Hd2].
  assert (Hh2 : h2 !! l = None) by by eapply map_disjoint_singleton_l.
  assert (Hhf : hf !! l = None) by by eapply map_disjoint_singleton_l.
  split; [|split].
  - rewrite !insert_union_l. do 2 f_equal. apply insert_singleton.
  - by apply map_disjoint_singleton_l.
  - apply map_disjoint_union_l_2; [|done]. by apply map_disjoint_singleton_l.
Qed.

Lemma pt_delete l c h1 h2 hf :
  (l ↦ c : hprop)%I h1 -> h1 ##ₘ h2 -> h1 ∪ h2 ##ₘ hf ->
  delete l (h1 ∪ h2 ∪ hf) = h2 ∪ hf /\ h2 ##ₘ hf.
Proof.
  unfold pt, hholds. intros -> Hd Hd'.
  apply map_disjoint_union_l in Hd' as [Hd1 Hd2].
  assert (Hh2 : h2 !! l = None) by by eapply map_disjoint_singleton_l.
  assert (Hhf : hf !! l = None) by by eapply map_disjoint_singleton_l.
  split; [|done].
  rewrite !delete_union delete_singleton left_id_L (delete_notin h2) // (delete_notin hf) //.
Qed.

Lemma wp_get_cell l c Q X :
  l ↦ c ∗ (l ↦ c -∗ Q c) ⊢ wp (get_cell l) Q X.
Proof.
  constructor; intros h (h1&h2&->&Hdd&Hl&HQ) s hf Hm Hd Hg.
  unfold get_cell. rewrite Hm -!munion_assoc (pt_lookup l c) //.
  exists (h1 ∪ h2). split; [done|]. split; [done|]. split; [done|]. split; [done|].
  rewrite map_union_comm //. by apply HQ.
Qed.

Lemma tag_insert_ne m l l' c : l <> l' -> tag_at (<[l' := c]> m) l = tag_at m l.
Proof. intros. unfold tag_at. rewrite lookup_insert_ne //. Qed.
Lemma tag_insert m l c :
  tag_at (<[l := c]> m) l = match cc c with Some o => Some (tag_of o) | None => None end.
Proof. unfold tag_at. rewrite lookup_insert //. Qed.
Lemma tag_delete_ne m l l' : l <> l' -> tag_at (delete l' m) l = tag_at m l.
Proof. intros. unfold tag_at. rewrite lookup_delete_ne //. Qed.
Lemma tag_delete m l : tag_at (delete l m) l = None.
Proof. unfold tag_at. rewrite lookup_delete //. Qed.
Lemma block_insert_ne m l l' c : l <> l' -> is_block (<[l' := c]> m) l <-> is_block m l.
Proof. intros. unfold is_block. rewrite lookup_insert_ne //. Qed.
Lemma block_insert m l c : is_block (<[l := c]> m) l <-> ck c = KHeap.
Proof. unfold is_block. rewrite lookup_insert. naive_solver. Qed.
Lemma block_delete_ne m l l' : l <> l' -> is_block (delete l' m) l <-> is_block m l.
Proof. intros. unfold is_block. rewrite lookup_delete_ne //. Qed.
Lemma block_delete m l : ~ is_block (delete l m) l.
Proof. unfold is_block. rewrite lookup_delete. naive_solver. Qed.

(** An update of a cell that keeps the kind, with the event it calls for. *)
Definition upd_ev (l : loc) (o o' : option otag) (ev : list event) : Prop :=
  match o, o' with
  | None, None => ev = []
  | Some t, Some t' => ev = [] /\ t' = t
  | None, Some t' => ev = [EvC t' l]
  | Some t, None => ev = [EvD t l]
  end.
Definition ctag (c : cell) : option otag := match cc c with Some o => Some (tag_of o) | None => None end.

Lemma ginv_update s l c c' ev :
  ginv W s -> mem s !! l = Some c -> ck c' = ck c -> upd_ev l (ctag c) (ctag c') ev ->
  ginv W {| mem := <[l := c']> (mem s); nxt := nxt s; tr := ev ++ tr s; thrown := thrown s;
            orc := orc s; opos := opos s; ind := ind s |}.
Proof.
  intros [H1 H2 H3 H4 H5 H6] Hl Hk Hev.
  assert (Ht : tag_at (mem s) l = ctag c) by rewrite /tag_at Hl //.
  assert (Hcs : ev = [] \/ exists t, ev = [EvC t l] \/ ev = [EvD t l]).
  { unfold upd_ev in Hev. destruct (ctag c), (ctag c'); naive_solver. }
  assert (Hev' : forall e, e ∈ ev -> match e with EvC _ l' | EvD _ l' => l' = l | _ => False end).
  { intros e. destruct Hcs as [->|(t&[->| ->])]; intros Hin; try by apply elem_of_nil in Hin.
    all: by apply elem_of_list_singleton in Hin as ->. }
  assert (Hocc : forall l0, l0 <> l -> occupant l0 (ev ++ tr s) = occupant l0 (tr s)).
  { intros l0 Hne. destruct Hcs as [->|(t&[->| ->])]; simpl; rewrite ?decide_False //. }
  assert (Hblk : forall l0, block l0 (ev ++ tr s) = block l0 (tr s)).
  { intros l0. destruct Hcs as [->|(t&[->| ->])]; done. }
  split; simpl.
  - intros l0 c0. destruct (decide (l0 = l)) as [->|].
    + intros _. by eapply H1.
    + rewrite lookup_insert_ne //. apply H1.
  - intros l0. destruct (decide (l0 = l)) as [->|].
    + rewrite tag_insert. change (occupant l (ev ++ tr s) = Some (ctag c')). unfold upd_ev in Hev.
      specialize (H2 l). rewrite Ht in H2. destruct (ctag c), (ctag c').
      * destruct Hev as [-> ->]. done.
      * rewrite Hev /=. rewrite decide_True // H2 decide_True //.
      * rewrite Hev /=. rewrite decide_True // H2 //.
      * by rewrite Hev.
    + rewrite tag_insert_ne // Hocc //.
  - intros l0. destruct (H3 l0) as (b&Hb&Hi). exists b. rewrite Hblk. split; [done|]. rewrite Hi.
    destruct (decide (l0 = l)) as [->|]; [|by rewrite block_insert_ne].
    rewrite block_insert /is_block Hl Hk. naive_solver.
  - intros e [Hin|Hin]%elem_of_app; [|by apply H4].
    apply Hev' in Hin. assert (Hlt := H1 _ _ Hl). destruct e; simplify_eq/=; done.
  - done.
  - intros Hn l0 [Hin|Hin]%elem_of_app; [by apply Hev' in Hin|]. by eapply H6.
Qed.

Lemma wp_put_cell l c c' Q X :
  ck c' = ck c -> cc c' = cc c ->
  l ↦ c ∗ (l ↦ c' -∗ Q tt) ⊢ wp (put_cell l c') Q X.
Proof.
  intros Hk Hc. constructor; intros h (h1&h2&->&Hdd&Hl&HQ) s hf Hm Hd Hg.
  assert (Hlk : mem s !! l = Some c) by rewrite Hm -!munion_assoc (pt_lookup l c) //.
  unfold put_cell. rewrite Hlk.
  destruct (pt_update l c c' h1 h2 hf) as (Hu&Hd1&Hd2); [done..|].
  exists ({[l := c']} ∪ h2). split; [simpl; by rewrite Hm|]. split; [done|].
  split; [|split; [done|]].
  - apply (ginv_update s l c c' []); auto. rewrite /ctag Hc. by destruct (cc c).
  - rewrite map_union_comm //. by apply HQ.
Qed.

Lemma wp_get_obj l k o w Q X :
  l ↦ Cell k (Some o) w ∗ (l ↦ Cell k (Some o) w -∗ Q o) ⊢ wp (get_obj l) Q X.
Proof.
  iIntros "[Hl HQ]". unfold get_obj. iApply wp_bind. iApply wp_get_cell. iFrame "Hl".
  iIntros "Hl". simpl. iApply wp_ret. by iApply "HQ".
Qed.

Lemma wp_construct l k w o Q X :
  l ↦ Cell k None w ∗ (l ↦ Cell k (Some o) w -∗ Q tt) ⊢ wp (construct l o) Q X.
Proof.
  constructor; intros h (h1&h2&->&Hdd&Hl&HQ) s hf Hm Hd Hg.
  assert (Hlk : mem s !! l = Some (Cell k None w)) by rewrite Hm -!munion_assoc (pt_lookup l (Cell k None w)) //.
  unfold construct. rewrite Hlk /=.
  destruct (pt_update l (Cell k None w) (Cell k (Some o) w) h1 h2 hf) as (Hu&Hd1&Hd2); [done..|].
  exists ({[l := Cell k (Some o) w]} ∪ h2). split; [simpl; by rewrite Hm|]. split; [done|].
  split; [|split; [done|]].
  - apply (ginv_update s l (Cell k None w) (Cell k (Some o) w) [EvC (tag_of o) l]); auto; done.
  - rewrite map_union_comm //. by apply HQ.
Qed.

Lemma wp_destruct_obj l k w o Q X :
  l ↦ Cell k (Some o) w ∗ (l ↦ Cell k None w -∗ Q tt) ⊢ wp (destruct_obj l) Q X.
Proof.
  constructor; intros h (h1&h2&->&Hdd&Hl&HQ) s hf Hm Hd Hg.
  assert (Hlk : mem s !! l = Some (Cell k (Some o) w)) by rewrite Hm -!munion_assoc (pt_lookup l (Cell k (Some o) w)) //.
  unfold destruct_obj. rewrite Hlk /=.
  destruct (pt_update l (Cell k (Some o) w) (Cell k None w) h1 h2 hf) as (Hu&Hd1&Hd2); [done..|].
  exists ({[l := Cell k None w]} ∪ h2). split; [simpl; by rewrite Hm|]. split; [done|].
  split; [|split; [done|]].
  - apply (ginv_update s l (Cell k (Some o) w) (Cell k None w) [EvD (tag_of o) l]); auto; done.
  - rewrite map_union_comm //. by apply HQ.
Qed.

Lemma wp_modify_obj l k w o o' Q X :
  tag_of o' = tag_of o ->
  l ↦ Cell k (Some o) w ∗ (l ↦ Cell k (Some o') w -∗ Q tt) ⊢ wp (modify_obj l o') Q X.
Proof.
  intros Ht. constructor; intros h (h1&h2&->&Hdd&Hl&HQ) s hf Hm Hd Hg.
  assert (Hlk : mem s !! l = Some (Cell k (Some o) w)) by rewrite Hm -!munion_assoc (pt_lookup l (Cell k (Some o) w)) //.
  unfold modify_obj. rewrite Hlk /= decide_True //.
  destruct (pt_update l (Cell k (Some o) w) (Cell k (Some o') w) h1 h2 hf) as (Hu&Hd1&Hd2); [done..|].
  exists ({[l := Cell k (Some o') w]} ∪ h2). split; [simpl; by rewrite Hm|]. split; [done|].
  split; [|split; [done|]].
  - apply (ginv_update s l (Cell k (Some o) w) (Cell k (Some o') w) []); auto; done.
  - rewrite map_union_comm //. by apply HQ.
Qed.

Lemma occupant_fresh l t : (forall e, e ∈ t -> ev_loc e <> l) -> occupant l t = Some None.
Proof.
  induction t as [|e t IH]; intros H; [done|]. assert (He : ev_loc e <> l) by (apply H; left).
  assert (Ht : occupant l t = Some None) by (apply IH; intros e' Hin; apply H; by right).
  destruct e; simpl in *; rewrite ?decide_False //.
Qed.
Lemma block_fresh l t : (forall e, e ∈ t -> ev_loc e <> l) -> block l t = Some BNever.
Proof.
  induction t as [|e t IH]; intros H; [done|]. assert (He : ev_loc e <> l) by (apply H; left).
  assert (Ht : block l t = Some BNever) by (apply IH; intros e' Hin; apply H; by right).
  destruct e; simpl in *; rewrite ?decide_False //.
Qed.

Lemma ginv_new s k ev :
  ginv W s ->
  (k = KHeap /\ (exists p, ev = [EvNew p (nxt s)] /\ (p = APBackup -> nobk W = false)) \/ k <> KHeap /\ ev = []) ->
  ginv W {| mem := <[nxt s := Cell k None None]> (mem s); nxt := Pos.succ (nxt s);
            tr := ev ++ tr s; thrown := thrown s; orc := orc s; opos := opos s; ind := ind s |}.
Proof.
  intros [H1 H2 H3 H4 H5 H6] Hev.
  assert (Hnone : mem s !! nxt s = None).
  { destruct (mem s !! nxt s) eqn:E; [|done]. apply H1 in E. lia. }
  assert (Hfr : forall e, e ∈ tr s -> ev_loc e <> nxt s).
  { intros e He. apply H4 in He. lia. }
  assert (Hocc : forall l0, occupant l0 (ev ++ tr s) = occupant l0 (tr s)).
  { intros l0. destruct Hev as [(_&p&->&_)|[_ ->]]; done. }
  split; simpl.
  - intros l c. destruct (decide (l = nxt s)) as [->|].
    + rewrite lookup_insert. intros _. lia.
    + rewrite lookup_insert_ne //. intros ?%H1. lia.
  - intros l. rewrite Hocc. destruct (decide (l = nxt s)) as [->|].
    + rewrite tag_insert /=. by apply occupant_fresh.
    + rewrite tag_insert_ne //.
  - intros l. destruct (decide (l = nxt s)) as [->|].
    + setoid_rewrite block_insert. destruct Hev as [(->&p&->&_)|[Hk ->]]; simpl; rewrite ?decide_True // block_fresh //.
      * by exists BLive.
      * exists BNever. split; [done|]. split; [done|]. intros E; by destruct Hk.
    + destruct (H3 l) as (b&Hb&Hi). exists b. rewrite block_insert_ne //. split; [|done].
      destruct Hev as [(->&p&->&_)|[Hk ->]]; simpl; rewrite ?decide_False //.
  - intros e [Hin|Hin]%elem_of_app.
    + destruct Hev as [(->&p&->&_)|[Hk ->]]; [|by apply elem_of_nil in Hin].
      apply elem_of_list_singleton in Hin as ->. simpl. lia.
    + apply H4 in Hin. lia.
  - done.
  - intros Hn l [Hin|Hin]%elem_of_app; [|by eapply H6].
    destruct Hev as [(->&p&->&Hp)|[Hk ->]]; [|by apply elem_of_nil in Hin].
    apply elem_of_list_singleton in Hin as [= <- _]. rewrite Hp in Hn; done.
Qed.

Lemma fresh_split s h hf c :
  ginv W s -> mem s = h ∪ hf -> h ##ₘ hf ->
  <[nxt s := c]> (mem s) = h ∪ {[nxt s := c]} ∪ hf /\
  h ##ₘ {[nxt s := c]} /\ h ∪ {[nxt s := c]} ##ₘ hf.
Proof.
  intros Hg Hm Hd.
  assert (Hnone : mem s !! nxt s = None).
  { destruct (mem s !! nxt s) eqn:E; [|done]. apply (gi_fresh _ _ Hg) in E. lia. }
  rewrite Hm in Hnone. apply lookup_union_None in Hnone as [Hn1 Hn2].
  assert (h ##ₘ {[nxt s := c]}) by by apply map_disjoint_singleton_r.
  split; [|split].
  - rewrite (map_union_comm h) //. rewrite Hm -munion_assoc. by rewrite insert_union_singleton_l.
  - done.
  - apply map_disjoint_union_l_2; [done|]. by apply map_disjoint_singleton_l.
Qed.

Lemma wp_new_cell k Q X :
  k <> KHeap ->
  (∀ l, l ↦ Cell k None None -∗ Q l) ⊢ wp (new_cell k) Q X.
Proof.
  intros Hk. constructor; intros h HQ s hf Hm Hd Hg. simpl.
  destruct (fresh_split s h hf (Cell k None None) Hg Hm Hd) as (Hu&Hd1&Hd2).
  exists (h ∪ {[nxt s := Cell k None None]}). split; [done|]. split; [done|].
  split; [|split; [done|]].
  - apply (ginv_new s k []); auto.
  - apply HQ; done.
Qed.

Lemma wp_alloc p Q X :
  ((⌞p = APBackup -> nobk W = false⌟ ∗ ∀ l, l ↦ Cell KHeap None None -∗ Q l) ∧ (∀ e, X e)) ⊢ wp (alloc p) Q X.
Proof.
  constructor; intros h [(h1&h2&->&Hdd&Hp&HQ) HX] s hf Hm Hd Hg.
  destruct Hp as [Hh1 Hp]. change (h1 = ∅) in Hh1. change (p = APBackup -> nobk W = false) in Hp. subst h1.
  rewrite left_id_L in Hm Hd HX |- *.
  unfold alloc; simpl. destruct (decide _) as [Hz|Hz].
  - simpl.
    destruct (fresh_split s h2 hf (Cell KHeap None None) Hg Hm Hd) as (Hu&Hd1&Hd2).
    exists (h2 ∪ {[nxt s := Cell KHeap None None]}). split; [done|]. split; [done|].
    split; [|split; [done|]].
    + assert (Hg' := ginv_new s KHeap [EvNew p (nxt s)] Hg).
      eapply ginv_ext; [apply Hg'|done..]. left. split; [done|]. by exists p.
    + apply HQ; done.
  - exists h2. split; [done|]. split; [done|]. split; [by eapply ginv_ext|]. split; [done|]. apply HX.
Qed.

Lemma ginv_delete s l c ev :
  ginv W s -> mem s !! l = Some c -> cc c = None ->
  ev = (if decide (ck c = KHeap) then [EvDel l] else []) ->
  ginv W {| mem := delete l (mem s); nxt := nxt s;
            tr := ev ++ tr s; thrown := thrown s; orc := orc s; opos := opos s; ind := ind s |}.
Proof.
  intros [H1 H2 H3 H4 H5 H6] Hl Hc Hev.
  assert (Ht : tag_at (mem s) l = None) by rewrite /tag_at Hl Hc //.
  assert (Hocc : forall l0, occupant l0 (ev ++ tr s) = occupant l0 (tr s)).
  { intros l0. rewrite Hev. by case_decide. }
  split; simpl.
  - intros l0 c0 Hl0. destruct (decide (l0 = l)) as [->|].
    + by rewrite lookup_delete in Hl0.
    + rewrite lookup_delete_ne // in Hl0. by eapply H1.
  - intros l0. rewrite Hocc. destruct (decide (l0 = l)) as [->|].
    + rewrite tag_delete H2 Ht //.
    + rewrite tag_delete_ne //.
  - intros l0. destruct (H3 l0) as (b&Hb&Hi). destruct (decide (l0 = l)) as [->|].
    + assert (Hn := block_delete (mem s) l). rewrite Hev. case_decide as Hk; simpl.
      * exists BFreed. rewrite decide_True // H2 Ht Hb. assert (b = BLive) as -> by (apply Hi; by exists c).
        done.
      * exists b. split; [done|]. rewrite Hi. split; [|done]. intros (c'&Hc'&Hk'). naive_solver.
    + exists b. rewrite block_delete_ne //. split; [|done]. rewrite Hev. case_decide; simpl; rewrite ?decide_False //.
  - intros e [Hin|Hin]%elem_of_app; [|by apply H4].
    subst ev. case_decide; [|by apply elem_of_nil in Hin].
    apply elem_of_list_singleton in Hin as ->. by eapply H1.
  - done.
  - intros Hn l0 [Hin|Hin]%elem_of_app; [|by eapply H6].
    subst ev. case_decide; [|by apply elem_of_nil in Hin].
    by apply elem_of_list_singleton in Hin.
Qed.

Lemma wp_drop_cell l k w Q X :
  k <> KHeap ->
  l ↦ Cell k None w ∗ Q tt ⊢ wp (drop_cell l) Q X.
Proof.
  intros Hk. constructor; intros h (h1&h2&->&Hdd&Hl&HQ) s hf Hm Hd Hg.
  assert (Hlk : mem s !! l = Some (Cell k None w)) by rewrite Hm -!munion_assoc (pt_lookup l (Cell k None w)) //.
  unfold drop_cell. rewrite Hlk /= decide_False //.
  destruct (pt_delete l (Cell k None w) h1 h2 hf) as (Hu&Hd1); [done..|].
  exists h2. split; [simpl; by rewrite Hm|]. split; [done|]. split; [|done].
  eapply (ginv_delete s l (Cell k None w) []); auto. rewrite decide_False //.
Qed.

Lemma wp_free l w Q X :
  l ↦ Cell KHeap None w ∗ Q tt ⊢ wp (free l) Q X.
Proof.
  constructor; intros h (h1&h2&->&Hdd&Hl&HQ) s hf Hm Hd Hg.
  assert (Hlk : mem s !! l = Some (Cell KHeap None w)) by rewrite Hm -!munion_assoc (pt_lookup l (Cell KHeap None w)) //.
  unfold free. rewrite Hlk /=.
  destruct (pt_delete l (Cell KHeap None w) h1 h2 hf) as (Hu&Hd1); [done..|].
  exists h2. split; [simpl; by rewrite Hm|]. split; [done|]. split; [|done].
  eapply (ginv_delete s l (Cell KHeap None w) [EvDel l]); auto.
Qed.

Lemma wp_read_which l k c z Q X :
  l ↦ Cell k c (Some z) ∗ (l ↦ Cell k c (Some z) -∗ Q z) ⊢ wp (read_which l) Q X.
Proof.
  iIntros "[Hl HQ]". unfold read_which. iApply wp_bind. iApply wp_get_cell. iFrame "Hl".
  iIntros "Hl". simpl. iApply wp_ret. by iApply "HQ".
Qed.

Lemma wp_write_which l k c w z Q X :
  l ↦ Cell k c w ∗ (l ↦ Cell k c (Some z) -∗ Q tt) ⊢ wp (write_which l z) Q X.
Proof.
  iIntros "[Hl HQ]". unfold write_which. iApply wp_bind. iApply wp_get_cell. iFrame "Hl".
  iIntros "Hl". simpl. iApply (wp_put_cell l (Cell k c w)); [done..|]. by iFrame.
Qed.

Global Instance wp_proper_ent A (m : M A) :
  Proper (pointwise_relation _ (⊢) ==> pointwise_relation _ (⊢) ==> (⊢)) (wp m).
Proof.
  intros Q Q' HQ X X' HX. iIntros "H". iApply (wp_wand with "H").
  iSplit; iIntros (a); [rewrite HQ|rewrite HX]; auto.
Qed.

End wp.

Global Typeclasses Opaque wp.
Global Opaque wp.
