(** Proofs for C60. *)
From Coq Require Import ssreflect Lia.
From stdpp Require Import base list numbers.
From Verif Require Import Base Nested NestedSpec Comparison ComparisonSpec.
From Verif Require Import NestedFacts.

Section facts.
Context (base : nat -> option (list alt)) (conv : nat -> xty -> option nat) (explicit : nat -> xty -> bool).
Context (member : op -> nat -> list xty) (free : op -> list (xty * xty)).
Notation converts := (converts base conv explicit).
Notation is_variant := (is_variant base member).
Notation callable := (callable base conv explicit member free).
Notation called := (called base conv explicit member free).
Notation valid := (valid base conv explicit member free).
Notation user_operator := (user_operator base conv explicit free).
Notation candidates := (candidates base conv explicit member free).
Notation choose := (choose base conv explicit member free).
Notation content := (content base conv explicit member free).
Notation compiles := (compiles base conv explicit member free).

Lemma converts_zero x y : converts x y 0 -> x = y.
Proof. intros H. by inversion H. Qed.
Lemma converts_self x r : converts x x r -> r = 0.
Proof. intros H. inversion H; subst; try done; congruence. Qed.
Lemma converts_unique x y r r' : converts x y r -> converts x y r' -> r = r'.
Proof. rewrite -!rank_converts. congruence. Qed.

Lemma of_variant_callable o x y tys i f r s : is_variant o tys x i ->
  (f, (r, s)) ∈ omap viable (of_variant base conv explicit tys i y) <->
  (f = Compares tys /\ r = i /\ converts y (XVar tys) s) \/ (f = Refuses /\ r = i /\ s = 0).
Proof.
  intros _. rewrite elem_of_list_omap. split.
  - intros ([g [a b]]&Hin&Hv). unfold of_variant in Hin.
    apply elem_of_cons in Hin as [[= -> -> ->]|Hin].
    + simpl in Hv. destruct (rank base conv explicit (XVar tys) y) as [j|] eqn:E; [|done].
      injection Hv as <- <- <-. left. by rewrite -rank_converts.
    + apply elem_of_list_singleton in Hin as [= -> -> ->]. injection Hv as <- <- <-. by right.
  - intros [(->&->&Hc)|(->&->&->)].
    + apply rank_converts in Hc. eexists. split; [left|]. simpl. by rewrite Hc.
    + eexists. split; [right; left|done].
Qed.
Lemma is_variant_unique o tys tys' x i i' : is_variant o tys x i -> is_variant o tys' x i' -> tys = tys' /\ i = i'.
Proof. intros H H'. inversion H; subst; inversion H'; subst; split; congruence. Qed.

Lemma candidates_callable o x y f i j : (f, (i, j)) ∈ candidates o x y <-> callable o x y f i j.
Proof.
  unfold Comparison.candidates. rewrite omap_app elem_of_app.
  assert (Hn : (f, (i, j)) ∈ omap viable (nonmembers base conv explicit free o x y) <->
    exists l r, f = Free l r /\ (l, r) ∈ free o /\ converts x l i /\ converts y r j).
  { rewrite elem_of_list_omap. split.
    - intros ([g [a b]]&Hin&Hv). apply elem_of_list_fmap in Hin as ([l r]&[= -> -> ->]&Hin). simpl in Hv.
      destruct (rank base conv explicit l x) eqn:E1, (rank base conv explicit r y) eqn:E2; try done.
      injection Hv as <- <- <-. exists l, r. by rewrite -!rank_converts.
    - intros (l&r&->&Hin&H1&H2). apply rank_converts in H1, H2. eexists. split.
      + apply elem_of_list_fmap. exists (l, r). split; [reflexivity|done].
      + simpl. by rewrite H1 H2. }
  rewrite Hn. clear Hn.
  assert (Hm : (f, (i, j)) ∈ omap viable (members base conv explicit member o x y) <->
    (exists tys, is_variant o tys x i /\ (f = Compares tys /\ converts y (XVar tys) j \/ f = Refuses /\ j = 0)) \/
    exists u p, x = XUser u /\ p ∈ member o u /\ f = Member u p /\ i = 0 /\ converts y p j).
  { destruct x as [u|tys]; simpl.
    - destruct (member o u) as [|p0 ps] eqn:Em.
      + destruct (base u) as [tys|] eqn:Eb.
        * assert (Hv : is_variant o tys (XUser u) 1) by (by constructor).
          rewrite (of_variant_callable _ _ _ _ _ _ _ _ Hv). split.
          -- intros [(->&->&H)|(->&->&->)]; left; exists tys; auto.
          -- intros [(tys'&Hv'&H)|(u'&p&[= <-]&Hin&_)].
             ++ destruct (is_variant_unique _ _ _ _ _ _ Hv Hv') as [-> <-].
                destruct H as [[-> H]|[-> ->]]; [left|right]; done.
             ++ rewrite Em in Hin. by apply elem_of_nil in Hin.
        * split; [intros H; by apply elem_of_nil in H|]. intros [(tys&Hv&_)|(u'&p&[= <-]&Hin&_)].
          -- inversion Hv. congruence.
          -- rewrite Em in Hin. by apply elem_of_nil in Hin.
      + rewrite elem_of_list_omap. split.
        * intros ([g [a b]]&Hin&Hv). right.
          assert (Hin' : (g, (a, b)) ∈ map (fun p => (Member u p, (Some 0, rank base conv explicit p y))) (p0 :: ps)).
          { by destruct (base u). }
          apply elem_of_list_fmap in Hin' as (p&[= -> -> ->]&Hp). simpl in Hv.
          destruct (rank base conv explicit p y) eqn:E; [|done]. injection Hv as <- <- <-.
          exists u, p. rewrite Em -rank_converts. done.
        * intros [(tys&Hv&_)|(u'&p&[= <-]&Hin&->&->&Hc)]; [inversion Hv; congruence|].
          rewrite Em in Hin. apply rank_converts in Hc.
          exists (Member u p, (Some 0, Some j)). split; [|done].
          assert (Hin' : (Member u p, (Some 0, Some j)) ∈ map (fun p => (Member u p, (Some 0, rank base conv explicit p y))) (p0 :: ps)).
          { apply elem_of_list_fmap. exists p. by rewrite Hc. }
          by destruct (base u).
    - assert (Hv : is_variant o tys (XVar tys) 0) by constructor.
      rewrite (of_variant_callable _ _ _ _ _ _ _ _ Hv). split.
      + intros [(->&->&H)|(->&->&->)]; left; exists tys; auto.
      + intros [(tys'&Hv'&H)|(u'&p&[=]&_)].
        destruct (is_variant_unique _ _ _ _ _ _ Hv Hv') as [-> <-].
        destruct H as [[-> H]|[-> ->]]; [left|right]; done. }
  rewrite Hm. clear Hm. split.
  - intros [[(tys&Hv&[[-> Hc]|[-> ->]])|(u&p&->&Hin&->&->&Hc)]|(l&r&->&Hin&H1&H2)]; by econstructor.
  - intros H. inversion H; subst; [left; left; eauto..|left; right; eauto 8|right; eauto 8].
Qed.

Lemma beats_spec f i j f' i' j' : beats (f, (i, j)) (f', (i', j')) = true <->
  i <= i' /\ j <= j' /\ (i < i' \/ j < j' \/ f <> Refuses /\ f' = Refuses /\ i = i' /\ j = j').
Proof.
  unfold beats, better. simpl. rewrite orb_true_iff !andb_true_iff !bool_decide_eq_true. split.
  - intros [(H1&H2&Hne)|[[[= -> ->] Hf] Hf']].
    + split; [done|]. split; [done|]. destruct (decide (i < i')); [auto|]. destruct (decide (j < j')); [auto|].
      destruct Hne. f_equal; lia.
    + auto 8.
  - intros (H1&H2&[H|[H|(Hf&Hf'&->&->)]]); [left..|right]; auto.
    + split; [done|]. split; [done|]. intros [= -> ->]. lia.
    + split; [done|]. split; [done|]. intros [= -> ->]. lia.
Qed.

Lemma called_unique o x y f f' : called o x y f -> called o x y f' -> f = f'.
Proof.
  intros (i&j&Hc&Hb) (i'&j'&Hc'&Hb'). destruct (decide (f = f')) as [|Hne]; [done|].
  destruct (Hb _ _ _ Hc') as (H1&H2&H3); [congruence|]. destruct (Hb' _ _ _ Hc) as (H1'&H2'&H3'); [congruence|].
  destruct H3 as [H3|[H3|[H3 H4]]]; [lia..|]. destruct H3' as [H3'|[H3'|[H3' H4']]]; [lia..|]. done.
Qed.

Lemma choose_called o x y f : choose o x y = Some f <-> called o x y f.
Proof.
  assert (Hone : forall f, choose o x y = Some f -> called o x y f).
  { intros g. unfold Comparison.choose. destruct (filter _ _) as [|[g' [i j]] l] eqn:E; [done|]. intros [= <-].
    assert (Hin : (g', (i, j)) ∈ (g', (i, j)) :: l) by left. rewrite -E in Hin.
    apply elem_of_list_filter in Hin as [Hall Hin]. exists i, j. split; [by apply candidates_callable|].
    intros f' i' j' Hc Hne. apply candidates_callable in Hc. rewrite List.Forall_forall in Hall. apply elem_of_list_In in Hc.
    destruct (Hall _ Hc) as [[= -> -> ->]|Hb]; [done|]. apply beats_spec in Hb as (H1&H2&H3).
    split; [done|]. split; [done|]. destruct H3 as [H3|[H3|(H3&H4&_)]]; auto. }
  split; [apply Hone|]. intros Hcd. pose proof Hcd as (i&j&Hc&Hb).
  destruct (choose o x y) as [f'|] eqn:E.
  { f_equal. eapply called_unique; [|exact Hcd]. by apply Hone. }
  exfalso. unfold Comparison.choose in E. destruct (filter _ _) as [|[g' [i' j']] l] eqn:Ef; [|done].
  assert (Hin : (f, (i, j)) ∈ @nil (callee * (nat * nat))); [|by apply elem_of_nil in Hin].
  rewrite -Ef. apply elem_of_list_filter. split; [|by apply candidates_callable].
  apply List.Forall_forall. intros [f' [i' j']] Hd. apply elem_of_list_In, candidates_callable in Hd.
  destruct (decide ((f', (i', j')) = (f, (i, j)))) as [|Hne]; [by left|right].
  apply beats_spec. destruct (Hb _ _ _ Hd) as (H1&H2&H3); [congruence|].
  split; [done|]. split; [done|]. destruct (decide (i < i')); [auto|]. destruct (decide (j < j')); [auto|].
  destruct H3 as [H3|[H3|[H3 H4]]]; [lia..|]. right. right. repeat split; auto; lia.
Qed.

(** The comparing operator is called for an operand of exactly its type only. *)
Lemma called_compares o x y tys : called o x y (Compares tys) -> y = XVar tys /\ exists i, is_variant o tys x i.
Proof.
  intros (i&j&Hc&Hb). inversion Hc as [tys' i' j' Hv Hcv| | |]; subst.
  destruct (Hb Refuses i 0) as (_&Hj&_); [by econstructor|done|].
  replace j with 0 in Hcv by lia. apply converts_zero in Hcv as ->. eauto.
Qed.

Lemma content_valid o t : o = OEq \/ o = OLt -> content o t = true <-> valid o t t.
Proof.
  intros Ho. induction t as [u|tys IH] using xty_ind'.
  - simpl. destruct (choose o (XUser u) (XUser u)) as [[tys| |u' p|l r]|] eqn:E.
    + apply choose_called, called_compares in E as [[=] _].
    + split; [done|]. apply choose_called in E.
      intros [v p H|l r H|tys H _]; pose proof (called_unique _ _ _ _ _ E H); done.
    + apply choose_called in E. split; [intros _; by eapply valid_member|done].
    + apply choose_called in E. split; [intros _; by eapply valid_free|done].
    + split; [done|]. intros [v p H|l r H|tys H _]; apply choose_called in H; congruence.
  - simpl. destruct (choose o (XVar tys) (XVar tys)) as [[tys'| |u' p|l r]|] eqn:E.
    + apply choose_called in E. pose proof (called_compares _ _ _ _ E) as [[= <-] _].
      rewrite forallb_alt. split.
      * intros H. eapply valid_compares; [exact E|]. intros o' t Hc.
        inversion Hc as [w ? Hin|w ? Hin| | | |]; subst; try (by destruct Ho).
        all: apply (IH w t Hin), (H _ Hin).
      * intros [v p H|l r H|tys' H Hall]; try (by pose proof (called_unique _ _ _ _ _ E H)).
        assert (tys' = tys) as -> by (pose proof (called_unique _ _ _ _ _ E H); congruence).
        intros [w t] Hin. apply (IH w t Hin). apply Hall. destruct Ho as [-> | ->]; by econstructor.
    + split; [done|]. apply choose_called in E.
      intros [v p H|l r H|tys' H _]; pose proof (called_unique _ _ _ _ _ E H); done.
    + apply choose_called in E. split; [intros _; by eapply valid_member|done].
    + apply choose_called in E. split; [intros _; by eapply valid_free|done].
    + split; [done|]. intros [v p H|l r H|tys' H _]; apply choose_called in H; congruence.
Qed.

Lemma valid_called_compares o x y tys : called o x y (Compares tys) ->
  valid o x y <-> forall o' t, calls tys o o' t -> valid o' t t.
Proof.
  intros E. split; [|intros H; by eapply valid_compares].
  intros [v p H|l r H|tys' H Hall]; pose proof (called_unique _ _ _ _ _ E H); try done.
  by assert (tys' = tys) as -> by congruence.
Qed.
Lemma valid_not_refused o x y : valid o x y -> ~ called o x y Refuses.
Proof. intros [v p H|l r H|tys' H Hall] E; pose proof (called_unique _ _ _ _ _ E H); done. Qed.
Lemma valid_chosen o x y : valid o x y -> exists f, choose o x y = Some f.
Proof. intros [v p H|l r H|tys' H Hall]; eexists; by apply choose_called. Qed.

Lemma compiles_valid o x y : compiles o x y = true <-> valid o x y.
Proof.
  unfold Comparison.compiles. destruct (choose o x y) as [[tys| |u' p|l r]|] eqn:E.
  - apply choose_called in E. rewrite (valid_called_compares _ _ _ _ E).
    assert (Hone : forall o', o' = OEq \/ o' = OLt -> (forall o'' t, calls tys o o'' t <-> o'' = o' /\ t = XVar tys) ->
      content o' (XVar tys) = true <-> forall o'' t, calls tys o o'' t -> valid o'' t t).
    { intros o' Ho' H. rewrite (content_valid _ _ Ho'). split; [|intros Hall; by apply Hall, H].
      intros Hv o'' t Hc. by apply H in Hc as [-> ->]. }
    assert (Hcont : o = OEq \/ o = OLt -> forallb (fun p => content o p.2) tys = true <->
      forall o' t, calls tys o o' t -> valid o' t t).
    { intros Ho. rewrite forallb_alt. split.
      - intros H o' t Hc. inversion Hc as [w ? Hin|w ? Hin| | | |]; subst; try (by destruct Ho).
        all: apply (content_valid _ t Ho), (H _ Hin).
      - intros H [w t] Hin. apply (content_valid _ t Ho). apply H. destruct Ho as [-> | ->]; by econstructor. }
    destruct o; cbn [body].
    + apply Hcont. by left.
    + apply Hone; [by left|]. intros o' t. split; [by inversion 1|intros [-> ->]; constructor].
    + apply Hcont. by right.
    + apply Hone; [by right|]. intros o' t. split; [by inversion 1|intros [-> ->]; constructor].
    + unfold alike. assert (Hgt : valid OGt (XVar tys) (XVar tys) <-> forall o' t, calls tys OLe o' t -> valid o' t t).
      { split; [|intros H; apply H; constructor]. intros H o' t Hc. by inversion Hc; subst. }
      rewrite -Hgt. clear Hgt Hone Hcont.
      destruct (choose OGt (XVar tys) (XVar tys)) as [[tys'| |u' p|l r]|] eqn:E'.
      * apply choose_called in E'. pose proof (called_compares _ _ _ _ E') as [[= <-] _].
        rewrite (valid_called_compares _ _ _ _ E') (content_valid OLt _ (or_intror eq_refl)). split.
        -- intros H o' t Hc. by inversion Hc; subst.
        -- intros H. apply H. constructor.
      * apply choose_called in E'. split; [done|]. intros H. by apply valid_not_refused in H.
      * apply choose_called in E'. split; [intros _; by eapply valid_member|done].
      * apply choose_called in E'. split; [intros _; by eapply valid_free|done].
      * split; [done|]. intros H. apply valid_chosen in H as [f Hf]. congruence.
    + apply Hone; [by right|]. intros o' t. split; [by inversion 1|intros [-> ->]; constructor].
  - apply choose_called in E. split; [done|]. intros H. by apply valid_not_refused in H.
  - apply choose_called in E. split; [intros _; by eapply valid_member|done].
  - apply choose_called in E. split; [intros _; by eapply valid_free|done].
  - split; [done|]. intros H. apply valid_chosen in H as [f Hf]. congruence.
Qed.

(** ** Without operators of the user for these operands *)
Lemma called_own o x tys i : is_variant o tys x i -> ~ user_operator o x (XVar tys) -> called o x (XVar tys) (Compares tys).
Proof.
  intros Hv Hno. exists i, 0. split; [econstructor; [done|apply converts_same]|].
  intros f i' j' Hc Hne. inversion Hc as [tys' i'' j'' Hv' Hcv|tys' i'' Hv'|u p j'' -> Hin Hcv|l r i'' j'' Hin H1 H2]; subst.
  - destruct (is_variant_unique _ _ _ _ _ _ Hv Hv') as [-> ->]. apply converts_self in Hcv as ->. done.
  - destruct (is_variant_unique _ _ _ _ _ _ Hv Hv') as [-> ->]. auto 6.
  - inversion Hv as [|d Hb Hm]; subst. rewrite Hm in Hin. by apply elem_of_nil in Hin.
  - destruct Hno. by exists l, r, i', j'.
Qed.
Lemma called_foreign o x y tys i : is_variant o tys x i -> y <> XVar tys -> ~ user_operator o x y -> called o x y Refuses.
Proof.
  intros Hv Hy Hno. exists i, 0. split; [by econstructor|].
  intros f i' j' Hc Hne. inversion Hc as [tys' i'' j'' Hv' Hcv|tys' i'' Hv'|u p j'' -> Hin Hcv|l r i'' j'' Hin H1 H2]; subst.
  - destruct (is_variant_unique _ _ _ _ _ _ Hv Hv') as [-> ->]. split; [done|]. split; [lia|].
    right. left. destruct j'; [|lia]. by apply converts_zero in Hcv.
  - destruct (is_variant_unique _ _ _ _ _ _ Hv Hv') as [-> ->]. done.
  - inversion Hv as [|d Hb Hm]; subst. rewrite Hm in Hin. by apply elem_of_nil in Hin.
  - destruct Hno. by exists l, r, i', j'.
Qed.

Lemma valid_foreign o x y tys i : is_variant o tys x i -> y <> XVar tys -> ~ user_operator o x y -> ~ valid o x y.
Proof. intros Hv Hy Hno H. apply valid_not_refused in H. by destruct H; eapply called_foreign. Qed.

Lemma valid_left o u y : base u = None -> member o u = [] -> ~ user_operator o (XUser u) y -> ~ valid o (XUser u) y.
Proof.
  intros Hb Hm Hno H. assert (exists f, called o (XUser u) y f) as [f (i&j&Hc&_)] by (destruct H; eauto).
  inversion Hc as [tys' i'' j'' Hv' Hcv|tys' i'' Hv'|u' p j'' [= <-] Hin Hcv|l r i'' j'' Hin H1 H2]; subst.
  - inversion Hv'. congruence.
  - inversion Hv'. congruence.
  - rewrite Hm in Hin. by apply elem_of_nil in Hin.
  - destruct Hno. by exists l, r, i, j.
Qed.

Lemma valid_basic o x tys i : is_variant o tys x i -> (forall o', ~ user_operator o' (XVar tys) (XVar tys)) ->
  ~ user_operator o x (XVar tys) ->
  valid o x (XVar tys) <-> forall w t, (w, t) ∈ tys -> valid (basic o) t t.
Proof.
  intros Hv Hno Hno'. assert (Hown : forall o', called o' (XVar tys) (XVar tys) (Compares tys)).
  { intros o'. eapply called_own; [constructor|apply Hno]. }
  assert (Hb : forall o', o' = OEq \/ o' = OLt -> (forall o'' t, calls tys o' o'' t -> valid o'' t t) <->
    forall w t, (w, t) ∈ tys -> valid o' t t).
  { intros o' Ho'. split.
    - intros H w t Hin. apply H. destruct Ho' as [-> | ->]; by econstructor.
    - intros H o'' t Hc. inversion Hc as [w ? Hin|w ? Hin| | | |]; subst; try (by destruct Ho'); by apply (H w). }
  rewrite (valid_called_compares _ _ _ _ (called_own _ _ _ _ Hv Hno')).
  destruct o; simpl.
  - apply Hb. by left.
  - rewrite -(Hb OEq (or_introl eq_refl)). rewrite -(valid_called_compares _ _ _ _ (Hown OEq)). split.
    + intros H. apply H. constructor.
    + intros H o' t Hc. by inversion Hc; subst.
  - apply Hb. by right.
  - rewrite -(Hb OLt (or_intror eq_refl)). rewrite -(valid_called_compares _ _ _ _ (Hown OLt)). split.
    + intros H. apply H. constructor.
    + intros H o' t Hc. by inversion Hc; subst.
  - rewrite -(Hb OLt (or_intror eq_refl)). rewrite -(valid_called_compares _ _ _ _ (Hown OLt)).
    transitivity (valid OGt (XVar tys) (XVar tys)).
    + split; [intros H; apply H; constructor|]. intros H o' t Hc. by inversion Hc; subst.
    + rewrite (valid_called_compares _ _ _ _ (Hown OGt)). split.
      * intros H. apply H. constructor.
      * intros H o' t Hc. by inversion Hc; subst.
  - rewrite -(Hb OLt (or_intror eq_refl)). rewrite -(valid_called_compares _ _ _ _ (Hown OLt)). split.
    + intros H. apply H. constructor.
    + intros H o' t Hc. by inversion Hc; subst.
Qed.

(** ** Operators of the user *)
(** One that takes exactly these operands is called, unless there is the variant's own or a member. *)
Lemma valid_user o x y : (x, y) ∈ free o -> (forall tys i, is_variant o tys x i -> ~ (x = y /\ i = 0)) ->
  (forall u, x = XUser u -> y ∉ member o u) -> valid o x y.
Proof.
  intros Hin Hv Hm. eapply (valid_free _ _ _ _ _ _ _ _ x y). exists 0, 0. split; [econstructor; [done|apply converts_same..]|].
  intros f i' j' Hc Hne. split; [lia|]. split; [lia|].
  inversion Hc as [tys' i'' j'' Hv' Hcv|tys' i'' Hv'|u p j'' -> Hp Hcv|l r i'' j'' Hl H1 H2]; subst.
  - destruct i'; [|lia]. destruct j'; [|lia]. apply converts_zero in Hcv as ->. inversion Hv'; subst.
    by destruct (Hv _ _ Hv').
  - right. right. done.
  - destruct j'; [|lia]. apply converts_zero in Hcv as ->. by destruct (Hm u).
  - destruct i'; [|lia]. destruct j'; [|lia]. apply converts_zero in H1 as ->. apply converts_zero in H2 as ->. done.
Qed.
(** For the variant itself it makes the comparison ambiguous. *)
Lemma not_valid_user o tys : (XVar tys, XVar tys) ∈ free o -> ~ valid o (XVar tys) (XVar tys).
Proof.
  intros Hin H. assert (exists f, called o (XVar tys) (XVar tys) f) as [f (i&j&Hc&Hb)] by (destruct H; eauto).
  assert (Hc1 : callable o (XVar tys) (XVar tys) (Compares tys) 0 0) by (econstructor; [constructor|apply converts_same]).
  assert (Hc2 : callable o (XVar tys) (XVar tys) (Free (XVar tys) (XVar tys)) 0 0) by (econstructor; [done|apply converts_same..]).
  destruct (decide (f = Compares tys)) as [->|Hne].
  - destruct (Hb _ _ _ Hc2) as (H1&H2&[H3|[H3|[_ H3]]]); [done|lia|lia|done].
  - destruct (Hb _ _ _ Hc1) as (H1&H2&[H3|[H3|[_ H3]]]); [congruence|lia|lia|done].
Qed.

(** ** Derived classes *)
Lemma valid_derived o d tys : base d = Some tys -> member o d = [] ->
  (forall o', ~ user_operator o' (XVar tys) (XVar tys)) -> ~ user_operator o (XUser d) (XVar tys) ->
  valid o (XUser d) (XVar tys) <-> valid o (XVar tys) (XVar tys).
Proof.
  intros Hb Hm Hno Hno'. pose proof (is_variant_derived base member o tys d Hb Hm) as H1.
  pose proof (is_variant_self base member o tys) as H0.
  rewrite (valid_basic _ _ _ _ H1 Hno Hno') (valid_basic _ _ _ _ H0 Hno (Hno o)). done.
Qed.
Lemma not_valid_derived o d tys : base d = Some tys -> member o d = [] ->
  ~ user_operator o (XVar tys) (XUser d) -> ~ user_operator o (XUser d) (XUser d) ->
  ~ valid o (XVar tys) (XUser d) /\ ~ valid o (XUser d) (XUser d).
Proof.
  intros Hb Hm H1 H2. split.
  - eapply valid_foreign; [constructor|done|done].
  - eapply (valid_foreign _ _ _ tys 1); [by constructor|done|done].
Qed.
Lemma not_valid_bounded o tys w d os : (w, XUser d) ∈ tys -> base d = Some os -> member (basic o) d = [] ->
  ~ user_operator (basic o) (XUser d) (XUser d) -> (forall o', ~ user_operator o' (XVar tys) (XVar tys)) ->
  ~ valid o (XVar tys) (XVar tys).
Proof.
  intros Hin Hb Hm H2 Hno H. pose proof (proj1 (valid_basic _ _ _ _ (is_variant_self base member o tys) Hno (Hno o)) H _ _ Hin) as H'.
  eapply (valid_foreign _ _ _ os 1) in H'; [done|by constructor|done|done].
Qed.

(** ** The same of the model's function *)
Lemma compiles_false o x y : ~ valid o x y -> compiles o x y = false.
Proof. intros H. apply Bool.not_true_is_false. by rewrite compiles_valid. Qed.
Lemma compiles_basic o tys : (forall o', ~ user_operator o' (XVar tys) (XVar tys)) ->
  compiles o (XVar tys) (XVar tys) = true <-> forall w t, (w, t) ∈ tys -> compiles (basic o) t t = true.
Proof.
  intros Hno. rewrite compiles_valid (valid_basic _ _ _ _ (is_variant_self base member o tys) Hno (Hno o)).
  setoid_rewrite compiles_valid. done.
Qed.
Lemma compiles_foreign o x y tys : x = XVar tys \/ (exists d, x = XUser d /\ base d = Some tys /\ member o d = []) ->
  y <> XVar tys -> ~ user_operator o x y -> compiles o x y = false.
Proof.
  intros [->|(d&->&Hb&Hm)] Hy Hno; apply compiles_false; eapply valid_foreign; try done; by constructor.
Qed.
Lemma compiles_left o u y : base u = None -> member o u = [] -> ~ user_operator o (XUser u) y -> compiles o (XUser u) y = false.
Proof. intros Hb Hm Hno. by apply compiles_false, valid_left. Qed.
Lemma compiles_user o x y : (x, y) ∈ free o -> (forall tys, x = XVar tys -> x <> y) ->
  (forall u, x = XUser u -> y ∉ member o u) -> compiles o x y = true.
Proof.
  intros Hin Hv Hm. apply compiles_valid, valid_user; [done| |done]. intros tys i Hi [-> ->].
  inversion Hi; subst. by apply (Hv tys).
Qed.
Lemma compiles_user_ambiguous o tys : (XVar tys, XVar tys) ∈ free o -> compiles o (XVar tys) (XVar tys) = false.
Proof. intros H. by apply compiles_false, not_valid_user. Qed.
Lemma compiles_derived o d tys : base d = Some tys -> member o d = [] ->
  (forall o', ~ user_operator o' (XVar tys) (XVar tys)) -> ~ user_operator o (XUser d) (XVar tys) ->
  compiles o (XUser d) (XVar tys) = compiles o (XVar tys) (XVar tys).
Proof.
  intros Hb Hm Hno Hno'. apply Bool.eq_true_iff_eq. rewrite !compiles_valid. by apply valid_derived.
Qed.
Lemma compiles_derived_refused o d tys : base d = Some tys -> member o d = [] ->
  ~ user_operator o (XVar tys) (XUser d) -> ~ user_operator o (XUser d) (XUser d) ->
  compiles o (XVar tys) (XUser d) = false /\ compiles o (XUser d) (XUser d) = false.
Proof.
  intros Hb Hm H1 H2. destruct (not_valid_derived o d tys Hb Hm H1 H2). split; by apply compiles_false.
Qed.
Lemma compiles_bounded_derived o tys w d os : (w, XUser d) ∈ tys -> base d = Some os -> member (basic o) d = [] ->
  ~ user_operator (basic o) (XUser d) (XUser d) -> (forall o', ~ user_operator o' (XVar tys) (XVar tys)) ->
  compiles o (XVar tys) (XVar tys) = false.
Proof. intros Hin Hb Hm H Hno. apply compiles_false. by eapply not_valid_bounded. Qed.
End facts.
