(** The laws hold. *)
From Coq Require Import List NArith Bool Arith Lia.
From Verif Require Import Base Ext Types ParseModel DataSpec PegSpec RuleSpec ApiSpec LawSpec OptProofs PegProofs PegComplete RuleProofs
  ParseProofs ParsePublic RenameProofs RenameProofs2.
Import ListNotations.

Section Laws.
  Variable E : ext.
  Variable refs : list rule.

  Definition sub (r r' : rule) : Prop := forall ind p s v ind' tr,
    reads E refs r ind p s v ind' tr -> reads E refs r' ind p s v ind' tr.

  Lemma after_assoc n out m out' v : after n out (after m out' v) = after (n + m) (out ++ out') v.
  Proof. destruct v; cbn; [|reflexivity]. rewrite Nat.add_assoc, app_assoc. reflexivity. Qed.

  Lemma after_0 v : after 0 [] v = v.
  Proof. destruct v; reflexivity. Qed.

  Lemma reads_more_trail_yes r by_ ind p s v ind' tr :
    reads_more E refs r by_ true ind p s v ind' tr -> v <> No.
  Proof.
    intros H. remember true as trail eqn:Ht. induction H; try discriminate.
    - rewrite Ht. discriminate.
    - specialize (IHreads_more Ht). destruct v; [discriminate|congruence].
  Qed.

  Lemma cannot_fail_yes r : cannot_fail refs r -> forall ind p s v ind' tr,
    reads E refs r ind p s v ind' tr -> v <> No.
  Proof.
    induction 1 as [|any pr i|any pr i|r i|r i|r by_ i|args i _ IH|args r i Hin _ IH|name pr k i r Hk _ IH];
      intros ind p s v ind' tr H; inversion H; subst; try discriminate.
    - match goal with H : reads_more _ _ _ _ _ _ _ _ _ _ _ |- _ => apply reads_more_trail_yes in H end.
      destruct v0; [discriminate|congruence].
    - match goal with H : reads_seq _ _ _ _ _ _ _ _ _ |- _ => rename H into Hs end.
      clear H. revert ind p s v ind' tr Hs. induction args as [|a args IHa]; intros ind p s v ind' tr Hs; inversion Hs; subst.
      + discriminate.
      + intros _. match goal with H : reads _ _ a _ _ _ _ _ _ |- _ => apply (IH a (or_introl eq_refl)) in H; congruence end.
      + match goal with H : reads_seq _ _ _ _ _ _ _ _ _ |- _ => apply IHa in H; [|intros x Hx; apply IH; right; exact Hx] end.
        destruct v0; [discriminate|congruence].
    - match goal with H : reads_first _ _ _ _ _ _ _ _ _ |- _ => rename H into Hs end.
      clear H. revert ind p s v ind' tr Hs. induction args as [|a args IHa]; intros ind p s v ind' tr Hs; [destruct Hin|].
      inversion Hs; subst.
      + discriminate.
      + destruct Hin as [->|Hin].
        * match goal with H : reads _ _ r _ _ _ _ _ _ |- _ => apply IH in H; congruence end.
        * destruct args as [|b args]; [destruct Hin|].
          match goal with H : reads_first _ _ _ _ _ _ _ _ _ |- _ => apply IHa in H; [exact H|exact Hin|discriminate] end.
    - destruct Hin.
    - match goal with H : nth_error refs k = Some ?x, H1 : reads _ _ ?x _ _ _ _ _ _ |- _ =>
        replace x with r in H1 by congruence; apply IH in H1; congruence end.
  Qed.

  Lemma reads_seq_app a : forall b ind p s v ind' tr, reads_seq E refs (a ++ b) ind p s v ind' tr <->
    (exists n out ind1 tr1 v' tr2, reads_seq E refs a ind p s (Yes n out) ind1 tr1 /\
       reads_seq E refs b ind1 (p + n) (skipn n s) v' ind' tr2 /\ v = after n out v' /\ tr = tr1 ++ tr2) \/
    (reads_seq E refs a ind p s No ind' tr /\ v = No).
  Proof.
    induction a as [|r a IH]; intros b ind p s v ind' tr; cbn [app]; split.
    - intros H. left. exists 0, [], ind, [], v, tr. rewrite Nat.add_0_r, after_0. split; [constructor|]. auto.
    - intros [(n & out & ind1 & tr1 & v' & tr2 & H1 & H2 & -> & ->)|[H _]].
      + inversion H1; subst. rewrite after_0. rewrite Nat.add_0_r in H2. exact H2.
      + inversion H.
    - intros H. inversion H as [|? ? ? ? ? ? ? Hr|? ? ? ? ? n out ind1 tr1 v0 ? tr2 Hr Hs]; subst.
      + right. split; [apply reads_seq_no; assumption|reflexivity].
      + apply IH in Hs as [(m & out' & ind2 & tr3 & v' & tr4 & H1 & H2 & -> & ->)|[H1 ->]].
        * left. exists (n + m), (out ++ out'), ind2, (tr1 ++ tr3), v', tr4.
          rewrite after_assoc, app_assoc, Nat.add_assoc. rewrite PegFacts.skipn_skipn_add in H2. split; [|auto].
          change (Yes (n + m) (out ++ out')) with (after n out (Yes m out')). eapply reads_seq_cons; eassumption.
        * right. split; [|reflexivity]. change No with (after n out No). eapply reads_seq_cons; eassumption.
    - intros [(n & out & ind1 & tr1 & v' & tr2 & H1 & H2 & -> & ->)|[H ->]].
      + inversion H1; subst. destruct v; [|discriminate]. cbn in *.
        match goal with H : Yes _ _ = Yes _ _ |- _ => injection H as <- <- end.
        rewrite <- after_assoc, <- app_assoc. eapply reads_seq_cons; [eassumption|]. apply IH. left.
        do 6 eexists. split; [eassumption|]. rewrite PegFacts.skipn_skipn_add, <- Nat.add_assoc. eauto.
      + inversion H; subst; [apply reads_seq_no; assumption|]. eapply reads_seq_cons; [eassumption|]. apply IH. right.
        destruct v; [discriminate|]. auto.
  Qed.

  Lemma reads_first_app a : forall b ind p s v ind' tr, reads_first E refs (a ++ b) ind p s v ind' tr <->
    (exists ind1 tr1 tr2, reads_first E refs a ind p s No ind1 tr1 /\
       reads_first E refs b ind1 p s v ind' tr2 /\ tr = tr1 ++ tr2) \/
    (exists n out, reads_first E refs a ind p s v ind' tr /\ v = Yes n out).
  Proof.
    induction a as [|r a IH]; intros b ind p s v ind' tr; cbn [app]; split.
    - intros H. left. exists ind, [], tr. split; [constructor|]. auto.
    - intros [(ind1 & tr1 & tr2 & H1 & H2 & ->)|(n & out & H & ->)].
      + inversion H1; subst. exact H2.
      + inversion H.
    - intros H. inversion H as [|? ? ? ? ? ? ? ? ? Hr|? ? ? ? ? ind1 tr1 v0 ? tr2 Hr Hs]; subst.
      + right. do 2 eexists. split; [apply reads_first_yes; assumption|reflexivity].
      + apply IH in Hs as [(ind2 & tr3 & tr4 & H1 & H2 & ->)|(n & out & H1 & ->)].
        * left. exists ind2, (tr1 ++ tr3), tr4. rewrite app_assoc. split; [|auto]. eapply reads_first_next; eassumption.
        * right. do 2 eexists. split; [|reflexivity]. eapply reads_first_next; eassumption.
    - intros [(ind1 & tr1 & tr2 & H1 & H2 & ->)|(n & out & H & ->)].
      + inversion H1; subst. rewrite <- app_assoc. eapply reads_first_next; [eassumption|]. apply IH. left. eauto 6.
      + inversion H; subst; [apply reads_first_yes; assumption|]. eapply reads_first_next; [eassumption|]. apply IH. right. eauto.
  Qed.

  Lemma reads_seq_one r ind p s v ind' tr : reads_seq E refs [r] ind p s v ind' tr <-> reads E refs r ind p s v ind' tr.
  Proof.
    split.
    - intros H. inversion H as [| |? ? ? ? ? ? ? ? ? ? ? ? H1 H2]; subst; [assumption|]. inversion H2; subst.
      cbn. rewrite Nat.add_0_r, !app_nil_r. exact H1.
    - intros H. destruct v as [n out|]; [|apply reads_seq_no; exact H].
      replace (Yes n out) with (after n out (Yes 0 [])) by (cbn; rewrite Nat.add_0_r, app_nil_r; reflexivity).
      rewrite <- (app_nil_r tr). eapply reads_seq_cons; [exact H|constructor].
  Qed.

  Lemma reads_first_one r ind p s v ind' tr : reads_first E refs [r] ind p s v ind' tr <-> reads E refs r ind p s v ind' tr.
  Proof.
    split.
    - intros H. inversion H as [| |? ? ? ? ? ? ? ? ? ? H1 H2]; subst; [assumption|]. inversion H2; subst.
      rewrite app_nil_r. exact H1.
    - intros H. destruct v as [n out|]; [apply reads_first_yes; exact H|].
      rewrite <- (app_nil_r tr). eapply reads_first_next; [exact H|constructor].
  Qed.

  Lemma cons_app {A} (x : A) l : x :: l = [x] ++ l.
  Proof. reflexivity. Qed.

  Lemma seq_group b i ind p s v ind' tr : reads_seq E refs [RSequence b i] ind p s v ind' tr <-> reads_seq E refs b ind p s v ind' tr.
  Proof.
    rewrite reads_seq_one. split; intros H; [inversion H; subst; assumption|constructor; exact H].
  Qed.

  Lemma first_group b i ind p s v ind' tr : b <> [] ->
    reads_first E refs [RSelect b i] ind p s v ind' tr <-> reads_first E refs b ind p s v ind' tr.
  Proof.
    intros Hb. rewrite reads_first_one. split; intros H; [inversion H; subst; congruence|constructor; assumption].
  Qed.

  (** Replacing a part of a sequence or of a select. *)
  Lemma seq_part a b b' c : (forall ind p s v ind' tr, reads_seq E refs b ind p s v ind' tr -> reads_seq E refs b' ind p s v ind' tr) ->
    forall ind p s v ind' tr, reads_seq E refs (a ++ b ++ c) ind p s v ind' tr -> reads_seq E refs (a ++ b' ++ c) ind p s v ind' tr.
  Proof.
    intros Hb ind p s v ind' tr H. apply reads_seq_app in H as [(n & out & ind1 & tr1 & v' & tr2 & H1 & H2 & -> & ->)|[H ->]];
      apply reads_seq_app; [left|right; auto].
    do 6 eexists. split; [exact H1|]. split; [|eauto]. clear H1.
    apply reads_seq_app in H2 as [(m & out' & ind2 & tr3 & v2 & tr4 & H3 & H4 & -> & ->)|[H ->]]; apply reads_seq_app; [left|right; auto].
    do 6 eexists. split; [apply Hb; exact H3|]. eauto.
  Qed.

  Lemma first_part a b b' c : (forall ind p s v ind' tr, reads_first E refs b ind p s v ind' tr -> reads_first E refs b' ind p s v ind' tr) ->
    forall ind p s v ind' tr, reads_first E refs (a ++ b ++ c) ind p s v ind' tr -> reads_first E refs (a ++ b' ++ c) ind p s v ind' tr.
  Proof.
    intros Hb ind p s v ind' tr H. apply reads_first_app in H as [(ind1 & tr1 & tr2 & H1 & H2 & ->)|(n & out & H & ->)];
      apply reads_first_app; [left|right; eauto].
    do 3 eexists. split; [exact H1|]. split; [|reflexivity]. clear H1.
    apply reads_first_app in H2 as [(ind2 & tr3 & tr4 & H3 & H4 & ->)|(n & out & H & ->)]; apply reads_first_app; [left|right; eauto].
    do 3 eexists. split; [apply Hb; exact H3|]. eauto.
  Qed.

  Lemma sub_sequence b b' a c j :
    (forall ind p s v ind' tr, reads_seq E refs b ind p s v ind' tr -> reads_seq E refs b' ind p s v ind' tr) ->
    sub (RSequence (a ++ b ++ c) j) (RSequence (a ++ b' ++ c) j).
  Proof. intros Hb ind p s v ind' tr H. inversion H; subst. constructor. eapply seq_part; eassumption. Qed.

  Lemma sub_select b b' a c j : b <> [] -> b' <> [] ->
    (forall ind p s v ind' tr, reads_first E refs b ind p s v ind' tr -> reads_first E refs b' ind p s v ind' tr) ->
    sub (RSelect (a ++ b ++ c) j) (RSelect (a ++ b' ++ c) j).
  Proof.
    intros H0 H0' Hb ind p s v ind' tr H. inversion H as [| | | | | | | | | | | | | | | | | |? ? ? ? ? ? ? ? Hne Hf|? ? ? ? He| | | | | | | | | | | | | | | | | |]; subst.
    - constructor; [|eapply first_part; eassumption].
      destruct a; [|discriminate]. destruct b'; [congruence|discriminate].
    - destruct a; [|discriminate]. destruct b; [congruence|discriminate].
  Qed.

  Lemma sub_many r r' : sub r r' -> forall ind p s k n out ind' tr,
    reads_many E refs r ind p s k n out ind' tr -> reads_many E refs r' ind p s k n out ind' tr.
  Proof.
    intros Hs ind p s k n out ind' tr H. induction H.
    - constructor. apply Hs. assumption.
    - econstructor; [apply Hs; eassumption|]. apply IHreads_many, Hs.
  Qed.

  Lemma sub_more r r' b b' : sub r r' -> sub b b' -> forall trail ind p s v ind' tr,
    reads_more E refs r b trail ind p s v ind' tr -> reads_more E refs r' b' trail ind p s v ind' tr.
  Proof.
    intros Hs Hb trail ind p s v ind' tr H. induction H.
    - constructor. apply Hb. assumption.
    - econstructor; [apply Hb; eassumption|apply Hs; eassumption].
    - eapply reads_more_item; [apply Hb; eassumption|apply Hs; eassumption|]. apply IHreads_more; assumption.
  Qed.

  Lemma sub_line r r' : sub r r' -> forall indented fresh ind p s v fresh' ind' tr,
    reads_line E refs r indented fresh ind p s v fresh' ind' tr ->
    reads_line E refs r' indented fresh ind p s v fresh' ind' tr.
  Proof. intros Hs indented fresh ind p s v fresh' ind' tr H. inversion H; subst; econstructor; try eassumption; try reflexivity; apply Hs; assumption. Qed.

  Lemma sub_lines r r' : sub r r' -> forall indented id fresh nl ind p s v ind' tr,
    reads_lines E refs r indented id fresh nl ind p s v ind' tr ->
    reads_lines E refs r' indented id fresh nl ind p s v ind' tr.
  Proof.
    intros Hs indented id fresh nl ind p s v ind' tr H. induction H.
    - constructor. assumption.
    - constructor; assumption.
    - econstructor; try eassumption. eapply sub_line; eassumption.
    - econstructor; try eassumption; [eapply sub_line; eassumption|]. apply IHreads_lines, Hs.
  Qed.

  Lemma law_sub r r' : law refs r r' -> sub r r' /\ sub r' r.
  Proof.
    induction 1 as [r|r r' _ [H1 H2]|r r' r'' _ [H1 H2] _ [H3 H4]|name k id r Hk|r id|r id|a b c i j|a b c i j Hb
      |r id Hc|a r b j Hc|r r' a b id _ [H1 H2]|r r' a b id _ [H1 H2]|r r' optional id _ [H1 H2]
      |r r' b b' optional trail id _ [H1 H2] _ [H3 H4]|r r' indented id _ [H1 H2]|r r' id _ [H1 H2]|r r' id _ [H1 H2]].
    - split; intros ind p s v ind' tr H; exact H.
    - auto.
    - split; intros ind p s v ind' tr H; auto.
    - split; intros ind p s v ind' tr H.
      + inversion H; subst; try congruence; cbn [token app]; rewrite ?app_nil_r;
          match goal with H : nth_error refs k = Some ?x |- _ => replace r with x by congruence; assumption end.
      + destruct v as [n out|]; [|eapply reads_node_no; eassumption].
        replace (Yes n out) with (Yes n (token None (Rng p 0) StartNode ++ out ++ token None (Rng p n) EndNode))
          by (cbn; rewrite app_nil_r; reflexivity).
        eapply reads_node; eassumption.
    - split; intros ind p s v ind' tr H.
      + inversion H; subst. apply reads_seq_one. assumption.
      + constructor. apply reads_seq_one. assumption.
    - split; intros ind p s v ind' tr H.
      + inversion H; subst. apply reads_first_one. assumption.
      + constructor; [discriminate|]. apply reads_first_one. assumption.
    - rewrite (cons_app (RSequence b i)). split; apply sub_sequence; intros; eapply seq_group; eassumption.
    - rewrite (cons_app (RSelect b i)). split; apply sub_select; try assumption; try discriminate; intros; eapply first_group; eassumption.
    - split; intros ind p s v ind' tr H.
      + inversion H; subst; [assumption|]. exfalso. eapply cannot_fail_yes; [exact Hc|eassumption|reflexivity].
      + destruct v as [n out|]; [constructor; exact H|]. exfalso. eapply cannot_fail_yes; [exact Hc|eassumption|reflexivity].
    - assert (Ht : forall ind p s v ind' tr, reads_first E refs (r :: b) ind p s v ind' tr <-> reads_first E refs [r] ind p s v ind' tr).
      { intros ind p s v ind' tr. rewrite reads_first_one. split; intros H.
        - inversion H; subst; [assumption|]. exfalso. eapply cannot_fail_yes; [exact Hc|eassumption|reflexivity].
        - destruct v as [n out|]; [constructor; exact H|]. exfalso. eapply cannot_fail_yes; [exact Hc|eassumption|reflexivity]. }
      replace (a ++ r :: b) with (a ++ (r :: b) ++ []) by (rewrite app_nil_r; reflexivity).
      replace (a ++ [r]) with (a ++ [r] ++ []) by (rewrite app_nil_r; reflexivity).
      split; apply sub_select; try discriminate; intros; apply Ht; assumption.
    - rewrite (cons_app r), (cons_app r'). split; apply sub_sequence; intros ind p s v ind' tr H;
        apply reads_seq_one; apply reads_seq_one in H; auto.
    - rewrite (cons_app r), (cons_app r'). split; apply sub_select; try discriminate; intros ind p s v ind' tr H;
        apply reads_first_one; apply reads_first_one in H; auto.
    - split; intros ind p s v ind' tr H; inversion H; subst.
      + econstructor; [eapply sub_many; eassumption|assumption].
      + constructor. auto.
      + econstructor; [eapply sub_many; eassumption|assumption].
      + constructor. auto.
    - split; intros ind p s v ind' tr H; inversion H; subst; econstructor; eauto; eapply sub_more; eassumption.
    - split; intros ind p s v ind' tr H; inversion H; subst; constructor; eapply sub_lines; eassumption.
    - split; intros ind p s v ind' tr H; inversion H; subst; [constructor|eapply reads_optional_none|constructor|eapply reads_optional_none]; eauto.
    - split; intros ind p s v ind' tr H; inversion H; subst; econstructor; eauto.
  Qed.
End Laws.

(** ** Replacing the rules of a table *)

Section Table.
  Variable E : ext.
  Variables refs refs' : list rule.
  Hypothesis Hrefs : Forall2 (law refs) refs refs'.

  Lemma table_sub :
    (forall r ind p s v ind' tr, reads E refs' r ind p s v ind' tr -> reads E refs r ind p s v ind' tr) /\
    (forall l ind p s v ind' tr, reads_seq E refs' l ind p s v ind' tr -> reads_seq E refs l ind p s v ind' tr) /\
    (forall l ind p s v ind' tr, reads_first E refs' l ind p s v ind' tr -> reads_first E refs l ind p s v ind' tr) /\
    (forall r ind p s k n out ind' tr, reads_many E refs' r ind p s k n out ind' tr -> reads_many E refs r ind p s k n out ind' tr) /\
    (forall r b t ind p s v ind' tr, reads_more E refs' r b t ind p s v ind' tr -> reads_more E refs r b t ind p s v ind' tr) /\
    (forall r indented id fresh nl ind p s v ind' tr, reads_lines E refs' r indented id fresh nl ind p s v ind' tr ->
      reads_lines E refs r indented id fresh nl ind p s v ind' tr) /\
    (forall r indented fresh ind p s v fresh' ind' tr, reads_line E refs' r indented fresh ind p s v fresh' ind' tr ->
      reads_line E refs r indented fresh ind p s v fresh' ind' tr).
  Proof.
    apply reads_mutind; intros; try (econstructor; eassumption).
    - destruct (Forall2_nth_r _ _ _ Hrefs _ _ H) as (r0 & Hr0 & Hl).
      eapply reads_node; [exact Hr0|]. apply law_sub with (E := E) in Hl as [_ Hl]. apply Hl. assumption.
    - destruct (Forall2_nth_r _ _ _ Hrefs _ _ H) as (r0 & Hr0 & Hl).
      eapply reads_node_no; [exact Hr0|]. apply law_sub with (E := E) in Hl as [_ Hl]. apply Hl. assumption.
  Qed.
End Table.

Section Syntaxes.
  Variable E : ext.
  Hypothesis HE : ext_ok E.
  Variables s s' : syntax.
  Hypothesis Hrules : Forall2 (law (s_rules s)) (s_rules s) (s_rules s').

  Lemma law_start r' : start_rule s' r' -> exists r, start_rule s r /\ law (s_rules s) r r'.
  Proof.
    intros (l & Hl). pose proof Hrules as HF. rewrite Hl in HF. apply Forall2_app_one_r in HF as (l0 & r & H1 & _ & H2).
    exists r. split; [exists l0; exact H1|exact H2].
  Qed.

  Lemma law_reads r r' ind p t v ind' tr : law (s_rules s) r r' -> reads E (s_rules s') r' ind p t v ind' tr ->
    reads E (s_rules s) r ind p t v ind' tr.
  Proof.
    intros Hl H. apply (proj1 (table_sub E _ _ Hrules)) in H. apply law_sub with (E := E) in Hl as [_ Hl]. apply Hl, H.
  Qed.

  Lemma law_accepts ind text out : accepts E s' ind text out -> accepts E s ind text out.
  Proof.
    intros [r' o ind' tr Hr H]. apply law_start in Hr as (r & Hr & Hl). econstructor; [exact Hr|]. eapply law_reads; eassumption.
  Qed.

  Lemma law_rejects ind text tr : rejects E s' ind text tr -> rejects E s ind text tr.
  Proof.
    intros [H0|r' ind' tr1 Hr H|r' n out ind' tr1 Hr H Hn].
    - constructor. pose proof Hrules as HF. rewrite H0 in HF. inversion HF. reflexivity.
    - apply law_start in Hr as (r & Hr & Hl). eapply rejects_fail; [exact Hr|]. eapply law_reads; eassumption.
    - apply law_start in Hr as (r & Hr & Hl). eapply rejects_early; [exact Hr| |exact Hn]. eapply law_reads; eassumption.
  Qed.

  Lemma law_parse text tokens ind :
    (forall tokens', parse_returns E s' text tokens ind None tokens' -> parse_returns E s text tokens ind None tokens') /\
    (forall e, (exists tokens', parse_returns E s' text tokens ind (Some e) tokens') ->
       exists tokens', parse_returns E s text tokens ind (Some e) tokens').
  Proof.
    split.
    - intros tokens' H. apply parse_accepts in H as (out & Ha & ->); [|exact HE]. apply parse_accepts; [exact HE|].
      exists out. split; [apply law_accepts, Ha|reflexivity].
    - intros e (tk & H). apply error_is_newest_deepest in H as [(tr & Hrej) Hn]. apply Hn in Hrej as Hnd.
      apply law_rejects in Hrej. destruct (rejects_parse E HE s ind text tokens tr Hrej) as (e1 & tk1 & H1).
      exists tk1. apply error_is_newest_deepest in H1 as Hn1. destruct Hn1 as [_ Hn1]. apply Hn1 in Hrej.
      rewrite (newest_deepest_unique _ _ _ Hnd Hrej). exact H1.
  Qed.
End Syntaxes.

Lemma law_runs E refs r r' : law refs r r' -> forall ind p s v ind',
  runs E refs r ind p s v ind' <-> runs E refs r' ind p s v ind'.
Proof.
  intros Hl ind p s v ind'. apply law_sub with (E := E) in Hl as [H1 H2]. rewrite !runs_reads.
  split; intros (tr & H); exists tr; auto.
Qed.

Lemma Forall2_flip {A B} (P : A -> B -> Prop) (Q : B -> A -> Prop) l m : (forall x y, P x y -> Q y x) ->
  Forall2 P l m -> Forall2 Q m l.
Proof. intros H. induction 1; constructor; auto. Qed.

Lemma law_parse_both E s s' : ext_ok E -> Forall2 (law (s_rules s)) (s_rules s) (s_rules s') ->
  Forall2 (law (s_rules s')) (s_rules s) (s_rules s') -> forall text tokens ind,
  (forall tokens', parse_returns E s' text tokens ind None tokens' <-> parse_returns E s text tokens ind None tokens') /\
  (forall e, (exists tokens', parse_returns E s' text tokens ind (Some e) tokens') <->
     exists tokens', parse_returns E s text tokens ind (Some e) tokens').
Proof.
  intros HE H1 H2 text tokens ind.
  assert (H3 : Forall2 (law (s_rules s')) (s_rules s') (s_rules s)).
  { eapply Forall2_flip; [|exact H2]. intros x y. apply law_sym. }
  destruct (law_parse E HE s s' H1 text tokens ind) as [Ha Hb].
  destruct (law_parse E HE s' s H3 text tokens ind) as [Hc Hd].
  split; [intros tk|intros e]; split; auto.
Qed.

(** [d = d]. *)
Definition self_reference : syntax := Syn [RNode [100%N] None (Some 0) 1%N] [[100%N]].

Lemma self_reference_diverges E text tokens ind : parse_diverges E self_reference text tokens ind.
Proof.
  intros f. unfold parse_with_indent, self_reference. cbn [s_rules length Nat.sub nth_error].
  match goal with |- context [parse_rule E f ?r ?q] =>
    assert (H : forall f, parse_rule E f r q tokens (length tokens) (RT text 0) ind = OutOfFuel) end.
  { clear f. intros f. induction f as [f IH] using lt_wf_ind. destruct f as [|f]; [reflexivity|].
    cbn [parse_rule]. unfold parse_node. cbn. rewrite IH by lia. reflexivity. }
  rewrite H. reflexivity.
Qed.
