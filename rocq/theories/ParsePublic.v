(** Lemmas in the form of the properties C01-C08. *)
From Coq Require Import List NArith Bool Arith Lia.
From Verif Require Import Base Ext Types ParseModel PegSpec PrimProofs PegProofs PegComplete
  FuelProofs PegFacts DataSpec ApiSpec ParseProofs.
Import ListNotations.

Lemma accepts_unique E s ind text out out' :
  accepts E s ind text out -> accepts E s ind text out' -> out = out'.
Proof.
  intros [r o ind1 tr Hr Hv] [r' o' ind1' tr' Hr' Hv'].
  assert (r' = r) by (eapply start_rule_unique; eassumption). subst r'.
  destruct (reads_deterministic _ _ _ _ _ _ _ _ _ _ _ _ Hv Hv') as (H & _). congruence.
Qed.

Section Public.
  Variable E : ext.
  Hypothesis HE : ext_ok E.
  Variable s : syntax.
  Variable ind : indent.
  Variable text : str.

  Lemma accepts_not_rejects out tr :
    accepts E s ind text out -> rejects E s ind text tr -> False.
  Proof.
    intros Ha Hr. destruct (rejects_parse E HE s ind text [] tr Hr) as (e & t1 & H1).
    assert (H2 : parse_returns E s text [] ind None ([] ++ out))
      by (apply parse_accepts; [exact HE|]; eauto).
    destruct (parse_returns_unique _ _ _ _ _ _ _ _ _ H1 H2). discriminate.
  Qed.

  Lemma error_is_newest_deepest tokens e tokens' :
    parse_returns E s text tokens ind (Some e) tokens' ->
    (exists tr, rejects E s ind text tr) /\
    (forall tr, rejects E s ind text tr -> newest_deepest tr e).
  Proof.
    intros H. apply parse_rejects in H as (tr & junk & Hr & Hn & _). split; [eauto|].
    intros tr' Hr'. apply best_spec. apply best_spec in Hn. rewrite <- Hn.
    apply (rejects_best E s ind text); assumption.
  Qed.

  Lemma tokens_kept tokens result tokens' :
    parse_returns E s text tokens ind result tokens' -> exists new, tokens' = tokens ++ new.
  Proof.
    destruct result as [e|]; intros H.
    - apply parse_rejects in H as (tr & junk & _ & _ & ->). eauto.
    - apply parse_accepts in H as (out & _ & ->); [eauto|exact HE].
  Qed.

  Lemma tokens_irrelevant tokens1 tokens2 result tokens1' :
    parse_returns E s text tokens1 ind result tokens1' ->
    exists tokens2', parse_returns E s text tokens2 ind result tokens2' /\
      (result = None -> exists new, tokens1' = tokens1 ++ new /\ tokens2' = tokens2 ++ new).
  Proof.
    intros H. destruct result as [e|].
    - pose proof H as Hr. apply parse_rejects in Hr as (tr & junk & Hr & Hn & _).
      destruct (rejects_parse E HE s ind text tokens2 tr Hr) as (e2 & t2 & H2).
      exists t2. split; [|discriminate].
      apply error_is_newest_deepest in H2 as H3. destruct H3 as [_ H3].
      assert (e2 = e) by (eapply newest_deepest_unique; [apply H3; exact Hr|exact Hn]).
      subst e2. exact H2.
    - apply parse_accepts in H as (out & Ha & ->); [|exact HE].
      exists (tokens2 ++ out). split; [apply parse_accepts; eauto|]. eauto.
  Qed.

  Lemma error_inside tokens e tokens' :
    parse_returns E s text tokens ind (Some e) tokens' ->
    next_offset (fst e) <= length text.
  Proof.
    intros H. apply parse_rejects in H as (tr & junk & Hr & (l1 & l2 & -> & _) & _).
    assert (Ht : Forall (within 0 (0 + length text)) (l1 ++ e :: l2)).
    { inversion Hr as [H0 Heq|r ind' tr Hs Hv Heq|r n out ind' tr Hs Hv Hn Heq].
      - repeat constructor. unfold next_offset. simpl. lia.
      - subst. apply reads_fits in Hv as [_ Hv]; [exact Hv|exact HE].
      - apply reads_fits in Hv as [_ Hv]; [|exact HE].
        apply Forall_app. split; [exact Hv|]. repeat constructor; unfold next_offset; simpl; lia. }
    apply Forall_app in Ht as [_ Ht]. inversion Ht as [|? ? [_ Hd] _]. exact Hd.
  Qed.

  Lemma early_end tokens r n out ind' tr :
    start_rule s r -> reads E (s_rules s) r ind 0 text (Yes n out) ind' tr -> n < length text ->
    exists e tokens', parse_returns E s text tokens ind (Some e) tokens' /\ n <= depth e.
  Proof.
    intros Hr Hv Hn.
    assert (Hrej : rejects E s ind text (tr ++ [(Rng n 0, ExpectedEnd)]))
      by (eapply rejects_early; eassumption).
    destruct (rejects_parse E HE s ind text tokens _ Hrej) as (e & t' & H).
    exists e, t'. split; [exact H|].
    apply error_is_newest_deepest in H as [_ H].
    destruct (H _ Hrej) as (l1 & l2 & Heq & H1 & H2).
    assert (Hin : In (Rng n 0, ExpectedEnd) (l1 ++ e :: l2))
      by (rewrite <- Heq; apply in_or_app; right; left; reflexivity).
    assert (Hd : depth (Rng n 0, ExpectedEnd) = n) by (unfold depth, next_offset; simpl; lia).
    apply in_app_or in Hin as [Hin|[Hin|Hin]].
    - rewrite Forall_forall in H1. apply H1 in Hin. lia.
    - subst e. lia.
    - rewrite Forall_forall in H2. apply H2 in Hin. lia.
  Qed.

  Lemma success_reads_all tokens tokens' :
    parse_returns E s text tokens ind None tokens' ->
    exists r out ind' tr, start_rule s r /\
      reads E (s_rules s) r ind 0 text (Yes (length text) out) ind' tr.
  Proof.
    intros H. apply parse_accepts in H as (out & [r o ind1 tr Hr Hv] & _); [|exact HE].
    exists r, o, ind1, tr. auto.
  Qed.

  Lemma success_placed tokens tokens' :
    parse_returns E s text tokens ind None tokens' ->
    exists new, tokens' = tokens ++ new /\ placed 0 (length text) new.
  Proof.
    intros H. apply parse_accepts in H as (out & [r o ind1 tr Hr Hv] & ->); [|exact HE].
    exists o. split; [reflexivity|]. apply reads_fits in Hv as [[_ Hv] _]; [exact Hv|exact HE].
  Qed.

  Lemma success_nested tokens tokens' :
    parse_returns E s text tokens ind None tokens' ->
    exists new, tokens' = tokens ++ new /\ nested (map snd new).
  Proof.
    intros H. apply success_placed in H as (new & -> & H). exists new. split; [reflexivity|].
    eapply placed_nested. exact H.
  Qed.

  Lemma success_made tokens tokens' :
    parse_returns E s text tokens ind None tokens' ->
    exists new, tokens' = tokens ++ new /\ Forall (made_by E s text) new.
  Proof.
    intros H. apply parse_accepts in H as (out & [r o ind1 tr Hr Hv] & ->); [|exact HE].
    exists o. split; [reflexivity|].
    apply (proj1 (reads_made_all E s text)) in Hv; [exact Hv| |reflexivity].
    apply occurs_top. apply start_rule_in. exact Hr.
  Qed.
End Public.

(** Consequences of [placed]. *)
Lemma placed_ends_sorted a b out :
  placed a b out -> forall i j t u, i <= j -> nth_error out i = Some t ->
  nth_error out j = Some u -> next_offset (fst t) <= next_offset (fst u).
Proof.
  intros H. induction H as [a b Hab|a b r m rest Hl Ha Hp IH|a b o n name inner rest Ha Hi IHi Hr IHr];
    intros i j t u Hij Ht Hu.
  - destruct i; discriminate.
  - destruct i as [|i], j as [|j]; simpl in *; try lia.
    + assert (t = u) by congruence. subst. lia.
    + injection Ht as <-. apply nth_error_In in Hu. pose proof (placed_bounds _ _ _ Hp) as Hb.
      rewrite Forall_forall in Hb. apply Hb in Hu. simpl. unfold next_offset in *. lia.
    + eapply IH; [|eassumption|eassumption]. lia.
  - pose proof (placed_bounds _ _ _ Hi) as Bi. pose proof (placed_bounds _ _ _ Hr) as Br.
    rewrite Forall_forall in Bi, Br.
    destruct i as [|i], j as [|j]; simpl in *; try lia;
      [assert (t = u) by congruence; subst; lia| |].
    + injection Ht as <-. unfold next_offset at 1. simpl.
      apply nth_error_In in Hu. apply in_app_or in Hu as [Hu|[<-|Hu]].
      * apply Bi in Hu. unfold next_offset in *. lia.
      * unfold next_offset. simpl. lia.
      * apply Br in Hu. unfold next_offset in *. lia.
    + destruct (Nat.lt_ge_cases i (length inner)) as [Hil|Hil].
      * rewrite nth_error_app1 in Ht by exact Hil.
        destruct (Nat.lt_ge_cases j (length inner)) as [Hjl|Hjl].
        -- rewrite nth_error_app1 in Hu by exact Hjl.
           apply (IHi i j); [lia|assumption|assumption].
        -- rewrite nth_error_app2 in Hu by exact Hjl. apply nth_error_In in Ht, Hu.
           apply Bi in Ht. destruct Hu as [<-|Hu]; [unfold next_offset in *; simpl; lia|].
           apply Br in Hu. unfold next_offset in *. lia.
      * rewrite nth_error_app2 in Ht by exact Hil. rewrite nth_error_app2 in Hu by lia.
        remember (i - length inner) as i'. remember (j - length inner) as j'.
        assert (Hij' : i' <= j') by lia. destruct i' as [|i'], j' as [|j']; simpl in *; try lia.
        -- assert (t = u) by congruence. subst. lia.
        -- injection Ht as <-. apply nth_error_In in Hu. apply Br in Hu.
           unfold next_offset in *. simpl. lia.
        -- apply (IHr i' j'); [lia|assumption|assumption].
Qed.
