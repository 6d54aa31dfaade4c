(** Whole texts: [parse_with_indent] against [accepts] and [rejects]. *)
From Coq Require Import List NArith Bool Arith Lia.
From Verif Require Import Base Ext Types ParseModel PegSpec PrimProofs PegProofs PegComplete
  FuelProofs PegFacts DataSpec ApiSpec.
Import ListNotations.

Lemma start_rule_nth s r :
  nth_error (s_rules s) (length (s_rules s) - 1) = Some r <-> start_rule s r.
Proof.
  unfold start_rule. split.
  - intros H. destruct (s_rules s) as [|r' rules _] using rev_ind; [discriminate|].
    rewrite app_length in H. simpl in H. rewrite Nat.add_sub, nth_error_app2 in H by lia.
    rewrite Nat.sub_diag in H. injection H as ->. exists rules. reflexivity.
  - intros (rules & ->). rewrite app_length. simpl. rewrite Nat.add_sub, nth_error_app2 by lia.
    rewrite Nat.sub_diag. reflexivity.
Qed.

Lemma start_rule_none s :
  nth_error (s_rules s) (length (s_rules s) - 1) = None <-> s_rules s = [].
Proof.
  split; [|intros ->; reflexivity]. intros H.
  destruct (s_rules s) as [|r rules _] using rev_ind; [reflexivity|].
  apply nth_error_None in H. rewrite app_length in H. simpl in H. lia.
Qed.

Lemma start_rule_in s r : start_rule s r -> In r (s_rules s).
Proof. intros (rules & ->). apply in_or_app. right. left. reflexivity. Qed.

Lemma start_rule_unique s r r' : start_rule s r -> start_rule s r' -> r = r'.
Proof. rewrite <- !start_rule_nth. congruence. Qed.

(** [parse_with_indent] as a big step: no rules, a failure, an early end, success. *)
Lemma parse_inv E fuel s text tokens ind result tokens' :
  parse_with_indent E fuel s text tokens ind = Done (result, tokens') ->
  (s_rules s = [] /\ result = Some (Rng 0 0, NoRules) /\ tokens' = tokens) \/
  (exists r v ind' tr, start_rule s r /\ reads E (s_rules s) r ind 0 text v ind' tr /\
    match v with
    | No => exists e junk, best tr = Some e /\ result = Some e /\ tokens' = tokens ++ junk
    | Yes n out =>
      (n < length text /\ exists e junk,
        best (tr ++ [(Rng n 0, ExpectedEnd)]) = Some e /\ result = Some e /\
        tokens' = tokens ++ junk) \/
      (length text <= n /\ result = None /\ tokens' = tokens ++ out)
    end).
Proof.
  unfold parse_with_indent. intros H. destruct (nth_error _ _) as [r|] eqn:Hr.
  2:{ apply start_rule_none in Hr. injection H as <- <-. left. auto. }
  apply start_rule_nth in Hr. right.
  destruct (parse_rule _ _ _ _ _ _ _ _) as [[[res toks] ind']| |] eqn:He; cbn [obind] in H;
    try discriminate.
  rewrite <- (app_nil_r tokens) in He at 1.
  apply parse_rule_sound in He as (v & tr & Hv & Ha).
  exists r, v, ind', tr. split; [exact Hr|]. split; [exact Hv|].
  destruct v as [n out|].
  - destruct Ha as (junk & -> & ->). unfold next_offset in H. cbn [r_off r_len] in H.
    rewrite Nat.add_0_l in H. destruct (Nat.ltb_spec n (length text)) as [Hn|Hn].
    + left. split; [exact Hn|]. injection H as <- <-. eexists _, (out ++ junk). split; [|split].
      * rewrite best_app, best_one. symmetry. apply ret_err_update.
      * reflexivity.
      * rewrite <- app_assoc. reflexivity.
    + right. split; [exact Hn|]. injection H as <- <-. split; [reflexivity|].
      rewrite firstn_app, Nat.sub_diag, firstn_all. simpl. rewrite app_nil_r. reflexivity.
  - destruct Ha as (e & junk & Hb & -> & ->). injection H as <- <-. eauto.
Qed.

Lemma parse_done E s text tokens ind r v ind' tr :
  start_rule s r -> reads E (s_rules s) r ind 0 text v ind' tr ->
  exists fuel result tokens', parse_with_indent E fuel s text tokens ind = Done (result, tokens').
Proof.
  intros Hr Hv. apply parse_rule_complete in Hv as (N & H). exists N.
  unfold parse_with_indent. apply start_rule_nth in Hr. rewrite Hr.
  destruct (H N (le_n N) tokens []) as (res & toks & He & Ha).
  rewrite app_nil_r in He. rewrite He. cbn [obind].
  destruct res; [|eauto]. destruct (_ <? _); eauto.
Qed.

Section Api.
  Variable E : ext.
  Hypothesis HE : ext_ok E.
  Variable s : syntax.
  Variable ind : indent.
  Variable text : str.

  Lemma parse_accepts tokens tokens' :
    parse_returns E s text tokens ind None tokens' <->
    exists out, accepts E s ind text out /\ tokens' = tokens ++ out.
  Proof.
    split.
    - intros (fuel & H). apply parse_inv in H as [(_ & H & _)|(r & v & ind' & tr & Hr & Hv & H)];
        [discriminate|].
      destruct v as [n out|].
      + destruct H as [(_ & e & junk & _ & H & _)|(Hn & _ & ->)]; [discriminate|].
        exists out. split; [|reflexivity].
        assert (n = length text) by (apply reads_le in Hv; [lia|exact HE]). subst n.
        econstructor; eassumption.
      + destruct H as (e & junk & _ & H & _). discriminate.
    - intros (out & [r out' ind' tr Hr Hv] & ->).
      destruct (parse_done E s text tokens ind r _ _ _ Hr Hv) as (fuel & result & tokens' & H).
      exists fuel. rewrite H. apply parse_inv in H as [(H0 & _)|(r2 & v2 & ind2 & tr2 & Hr2 & Hv2 & H)].
      + destruct Hr as (rules & Hr). rewrite H0 in Hr. destruct rules; discriminate.
      + assert (r2 = r) by (eapply start_rule_unique; eassumption). subst r2.
        destruct (reads_deterministic _ _ _ _ _ _ _ _ _ _ _ _ Hv Hv2) as (<- & _).
        destruct H as [(Hn & _)|(_ & -> & ->)]; [lia|reflexivity].
  Qed.

  Lemma parse_rejects tokens e tokens' :
    parse_returns E s text tokens ind (Some e) tokens' ->
    exists tr junk, rejects E s ind text tr /\ newest_deepest tr e /\ tokens' = tokens ++ junk.
  Proof.
    intros (fuel & H). apply parse_inv in H as [(H0 & He & ->)|(r & v & ind' & tr & Hr & Hv & H)].
    - injection He as ->. exists [(Rng 0 0, NoRules)], []. split; [constructor; exact H0|].
      split; [apply best_spec; reflexivity|]. rewrite app_nil_r. reflexivity.
    - destruct v as [n out|].
      + destruct H as [(Hn & e' & junk & Hb & [= <-] & ->)|(_ & H & _)]; [|discriminate].
        eexists _, junk. split; [eapply rejects_early; eassumption|].
        split; [apply best_spec; exact Hb|reflexivity].
      + destruct H as (e' & junk & Hb & [= <-] & ->). exists tr, junk.
        split; [eapply rejects_fail; eassumption|].
        split; [apply best_spec; exact Hb|reflexivity].
  Qed.

  Lemma rejects_best tr tr' :
    rejects E s ind text tr -> rejects E s ind text tr' -> best tr = best tr'.
  Proof.
    assert (Hnil : forall r, start_rule s r -> s_rules s = [] -> False).
    { intros r (rules & Hr) H0. rewrite H0 in Hr. destruct rules; discriminate. }
    intros [H0|r ind1 tr1 Hr Hv|r n out ind1 tr1 Hr Hv Hn]
      [H0'|r' ind1' tr1' Hr' Hv'|r' n' out' ind1' tr1' Hr' Hv' Hn'];
      try (exfalso; eauto; fail); [reflexivity|..];
      assert (r' = r) by (eapply start_rule_unique; eassumption); subst r';
      destruct (reads_deterministic _ _ _ _ _ _ _ _ _ _ _ _ Hv Hv') as (Hvv & _ & Hb);
      try discriminate; [exact Hb|].
    injection Hvv as <- <-. rewrite !best_app, Hb. reflexivity.
  Qed.

  Lemma rejects_parse tokens tr :
    rejects E s ind text tr -> exists e tokens', parse_returns E s text tokens ind (Some e) tokens'.
  Proof.
    intros Hrej. destruct Hrej as [H0|r ind' tr Hr Hv|r n out ind' tr Hr Hv Hn].
    - exists (Rng 0 0, NoRules), tokens. exists 0. unfold parse_with_indent. rewrite H0. reflexivity.
    - destruct (parse_done E s text tokens ind r _ _ _ Hr Hv) as (fuel & [e|] & tokens' & H);
        [exists e, tokens', fuel; exact H|]. exfalso.
      assert (Ha : parse_returns E s text tokens ind None tokens') by (exists fuel; exact H).
      apply parse_accepts in Ha as (out & [r' out' ind1 tr1 Hr' Hv'] & _).
      assert (r' = r) by (eapply start_rule_unique; eassumption). subst r'.
      destruct (reads_deterministic _ _ _ _ _ _ _ _ _ _ _ _ Hv Hv') as (Hvv & _). discriminate.
    - destruct (parse_done E s text tokens ind r _ _ _ Hr Hv) as (fuel & [e|] & tokens' & H);
        [exists e, tokens', fuel; exact H|]. exfalso.
      assert (Ha : parse_returns E s text tokens ind None tokens') by (exists fuel; exact H).
      apply parse_accepts in Ha as (out1 & [r' out' ind1 tr1 Hr' Hv'] & _).
      assert (r' = r) by (eapply start_rule_unique; eassumption). subst r'.
      destruct (reads_deterministic _ _ _ _ _ _ _ _ _ _ _ _ Hv Hv') as (Hvv & _).
      injection Hvv as Hvv _. lia.
  Qed.

  (** The result of parsing is unique. *)
  Lemma parse_returns_unique tokens result tokens1 result2 tokens2 :
    parse_returns E s text tokens ind result tokens1 ->
    parse_returns E s text tokens ind result2 tokens2 -> result = result2 /\ tokens1 = tokens2.
  Proof.
    intros (f & H1) (g & H2).
    assert (H : Done (result, tokens1) = Done (result2, tokens2))
      by (eapply parse_with_indent_fuel; [exact H1|discriminate|exact H2|discriminate]).
    injection H. auto.
  Qed.

  Lemma parse_returns_not_panics tokens result tokens' :
    parse_returns E s text tokens ind result tokens' -> ~ parse_panics E s text tokens ind.
  Proof.
    intros (f & H1) (g & H2).
    assert (H : Done (result, tokens') = Panic)
      by (eapply parse_with_indent_fuel; [exact H1|discriminate|exact H2|discriminate]).
    discriminate.
  Qed.
End Api.

(** ** Accepted tokens *)

Lemma leaf_not_start m : leaf m -> forall n, m <> StartNode n.
Proof. destruct m; simpl; congruence. Qed.

Lemma placed_nested a b out : placed a b out -> nested (map snd out).
Proof.
  induction 1; simpl.
  - constructor.
  - constructor; assumption.
  - rewrite map_app. simpl. apply nested_node; assumption.
Qed.

Lemma placed_bounds a b out :
  placed a b out -> Forall (fun t => a <= r_off (fst t) /\ next_offset (fst t) <= b) out.
Proof.
  intros H. induction H as [a b Hab|a b r m rest Hl Ha Hp IH|a b o n name inner rest Ha Hi IHi Hr IHr].
  - constructor.
  - pose proof (placed_le _ _ _ Hp). constructor; [simpl; lia|].
    eapply Forall_impl; [|exact IH]. unfold next_offset in *. intros t. simpl. lia.
  - pose proof (placed_le _ _ _ Hr). pose proof (placed_le _ _ _ Hi).
    constructor; [unfold next_offset; simpl; lia|]. apply Forall_app. split.
    + eapply Forall_impl; [|exact IHi]. intros t. simpl. lia.
    + constructor; [unfold next_offset; simpl; lia|].
      eapply Forall_impl; [|exact IHr]. intros t. simpl. lia.
Qed.
