(** C93: alternatives that are never chosen may be dropped. *)
From Coq Require Import Ascii String List NArith Bool Arith Lia.
From Verif Require Import Base Ext Types ParseModel PegSpec DataSpec ApiSpec RuleSpec IdSpec TotalSpec LawSpec DeadSpec TotalProofs TotalCheck TotalCheck
  PrimProofs PegProofs PegFacts OccursProofs RuleProofs IndentProofs ParseProofs ParsePublic LawProofs RenameProofs PegComplete ExtProofs Examples.
Import ListNotations.
Local Open Scope list_scope.
Local Open Scope nat_scope.

Section Dead.
  Variable E : ext.
  Variable syn : syntax.
  Hypothesis Hno : no_indented_lines syn.
  Notation refs := (s_rules syn).

  Lemma flat r ind p s v ind' tr : occurs syn r -> reads E refs r ind p s v ind' tr -> ind' = ind.
  Proof. intros Ho H. exact (proj1 (reads_keeps_all E syn Hno) _ _ _ _ _ _ _ H Ho). Qed.

  Lemma child r c : occurs syn r -> In c (children r) -> occurs syn c.
  Proof. intros; eapply occurs_child; eassumption. Qed.

  Lemma named r i : nth_error refs i = Some r -> occurs syn r.
  Proof. intros H. apply occurs_top. eapply nth_error_In. exact H. Qed.

  (** All alternatives fail where the select fails; one succeeds where it succeeds. *)
  Lemma first_no args : forall ind p s ind' tr, Forall (occurs syn) args -> reads_first E refs args ind p s No ind' tr ->
    forall c, In c args -> exists tr', reads E refs c ind p s No ind tr'.
  Proof.
    induction args as [|a args IH]; intros ind p s ind' tr Ho H c Hc; [contradiction|].
    inversion H; subst. inversion Ho; subst. match goal with HH : reads _ _ a _ _ _ No ?i _ |- _ => assert (i = ind) by (eapply flat; eassumption); subst i end.
    destruct Hc as [->|Hc]; [eexists; eassumption|]. eapply IH; eassumption.
  Qed.

  Lemma first_yes args : forall ind p s n out ind' tr, Forall (occurs syn) args -> reads_first E refs args ind p s (Yes n out) ind' tr ->
    exists c tr', In c args /\ reads E refs c ind p s (Yes n out) ind' tr'.
  Proof.
    induction args as [|a args IH]; intros ind p s n out ind' tr Ho H; inversion H; subst; inversion Ho; subst.
    - eexists _, _. split; [left; reflexivity|eassumption].
    - match goal with HH : reads _ _ a _ _ _ No ?i _ |- _ => assert (i = ind) by (eapply flat; eassumption); subst i end.
      edestruct IH as (c & tr' & Hc & Hr); [eassumption|eassumption|]. exists c, tr'. split; [right; exact Hc|exact Hr].
  Qed.

  Lemma starts_app s t u : starts_with s (t ++ u) -> starts_with s t.
  Proof. intros (x & ->). exists (u ++ x). apply eq_sym, app_assoc. Qed.

  Lemma longest_first P c s n : longest P (c :: s) n -> P c -> n <> 0.
  Proof. intros H Hc ->. apply longest_0 in H. contradiction. Qed.

  Lemma until_no (P Q : char -> Prop) optional s n : (forall c, Q c -> P c) -> longest P s 0 -> longest Q s n -> optional = true \/ 0 < n -> optional = false -> False.
  Proof.
    intros HPQ H0 Hn [->|Hn0] Ho; [discriminate|]. destruct s as [|c s]; [apply longest_nil in Hn; lia|].
    apply longest_0 in H0. destruct n; [lia|]. apply longest_S in Hn as (Hc & _). auto.
  Qed.

  Lemma covered c r : covers refs c r -> occurs syn c -> occurs syn r -> forall ind p s ind1 tr1 n out ind2 tr2,
    reads E refs c ind p s No ind1 tr1 -> reads E refs r ind p s (Yes n out) ind2 tr2 -> False.
  Proof.
    induction 1; intros Hoc Hor ind p s ind1 tr1 n out ind2 tr2 Hc Hr.
    - destruct (reads_deterministic _ _ _ _ _ _ _ _ _ _ _ _ Hc Hr) as (Hx & _). discriminate.
    - exact (cannot_fail_yes E refs c ltac:(eassumption) _ _ _ _ _ _ Hc eq_refl).
    - inversion Hc; subst. inversion Hr; subst. match goal with HH : ~ starts_with _ _ |- _ => apply HH end. eapply starts_app. eassumption.
    - inversion Hc; subst. inversion Hr; subst. match goal with HH : ~ starts_with _ _ |- _ => apply HH end. eapply starts_app. eassumption.
    - inversion Hc; subst. inversion Hr; subst. destruct H as [Hx|Hx]; [discriminate|subst].
      match goal with H0 : longest white s 0, H1 : longest white s n |- _ => pose proof (longest_unique _ _ _ _ H0 H1) end. match goal with HH : _ = true \/ 0 < n |- _ => destruct HH; [discriminate|lia] end.
    - inversion Hc; subst; inversion Hr; subst; try congruence. destruct H as [Hx|Hx]; [discriminate|subst].
      match goal with HH : false = true \/ n <> 2 |- _ => destruct HH; [discriminate|congruence] end.
    - inversion Hc; subst; inversion Hr; subst; congruence.
    - inversion Hc; subst; inversion Hr; subst. all: eapply until_no; [|eassumption|eassumption|eassumption|reflexivity]; cbv beta; unfold incl in *; intros; intuition.
    - inversion Hc; subst; inversion Hr; subst. all: eapply until_no; [|eassumption|eassumption|eassumption|reflexivity]; cbv beta; unfold incl in *; intros; intuition.
    - inversion Hc; subst; inversion Hr; subst. all: eapply until_no; [|eassumption|eassumption|eassumption|reflexivity]; cbv beta; unfold incl in *; intros; intuition.
    - inversion Hc; subst; inversion Hr; subst. match goal with HH : starts_with _ _ |- _ => destruct HH as (u & ->) end. cbn [app] in *.
      match goal with HH : longest _ _ 0 |- _ => apply longest_0 in HH; apply HH; exact H end.
    - inversion Hc; subst; inversion Hr; subst. match goal with HH : starts_with _ _ |- _ => destruct HH as (u & ->) end. cbn [app] in *.
      match goal with HH : longest _ _ 0 |- _ => apply longest_0 in HH; apply HH; split; assumption end.
    - inversion Hr; subst. match goal with HH : reads_seq _ _ _ _ _ _ _ _ _ |- _ => inversion HH; subst end.
      eapply IHcovers; [exact Hoc|eapply child; [exact Hor|left; reflexivity]|exact Hc|eassumption].
    - inversion Hr; subst. match goal with HH : reads_many _ _ _ _ _ _ _ _ _ _ _ |- _ => inversion HH; subst end.
      + match goal with HH : _ = true \/ 0 < _ |- _ => destruct HH; [discriminate|lia] end.
      + eapply IHcovers; [exact Hoc|eapply child; [exact Hor|left; reflexivity]|exact Hc|eassumption].
    - inversion Hr; subst.
      eapply IHcovers; [exact Hoc|eapply child; [exact Hor|left; reflexivity]|exact Hc|eassumption].
    - inversion Hr; subst. match goal with H1 : nth_error refs i = Some r, H2 : nth_error refs i = Some ?r2 |- _ => rewrite H1 in H2; injection H2 as <- end.
      eapply IHcovers; [exact Hoc|eapply named; eassumption|exact Hc|eassumption].
    - inversion Hr; subst. edestruct first_yes as (r & tr' & Hin & Hrr); [|eassumption|].
      { apply Forall_forall. intros x Hx. eapply child; [exact Hor|exact Hx]. }
      eapply H0; [exact Hin|exact Hoc|eapply child; [exact Hor|exact Hin]|exact Hc|exact Hrr].
    - inversion Hc; subst; [|contradiction]. edestruct first_no as (tr' & Hrr); [|eassumption|eassumption|].
      { apply Forall_forall. intros x Hx. eapply child; [exact Hoc|exact Hx]. }
      eapply IHcovers; [eapply child; [exact Hoc|eassumption]|exact Hor|exact Hrr|exact Hr].
    - inversion Hc; subst. eapply IHcovers; [eapply child; [exact Hoc|left; reflexivity]|exact Hor|eassumption|exact Hr].
    - inversion Hc; subst. match goal with H1 : nth_error refs i = Some c, H2 : nth_error refs i = Some ?r2 |- _ => rewrite H1 in H2; injection H2 as <- end.
      eapply IHcovers; [eapply named; eassumption|exact Hor|eassumption|exact Hr].
  Qed.

  Variable refs' : list rule.
  Hypothesis Hrefs : Forall2 (trimmed refs) refs refs'.

  Lemma all_same l : trimmed_all refs l l.
  Proof. induction l; constructor; [constructor|assumption]. Qed.

  Lemma from_same l : forall earlier, trimmed_from refs earlier l l.
  Proof. induction l; intros earlier; constructor; [constructor|auto]. Qed.

  Lemma select_inv_t args id r' : trimmed refs (RSelect args id) r' -> exists args', r' = RSelect args' id /\ trimmed_from refs [] args args'.
  Proof. intros H. inversion H; subst; eexists; split; try reflexivity; [apply from_same|assumption]. Qed.

  Lemma sequence_inv_t args id r' : trimmed refs (RSequence args id) r' -> exists args', r' = RSequence args' id /\ trimmed_all refs args args'.
  Proof. intros H. inversion H; subst; eexists; split; try reflexivity; [apply all_same|assumption]. Qed.

  Lemma repeat_inv_t r o id r' : trimmed refs (RRepeat r o id) r' -> exists x, r' = RRepeat x o id /\ trimmed refs r x.
  Proof. intros H. inversion H; subst; eexists; split; try reflexivity; [constructor|assumption]. Qed.

  Lemma separate_inv_t r b o t id r' : trimmed refs (RSeparateBy r b o t id) r' -> exists x y, r' = RSeparateBy x y o t id /\ trimmed refs r x /\ trimmed refs b y.
  Proof. intros H. inversion H; subst; eexists _, _; (split; [reflexivity|]); (split; [first [assumption|constructor]|first [assumption|constructor]]). Qed.

  Lemma lines_inv_t r o id r' : trimmed refs (RLines r o id) r' -> exists x, r' = RLines x o id /\ trimmed refs r x.
  Proof. intros H. inversion H; subst; eexists; split; try reflexivity; [constructor|assumption]. Qed.

  Lemma optional_inv_t r id r' : trimmed refs (ROptional r id) r' -> exists x, r' = ROptional x id /\ trimmed refs r x.
  Proof. intros H. inversion H; subst; eexists; split; try reflexivity; [constructor|assumption]. Qed.

  Lemma not_inv_t r id r' : trimmed refs (RNot r id) r' -> exists x, r' = RNot x id /\ trimmed refs r x.
  Proof. intros H. inversion H; subst; eexists; split; try reflexivity; [constructor|assumption]. Qed.

  Lemma trim_reads :
    (forall r ind p s v ind' tr, reads E refs r ind p s v ind' tr -> occurs syn r ->
      forall r', trimmed refs r r' -> exists tr', reads E refs' r' ind p s v ind' tr') /\
    (forall args ind p s v ind' tr, reads_seq E refs args ind p s v ind' tr -> Forall (occurs syn) args ->
      forall args', trimmed_all refs args args' -> exists tr', reads_seq E refs' args' ind p s v ind' tr') /\
    (forall args ind p s v ind' tr, reads_first E refs args ind p s v ind' tr -> Forall (occurs syn) args ->
      forall earlier args', trimmed_from refs earlier args args' -> Forall (occurs syn) earlier ->
      (forall c, In c earlier -> exists ind1 tr1, reads E refs c ind p s No ind1 tr1) ->
      exists tr', reads_first E refs' args' ind p s v ind' tr') /\
    (forall r ind p s k n out ind' tr, reads_many E refs r ind p s k n out ind' tr -> occurs syn r ->
      forall r', trimmed refs r r' -> exists tr', reads_many E refs' r' ind p s k n out ind' tr') /\
    (forall r by_ trail ind p s v ind' tr, reads_more E refs r by_ trail ind p s v ind' tr ->
      occurs syn r -> occurs syn by_ ->
      forall r' by_', trimmed refs r r' -> trimmed refs by_ by_' -> exists tr', reads_more E refs' r' by_' trail ind p s v ind' tr') /\
    (forall r indented id fresh nl ind p s v ind' tr,
      reads_lines E refs r indented id fresh nl ind p s v ind' tr -> occurs syn r ->
      forall r', trimmed refs r r' -> exists tr', reads_lines E refs' r' indented id fresh nl ind p s v ind' tr') /\
    (forall r indented fresh ind p s v fresh' ind' tr,
      reads_line E refs r indented fresh ind p s v fresh' ind' tr -> occurs syn r ->
      forall r', trimmed refs r r' -> exists tr', reads_line E refs' r' indented fresh ind p s v fresh' ind' tr').
  Proof.
    assert (Hl : forall r l, occurs syn r -> children r = l -> Forall (occurs syn) l)
      by (intros r l Hr <-; apply Forall_forall; intros; eapply child; eassumption).
    apply reads_mutind; intros.
    all: try (match goal with H : trimmed _ _ ?x |- exists _, reads _ _ ?x _ _ _ _ _ _ =>
      first [ apply select_inv_t in H as (?args' & -> & ?Ht) | apply sequence_inv_t in H as (?args' & -> & ?Ht)
      | apply repeat_inv_t in H as (?x' & -> & ?Ht) | apply separate_inv_t in H as (?x' & ?y' & -> & ?Ht & ?Ht')
      | apply lines_inv_t in H as (?x' & -> & ?Ht) | apply optional_inv_t in H as (?x' & -> & ?Ht) | apply not_inv_t in H as (?x' & -> & ?Ht)
      | inversion H; subst; clear H ] end).
    all: try (eexists; econstructor; eassumption).
    Ltac occ := first [ assumption | eapply child; [eassumption|cbn; auto; fail] | eapply named; eassumption
      | eapply child; [eassumption|cbn; apply in_or_app; right; left; reflexivity]
      | eapply child; [eassumption|cbn; eapply nth_error_In; eassumption]
      | match goal with Hl : forall r l, occurs _ r -> children r = l -> _ |- Forall _ _ => eapply Hl; [eassumption|reflexivity] end ].
    Ltac ih := repeat (match goal with
      | H : occurs ?s ?x -> forall r', trimmed _ ?x r' -> exists _, _, Ht : trimmed _ ?x ?y |- _ =>
          let tr := fresh "tr" in let Hr := fresh "Hr" in
          assert (Hr := H ltac:(occ) _ Ht); clear H; destruct Hr as (tr & Hr) end).
    Ltac ihs := repeat (match goal with
      | H : occurs ?s ?x -> forall r', trimmed _ ?x r' -> exists _, _ |- _ =>
          let tr := fresh "tr" in let Hr := fresh "Hr" in
          assert (Hr := H ltac:(occ) _ (trim_same _ _)); clear H; destruct Hr as (tr & Hr) end).
    all: try (ih; eexists; econstructor; eassumption).
    - destruct (H0 ltac:(occ) _ Ht) as (tr' & Hr). eexists. constructor. exact Hr.
    - destruct (H1 ltac:(occ) _ _ Ht (Forall_nil _) ltac:(contradiction)) as (tr' & Hr). eexists. constructor; [|exact Hr].
      inversion Ht; subst; [contradiction|discriminate|contradiction].
    - inversion Ht; subst. eexists. apply reads_select_empty.
    - ihs. eexists. constructor; eassumption.
    - ihs. eexists. econstructor; eassumption.
    - ihs. eexists. econstructor; eassumption.
    - ihs. eexists. eapply reads_fast_then_tail; eassumption.
    - ih. destruct (H2 ltac:(occ) ltac:(occ) _ _ Ht Ht') as (tr' & Hr'). eexists. econstructor; eassumption.
    - destruct (Forall2_nth_l _ _ _ Hrefs _ _ H) as (r0 & Hr0 & Ht). ih. eexists. eapply reads_node; eassumption.
    - destruct (Forall2_nth_l _ _ _ Hrefs _ _ H) as (r0 & Hr0 & Ht). ih. eexists. eapply reads_node_no; eassumption.
    - inversion H0; subst. eexists. constructor.
    - inversion H2; subst. inversion H1; subst. ih. eexists. apply reads_seq_no; eassumption.
    - inversion H4; subst. inversion H3; subst. ih. destruct (H2 ltac:(occ) _ ltac:(eassumption)) as (tr' & Hr'). eexists. eapply reads_seq_cons; eassumption.
    - inversion H0; subst. eexists. constructor.
    - inversion H1; subst. inversion H2; subst.
      + ih. eexists. apply reads_first_yes; eassumption.
      + exfalso. destruct (H4 _ ltac:(eassumption)) as (i1 & t1 & Hr1).
        eapply covered; [eassumption|rewrite Forall_forall in H3; apply H3; assumption|eassumption|exact Hr1|exact H].
    - inversion H3; subst. assert (ind1 = ind) by (eapply flat; eassumption). subst ind1. inversion H4; subst.
      + ih. edestruct H2 as (tr' & Hr'); [assumption|eassumption|apply Forall_app; split; [assumption|constructor; [assumption|constructor]]| |].
        { intros c Hc. apply in_app_or in Hc as [Hc|[<-|[]]]; [auto|eexists _, _; exact H]. }
        eexists. eapply reads_first_next; eassumption.
      + eapply H2; eassumption.
    - ih. destruct (H4 ltac:(occ) ltac:(occ) _ _ ltac:(eassumption) ltac:(eassumption)) as (tr' & Hr'). eexists. eapply reads_more_item; eassumption.
  Qed.
End Dead.

Section Syntaxes.
  Variable E : ext.
  Hypothesis HE : ext_ok E.
  Variables s s' : syntax.
  Hypothesis Hno : no_indented_lines s.
  Hypothesis Ht : trimmed_syntax s s'.

  Lemma trim_start r : start_rule s r -> exists r', start_rule s' r' /\ trimmed (s_rules s) r r'.
  Proof.
    intros (l & Hl). pose proof Ht as HF. unfold trimmed_syntax in HF. rewrite Hl in HF at 2.
    apply Forall2_app_inv_l in HF as (l1 & l2 & _ & H2 & H3). inversion H2; subst. match goal with H : Forall2 _ [] _ |- _ => inversion H; subst end.
    eexists. split; [exists l1; exact H3|assumption].
  Qed.

  Lemma start_occurs r : start_rule s r -> occurs s r.
  Proof. intros (l & Hl). apply occurs_top. rewrite Hl. apply in_or_app. right. left. reflexivity. Qed.

  Lemma trim_accepts ind text out : accepts E s ind text out -> accepts E s' ind text out.
  Proof.
    intros [r o ind' tr Hr H]. destruct (trim_start r Hr) as (r' & Hr' & Htr).
    destruct (proj1 (trim_reads E s Hno (s_rules s') Ht) _ _ _ _ _ _ _ H (start_occurs r Hr) r' Htr) as (tr' & H').
    econstructor; eassumption.
  Qed.

  Lemma trim_rejects ind text tr : rejects E s ind text tr -> exists tr', rejects E s' ind text tr'.
  Proof.
    intros [H0|r ind' tr1 Hr H|r n out ind' tr1 Hr H Hn].
    - exists [(Rng 0 0, NoRules)]. constructor. pose proof Ht as HF. unfold trimmed_syntax in HF. rewrite H0 in HF. inversion HF. reflexivity.
    - destruct (trim_start r Hr) as (r' & Hr' & Htr).
      destruct (proj1 (trim_reads E s Hno (s_rules s') Ht) _ _ _ _ _ _ _ H (start_occurs r Hr) r' Htr) as (tr' & H').
      eexists. eapply rejects_fail; eassumption.
    - destruct (trim_start r Hr) as (r' & Hr' & Htr).
      destruct (proj1 (trim_reads E s Hno (s_rules s') Ht) _ _ _ _ _ _ _ H (start_occurs r Hr) r' Htr) as (tr' & H').
      eexists. eapply rejects_early; eassumption.
  Qed.

  Lemma trim_parse text tokens ind :
    (forall tokens', parse_returns E s text tokens ind None tokens' -> parse_returns E s' text tokens ind None tokens') /\
    ((exists e tokens', parse_returns E s text tokens ind (Some e) tokens') ->
       exists e tokens', parse_returns E s' text tokens ind (Some e) tokens').
  Proof.
    split.
    - intros tokens' H. apply parse_accepts in H as (out & Ha & ->); [|exact HE]. apply parse_accepts; [exact HE|].
      exists out. split; [apply trim_accepts, Ha|reflexivity].
    - intros (e & tk & H). apply error_is_newest_deepest in H as [(tr & Hrej) Hn].
      destruct (trim_rejects _ _ _ Hrej) as (tr' & Hrej'). destruct (rejects_parse E HE s' ind text tokens tr' Hrej') as (e1 & tk1 & H1).
      exists e1, tk1. exact H1.
  Qed.

  Lemma trim_same_results : valid s -> well_formed s -> forall text tokens ind, columns_fit ind text ->
    (forall tokens', parse_returns E s text tokens ind None tokens' <-> parse_returns E s' text tokens ind None tokens') /\
    ((exists e tokens', parse_returns E s text tokens ind (Some e) tokens') <->
       exists e tokens', parse_returns E s' text tokens ind (Some e) tokens').
  Proof.
    intros Hv Hw text tokens ind Hf. destruct (trim_parse text tokens ind) as [H1 H2].
    destruct (parse_decided E HE s Hv Hw text tokens ind Hf) as (res & tk & H).
    split; [intros tokens'|]; (split; [auto|]); intros H'.
    - destruct res as [e|].
      + destruct (H2 (ex_intro _ e (ex_intro _ tk H))) as (e1 & tk1 & H3). destruct (parse_returns_unique _ _ _ _ _ _ _ _ _ H' H3). discriminate.
      + apply H1 in H as H3. destruct (parse_returns_unique _ _ _ _ _ _ _ _ _ H' H3) as [_ ->]. exact H.
    - destruct H' as (e1 & tk1 & H'). destruct res as [e|]; [eexists _, _; exact H|].
      apply H1 in H as H3. destruct (parse_returns_unique _ _ _ _ _ _ _ _ _ H' H3). discriminate.
  Qed.
End Syntaxes.

(** Rule level: an alternative that an earlier one covers never succeeds behind it. *)
Lemma never_chosen E s : no_indented_lines s -> forall c r, covers (s_rules s) c r -> occurs s c -> occurs s r ->
  forall ind p t ind1 n out ind2, runs E (s_rules s) c ind p t No ind1 -> runs E (s_rules s) r ind p t (Yes n out) ind2 -> False.
Proof.
  intros Hno c r Hc Ho Ho' ind p t ind1 n out ind2 H1 H2. apply runs_reads in H1 as (tr1 & H1). apply runs_reads in H2 as (tr2 & H2).
  eapply covered; eassumption.
Qed.

Local Open Scope string_scope.
Local Open Scope list_scope.

(** [doc = {[.l("1") "1\n  1"] ["1\n" .l("1") "z"] [.l("1") "1\n  1"]}] with indented lines, and without the last
    alternative. *)
Definition again_block : rule := RSequence [RLines (RTag (tx "1") false false None 1%N) true 2%N; RTag (tx "1
  1") false false None 3%N] 4%N.
Definition other_block : rule := RSequence [RTag (tx "1
") false false None 5%N; RLines (RTag (tx "1") false false None 6%N) true 7%N; RTag (tx "z") false false None 8%N] 9%N.
Definition block_again : syntax := Syn [RSelect [again_block; other_block; again_block] 10%N] [tx "doc"].
Definition block_once : syntax := Syn [RSelect [again_block; other_block] 10%N] [tx "doc"].
Definition block_text : str := tx "1
  1".

(** [item = ["a" ?.t?:"more"]  doc = .s?(",", {"a":"x" "ab":"y" item:"z" .t!:"t" .t!:"u"})], and without the alternatives
    that are never chosen. *)
Definition dead_item : rule := RSequence [RTag (tx "a") false false None 1%N; ROptional (RText true (Some (tx "more")) 2%N) 3%N] 4%N.
Definition dead_x : rule := RTag (tx "a") false false (Some (tx "x")) 5%N.
Definition dead_t : rule := RText true (Some (tx "t")) 8%N.
Definition dead_comma : rule := RTag (tx ",") false false None 10%N.
Definition dead_syntax : syntax := Syn [dead_item; RSeparateBy (RSelect [dead_x; RTag (tx "ab") false false (Some (tx "y")) 6%N;
  RNode (tx "item") (Some (tx "z")) (Some 0) 7%N; dead_t; RText false (Some (tx "u")) 9%N] 11%N) dead_comma true false 12%N] [tx "item"; tx "doc"].
Definition trim_syntax : syntax := Syn [dead_item; RSeparateBy (RSelect [dead_x; dead_t] 11%N) dead_comma true false 12%N] [tx "item"; tx "doc"].

Lemma dead_trimmed : trimmed_syntax dead_syntax trim_syntax.
Proof.
  unfold trimmed_syntax. constructor; [constructor|]. constructor; [|constructor].
  apply trim_separate; [|constructor]. apply trim_select.
  apply trim_keep; [constructor|]. eapply trim_drop; [left; reflexivity|exact (cov_tag _ (tx "a") (tx "b") _ _ _ _ _ _)|].
  eapply trim_drop; [left; reflexivity|eapply cov_node; [reflexivity|]; apply cov_sequence; exact (cov_tag _ (tx "a") [] _ _ _ _ _ _)|].
  apply trim_keep; [constructor|]. eapply trim_drop; [right; left; reflexivity|apply cov_text; left; reflexivity|]. constructor.
Qed.

Lemma dead_flat : no_indented_lines dead_syntax.
Proof. apply no_indented_check. reflexivity. Qed.

Lemma block_refuted : exists s s', trimmed_syntax s s' /\ exists text,
  parse_returns std_ext s text [] indent_default None [] /\ exists e tokens', parse_returns std_ext s' text [] indent_default (Some e) tokens'.
Proof.
  exists block_again, block_once. split.
  - constructor; [|constructor]. apply trim_select. apply trim_keep; [constructor|]. apply trim_keep; [constructor|].
    eapply trim_drop; [left; reflexivity|apply cov_same|constructor].
  - exists block_text. split; [exists 60; reflexivity|]. eexists _, _. exists 60. reflexivity.
Qed.

Lemma error_refuted : exists s s', no_indented_lines s /\ trimmed_syntax s s' /\ valid s /\ well_formed s /\ exists text e e' tokens tokens',
  parse_returns std_ext s text [] indent_default (Some e) tokens /\ parse_returns std_ext s' text [] indent_default (Some e') tokens' /\ e <> e'.
Proof.
  exists (Syn [RSelect [RTag (tx "a") false false None 1%N; RTag (tx "ab") false false None 2%N] 3%N] [tx "doc"]),
    (Syn [RSelect [RTag (tx "a") false false None 1%N] 3%N] [tx "doc"]).
  split; [apply no_indented_check; reflexivity|]. split.
  { constructor; [|constructor]. apply trim_select. apply trim_keep; [constructor|].
    eapply trim_drop; [left; reflexivity|exact (cov_tag _ (tx "a") (tx "b") _ _ _ _ _ _)|constructor]. }
  split; [apply validb_spec; reflexivity|]. split; [apply well_formedb_spec; reflexivity|].
  exists (tx "x"). eexists _, _, _, _. split; [exists 20; reflexivity|]. split; [exists 20; reflexivity|]. discriminate.
Qed.

