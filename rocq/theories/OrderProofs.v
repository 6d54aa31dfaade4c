(** C94: alternatives that start differently may be put in any order. *)
From Coq Require Import Ascii String List NArith Bool Arith Lia.
From Verif Require Import Base Ext Types ParseModel PegSpec DataSpec ApiSpec RuleSpec OrderSpec RuleProofs
  PrimProofs PegProofs PegFacts RenameProofs ParseProofs ParsePublic LawProofs PegComplete ExtProofs Examples.
Import ListNotations.
Local Open Scope list_scope.
Local Open Scope nat_scope.

Scheme reordered_ind' := Minimality for reordered Sort Prop
with reordered_all_ind' := Minimality for reordered_all Sort Prop
with swapped_ind' := Minimality for swapped Sort Prop.
Combined Scheme reordered_mutind from reordered_ind', reordered_all_ind', swapped_ind'.

Section Begins.
  Variable E : ext.
  Hypothesis HE : ext_ok E.
  Variable refs : list rule.

  Lemma longest_starts (P : char -> Prop) (Q : char -> bool) s n : (forall c, P c -> Q c = true) -> longest P s n -> 0 < n -> starts_by Q s.
  Proof.
    intros HPQ H Hn. destruct s as [|c s]; [apply longest_nil in H; lia|]. destruct n; [lia|]. apply longest_S in H as (Hc & _).
    exists c, s. auto.
  Qed.

  Lemma starts_by_dec (P : char -> bool) s : starts_by P s \/ ~ starts_by P s.
  Proof.
    destruct s as [|c s]; [right; intros (? & ? & ? & _); discriminate|]. destruct (P c) eqn:Ep.
    - left. exists c, s. auto.
    - right. intros (c' & s' & He & Hc). injection He as <- <-. congruence.
  Qed.

  Lemma longest_none_of (P : char -> Prop) (Q : char -> bool) s : (forall c, P c -> Q c = true) -> ~ starts_by Q s -> longest P s 0.
  Proof.
    intros H Hs. destruct s as [|c s]; [apply longest_nil; reflexivity|]. apply longest_0. intros Hc. apply Hs. exists c, s. auto.
  Qed.

  Lemma begins_yes P r : begins E refs P r -> forall ind p s n out ind' tr,
    reads E refs r ind p s (Yes n out) ind' tr -> starts_by P s.
  Proof.
    induction 1; intros ind p s n out ind' tr Hr; inversion Hr; subst.
    - eapply longest_starts; [exact H|eassumption|]. match goal with HH : _ \/ _ |- _ => destruct HH; [discriminate|assumption] end.
    - match goal with HH : starts_with _ _ |- _ => destruct HH as (u & ->) end. eexists _, _. split; [reflexivity|assumption].
    - eapply longest_starts; [exact H|eassumption|]. match goal with HH : _ \/ _ |- _ => destruct HH; [discriminate|assumption] end.
    - eapply longest_starts; [|eassumption|]; [cbv beta; intros ? [? ?]; auto|]. match goal with HH : _ \/ _ |- _ => destruct HH; [discriminate|assumption] end.
    - match goal with HH : x_string _ _ = _ |- _ => apply (x_string_bounds E HE) in HH as (_ & HH); destruct s as [|c s]; [discriminate|injection HH as ->] end.
      eexists _, _. split; [reflexivity|assumption].
    - eauto.
    - match goal with HH : reads_seq _ _ _ _ _ _ _ _ _ |- _ => inversion HH; subst end. eauto.
    - match goal with HH : reads_first _ _ _ _ _ _ _ _ _ |- _ => remember (Yes n out) as v eqn:Ev; clear Hr H3; induction HH end; try discriminate.
      + injection Ev as -> ->. eapply H0; [left; reflexivity|eassumption].
      + eapply IHreads_first; [intros; apply H; right; assumption|intros; eapply H0; [right; eassumption|eassumption]|exact Ev].
    - match goal with HH : reads_many _ _ _ _ _ _ _ _ _ _ _ |- _ => inversion HH; subst end; [match goal with HH : _ \/ 0 < 0 |- _ => destruct HH; [discriminate|lia] end|].
      eauto.
    - eauto.
    - match goal with H1 : nth_error refs i = Some r, H2 : nth_error refs i = Some ?r2 |- _ => rewrite H1 in H2; injection H2 as <- end. eauto.
  Qed.

  Lemma begins_no P r : begins E refs P r -> forall ind p s, ~ starts_by P s -> exists tr, reads E refs r ind p s No ind tr.
  Proof.
    induction 1; intros ind p s Hs.
    - eexists. constructor. eapply longest_none_of; [exact H|exact Hs].
    - eexists. constructor. intros (u & ->). apply Hs. eexists _, _. split; [reflexivity|assumption].
    - eexists. constructor. eapply longest_none_of; [exact H|exact Hs].
    - eexists. constructor. eapply (longest_none_of _ P); [|exact Hs]. cbv beta. intros ? [? ?]. auto.
    - eexists. apply reads_text_none. destruct (x_string E s) as [n|] eqn:Ex; [|reflexivity]. exfalso.
      apply (x_string_bounds E HE) in Ex as (_ & Ex). destruct s as [|c s]; [discriminate|injection Ex as ->]. apply Hs. eexists _, _. split; [reflexivity|assumption].
    - eexists. apply reads_number_none. destruct (x_number E underscore s) as [n|] eqn:Ex; [|reflexivity]. exfalso. eauto.
    - destruct (IHbegins ind p s Hs) as (tr & Hr). eexists. constructor. apply reads_seq_no. exact Hr.
    - assert (HH : exists tr, reads_first E refs args ind p s No ind tr).
      { clear H. induction args as [|a args IH]; [eexists; constructor|].
        destruct (H0 a (or_introl eq_refl) ind p s Hs) as (tr1 & H1). destruct IH as (tr2 & H2); [intros; apply H0; [right|]; assumption|].
        eexists. eapply reads_first_next; eassumption. }
      destruct HH as (tr & HH). destruct args as [|a args]; [eexists; apply reads_select_empty|]. eexists. apply reads_select; [discriminate|exact HH].
    - destruct (IHbegins ind p s Hs) as (tr & Hr). eexists. apply reads_repeat_no. exact Hr.
    - destruct (IHbegins ind p s Hs) as (tr & Hr). eexists. apply (reads_separate_none E refs r by_ false trail id). exact Hr.
    - destruct (IHbegins ind p s Hs) as (tr & Hr). eexists. eapply reads_node_no; eassumption.
  Qed.
End Begins.

Section Reordered.
  Variable E : ext.
  Hypothesis HE : ext_ok E.
  Variables refs refs' : list rule.
  Hypothesis Hrefs : Forall2 (reordered E refs) refs refs'.

  Lemma all_same l : reordered_all E refs l l.
  Proof. induction l; constructor; [constructor|assumption]. Qed.

  Lemma swapped_same l : swapped E refs l l.
  Proof. induction l; constructor; [constructor|auto]. Qed.

  Lemma select_inv_o args id r' : reordered E refs (RSelect args id) r' -> exists args', r' = RSelect args' id /\ swapped E refs args args'.
  Proof. intros H. inversion H; subst; eexists; split; try reflexivity; [apply swapped_same|assumption]. Qed.

  Lemma sequence_inv_o args id r' : reordered E refs (RSequence args id) r' -> exists args', r' = RSequence args' id /\ reordered_all E refs args args'.
  Proof. intros H. inversion H; subst; eexists; split; try reflexivity; [apply all_same|assumption]. Qed.

  Lemma repeat_inv_o r o id r' : reordered E refs (RRepeat r o id) r' -> exists x, r' = RRepeat x o id /\ reordered E refs r x.
  Proof. intros H. inversion H; subst; eexists; split; try reflexivity; [constructor|assumption]. Qed.

  Lemma separate_inv_o r b o t id r' : reordered E refs (RSeparateBy r b o t id) r' ->
    exists x y, r' = RSeparateBy x y o t id /\ reordered E refs r x /\ reordered E refs b y.
  Proof. intros H. inversion H; subst; eexists _, _; (split; [reflexivity|]); (split; [first [assumption|constructor]|first [assumption|constructor]]). Qed.

  Lemma lines_inv_o r o id r' : reordered E refs (RLines r o id) r' -> exists x, r' = RLines x o id /\ reordered E refs r x.
  Proof. intros H. inversion H; subst; eexists; split; try reflexivity; [constructor|assumption]. Qed.

  Lemma optional_inv_o r id r' : reordered E refs (ROptional r id) r' -> exists x, r' = ROptional x id /\ reordered E refs r x.
  Proof. intros H. inversion H; subst; eexists; split; try reflexivity; [constructor|assumption]. Qed.

  Lemma not_inv_o r id r' : reordered E refs (RNot r id) r' -> exists x, r' = RNot x id /\ reordered E refs r x.
  Proof. intros H. inversion H; subst; eexists; split; try reflexivity; [constructor|assumption]. Qed.

  Lemma swapped_in l l' : swapped E refs l l' -> forall r', In r' l' -> exists r, In r l /\ reordered E refs r r'.
  Proof.
    induction 1; intros x Hx; [contradiction| |].
    - destruct Hx as [<-|Hx]; [exists r; split; [left; reflexivity|assumption]|]. destruct (IHswapped _ Hx) as (y & ? & ?). exists y. split; [right|]; assumption.
    - destruct Hx as [<-|[<-|Hx]]; [exists b; split; [right; left; reflexivity|assumption]|exists a; split; [left; reflexivity|assumption]|].
      destruct (IHswapped _ Hx) as (y & ? & ?). exists y. split; [right; right|]; assumption.
  Qed.

  Lemma begins_kept P r : begins E refs P r -> forall r', reordered E refs r r' -> begins E refs' P r'.
  Proof.
    induction 1; intros r' Hr; try (inversion Hr; subst; constructor; assumption).
    - apply sequence_inv_o in Hr as (args' & -> & Ht). inversion Ht; subst. constructor. auto.
    - apply select_inv_o in Hr as (args' & -> & Ht). constructor. intros x Hx. destruct (swapped_in _ _ Ht x Hx) as (y & Hy & Hyx). eauto.
    - apply repeat_inv_o in Hr as (x & -> & Ht). constructor. auto.
    - apply separate_inv_o in Hr as (x & y & -> & Ht & _). constructor. auto.
    - inversion Hr; subst. destruct (Forall2_nth_l _ _ _ Hrefs _ _ H) as (r0 & Hr0 & Ht). econstructor; [exact Hr0|]. auto.
  Qed.

  Lemma reorder_reads :
    (forall r ind p s v ind' tr, reads E refs r ind p s v ind' tr ->
      forall r', reordered E refs r r' -> exists tr', reads E refs' r' ind p s v ind' tr') /\
    (forall args ind p s v ind' tr, reads_seq E refs args ind p s v ind' tr ->
      forall args', reordered_all E refs args args' -> exists tr', reads_seq E refs' args' ind p s v ind' tr') /\
    (forall args ind p s v ind' tr, reads_first E refs args ind p s v ind' tr ->
      (forall args', swapped E refs args args' -> exists tr', reads_first E refs' args' ind p s v ind' tr') /\
      forall r rest, args = r :: rest -> forall r' rest', reordered E refs r r' -> swapped E refs rest rest' ->
        exists tr', reads_first E refs' (r' :: rest') ind p s v ind' tr') /\
    (forall r ind p s k n out ind' tr, reads_many E refs r ind p s k n out ind' tr ->
      forall r', reordered E refs r r' -> exists tr', reads_many E refs' r' ind p s k n out ind' tr') /\
    (forall r by_ trail ind p s v ind' tr, reads_more E refs r by_ trail ind p s v ind' tr ->
      forall r' by_', reordered E refs r r' -> reordered E refs by_ by_' -> exists tr', reads_more E refs' r' by_' trail ind p s v ind' tr') /\
    (forall r indented id fresh nl ind p s v ind' tr,
      reads_lines E refs r indented id fresh nl ind p s v ind' tr ->
      forall r', reordered E refs r r' -> exists tr', reads_lines E refs' r' indented id fresh nl ind p s v ind' tr') /\
    (forall r indented fresh ind p s v fresh' ind' tr,
      reads_line E refs r indented fresh ind p s v fresh' ind' tr ->
      forall r', reordered E refs r r' -> exists tr', reads_line E refs' r' indented fresh ind p s v fresh' ind' tr').
  Proof.
    Ltac ih := repeat (match goal with
      | H : forall r', reordered _ _ ?x r' -> exists _, _, Ht : reordered _ _ ?x ?y |- _ =>
          let tr := fresh "tr" in let Hr := fresh "Hr" in
          assert (Hr := H _ Ht); clear H; destruct Hr as (tr & Hr) end).
    Ltac ihs := repeat (match goal with
      | H : forall r', reordered _ _ ?x r' -> exists _, _ |- _ =>
          let tr := fresh "tr" in let Hr := fresh "Hr" in
          assert (Hr := H _ (order_same _ _ _)); clear H; destruct Hr as (tr & Hr) end).
    apply reads_mutind; intros.
    all: try (match goal with H : reordered _ _ _ ?x |- exists _, reads _ _ ?x _ _ _ _ _ _ =>
      first [ apply select_inv_o in H as (?args' & -> & ?Ht) | apply sequence_inv_o in H as (?args' & -> & ?Ht)
      | apply repeat_inv_o in H as (?x' & -> & ?Ht) | apply separate_inv_o in H as (?x' & ?y' & -> & ?Ht & ?Ht')
      | apply lines_inv_o in H as (?x' & -> & ?Ht) | apply optional_inv_o in H as (?x' & -> & ?Ht) | apply not_inv_o in H as (?x' & -> & ?Ht)
      | inversion H; subst; clear H ] end).
    all: try (eexists; econstructor; eassumption).
    all: try (ih; eexists; econstructor; eassumption).
    - destruct (H0 _ Ht) as (tr' & Hr). eexists. constructor. exact Hr.
    - destruct (proj1 H1 _ Ht) as (tr' & Hr). eexists. constructor; [|exact Hr]. inversion Ht; subst; [contradiction|discriminate|discriminate].
    - inversion Ht; subst. eexists. apply reads_select_empty.
    - ihs. eexists. constructor; eassumption.
    - ihs. eexists. econstructor; eassumption.
    - ihs. eexists. econstructor; eassumption.
    - ihs. eexists. eapply reads_fast_then_tail; eassumption.
    - ih. destruct (H2 _ _ Ht Ht') as (tr' & Hr'). eexists. econstructor; eassumption.
    - destruct (Forall2_nth_l _ _ _ Hrefs _ _ H) as (r0 & Hr0 & Ht). ih. eexists. eapply reads_node; eassumption.
    - destruct (Forall2_nth_l _ _ _ Hrefs _ _ H) as (r0 & Hr0 & Ht). ih. eexists. eapply reads_node_no; eassumption.
    - inversion H; subst. eexists. constructor.
    - inversion H1; subst. ih. eexists. apply reads_seq_no; eassumption.
    - inversion H3; subst. ih. destruct (H2 _ ltac:(eassumption)) as (tr' & Hr'). eexists. eapply reads_seq_cons; eassumption.
    - split; [|discriminate]. intros args' Hs. inversion Hs; subst. eexists. constructor.
    - (* the first alternative succeeds *)
      assert (Hk : forall r0 rest0, r :: rest = r0 :: rest0 -> forall r' rest', reordered E refs r0 r' -> swapped E refs rest0 rest' ->
        exists tr', reads_first E refs' (r' :: rest') ind p s (Yes n out) ind' tr').
      { intros r0 rest0 He r' rest' Hr' _. injection He as <- <-. ih. eexists. apply reads_first_yes; eassumption. }
      split; [|exact Hk]. intros args' Hs. inversion Hs; subst; [eapply Hk; [reflexivity|eassumption|eassumption]|].
      match goal with HH : apart _ _ _ _ |- _ => destruct HH as (P & Q & HP & HQ & Hd) end.
      pose proof (begins_yes E HE refs P r HP _ _ _ _ _ _ _ H) as (c & s0 & -> & Hc).
      eapply begins_kept in HQ; [|eassumption].
      destruct (begins_no E HE refs' Q b' HQ ind p (c :: s0)) as (trb & Hb); [intros (c1 & s1 & Ec & Hc1); injection Ec as <- <-; eauto|].
      ih. eexists. eapply reads_first_next; [exact Hb|]. apply reads_first_yes. eassumption.
    - (* it fails *)
      assert (Hk : forall r0 rest0, r :: rest = r0 :: rest0 -> forall r' rest', reordered E refs r0 r' -> swapped E refs rest0 rest' ->
        exists tr', reads_first E refs' (r' :: rest') ind p s v ind2 tr').
      { intros r0 rest0 He r' rest' Hr' Hs. injection He as <- <-. ih. destruct (proj1 H2 _ Hs) as (tr' & Ht'). eexists. eapply reads_first_next; eassumption. }
      split; [|exact Hk]. intros args' Hs. inversion Hs; subst; [eapply Hk; [reflexivity|eassumption|eassumption]|].
      match goal with HH : apart _ _ _ _ |- _ => destruct HH as (P & Q & HP & HQ & Hd) end.
      eapply begins_kept in HQ as HQ'; [|eassumption]. eapply begins_kept in HP as HP'; [|eassumption].
      destruct (starts_by_dec P s) as [Hp|Hp].
      + assert (Hq : ~ starts_by Q s).
        { intros (c & s0 & -> & Hc). destruct Hp as (c1 & s1 & Ec & Hc1). injection Ec as <- <-. eauto. }
        destruct (begins_no E HE refs' Q b' HQ' ind1 p s Hq) as (trb & Hb). destruct (begins_no E HE refs' Q b' HQ' ind p s Hq) as (trb' & Hb').
        destruct (proj2 H2 b rest0 eq_refl b' rest' H7 H9) as (tr' & Ht). ih.
        inversion Ht; subst; match goal with H3 : reads _ _ b' _ _ _ ?v1 _ _ |- _ =>
          assert (Hx := reads_deterministic _ _ _ _ _ _ _ _ _ _ _ _ Hb H3); destruct Hx as (Hv & Hi & _); try discriminate; subst end.
        eexists. eapply reads_first_next; [exact Hb'|]. eapply reads_first_next; eassumption.
      + destruct (begins_no E HE refs P r HP ind p s Hp) as (tra & Ha). destruct (reads_deterministic _ _ _ _ _ _ _ _ _ _ _ _ H Ha) as (_ & -> & _).
        destruct (proj2 H2 b rest0 eq_refl b' rest' H7 H9) as (tr' & Ht).
        inversion Ht; subst; [eexists; apply reads_first_yes; eassumption|].
        match goal with H3 : reads _ _ b' _ _ _ No ?i _ |- _ => destruct (begins_no E HE refs' P a' HP' i p s Hp) as (tra' & Ha') end.
        eexists. eapply reads_first_next; [eassumption|]. eapply reads_first_next; eassumption.
    - ih. destruct (H4 _ _ ltac:(eassumption) ltac:(eassumption)) as (tr' & Hr'). eexists. eapply reads_more_item; eassumption.
  Qed.
End Reordered.

Section Back.
  Variable E : ext.
  Variables refs refs' : list rule.
  Hypothesis Hrefs : Forall2 (reordered E refs) refs refs'.

  Lemma reordered_back :
    (forall r r', reordered E refs r r' -> reordered E refs' r' r) /\
    (forall l l', reordered_all E refs l l' -> reordered_all E refs' l' l) /\
    (forall l l', swapped E refs l l' -> swapped E refs' l' l).
  Proof.
    apply reordered_mutind; intros; try (constructor; assumption).
    apply swap_two; try assumption. destruct H as (P & Q & HP & HQ & Hd). exists Q, P.
    split; [eapply begins_kept; eassumption|]. split; [eapply begins_kept; eassumption|]. eauto.
  Qed.

  Lemma rules_back : Forall2 (reordered E refs') refs' refs.
  Proof. apply (Forall2_flip (reordered E refs)); [|exact Hrefs]. intros x y. apply (proj1 reordered_back). Qed.
End Back.

Section Syntaxes.
  Variable E : ext.
  Hypothesis HE : ext_ok E.
  Variables s s' : syntax.
  Hypothesis Ht : Forall2 (reordered E (s_rules s)) (s_rules s) (s_rules s').

  Lemma order_start r : start_rule s r -> exists r', start_rule s' r' /\ reordered E (s_rules s) r r'.
  Proof.
    intros (l & Hl). pose proof Ht as HF. rewrite Hl in HF at 2.
    apply Forall2_app_inv_l in HF as (l1 & l2 & _ & H2 & H3). inversion H2; subst. match goal with H : Forall2 _ [] _ |- _ => inversion H; subst end.
    eexists. split; [exists l1; exact H3|assumption].
  Qed.

  Lemma order_accepts ind text out : accepts E s ind text out -> accepts E s' ind text out.
  Proof.
    intros [r o ind' tr Hr H]. destruct (order_start r Hr) as (r' & Hr' & Htr).
    destruct (proj1 (reorder_reads E HE _ (s_rules s') Ht) _ _ _ _ _ _ _ H r' Htr) as (tr' & H').
    econstructor; eassumption.
  Qed.

  Lemma order_rejects ind text tr : rejects E s ind text tr -> exists tr', rejects E s' ind text tr'.
  Proof.
    intros [H0|r ind' tr1 Hr H|r n out ind' tr1 Hr H Hn].
    - exists [(Rng 0 0, NoRules)]. constructor. pose proof Ht as HF. rewrite H0 in HF. inversion HF. reflexivity.
    - destruct (order_start r Hr) as (r' & Hr' & Htr).
      destruct (proj1 (reorder_reads E HE _ (s_rules s') Ht) _ _ _ _ _ _ _ H r' Htr) as (tr' & H').
      eexists. eapply rejects_fail; eassumption.
    - destruct (order_start r Hr) as (r' & Hr' & Htr).
      destruct (proj1 (reorder_reads E HE _ (s_rules s') Ht) _ _ _ _ _ _ _ H r' Htr) as (tr' & H').
      eexists. eapply rejects_early; eassumption.
  Qed.

  Lemma order_parse_to text tokens ind :
    (forall tokens', parse_returns E s text tokens ind None tokens' -> parse_returns E s' text tokens ind None tokens') /\
    ((exists e tokens', parse_returns E s text tokens ind (Some e) tokens') ->
       exists e tokens', parse_returns E s' text tokens ind (Some e) tokens').
  Proof.
    split.
    - intros tokens' H. apply parse_accepts in H as (out & Ha & ->); [|exact HE]. apply parse_accepts; [exact HE|].
      exists out. split; [apply order_accepts, Ha|reflexivity].
    - intros (e & tk & H). apply error_is_newest_deepest in H as [(tr & Hrej) Hn].
      destruct (order_rejects _ _ _ Hrej) as (tr' & Hrej'). destruct (rejects_parse E HE s' ind text tokens tr' Hrej') as (e1 & tk1 & H1).
      exists e1, tk1. exact H1.
  Qed.
End Syntaxes.

Lemma order_parse E : ext_ok E -> forall s s', reordered_syntax E s s' -> forall text tokens ind,
  (forall tokens', parse_returns E s text tokens ind None tokens' <-> parse_returns E s' text tokens ind None tokens') /\
  ((exists e tokens', parse_returns E s text tokens ind (Some e) tokens') <->
     exists e tokens', parse_returns E s' text tokens ind (Some e) tokens').
Proof.
  intros HE s s' H text tokens ind. induction H as [s|s s1 s' H1 _ [IH1 IH2]]; [split; [intros tokens'|]; reflexivity|].
  destruct (order_parse_to E HE s s1 H1 text tokens ind) as [Ha Hb].
  destruct (order_parse_to E HE s1 s (rules_back _ _ _ H1) text tokens ind) as [Hc Hd].
  split; [intros tokens'; rewrite <- IH1|rewrite <- IH2]; split; auto.
Qed.

Lemma order_runs E : ext_ok E -> forall s s', Forall2 (reordered E (s_rules s)) (s_rules s) (s_rules s') ->
  forall r r', reordered E (s_rules s) r r' -> forall ind p t v ind',
  runs E (s_rules s) r ind p t v ind' <-> runs E (s_rules s') r' ind p t v ind'.
Proof.
  intros HE s s' Hs r r' Hr ind p t v ind'. rewrite !runs_reads. split; intros (tr & H).
  - exact (proj1 (reorder_reads E HE _ _ Hs) _ _ _ _ _ _ _ H _ Hr).
  - exact (proj1 (reorder_reads E HE _ _ (rules_back _ _ _ Hs)) _ _ _ _ _ _ _ H _ (proj1 (reordered_back _ _ _ Hs) _ _ Hr)).
Qed.

Local Open Scope string_scope.
Local Open Scope list_scope.

(** How numbers start. *)
Definition number_start (c : char) : bool := is_digit c || (c =? 43)%N || (c =? 45)%N || (c =? 46)%N.

Lemma std_number_starts u s n : x_number std_ext u s = Some n -> starts_by number_start s.
Proof.
  cbn [x_number std_ext]. unfold std_number. destruct s as [|c s]; [discriminate|]. cbn [std_number_go]. intros H.
  exists c, s. split; [reflexivity|]. unfold number_start.
  destruct (is_digit c); [reflexivity|]. destruct (c =? 43)%N; [reflexivity|]. destruct (c =? 45)%N; [reflexivity|]. destruct (c =? 46)%N; [reflexivity|].
  rewrite !andb_false_r in H. cbn in H. discriminate.
Qed.

(** [list = ["[" .s?(",", value:"item") "]"]  value = {.$:"num" .t?:"text" ["x" .l+(list)] list}], and in another order. *)
Definition order_list : rule := RSequence [RTag (tx "[") false false None 1%N;
  RSeparateBy (RNode (tx "value") (Some (tx "item")) (Some 1) 2%N) (RTag (tx ",") false false None 3%N) true false 4%N; RTag (tx "]") false false None 5%N] 6%N.
Definition order_num : rule := RNumber false (Some (tx "num")) 7%N.
Definition order_text : rule := RText true (Some (tx "text")) 8%N.
Definition order_block : rule := RSequence [RTag (tx "x") false false None 9%N; RLines (RNode (tx "list") None (Some 0) 10%N) true 11%N] 12%N.
Definition order_ref : rule := RNode (tx "list") None (Some 0) 13%N.
Definition order_one : syntax := Syn [order_list; RSelect [order_num; order_text; order_block; order_ref] 14%N] [tx "list"; tx "value"].
Definition order_two : syntax := Syn [order_list; RSelect [order_text; order_ref; order_num; order_block] 14%N] [tx "list"; tx "value"].

Definition is_char (d c : char) : bool := (c =? d)%N.
Lemma is_char_eq d c : is_char d c = true -> c = d.
Proof. apply N.eqb_eq. Qed.

Lemma order_num_begins refs : begins std_ext refs number_start order_num.
Proof. apply begins_number. apply std_number_starts. Qed.
Lemma order_text_begins refs : begins std_ext refs (is_char quote) order_text.
Proof. apply begins_text. reflexivity. Qed.
Lemma order_block_begins refs : begins std_ext refs (is_char 120%N) order_block.
Proof. apply begins_sequence, begins_tag. reflexivity. Qed.
Lemma order_ref_begins rest : begins std_ext (order_list :: rest) (is_char 91%N) order_ref.
Proof. eapply begins_node; [reflexivity|]. apply begins_sequence, begins_tag. reflexivity. Qed.

Ltac apart_by H1 H2 := eexists _, _; split; [apply H1|]; split; [apply H2|]; intros c Ha Hb;
  repeat (match goal with H : is_char _ _ = true |- _ => apply is_char_eq in H; subst end); discriminate.

Lemma order_reordered : reordered_syntax std_ext order_one order_two.
Proof.
  eapply (reorder_step _ _ (Syn [order_list; RSelect [order_text; order_num; order_ref; order_block] 14%N] [tx "list"; tx "value"])).
  { constructor; [constructor|]. constructor; [|constructor]. apply order_select.
    apply swap_two; [apart_by order_num_begins order_text_begins|constructor|constructor|].
    apply swap_two; [apart_by order_block_begins order_ref_begins|constructor|constructor|]. constructor. }
  eapply (reorder_step _ _ order_two); [|constructor].
  constructor; [constructor|]. constructor; [|constructor]. apply order_select.
  apply swap_keep; [constructor|]. apply swap_two; [apart_by order_num_begins order_ref_begins|constructor|constructor|].
  apply swap_keep; [constructor|]. constructor.
Qed.

Lemma order_error_refuted : exists s s', reordered_syntax std_ext s s' /\ exists text e e' tokens tokens',
  parse_returns std_ext s text [] indent_default (Some e) tokens /\
  parse_returns std_ext s' text [] indent_default (Some e') tokens' /\ e <> e'.
Proof.
  exists (Syn [RSelect [RTag (tx "a") false false None 1%N; RTag (tx "b") false false None 2%N] 3%N] [tx "doc"]),
    (Syn [RSelect [RTag (tx "b") false false None 2%N; RTag (tx "a") false false None 1%N] 3%N] [tx "doc"]).
  split.
  - eapply reorder_step; [|constructor]. constructor; [|constructor]. apply order_select. apply swap_two; [|constructor|constructor|constructor].
    exists (is_char 97%N), (is_char 98%N). split; [apply begins_tag; reflexivity|]. split; [apply begins_tag; reflexivity|].
    intros c Ha Hb. apply is_char_eq in Ha. subst. discriminate.
  - exists (tx "x"). eexists _, _, _, _. split; [exists 20; reflexivity|]. split; [exists 20; reflexivity|]. discriminate.
Qed.
