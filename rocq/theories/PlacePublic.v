(** C76 and C82 with ranges: the order of the alternatives, and from the text of a syntax to the data. *)
From Coq Require Import Ascii String List NArith Bool Arith Lia.
From Verif Require Import Base Ext Types ParseModel OptimizeModel ConvertModel PegSpec DataSpec ApiSpec OptSpec ExtProofs PegFacts ParseProofs
  ParsePublic OptPublic TotalSpec TotalProofs TotalCheck ShapeSpec GrammarSpec GrammarProofs GrammarPublic AtEnd PlaceSpec PlaceProofs
  HandlerModel LibModel LoadModel RuleSpec IdSpec SyntaxSpec LoadSpec SurfaceSpec MeaningSpec MeaningProofs PipeProofs OptTotal PipePublic.
Import ListNotations.
Local Open Scope list_scope.
Local Open Scope nat_scope.

Section Order.
  Variable E : ext.
  Variables refs refs' : list rule.
  Hypothesis Hrefs : Forall2 reordered refs refs'.

  Lemma places_reordered :
    (forall r p x ts, places E refs r p x ts -> forall r', reordered r r' -> places E refs' r' p x ts) /\
    (forall args p x ts, places_all E refs args p x ts -> forall args', Forall2 reordered args args' -> places_all E refs' args' p x ts) /\
    (forall r k p x ts, places_times E refs r k p x ts -> forall r', reordered r r' -> places_times E refs' r' k p x ts) /\
    (forall r by_ trail p x ts, places_more E refs r by_ trail p x ts -> forall r' by_', reordered r r' -> reordered by_ by_' ->
       places_more E refs' r' by_' trail p x ts).
  Proof.
    apply places_mutind; intros;
      repeat match goal with G : reordered (_ _) _ |- _ => inversion G; subst; clear G
        | G : Forall2 _ (_ :: _) _ |- _ => inversion G; subst; clear G | G : Forall2 _ [] _ |- _ => inversion G; subst; clear G end;
      try discriminate; try (econstructor; eauto; fail).
    - cbn in *. subst. match goal with G : places_all _ _ [] _ _ _ |- _ => inversion G; subst end. apply at_sequence. apply at_all_nil.
    - cbn in *. subst. match goal with G : In _ [] |- _ => destruct G end.
    - match goal with G : Forall2 _ _ _, G' : forall r, In r _ <-> _, G'' : In _ _ |- _ =>
        destruct (forall2_in _ _ _ _ G G'') as (q & Hq & Hr); apply G' in Hq end. eapply at_select; eauto.
    - cbn in *. subst. match goal with G : In _ [] |- _ => destruct G end.
    - match goal with G : nth_error refs _ = Some _ |- _ => destruct (forall2_nth _ _ Hrefs _ _ G) as (q & Hq & Hr) end. eapply at_node; eauto.
  Qed.

  Lemma reordered_places :
    (forall r p x ts, places E refs' r p x ts -> forall r', reordered r' r -> places E refs r' p x ts) /\
    (forall args p x ts, places_all E refs' args p x ts -> forall args', Forall2 reordered args' args -> places_all E refs args' p x ts) /\
    (forall r k p x ts, places_times E refs' r k p x ts -> forall r', reordered r' r -> places_times E refs r' k p x ts) /\
    (forall r by_ trail p x ts, places_more E refs' r by_ trail p x ts -> forall r' by_', reordered r' r -> reordered by_' by_ ->
       places_more E refs r' by_' trail p x ts).
  Proof.
    apply places_mutind; intros;
      repeat match goal with G : reordered _ (_ _) |- _ => inversion G; subst; clear G
        | G : Forall2 _ _ (_ :: _) |- _ => inversion G; subst; clear G | G : Forall2 _ _ [] |- _ => inversion G; subst; clear G end;
      try discriminate; try (econstructor; eauto; fail).
    - cbn in *. subst. match goal with G : places_all _ _ [] _ _ _ |- _ => inversion G; subst end. apply at_sequence. apply at_all_nil.
    - cbn in *. subst. match goal with G : In _ [] |- _ => destruct G end.
    - match goal with G : Forall2 _ _ _, G' : forall r, In r _ <-> _, G'' : In _ _ |- _ =>
        apply G' in G''; destruct (forall2_in' _ _ _ _ G G'') as (q & Hq & Hr) end. eapply at_select; eauto.
    - cbn in *. subst. match goal with G : In _ [] |- _ => destruct G end.
    - match goal with G : nth_error refs' _ = Some _ |- _ => destruct (forall2_nth' _ _ Hrefs _ _ G) as (q & Hq & Hr) end. eapply at_node; eauto.
  Qed.
End Order.

Lemma no_rules E s text tokens ind new : ext_ok E -> s_rules s = [] -> ~ parse_returns E s text tokens ind None new.
Proof.
  intros HE Hx Hp. apply (parse_accepts E HE) in Hp. destruct Hp as (out & Ha & _). destruct Ha as [q out ind' tr [l Hq] _].
  rewrite Hx in Hq. destruct l; discriminate.
Qed.

Theorem clear_reordered_places E : ext_ok E -> strings_end E -> forall s s', reordered_syntax s s' ->
  valid s -> well_formed s -> clear E s -> valid s' -> well_formed s' -> clear E s' ->
  forall text ind, columns_fit ind text -> forall tokens tokens',
  parse_returns E s text tokens ind None tokens' <-> parse_returns E s' text tokens ind None tokens'.
Proof.
  intros HE Hs s s' Hre Hv Hw Hc Hv' Hw' Hc' text ind Hf tokens tokens'.
  assert (Hdec : s_rules s = [] \/ exists r, start_rule s r).
  { destruct (s_rules s) as [|a l] eqn:Hx using rev_ind; [left; reflexivity|right]. exists a, l. exact Hx. }
  destruct Hdec as [Hn|[r Hr]].
  - assert (Hn' : s_rules s' = []) by (unfold reordered_syntax in Hre; rewrite Hn in Hre; inversion Hre; reflexivity).
    split; intros H; [destruct (no_rules E s _ _ _ _ HE Hn H)|destruct (no_rules E s' _ _ _ _ HE Hn' H)].
  - destruct (reordered_start _ _ _ Hre Hr) as (r' & Hr' & Hrr).
    split; intros H; pose proof (proj1 (parse_accepts E HE _ _ _ _ _) H) as (new & _ & ->).
    + apply (clear_placed E HE Hs s' Hv' Hw' Hc' r' Hr' text ind Hf tokens new).
      apply (clear_placed E HE Hs s Hv Hw Hc r Hr text ind Hf tokens new) in H.
      eapply (proj1 (places_reordered E _ _ Hre)); eassumption.
    + apply (clear_placed E HE Hs s Hv Hw Hc r Hr text ind Hf tokens new).
      apply (clear_placed E HE Hs s' Hv' Hw' Hc' r' Hr' text ind Hf tokens new) in H.
      eapply (proj1 (reordered_places E _ _ Hre)); eassumption.
Qed.

(** ** From the text of a syntax to the data *)

Theorem pipe_places E : ext_ok E -> whole_readers E ->
  forall strings nodes text rules rules', means E strings nodes text -> Forall real_char text ->
  Forall (fun n => MeaningSpec.within text (snd (fst n))) nodes -> map snd nodes = map Some rules ->
  Forall2 (resolved (map (fun n => fst (fst n)) nodes)) rules rules' ->
  let s := Syn rules' (map (fun n => fst (fst n)) nodes) in
  strings_end E -> valid s -> tags_real s -> well_formed s -> clear E s -> tails_fail_at_end E s ->
  forall r, start_rule s r -> forall data, columns_fit indent_default data ->
  (forall tokens, loads E (Some text) (Some data) (Returned tokens) <-> places E (s_rules s) r 0 data tokens) /\
  ((forall tokens, ~ places E (s_rules s) r 0 data tokens) <-> exists w, loads E (Some text) (Some data) (Aborted w)).
Proof.
  intros HE HW strings nodes text rules rules' Hm Hreal Hin Hn Hres s Hstr Hv Htags Hw Hc Ht r Hr data Hfit.
  destruct (pipe_grammar E HE HW strings nodes text rules rules' Hm Hreal Hin Hn Hres Hstr Hv Htags Hw Hc Ht r Hr data Hfit) as [Hg Ha].
  destruct (optimizes s Hv Htags (proj2 (proj2 Hw))) as (o & Ho).
  destruct (pipe_meant E HE HW strings nodes text rules rules' Hm Hreal Hin Hn Hres o Ho Ht data (proj1 Hfit)) as (H1 & _ & _).
  assert (Hp : forall tokens, loads E (Some text) (Some data) (Returned tokens) <-> places E (s_rules s) r 0 data tokens).
  { intros tokens. rewrite (H1 tokens), <- (clear_placed E HE Hstr s Hv Hw Hc r Hr data indent_default Hfit [] tokens).
    rewrite (parse_accepts E HE). split; [intros H; exists tokens; auto|]. intros (out & H & Hout). cbn [app] in Hout. subst out. exact H. }
  split; [exact Hp|]. rewrite <- Ha. split.
  - intros H ms Hms. apply Hg in Hms as (tokens & Hl & _). apply (H tokens), Hp, Hl.
  - intros H tokens Hx. apply (H (map snd tokens)), Hg. exists tokens. split; [apply Hp, Hx|reflexivity].
Qed.

Lemma one_placing E : ext_ok E -> strings_end E -> forall s, valid s -> well_formed s -> clear E s ->
  forall r, start_rule s r -> forall text, columns_fit indent_default text -> forall ts ts',
  places E (s_rules s) r 0 text ts -> places E (s_rules s) r 0 text ts' -> ts = ts'.
Proof.
  intros HE Hs s Hv Hw Hc r Hr text Hf ts ts' H H'.
  apply (clear_placed E HE Hs s Hv Hw Hc r Hr text indent_default Hf []) in H.
  apply (clear_placed E HE Hs s Hv Hw Hc r Hr text indent_default Hf []) in H'.
  exact (proj2 (parse_returns_unique _ _ _ _ _ _ _ _ _ H H')).
Qed.
