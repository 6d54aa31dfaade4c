(** C79 with ranges: extended syntaxes generate the same data at the same places. *)
From Coq Require Import Ascii String List NArith Bool Arith Lia.
From Verif Require Import Base Ext Types ParseModel OptimizeModel PegSpec DataSpec ApiSpec OptSpec ExtProofs PegFacts ParseProofs
  ParsePublic OptPublic TotalSpec TotalProofs TotalCheck ShapeSpec GrammarSpec GrammarProofs GrammarPublic AtEnd ExtendSpec ExtendProofs PlaceSpec PlaceProofs.
Import ListNotations.
Local Open Scope list_scope.
Local Open Scope nat_scope.

Section Extended.
  Variable E : ext.
  Variables refs refs' : list rule.
  Variable place : nat -> nat.
  Hypothesis Hrefs : forall i r, nth_error refs i = Some r -> exists r', nth_error refs' (place i) = Some r' /\ extends place r r'.
  Notation gen := (places E refs').

  Lemma placed_by_kind r p x ts : (forall r', loosens place r r' -> gen r' p x ts) -> forall r', extends place r r' -> gen r' p x ts.
  Proof.
    intros H r' Hr. revert H. induction Hr as [r r' Hk|r r' args id _ IH Hin|r r' id _ IH|r r' o id _ IH|r r' by_ o trail id _ IH]; intros H.
    - apply H. exact Hk.
    - eapply at_select; [exact Hin|]. apply IH. exact H.
    - apply at_optional. apply IH. exact H.
    - rewrite <- (app_nil_r x), <- (app_nil_r ts). eapply at_repeat with (k := 1); [|right; lia].
      apply at_times_S; [apply IH; exact H|apply at_times_O].
    - rewrite <- (app_nil_r x), <- (app_nil_r ts). apply at_separate; [apply IH; exact H|apply at_more_stop].
  Qed.

  Lemma placed_omitted r p : omissible r -> gen r p [] [].
  Proof.
    intros []; [apply at_whitespace; [constructor|left; reflexivity]|apply at_optional_none| |apply at_separate_none].
    eapply at_repeat; [apply at_times_O|left; reflexivity].
  Qed.

  Lemma placed_more p x ts args args' : extends_all place args args' ->
    (forall rest, (forall r q, args = r :: q -> exists r' q', rest = r' :: q' /\ extends place r r' /\ extends_all place q q') -> (args = [] -> rest = []) ->
       places_all E refs' rest p x ts) ->
    places_all E refs' args' p x ts.
  Proof.
    intros H G. induction H as [|r r' rest rest' Hr Hrest IH|r args args' Hr Hargs IH].
    - apply G; [discriminate|reflexivity].
    - apply G; [|discriminate]. intros q q0 [= <- <-]. eauto 6.
    - change x with ([] ++ x). change ts with (@nil tok ++ ts). apply at_all_cons; [apply placed_omitted; exact Hr|].
      cbn [length]. rewrite Nat.add_0_r. apply IH; exact G.
  Qed.

  Lemma extended_places :
    (forall r p x ts, places E refs r p x ts -> forall r', extends place r r' -> gen r' p x ts) /\
    (forall args p x ts, places_all E refs args p x ts -> forall args', extends_all place args args' -> places_all E refs' args' p x ts) /\
    (forall r k p x ts, places_times E refs r k p x ts -> forall r', extends place r r' -> places_times E refs' r' k p x ts) /\
    (forall r by_ trail p x ts, places_more E refs r by_ trail p x ts -> forall r' by_' trail', extends place r r' -> extends place by_ by_' ->
       (trail = true -> trail' = true) -> places_more E refs' r' by_' trail' p x ts).
  Proof.
    assert (Hor : forall (o o' : bool) (P : Prop), (o = true -> o' = true) -> o = true \/ P -> o' = true \/ P) by (intros; tauto).
    apply places_mutind; intros.
    all: try (match goal with G : extends _ _ ?r' |- places _ _ ?r' _ _ _ => revert r' G; apply placed_by_kind; intros r' G; inversion G; subst; clear G end).
    all: try (econstructor; eauto; fail).
    - apply at_until; [|eauto]. match goal with F : Forall _ _ |- _ => eapply Forall_impl; [|exact F] end. cbn. intuition.
    - apply at_until_ws; [|eauto]. match goal with F : Forall _ _ |- _ => eapply Forall_impl; [|exact F] end. cbn. intuition.
    - apply at_until; [|eauto]. match goal with F : Forall _ _ |- _ => eapply Forall_impl; [|exact F] end. cbn. intuition.
    - match goal with G : extends_each _ _ _, F : In _ _ |- _ => destruct (each_in _ _ _ _ G F) as (q & Hq & Hx) end.
      eapply at_select; [exact Hq|]. auto.
    - match goal with G : extends_each _ _ _, F : In _ _ |- _ => destruct (each_in _ _ _ _ G F) as (q & Hq & Hx) end.
      eapply at_select; [exact Hq|]. auto.
    - match goal with F : _ |- gen (RSeparateBy _ _ ?o _ _) _ _ _ => assert (o = true) as -> by auto end. apply at_separate_none.
    - match goal with F : nth_error refs _ = Some _ |- _ => destruct (Hrefs _ _ F) as (q & Hq & Hx) end. eapply at_node; [exact Hq|]. auto.
    - eapply placed_more; [eassumption|]. intros rest _ Hn. rewrite (Hn eq_refl). apply at_all_nil.
    - eapply placed_more; [eassumption|]. intros rest' Hc _. destruct (Hc _ _ eq_refl) as (q & q' & -> & Hq & Hq'). apply at_all_cons; auto.
    - match goal with F : _ = _ -> trail' = true |- _ => rewrite (F eq_refl) end. apply at_more_trail. auto.
  Qed.
End Extended.

Theorem extended_keeps_places E : ext_ok E -> strings_end E -> forall s s', without_lines s -> extends_syntax s s' ->
  valid s' -> well_formed s' -> clear E s' -> forall r, start_rule s r -> forall text ind ind', columns_fit ind' text -> forall tokens tokens' new,
  parse_returns E s text tokens ind None (tokens ++ new) -> parse_returns E s' text tokens' ind' None (tokens' ++ new).
Proof.
  intros HE Hs s s' Hl (place & Hrefs & Hstart) Hv Hw Hc r Hr text ind ind' Hf tokens tokens' new H.
  destruct (Hstart r Hr) as (r' & Hr' & Hx).
  apply (clear_placed E HE Hs s' Hv Hw Hc r' Hr' text ind' Hf tokens' new).
  eapply (proj1 (extended_places E _ _ place Hrefs)); [|exact Hx]. eapply parse_placed; eassumption.
Qed.

Theorem extended_keeps_optimized E : ext_ok E -> strings_end E -> forall s s' s'', without_lines s -> extends_syntax s s' ->
  valid s' -> well_formed s' -> clear E s' -> optimize_returns s' s'' -> tails_fail_at_end E s' ->
  forall r, start_rule s r -> forall text ind ind', Forall real_char text -> columns_fit ind' text -> forall tokens tokens' new,
  parse_returns E s text tokens ind None (tokens ++ new) -> parse_returns E s'' text tokens' ind' None (tokens' ++ new).
Proof.
  intros HE Hs s s' s'' Hl Hx Hv Hw Hc Ho Ht r Hr text ind ind' Hreal Hf tokens tokens' new H.
  apply (optimize_accepts E HE s' s'' Ho Ht text tokens' ind' Hreal). eapply extended_keeps_places; eassumption.
Qed.
