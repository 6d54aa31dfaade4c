(** Extended syntaxes generate what the syntax generates. *)
From Coq Require Import Ascii String List NArith Bool Arith Lia.
From Verif Require Import Base Ext Types ParseModel OptimizeModel PegSpec DataSpec ApiSpec OptSpec ExtProofs PegFacts ParseProofs
  ParsePublic TotalSpec TotalProofs TotalCheck ShapeSpec GrammarSpec GrammarProofs GrammarCheck GrammarPublic OccursProofs ExtendSpec Examples.
Import ListNotations.
Local Open Scope string_scope.
Local Open Scope list_scope.
Local Open Scope nat_scope.

Section Extended.
  Variable E : ext.
  Variables refs refs' : list rule.
  Variable place : nat -> nat.
  Hypothesis Hrefs : forall i r, nth_error refs i = Some r -> exists r', nth_error refs' (place i) = Some r' /\ extends place r r'.
  Notation gen := (generates E refs').

  Lemma by_kind r x ms : (forall r', loosens place r r' -> gen r' x ms) -> forall r', extends place r r' -> gen r' x ms.
  Proof.
    intros H r' Hr. revert H. induction Hr as [r r' Hk|r r' args id _ IH Hin|r r' id _ IH|r r' o id _ IH|r r' by_ o trail id _ IH]; intros H.
    - apply H. exact Hk.
    - eapply gen_select; [exact Hin|]. apply IH. exact H.
    - apply gen_optional. apply IH. exact H.
    - rewrite <- (app_nil_r x), <- (app_nil_r ms). eapply gen_repeat with (k := 1); [|right; lia].
      apply gen_times_S; [apply IH; exact H|apply gen_times_O].
    - rewrite <- (app_nil_r x), <- (app_nil_r ms). apply gen_separate; [apply IH; exact H|apply gen_more_stop].
  Qed.

  Lemma omitted r : omissible r -> gen r [] [].
  Proof.
    intros []; [apply gen_whitespace; [constructor|left; reflexivity]|apply gen_optional_none| |apply gen_separate_none].
    eapply gen_repeat; [apply gen_times_O|left; reflexivity].
  Qed.

  Lemma each_in args args' r : extends_each place args args' -> In r args -> exists r', In r' args' /\ extends place r r'.
  Proof. induction 1 as [|q q' rest args' Hq Hin _ IH]; intros H; [destruct H|]. destruct H as [->|H]; eauto. Qed.

  (** Behind rules that are left out. *)
  Lemma all_more x ms args args' : extends_all place args args' ->
    (forall rest, (forall r q, args = r :: q -> exists r' q', rest = r' :: q' /\ extends place r r' /\ extends_all place q q') -> (args = [] -> rest = []) ->
       generates_all E refs' rest x ms) ->
    generates_all E refs' args' x ms.
  Proof.
    intros H G. induction H as [|r r' rest rest' Hr Hrest IH|r args args' Hr Hargs IH].
    - apply G; [discriminate|reflexivity].
    - apply G; [|discriminate]. intros q q0 [= <- <-]. eauto 6.
    - change x with ([] ++ x). change ms with ([] ++ ms). apply gen_all_cons; [apply omitted; exact Hr|apply IH; exact G].
  Qed.

  Lemma extended_generates :
    (forall r x ms, generates E refs r x ms -> forall r', extends place r r' -> gen r' x ms) /\
    (forall args x ms, generates_all E refs args x ms -> forall args', extends_all place args args' -> generates_all E refs' args' x ms) /\
    (forall r k x ms, generates_times E refs r k x ms -> forall r', extends place r r' -> generates_times E refs' r' k x ms) /\
    (forall r by_ trail x ms, generates_more E refs r by_ trail x ms -> forall r' by_' trail', extends place r r' -> extends place by_ by_' ->
       (trail = true -> trail' = true) -> generates_more E refs' r' by_' trail' x ms).
  Proof.
    assert (Hor : forall (o o' : bool) (P : Prop), (o = true -> o' = true) -> o = true \/ P -> o' = true \/ P) by (intros; tauto).
    apply generates_mutind; intros.
    all: try (match goal with G : extends _ _ ?r' |- generates _ _ ?r' _ _ => revert r' G; apply by_kind; intros r' G; inversion G; subst; clear G end).
    all: try (econstructor; eauto; fail).
    - apply gen_until; [|eauto]. match goal with F : Forall _ _ |- _ => eapply Forall_impl; [|exact F] end. cbn. intuition.
    - apply gen_until_ws; [|eauto]. match goal with F : Forall _ _ |- _ => eapply Forall_impl; [|exact F] end. cbn. intuition.
    - apply gen_until; [|eauto]. match goal with F : Forall _ _ |- _ => eapply Forall_impl; [|exact F] end. cbn. intuition.
    - match goal with G : extends_each _ _ _, F : In _ _ |- _ => destruct (each_in _ _ _ G F) as (q & Hq & Hx) end.
      eapply gen_select; [exact Hq|]. auto.
    - match goal with G : extends_each _ _ _, F : In _ _ |- _ => destruct (each_in _ _ _ G F) as (q & Hq & Hx) end.
      eapply gen_select; [exact Hq|]. auto.
    - match goal with F : _ |- gen (RSeparateBy _ _ ?o _ _) _ _ => assert (o = true) as -> by auto end. apply gen_separate_none.
    - match goal with F : nth_error refs _ = Some _ |- _ => destruct (Hrefs _ _ F) as (q & Hq & Hx) end. eapply gen_node; [exact Hq|]. auto.
    - eapply all_more; [eassumption|]. intros rest _ Hn. rewrite (Hn eq_refl). apply gen_all_nil.
    - eapply all_more; [eassumption|]. intros rest' Hc _. destruct (Hc _ _ eq_refl) as (q & q' & -> & Hq & Hq'). apply gen_all_cons; auto.
    - match goal with F : _ = _ -> trail' = true |- _ => rewrite (F eq_refl) end. apply gen_more_trail. auto.
  Qed.
End Extended.

Theorem extended_keeps E : ext_ok E -> strings_end E -> forall s s', without_lines s -> extends_syntax s s' ->
  valid s' -> well_formed s' -> clear E s' -> forall r, start_rule s r -> forall text ind ind', columns_fit ind' text -> forall tokens tokens' new,
  parse_returns E s text tokens ind None (tokens ++ new) ->
  exists new', parse_returns E s' text tokens' ind' None (tokens' ++ new') /\ map snd new' = map snd new.
Proof.
  intros HE Hs s s' Hl (place & Hrefs & Hstart) Hv Hw Hc r Hr text ind ind' Hf tokens tokens' new H.
  destruct (Hstart r Hr) as (r' & Hr' & Hx).
  apply (clear_parse E HE Hs s' Hv Hw Hc r' Hr' text ind' Hf tokens' (map snd new)).
  eapply (proj1 (extended_generates E _ _ place Hrefs)); [|exact Hx]. eapply parse_generated; eassumption.
Qed.
