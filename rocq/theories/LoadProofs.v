(** Loading and [syntax_errstr]. *)
From Coq Require Import Ascii String List NArith Bool Arith Lia.
From Verif Require Import Base Ext Types ParseModel HandlerModel LibModel LoadModel ApiSpec SyntaxSpec LoadSpec
  FuelProofs ReportProofs SyntaxProofs.
Import ListNotations.
Local Open Scope string_scope.
Local Open Scope list_scope.
Local Open Scope nat_scope.

Lemma reported E text e : exists w, error_report E text e = Done w.
Proof. destruct (report_returns E text e) as (more & H). eauto. Qed.

Lemma errstr_syntax_ok E text s : syntax_errstr_returns E text (inl s) <-> syntax_returns E text (inl s).
Proof.
  split; intros (fuel & H); exists fuel; unfold syntax_errstr in *.
  - destruct (lib_syntax E fuel text) as [[s1|e]| |]; try discriminate; cbn [obind] in H; [congruence|].
    destruct (error_report E text e); discriminate.
  - rewrite H. reflexivity.
Qed.

Lemma errstr_syntax_err E text w : syntax_errstr_returns E text (inr w) <->
  exists e, syntax_returns E text (inr e) /\ error_report E text e = Done w.
Proof.
  split.
  - intros (fuel & H). unfold syntax_errstr in H.
    destruct (lib_syntax E fuel text) as [[s1|e]| |] eqn:Hl; try discriminate; cbn [obind] in H.
    exists e. split; [exists fuel; exact Hl|].
    destruct (error_report E text e); try discriminate; cbn [obind] in H. congruence.
  - intros (e & (fuel & H) & Hw). exists fuel. unfold syntax_errstr. rewrite H. cbn [obind]. rewrite Hw. reflexivity.
Qed.

Lemma errstr_syntax_panic E text : syntax_errstr_panics E text <-> syntax_panics E text.
Proof.
  split; intros (fuel & H); exists fuel; unfold syntax_errstr in *.
  - destruct (lib_syntax E fuel text) as [[s1|e]| |]; try discriminate; cbn [obind] in H; [|reflexivity].
    destruct (reported E text e) as (w & Hw). rewrite Hw in H. discriminate.
  - rewrite H. reflexivity.
Qed.

Lemma errstr_syntax_message E text e : syntax_returns E text (inr e) ->
  exists more, syntax_errstr_returns E text (inr (s2l "Error " ++ fmt_error E (snd e) ++ [newline] ++ more)).
Proof.
  intros H. destruct (report_returns E text e) as (more & Hm). exists more.
  apply errstr_syntax_err. eauto.
Qed.

Lemma both_fuel E text s text' tokens result tokens' :
  syntax_returns E text (inl s) -> parse_returns E s text' tokens indent_default result tokens' ->
  exists fuel, lib_syntax E fuel text = Done (inl s) /\ parse E fuel s text' tokens = Done (result, tokens').
Proof.
  intros (f & Hf) (g & Hg). exists (f + g). split.
  - destruct (lib_syntax_mono E f (f + g) text ltac:(lia)) as [H|H]; congruence.
  - unfold parse. destruct (parse_with_indent_mono E g (f + g) s text' tokens indent_default ltac:(lia)) as [H|H]; congruence.
Qed.

Lemma load_returned E sf df tokens : loads E sf df (Returned tokens) <->
  exists s d rules, sf = Some s /\ df = Some d /\ syntax_returns E s (inl rules) /\
    parse_returns E rules d [] indent_default None tokens.
Proof.
  split.
  - intros (fuel & H). unfold load_syntax_data in H. destruct sf as [s|]; [|discriminate].
    destruct (lib_syntax E fuel s) as [[rules|e]| |] eqn:Hl; try discriminate; cbn [obind stderr_unwrap] in H.
    2:{ destruct (error_report E s e); discriminate. }
    destruct df as [d|]; [|discriminate].
    destruct (parse E fuel rules d []) as [[[e|] toks]| |] eqn:Hp; try discriminate; cbn [obind stderr_unwrap] in H.
    { destruct (error_report E d e); discriminate. }
    injection H as <-. exists s, d, rules. repeat split; auto; exists fuel; assumption.
  - intros (s & d & rules & -> & -> & Hs & Hp).
    destruct (both_fuel _ _ _ _ _ _ _ Hs Hp) as (fuel & H1 & H2). exists fuel. unfold load_syntax_data.
    rewrite H1. cbn [obind stderr_unwrap]. rewrite H2. reflexivity.
Qed.

Lemma load_aborted E sf df w : loads E sf df (Aborted w) <->
  (sf = None /\ w = []) \/
  (exists s e, sf = Some s /\ syntax_returns E s (inr e) /\ error_report E s e = Done w) \/
  (exists s rules, sf = Some s /\ syntax_returns E s (inl rules) /\ df = None /\ w = []) \/
  (exists s d rules e tokens, sf = Some s /\ df = Some d /\ syntax_returns E s (inl rules) /\
    parse_returns E rules d [] indent_default (Some e) tokens /\ error_report E d e = Done w).
Proof.
  split.
  - intros (fuel & H). unfold load_syntax_data in H. destruct sf as [s|]; [|left; split; congruence]. right.
    destruct (lib_syntax E fuel s) as [[rules|e]| |] eqn:Hl; try discriminate; cbn [obind stderr_unwrap] in H.
    2:{ left. exists s, e. split; [reflexivity|]. split; [exists fuel; exact Hl|].
        destruct (error_report E s e); try discriminate. cbn [obind] in H. congruence. }
    right. destruct df as [d|].
    2:{ left. exists s, rules. repeat split; [exists fuel; exact Hl|congruence]. }
    right. destruct (parse E fuel rules d []) as [[[e|] toks]| |] eqn:Hp; try discriminate; cbn [obind stderr_unwrap] in H.
    exists s, d, rules, e, toks. split; [reflexivity|]. split; [reflexivity|]. split; [exists fuel; exact Hl|].
    split; [exists fuel; exact Hp|]. destruct (error_report E d e); try discriminate. cbn [obind] in H. congruence.
  - intros [[-> ->]|[(s & e & -> & (fuel & Hs) & Hw)|[(s & rules & -> & (fuel & Hs) & -> & ->)|
      (s & d & rules & e & tokens & -> & -> & Hs & Hp & Hw)]]].
    + exists 0. reflexivity.
    + exists fuel. unfold load_syntax_data. rewrite Hs. cbn [obind stderr_unwrap]. rewrite Hw. reflexivity.
    + exists fuel. unfold load_syntax_data. rewrite Hs. reflexivity.
    + destruct (both_fuel _ _ _ _ _ _ _ Hs Hp) as (fuel & H1 & H2). exists fuel. unfold load_syntax_data.
      rewrite H1. cbn [obind stderr_unwrap]. rewrite H2. cbn [obind stderr_unwrap]. rewrite Hw. reflexivity.
Qed.
