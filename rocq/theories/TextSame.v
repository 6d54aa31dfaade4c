(** Texts with the same meta data, up to ranges, are read alike. *)
From Coq Require Import Ascii String List NArith Bool Arith Lia.
From Verif Require Import Base Ext Types ParseModel OptimizeModel ConvertModel BootstrapRules LibModel PegSpec DataSpec ApiSpec
  OptSpec IdSpec SyntaxSpec TextSpec SurfaceSpec ParseProofs OptProofs2 OptPublic FuelProofs ConvertFuel ConvertBare SyntaxProofs TextProofs.
Import ListNotations.
Local Open Scope list_scope.
Local Open Scope nat_scope.

Section Same.
  Variable E : ext.
  Hypothesis HE : ext_ok E.

  Lemma accepted_parse text data : accepts E bootstrap_rules indent_default text data -> Forall real_char text ->
    exists k, forall f, k <= f -> exists bo, optimize f bootstrap_rules = Done bo /\ parse E f bo text [] = Done (None, data).
  Proof.
    intros Ha Hr.
    assert (Hp : parse_returns E bootstrap_rules text [] indent_default None data).
    { apply parse_accepts; [exact HE|]. exists data. auto. }
    destruct (bootstrap_optimized E HE) as (bo & Hbo & Hsame).
    apply (proj1 (Hsame text [] indent_default Hr)) in Hp.
    destruct Hbo as (f1 & H1), Hp as (f2 & H2). exists (f1 + f2). intros f Hf. exists bo. split.
    - destruct (optimize_mono f1 f bootstrap_rules ltac:(lia)) as [H|H]; congruence.
    - unfold parse. destruct (parse_with_indent_mono E f2 f bo text [] indent_default ltac:(lia)) as [H|H]; congruence.
  Qed.

  Lemma eventually_same {A} (f g : nat -> outcome A) k :
    (forall m n, m <= n -> le_o (f m) (f n)) -> (forall m n, m <= n -> le_o (g m) (g n)) ->
    (forall n, k <= n -> f n = g n) -> forall x, x <> OutOfFuel -> (exists n, f n = x) -> exists n, g n = x.
  Proof.
    intros Hf Hg Hs x Hx (n & Hn). exists (k + n). rewrite <- (Hs (k + n)) by lia.
    destruct (Hf n (k + n) ltac:(lia)) as [H|H]; congruence.
  Qed.

  Lemma eventually_never {A} (f g : nat -> outcome A) k :
    (forall m n, m <= n -> le_o (g m) (g n)) ->
    (forall n, k <= n -> f n = g n) -> (forall n, f n = OutOfFuel) -> forall n, g n = OutOfFuel.
  Proof.
    intros Hg Hs Ho n. destruct (Hg n (k + n) ltac:(lia)) as [H|H]; [exact H|].
    rewrite <- (Hs (k + n)), Ho in H by lia. exact H.
  Qed.

  Theorem same_data text text' data data' :
    accepts E bootstrap_rules indent_default text data -> accepts E bootstrap_rules indent_default text' data' ->
    metas data = metas data' -> Forall real_char text -> Forall real_char text' -> read_alike E text text'.
  Proof.
    intros Ha Ha' Hm Hr Hr'.
    destruct (accepted_parse text data Ha Hr) as (k & Hk). destruct (accepted_parse text' data' Ha' Hr') as (k' & Hk').
    assert (Hu : forall n, k + k' <= n -> syntax_unoptimized E n text = syntax_unoptimized E n text').
    { intros n Hn. destruct (Hk n ltac:(lia)) as (bo & H1 & H2). destruct (Hk' n ltac:(lia)) as (bo' & H1' & H2').
      assert (bo' = bo) by congruence. subst bo'. unfold syntax_unoptimized. rewrite H1. cbn [obind]. rewrite H2, H2'. cbn [obind].
      rewrite (convert_metas n data data' []) by congruence. reflexivity. }
    assert (Hl : forall n, k + k' <= n -> lib_syntax E n text = lib_syntax E n text').
    { intros n Hn. unfold lib_syntax. rewrite (Hu n Hn). reflexivity. }
    assert (Hu' : forall n, k + k' <= n -> syntax_unoptimized E n text' = syntax_unoptimized E n text)
      by (intros; symmetry; auto).
    assert (Hl' : forall n, k + k' <= n -> lib_syntax E n text' = lib_syntax E n text) by (intros; symmetry; auto).
    assert (M : forall t m n, m <= n -> le_o (syntax_unoptimized E m t) (syntax_unoptimized E n t))
      by (intros; apply syntax_unoptimized_mono; assumption).
    assert (L : forall t m n, m <= n -> le_o (lib_syntax E m t) (lib_syntax E n t))
      by (intros; apply lib_syntax_mono; assumption).
    repeat split.
    - apply (eventually_same _ _ _ (M text) (M text') Hu). discriminate.
    - apply (eventually_same _ _ _ (M text') (M text) Hu'). discriminate.
    - apply (eventually_same _ _ _ (M text) (M text') Hu). discriminate.
    - apply (eventually_same _ _ _ (M text') (M text) Hu'). discriminate.
    - apply (eventually_same _ _ _ (L text) (L text') Hl). discriminate.
    - apply (eventually_same _ _ _ (L text') (L text) Hl'). discriminate.
    - apply (eventually_same _ _ _ (L text) (L text') Hl). discriminate.
    - apply (eventually_same _ _ _ (L text') (L text) Hl'). discriminate.
    - intros Hd n. exact (eventually_never _ _ _ (L text') Hl Hd n).
    - intros Hd n. exact (eventually_never _ _ _ (L text) Hl' Hd n).
  Qed.
End Same.
