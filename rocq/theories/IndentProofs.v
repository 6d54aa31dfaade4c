(** Indent settings while reading: C15, C17. *)
From Coq Require Import List NArith Bool Arith Lia.
From Verif Require Import Base Ext Types ParseModel PegSpec DataSpec PegProofs PegComplete PegFacts
  RuleSpec RuleProofs IdSpec.
Import ListNotations.

(** Reading never lowers the indentation. *)
Section Grows.
  Variable E : ext.
  Variable refs : list rule.

  Lemma reads_grows_all :
    let le (a b : indent) := (i_indent a <= i_indent b)%N in
    (forall r ind p s v ind' tr, reads E refs r ind p s v ind' tr -> le ind ind') /\
    (forall args ind p s v ind' tr, reads_seq E refs args ind p s v ind' tr -> le ind ind') /\
    (forall args ind p s v ind' tr, reads_first E refs args ind p s v ind' tr -> le ind ind') /\
    (forall r ind p s k n out ind' tr,
      reads_many E refs r ind p s k n out ind' tr -> le ind ind') /\
    (forall r by_ trail ind p s v ind' tr,
      reads_more E refs r by_ trail ind p s v ind' tr -> le ind ind') /\
    (forall r indented id fresh nl ind p s v ind' tr,
      reads_lines E refs r indented id fresh nl ind p s v ind' tr -> le ind ind') /\
    (forall r indented fresh ind p s v fresh' ind' tr,
      reads_line E refs r indented fresh ind p s v fresh' ind' tr -> le ind ind').
  Proof.
    intros le. unfold le. apply reads_mutind; simpl; intros; try lia.
  Qed.

  Lemma runs_grows r ind p s v ind' :
    runs E refs r ind p s v ind' -> (i_indent ind <= i_indent ind')%N.
  Proof. rewrite runs_reads. intros (tr & H). exact (proj1 reads_grows_all _ _ _ _ _ _ _ H). Qed.
End Grows.

(** Without indented lines the settings stay as they are. *)
Section Keeps.
  Variable E : ext.
  Variable syn : syntax.
  Hypothesis Hno : no_indented_lines syn.
  Notation refs := (s_rules syn).

  Lemma reads_keeps_all :
    (forall r ind p s v ind' tr, reads E refs r ind p s v ind' tr ->
      occurs syn r -> ind' = ind) /\
    (forall args ind p s v ind' tr, reads_seq E refs args ind p s v ind' tr ->
      Forall (occurs syn) args -> ind' = ind) /\
    (forall args ind p s v ind' tr, reads_first E refs args ind p s v ind' tr ->
      Forall (occurs syn) args -> ind' = ind) /\
    (forall r ind p s k n out ind' tr, reads_many E refs r ind p s k n out ind' tr ->
      occurs syn r -> ind' = ind) /\
    (forall r by_ trail ind p s v ind' tr, reads_more E refs r by_ trail ind p s v ind' tr ->
      occurs syn r -> occurs syn by_ -> ind' = ind) /\
    (forall r indented id fresh nl ind p s v ind' tr,
      reads_lines E refs r indented id fresh nl ind p s v ind' tr ->
      occurs syn r -> indented = false -> ind' = ind) /\
    (forall r indented fresh ind p s v fresh' ind' tr,
      reads_line E refs r indented fresh ind p s v fresh' ind' tr ->
      occurs syn r -> indented = false -> ind' = ind).
  Proof.
    assert (Hc : forall r c, occurs syn r -> In c (children r) -> occurs syn c)
      by (intros; eapply occurs_child; eassumption).
    assert (Hl : forall r l, occurs syn r -> children r = l -> Forall (occurs syn) l)
      by (intros r l Hr <-; apply Forall_forall; intros; eapply Hc; eassumption).
    apply reads_mutind; intros; subst; try reflexivity; try discriminate.
    all: try (match goal with H : Forall _ (_ :: _) |- _ => inversion H; subst; clear H end).
    all: try (match goal with
      | H : occurs syn (RSequence ?a _) |- _ => pose proof (Hl _ a H eq_refl); clear H
      | H : occurs syn (RSelect ?a _) |- _ => pose proof (Hl _ a H eq_refl); clear H
      | H : occurs syn (RSeparateBy ?a ?b _ _ _) |- _ =>
        assert (occurs syn a) by (apply (Hc _ a H); simpl; auto);
        assert (occurs syn b) by (apply (Hc _ b H); simpl; auto); clear H
      | H : occurs syn (RRepeat ?a _ _) |- _ =>
        assert (occurs syn a) by (apply (Hc _ a H); simpl; auto); clear H
      | H : occurs syn (ROptional ?a _) |- _ =>
        assert (occurs syn a) by (apply (Hc _ a H); simpl; auto); clear H
      | H : occurs syn (RNot ?a _) |- _ =>
        assert (occurs syn a) by (apply (Hc _ a H); simpl; auto); clear H
      | H : nth_error _ _ = Some ?r, H2 : occurs syn (RNode _ _ _ _) |- _ =>
        assert (occurs syn r) by (apply occurs_top; eapply nth_error_In; exact H); clear H2
      end).
    all: try (match goal with
      | H : occurs syn (RLines ?a ?i ?id) |- _ =>
        assert (occurs syn a) by (apply (Hc _ a H); simpl; auto);
        destruct i; [exfalso; exact (Hno _ _ H)|] end).
    all: try (match goal with
      | H : occurs syn (RFastSelect _ ?a _ _) |- _ => pose proof (Hl _ a H eq_refl) as HF end).
    all: repeat match goal with
      | HF : Forall _ (?a ++ [?r]) |- _ =>
        assert (occurs syn r) by (rewrite Forall_forall in HF; apply HF, in_or_app; simpl; auto);
        match goal with
        | H : nth_error (a ++ [r]) _ = Some ?r2 |- _ =>
          assert (occurs syn r2) by (rewrite Forall_forall in HF; eapply HF, nth_error_In; exact H)
        | _ => idtac end; clear HF
      | HF : Forall _ ?a, H : nth_error ?a _ = Some ?r |- _ =>
        assert (occurs syn r) by (rewrite Forall_forall in HF; eapply HF, nth_error_In; exact H);
        clear HF
      end.
    all: repeat match goal with
      | H : ?P -> _, H2 : ?P |- _ => specialize (H H2)
      | H : false = false -> _ |- _ => specialize (H eq_refl) end.
    all: congruence.
  Qed.

  Lemma runs_keeps r ind p s v ind' : occurs syn r -> runs E refs r ind p s v ind' -> ind' = ind.
  Proof. rewrite runs_reads. intros Ho (tr & H). exact (proj1 reads_keeps_all _ _ _ _ _ _ _ H Ho). Qed.

  Theorem failed_alternative a rest id id' ind p s ind1 v ind' :
    occurs syn a -> rest <> [] -> runs E refs a ind p s No ind1 ->
    (runs E refs (RSelect (a :: rest) id) ind p s v ind' <->
     runs E refs (RSelect rest id') ind p s v ind').
  Proof.
    intros Ho Hne Ha. pose proof (runs_keeps _ _ _ _ _ _ Ho Ha) as ->.
    apply runs_reads in Ha as (tra & Ha).
    rewrite !runs_reads. split; intros (tr & H).
    - inversion H; subst.
      match goal with Hf : reads_first _ _ _ _ _ _ _ _ _ |- _ => inversion Hf; subst end.
      + match goal with Hr : reads _ _ a _ _ _ (Yes _ _) _ _ |- _ =>
          destruct (reads_deterministic _ _ _ _ _ _ _ _ _ _ _ _ Ha Hr) as (? & _) end. discriminate.
      + match goal with Hr : reads _ _ a _ _ _ No _ _ |- _ =>
          destruct (reads_deterministic _ _ _ _ _ _ _ _ _ _ _ _ Ha Hr) as (_ & <- & _) end.
        eexists. eapply reads_select; eassumption.
    - inversion H; subst; [|contradiction]. eexists. eapply reads_select; [discriminate|].
      eapply reads_first_next; eassumption.
  Qed.
End Keeps.
