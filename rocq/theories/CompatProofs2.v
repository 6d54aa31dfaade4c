(** Texts of the meta language 1.0 are read as before: rules. *)
From Coq Require Import Ascii String List NArith Bool Arith Lia.
From Verif Require Import Base Ext Types ParseModel BootstrapRules PegSpec PegProofs PegFacts PegComplete PrimProofs DataSpec OptProofs
  OccursProofs RenameProofs JsonSpec WriteSpec TextSpec TextProofs TextProofs2 TextProofs6 CompatSpec CompatProofs.
Import ListNotations.
Local Open Scope string_scope.
Local Open Scope list_scope.
Local Open Scope nat_scope.

Section Compat.
  Variable E : ext.
  Hypothesis HE : ext_ok E.
  Variables b b' : bool.

  Notation rdt := (rdt E). Notation rdts := (rdts E).

  (** From the rules of today to those of 1.0 if there is no flag. *)
  Definition Q (out : list tok) : Prop := b' = true \/ without_flag (s2l "indent") out.

  Lemma Q_app o1 o2 : Q (o1 ++ o2) <-> Q o1 /\ Q o2.
  Proof.
    unfold Q, without_flag. split.
    - intros [H|H]; [auto|]. split; right; intros r v Hi; apply (H r v), in_or_app; auto.
    - intros [[H1|H1] [H2|H2]]; auto. right. intros r v Hi. apply in_app_or in Hi. destruct Hi; [eapply H1|eapply H2]; eassumption.
  Qed.

  Definition kept (N : nat) (r : rule) : Prop := forall p s n out, n <= N -> Q out ->
    rdt b r p s (Yes n out) -> rdt b' r p s (Yes n out).
  Definition kepts (N : nat) (rs : list rule) : Prop := forall p s n out, n <= N -> Q out ->
    rdts b rs p s (Yes n out) -> rdts b' rs p s (Yes n out).

  Lemma kept_safe N r : safe r = true -> kept N r.
  Proof. intros H p s n out _ _ HR. exact (rdt_safe E b b' r p s _ H HR). Qed.

  Lemma kepts_nil N : kepts N [].
  Proof. intros p s n out _ _ (tr & H). inversion H; subst. eexists. constructor. Qed.

  Lemma kepts_cons N r rs : level r = true -> kept N r -> kepts N rs -> kepts N (r :: rs).
  Proof.
    intros Hl Hr Hrs p s n out Hn HQ H. apply seq_yes in H; [|exact Hl].
    destruct H as (n1 & o1 & n2 & o2 & -> & -> & H1 & H2). apply Q_app in HQ. destruct HQ as [HQ1 HQ2].
    apply seq_make; [apply Hr|apply Hrs]; auto; lia.
  Qed.

  Lemma kepts_tag N text inv prop id rs : text <> [] -> (forall M, M < N -> kepts M rs) ->
    kepts N (RTag text false inv prop id :: rs).
  Proof.
    intros Ht Hrs p s n out Hn HQ H. apply seq_yes in H; [|reflexivity].
    destruct H as (n1 & o1 & n2 & o2 & -> & -> & H1 & H2). apply Q_app in HQ. destruct HQ as [HQ1 HQ2].
    assert (Hn1 : n1 = length text) by (eapply tag_yes, H1).
    assert (0 < n1) by (destruct text; [contradiction|cbn in Hn1; lia]).
    apply seq_make; [apply (rdt_safe E b b'); [reflexivity|exact H1]|]. apply (Hrs n2); auto; lia.
  Qed.

  Lemma kept_sequence N rs id : kepts N rs -> kept N (RSequence rs id).
  Proof. intros H p s n out Hn HQ HR. apply sequence_yes. apply sequence_yes in HR. apply H; assumption. Qed.

  Lemma kept_at N name prop i id r r' : nth_error (tab b) i = Some r -> nth_error (tab b') i = Some r' -> level r = true ->
    (forall p s n out, n <= N -> Q out -> rdt b r p s (Yes n out) -> rdt b' r' p s (Yes n out)) ->
    kept N (RNode name prop (Some i) id).
  Proof.
    intros Hi Hi' Hl Hr p s n out Hn HQ H. apply (node_yes E b _ _ _ _ r) in H; [|exact Hi|exact Hl].
    destruct H as (o & H & ->). apply Q_app in HQ. destruct HQ as [_ HQ]. apply Q_app in HQ. destruct HQ as [HQ _].
    apply (node_make E b' _ _ _ _ r'); [exact Hi'|]. apply Hr; assumption.
  Qed.

  Lemma kept_node N name prop i id r : i <> 20 -> nth_error boot i = Some r -> level r = true -> kept N r ->
    kept N (RNode name prop (Some i) id).
  Proof. intros Hi Hn Hl Hr. apply (kept_at N name prop i id r r); [apply tab_nth; assumption|apply tab_nth; assumption|exact Hl|exact Hr]. Qed.

  (** ** Lists in brackets *)

  Definition ITEM (id : debug_id) : rule := RNode (s2l "rule") (Some (s2l "rule")) (Some 21) id.

  Lemma more_kept N c id id2 : kept N (ITEM id) -> (forall p s, rdt b' (ITEM id) p (c :: s) No) ->
    forall r by_ trail ind p s v ind' tr, reads_more E (tab b) r by_ trail ind p s v ind' tr ->
    r = ITEM id -> by_ = RWhitespace false id2 -> trail = true -> ind = indent_default ->
    forall n out, v = Yes n out -> n <= N -> Q out -> starts_with (skipn n s) [c] ->
    exists tr', reads_more E (tab b') r by_ trail ind p s (Yes n out) indent_default tr'.
  Proof.
    intros Hk Hno.
    apply (reads_more_ind' E (tab b) (fun _ _ _ _ _ _ _ => True) (fun _ _ _ _ _ _ _ => True) (fun _ _ _ _ _ _ _ => True)
      (fun _ _ _ _ _ _ _ _ _ => True)
      (fun r by_ trail ind p s v ind' tr => r = ITEM id -> by_ = RWhitespace false id2 -> trail = true -> ind = indent_default ->
        forall n out, v = Yes n out -> n <= N -> Q out -> starts_with (skipn n s) [c] ->
        exists tr', reads_more E (tab b') r by_ trail ind p s (Yes n out) indent_default tr')
      (fun _ _ _ _ _ _ _ _ _ _ _ => True) (fun _ _ _ _ _ _ _ _ _ _ => True)); try (intros; exact I).
    - intros r by_ trail ind p s ind' tr H _ -> -> -> -> n out Heq Hn HQ Hs. injection Heq as <- <-.
      assert (ind' = indent_default) by (eapply (level_ind E b); [|exact H]; reflexivity). subst ind'.
      eexists. apply reads_more_stop. eapply (safe_reads E b b'); [reflexivity|exact H].
    - intros r by_ trail ind p s n out ind1 tr1 ind2 tr2 H _ H2 _ -> -> -> -> n' out' Heq Hn HQ Hs. injection Heq as <- <-.
      assert (ind1 = indent_default) by (eapply (level_ind E b); [|exact H]; reflexivity). subst ind1.
      destruct Hs as (rest & Hs). cbn [app] in Hs. destruct (Hno (p + n) rest) as (tr' & Htr). rewrite <- Hs in Htr.
      apply (safe_reads E b b') in H; [|reflexivity].
      eexists. exact (reads_more_trail E (tab b') (ITEM id) (RWhitespace false id2) true _ _ _ _ _ _ _ _ _ H Htr).
    - intros r by_ trail ind p s n out ind1 tr1 m out' ind2 tr2 v ind3 tr3 H _ H2 _ H3 IH -> -> -> -> n' o' Heq Hn HQ Hs.
      assert (ind1 = indent_default) by (eapply (level_ind E b); [|exact H]; reflexivity). subst ind1.
      assert (ind2 = indent_default) by (eapply (level_ind E b); [|exact H2]; reflexivity). subst ind2.
      destruct v as [k o|]; [|discriminate Heq]. cbn [after] in Heq. injection Heq as <- <-.
      apply Q_app in HQ. destruct HQ as [_ HQ]. apply Q_app in HQ. destruct HQ as [HQ1 HQ2].
      destruct (IH eq_refl eq_refl eq_refl eq_refl k o eq_refl) as (tr' & R3); [lia|exact HQ2|rewrite !skipn_add; replace (n + m + k) with (n + (m + k)) by lia; exact Hs|].
      assert (R2 : rdt b' (ITEM id) (p + n) (skipn n s) (Yes m out')) by (apply Hk; [lia|exact HQ1|eexists; exact H2]).
      destruct R2 as (tr2' & R2). eexists.
      change (Yes (n + (m + k)) (out ++ out' ++ o)) with (after n out (after m out' (Yes k o))).
      apply (safe_reads E b b') in H; [|reflexivity].
      eapply reads_more_item; [exact H|exact R2|exact R3].
  Qed.

  Lemma kepts_list N c id id2 id3 id4 : kept N (ITEM id) -> (forall p s, rdt b' (ITEM id) p (c :: s) No) ->
    kepts N [RSeparateBy (ITEM id) (RWhitespace false id2) false true id3; RTag [c] false false None id4].
  Proof.
    intros Hk Hno p s n out Hn HQ H. apply seq_yes in H; [|reflexivity].
    destruct H as (n1 & o1 & n2 & o2 & -> & -> & (tr1 & H1) & H2). apply Q_app in HQ. destruct HQ as [HQ1 HQ2].
    assert (Hs : starts_with (skipn n1 s) [c]).
    { apply seq_yes in H2; [|reflexivity]. destruct H2 as (n3 & o3 & n4 & o4 & _ & _ & H2 & _). eapply tag_yes, H2. }
    apply seq_make; [|apply (kepts_cons N _ []); [reflexivity|apply kept_safe; reflexivity|apply kepts_nil|lia|exact HQ2|exact H2]].
    inversion H1; subst.
    match goal with X : after _ _ ?v = Yes _ _ |- _ => destruct v as [k o|]; [|discriminate X]; injection X as <- <- end.
    match goal with X : reads _ _ (ITEM id) _ _ _ (Yes ?m _) ?i _ |- _ =>
      assert (i = indent_default) by (eapply (level_ind E b); [|exact X]; reflexivity); subst i; rename X into R1; rename m into m1 end.
    apply Q_app in HQ1. destruct HQ1 as [HQ1 HQ3].
    match goal with X : reads_more _ _ _ _ _ _ _ _ _ _ _ |- _ =>
      destruct (more_kept N c id id2 Hk Hno _ _ _ _ _ _ _ _ _ X eq_refl eq_refl eq_refl eq_refl k o eq_refl) as (tr' & R2);
        [lia|exact HQ3|rewrite skipn_add; exact Hs|] end.
    destruct (Hk p s m1 out) as (tr'' & R1'); [lia|exact HQ1|eexists; exact R1|].
    eexists. change (Yes (m1 + k) (out ++ o)) with (after m1 out (Yes k o)).
    eapply reads_separate; [exact R1'|exact R2].
  Qed.
End Compat.

(** ** Alternatives *)

Section Rules.
  Variable E : ext.
  Hypothesis HE : ext_ok E.

  Notation rdt := (rdt E).

  Lemma lines_no b name prop id p s : ~ starts_with s (s2l ".l") -> rdt b (RNode name prop (Some 20) id) p s No.
  Proof.
    intros H. destruct b; (eapply node_no; [reflexivity|]; apply seq_tag_no); [exact H|].
    intros (rest & ->). apply H. exists (s2l "(" ++ rest). reflexivity.
  Qed.

  Lemma tag_first b name prop i id text inv pr id1 rs id2 p s n out :
    nth_error (tab b) i = Some (RSequence (RTag text false inv pr id1 :: rs) id2) ->
    level (RSequence (RTag text false inv pr id1 :: rs) id2) = true ->
    rdt b (RNode name prop (Some i) id) p s (Yes n out) -> starts_with s text.
  Proof.
    intros Hi Hl H. eapply node_yes in H; [|exact Hi|exact Hl]. destruct H as (o & H & _).
    apply sequence_yes in H. apply seq_yes in H; [|reflexivity]. destruct H as (n1 & o1 & n2 & o2 & _ & _ & H & _).
    eapply tag_yes, H.
  Qed.

  Lemma reference_start b name prop id p s n out : rdt b (RNode name prop (Some 9) id) p s (Yes n out) -> hd_error s <> Some 46%N.
  Proof.
    intros H Hs. apply (rdt_safe E b true) in H; [|reflexivity].
    assert (Hb := bad_reference E s (or_intror (or_introl Hs)) name prop id p).
    discriminate (rdt_unique E true _ _ _ _ _ H Hb).
  Qed.

  Lemma tag_start b name prop id p s n out : rdt b (RNode name prop (Some 13) id) p s (Yes n out) ->
    hd_error s = Some quote \/ hd_error s = Some 95%N \/ hd_error s = Some 33%N.
  Proof.
    intros H. apply (rdt_safe E b true) in H; [|reflexivity].
    destruct (hd_error s) as [c|] eqn:Hs.
    - destruct (N.eq_dec c quote) as [->|H1]; [auto|]. destruct (N.eq_dec c 95) as [->|H2]; [auto|]. destruct (N.eq_dec c 33) as [->|H3]; [auto|].
      assert (Hb : bad E (RNode name prop (Some 13) id) s) by (apply bad_tag_rule; [exact HE| | |]; rewrite Hs; congruence).
      discriminate (rdt_unique E true _ _ _ _ _ H (Hb p)).
    - assert (Hb : bad E (RNode name prop (Some 13) id) s) by (apply bad_tag_rule; [exact HE| | |]; rewrite Hs; congruence).
      discriminate (rdt_unique E true _ _ _ _ _ H (Hb p)).
  Qed.

  Definition ALTS : list rule := Eval vm_compute in match nth 21 boot (RSelect [] 0) with RSelect l _ => l | _ => [] end.
  Lemma rule_alts : nth_error boot 21 = Some (RSelect ALTS 21001).
  Proof. reflexivity. Qed.

  Ltac clashing :=
    let r := fresh in let Hr := fresh in
    intros (r & Hr); repeat match goal with
    | H : starts_with _ _ |- _ => destruct H as (? & H)
    end; subst; cbn in *; congruence.
  Ltac misses := first
    [ apply lines_no; clashing
    | eapply node_no; [apply tab_nth; [discriminate|reflexivity]|]; apply seq_tag_no; clashing ].

  (** No rule starts with a closing bracket. *)
  Lemma rule_no b c s : In c (s2l "]}") -> forall name prop id p, rdt b (RNode name prop (Some 21) id) p (c :: s) No.
  Proof.
    intros Hc name prop id p. eapply node_no; [apply tab_nth; [discriminate|exact rule_alts]|].
    assert (H : rdt true (RSelect ALTS 21001) p (c :: s) No).
    { destruct (bad_rule E HE c s Hc name prop id p) as (tr & H). inversion H; subst.
      match goal with X : nth_error boot 21 = Some _ |- _ => rewrite rule_alts in X; injection X as <- end. eexists; eassumption. }
    apply select_no_inv in H; [|apply Forall_forall, forallb_forall; reflexivity].
    apply select_no; [discriminate|]. unfold ALTS in *.
    repeat match goal with X : Forall _ (_ :: _) |- _ => inversion X; subst; clear X end.
    assert (Hs : starts_with (c :: s) [c]) by (exists s; reflexivity).
    cbn in Hc. destruct Hc as [<-|[<-|[]]];
    repeat constructor; (eapply rdt_safe; [reflexivity|eassumption]) || misses.
  Qed.
End Rules.
