(** Texts of the meta language 1.0 are read as before: all of a text. *)
From Coq Require Import Ascii String List NArith Bool Arith Lia.
From Verif Require Import Base Ext Types ParseModel BootstrapRules PegSpec PegProofs PegFacts PegComplete PrimProofs DataSpec OptProofs
  OccursProofs RenameProofs JsonSpec WriteSpec TextSpec TextProofs TextProofs2 TextProofs5 TextProofs6 CompatSpec CompatProofs CompatProofs2.
Import ListNotations.
Local Open Scope string_scope.
Local Open Scope list_scope.
Local Open Scope nat_scope.

Section Main.
  Variable E : ext.
  Hypothesis HE : ext_ok E.
  Variables b b' : bool.

  Notation rdt := (rdt E). Notation rdts := (rdts E).
  Notation kept := (kept E b b'). Notation kepts := (kepts E b b').

  Lemma rest_kept M : (forall id, kept M (ITEM id)) -> kepts M REST.
  Proof.
    intros H. unfold REST.
    repeat (apply kepts_cons; [reflexivity|first [apply kept_safe; reflexivity|apply H]|]). apply kepts_nil.
  Qed.

  Lemma starts_tag (c : bool) text inv prop id p s : starts_with s text -> rdt c (RTag text false inv prop id) p s
    (Yes (length text) (token prop (Rng p (length text)) (fun n => MBool n (negb inv)))).
  Proof. intros H. eexists. constructor. exact H. Qed.

End Main.

Lemma lines_kept E b b' N name prop id : (forall M, M < N -> forall id, kept E b b' M (ITEM id)) ->
  kept E b b' N (RNode name prop (Some 20) id).
Proof.
  intros IH. assert (Hrest : forall M, M < N -> kepts E b b' M REST) by (intros; apply rest_kept; auto). clear IH.
  assert (H20 : forall c, nth_error (tab c) 20 = Some (if c then nth 20 boot (RSelect [] 0) else lines10)) by (intros []; reflexivity).
  eapply kept_at; [apply H20|apply H20|destruct b; reflexivity|]. clear H20.
  intros p s n out Hn HQ H.
  change (nth 20 boot (RSelect [] 0)) with
    (RSequence (RTag (s2l ".l") false false None 20002 :: ROptional (RTag (s2l "+") false false (Some (s2l "indent")) 20004) 20003 ::
       RTag (s2l "(") false false None 20005 :: REST) 20001) in *. unfold lines10 in *.
  destruct b, b'; apply sequence_yes in H; apply sequence_yes.
  - revert H. apply (kepts_tag E true true N); [discriminate| |exact Hn|exact HQ].
    intros M HM. apply kepts_cons; [reflexivity|apply kept_safe; reflexivity|].
    apply kepts_cons; [reflexivity|apply kept_safe; reflexivity|]. apply Hrest; exact HM.
  - apply seq_yes in H; [|reflexivity]. destruct H as (n1 & o1 & n2 & o2 & -> & -> & H1 & H).
    apply tag_yes in H1 as H1'. destruct H1' as [(r1 & ->) ->].
    assert (o1 = []) by (destruct H1 as (? & H1); inversion H1; reflexivity). subst o1.
    apply seq_yes in H; [|reflexivity]. destruct H as (n3 & o3 & n4 & o4 & -> & -> & H2 & H).
    apply seq_yes in H; [|reflexivity]. destruct H as (n5 & o5 & n6 & o6 & -> & -> & H3 & H).
    apply tag_yes in H3 as H3'. destruct H3' as [(r3 & Hr3) ->].
    assert (o5 = []) by (destruct H3 as (? & H3); inversion H3; reflexivity). subst o5.
    destruct HQ as [HQ|HQ]; [discriminate HQ|].
    destruct H2 as (tr2 & H2). inversion H2; subst.
    + exfalso. match goal with X : reads _ _ (RTag _ _ _ _ _) _ _ _ _ _ _ |- _ => inversion X; subst end.
      eapply HQ. cbn. left. reflexivity.
    + change (skipn (length (s2l ".l")) (s2l ".l" ++ r1)) with r1 in *.
      change (length (s2l ".l")) with 2 in *. change (length (s2l "(")) with 1 in *. cbn [skipn] in Hr3. subst r1.
      cbn [app] in *. replace (2 + (0 + (1 + n6))) with (3 + n6) by lia. change o6 with ([] ++ o6).
      apply seq_make; [apply (starts_tag E false (s2l ".l(") false None 20002 p); exists r3; reflexivity|].
      replace (p + 2 + 0 + 1) with (p + 3) in H by lia.
      apply (Hrest n6); [lia|lia|right; exact HQ|exact H].
  - apply seq_yes in H; [|reflexivity]. destruct H as (n1 & o1 & n2 & o2 & -> & -> & H1 & H).
    apply tag_yes in H1 as H1'. destruct H1' as [(r1 & ->) ->].
    assert (o1 = []) by (destruct H1 as (? & H1); inversion H1; reflexivity). subst o1.
    change (length (s2l ".l(") + n2) with (2 + (0 + (1 + n2))). change ([] ++ o2) with ([] ++ [] ++ [] ++ o2).
    apply seq_make; [apply (starts_tag E true (s2l ".l") false None 20002 p); exists (s2l "(" ++ r1); reflexivity|].
    apply seq_make.
    { eexists. eapply reads_optional_none, reads_tag_no. intros (x & Hx). discriminate Hx. }
    apply seq_make; [apply (starts_tag E true (s2l "(") false None 20005); exists r1; reflexivity|].
    apply (Hrest n2); [cbn in Hn; lia|lia|left; reflexivity|]. replace (p + 2 + 0 + 1) with (p + 3) by lia. exact H.
  - revert H. apply (kepts_tag E false false N); [discriminate|exact Hrest|exact Hn|exact HQ].
Qed.

Section Whole.
  Variable E : ext.
  Hypothesis HE : ext_ok E.
  Variables b b' : bool.

  Notation rdt := (rdt E). Notation rdts := (rdts E).
  Notation kept := (kept E b b'). Notation kepts := (kepts E b b').

  Ltac clashing :=
    let r := fresh in let Hr := fresh in
    intros (r & Hr); repeat match goal with
    | H : starts_with _ _ |- _ => destruct H as (? & H)
    end; subst; unfold quote in *; first [cbn in *; congruence|match goal with X : _ <> _ |- _ => apply X; reflexivity end].
  Ltac misses := first
    [ apply lines_no; clashing
    | eapply node_no; [apply tab_nth; [discriminate|reflexivity]|]; apply seq_tag_no; clashing ].
  Ltac pre_no := repeat match goal with
    | |- Forall _ [] => apply Forall_nil
    | |- Forall _ (_ :: _) => apply Forall_cons
    end; first [eapply rdt_safe; [reflexivity|eassumption]|misses].

  Lemma rule_kept N : kept N (RSelect ALTS 21001).
  Proof.
    induction N as [N IHN] using lt_wf_ind.
    assert (IH : forall M, M < N -> forall name prop id, kept M (RNode name prop (Some 21) id)).
    { intros M HM name prop id. eapply kept_node; [discriminate|exact rule_alts|reflexivity|apply IHN, HM]. }
    assert (IHI : forall M, M < N -> forall id, kept M (ITEM id)) by (intros; apply IH; assumption).
    assert (Hseq : kept N (RNode (s2l "sequence") (Some (s2l "sequence")) (Some 10) 21010)).
    { eapply kept_node; [discriminate|reflexivity|reflexivity|]. apply kept_sequence, kepts_tag; [discriminate|].
      intros M HM. apply kepts_cons; [reflexivity|apply kept_safe; reflexivity|].
      apply (kepts_list E b b' M); [apply IHI; exact HM|]. intros. apply rule_no; [exact HE|left; reflexivity]. }
    assert (Hsel : kept N (RNode (s2l "select") (Some (s2l "select")) (Some 11) 21011)).
    { eapply kept_node; [discriminate|reflexivity|reflexivity|]. apply kept_sequence, kepts_tag; [discriminate|].
      intros M HM. apply kepts_cons; [reflexivity|apply kept_safe; reflexivity|].
      apply (kepts_list E b b' M); [apply IHI; exact HM|]. intros. apply rule_no; [exact HE|right; left; reflexivity]. }
    assert (Hgo : forall r, In r ALTS -> kept N r).
    { intros r Hr. unfold ALTS in Hr. cbn [In] in Hr.
      repeat match type of Hr with _ \/ _ => destruct Hr as [<-|Hr] end; try destruct Hr;
        first [apply kept_safe; reflexivity|exact Hseq|exact Hsel|apply lines_kept; exact IHI|
         eapply kept_node; [discriminate|reflexivity|reflexivity|]; apply kept_sequence, kepts_tag; [discriminate|]; intros M HM;
         repeat (apply kepts_cons; [reflexivity|first [apply kept_safe; reflexivity|apply IH; exact HM]|]); apply kepts_nil]. }
    intros p s n out Hn HQ H. apply select_yes in H. apply first_inv in H; [|apply Forall_forall, forallb_forall; reflexivity].
    destruct H as (pre & r & post & Heq & Hpre & Hr). apply select_yes. rewrite Heq. apply first_yes; [|apply Hgo; [rewrite Heq; apply in_or_app; right; left; reflexivity|exact Hn|exact HQ|exact Hr]].
    clear Hgo Hsel Hseq IHI IH IHN Hn HQ. unfold ALTS in Heq.
    repeat match goal with
    | Heq : _ :: _ = ?pre ++ _ :: _ |- _ => destruct pre as [|? pre]; cbn [app] in Heq; [injection Heq as <- <-|injection Heq as <- Heq;
        match goal with X : Forall _ (_ :: _) |- _ => inversion X; subst; clear X end]
    | Heq : [] = ?pre ++ _ :: _ |- _ => destruct pre; discriminate Heq
    end.
    1-4: pre_no.
    1-3, 5-7, 9-10: (eapply tag_first in Hr; [|apply tab_nth; [discriminate|reflexivity]|reflexivity]; pre_no).
    - apply reference_start in Hr. pre_no.
    - apply tag_start in Hr; [|exact HE]. destruct Hr as [Hr|[Hr|Hr]]; pre_no.
  Qed.

  (** ** The text *)

  Hypothesis HN : no_slash_number E.

  Lemma comment_start name prop id p s n out : rdt b (RNode name prop (Some 1) id) p s (Yes n out) -> hd_error s = Some 47%N.
  Proof.
    intros H. eapply node_yes in H; [|apply tab_nth; [discriminate|reflexivity]|reflexivity]. destruct H as (o & H & _).
    apply select_yes in H. apply first_inv in H; [|apply Forall_forall, forallb_forall; reflexivity].
    destruct H as (pre & r & post & Heq & _ & Hr). destruct pre as [|x pre]; cbn [app] in Heq.
    - injection Heq as <- <-. eapply tag_first in Hr; [|apply tab_nth; [discriminate|reflexivity]|reflexivity].
      destruct Hr as (rest & ->). reflexivity.
    - injection Heq as <- Heq. destruct pre as [|y pre]; [|destruct pre; discriminate Heq]. injection Heq as <- <-.
      apply sequence_yes in Hr. apply seq_yes in Hr; [|reflexivity]. destruct Hr as (n1 & o1 & n2 & o2 & _ & _ & Hr & _).
      apply tag_yes in Hr. destruct Hr as [(rest & ->) _]. reflexivity.
  Qed.

  Lemma node_slash name prop id p s : hd_error s = Some 47%N -> rdt b' (RNode name prop (Some 3) id) p s No.
  Proof.
    intros Hs. destruct s as [|c s]; [discriminate|]. injection Hs as ->.
    eapply node_no; [apply tab_nth; [discriminate|reflexivity]|]. eexists. apply reads_sequence, reads_seq_no, reads_number_none. apply HN.
  Qed.

  Lemma nodes_kept N : kept N NODES.
  Proof.
    unfold NODES. apply kept_sequence. apply kepts_cons; [reflexivity|apply kept_safe; reflexivity|].
    apply kepts_cons; [reflexivity| |apply kepts_nil].
    intros p s n out Hn HQ H. apply select_yes in H. apply first_inv in H; [|apply Forall_forall, forallb_forall; reflexivity].
    destruct H as (pre & r & post & Heq & Hpre & Hr). apply select_yes. destruct pre as [|x pre]; cbn [app] in Heq.
    - injection Heq as <- <-. apply (first_yes E b' []); [constructor|]. revert Hr.
      refine (kept_node E b b' N _ _ 3 _ _ _ eq_refl eq_refl _ p s n out Hn HQ); [discriminate|].
      apply kept_sequence. repeat (apply kepts_cons; [reflexivity|first [apply kept_safe; reflexivity|
        eapply kept_node; [discriminate|exact rule_alts|reflexivity|apply rule_kept]]|]). apply kepts_nil.
    - injection Heq as <- Heq. destruct pre as [|y pre]; [|destruct pre; discriminate Heq]. injection Heq as <- <-.
      apply (first_yes E b' [_]); [constructor; [|constructor]|apply (rdt_safe E b b'); [reflexivity|exact Hr]].
      apply node_slash. eapply comment_start, Hr.
  Qed.

  Lemma white_around s k : Forall white (firstn k s) -> Forall white (skipn k s) -> Forall white s.
  Proof. intros H1 H2. rewrite <- (firstn_skipn k s). apply Forall_app; auto. Qed.

  Lemma line_start_white nl s k : line_start nl s k -> Forall white (firstn k s).
  Proof.
    intros [a x w (Hw & Hf & _) He _|_ _]; [|constructor].
    assert (Hk : length a + 1 <= w).
    { rewrite <- (firstn_le_length w s), He, app_length. cbn [length]. lia. }
    replace (firstn (length a + 1) s) with (firstn (length a + 1) (firstn w s)) by (rewrite firstn_firstn; f_equal; lia).
    rewrite <- (firstn_skipn (length a + 1) (firstn w s)) in Hf. apply Forall_app in Hf. exact (proj1 Hf).
  Qed.

  Lemma lines_kept_all N r : kept N r -> level r = true ->
    forall r0 indented id fresh nl ind p s v ind' tr, reads_lines E (tab b) r0 indented id fresh nl ind p s v ind' tr ->
    r0 = r -> indented = false -> ind = indent_default ->
    forall n out, v = Yes n out -> n <= N -> Q b' out -> Forall white (skipn n s) ->
    exists tr', reads_lines E (tab b') r0 indented id fresh nl ind p s (Yes n out) indent_default tr'.
  Proof.
    intros Hk Hl.
    apply (reads_lines_ind' E (tab b) (fun _ _ _ _ _ _ _ => True) (fun _ _ _ _ _ _ _ => True) (fun _ _ _ _ _ _ _ => True)
      (fun _ _ _ _ _ _ _ _ _ => True) (fun _ _ _ _ _ _ _ _ _ => True)
      (fun r0 indented id fresh nl ind p s v ind' tr => r0 = r -> indented = false -> ind = indent_default ->
        forall n out, v = Yes n out -> n <= N -> Q b' out -> Forall white (skipn n s) ->
        exists tr', reads_lines E (tab b') r0 indented id fresh nl ind p s (Yes n out) indent_default tr')
      (fun _ _ _ _ _ _ _ _ _ _ => True)); try (intros; exact I).
    - intros r0 indented id fresh nl ind p s Hw -> -> -> n out Heq Hn HQ Hs. injection Heq as <- <-.
      eexists. apply reads_lines_end. exact Hw.
    - intros r0 indented id fresh ind p s Hw Hs -> -> -> n out Heq. discriminate Heq.
    - intros r0 indented id fresh nl ind p s k fresh' ind' tr Hw Hls R _ -> -> -> n out Heq Hn HQ Hs. injection Heq as <- <-.
      contradiction Hw. apply (white_around s k); [eapply line_start_white, Hls|exact Hs].
    - intros r0 indented id fresh nl ind p s k n out fresh' ind1 tr1 nl' v ind2 tr2 Hw Hls R _ Hnl R2 IH -> -> -> n' out' Heq Hn HQ Hs.
      destruct v as [m o|]; [|discriminate Heq]. cbn [after] in Heq. injection Heq as <- <-.
      inversion R; subst.
      assert (ind1 = indent_default) by (eapply (level_ind E b); [exact Hl|eassumption]). subst ind1.
      apply Q_app in HQ. destruct HQ as [HQ1 HQ2].
      destruct (IH eq_refl eq_refl eq_refl m o eq_refl) as (tr' & R3); [lia|exact HQ2|rewrite !skipn_add, Nat.add_assoc; exact Hs|].
      assert (H1 : rdt b' r (p + k) (skipn k s) (Yes n out)) by (apply Hk; [lia|exact HQ1|eexists; eassumption]).
      destruct H1 as (tr1' & H1). eexists. change (Yes (k + n + m) (out ++ o)) with (after (k + n) out (Yes m o)).
      eapply reads_lines_item; [exact Hw|exact Hls|apply reads_line_plain; exact H1|exact Hnl|exact R3].
  Qed.

  Lemma document_kept text data : Q b' data -> rdt b (nth 22 boot (RSelect [] 0)) 0 text (Yes (length text) data) ->
    rdt b' (nth 22 boot (RSelect [] 0)) 0 text (Yes (length text) data).
  Proof.
    change (nth 22 boot (RSelect [] 0)) with (RSequence [RLines STRINGS false 22002; RLines NODES false 22008; RWhitespace true 22014] 22001).
    intros HQ H. apply sequence_yes in H. apply sequence_yes.
    apply seq_yes in H; [|reflexivity]. destruct H as (n1 & o1 & n2 & o2 & Hlen & -> & H1 & H).
    apply seq_yes in H; [|reflexivity]. destruct H as (n3 & o3 & n4 & o4 & -> & -> & H2 & H).
    apply seq_yes in H; [|reflexivity]. destruct H as (n5 & o5 & n6 & o6 & -> & -> & H3 & H).
    assert (n6 = 0 /\ o6 = []) as [-> ->] by (destruct H as (? & H); inversion H; auto).
    assert (Hw : longest white (skipn n3 (skipn n1 text)) n5) by (destruct H3 as (? & H3); inversion H3; subst; assumption).
    apply Q_app in HQ. destruct HQ as [_ HQ]. apply Q_app in HQ. destruct HQ as [HQ _].
    rewrite Hlen. apply seq_make; [apply (rdt_safe E b b'); [reflexivity|exact H1]|].
    apply seq_make; [|apply seq_make; [apply (rdt_safe E b b'); [reflexivity|exact H3]|exists []; constructor]].
    destruct H2 as (tr & H2). inversion H2; subst.
    match goal with X : reads_lines _ _ _ _ _ _ _ _ _ _ _ _ _ |- _ =>
      destruct (lines_kept_all n3 NODES (nodes_kept n3) eq_refl _ _ _ _ _ _ _ _ _ _ _ X eq_refl eq_refl eq_refl n3 o3 eq_refl (le_n _) HQ) as (tr' & R) end.
    - destruct Hw as (Hw1 & Hw2 & _). rewrite !skipn_length in Hw1. rewrite firstn_all2 in Hw2; [exact Hw2|]. rewrite !skipn_length. lia.
    - eexists. constructor. exact R.
  Qed.
End Whole.
