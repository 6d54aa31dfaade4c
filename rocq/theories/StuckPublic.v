(** Reading a syntax runs forever exactly when a select of it is stuck. *)
From Coq Require Import Ascii String List NArith Bool Arith Lia.
From Verif Require Import Base Ext Types ParseModel OptimizeModel ConvertModel BootstrapRules LibModel DataSpec
  TotalSpec OptSpec ConvertSpec SyntaxSpec OptProofs OptProofs2 FuelProofs ConvertValid SyntaxProofs
  SyntaxProofs2 Examples StuckSpec StuckProofs.
Import ListNotations.
Local Open Scope string_scope.
Local Open Scope list_scope.
Local Open Scope nat_scope.

Lemma update_refs_fast names r : forall x, occurs_in x (rule_update_refs names r) ->
  forall table args tail id, x = RFastSelect table args tail id ->
  exists y, occurs_in y r /\ ~ no_index y.
Proof.
  induction r as [r IH] using rule_ind'. intros x Hx table args tail id Heq.
  assert (Hsub : forall c c0, In c0 (children r) -> c = rule_update_refs names c0 -> occurs_in x c ->
    exists y, occurs_in y r /\ ~ no_index y).
  { intros c c0 Hc -> Ho. destruct (IH c0 Hc x Ho _ _ _ _ Heq) as (y & Hy & Hn).
    exists y. split; [|exact Hn]. eapply occurs_below; eassumption. }
  assert (Hmap : forall l c, l = children r -> In c (map (rule_update_refs names) l) -> occurs_in x c ->
    exists y, occurs_in y r /\ ~ no_index y).
  { intros l c -> Hin Ho. apply in_map_iff in Hin as (c0 & <- & Hin). eapply Hsub; eauto. }
  destruct r; cbn [rule_update_refs] in Hx;
    try (inversion Hx as [|? c Hy Hz]; subst; [discriminate|cbn in Hy];
         first [contradiction | eapply Hmap; [reflexivity|exact Hy|exact Hz] |
           repeat (destruct Hy as [<-|Hy]; [eapply Hsub; [|reflexivity|exact Hz]; cbn; tauto|]); contradiction]).
  - exists (RFastSelect table0 args0 tail0 id0). split; [apply occurs_here|]. cbn. tauto.
  - destruct index; inversion Hx as [|? c Hy Hz]; subst; try discriminate; cbn in Hy; contradiction.
Qed.

Lemma read_unoptimized E text s : rules_read E text (inl s) -> unoptimized s.
Proof.
  intros (f & H) table args tail id (top & Ht & Ho). unfold syntax_unoptimized in H.
  destruct (optimize f bootstrap_rules) as [boot| |]; try discriminate. cbn [obind] in H.
  destruct (parse E f boot text []) as [[[e|] tokens]| |]; try discriminate. cbn [obind] in H.
  destruct (convert f tokens []) as [[[s0|] ig]| |] eqn:Hc; try discriminate. cbn [obind] in H.
  injection H as ->.
  destruct (convert_unresolved tokens [] s ig (ex_intro _ f Hc)) as (s1 & [_ Hg] & ->).
  cbn [update_refs s_rules] in Ht. apply in_map_iff in Ht as (r0 & <- & Hin).
  destruct (update_refs_fast _ _ _ Ho _ _ _ _ eq_refl) as (y & Hy & Hn). apply Hn.
  exact (proj1 (Forall_forall _ _) Hg _ Hin y Hy).
Qed.

Lemma rules_read_unique E text a b : rules_read E text a -> rules_read E text b -> a = b.
Proof.
  intros (f & Hf) (g & Hg).
  destruct (syntax_unoptimized_mono E f (f + g) text) as [H|H]; [lia|congruence|].
  destruct (syntax_unoptimized_mono E g (f + g) text) as [K|K]; [lia|congruence|].
  congruence.
Qed.

Section Reading.
  Variable E : ext.
  Hypothesis HE : ext_ok E.
  Variable text : str.
  Hypothesis Hfit : columns_fit indent_default text.
  Hypothesis Hids : forall tokens, text_data E text tokens -> ids_small tokens.
  Hypothesis Htags : forall s, rules_read E text (inl s) -> tags_real s.

  Lemma read_stuck s : rules_read E text (inl s) -> stuck s -> syntax_diverges E text.
  Proof.
    intros Hs Hst fuel. unfold lib_syntax.
    destruct (syntax_unoptimized E fuel text) as [res| |] eqn:Hf; [|exfalso|reflexivity].
    - rewrite (rules_read_unique E text res (inl s) (ex_intro _ fuel Hf) Hs). cbn [obind].
      rewrite (stuck_diverges s (proj2 (rules_read_valid _ _ _ Hs)) (Htags s Hs) (read_unoptimized _ _ _ Hs) Hst).
      reflexivity.
    - apply (proj2 (reading_returns E HE text Hfit Hids)). exists fuel. exact Hf.
  Qed.

  Lemma read_or_stuck : (exists result, syntax_returns E text result) \/
    exists s, rules_read E text (inl s) /\ stuck s.
  Proof.
    destruct (proj1 (reading_returns E HE text Hfit Hids)) as (res & f & Hf).
    destruct res as [s|e].
    - pose proof (ex_intro _ f Hf : rules_read E text (inl s)) as Hs.
      destruct (returns_or_stuck s (proj2 (rules_read_valid _ _ _ Hs)) (Htags s Hs) (read_unoptimized _ _ _ Hs))
        as [(s' & g & Hg)|Hst]; [left|right; exists s; split; assumption].
      exists (inl s'), (f + g). unfold lib_syntax.
      destruct (syntax_unoptimized_mono E f (f + g) text) as [Hq|Hq]; [lia|congruence|].
      rewrite <- Hq, Hf. cbn [obind].
      destruct (optimize_mono g (f + g) s) as [Hr|Hr]; [lia|congruence|].
      rewrite <- Hr, Hg. reflexivity.
    - left. exists (inr e), f. unfold lib_syntax. rewrite Hf. reflexivity.
  Qed.

  Theorem syntax_diverges_iff : syntax_diverges E text <->
    exists s, rules_read E text (inl s) /\ stuck s.
  Proof.
    split.
    - intros H. destruct read_or_stuck as [(res & f & Hf)|Hs]; [|exact Hs]. rewrite H in Hf. discriminate.
    - intros (s & Hs & Hst). eapply read_stuck; eassumption.
  Qed.

  Theorem syntax_returns_iff : (exists result, syntax_returns E text result) <->
    forall s, rules_read E text (inl s) -> ~ stuck s.
  Proof.
    split.
    - intros (res & f & Hf) s Hs Hst. rewrite (read_stuck s Hs Hst) in Hf. discriminate.
    - intros H. destruct read_or_stuck as [Hs|(s & Hs & Hst)]; [exact Hs|]. destruct (H s Hs Hst).
  Qed.
End Reading.

(** ** Cases *)

Lemma hanging_stuck : stuck hanging.
Proof.
  exists [RTag (tx "b") false false None 2001; RNode (tx "a") None (Some 0) 2002], 2003%N. split.
  - eexists. split; [right; left; reflexivity|apply occurs_here].
  - exists [RTag (tx "b") false false None 2001], (RNode (tx "a") None (Some 0) 2002), [], [98%N].
    split; [reflexivity|]. split; [simpl; lia|].
    split; [constructor; [apply (begins_tag _ 98%N)|constructor]|].
    split; [constructor; [intros []|constructor]|].
    exists 0. eexists. split; [apply reaches_ref; constructor|]. split; [reflexivity|].
    apply reaches_ref. eapply swr_item; constructor.
Qed.

(** A sum, left recursive below a select. *)
Definition sum_text : str :=
  tx "1 sum = {[sum ""+"" ""x""] ""x""}" ++ line_end ++ tx "2 doc = sum".

Definition sum_syntax : syntax :=
  Syn [RSelect [RSequence [RNode (tx "sum") None (Some 0) 1001; RTag (tx "+") false false None 1002;
                           RTag (tx "x") false false None 1003] 1004;
                RTag (tx "x") false false None 1005] 1006;
       RNode (tx "sum") None (Some 0) 2001]
      [tx "sum"; tx "doc"].

Lemma sum_read : rules_read std_ext sum_text (inl sum_syntax).
Proof. exists 300. vm_compute. reflexivity. Qed.

Lemma sum_left_recursive : ~ no_left_recursion (s_rules sum_syntax).
Proof.
  intros (rank & H).
  assert (K : rank 0 < rank 0); [|lia]. eapply (H 0); [reflexivity|].
  eapply leads_below; [apply first_select; left; reflexivity|].
  eapply leads_below; [apply (first_sequence _ []); constructor|]. apply leads_here.
Qed.

Lemma sum_syntax_returns : exists s, syntax_returns std_ext sum_text (inl s).
Proof. eexists. exists 300. vm_compute. reflexivity. Qed.

(** The endless rule is not asked for behind a byte that comes twice. *)
Definition twice_text : str :=
  tx "1 a = [a ""x""]" ++ line_end ++ tx "2 doc = {""b"" ""bc"" a}".

Lemma twice_returns : exists s, syntax_returns std_ext twice_text (inl s).
Proof. eexists. exists 300. vm_compute. reflexivity. Qed.
