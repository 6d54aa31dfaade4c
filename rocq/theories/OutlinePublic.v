(** C74: whole documents. *)
From Coq Require Import Ascii String List NArith Bool Arith Lia.
From Verif Require Import Base Ext Types ParseModel OptimizeModel LibModel PegSpec PegFacts ApiSpec RuleSpec RuleProofs
  ParseProofs ParsePublic SyntaxSpec SyntaxProofs TabSpec TabProofs OutlineSpec OutlineProofs Examples.
Import ListNotations.
Local Open Scope string_scope.
Local Open Scope list_scope.
Local Open Scope nat_scope.

Lemma white_longest (s : str) : exists w, longest white s w.
Proof.
  induction s as [|c s (w & Hl & Hw & Hs)].
  - exists 0. split; [reflexivity|]. split; [constructor|]. intros c H. discriminate.
  - destruct (is_ws c) eqn:Hc.
    + exists (S w). split; [cbn; lia|]. split; [cbn; constructor; assumption|]. exact Hs.
    + exists 0. split; [cbn; lia|]. split; [constructor|]. intros d [= <-] H. unfold white in H. congruence.
Qed.

Lemma all_white (s : str) : Forall white s -> longest white s (length s).
Proof.
  intros H. split; [reflexivity|]. split; [rewrite firstn_all; exact H|].
  intros c Hc. assert (nth_error s (length s) = None) by (apply nth_error_None; reflexivity). congruence.
Qed.

Section Document.
  Variable E : ext.
  Hypothesis HE : ext_ok E.
  Variables (s : syntax) (name : str) (h : rule) (head : str -> list metadata -> Prop).
  Hypothesis Hs : outline_syntax s name h.
  Hypothesis Hh : reads_heads E (s_rules s) h head.

  Theorem document_read t before behind : outline head 0 t -> ~ glued t -> Forall white before -> Forall white behind ->
    exists tokens, parse_returns E s (before ++ written t ++ behind) [] indent_default None tokens /\
      map snd tokens = nodes name t.
  Proof.
    intros Ho Hg Hb Ha. destruct Hs as (i & a & b & c & d & e & f & g & name1 & name2 & Hst & Hn).
    destruct (outline_read E HE (s_rules s) h head name Hh i e f g name2 Hn t 0%N name1 b indent_default (length before) behind (length behind)
      Ho Hg eq_refl eq_refl) as (out & ind' & Hr & Hout); [constructor; exact Ha|].
    destruct (solid_written head 0%N t (head_solid E (s_rules s) h head Hh) Ho) as (x & y & Hw & Hx).
    apply runs_reads in Hr as (tr & Hr).
    exists ([] ++ (out ++ [] ++ [])). split.
    2:{ cbn [app]. rewrite app_nil_r. exact Hout. }
    apply (parse_accepts E HE s). exists ([] ++ out ++ [] ++ []). split; [|reflexivity].
    apply (accepts_all E s indent_default _ _ _ ind' ([] ++ tr ++ [] ++ []) Hst). apply reads_sequence.
    replace (Yes (length (before ++ written t ++ behind)) ([] ++ out ++ [] ++ []))
      with (after (length before) [] (after (length (written t) + length behind) out (after 0 [] (Yes 0 [])))).
    2:{ cbn [after]. f_equal. rewrite !app_length. lia. }
    eapply reads_seq_cons.
    { apply reads_whitespace; [|left; reflexivity]. rewrite Hw. apply longest_app; assumption. }
    rewrite skipn_past. eapply reads_seq_cons; [exact Hr|].
    rewrite <- app_length, skipn_all. eapply reads_seq_cons; [|constructor].
    apply reads_whitespace; [|left; reflexivity]. apply (all_white []). constructor.
  Qed.

  Theorem document_back text tokens : ~ In tab text -> parse_returns E s text [] indent_default None tokens ->
    exists before t behind, text = before ++ written t ++ behind /\ Forall white before /\ Forall white behind /\
      outline head 0 t /\ map snd tokens = nodes name t.
  Proof.
    intros Ht Hp. destruct Hs as (i & a & b & c & d & e & f & g & name1 & name2 & Hst & Hn).
    apply (parse_accepts E HE s) in Hp as (out & Hacc & ->). cbn [app].
    inversion Hacc as [r o ind' tr Hst' Hr]; subst.
    destruct Hst as (l1 & H1). destruct Hst' as (l2 & H2). rewrite H1 in H2. apply app_inj_tail in H2 as [_ <-].
    assert (Hq : reads_seq E (s_rules s) [RWhitespace true a; RNode name1 (Some name) (Some i) b; RWhitespace true c]
      indent_default 0 text (Yes (length text) out) ind' tr) by (inversion Hr; subst; assumption). clear Hr.
    inversion Hq as [| |? ? ? ? ? n1 o1 ind1 tr1 v1 ? tr1' Hw1 Hq1]; subst.
    assert (Hx1 : longest white text n1 /\ o1 = [] /\ ind1 = indent_default) by (inversion Hw1; subst; auto).
    destruct Hx1 as ((Hl1 & Hf1 & _) & -> & ->).
    inversion Hq1 as [|? ? ? ? ? ? ? Hno|? ? ? ? ? n2 o2 ind2 tr2 v2 ? tr2' Hk Hq2]; subst; [discriminate|].
    inversion Hq2 as [|? ? ? ? ? ? ? Hno|? ? ? ? ? n3 o3 ind3 tr3 v3 ? tr3' Hw3 Hq3]; subst; [discriminate|].
    assert (Hx3 : longest white (skipn n2 (skipn n1 text)) n3 /\ o3 = []) by (inversion Hw3; subst; auto).
    destruct Hx3 as ((Hl3 & Hf3 & _) & ->).
    inversion Hq3; subst. cbn [after app] in *. rewrite app_nil_r in *.
    match goal with HH : Yes _ _ = Yes _ _ |- _ => injection HH as Hlen <- end.
    assert (Ht1 : ~ In tab (skipn n1 text)).
    { intros Hin. apply Ht. rewrite <- (firstn_skipn n1 text). apply in_or_app. right. exact Hin. }
    destruct (outline_back E HE (s_rules s) h head name Hh i e f g name2 Hn (length (skipn n1 text)) (skipn n1 text) (le_n _)
      name1 b indent_default (0 + n1) n2 o2 ind2 Ht1 eq_refl) as (t & gap & rest & He & Hn2 & Ho & Hout & Htl).
    { apply runs_reads. eauto. }
    rewrite He in Hl3, Hf3. rewrite app_assoc, Hn2, skipn_past in Hl3, Hf3.
    assert (Hall : n3 = length rest).
    { assert (length text = n1 + length (skipn n1 text)) by (rewrite skipn_length; lia).
      rewrite He, app_assoc, app_length in H. lia. }
    rewrite Hall, firstn_all in Hf3.
    exists (firstn n1 text), t, (gap ++ rest). split; [rewrite <- He; symmetry; apply firstn_skipn|].
    split; [exact Hf1|]. split; [apply Forall_app; split; [exact (tail_white _ _ Htl)|exact Hf3]|]. auto.
  Qed.

  Theorem one_tree t before behind t' before' behind' :
    outline head 0 t -> ~ glued t -> Forall white before -> Forall white behind ->
    outline head 0 t' -> ~ glued t' -> Forall white before' -> Forall white behind' ->
    before ++ written t ++ behind = before' ++ written t' ++ behind' -> nodes name t = nodes name t'.
  Proof.
    intros Ho Hg Hb Ha Ho' Hg' Hb' Ha' He.
    destruct (document_read t before behind Ho Hg Hb Ha) as (k & Hp & <-).
    destruct (document_read t' before' behind' Ho' Hg' Hb' Ha') as (k' & Hp' & <-).
    rewrite He in Hp. apply (parse_accepts E HE s) in Hp as (o & Hp & ->).
    apply (parse_accepts E HE s) in Hp' as (o' & Hp' & ->). cbn [app].
    rewrite (accepts_unique _ _ _ _ _ _ Hp Hp'). reflexivity.
  Qed.
End Document.

(** ** Numbers as items *)

Lemma number_go_bound u : forall s a b c d e n k, std_number_go u s a b c d e n = Some k -> n <= k <= n + length s.
Proof.
  induction s as [|x s IH]; intros a b c d e n k H; cbn [std_number_go length] in *.
  - destruct b; [injection H as <-; lia|discriminate].
  - repeat match type of H with (if ?q then _ else _) = _ => destruct q end;
      try discriminate; try (injection H as <-; lia); apply IH in H; lia.
Qed.

Lemma number_go_exact u : forall s a b c d e n k, std_number_go u s a b c d e n = Some k ->
  std_number_go u (firstn (k - n) s) a b c d e n = Some k /\
  Forall (fun x => ~ white x) (firstn (k - n) s).
Proof.
  assert (Hc : forall x, white x -> is_digit x = false /\ ((x =? 43) || (x =? 45))%N = false /\ (x =? 95)%N = false /\
    (x =? 46)%N = false /\ ((x =? 101) || (x =? 69))%N = false).
  { intros x Hx. unfold white, is_ws in Hx. unfold is_digit.
    repeat split; apply not_true_iff_false; intros H; revert Hx;
      repeat rewrite ?orb_true_iff, ?andb_true_iff, ?N.leb_le, ?N.eqb_eq in *; intros; lia. }
  induction s as [|x s IH]; intros a b c d e n k H; cbn [std_number_go length] in *.
  - destruct b; [|discriminate]. injection H as <-. rewrite Nat.sub_diag. split; [reflexivity|constructor].
  - assert (Hstep : forall a b c d e k, std_number_go u s a b c d e (S n) = Some k ->
      firstn (k - n) (x :: s) = x :: firstn (k - S n) s).
    { intros a' b' c' d' e' k' H'. apply number_go_bound in H'. replace (k' - n) with (S (k' - S n)) by lia. reflexivity. }
    assert (Hstop : (if b then Some n else None) = Some k -> 
      std_number_go u (firstn (k - n) (x :: s)) a b c d e n = Some k /\ Forall (fun x => ~ white x) (firstn (k - n) (x :: s))).
    { destruct b; [|discriminate]. intros [= <-]. rewrite Nat.sub_diag. split; [reflexivity|constructor]. }
    destruct (is_digit x) eqn:H1.
    { rewrite (Hstep _ _ _ _ _ _ H). cbn [std_number_go]. rewrite H1. destruct (IH _ _ _ _ _ _ _ H) as [Hi Hf].
      split; [exact Hi|]. constructor; [|exact Hf]. intros Hw. apply Hc in Hw. destruct Hw as (Hw & _). congruence. }
    destruct (a && ((x =? 43) || (x =? 45))%N) eqn:H2.
    { rewrite (Hstep _ _ _ _ _ _ H). cbn [std_number_go]. rewrite H1, H2. destruct (IH _ _ _ _ _ _ _ H) as [Hi Hf].
      split; [exact Hi|]. constructor; [|exact Hf]. intros Hw. apply Hc in Hw. destruct Hw as (_ & Hw & _).
      rewrite Hw, andb_false_r in H2. discriminate. }
    destruct (e && ((x =? 43) || (x =? 45))%N) eqn:H3.
    { rewrite (Hstep _ _ _ _ _ _ H). cbn [std_number_go]. rewrite H1, H2, H3. destruct (IH _ _ _ _ _ _ _ H) as [Hi Hf].
      split; [exact Hi|]. constructor; [|exact Hf]. intros Hw. apply Hc in Hw. destruct Hw as (_ & Hw & _).
      rewrite Hw, andb_false_r in H3. discriminate. }
    destruct (u && b && (x =? 95)%N) eqn:H4.
    { rewrite (Hstep _ _ _ _ _ _ H). cbn [std_number_go]. rewrite H1, H2, H3, H4. destruct (IH _ _ _ _ _ _ _ H) as [Hi Hf].
      split; [exact Hi|]. constructor; [|exact Hf]. intros Hw. apply Hc in Hw. destruct Hw as (_ & _ & Hw & _).
      rewrite Hw, andb_false_r in H4. discriminate. }
    destruct (negb c && negb d && (x =? 46)%N) eqn:H5.
    { rewrite (Hstep _ _ _ _ _ _ H). cbn [std_number_go]. rewrite H1, H2, H3, H4, H5. destruct (IH _ _ _ _ _ _ _ H) as [Hi Hf].
      split; [exact Hi|]. constructor; [|exact Hf]. intros Hw. apply Hc in Hw. destruct Hw as (_ & _ & _ & Hw & _).
      rewrite Hw, andb_false_r in H5. discriminate. }
    destruct (b && negb d && ((x =? 101) || (x =? 69))%N) eqn:H6; [|exact (Hstop H)].
    rewrite (Hstep _ _ _ _ _ _ H). cbn [std_number_go]. rewrite H1, H2, H3, H4, H5, H6. destruct (IH _ _ _ _ _ _ _ H) as [Hi Hf].
    split; [exact Hi|]. constructor; [|exact Hf]. intros Hw. apply Hc in Hw. destruct Hw as (_ & _ & _ & _ & Hw).
    rewrite Hw, andb_false_r in H6. discriminate.
Qed.

(** White space, or the end, stops a number. *)
Lemma number_go_stop u rest : rest = [] \/ (exists c y, rest = c :: y /\ white c) ->
  forall s a b c d e n, std_number_go u s a b c d e n = Some (n + length s) ->
  std_number_go u (s ++ rest) a b c d e n = Some (n + length s).
Proof.
  intros Hr. assert (Hend : forall a b c d e n, std_number_go u rest a b c d e n = if b then Some n else None).
  { intros. destruct Hr as [->|(x & y & -> & Hx)]; [reflexivity|]. cbn [std_number_go].
    assert (Hc : is_digit x = false /\ ((x =? 43) || (x =? 45))%N = false /\ (x =? 95)%N = false /\
      (x =? 46)%N = false /\ ((x =? 101) || (x =? 69))%N = false).
    { unfold white, is_ws in Hx. unfold is_digit.
      repeat split; apply not_true_iff_false; intros H; revert Hx;
        repeat rewrite ?orb_true_iff, ?andb_true_iff, ?N.leb_le, ?N.eqb_eq in *; intros; lia. }
    destruct Hc as (H1 & H2 & H3 & H4 & H5). rewrite H1, H2, H3, H4, H5, !andb_false_r. reflexivity. }
  induction s as [|x s IH]; intros a b c d e n H.
  - cbn [app]. rewrite Hend. exact H.
  - cbn [std_number_go app length] in *. replace (n + S (length s)) with (S n + length s) in * by lia.
    repeat match type of H with (if ?q then _ else _) = _ => destruct q end;
      try (apply IH; exact H); try exact H; exfalso; discriminate H || (injection H as H; lia).
Qed.

Theorem numbers_are_heads refs property id :
  reads_heads std_ext refs (RNumber false (Some property) id) (number_head std_ext property).
Proof.
  split.
  - intros x m (Hn & v & Hv & ->). cbn in Hn, Hv.
    destruct (number_go_exact _ _ _ _ _ _ _ _ _ Hn) as [_ Hf]. rewrite Nat.sub_0_r, firstn_all in Hf.
    assert (Hne : x <> []) by (intros ->; discriminate). split.
    + split.
      * destruct x as [|c y]; [congruence|]. exists c, y. split; [reflexivity|]. inversion Hf. assumption.
      * destruct (exists_last Hne) as (y & c & ->). exists y, c. split; [reflexivity|].
        apply Forall_app in Hf as [_ Hf]. inversion Hf. assumption.
    + intros ind p rest Hr. exists [(Rng p (length x), MF64 property v)]. split; [|reflexivity].
      apply runs_reads. eexists. apply (reads_number std_ext refs false (Some property) id ind p (x ++ rest) (length x) v).
      * cbn. unfold std_number. apply (number_go_stop false rest Hr x _ _ _ _ _ 0). exact Hn.
      * rewrite firstn_length_app. exact Hv.
  - intros ind p s n out ind' H. apply runs_reads in H as (tr & H). inversion H; subst.
    match goal with HH : x_number std_ext _ _ = _ |- _ => rename HH into Hn end.
    match goal with HH : x_parse_number std_ext _ _ = _ |- _ => rename HH into Hv end.
    cbn in Hn. split; [reflexivity|].
    pose proof (number_go_bound _ _ _ _ _ _ _ _ _ Hn) as Hb. split; [lia|].
    destruct (number_go_exact _ _ _ _ _ _ _ _ _ Hn) as [He _]. rewrite Nat.sub_0_r in He.
    split; [rewrite firstn_length, Nat.min_l by lia; exact He|]. eexists. split; [exact Hv|reflexivity].
Qed.

Theorem indent_example_outline : exists s h,
  syntax_returns std_ext indent_rules (inl s) /\ outline_syntax s (tx "node") h /\
  reads_heads std_ext (s_rules s) h (number_head std_ext (tx "num")).
Proof.
  assert (Hs : exists s, syntax_returns std_ext indent_rules (inl s) /\ exists i a b c d e f g name1 name2 id,
    s_rules s = [nth 0 (s_rules s) (RWhitespace true 0); RSequence [RWhitespace true a; RNode name1 (Some (tx "node")) (Some i) b; RWhitespace true c] d] /\
    nth_error (s_rules s) i =
      Some (RSequence [RNumber false (Some (tx "num")) id; RLines (RNode name2 (Some (tx "node")) (Some i) e) true f] g)).
  { eexists. split; [exists 200; vm_compute; reflexivity|]. do 11 eexists. split; vm_compute; reflexivity. }
  destruct Hs as (s & Hs & i & a & b & c & d & e & f & g & name1 & name2 & id & Hst & Hn).
  exists s, (RNumber false (Some (tx "num")) id). split; [exact Hs|]. split; [|apply numbers_are_heads].
  exists i, a, b, c, d, e, f, g, name1, name2. split; [|exact Hn].
  exists [nth 0 (s_rules s) (RWhitespace true 0)]. exact Hst.
Qed.

Lemma page_columns : exists s tokens,
  syntax_returns std_ext indent_rules (inl s) /\
  parse_returns std_ext s (tx "1  2" ++ line_break ++ tx "   3") [] indent_default None tokens /\
  shape (map snd tokens) = tx "(1(2(3)))".
Proof.
  do 2 eexists. split; [exists 200; vm_compute; reflexivity|]. split; [exists 200; vm_compute; reflexivity|].
  vm_compute. reflexivity.
Qed.

Lemma item_head d : std_number false [d] = Some 1 -> std_parse_number false [d] <> None ->
  number_head std_ext (tx "num") [d] (item d).
Proof.
  intros Hn Hp. split; [exact Hn|].
  assert (H : forall o : option f64, o <> None -> exists v, o = Some v /\
    match o with Some v => [MF64 (tx "num") v] | None => [] end = [MF64 (tx "num") v]).
  { intros [v|] Ho; [|congruence]. exists v. auto. }
  exact (H _ Hp).
Qed.

Lemma leaf_outline d i : std_number false [d] = Some 1 -> std_parse_number false [d] <> None ->
  outline (number_head std_ext (tx "num")) i (leaf d).
Proof. intros Hn Hp. constructor; [apply item_head; assumption|exact I|congruence|constructor]. Qed.

Lemma break_breaks : breaks line_break.
Proof. exists []. split; [reflexivity|constructor]. Qed.

Lemma glued_misread : exists s tokens,
  syntax_returns std_ext indent_rules (inl s) /\
  outline (number_head std_ext (tx "num")) 0 glued_tree /\
  parse_returns std_ext s (written glued_tree) [] indent_default None tokens /\
  map snd tokens <> nodes (tx "node") glued_tree.
Proof.
  do 2 eexists. split; [exists 200; vm_compute; reflexivity|]. split.
  - constructor; [apply item_head; [reflexivity|discriminate]|split; [left; reflexivity|constructor]|intros _; split; reflexivity || discriminate|].
    constructor; [|constructor]. apply leaf_outline; [reflexivity|discriminate].
  - split; [exists 200; vm_compute; reflexivity|]. vm_compute. discriminate.
Qed.

Lemma indent_document :
  outline (number_head std_ext (tx "num")) 0 indent_tree /\ ~ glued indent_tree /\
  indent_text = line_break ++ written indent_tree ++ line_break ++ tx "    " /\ ~ In tab indent_text /\
  shape (nodes (tx "node") indent_tree) = tx "(1(2(3)(4))(5(6)))" /\
  exists s tokens, syntax_returns std_ext indent_rules (inl s) /\
    parse_returns std_ext s indent_text [] indent_default None tokens /\
    map snd tokens = nodes (tx "node") indent_tree.
Proof.
  split.
  { constructor; [apply item_head; [reflexivity|discriminate]| | |].
    - split; [right; exact break_breaks|]. constructor; [exact break_breaks|constructor].
    - intros _. split; [discriminate|reflexivity].
    - constructor; [|constructor; [|constructor]]; (constructor; [apply item_head; [reflexivity|discriminate]| | |]).
      + split; [right; exact break_breaks|]. constructor; [exact break_breaks|constructor].
      + intros _. split; [discriminate|reflexivity].
      + repeat (apply Forall_cons; [apply leaf_outline; [reflexivity|discriminate]|]); apply Forall_nil.
      + split; [right; exact break_breaks|]. constructor.
      + intros _. split; [discriminate|reflexivity].
      + repeat (apply Forall_cons; [apply leaf_outline; [reflexivity|discriminate]|]); apply Forall_nil. }
  split; [intros []|].
  split; [vm_compute; reflexivity|].
  split; [vm_compute; intuition discriminate|]. split; [vm_compute; reflexivity|].
  do 2 eexists. split; [exists 200; vm_compute; reflexivity|]. split; [exists 200; vm_compute; reflexivity|].
  vm_compute. reflexivity.
Qed.

Lemma minus_inside : exists s tokens v,
  syntax_returns std_ext indent_rules (inl s) /\
  parse_returns std_ext s (tx "1-2") [] indent_default None tokens /\
  x_parse_number std_ext false (tx "-2") = Some v /\
  map snd tokens = [StartNode (tx "node")] ++ item 49 ++
    [StartNode (tx "node"); MF64 (tx "num") v; EndNode (tx "node"); EndNode (tx "node")].
Proof.
  do 3 eexists. split; [exists 200; vm_compute; reflexivity|]. split; [exists 200; vm_compute; reflexivity|].
  split; [vm_compute; reflexivity|]. vm_compute. reflexivity.
Qed.
