(** Valid syntaxes never panic on texts whose columns fit. *)
From Coq Require Import List NArith Bool Arith Lia.
From Verif Require Import Base Ext Types ParseModel PegSpec PrimProofs DataSpec ApiSpec PegFacts
  TotalSpec.
Import ListNotations.

Lemma utf8_first_lt c : real_char c -> N.to_nat (utf8_first c) < 256.
Proof.
  unfold real_char, utf8_first. intros H.
  destruct (N.ltb_spec c 128); [lia|].
  destruct (N.ltb_spec c 2048); [|destruct (N.ltb_spec c 65536)].
  - assert (c / 64 < 32)%N by (apply N.div_lt_upper_bound; lia). lia.
  - assert (c / 4096 < 16)%N by (apply N.div_lt_upper_bound; lia). lia.
  - assert (c / 262144 < 5)%N by (apply N.div_lt_upper_bound; lia). lia.
Qed.

(** ** Widths *)

Lemma indentation_width tabs n s k : indentation tabs n s k ->
  (n <= N.max 1 tabs * N.of_nat k)%N /\ k <= length s.
Proof.
  induction 1 as [s|n s k Hn H [IH IHk]|n s k Hn H [IH IHk]|n s Hn]; simpl length; split; lia.
Qed.

Lemma width_le tabs s : (width tabs s <= N.max 1 tabs * N.of_nat (length s))%N.
Proof. induction s as [|c s IH]; simpl length; cbn [width]; [lia|]. destruct (N.eqb c tab); lia. Qed.

Lemma line_width tabs n s k b : indentation tabs n s k -> b <= length (skipn k s) ->
  (N.max 1 tabs * N.of_nat (length s) < u32_max)%N ->
  (n + width tabs (firstn b (skipn k s)) + 1 <= u32_max)%N.
Proof.
  intros Hi Hb Hs. apply indentation_width in Hi as [Hn Hk].
  pose proof (width_le tabs (firstn b (skipn k s))) as Hw.
  rewrite firstn_length_le in Hw by exact Hb. rewrite skipn_length in Hb.
  assert (N.max 1 tabs * N.of_nat k + N.max 1 tabs * N.of_nat b
          <= N.max 1 tabs * N.of_nat (length s))%N.
  { rewrite <- N.mul_add_distr_l. apply N.mul_le_mono_l. lia. }
  lia.
Qed.

Lemma columns_fit_skip ind s n : columns_fit ind s -> columns_fit ind (skipn n s).
Proof.
  intros [Hr Hc]. split.
  - rewrite <- (firstn_skipn n s) in Hr. apply Forall_app in Hr. tauto.
  - rewrite skipn_length.
    assert (N.max 1 (i_tab_spaces ind) * N.of_nat (length s - n)
            <= N.max 1 (i_tab_spaces ind) * N.of_nat (length s))%N.
    { apply N.mul_le_mono_l. lia. }
    lia.
Qed.

Lemma columns_fit_tabs ind ind' s : i_tab_spaces ind' = i_tab_spaces ind ->
  columns_fit ind s -> columns_fit ind' s.
Proof. unfold columns_fit. intros ->. auto. Qed.

(** ** No panic *)

(** Keeps the width of tabs, and does not panic. *)
Definition calm {A} (tabs : N) (get : A -> indent) (o : outcome A) : Prop :=
  match o with
  | Done x => i_tab_spaces (get x) = tabs
  | Panic => False
  | OutOfFuel => True
  end.

Lemma calm_bind {A B} tabs get get' (o : outcome A) (k : A -> outcome B) :
  calm tabs get o -> (forall x, i_tab_spaces (get x) = tabs -> calm tabs get' (k x)) ->
  calm tabs get' (obind o k).
Proof. destruct o; simpl; auto. Qed.

Section Safe.
  Variable E : ext.
  Variable syn : syntax.
  Hypothesis Hvalid : valid syn.

  Definition refs := s_rules syn.

  Definition ind3 (x : pres * list tok * indent) : indent := snd x.

  Definition calm_parser (P : parser) : Prop :=
    forall toks st t ind, columns_fit ind (src t) ->
      calm (i_tab_spaces ind) ind3 (P toks st t ind).

  Lemma fit_consume ind t n : columns_fit ind (src t) -> columns_fit ind (src (rt_consume t n)).
  Proof. apply columns_fit_skip. Qed.

  Lemma calm_next {B} (P : parser) (get : B -> indent) k toks st t ind tabs :
    calm_parser P -> columns_fit ind (src t) -> i_tab_spaces ind = tabs ->
    (forall res toks' ind', columns_fit ind' (src t) -> i_tab_spaces ind' = tabs ->
       calm tabs get (k (res, toks', ind'))) ->
    calm tabs get (obind (P toks st t ind) k).
  Proof.
    intros HP Hf <- Hk. eapply calm_bind; [apply HP; exact Hf|].
    intros [[res toks'] ind'] Ht. apply Hk; [|exact Ht].
    eapply columns_fit_tabs; eassumption.
  Qed.

  Lemma calm_emit property mk r toks st tabs (k : list tok * nat -> outcome (pres * list tok * indent)) :
    (forall toks' st', calm tabs ind3 (k (toks', st'))) ->
    calm tabs ind3 (k (emit property mk r toks st)).
  Proof. intros H. destruct (emit property mk r toks st). apply H. Qed.

  Lemma calm_select p args id : Forall (fun r => calm_parser (p r)) args ->
    forall oe toks st t ind, columns_fit ind (src t) ->
      calm (i_tab_spaces ind) ind3 (select_loop p args id toks st t ind oe).
  Proof.
    induction 1 as [|r rest Hr Hrest IH]; intros oe toks st t ind Hf; simpl.
    - destruct oe; reflexivity.
    - eapply calm_next; [exact Hr|exact Hf|reflexivity|]. intros res toks' ind' Hf' Ht.
      destruct res; [exact Ht|]. rewrite <- Ht. apply IH. exact Hf'.
  Qed.

  Lemma calm_seq p args : Forall (fun r => calm_parser (p r)) args ->
    forall start oe toks st t ind, columns_fit ind (src t) ->
      calm (i_tab_spaces ind) ind3 (seq_loop p args start toks st t ind oe).
  Proof.
    induction 1 as [|r rest Hr Hrest IH]; intros start oe toks st t ind Hf; simpl; [reflexivity|].
    eapply calm_next; [exact Hr|exact Hf|reflexivity|]. intros res toks' ind' Hf' Ht.
    destruct res; [|exact Ht]. rewrite <- Ht. apply IH. apply fit_consume. exact Hf'.
  Qed.

  Lemma calm_tail p args oe : Forall (fun r => calm_parser (p r)) args -> args <> [] ->
    calm_parser (fast_tail p args oe).
  Proof.
    intros Ha Hne toks st t ind Hf. unfold fast_tail.
    destruct args as [|a args]; [destruct (Hne eq_refl)|].
    destruct (nth_error (a :: args) (length (a :: args) - 1)) as [r|] eqn:Hr.
    - apply nth_error_In in Hr. rewrite Forall_forall in Ha.
      eapply calm_next; [apply Ha; exact Hr|exact Hf|reflexivity|].
      intros [] toks' ind' _ Ht; exact Ht.
    - apply nth_error_None in Hr. simpl in Hr. lia.
  Qed.

  Lemma calm_fast p table args tail id :
    Forall (fun r => calm_parser (p r)) args ->
    256 <= length table -> (forall i, In i table -> i = 255 \/ i < length args) ->
    (tail = true -> args <> []) ->
    calm_parser (parse_fast_select p table args tail id).
  Proof.
    intros Ha Hl Hi Ht toks st t ind Hf. unfold parse_fast_select.
    destruct (src t) as [|c s] eqn:Hs; [reflexivity|].
    assert (Hc : N.to_nat (utf8_first c) < 256).
    { apply utf8_first_lt. destruct Hf as [Hr _]. inversion Hr. assumption. }
    rewrite <- Hs in Hf.
    destruct (nth_error table (N.to_nat (utf8_first c))) as [i|] eqn:Hn.
    2: { apply nth_error_None in Hn. lia. }
    apply nth_error_In in Hn. apply Hi in Hn.
    destruct (Nat.eqb_spec i 255) as [->|Hne].
    - destruct tail; [|reflexivity]. apply calm_tail; auto.
    - destruct Hn as [Hn|Hn]; [contradiction|].
      destruct (nth_error args i) as [r|] eqn:Hr; [|apply nth_error_None in Hr; lia].
      apply nth_error_In in Hr. pose proof Ha as Ha'. rewrite Forall_forall in Ha'.
      eapply calm_next; [apply Ha'; exact Hr|exact Hf|reflexivity|].
      intros res toks' ind' Hf' Ht'. destruct res; [exact Ht'|]. destruct tail; [|exact Ht'].
      rewrite <- Ht'. apply calm_tail; auto.
  Qed.

  Lemma calm_repeat P optional : calm_parser P ->
    forall f start first toks st t ind oe, columns_fit ind (src t) ->
      calm (i_tab_spaces ind) ind3 (repeat_loop f P optional start first toks st t ind oe).
  Proof.
    intros HP. induction f as [|f IH]; intros start first toks st t ind oe Hf; simpl; [exact I|].
    eapply calm_next; [exact HP|exact Hf|reflexivity|]. intros res toks' ind' Hf' Ht.
    destruct res; [|destruct (_ && _); exact Ht]. rewrite <- Ht. apply IH. apply fit_consume. exact Hf'.
  Qed.

  Lemma calm_sep P Q optional trail : calm_parser P -> calm_parser Q ->
    forall f start first toks st t ind oe, columns_fit ind (src t) ->
      calm (i_tab_spaces ind) ind3 (sep_loop f P Q optional trail start first toks st t ind oe).
  Proof.
    intros HP HQ. induction f as [|f IH]; intros start first toks st t ind oe Hf; simpl; [exact I|].
    eapply calm_next; [exact HP|exact Hf|reflexivity|]. intros res toks' ind' Hf' Ht.
    destruct res as [rg st' err|e].
    - rewrite <- Ht. eapply calm_next; [exact HQ|apply fit_consume; exact Hf'|reflexivity|].
      intros [] toks2 ind2 Hf2 Ht2; [|exact Ht2].
      rewrite <- Ht2. apply IH. apply fit_consume. exact Hf2.
    - destruct (if first then negb optional else negb trail); exact Ht.
  Qed.

  Definition ind_ls {A} (x : A * lines_state) : indent := ls_ind (snd x).

  Lemma calm_item P o t first ls ind : calm_parser P -> columns_fit ind (src t) ->
    (i_indent ind + 1 <= u32_max)%N ->
    calm (i_tab_spaces ind) ind_ls (lines_item_indent P o t first ls ind).
  Proof.
    intros HP Hf Hi. unfold lines_item_indent, add_u32.
    destruct (N.leb_spec (i_indent ind + 1) u32_max) as [H|H]; [|lia]. simpl obind.
    eapply calm_next; [exact HP| |reflexivity|].
    - eapply columns_fit_tabs; [|exact Hf]. reflexivity.
    - intros [] toks' ind' _ Ht; exact Ht.
  Qed.

  Lemma calm_closure P (indented : bool) t ls : calm_parser P -> columns_fit (ls_ind ls) (src t) ->
    calm (i_tab_spaces (ls_ind ls)) ind_ls
      ((if indented then lines_closure_indent P else lines_closure_plain P) t ls).
  Proof.
    intros HP Hf. destruct indented.
    - unfold lines_closure_indent.
      destruct (skip_indent _ _ _) as [k|] eqn:Hk; [|reflexivity].
      apply skip_indent_spec in Hk.
      assert (Hw : forall b, b <= length (skipn k (src t)) ->
        (i_indent (ls_ind ls) + width (i_tab_spaces (ls_ind ls)) (firstn b (skipn k (src t))) + 1
         <= u32_max)%N).
      { intros b Hb. eapply line_width; [exact Hk|exact Hb|apply Hf]. }
      destruct (_ && _).
      + pose proof (align_indent_cases (i_tab_spaces (ls_ind ls)) (src (rt_consume t k))
          (i_indent (ls_ind ls))) as Hal. cbv zeta in Hal.
        specialize (Hw (span_len blankb (skipn k (src t))) (span_len_le _ _)).
        change (src (rt_consume t k)) with (skipn k (src t)) in *.
        destruct Hal as [-> | [_ Hlt]]; [|lia]. cbn [obind].
        match goal with |- calm ?tabs _ (lines_item_indent _ _ _ _ _ (set_indent ?i ?n)) =>
          change tabs with (i_tab_spaces (set_indent i n)) end.
        apply calm_item; [exact HP| |exact Hw].
        eapply columns_fit_tabs; [|do 2 apply fit_consume; exact Hf]. reflexivity.
      + destruct (rt_tag _ _); [reflexivity|].
        specialize (Hw 0 ltac:(lia)). simpl in Hw. rewrite N.add_0_r in Hw.
        apply calm_item; [exact HP|apply fit_consume; exact Hf|exact Hw].
    - unfold lines_closure_plain. eapply calm_next; [exact HP|exact Hf|reflexivity|].
      intros [] toks' ind' _ Ht; exact Ht.
  Qed.

  Lemma calm_lines P (indented : bool) : calm_parser P ->
    forall f nl t ls, columns_fit (ls_ind ls) (src t) ->
      calm (i_tab_spaces (ls_ind ls)) ind_ls
        (lines_loop E (if indented then lines_closure_indent P else lines_closure_plain P)
           f nl t ls).
  Proof.
    intros HP. induction f as [|f IH]; intros nl t ls Hf; [exact I|]. cbn [lines_loop].
    destruct (Nat.eqb _ _); [reflexivity|].
    set (cl := if indented then lines_closure_indent P else lines_closure_plain P) in *.
    assert (Hgo : forall t1, columns_fit (ls_ind ls) (src t1) ->
      calm (i_tab_spaces (ls_ind ls)) ind_ls
      (do (res, st1) <- cl t1 ls;
       match res with
       | None => Done (inl t1, st1)
       | Some r => lines_loop E cl f (ends_with_newline (rt_raw_string t1 (r_len r)))
                     (rt_consume t1 (r_len r)) st1
       end)).
    { intros t1 Hf1. eapply calm_bind; [apply calm_closure; assumption|].
      intros [[r|] ls1] Ht; [|exact Ht]. unfold ind_ls in Ht. simpl in Ht. rewrite <- Ht.
      apply IH. apply fit_consume. eapply columns_fit_tabs; eassumption. }
    destruct (after_last_newline _); [apply Hgo; apply fit_consume; exact Hf|].
    destruct nl; [apply Hgo; exact Hf|reflexivity].
  Qed.

  Theorem parse_rule_calm f : forall r, occurs syn r -> calm_parser (parse_rule E f refs r).
  Proof.
    induction f as [|f IH]; intros r Ho; [intros toks st t ind _; exact I|].
    assert (Hall : forall args, (forall c, In c args -> In c (children r)) ->
      Forall (fun c => calm_parser (parse_rule E f refs c)) args).
    { intros args Ha. apply Forall_forall. intros c Hc. apply IH.
      eapply occurs_child; [exact Ho|]. apply Ha. exact Hc. }
    assert (Hone : forall c, In c (children r) -> calm_parser (parse_rule E f refs c)).
    { intros c Hc. apply IH. eapply occurs_child; eassumption. }
    pose proof (Hvalid r Ho) as Hv.
    intros toks st t ind Hf. destruct r; cbn [parse_rule].
    - unfold parse_whitespace. destruct (_ && _); reflexivity.
    - unfold parse_tag. destruct (rt_tag t text); destruct not;
        try (match goal with |- context [emit ?a ?b ?c ?d ?e] => destruct (emit a b c d e) end); reflexivity.
    - unfold parse_until. destruct (_ && _);
        try (match goal with |- context [emit ?a ?b ?c ?d ?e] => destruct (emit a b c d e) end); reflexivity.
    - unfold parse_until. destruct (_ && _);
        try (match goal with |- context [emit ?a ?b ?c ?d ?e] => destruct (emit a b c d e) end); reflexivity.
    - unfold parse_text. destruct (x_string E (src t)); [|reflexivity].
      destruct (_ && _); [reflexivity|]. destruct (x_parse_string E _) as [txt|[re e]];
        try (match goal with |- context [emit ?a ?b ?c ?d ?e] => destruct (emit a b c d e) end); reflexivity.
    - unfold parse_number. destruct (x_number E _ (src t)); [|reflexivity].
      destruct (x_parse_number E _ _);
        try (match goal with |- context [emit ?a ?b ?c ?d ?e] => destruct (emit a b c d e) end); reflexivity.
    - apply calm_select; [|exact Hf]. apply Hall. auto.
    - simpl in Hv. destruct Hv as (Hl & Hi & Ht). apply calm_fast; auto.
    - apply calm_seq; [|exact Hf]. apply Hall. auto.
    - apply calm_sep; [apply Hone|apply Hone|exact Hf]; simpl; auto.
    - apply calm_repeat; [apply Hone|exact Hf]; simpl; auto.
    - unfold parse_lines, rt_lines.
      eapply (calm_bind _ ind_ls).
      + eapply (calm_bind _ ind_ls).
        * apply (calm_lines _ _ (Hone _ (or_introl eq_refl)) f true t (LS toks st None true ind)).
          exact Hf.
        * intros [[t'|r'] ls] Ht; exact Ht.
      + intros [[t'|r'] ls] Ht; exact Ht.
    - unfold parse_node. destruct index as [i|]; [|reflexivity].
      destruct (emit _ _ _ _ _) as [toks1 st1].
      destruct (nth_error refs i) as [r|] eqn:Hr.
      + eapply calm_next; [|exact Hf|reflexivity|].
        * apply IH. apply occurs_top. eapply nth_error_In. exact Hr.
        * intros [] toks2 ind2 _ Ht; [|exact Ht].
          destruct (emit _ _ _ _ _). exact Ht.
      + apply nth_error_None in Hr. simpl in Hv. unfold refs in Hr. lia.
    - unfold parse_optional. eapply calm_next; [apply Hone; left; reflexivity|exact Hf|reflexivity|].
      intros [] toks2 ind2 _ Ht; exact Ht.
    - unfold parse_not. eapply calm_next; [apply Hone; left; reflexivity|exact Hf|reflexivity|].
      intros [] toks2 ind2 _ Ht; exact Ht.
  Qed.

  Theorem parse_safe text tokens ind : columns_fit ind text ->
    ~ parse_panics E syn text tokens ind.
  Proof.
    intros Hf (f & H). unfold parse_with_indent in H.
    destruct (nth_error (s_rules syn) (length (s_rules syn) - 1)) as [r|] eqn:Hr; [|discriminate].
    assert (Ho : occurs syn r) by (apply occurs_top; eapply nth_error_In; exact Hr).
    pose proof (parse_rule_calm f r Ho tokens (length tokens) (RT text 0) ind Hf) as Hc.
    unfold refs in Hc.
    destruct (parse_rule E f (s_rules syn) r tokens (length tokens) (RT text 0) ind)
      as [[[res toks'] ind']| |]; simpl in *; [|destruct Hc|discriminate].
    destruct res; [|discriminate]. destruct (_ <? _); discriminate.
  Qed.
End Safe.
