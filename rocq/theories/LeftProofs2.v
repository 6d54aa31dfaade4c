(** What was in the vector before does not matter, and what is left can be written as JSON. *)
From Coq Require Import List NArith Bool Arith Lia.
From Verif Require Import Base Ext Types ParseModel PegSpec PrimProofs PegProofs PegFacts DataSpec
  ApiSpec FuelProofs ParseProofs JsonModel JsonSpec JsonProofs3 LeftSpec LeftProofs.
Import ListNotations.

(** ** The tokens in front *)

Section Front.
  Variable E : ext.
  Variable pre : list tok.

  Definition lift_res (r : pres) : pres :=
    match r with
    | POk rg st e => POk rg (length pre + st) e
    | PErr e => PErr e
    end.

  Definition lift (o : outcome (pres * list tok * indent)) : outcome (pres * list tok * indent) :=
    match o with
    | Done (r, tk, i) => Done (lift_res r, pre ++ tk, i)
    | Panic => Panic
    | OutOfFuel => OutOfFuel
    end.

  Definition carries (P : parser) : Prop := forall toks st t ind,
    P (pre ++ toks) (length pre + st) t ind = lift (P toks st t ind).

  Lemma emit_carries property mk rg toks st :
    emit property mk rg (pre ++ toks) (length pre + st) =
    (pre ++ fst (emit property mk rg toks st), length pre + snd (emit property mk rg toks st)).
  Proof.
    destruct property as [name|]; cbn [emit fst snd]; [|reflexivity]. unfold read_data.
    cbn [fst snd]. rewrite app_length.
    replace (length pre + st <? length pre + length toks) with (st <? length toks)
      by (destruct (Nat.ltb_spec st (length toks));
          destruct (Nat.ltb_spec (length pre + st) (length pre + length toks)); lia).
    destruct (st <? length toks).
    - rewrite firstn_app_2, <- app_assoc, app_length. reflexivity.
    - rewrite <- app_assoc, app_length. reflexivity.
  Qed.

  Ltac emits := rewrite emit_carries; destruct (emit _ _ _ _ _) as [? ?]; cbn [fst snd]; reflexivity.

  Ltac step H :=
    rewrite H;
    match goal with
    | |- context [lift ?o] => destruct o as [[[[? ? ?|?] ?] ?]| |]; cbn [lift lift_res obind]
    end.

  Lemma select_carries P args id : (forall r, carries (P r)) ->
    forall toks st t ind oe,
      select_loop P args id (pre ++ toks) (length pre + st) t ind oe =
      lift (select_loop P args id toks st t ind oe).
  Proof.
    intros HP. induction args as [|r rest IH]; intros toks st t ind oe; cbn [select_loop].
    - destruct oe; reflexivity.
    - rewrite HP. destruct (P r toks st t ind) as [[[[rg st1 er|e] tk] i]| |];
        cbn [lift lift_res obind]; try reflexivity. apply IH.
  Qed.

  Lemma seq_carries P args : (forall r, carries (P r)) ->
    forall start toks st t ind oe,
      seq_loop P args start (pre ++ toks) (length pre + st) t ind oe =
      lift (seq_loop P args start toks st t ind oe).
  Proof.
    intros HP. induction args as [|r rest IH]; intros start toks st t ind oe; cbn [seq_loop].
    - reflexivity.
    - rewrite HP. destruct (P r toks st t ind) as [[[[rg st1 er|e] tk] i]| |];
        cbn [lift lift_res obind]; try reflexivity. apply IH.
  Qed.

  Lemma fast_tail_carries P args oe : (forall r, carries (P r)) -> carries (fast_tail P args oe).
  Proof.
    intros HP toks st t ind. unfold fast_tail. destruct args as [|a args]; [reflexivity|].
    destruct (nth_error _ _) as [r|]; [|reflexivity].
    rewrite HP. destruct (P r toks st t ind) as [[[[rg st1 er|e] tk] i]| |];
      cbn [lift lift_res obind]; reflexivity.
  Qed.

  Lemma fast_carries P table args tail id :
    (forall r, carries (P r)) -> carries (parse_fast_select P table args tail id).
  Proof.
    intros HP toks st t ind. unfold parse_fast_select. destruct (src t) as [|c s]; [reflexivity|].
    destruct (nth_error table _) as [i|]; [|reflexivity].
    destruct (Nat.eqb i 255).
    - destruct tail; [apply fast_tail_carries; exact HP|reflexivity].
    - destruct (nth_error args i) as [r|]; [|reflexivity].
      rewrite HP. destruct (P r toks st t ind) as [[[[rg st1 er|e] tk] i']| |];
        cbn [lift lift_res obind]; try reflexivity.
      destruct tail; [apply fast_tail_carries; exact HP|reflexivity].
  Qed.

  Lemma repeat_carries P : carries P ->
    forall fuel optional first start toks st t ind oe,
      repeat_loop fuel P optional start first (pre ++ toks) (length pre + st) t ind oe =
      lift (repeat_loop fuel P optional start first toks st t ind oe).
  Proof.
    intros HP fuel. induction fuel as [|fuel IH]; intros; cbn [repeat_loop]; [reflexivity|].
    rewrite HP. destruct (P toks st t ind) as [[[[rg st1 er|e] tk] i]| |];
      cbn [lift lift_res obind]; try reflexivity; [apply IH|].
    destruct (first && negb optional); reflexivity.
  Qed.

  Lemma sep_carries P Q : carries P -> carries Q ->
    forall fuel optional trail first start toks st t ind oe,
      sep_loop fuel P Q optional trail start first (pre ++ toks) (length pre + st) t ind oe =
      lift (sep_loop fuel P Q optional trail start first toks st t ind oe).
  Proof.
    intros HP HQ fuel. induction fuel as [|fuel IH]; intros; cbn [sep_loop]; [reflexivity|].
    rewrite HP. destruct (P toks st t ind) as [[[[rg st1 er|e] tk] i]| |];
      cbn [lift lift_res obind]; try reflexivity.
    - rewrite HQ. destruct (Q tk st1 _ i) as [[[[rg2 st2 er2|e2] tk2] i2]| |];
        cbn [lift lift_res obind]; try reflexivity. apply IH.
    - destruct (if first then negb optional else negb trail); reflexivity.
  Qed.

  Definition lift_ls (ls : lines_state) : lines_state :=
    LS (pre ++ ls_toks ls) (length pre + ls_state ls) (ls_err ls) (ls_first ls) (ls_ind ls).

  Definition lift_line {A} (o : outcome (A * lines_state)) : outcome (A * lines_state) :=
    match o with
    | Done (r, ls) => Done (r, lift_ls ls)
    | Panic => Panic
    | OutOfFuel => OutOfFuel
    end.

  Lemma item_carries P offset t first ls ind : carries P ->
    lines_item_indent P offset t first (lift_ls ls) ind =
    lift_line (lines_item_indent P offset t first ls ind).
  Proof.
    intros HP. unfold lines_item_indent. destruct (add_u32 _ _) as [i1| |]; try reflexivity.
    cbn [obind]. cbn [lift_ls ls_toks ls_state ls_err]. rewrite HP.
    destruct (P _ _ _ _) as [[[[rg st1 er|e] tk] i]| |]; cbn [lift lift_res obind]; reflexivity.
  Qed.

  Lemma closure_carries P indented t ls : carries P ->
    closure indented P t (lift_ls ls) = lift_line (closure indented P t ls).
  Proof.
    intros HP. destruct indented; cbn [closure].
    - unfold lines_closure_indent. change (ls_ind (lift_ls ls)) with (ls_ind ls).
      change (ls_first (lift_ls ls)) with (ls_first ls).
      destruct (skip_indent _ _ _) as [k|]; [|reflexivity].
      destruct (ls_first ls && i_align_first (ls_ind ls)).
      + destruct (align_indent _ _ _) as [[k2 n]| |]; cbn [obind]; try reflexivity.
        apply item_carries. exact HP.
      + destruct (rt_tag _ _); [reflexivity|]. apply item_carries. exact HP.
    - unfold lines_closure_plain. cbn [lift_ls ls_toks ls_state ls_err ls_ind ls_first]. rewrite HP.
      destruct (P _ _ _ _) as [[[[rg st1 er|e] tk] i]| |]; cbn [lift lift_res obind]; reflexivity.
  Qed.

  Lemma lines_carries P indented : carries P ->
    forall fuel nl t ls,
      lines_loop E (closure indented P) fuel nl t (lift_ls ls) =
      lift_line (lines_loop E (closure indented P) fuel nl t ls).
  Proof.
    intros HP fuel. induction fuel as [|fuel IH]; intros nl t ls; cbn [lines_loop]; [reflexivity|].
    destruct (Nat.eqb _ _); [reflexivity|].
    destruct (after_last_newline _) as [k|]; [|destruct nl; [|reflexivity]];
      rewrite closure_carries by exact HP;
      (destruct (closure indented P _ ls) as [[[rg|] ls1]| |]; cbn [lift_line obind];
       [apply IH|reflexivity|reflexivity|reflexivity]).
  Qed.

  Theorem rule_carries fuel refs : forall r, carries (parse_rule E fuel refs r).
  Proof.
    induction fuel as [|fuel IH]; intros r toks st t ind; [reflexivity|].
    destruct r; cbn [parse_rule].
    - unfold parse_whitespace. destruct (_ && _); reflexivity.
    - unfold parse_tag. destruct (rt_tag t text); destruct not; try reflexivity; emits.
    - unfold parse_until. destruct (_ && _); [reflexivity|]. emits.
    - unfold parse_until. destruct (_ && _); [reflexivity|]. emits.
    - unfold parse_text. destruct (x_string E (src t)); [|reflexivity].
      destruct (_ && _); [reflexivity|]. destruct (x_parse_string _ _) as [v|[re e]]; [|reflexivity].
      emits.
    - unfold parse_number. destruct (x_number E underscore (src t)); [|reflexivity].
      destruct (x_parse_number _ _ _); [|reflexivity]. emits.
    - apply select_carries. exact IH.
    - apply fast_carries. exact IH.
    - apply seq_carries. exact IH.
    - apply sep_carries; apply IH.
    - apply repeat_carries. apply IH.
    - unfold parse_lines, rt_lines. fold (closure indent (parse_rule E fuel refs r)).
      change (LS (pre ++ toks) (length pre + st) None true ind)
        with (lift_ls (LS toks st None true ind)).
      rewrite lines_carries by apply IH.
      destruct (lines_loop _ _ _ _ _ _) as [[[t'|rg] ls]| |]; cbn [lift_line obind]; reflexivity.
    - unfold parse_node. destruct index as [i|]; [|reflexivity]. rewrite emit_carries.
      destruct (emit _ _ _ toks st) as [tk1 st1]. cbn [fst snd].
      destruct (nth_error refs i) as [c|]; [|reflexivity]. rewrite IH.
      destruct (parse_rule _ _ _ _ _ _ _ _) as [[[[rg st2 er|e] tk] i2]| |];
        cbn [lift lift_res obind]; try reflexivity. emits.
    - unfold parse_optional. rewrite IH.
      destruct (parse_rule _ _ _ _ _ _ _ _) as [[[[rg st2 er|e] tk] i2]| |]; reflexivity.
    - unfold parse_not. rewrite IH.
      destruct (parse_rule _ _ _ _ _ _ _ _) as [[[[rg st2 er|e] tk] i2]| |]; reflexivity.
  Qed.

  Lemma parse_carries fuel s text ind :
    parse_with_indent E fuel s text pre ind =
    match parse_with_indent E fuel s text [] ind with
    | Done (result, new) => Done (result, pre ++ new)
    | Panic => Panic
    | OutOfFuel => OutOfFuel
    end.
  Proof.
    unfold parse_with_indent. destruct (nth_error _ _) as [r|];
      [|rewrite app_nil_r; reflexivity].
    pose proof (rule_carries fuel (s_rules s) r [] 0 (RT text 0) ind) as H.
    rewrite app_nil_r, Nat.add_0_r in H. cbn [length]. rewrite H. clear H.
    destruct (parse_rule _ _ _ _ _ _ _ _) as [[[[rg st er|e] tk] i]| |];
      cbn [lift lift_res obind]; try reflexivity.
    destruct (_ <? _); [reflexivity|]. rewrite firstn_app_2. reflexivity.
  Qed.
End Front.

Theorem parse_front E s text tokens ind result tokens' :
  parse_returns E s text tokens ind result tokens' <->
  exists new, parse_returns E s text [] ind result new /\ tokens' = tokens ++ new.
Proof.
  unfold parse_returns. split.
  - intros (fuel & H). rewrite parse_carries in H.
    destruct (parse_with_indent E fuel s text [] ind) as [[res new]| |] eqn:He; try discriminate.
    injection H as <- <-. exists new. split; [exists fuel; exact He|reflexivity].
  - intros (new & (fuel & H) & ->). exists fuel. rewrite parse_carries, H. reflexivity.
Qed.

(** ** JSON *)

Lemma opened_app' a b : opened (a ++ b) = opened a + opened b.
Proof. induction a as [|[] a IH]; cbn [app opened]; lia. Qed.

Lemma closed_app' a b : closed (a ++ b) = closed a + closed b.
Proof. induction a as [|[] a IH]; cbn [app closed]; lia. Qed.

Lemma app_split {A} (a b c d : list A) :
  a ++ b = c ++ d -> (exists m, c = a ++ m /\ b = m ++ d) \/ (exists m, a = c ++ m /\ d = m ++ b).
Proof.
  revert c. induction a as [|x a IH]; intros c H; cbn [app] in H.
  - left. exists c. auto.
  - destruct c as [|y c]; cbn [app] in H.
    + right. exists (x :: a). split; [reflexivity|]. symmetry. exact H.
    + injection H as <- H. destruct (IH _ H) as [(m & -> & ->)|(m & -> & ->)];
        [left|right]; exists m; auto.
Qed.

Lemma nested_balanced d : nested d -> opened d = closed d.
Proof.
  induction 1 as [|m rest Hl _ IH|name inner rest _ IHi _ IHr]; [reflexivity| |].
  - destruct m; try (destruct Hl); cbn [opened closed]; exact IH.
  - cbn [opened closed]. rewrite opened_app', closed_app'. cbn [opened closed]. lia.
Qed.

Lemma nested_prefix d : nested d -> forall x y, d = x ++ y -> closed x <= opened x.
Proof.
  induction 1 as [|m rest Hl _ IH|name inner rest Hi IHi Hr IHr]; intros x y H.
  - destruct x; [cbn; lia|discriminate].
  - destruct x as [|m' x]; [cbn; lia|]. injection H as <- H. specialize (IH _ _ H).
    destruct m; try (destruct Hl); cbn [opened closed]; exact IH.
  - destruct x as [|m' x]; [cbn; lia|]. injection H as <- H. cbn [opened closed].
    apply app_split in H as [(m & -> & H)|(m & Hx & _)].
    + destruct m as [|m' m].
      * rewrite app_nil_r. specialize (IHi inner [] (eq_sym (app_nil_r _))). lia.
      * injection H as <- H. specialize (IHr _ _ H).
        rewrite opened_app', closed_app'. cbn [opened closed].
        pose proof (nested_balanced _ Hi). lia.
    + specialize (IHi _ _ Hx). lia.
Qed.

Lemma nested_app a b : nested a -> nested b -> nested (a ++ b).
Proof.
  induction 1 as [|m rest Hl _ IH|name inner rest Hi IHi Hr IHr]; intros Hb; cbn [app].
  - exact Hb.
  - apply nested_leaf; auto.
  - rewrite <- app_assoc. cbn [app]. apply nested_node; auto.
Qed.

Theorem beginning_json E E' s text tokens new :
  beginning E s text new -> nested (map snd tokens) ->
  exists out, json_write E' (tokens ++ new) = Done out.
Proof.
  intros (closing & _ & Hp & _) Ht. apply placed_nested in Hp.
  destruct (json_write_decided E' (tokens ++ new)) as [H|H]; [|exact H]. exfalso.
  apply json_write_panics in H as (before & after & Hd & Hlt).
  pose proof (nested_prefix _ (nested_app _ _ Ht Hp) before (after ++ map snd closing)) as H.
  rewrite map_app in H, Hd.
  assert (Heq : map snd tokens ++ map snd new ++ map snd closing =
    before ++ after ++ map snd closing)
    by (rewrite !app_assoc, Hd; reflexivity).
  specialize (H Heq). lia.
Qed.

Theorem failure_leaves E s text tokens ind e tokens' :
  ext_ok E -> parse_returns E s text tokens ind (Some e) tokens' ->
  exists new, tokens' = tokens ++ new /\ beginning E s text new.
Proof. intros HE H. eapply parse_leaves; eassumption. Qed.

Theorem failure_json E E' s text tokens ind e tokens' :
  ext_ok E -> parse_returns E s text tokens ind (Some e) tokens' -> nested (map snd tokens) ->
  exists out, json_write E' tokens' = Done out.
Proof.
  intros HE H Ht. eapply parse_leaves in H as (new & -> & Hb); [|exact HE].
  eapply beginning_json; eassumption.
Qed.
