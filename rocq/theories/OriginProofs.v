(** Conversion invents nothing. *)
From Coq Require Import Ascii String List NArith Bool Arith Lia.
From Verif Require Import Base Ext Types DataSpec ParseModel ApiSpec OptimizeModel OptSpec ConvertModel ConvertSpec
  LibModel SyntaxSpec OptProofs ConvertSound OriginSpec.
Import ListNotations.
Local Open Scope string_scope.
Local Open Scope list_scope.
Local Open Scope nat_scope.

Section Origin.
  Variable data : list tok.

  Definition inside (c : conv) : Prop := incl (c_data c) data.
  Definition origin (v : rule) : Prop := forall x, occurs_in x v -> comes_from data x.
  Definition origin_o (o : option rule) : Prop := forall v, o = Some v -> origin v.
  Definition text_o (o : option str) : Prop := forall v, o = Some v -> says_text data v.
  Definition flag_o (name : str) (o : option bool) : Prop := forall v, o = Some v -> says_flag data name v.
  Definition strings_from (ss : strings) : Prop :=
    Forall (fun s => says_string data (s2l "text") (snd s)) ss.

  Definition reader_origin (rd : reader) : Prop :=
    forall c st r v st', inside c -> rd c st = Done (Some (r, v), st') -> origin v.

  Lemma update_inside c r c' : c_update c r = Done c' -> inside c -> inside c'.
  Proof.
    unfold c_update, inside. intros H Hc. destruct (_ <? _); [discriminate|]. destruct (_ <? _); [discriminate|].
    injection H as <-. cbn [c_data]. intros x Hx. apply Hc.
    rewrite <- (firstn_skipn (next_offset r - c_off c)). apply in_or_app. right. exact Hx.
  Qed.

  Lemma skip_inside c ig c' ig' : skip_item c ig = Done (c', ig') -> inside c -> inside c'.
  Proof. unfold skip_item. intros H Hc. inv H. eapply update_inside; eassumption. Qed.

  Lemma string_said c name r v : c_meta_string c name = Some (r, v) -> inside c -> says_string data name v.
  Proof.
    unfold c_meta_string, inside. intros H Hc. destruct (c_data c) as [|[q [| | | |n w]] l]; try discriminate.
    destruct (str_eqb n name) eqn:Hn; [|discriminate]. apply str_eqb_eq in Hn. injection H as _ <-. subst n.
    exists q. apply Hc. left. reflexivity.
  Qed.

  Lemma flag_said c name r v : c_meta_bool c name = Some (r, v) -> inside c -> says_flag data name v.
  Proof.
    unfold c_meta_bool, inside. intros H Hc. destruct (c_data c) as [|[q [| |n w| |]] l]; try discriminate.
    destruct (str_eqb n name) eqn:Hn; [|discriminate]. apply str_eqb_eq in Hn. injection H as _ <-. subst n.
    exists q. apply Hc. left. reflexivity.
  Qed.

  (** Derives [inside] for all cursors. *)
  Ltac cursors :=
    repeat match goal with
    | H : c_update ?c _ = Done ?c', Hc : inside ?c |- _ =>
      lazymatch goal with
      | _ : inside c' |- _ => fail
      | _ => pose proof (update_inside _ _ _ H Hc)
      end
    | H : skip_item ?c _ = Done (?c', _), Hc : inside ?c |- _ =>
      lazymatch goal with
      | _ : inside c' |- _ => fail
      | _ => pose proof (skip_inside _ _ _ _ H Hc)
      end
    end.

  Lemma none_text : text_o None.
  Proof. intros v Hv. discriminate. Qed.

  Lemma some_text v : says_text data v -> text_o (Some v).
  Proof. intros H x Hx. injection Hx as <-. exact H. Qed.

  Lemma none_flag name : flag_o name None.
  Proof. intros v Hv. discriminate. Qed.

  Lemma some_flag name v : says_flag data name v -> flag_o name (Some v).
  Proof. intros H x Hx. injection Hx as <-. exact H. Qed.

  Lemma none_rule : origin_o None.
  Proof. intros v Hv. discriminate. Qed.

  Lemma some_rule v : origin v -> origin_o (Some v).
  Proof. intros H x Hx. injection Hx as <-. exact H. Qed.

  Lemma flag_default d name o : flag_o name o -> flag_or data d name (match o with Some b => b | None => d end).
  Proof. intros H. destruct o as [b|]; [right; apply H; reflexivity|left; reflexivity]. Qed.

  Lemma find_said ss n v : strings_from ss -> find_string n ss = Some v -> says_text data v.
  Proof.
    induction 1 as [|[m t] ss H Hs IH]; cbn [find_string]; [discriminate|].
    destruct (str_eqb m n); [intros [= <-]; right; exact H|exact IH].
  Qed.

  Lemma set_loop_origin ss : strings_from ss -> forall fuel property c text c' text',
    set_loop fuel property ss c text = Done (Some (c', text')) -> inside c -> text_o text ->
    inside c' /\ text_o text'.
  Proof.
    intros Hss. induction fuel as [|fuel IH]; intros property c text c' text' H Hc Ht; [discriminate|].
    cbn [set_loop] in H. inv H.
    - cursors. split; assumption.
    - cursors. eapply IH; [exact H|assumption|]. intros v Hv. eapply find_said; eassumption.
    - cursors. eapply IH; [exact H|assumption|]. apply some_text. left. eapply string_said; eassumption.
  Qed.

  Lemma read_set_origin ss : strings_from ss -> forall fuel property c r v,
    read_set fuel property c ss = Done (Some (r, v)) -> inside c -> says_text data v.
  Proof.
    intros Hss fuel property c r v H Hc. unfold read_set in H. inv H.
    match goal with Hl : set_loop _ _ _ _ _ = Done _ |- _ => apply (set_loop_origin ss Hss) in Hl as [H1 H2] end;
      [|cursors; assumption|apply none_text]. apply H2. reflexivity.
  Qed.

  Ltac said :=
    first [apply none_text|apply none_flag|apply none_rule|assumption
      |apply some_text; eapply read_set_origin; eassumption
      |apply some_flag; eapply flag_said; eassumption].

  Lemma origin_intro v : comes_from data v -> (forall c, In c (children v) -> origin c) -> origin v.
  Proof. intros H1 H2 x Hx. destruct Hx as [|r' c Hc Hx]; [exact H1|]. exact (H2 _ Hc x Hx). Qed.

  Lemma finish_value start c st mk r v st' : finish start c st mk = Done (Some (r, v), st') -> exists id, v = mk id.
  Proof. unfold finish. intros H. inv H. eexists. reflexivity. Qed.

  Ltac finished := match goal with H : finish _ _ _ _ = Done _ |- _ => apply finish_value in H as (? & ->) end.

  Lemma until_loop_origin ss : strings_from ss -> forall fuel node c any o p ig c' any' o' p' ig',
    until_loop fuel node ss c any o p ig = Done (c', any', o', p', ig') ->
    inside c -> text_o any -> flag_o (s2l "optional") o -> text_o p ->
    text_o any' /\ flag_o (s2l "optional") o' /\ text_o p'.
  Proof.
    intros Hss. induction fuel as [|fuel IH]; intros node c any o p ig c' any' o' p' ig' H Hc H1 H2 H3; [discriminate|].
    cbn [until_loop] in H. inv H; cursors; try (eapply IH; [exact H|assumption|said..]).
    repeat split; assumption.
  Qed.

  Lemma read_until_origin fuel node mk ss : strings_from ss ->
    (forall any o p i, children (mk any o p i) = []) ->
    (forall any o p i, says_text data any -> flag_or data false (s2l "optional") o -> says_property data p ->
      comes_from data (mk any o p i)) ->
    reader_origin (read_until fuel node mk ss).
  Proof.
    intros Hss Hch Hmk c st r v st' Hc H. unfold read_until in H. inv H. cursors. finished.
    match goal with Hl : until_loop _ _ _ _ _ _ _ _ = Done _ |- _ =>
      apply (until_loop_origin ss Hss) in Hl as (H1 & H2 & H3); [|said..] end.
    apply origin_intro; [|rewrite Hch; intros ? []]. apply Hmk.
    - apply H1. reflexivity.
    - apply flag_default. exact H2.
    - exact H3.
  Qed.

  Lemma tag_loop_origin ss : strings_from ss -> forall fuel c t p n i ig c' t' p' n' i' ig',
    tag_loop fuel ss c t p n i ig = Done (c', t', p', n', i', ig') ->
    inside c -> text_o t -> text_o p -> flag_o (s2l "not") n -> flag_o (s2l "inverted") i ->
    text_o t' /\ text_o p' /\ flag_o (s2l "not") n' /\ flag_o (s2l "inverted") i'.
  Proof.
    intros Hss. induction fuel as [|fuel IH]; intros c t p n i ig c' t' p' n' i' ig' H Hc H1 H2 H3 H4; [discriminate|].
    cbn [tag_loop] in H. inv H; cursors; try (eapply IH; [exact H|assumption|said..]).
    repeat split; assumption.
  Qed.

  Lemma read_tag_origin fuel ss : strings_from ss -> reader_origin (read_tag fuel ss).
  Proof.
    intros Hss c st r v st' Hc H. unfold read_tag in H. inv H. cursors. finished.
    match goal with Hl : tag_loop _ _ _ _ _ _ _ _ = Done _ |- _ =>
      apply (tag_loop_origin ss Hss) in Hl as (H1 & H2 & H3 & H4); [|said..] end.
    apply origin_intro; [|intros ? []]. cbn [comes_from]. split; [apply H1; reflexivity|].
    split; [apply flag_default; exact H3|]. split; [apply flag_default; exact H4|exact H2].
  Qed.

  Lemma read_whitespace_origin : reader_origin read_whitespace.
  Proof.
    intros c st r v st' Hc H. unfold read_whitespace in H. inv H. cursors. finished.
    apply origin_intro; [|intros ? []]. cbn [comes_from]. eapply flag_said; eassumption.
  Qed.

  Lemma flag_loop_origin ss : strings_from ss -> forall fuel node flag c b p ig c' b' p' ig',
    flag_loop fuel node flag ss c b p ig = Done (c', b', p', ig') ->
    inside c -> flag_o flag b -> text_o p -> flag_o flag b' /\ text_o p'.
  Proof.
    intros Hss. induction fuel as [|fuel IH]; intros node flag c b p ig c' b' p' ig' H Hc H1 H2; [discriminate|].
    cbn [flag_loop] in H. inv H; cursors; try (eapply IH; [exact H|assumption|said..]).
    repeat split; assumption.
  Qed.

  Lemma read_text_origin fuel ss : strings_from ss -> reader_origin (read_text fuel ss).
  Proof.
    intros Hss c st r v st' Hc H. unfold read_text in H. inv H. cursors. finished.
    match goal with Hl : flag_loop _ _ _ _ _ _ _ _ = Done _ |- _ =>
      apply (flag_loop_origin ss Hss) in Hl as (H1 & H2); [|said..] end.
    apply origin_intro; [|intros ? []]. cbn [comes_from]. split; [apply flag_default; exact H1|exact H2].
  Qed.

  Lemma read_number_origin fuel ss : strings_from ss -> reader_origin (read_number fuel ss).
  Proof.
    intros Hss c st r v st' Hc H. unfold read_number in H. inv H. cursors. finished.
    match goal with Hl : flag_loop _ _ _ _ _ _ _ _ = Done _ |- _ =>
      apply (flag_loop_origin ss Hss) in Hl as (H1 & H2); [|said..] end.
    apply origin_intro; [|intros ? []]. cbn [comes_from]. split; [apply flag_default; exact H1|exact H2].
  Qed.

  Definition name_o (o : option str) : Prop := forall v, o = Some v -> says_string data (s2l "name") v.

  Lemma none_name : name_o None.
  Proof. intros v Hv. discriminate. Qed.

  Lemma some_name v : says_string data (s2l "name") v -> name_o (Some v).
  Proof. intros H x Hx. injection Hx as <-. exact H. Qed.

  Lemma reference_loop_origin ss : strings_from ss -> forall fuel c n p ig c' n' p' ig',
    reference_loop fuel ss c n p ig = Done (c', n', p', ig') ->
    inside c -> name_o n -> text_o p -> name_o n' /\ text_o p'.
  Proof.
    intros Hss. induction fuel as [|fuel IH]; intros c n p ig c' n' p' ig' H Hc H1 H2; [discriminate|].
    cbn [reference_loop] in H. inv H; cursors;
      try (eapply IH; [exact H|assumption|first [assumption|apply some_name; eapply string_said; eassumption]|said]).
    split; assumption.
  Qed.

  Lemma read_reference_origin fuel ss : strings_from ss -> reader_origin (read_reference fuel ss).
  Proof.
    intros Hss c st r v st' Hc H. unfold read_reference in H. inv H. cursors. finished.
    match goal with Hl : reference_loop _ _ _ _ _ _ = Done _ |- _ =>
      apply (reference_loop_origin ss Hss) in Hl as (H1 & H2); [|assumption|apply none_name|apply none_text] end.
    apply origin_intro; [|intros ? []]. cbn [comes_from]. split; [apply H1; reflexivity|exact H2].
  Qed.

  Lemma args_loop_origin rd node : reader_origin rd -> forall fuel c args st c' args' st',
    args_loop fuel rd node c args st = Done (c', args', st') -> inside c -> Forall origin args -> Forall origin args'.
  Proof.
    intros Hrd. induction fuel as [|fuel IH]; intros c args st c' args' st' H Hc Ha; [discriminate|].
    cbn [args_loop] in H. inv H; cursors.
    - exact Ha.
    - eapply IH; [exact H|assumption|]. apply Forall_app. split; [exact Ha|]. constructor; [|constructor].
      (eapply Hrd; [|eassumption]; assumption).
    - eapply IH; [exact H|assumption|exact Ha].
  Qed.

  Lemma read_args_origin fuel rd node mk : reader_origin rd ->
    (forall args i, children (mk args i) = args) -> (forall args i, comes_from data (mk args i)) ->
    reader_origin (read_args fuel rd node mk).
  Proof.
    intros Hrd Hch Hmk c st r v st' Hc H. unfold read_args in H. inv H. cursors. finished.
    match goal with Hl : args_loop _ _ _ _ _ _ = Done _ |- _ =>
      apply (args_loop_origin rd node Hrd) in Hl; [|assumption|constructor] end.
    apply origin_intro; [apply Hmk|]. rewrite Hch. apply Forall_forall. assumption.
  Qed.

  Lemma read_wrap_origin rd node mk : reader_origin rd ->
    (forall a i, children (mk a i) = [a]) -> (forall a i, comes_from data (mk a i)) ->
    reader_origin (read_wrap rd node mk).
  Proof.
    intros Hrd Hch Hmk c st r v st' Hc H. unfold read_wrap in H. inv H. cursors. finished.
    apply origin_intro; [apply Hmk|]. rewrite Hch. intros y [<-|[]]. eapply Hrd; [|eassumption]. assumption.
  Qed.

  Lemma sep_by_loop_origin rd_by rd_rule : reader_origin rd_by -> reader_origin rd_rule ->
    forall fuel c o t by_ rule_ st c' o' t' by' rule' st',
    sep_by_loop fuel rd_by rd_rule c o t by_ rule_ st = Done (c', o', t', by', rule', st') ->
    inside c -> flag_o (s2l "optional") o -> flag_o (s2l "allow_trail") t -> origin_o by_ -> origin_o rule_ ->
    flag_o (s2l "optional") o' /\ flag_o (s2l "allow_trail") t' /\ origin_o by' /\ origin_o rule'.
  Proof.
    intros Hb Hr. induction fuel as [|fuel IH]; intros c o t by_ rule_ st c' o' t' by' rule' st' H Hc H1 H2 H3 H4;
      [discriminate|].
    cbn [sep_by_loop] in H. inv H; cursors;
      try (eapply IH; [exact H|assumption|first [said
        |apply some_rule; (eapply Hb; [|eassumption]; assumption)|apply some_rule; (eapply Hr; [|eassumption]; assumption)]..]).
    repeat split; assumption.
  Qed.

  Lemma read_separated_by_origin fuel rd_by rd_rule : reader_origin rd_by -> reader_origin rd_rule ->
    reader_origin (read_separated_by fuel rd_by rd_rule).
  Proof.
    intros Hb Hr c st r v st' Hc H. unfold read_separated_by in H. inv H. cursors. finished.
    match goal with Hl : sep_by_loop _ _ _ _ _ _ _ _ _ = Done _ |- _ =>
      apply (sep_by_loop_origin rd_by rd_rule Hb Hr) in Hl as (H1 & H2 & H3 & H4); [|said..] end.
    apply origin_intro.
    - cbn [comes_from]. split; apply flag_default; assumption.
    - cbn [children]. intros y [<-|[<-|[]]]; auto.
  Qed.

  Lemma read_lines_origin rd : reader_origin rd -> reader_origin (read_lines rd).
  Proof.
    intros Hrd c st r v st' Hc H. unfold read_lines in H. inv H. cursors. finished.
    match goal with Hi : match c_meta_bool ?x _ with _ => _ end = Done (?a, ?b) |- _ =>
      assert (Ha : inside a /\ flag_or data false (s2l "indent") b) end.
    { match goal with Hi : match c_meta_bool ?x _ with _ => _ end = Done (?a, ?b) |- _ => inv Hi end; cursors; (split; [assumption|]).
      - right. eapply flag_said; eassumption.
      - left. reflexivity. }
    destruct Ha as [Ha Hb]. apply origin_intro; [exact Hb|]. intros y [<-|[]]. eapply Hrd; eassumption.
  Qed.

  Lemma rep_loop_origin rd : reader_origin rd -> forall fuel c rule_ o st c' rule' o' st',
    rep_loop fuel rd c rule_ o st = Done (c', rule', o', st') ->
    inside c -> origin_o rule_ -> flag_o (s2l "optional") o -> origin_o rule' /\ flag_o (s2l "optional") o'.
  Proof.
    intros Hrd. induction fuel as [|fuel IH]; intros c rule_ o st c' rule' o' st' H Hc H1 H2; [discriminate|].
    cbn [rep_loop] in H. inv H; cursors;
      try (eapply IH; [exact H|assumption|first [said|apply some_rule; (eapply Hrd; [|eassumption]; assumption)]..]).
    split; assumption.
  Qed.

  Lemma read_repeat_origin fuel rd : reader_origin rd -> reader_origin (read_repeat fuel rd).
  Proof.
    intros Hrd c st r v st' Hc H. unfold read_repeat in H. inv H. cursors. finished.
    match goal with Hl : rep_loop _ _ _ _ _ _ = Done _ |- _ =>
      apply (rep_loop_origin rd Hrd) in Hl as (H1 & H2); [|said..] end.
    apply origin_intro; [cbn [comes_from]; apply H2; reflexivity|].
    intros y [<-|[]]. apply H1. reflexivity.
  Qed.

  Lemma first_reader_origin rds : Forall reader_origin rds -> reader_origin (first_reader rds).
  Proof.
    induction 1 as [|rd rds Hrd H IH]; intros c st r v st' Hc He; [discriminate|].
    cbn [first_reader] in He. inv1 He. destruct x as [[[q w]|] st1].
    - injection He as <- <- <-. eapply Hrd; eassumption.
    - eapply IH; eassumption.
  Qed.

  Lemma read_rule_origin ss : strings_from ss -> forall fuel property, reader_origin (read_rule fuel property ss).
  Proof.
    intros Hss. induction fuel as [|fuel IH]; intros property c st r v st' Hc H; [discriminate|].
    cbn [read_rule] in H. inv1 H. inv1 H. cbv zeta in H. inv1 H. destruct x0 as [res1 st1].
    match goal with Hf : first_reader ?l _ _ = Done _ |- _ => assert (Hs : reader_origin (first_reader l)) end.
    { apply first_reader_origin.
      repeat (apply Forall_cons); [..|apply Forall_nil].
      - apply read_args_origin; [apply IH|reflexivity|intros; exact I].
      - apply read_until_origin; [exact Hss|reflexivity|cbn [comes_from]; tauto].
      - apply read_until_origin; [exact Hss|reflexivity|cbn [comes_from]; tauto].
      - apply read_tag_origin; exact Hss.
      - apply read_whitespace_origin.
      - apply read_text_origin; exact Hss.
      - apply read_number_origin; exact Hss.
      - apply read_reference_origin; exact Hss.
      - apply read_args_origin; [apply IH|reflexivity|intros; exact I].
      - apply read_wrap_origin; [apply IH|reflexivity|intros; exact I].
      - apply read_wrap_origin; [apply IH|reflexivity|intros; exact I].
      - apply read_separated_by_origin; apply IH.
      - apply read_lines_origin; apply IH.
      - apply read_repeat_origin; apply IH. }
    cursors. inv H. (eapply Hs; [|eassumption]; assumption).
  Qed.

  Lemma node_loop_origin ss : strings_from ss -> forall fuel c id name rule_ ig c' name' rule' ig',
    node_loop fuel ss c id name rule_ ig = Done (c', name', rule', ig') ->
    inside c -> name_o name -> origin_o rule_ -> name_o name' /\ origin_o rule'.
  Proof.
    intros Hss. induction fuel as [|fuel IH]; intros c id name rule_ ig c' name' rule' ig' H Hc H1 H2; [discriminate|].
    cbn [node_loop] in H. inv H; cursors; try (eapply IH; [exact H|assumption|first [assumption
      |apply some_name; eapply string_said; eassumption]|first [assumption
      |apply some_rule; (eapply read_rule_origin; [eassumption| |eassumption]; assumption)]]).
    split; assumption.
  Qed.

  Lemma nodes_loop_origin ss : strings_from ss -> forall fuel c s ig s' ig',
    nodes_loop fuel ss c s ig = Done (Some s', ig') -> inside c ->
    Forall (says_string data (s2l "name")) (s_names s) -> Forall origin (s_rules s) ->
    Forall (says_string data (s2l "name")) (s_names s') /\ Forall origin (s_rules s').
  Proof.
    intros Hss. induction fuel as [|fuel IH]; intros c s ig s' ig' H Hc H1 H2; [discriminate|].
    cbn [nodes_loop] in H. inv1 H. destruct x as [res ig1]. destruct res as [[r [name rule_]]|].
    - inv H. cursors. unfold read_node in Hx. inv Hx. cursors.
      match goal with Hl : node_loop _ _ _ _ _ _ _ = Done _ |- _ =>
        apply (node_loop_origin ss Hss) in Hl as (Hn & Ho); [|assumption|apply none_name|apply none_rule] end.
      eapply IH; [exact H|assumption|..]; unfold syntax_push; cbn [s_names s_rules]; apply Forall_app; split;
        try assumption; (constructor; [|constructor]).
      + apply Hn. reflexivity.
      + apply Ho. reflexivity.
    - destruct (0 <? c_remaining c); [discriminate|]. injection H as <- <-. split; assumption.
  Qed.

  Lemma string_loop_origin : forall fuel c name text c' name' text',
    string_loop fuel c name text = Done (Some (c', name', text')) -> inside c ->
    (forall v, text = Some v -> says_string data (s2l "text") v) ->
    inside c' /\ (forall v, text' = Some v -> says_string data (s2l "text") v).
  Proof.
    induction fuel as [|fuel IH]; intros c name text c' name' text' H Hc Ht; [discriminate|].
    cbn [string_loop] in H. inv H; cursors.
    - eapply IH; [exact H|assumption|exact Ht].
    - eapply IH; [exact H|assumption|]. intros v Hv. injection Hv as <-. eapply string_said; eassumption.
    - split; assumption.
  Qed.

  Lemma strings_loop_origin : forall fuel c ss c' ss',
    strings_loop fuel c ss = Done (c', ss') -> inside c -> strings_from ss -> inside c' /\ strings_from ss'.
  Proof.
    induction fuel as [|fuel IH]; intros c ss c' ss' H Hc Hss; [discriminate|].
    cbn [strings_loop] in H. inv H.
    - cursors. eapply IH; [exact H|assumption|]. apply Forall_app. split; [exact Hss|]. constructor; [|constructor].
      unfold read_string in Hx. inv Hx. cursors.
      match goal with Hl : string_loop _ _ _ _ = Done _ |- _ => apply string_loop_origin in Hl as [_ Ht] end;
        [|assumption|discriminate]. apply Ht. reflexivity.
    - split; assumption.
  Qed.
End Origin.

Lemma resolve_origin data names r : origin data r -> forall x, occurs_in x (rule_update_refs names r) -> comes_from data x.
Proof.
  induction r as [r IH] using rule_ind'. intros Ho x Hx.
  assert (Hn : comes_from data r) by (apply Ho, occurs_here).
  assert (Hc : forall c, In c (children r) -> origin data c).
  { intros c Hc y Hy. apply Ho. eapply occurs_below; eassumption. }
  assert (Hmap : forall args, (forall c, In c args -> In c (children r)) ->
    forall y c, In c (map (rule_update_refs names) args) -> occurs_in y c -> comes_from data y).
  { intros args Hargs y c Hin Hy. apply in_map_iff in Hin as (c0 & <- & Hin).
    exact (IH c0 (Hargs _ Hin) (Hc c0 (Hargs _ Hin)) y Hy). }
  destruct r; cbn [rule_update_refs] in Hx; try contradiction;
    try (inversion Hx as [|? ? Hy Hz]; subst; [exact Hn|cbn in Hy; contradiction]).
  - inversion Hx as [|? c Hy Hz]; subst; [exact I|]. eapply (Hmap args); [auto|exact Hy|exact Hz].
  - inversion Hx as [|? c Hy Hz]; subst; [exact I|]. eapply (Hmap args); [auto|exact Hy|exact Hz].
  - inversion Hx as [|? c Hy Hz]; subst; [exact Hn|]. cbn [children] in *.
    destruct Hy as [<-|[<-|[]]]; refine (IH _ _ _ _ Hz); simpl; auto; apply Hc; simpl; auto.
  - inversion Hx as [|? c Hy Hz]; subst; [exact Hn|]. destruct Hy as [<-|[]].
    refine (IH _ _ _ _ Hz); simpl; auto; apply Hc; simpl; auto.
  - inversion Hx as [|? c Hy Hz]; subst; [exact Hn|]. destruct Hy as [<-|[]].
    refine (IH _ _ _ _ Hz); simpl; auto; apply Hc; simpl; auto.
  - destruct index; (inversion Hx as [|? c Hy Hz]; subst; [exact Hn|destruct Hy]).
  - inversion Hx as [|? c Hy Hz]; subst; [exact I|]. destruct Hy as [<-|[]].
    refine (IH _ _ _ _ Hz); simpl; auto; apply Hc; simpl; auto.
  - inversion Hx as [|? c Hy Hz]; subst; [exact I|]. destruct Hy as [<-|[]].
    refine (IH _ _ _ _ Hz); simpl; auto; apply Hc; simpl; auto.
Qed.

Theorem convert_origin data ig s ig' : convert_returns data ig (Some s) ig' ->
  Forall (says_string data (s2l "name")) (s_names s) /\ forall x, occurs s x -> comes_from data x.
Proof.
  intros (fuel & H). unfold convert in H. inv1 H. destruct x as [c ss]. inv1 H. destruct x as [[s0|] ig1]; [|discriminate].
  injection H as <- <-. apply (strings_loop_origin data) in Hx as [H1 H2]; [|intros t Ht; exact Ht|constructor].
  apply (nodes_loop_origin data ss H2) in Hx0 as [H3 H4]; [|exact H1|constructor|constructor].
  cbn [update_refs s_names s_rules]. split; [exact H3|].
  intros x (top & Ht & Ho). cbn [s_rules update_refs] in Ht. apply in_map_iff in Ht as (r0 & <- & Hin).
  eapply resolve_origin; [|exact Ho]. exact (proj1 (Forall_forall _ _) H4 _ Hin).
Qed.
