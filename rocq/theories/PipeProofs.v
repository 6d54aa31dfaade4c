(** From the text of a syntax and the text of a document to the data. *)
From Coq Require Import List NArith Bool Arith Lia.
From Verif Require Import Base Ext Types ParseModel OptimizeModel HandlerModel LibModel LoadModel PegSpec DataSpec RuleSpec ApiSpec OptSpec
  IdSpec SyntaxSpec LoadSpec TotalSpec ShapeSpec GrammarSpec SurfaceSpec MeaningSpec SimProofs ParseProofs ParsePublic OptProofs OptProofs2
  OptPublic RenameProofs2 SyntaxProofs LoadProofs StuckPublic MeaningProofs TotalProofs GrammarPublic.
Import ListNotations.

(** ** Reading a syntax is a function *)

Lemma syntax_returns_unique E text a b : syntax_returns E text a -> syntax_returns E text b -> a = b.
Proof.
  intros (f & Hf) (g & Hg).
  destruct (lib_syntax_mono E f (f + g) text) as [H|H]; [lia|congruence|].
  destruct (lib_syntax_mono E g (f + g) text) as [K|K]; [lia|congruence|].
  congruence.
Qed.

Lemma read_optimized E text s o : rules_read E text (inl s) -> optimize_returns s o -> syntax_returns E text (inl o).
Proof.
  intros (f & Hf) (g & Hg). exists (f + g). unfold lib_syntax.
  destruct (syntax_unoptimized_mono E f (f + g) text) as [H|H]; [lia|congruence|]. rewrite <- H, Hf. cbn [obind].
  destruct (optimize_mono g (f + g) s) as [K|K]; [lia|congruence|]. rewrite <- K, Hg. reflexivity.
Qed.

(** ** Debug ids, references and optimisation *)

Notation like := (like_rule any_ids).

Lemma like_resolved names r : forall r1 q q1, like r r1 -> resolved names r q -> resolved names r1 q1 -> like q q1.
Proof.
  induction r as [r IH] using rule_ind'. intros r1 q q1 Hl Hq Hq1.
  assert (HF : forall a, (forall c, In c a -> In c (children r)) -> forall b a' b', Forall2 like a b ->
    Forall2 (resolved names) a a' -> Forall2 (resolved names) b b' -> Forall2 like a' b').
  { induction a as [|x a IHa]; intros Hin b a' b' H1 H2 H3; inversion H1; subst; inversion H2; subst; inversion H3; subst; constructor.
    - eapply IH; [apply Hin; left; reflexivity|eassumption|eassumption|eassumption].
    - eapply IHa; [intros c Hc; apply Hin; right; exact Hc|eassumption|eassumption|eassumption]. }
  assert (Hn : forall name p i j x y, resolved names (RNode name p None i) x -> resolved names (RNode name p None j) y -> like x y).
  { intros name p i j x y Hx Hy. inversion Hx; subst; inversion Hy; subst; try (constructor; exact I);
      repeat match goal with
      | H : forall name property i id, RNode _ _ _ _ <> _ |- _ => exfalso; eapply H; reflexivity
      | H : first_index _ ?n _, H' : ~ In ?n _ |- _ => exfalso; apply H'; destruct H as [H _]; eapply nth_error_In; exact H
      | H : first_index _ ?n ?a, H' : first_index _ ?n ?b |- _ => rewrite (first_index_unique _ _ _ _ H H'); constructor; exact I
      end. }
  inversion Hl; subst;
    try (inversion Hq; subst; inversion Hq1; subst; cbn in *; try discriminate; subst;
         repeat match goal with
         | H : Forall2 _ [] _ |- _ => inversion H; subst; clear H
         | H : Forall2 _ _ [] |- _ => inversion H; subst; clear H end;
         try (constructor; auto; fail);
         try (constructor; [exact I|eapply HF; [|eassumption|eassumption|eassumption]; auto]; fail);
         try (constructor; [exact I|eapply IH; [|eassumption|eassumption|eassumption]; cbn; auto]; fail); fail).
  - inversion Hq; subst; cbn in *; try discriminate. inversion Hq1; subst; cbn in *; try discriminate.
    constructor; [exact I|eapply (IH a); eauto|eapply (IH a'); eauto].
  - destruct k; [|eapply Hn; eassumption].
    inversion Hq; subst; inversion Hq1; subst; constructor; exact I.
Qed.

Lemma like_refs refs refs' : Forall2 like refs refs' -> forall k,
  match nth_error refs k, nth_error refs' k with Some r, Some r' => like r r' | None, None => True | _, _ => False end.
Proof. induction 1 as [|x y l m Hx Hl IH]; intros [|k]; cbn; auto; apply IH. Qed.

Section Opt.
  Variables refs refs' : list rule.
  Hypothesis Hrefs : Forall2 like refs refs'.

  Lemma unique_byte_like fuel : forall r r', like r r' -> unique_byte fuel refs r = unique_byte fuel refs' r'.
  Proof.
    induction fuel as [|fuel IH]; [reflexivity|]. intros r r' H.
    inversion H as [| | | | | |? ? ? ? _ HF|? ? ? ? ? ? _ HF|? ? ? ? _ HF|? ? ? ? o ? ? ? _ Hr|? ? o ? ? _ Hr| |? ? k ? ? _| |? ? ? ? _ Hr]; subst; cbn [unique_byte]; auto.
    - inversion HF as [|x y l m Hx Hl]; subst; [reflexivity|]. inversion Hl; subst; auto.
    - inversion HF; subst; auto.
    - destruct o; auto.
    - destruct o; auto.
    - destruct k as [k|]; [|reflexivity]. pose proof (like_refs _ _ Hrefs k) as Hk.
      destruct (nth_error refs k), (nth_error refs' k); try contradiction; auto.
    - inversion Hr; subst; auto.
  Qed.

  Lemma unique_loop_like fuel a b : Forall2 like a b -> forall i data up,
    unique_loop fuel refs a i data up = unique_loop fuel refs' b i data up.
  Proof.
    induction 1 as [|x y a b Hx Hl IH]; intros i data up; cbn [unique_loop]; [reflexivity|].
    rewrite (unique_byte_like fuel _ _ Hx). destruct (255 <=? i); [reflexivity|].
    destruct (unique_byte fuel refs' y) as [[c|]| |]; cbn [obind]; try reflexivity.
    destruct (nth_error data (N.to_nat c)) as [z|]; [|reflexivity].
    destruct (Nat.eqb z 255); [apply IH|reflexivity].
  Qed.

  Lemma optimize_rule_like fuel r : forall r', like r r' -> orel like (optimize_rule fuel refs r) (optimize_rule fuel refs' r').
  Proof.
    induction r as [r IH] using rule_ind'. intros r' H.
    assert (Hargs : forall a b, (forall c, In c a -> In c (children r)) -> Forall2 like a b ->
      orel (Forall2 like) (map_o (optimize_rule fuel refs) a) (map_o (optimize_rule fuel refs') b)).
    { intros a b Ha HF. eapply orel_map; [exact HF|]. intros x y Hx Hxy. apply IH; auto. }
    inversion H as [| | | | | |a b ? ? _ HF|? ? ? ? ? ? _ HF|? ? ? ? _ HF|? ? ? ? o ? ? ? _ Hr Hr'|? ? o ? ? _ Hr|? ? ? ? ? _ Hr|? ? k ? ? _|? ? ? ? _ Hr|? ? ? ? _ Hr];
      subst; cbn [optimize_rule];
      try (cbn [orel]; constructor; assumption);
      try (eapply orel_bind; [apply IH; [cbn; tauto|eassumption]|]; intros u v Hu; cbn [orel]; constructor; [exact I|assumption]).
    - unfold unique_table_from_select. rewrite (unique_loop_like fuel _ _ HF).
      destruct (unique_loop fuel refs' b 0 (repeat 255 256) 0) as [[table up]| |]; cbn [obind]; try exact I.
      eapply orel_bind; [apply Hargs; [cbn; auto|exact HF]|]. intros u v Hu.
      rewrite (RenameProofs2.Forall2_len _ _ _ HF). destruct (up <? 2); [cbn [orel]; constructor; [exact I|exact Hu]|].
      destruct (up <? length b); cbn [orel]; constructor; try exact I; [|exact Hu].
      apply Forall2_app; [apply RenameProofs2.Forall2_firstn; exact Hu|]. constructor; [|constructor].
      constructor; [exact I|]. apply RenameProofs2.Forall2_skipn. exact Hu.
    - cbn [orel]. exact H.
    - eapply orel_bind; [apply Hargs; [cbn; auto|exact HF]|]. intros u v Hu. cbn [orel]. constructor; [exact I|exact Hu].
    - eapply orel_bind; [apply IH; [cbn; tauto|exact Hr]|]. intros u v Hu.
      eapply orel_bind; [apply IH; [cbn; tauto|exact Hr']|]. intros u' v' Hu'. cbn [orel]. constructor; [exact I|assumption|assumption].
    - exact H.
  Qed.
End Opt.

Lemma like_optimized s s' o : Forall2 like (s_rules s) (s_rules s') -> optimize_returns s o ->
  exists o', optimize_returns s' o' /\ Forall2 like (s_rules o) (s_rules o').
Proof.
  intros HF (fuel & Ho). unfold optimize in Ho.
  assert (H : orel (Forall2 like) (map_o (optimize_rule fuel (s_rules s)) (s_rules s)) (map_o (optimize_rule fuel (s_rules s')) (s_rules s'))).
  { eapply orel_map; [exact HF|]. intros x y _ Hxy. apply optimize_rule_like; assumption. }
  destruct (map_o (optimize_rule fuel (s_rules s)) (s_rules s)) as [l| |]; try discriminate. cbn [obind] in Ho. injection Ho as <-.
  destruct (map_o (optimize_rule fuel (s_rules s')) (s_rules s')) as [l'| |] eqn:Hl; try contradiction.
  exists (Syn l' (s_names s')). split; [|exact H]. exists fuel. unfold optimize. rewrite Hl. reflexivity.
Qed.

Lemma like_sym : forall r r', like r r' -> like r' r.
Proof.
  intros r. induction r as [r IH] using rule_ind'. intros r' H.
  assert (HF : forall a, (forall c, In c a -> In c (children r)) -> forall b, Forall2 like a b -> Forall2 like b a).
  { induction a as [|x a IHa]; intros Hin b Hb; inversion Hb; subst; constructor.
    - apply IH; [apply Hin; left; reflexivity|assumption].
    - apply IHa; [intros c Hc; apply Hin; right; exact Hc|assumption]. }
  inversion H; subst; constructor; try exact I; try (apply HF; auto); apply IH; cbn; auto.
Qed.

Lemma like_all_sym l l' : Forall2 like l l' -> Forall2 like l' l.
Proof. induction 1; constructor; auto using like_sym. Qed.

(** Parsing is the same up to the ids in errors. *)
Lemma like_parse E s s' text tokens ind : Forall2 like (s_rules s) (s_rules s') -> forall result tokens',
  parse_returns E s' text tokens ind result tokens' -> exists result', parse_returns E s text tokens ind result' tokens' /\
    like_result any_ids result result'.
Proof. intros HF. apply (ids_irrelevant E s' s). apply like_all_sym. exact HF. Qed.

(** ** Loading *)

Section Pipe.
  Variable E : ext.
  Hypothesis HE : ext_ok E.
  Variable text : str.

  (** What [load_syntax_data] does when the syntax is known. *)
  Lemma loads_syntax o : syntax_returns E text (inl o) -> forall data,
    (forall tokens, loads E (Some text) (Some data) (Returned tokens) <-> parse_returns E o data [] indent_default None tokens) /\
    (forall w, loads E (Some text) (Some data) (Aborted w) <->
       exists e tokens, parse_returns E o data [] indent_default (Some e) tokens /\ error_report E data e = Done w).
  Proof.
    intros Ho data. split.
    - intros tokens. rewrite load_returned. split.
      + intros (s & d & rules & [= <-] & [= <-] & Hs & H).
        pose proof (syntax_returns_unique _ _ _ _ Ho Hs) as [= <-]. exact H.
      + intros H. exists text, data, o. auto.
    - intros w. rewrite load_aborted. split.
      + intros [[H _]|[(s & e & [= <-] & Hs & _)|[(s & rules & _ & _ & H & _)|(s & d & rules & e & tokens & [= <-] & [= <-] & Hs & H & Hw)]]];
          try discriminate.
        * pose proof (syntax_returns_unique _ _ _ _ Ho Hs). discriminate.
        * pose proof (syntax_returns_unique _ _ _ _ Ho Hs) as [= <-]. eauto.
      + intros (e & tokens & H & Hw). right. right. right. exists text, data, o, e, tokens. auto.
  Qed.

  (** The syntax that is written, and the one that is read: they differ in debug ids. *)
  Variables s o o' : syntax.
  Hypothesis Hopt : optimize_returns s o.
  Hypothesis Hlike : Forall2 like (s_rules o) (s_rules o').
  Hypothesis Hread : syntax_returns E text (inl o').
  Hypothesis Htails : tails_fail_at_end E s.
  Variable data : str.
  Hypothesis Hreal : Forall real_char data.

  Lemma pipe_returned tokens : loads E (Some text) (Some data) (Returned tokens) <-> accepts E s indent_default data tokens.
  Proof.
    rewrite (proj1 (loads_syntax o' Hread data) tokens).
    assert (Hs : parse_returns E o' data [] indent_default None tokens <-> parse_returns E o data [] indent_default None tokens).
    { split; intros H.
      - destruct (like_parse E o o' data [] indent_default Hlike _ _ H) as ([e|] & Hr & He); [destruct He|exact Hr].
      - destruct (ids_irrelevant E o o' data [] indent_default Hlike _ _ H) as ([e|] & Hr & He); [destruct He|exact Hr]. }
    rewrite Hs, <- (optimize_accepts E HE s o Hopt Htails data [] indent_default Hreal).
    rewrite (parse_accepts E HE). split; [intros (out & H & ->); exact H|intros H; exists tokens; auto].
  Qed.

  Lemma pipe_aborted w : loads E (Some text) (Some data) (Aborted w) -> exists e e' tokens,
    error_report E data e = Done w /\ parse_returns E s data [] indent_default (Some e') tokens /\ next_offset (fst e) = next_offset (fst e').
  Proof.
    intros H. apply (proj2 (loads_syntax o' Hread data)) in H as (e & tokens & H & Hw).
    destruct (like_parse E o o' data [] indent_default Hlike _ _ H) as ([e1|] & Hr & He); [|destruct He]. destruct He as [He _].
    destruct (proj2 (optimize_rejects E HE s o Hopt Htails data [] indent_default Hreal (next_offset (fst e)))) as (e' & t & Hp & Hd).
    { exists e1, tokens. split; [exact Hr|]. rewrite He. reflexivity. }
    exists e, e', t. auto.
  Qed.

  Lemma pipe_reported e' tokens : parse_returns E s data [] indent_default (Some e') tokens -> exists e w,
    error_report E data e = Done w /\ next_offset (fst e) = next_offset (fst e') /\ loads E (Some text) (Some data) (Aborted w).
  Proof.
    intros H. destruct (proj1 (optimize_rejects E HE s o Hopt Htails data [] indent_default Hreal (next_offset (fst e')))) as (e1 & t & Hp & Hd).
    { eauto. }
    destruct (ids_irrelevant E o o' data [] indent_default Hlike _ _ Hp) as ([e|] & Hr & He); [|destruct He]. destruct He as [He _].
    destruct (reported E data e) as (w & Hw). exists e, w. split; [exact Hw|]. split; [rewrite <- He; exact Hd|].
    apply (proj2 (loads_syntax o' Hread data)). eauto.
  Qed.
End Pipe.
