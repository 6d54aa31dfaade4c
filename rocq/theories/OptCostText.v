(** Texts whose optimisation takes a number of calls that is exponential in their length. *)
From Coq Require Import Ascii String List NArith Bool Arith Lia.
From Verif Require Import Base Ext Types OptimizeModel OptCostModel PegSpec JsonSpec WriteSpec TextSpec IdSpec
  ApiSpec OptSpec SyntaxSpec StuckSpec StuckProofs ConvertSpec TextProofs7 TextProofs8 ExtProofs JsonProofs2 Examples TextExamples OptCostSpec OptCostProofs.
Import ListNotations.
Local Open Scope string_scope.
Local Open Scope list_scope.
Local Open Scope nat_scope.

Fixpoint nest (d : nat) : rule :=
  match d with
  | 0 => RWhitespace true 0
  | S d => RSelect [RWhitespace true 0; RWhitespace true 0; nest d] 0
  end.

Fixpoint nest_text (d : nat) : str :=
  match d with
  | 0 => tx ".w?"
  | S d => tx "{.w? .w? " ++ nest_text d ++ tx "}"
  end.

Lemma nest_written d : mrule quoted (defined []) (nest d) (nest_text d).
Proof.
  induction d as [|d IH].
  - exact (m_whitespace _ _ true 0%N).
  - assert (Hw : mrule quoted (defined []) (RWhitespace true 0) (tx ".w?")) by exact (m_whitespace _ _ true 0%N).
    assert (Hs : Forall white (tx " ")) by (apply is_white_space; reflexivity).
    pose proof (m_select _ _ _ 0%N [] _ (Forall_nil _)
      (m_more _ _ _ _ (tx " ") _ _ Hw Hs ltac:(discriminate)
        (m_more _ _ _ _ (tx " ") _ _ Hw Hs ltac:(discriminate)
          (m_last _ _ _ _ [] IH (Forall_nil _))))) as H.
    cbn [nest nest_text]. rewrite app_nil_r in H. exact H.
Qed.

Definition one : f64 :=
  Eval vm_compute in match std_parse_number false (tx "1") with Some x => x | None => SpecFloat.S754_nan end.

Definition nest_document (d : nat) : str := tx "1 doc = " ++ nest_text d.

Lemma nest_is_document d : document std_ext [] [(tx "doc", one, nest d)] (nest_document d).
Proof.
  refine (document_of std_ext [] [(tx "doc", one, nest d)] [] [ENode one (tx "doc") (nest d)]
    _ eq_refl eq_refl eq_refl eq_refl _).
  refine (entries_last _ _ _ [] _ (nest_document d) (Forall_nil _) _).
  pose proof (entry_node std_ext quoted (defined []) one (tx "1") (tx "doc") (nest d) (tx " ") (tx " ") (tx " ")
    (nest_text d) []) as H.
  rewrite app_nil_r in H. apply H; try (apply is_white_space; reflexivity); try discriminate.
  - destruct (std_numeral (tx "1")) as (x & H1 & H2 & H3); [discriminate|repeat constructor; vm_compute; discriminate|].
    split; [exact H1|]. split; [exact H2|]. vm_compute. reflexivity.
  - split; [apply name_check; [discriminate|reflexivity]|discriminate].
  - apply nest_written.
Qed.

Lemma nest_text_length d : length (nest_text d) = 10 * d + 3.
Proof.
  induction d as [|d IH]; [reflexivity|]. cbn [nest_text]. rewrite !app_length, IH.
  change (length (tx "{.w? .w? ")) with 9. change (length (tx "}")) with 1. lia.
Qed.

Lemma nest_ids d : length (rule_ids (nest d)) = 3 * d + 1.
Proof.
  induction d as [|d IH]; [reflexivity|]. cbn [nest].
  change (length ((0%N :: 0%N :: rule_ids (nest d) ++ []) ++ [0%N]) = 3 * S d + 1).
  rewrite app_nil_r, app_length. cbn [length]. unfold debug_id in *. rewrite IH. lia.
Qed.

Lemma nest_real d : Forall real_char (nest_text d).
Proof.
  induction d as [|d IH]; [apply real_check; reflexivity|]. cbn [nest_text].
  apply Forall_app. split; [apply real_check; reflexivity|].
  apply Forall_app. split; [exact IH|apply real_check; reflexivity].
Qed.

(** Such rules, whatever their debug ids. *)
Inductive deep : nat -> rule -> Prop :=
| deep_end : forall b id, deep 0 (RWhitespace b id)
| deep_more : forall d b1 i1 b2 i2 r id, deep d r ->
    deep (S d) (RSelect [RWhitespace b1 i1; RWhitespace b2 i2; r] id).

Lemma like_deep d : forall r, like_rule any_ids (nest d) r -> deep d r.
Proof.
  induction d as [|d IH]; intros r H; cbn [nest] in H.
  - inversion H; subst. constructor.
  - inversion H as [| | | | | |a b i j Hij Hf| | | | | | | |]; subst.
    inversion Hf as [|? x ? l H1 Hf1]; subst. inversion Hf1 as [|? y ? l' H2 Hf2]; subst.
    inversion Hf2 as [|? z ? l'' H3 Hf3]; subst. inversion Hf3; subst.
    inversion H1; subst. inversion H2; subst. constructor. apply IH. exact H3.
Qed.

Lemma resolved_deep names d : forall r, deep d r -> forall r', resolved names r r' -> deep d r'.
Proof.
  induction 1 as [b id|d b1 i1 b2 i2 r id Hr IH]; intros r' H.
  - inversion H; subst. constructor.
  - inversion H as [| | |? Hc| |a b i Hf| | | | | |]; subst; [discriminate|].
    inversion Hf as [|? x ? l H1 Hf1]; subst. inversion Hf1 as [|? y ? l' H2 Hf2]; subst.
    inversion Hf2 as [|? z ? l'' H3 Hf3]; subst. inversion Hf3; subst.
    inversion H1; subst. inversion H2; subst. constructor. apply IH. exact H3.
Qed.

Section Deep.
  Variable refs : list rule.

  Lemma no_begin b id r : ~ begin_differently refs (RWhitespace b id) r.
  Proof. intros (x & y & H & _). inversion H as [| |? a ? Hs|]; subst. inversion Hs. Qed.

  Lemma deep_optimized d r : deep d r -> forall fuel, optimize_rule (S fuel) refs r = Done r.
  Proof.
    induction 1 as [b id|d b1 i1 b2 i2 r id Hr IH]; intros fuel; [reflexivity|].
    cbn [optimize_rule]. unfold unique_table_from_select. remember (repeat 255 256) as data.
    cbn [unique_loop]. change (255 <=? 0) with false. cbv iota.
    cbn [unique_byte obind map_o]. rewrite IH. reflexivity.
  Qed.

  Lemma deep_visits d r : deep d r -> exists n, visits refs r n /\ (2 ^ N.of_nat d <= n)%N.
  Proof.
    induction 1 as [b id|d b1 i1 b2 i2 r id Hr (n & Hn & Hle)].
    - exists (1 + 0)%N. split; [apply visits_once; [exact I|constructor]|cbn; lia].
    - assert (Hw : forall b i, visits refs (RWhitespace b i) (1 + 0))
        by (intros b i; apply visits_once; [exact I|constructor]).
      eexists. split.
      + apply visits_twice; [apply no_begin|apply Hw|].
        constructor; [apply Hw|]. constructor; [exact Hn|constructor].
      + rewrite Nat2N.inj_succ, N.pow_succ_r'. lia.
  Qed.
End Deep.

Theorem exponential d : (N.of_nat d < 2 ^ 60)%N -> exists text s s' n,
  length text = 10 * d + 11 /\ rules_read std_ext text (inl s) /\
  optimize_returns s s' /\ syntax_returns std_ext text (inl s') /\
  optimize_makes_calls s n /\ (2 ^ N.of_nat d <= n)%N.
Proof.
  intros Hd. exists (nest_document d).
  destruct (text_back std_ext std_ext_ok std_string_literals std_no_slash [] [(tx "doc", one, nest d)] (nest_document d)) as (s & Hs & Hnames & Hrules & Hopt).
  - apply nest_is_document.
  - apply Forall_app. split; [apply real_check; reflexivity|apply nest_real].
  - constructor; [|constructor]. cbn [fst snd]. rewrite nest_ids.
    replace (f64_as_usize one) with 1%N by (vm_compute; reflexivity).
    change usize_max with 18446744073709551615%N. change (2 ^ 60)%N with 1152921504606846976%N in Hd. lia.
  - inversion Hrules as [|? r ? l Hr Hl Hn Hrs]; subst. inversion Hl; subst.
    destruct Hr as [(r1 & H1 & H2) _]. cbn [snd] in H1.
    apply like_deep in H1. apply (resolved_deep _ _ _ H1) in H2.
    assert (Ho : optimize_returns s (Syn [r] (s_names s))).
    { exists 1. unfold optimize. rewrite <- Hrs. cbn [map_o]. rewrite (deep_optimized _ d r H2 0). reflexivity. }
    destruct (deep_visits (s_rules s) d r H2) as (n & Hn' & Hle).
    exists s, (Syn [r] (s_names s)), (n + 0)%N.
    split; [unfold nest_document; rewrite app_length, nest_text_length; change (length (tx "1 doc = ")) with 8; lia|].
    split; [exact Hs|]. split; [exact Ho|]. split; [apply Hopt; exact Ho|].
    split; [|lia]. apply calls_exact. split; [eauto|]. rewrite <- Hrs at 2.
    constructor; [exact Hn'|constructor].
Qed.
