(** Every expressible rule can be written. *)
From Coq Require Import Ascii String List NArith Bool Arith Lia.
From Verif Require Import Base Ext Types DataSpec PegSpec OptSpec JsonSpec ConvertSpec WriteSpec SyntaxSpec IdSpec TextSpec OptProofs TextProofs7.
Import ListNotations.
Local Open Scope string_scope.
Local Open Scope list_scope.
Local Open Scope nat_scope.

(** One string is defined, the empty text. *)
Definition empty_string : list (str * str) := [(s2l "empty", [])].

Notation real := (Forall real_char).

Lemma real_ascii s : real (s2l s).
Proof.
  induction s as [|a s IH]; [constructor|]. constructor; [|exact IH].
  unfold real_char. destruct a as [[] [] [] [] [] [] [] []]; reflexivity.
Qed.

Lemma real_app a b : real a -> real b -> real (a ++ b).
Proof. intros. apply Forall_app. auto. Qed.

Lemma write_chars v : real v -> exists c, chars_text (fun _ => True) v c /\ real c.
Proof.
  induction 1 as [|x v Hx Hv (c & Hc & Hr)]; [exists []; split; constructor|].
  destruct (N.eq_dec x quote) as [->|Hq].
  { exists (backslash :: quote :: c). split; [apply chars_escape; [cbn; auto 20|exact Hc]|].
    repeat (apply Forall_cons; [reflexivity|]). exact Hr. }
  destruct (N.eq_dec x backslash) as [->|Hb].
  { exists (backslash :: backslash :: c). split; [apply chars_escape; [cbn; auto 20|exact Hc]|].
    repeat (apply Forall_cons; [reflexivity|]). exact Hr. }
  exists (x :: c). split; [apply chars_raw; auto|constructor; assumption].
Qed.

Lemma write_quoted v : real v -> exists t, quoted v t /\ real t.
Proof.
  intros H. destruct (write_chars v H) as (c & Hc & Hr). exists (quote :: c ++ [quote]). split; [exists c; auto|].
  apply Forall_cons; [reflexivity|]. apply real_app; [exact Hr|]. apply Forall_cons; [reflexivity|constructor].
Qed.

Lemma empty_name : is_name (s2l "empty").
Proof.
  split; [discriminate|]. repeat apply Forall_cons; try apply Forall_nil;
    (split; [intros H; vm_compute in H; discriminate H|cbn; intuition discriminate]).
Qed.

Lemma write_text b v : real v -> exists t, mtext quoted (defined empty_string) b v t /\ real t.
Proof.
  intros H. destruct b.
  { destruct (write_quoted v H) as (t & Hq & Hr). exists t. split; [apply mtext_quoted; auto|exact Hr]. }
  destruct v as [|c v].
  - exists (s2l "_" ++ s2l "empty"). split; [|apply (real_ascii "_empty")]. apply mtext_name; [exact empty_name|].
    exists [], []. split; [reflexivity|]. intros [].
  - destruct (write_quoted (c :: v) H) as (t & Hq & Hr). exists t. split; [|exact Hr].
    apply mtext_quoted; [exact Hq|right]. destruct Hq as (t' & Hc & ->). cbn [length]. rewrite app_length. cbn [length].
    inversion Hc; subst; cbn [length]; lia.
Qed.

Lemma write_property p : writable_property p -> exists t, mprop quoted (defined empty_string) p t /\ real t.
Proof.
  intros H. destruct p as [v|]; [|exists []; split; constructor].
  destruct (write_text false v (H v eq_refl)) as (t & Ht & Hr). exists (s2l ":" ++ t).
  split; [constructor; exact Ht|apply real_app; [apply real_ascii|exact Hr]].
Qed.

Lemma real_mark b : real (mark b).
Proof. destruct b; [apply (real_ascii "?")|apply (real_ascii "!")]. Qed.
Lemma real_sign b s : real (sign b (s2l s)).
Proof. destruct b; [apply real_ascii|constructor]. Qed.

Ltac reals := repeat first [apply real_app|apply real_mark|apply real_sign|apply real_ascii|assumption|constructor].

Lemma write_args args : args <> [] -> (forall r, In r args -> exists t, mrule quoted (defined empty_string) r t /\ real t) ->
  exists t, margs quoted (defined empty_string) args t /\ real t.
Proof.
  induction args as [|r args IH]; [contradiction|]. intros _ H.
  destruct (H r (or_introl eq_refl)) as (t & Ht & Hr).
  destruct args as [|r2 args].
  - exists (t ++ []). split; [apply m_last; [exact Ht|constructor]|rewrite app_nil_r; exact Hr].
  - destruct IH as (ts & Hts & Hrs); [discriminate|intros r0 H0; apply H; right; exact H0|].
    exists (t ++ s2l " " ++ ts). split; [|reals]. apply m_more; [exact Ht| |discriminate|exact Hts].
    repeat constructor.
Qed.

Lemma write_rule r : expressible r -> exists t, mrule quoted (defined empty_string) r t /\ real t.
Proof.
  induction r as [r IH] using rule_ind'. intros H. destruct H.
  - eexists. split; [apply m_whitespace|reals].
  - destruct (write_text true any H) as (t & Ht & Hr). destruct (write_property p H0) as (tp & Hp & Hrp).
    eexists. split; [apply m_until_any; eassumption|reals].
  - destruct (write_text true any H) as (t & Ht & Hr). destruct (write_property p H0) as (tp & Hp & Hrp).
    eexists. split; [apply m_until_any_or_ws; eassumption|reals].
  - destruct (write_property p H) as (tp & Hp & Hrp). eexists. split; [apply m_text; eassumption|reals].
  - destruct (write_property p H) as (tp & Hp & Hrp). eexists. split; [apply m_number; eassumption|reals].
  - destruct (write_text false v H) as (t & Ht & Hr). destruct p as [p|].
    + destruct (write_text false p (H0 p eq_refl)) as (tp & Hp & Hrp).
      eexists. split; [apply m_tag_prop; eassumption|reals].
    + rewrite (H1 eq_refl). eexists. split; [apply m_tag; eassumption|reals].
  - destruct H as [Hn Hrn]. destruct (write_property p H0) as (tp & Hp & Hrp).
    eexists. split; [apply m_reference; eassumption|reals].
  - destruct (write_args args H) as (t & Ht & Hr).
    { intros r Hr. apply IH; [exact Hr|]. rewrite Forall_forall in H0. apply H0. exact Hr. }
    exists (s2l "[" ++ [] ++ t ++ s2l "]"). split; [apply m_sequence; [constructor|exact Ht]|reals].
  - destruct (write_args args H) as (t & Ht & Hr).
    { intros r Hr. apply IH; [exact Hr|]. rewrite Forall_forall in H0. apply H0. exact Hr. }
    exists (s2l "{" ++ [] ++ t ++ s2l "}"). split; [apply m_select; [constructor|exact Ht]|reals].
  - destruct (IH r (or_introl eq_refl) H) as (tr & Htr & Hr). destruct (IH b (or_intror (or_introl eq_refl)) H0) as (tb & Htb & Hb).
    eexists. split; [apply m_separate_by with (dot := true) (w1 := []) (w2 := s2l " ") (w3 := []); [constructor|exact Htb|repeat constructor|discriminate|exact Htr|constructor]|reals].
  - destruct (IH r (or_introl eq_refl) H) as (t & Ht & Hr). eexists. split; [apply m_repeat; exact Ht|reals].
  - destruct (IH r (or_introl eq_refl) H) as (t & Ht & Hr).
    eexists. split; [apply m_lines with (w1 := []) (w2 := []); [constructor|exact Ht|constructor]|reals].
  - destruct (IH r (or_introl eq_refl) H) as (t & Ht & Hr). eexists. split; [apply m_optional; exact Ht|reals].
  - destruct (IH r (or_introl eq_refl) H) as (t & Ht & Hr). eexists. split; [apply m_not; eassumption|reals].
Qed.

Section Public.
  Variable E : ext.
  Hypothesis HE : ext_ok E.
  Hypothesis HS : string_literals_ok E.
  Hypothesis HN : no_slash_number E.

  Definition writable_node (n : str * f64 * rule) : Prop :=
    let '(name, x, r) := n in
    writable_name name /\ (exists t, numeral E x t /\ Forall real_char t) /\ expressible r.

  Lemma write_nodes nodes : Forall writable_node nodes -> exists es text,
    entries_text E quoted (defined empty_string) es text /\ nodes_of es = nodes /\ strings_of es = [] /\ real text.
  Proof.
    induction 1 as [|[[name x] r] nodes ([Hn Hrn] & (num & Hnum & Hrnum) & Hr) _ (es & text & Ht & Hns & Hss & Hrt)].
    - exists [], []. split; [apply entries_none; constructor|]. repeat split; constructor.
    - destruct (write_rule r Hr) as (t & Hm & Hrm).
      exists (ENode x name r :: es), ([] ++ (num ++ s2l " " ++ name ++ s2l " " ++ s2l "=" ++ s2l " " ++ t ++ []) ++ newline :: text).
      split; [|split; [rewrite <- Hns; reflexivity|split; [exact Hss|]]].
      + apply entries_more; [constructor| |exact Ht].
        apply entry_node; try assumption; repeat constructor; discriminate.
      + repeat apply real_app; reals.
  Qed.

  Theorem every_syntax_written nodes :
    let names := map (fun n => fst (fst n)) nodes in
    let lo n := (f64_as_usize (snd (fst n)) * 1000)%N in
    let hi n := (lo n + N.of_nat (length (rule_ids (snd n))))%N in
    Forall (fun n => writable_name (fst (fst n)) /\
      (exists t, numeral E (snd (fst n)) t /\ Forall real_char t) /\ expressible (snd n)) nodes ->
    Forall (fun n => (hi n <= usize_max)%N) nodes ->
    exists text s, rules_read E text (inl s) /\ s_names s = names /\
      Forall2 (fun n r => (exists r1, like_rule any_ids (snd n) r1 /\ resolved names r1 r) /\
        forall i, In i (rule_ids r) <-> (lo n < i <= hi n)%N) nodes (s_rules s) /\
      forall s', optimize_returns s s' -> syntax_returns E text (inl s').
  Proof.
    intros names lo hi Hw Hsmall.
    assert (Hw' : Forall writable_node nodes).
    { eapply Forall_impl; [|exact Hw]. intros [[nm x] r] H. exact H. }
    destruct (write_nodes nodes Hw') as (es & text & Ht & Hns & Hss & Hreal).
    destruct (write_quoted [] (Forall_nil _)) as (q & Hq & Hrq).
    set (first := s2l "_" ++ s2l "empty" ++ s2l ":" ++ s2l " " ++ q ++ []).
    destruct (text_back E HE HS HN empty_string nodes (first ++ newline :: text)) as (s & Hs).
    - apply document_of with (first := [EString (s2l "empty") []]) (second := es); try assumption; try reflexivity.
      apply (entries_more E quoted (defined empty_string) []); [constructor| |exact Ht].
      apply entry_string; [exact empty_name|exact Hq|repeat constructor|constructor].
    - unfold first. repeat apply real_app; reals.
    - exact Hsmall.
    - exists (first ++ newline :: text), s. exact Hs.
  Qed.
End Public.

(** ** The stand-in for [read_token] *)

Definition digit (c : char) : Prop := (48 <= c <= 57)%N.

Lemma digit_is c : digit c -> is_digit c = true.
Proof. unfold digit, is_digit. intros H. apply andb_true_iff. split; apply N.leb_le; lia. Qed.

Lemma std_no_slash : no_slash_number std_ext.
Proof. intros rest. reflexivity. Qed.

Lemma white_stop c : white c -> is_digit c = false /\ (c =? 43)%N = false /\ (c =? 45)%N = false /\ (c =? 46)%N = false /\
  (c =? 101)%N = false /\ (c =? 69)%N = false.
Proof.
  unfold white, is_ws, is_digit. intros H.
  rewrite !orb_true_iff, !andb_true_iff, !N.leb_le, !N.eqb_eq in H.
  rewrite !N.eqb_neq, andb_false_iff, !N.leb_gt. lia.
Qed.

Lemma std_digits_number t c rest : white c -> Forall digit t -> forall n sg,
  std_number_go false (t ++ c :: rest) sg true false false false n = Some (n + length t).
Proof.
  intros Hc Ht. destruct (white_stop c Hc) as (H1 & H2 & H3 & H4 & H5 & H6).
  induction Ht as [|d t Hd Ht IH]; intros n sg.
  - cbn [app std_number_go]. rewrite H1, H2, H3, H4, H5, H6. rewrite !andb_false_r. cbn. f_equal. lia.
  - cbn [app std_number_go]. rewrite (digit_is d Hd), IH. f_equal. cbn. lia.
Qed.

Lemma std_digits_all t : Forall digit t -> forall acc k, exists m, std_digits t acc k = (m, k + length t, []).
Proof.
  induction 1 as [|d t Hd Ht IH]; intros acc k; [exists acc; cbn; f_equal; f_equal; lia|].
  cbn [std_digits]. rewrite (digit_is d Hd). destruct (IH (acc * 10 + (d - 48))%N (S k)) as (m & ->).
  exists m. f_equal. f_equal. cbn. lia.
Qed.

(** Decimal digits are a numeral. *)
Theorem std_numeral t : t <> [] -> Forall digit t -> exists x, numeral std_ext x t.
Proof.
  intros Hne Hd. destruct t as [|d t]; [contradiction|]. inversion Hd as [|? ? Hd0 Hdt]; subst.
  assert (Hp : exists x, std_parse_number false (d :: t) = Some x).
  { unfold std_parse_number, std_parse_f64. unfold digit in Hd0.
    destruct (std_digits_all (d :: t) Hd 0%N 0) as (m & Hm).
    assert (Hc : In d [48; 49; 50; 51; 52; 53; 54; 55; 56; 57]%N) by (cbn; lia).
    cbn in Hc. repeat destruct Hc as [<-|Hc]; [..|contradiction];
      cbv beta iota zeta; rewrite Hm; cbn; eexists; reflexivity. }
  destruct Hp as (x & Hx). exists x. split; [|split; [|exact Hx]].
  - exists d, t. split; [reflexivity|]. unfold digit in Hd0. split; [|split; lia].
    unfold white, is_ws. intros H. rewrite !orb_true_iff, !andb_true_iff, !N.leb_le, !N.eqb_eq in H. lia.
  - intros c rest Hc. cbn [x_number std_ext]. unfold std_number. cbn [app std_number_go]. rewrite (digit_is d Hd0).
    rewrite (std_digits_number t c rest Hc Hdt). reflexivity.
Qed.
