(** C92: messages and reports tell the error, its rule and its place. *)
From Coq Require Import Ascii String List NArith Bool Arith Lia.
From Verif Require Import Base Ext Types ParseModel HandlerModel LibModel PegSpec ApiSpec ReportSpec ParseProofs ReportProofs ExtProofs ParsePublic MessageSpec.
Import ListNotations.
Local Open Scope string_scope.
Local Open Scope list_scope.
Local Open Scope nat_scope.

(** ** Decimal numbers *)

Lemma dec_app f : forall n acc, dec_digits f n acc = dec_digits f n [] ++ acc.
Proof.
  induction f as [|f IH]; intros n acc; [reflexivity|]. cbn [dec_digits].
  destruct (n <? 10)%N; [reflexivity|]. rewrite (IH _ (_ :: acc)), (IH _ [_]), <- app_assoc. reflexivity.
Qed.

Lemma dec_value f : forall n, N.to_nat (N.log2 n) < f ->
  dec_digits f n [] <> [] /\ Forall digit (dec_digits f n []) /\ number_of (dec_digits f n []) = n /\
  (forall s', dec_digits f n [] = 48%N :: s' -> s' = [] /\ n = 0%N).
Proof.
  induction f as [|f IH]; intros n Hf; [lia|]. cbn [dec_digits].
  pose proof (N.mod_lt n 10 ltac:(discriminate)) as Hm. pose proof (N.div_mod n 10 ltac:(discriminate)) as Hd.
  destruct (N.ltb_spec n 10) as [Hlt|Hge].
  - rewrite (N.mod_small n 10 Hlt). repeat split; try discriminate.
    + constructor; [unfold digit; lia|constructor].
    + unfold number_of. cbn [fold_left]. lia.
    + injection H as _ <-. reflexivity.
    + apply (f_equal (fun l => hd 0%N l)) in H. cbn [hd] in H. lia.
  - revert Hm Hd. generalize (n mod 10)%N (n / 10)%N. intros r q Hm Hd.
    rewrite dec_app. destruct (IH q) as (Hne & Hdig & Hv & Hz).
    { assert (N.log2 q < N.log2 n)%N as Hl.
      { assert (2 * q <= n)%N as H2 by lia. assert (0 < q)%N as Hpos by lia.
        apply N.log2_le_mono in H2. rewrite N.log2_double in H2 by exact Hpos. lia. }
      clear - Hf Hl. lia. }
    repeat split.
    + destruct (dec_digits f q []); discriminate.
    + apply Forall_app. split; [exact Hdig|]. constructor; [unfold digit; lia|constructor].
    + transitivity (10 * number_of (dec_digits f q []) + (48 + r - 48))%N; [unfold number_of; rewrite fold_left_app; reflexivity|]. rewrite Hv. lia.
    + destruct (dec_digits f q []) as [|c u] eqn:Hr; [congruence|]. injection H as -> _.
      destruct (Hz u eq_refl) as [_ H0]. lia.
    + destruct (dec_digits f q []) as [|c u] eqn:Hr; [congruence|]. injection H as -> _.
      destruct (Hz u eq_refl) as [_ H0]. lia.
Qed.

Theorem fmt_decimal n : decimal n (fmt_N n).
Proof.
  destruct (dec_value (S (N.to_nat (N.log2 n))) n ltac:(lia)) as (H1 & H2 & H3 & H4).
  split; [exact H1|]. split; [exact H2|]. split; [exact H3|]. intros s' Hs. apply (H4 s' Hs).
Qed.

Lemma fmt_digits n : Forall digit (fmt_N n).
Proof. apply fmt_decimal. Qed.

Lemma fmt_N_inj a b : fmt_N a = fmt_N b -> a = b.
Proof. intros H. pose proof (fmt_decimal a) as (_ & _ & <- & _). pose proof (fmt_decimal b) as (_ & _ & <- & _). f_equal. exact H. Qed.

(** Two texts of digits, each followed by something else. *)
Lemma digits_split a b c d r s : Forall digit a -> Forall digit b -> ~ digit c -> ~ digit d -> a ++ c :: r = b ++ d :: s -> a = b /\ c :: r = d :: s.
Proof.
  intros Ha. revert b. induction Ha as [|x a Hx Ha IH]; intros b Hb Hc Hd H.
  - destruct b as [|y b]; [auto|]. cbn in H. injection H as -> _. inversion Hb. contradiction.
  - destruct b as [|y b]; cbn in H; injection H as -> H; [contradiction|].
    inversion Hb; subst. destruct (IH b) as [-> E]; auto.
Qed.

Lemma fmt_split a b c d r s : ~ digit c -> ~ digit d -> fmt_N a ++ c :: r = fmt_N b ++ d :: s -> a = b /\ c :: r = d :: s.
Proof.
  intros Hc Hd H. apply digits_split in H as [H1 H2]; try apply fmt_digits; auto. apply fmt_N_inj in H1. auto.
Qed.

(** ** Messages *)

Section Messages.
  Variable E : ext.

  Theorem message_number e id : blames e = Some id -> exists s rest, decimal id s /\ fmt_error E e = s2l "#" ++ s ++ s2l ", " ++ rest.
  Proof.
    intros H. exists (fmt_N id). destruct e; try discriminate; injection H as ->; eexists; (split; [apply fmt_decimal|]);
      cbn [fmt_error]; rewrite <- ?app_assoc; reflexivity.
  Qed.

  Theorem message_no_number e : blames e = None -> forall rest, fmt_error E e <> s2l "#" ++ rest.
  Proof. intros H rest. destruct e; try discriminate. Qed.

  Definition body (e : parse_error) : str :=
    match e with
    | ExpectedWhitespace id => s2l "Expected whitespace"
    | ExpectedNewLine id => s2l "Expected new line"
    | ExpectedSomething id => s2l "Expected something"
    | ExpectedNumber id => s2l "Expected number"
    | ParseNumberError id => s2l "Invalid number format: " ++ x_fmt_number_error E
    | ExpectedTag t id => s2l "Expected: `" ++ t ++ s2l "`"
    | DidNotExpectTag t id => s2l "Did not expect: `" ++ t ++ s2l "`"
    | ExpectedText id => s2l "Expected text"
    | EmptyTextNotAllowed id => s2l "Empty text not allowed"
    | ParseStringError e id => s2l "Invalid string format: " ++ x_fmt_string_error E e
    | InvalidRule m id => s2l "Invalid rule: " ++ fmt_invalid_msg m
    | NoRules => s2l "No rules are specified"
    | ExpectedEnd => s2l "Expected end"
    | Conversion m => s2l "Conversion, " ++ m
    end.

  Lemma message_eq e : fmt_error E e = match blames e with Some id => s2l "#" ++ fmt_N id ++ s2l ", " ++ body e | None => body e end.
  Proof. destruct e; cbn [fmt_error blames body]; rewrite <- ?app_assoc; reflexivity. Qed.

  Lemma comma_digit : ~ digit 44%N.
  Proof. unfold digit. lia. Qed.

  Lemma body_inj e e' : string_errors_differ E -> blames e = blames e' -> body e = body e' -> e = e'.
  Proof.
    intros HS Hb H.
    destruct e, e'; cbn [blames] in Hb; try discriminate Hb; try (injection Hb as ->);
      try reflexivity; cbn [body] in H; try (vm_compute in H; discriminate H).
    - apply app_inv_head in H. apply HS in H as ->. reflexivity.
    - apply app_inv_head, app_inv_tail in H as ->. reflexivity.
    - apply app_inv_head, app_inv_tail in H as ->. reflexivity.
    - apply app_inv_head in H. destruct msg, msg0; (reflexivity || discriminate H).
    - apply app_inv_head in H as ->. reflexivity.
  Qed.

  Theorem message_inj e e' : string_errors_differ E -> fmt_error E e = fmt_error E e' -> e = e'.
  Proof.
    intros HS H. rewrite !message_eq in H.
    destruct (blames e) as [id|] eqn:He, (blames e') as [id'|] eqn:He'.
    - apply app_inv_head in H. apply (fmt_split id id' 44%N 44%N) in H; [|exact comma_digit..].
      destruct H as [-> H]. injection H as H. apply body_inj; [exact HS|congruence|exact H].
    - exfalso. destruct e'; try discriminate He'; discriminate H.
    - exfalso. destruct e; try discriminate He; discriminate H.
    - apply body_inj; [exact HS|congruence|exact H].
  Qed.

  Lemma digits_one_line s : Forall digit s -> ~ In newline s.
  Proof. intros H Hi. rewrite Forall_forall in H. apply H in Hi. unfold digit, newline in Hi. lia. Qed.

  Lemma message_one_line e : one_line E e -> ~ In newline (fmt_error E e).
  Proof.
    intros H. assert (Hb : ~ In newline (body e)).
    { destruct e; cbn [one_line body] in *; rewrite ?in_app_iff; intros Hi;
        try (vm_compute in Hi; intuition discriminate).
      all: first
        [ destruct Hi as [Hi|Hi]; [vm_compute in Hi; intuition discriminate|exact (H Hi)]
        | destruct Hi as [Hi|[Hi|Hi]]; [vm_compute in Hi; intuition discriminate|exact (H Hi)|vm_compute in Hi; intuition discriminate]
        | destruct Hi as [Hi|Hi]; [vm_compute in Hi; intuition discriminate|destruct msg; vm_compute in Hi; intuition discriminate] ]. }
    rewrite message_eq. destruct (blames e); [|exact Hb]. rewrite !in_app_iff. intros [Hi|[Hi|[Hi|Hi]]].
    - vm_compute in Hi. intuition discriminate.
    - exact (digits_one_line _ (fmt_digits _) Hi).
    - vm_compute in Hi. intuition discriminate.
    - exact (Hb Hi).
  Qed.

  Lemma line_split a b r s : ~ In newline a -> ~ In newline b -> a ++ newline :: r = b ++ newline :: s -> a = b /\ r = s.
  Proof.
    revert b. induction a as [|x a IH]; intros b Ha Hb H.
    - destruct b as [|y b]; cbn in H; [injection H as ->; auto|]. injection H as <- _. exfalso. apply Hb. left. reflexivity.
    - destruct b as [|y b]; cbn in H; injection H as -> H; [exfalso; apply Ha; left; reflexivity|].
      destruct (IH b) as [-> ->]; auto; intros Hi; [apply Ha|apply Hb]; right; exact Hi.
  Qed.

  Lemma numbered_place ls : forall ls' i i' n c n' c' x y, Forall (fun l => ~ In newline l) ls -> Forall (fun l => ~ In newline l) ls' ->
    numbered i ls ++ position n c ++ x = numbered i' ls' ++ position n' c' ++ y -> n = n' /\ c = c'.
  Proof.
    assert (K1 : ~ digit 58%N) by (unfold digit; lia).
    induction ls as [|l ls IH]; intros ls' i i' n c n' c' x y Hl Hl' H; destruct ls' as [|l' ls']; cbn [numbered app] in H.
    - unfold position, fmt_nat in H. rewrite <- !app_assoc in H.
      apply (fmt_split _ _ 44%N 44%N) in H as [H1 H]; [|exact comma_digit..]. injection H as H.
      apply (fmt_split _ _ 58%N 58%N) in H as [H2 _]; [|exact K1..]. lia.
    - exfalso. unfold position, fmt_nat in H. rewrite <- !app_assoc in H.
      apply (fmt_split _ _ 44%N 58%N) in H as [_ H]; [discriminate|exact comma_digit|exact K1].
    - exfalso. unfold position, fmt_nat in H. rewrite <- !app_assoc in H.
      apply (fmt_split _ _ 58%N 44%N) in H as [_ H]; [discriminate|exact K1|exact comma_digit].
    - unfold fmt_nat in H. rewrite <- !app_assoc in H.
      apply (fmt_split _ _ 58%N 58%N) in H as [_ H]; [|exact K1..]. injection H as H.
      change (l ++ newline :: (numbered (S i) ls ++ position n c ++ x) = l' ++ newline :: (numbered (S i') ls' ++ position n' c' ++ y)) in H.
      apply line_split in H as [_ H]; [|exact (Forall_inv Hl)|exact (Forall_inv Hl')].
      exact (IH ls' _ _ _ _ _ _ _ _ (Forall_inv_tail Hl) (Forall_inv_tail Hl') H).
  Qed.

  Lemma shown_numbered e prefix before : shown_before e prefix before ->
    exists i ls, before = numbered i ls /\ Forall (fun l => ~ In newline l) ls.
  Proof.
    intros H. destruct H as [| |t id a x blank Hl Hb Ha]; [exists 0, []; split; [reflexivity|constructor]..|].
    exists (length a), (x :: blank). split; [reflexivity|]. apply Forall_app in Hl. apply Hl.
  Qed.

  Lemma prefix_unique text : forall p l s p' l' s', line_of text p l s -> line_of text p' l' s' -> line_breaks p = line_breaks p' -> p = p'.
  Proof.
    intros p l s p' l' s' H H' Hn. destruct H as [Ht Hp Hl Hs], H' as [Ht' Hp' Hl' Hs']. rewrite Ht in Ht'. clear Ht Hs Hs'.
    apply prefix_lines in Hp as (ls & -> & Hls). apply prefix_lines in Hp' as (ls' & -> & Hls').
    rewrite !line_breaks_lines in Hn by assumption.
    revert ls' Hls' Hn Ht'. induction Hls as [|k ls Hk Hls IH]; intros ls' Hls' Hn Ht'; destruct Hls' as [|k' ls' Hk' Hls']; try discriminate Hn; [reflexivity|].
    change (with_breaks (k :: ls)) with ((k ++ [newline]) ++ with_breaks ls) in *.
    change (with_breaks (k' :: ls')) with ((k' ++ [newline]) ++ with_breaks ls') in *.
    rewrite <- !app_assoc in Ht'. cbn [app] in Ht'. apply line_split in Ht' as [-> Ht']; [|assumption..].
    f_equal. apply IH; [assumption|injection Hn as Hn; exact Hn|exact Ht'].
  Qed.

  Lemma byte_line_exists text : forall o, o <= byte_len text -> exists prefix line suffix,
    line_of text prefix line suffix /\ byte_len prefix <= o <= byte_len prefix + byte_len line.
  Proof.
    induction text as [|c text IH]; intros o Ho.
    - exists [], [], []. cbn in *. split; [|lia].
      split; [reflexivity|left; reflexivity|intros []|left; reflexivity].
    - destruct (N.eqb_spec c newline) as [-> | Hc].
      + destruct o as [|o].
        * exists [], [], (newline :: text). split; [|cbn; lia].
          split; [reflexivity|left; reflexivity|intros []|right; eauto].
        * destruct (IH o ltac:(cbn in Ho; lia)) as (p & l & s & [Ht Hp Hl Hs] & Hb).
          exists (newline :: p), l, s. split; [|cbn; lia].
          split; [rewrite Ht; reflexivity| |exact Hl|exact Hs].
          right. destruct Hp as [-> | (p' & ->)]; [exists []; reflexivity|exists (newline :: p'); reflexivity].
      + cbn [byte_len] in Ho. destruct (IH (o - utf8_len c)) as (p & l & s & [Ht Hp Hl Hs] & Hb); [lia|].
        destruct Hp as [-> | (p' & ->)].
        * exists [], (c :: l), s. split; [|cbn in *; lia].
          split; [rewrite Ht; reflexivity|left; reflexivity| |exact Hs]. intros [-> | H]; contradiction.
        * exists (c :: p' ++ [newline]), l, s. split.
          -- split; [rewrite Ht; reflexivity|right; exists (c :: p'); reflexivity|exact Hl|exact Hs].
          -- cbn [byte_len]. rewrite byte_len_app in *. change (byte_len [newline]) with 1 in *. lia.
  Qed.

  Theorem report_inj text e e' out : string_errors_differ E ->
    r_off (fst e) <= length text -> r_off (fst e') <= length text -> one_line E (snd e) -> one_line E (snd e') ->
    error_report E text e = Done out -> error_report E text e' = Done out ->
    snd e = snd e' /\ r_off (fst e) = r_off (fst e').
  Proof.
    intros HS Ho Ho' H1 H1' HR HR'. pose proof (byte_len_ge text) as Hge.
    destruct (byte_line_exists text (r_off (fst e))) as (p & l & s & Hl & Hin); [lia|].
    destruct (byte_line_exists text (r_off (fst e'))) as (p' & l' & s' & Hl' & Hin'); [lia|].
    destruct (report_points E text p l s e Hl Hin) as (o & Hr & before & behind & Hb & _ & Hout).
    destruct (report_points E text p' l' s' e' Hl' Hin') as (o' & Hr' & before' & behind' & Hb' & _ & Hout').
    rewrite HR in Hr. injection Hr as <-. rewrite HR' in Hr'. injection Hr' as <-. rewrite Hout in Hout'. clear Hout HR HR'.
    apply app_inv_head in Hout'. apply line_split in Hout' as [Hm Hrest]; [|apply message_one_line; assumption..].
    apply message_inj in Hm; [|exact HS]. split; [exact Hm|].
    apply shown_numbered in Hb as (i & ls & -> & Hls). apply shown_numbered in Hb' as (i' & ls' & -> & Hls').
    apply numbered_place in Hrest as [Hn Hc]; [|exact Hls|exact Hls'].
    pose proof (prefix_unique text _ _ _ _ _ _ Hl Hl' Hn) as ->. lia.
  Qed.
End Messages.

Lemma std_strings_differ : string_errors_differ std_ext.
Proof.
  intros a b H. destruct a as [| |n], b as [| |m]; try reflexivity; try discriminate H.
  change (s2l "Invalid unicode " ++ fmt_N n = s2l "Invalid unicode " ++ fmt_N m) in H.
  apply app_inv_head, fmt_N_inj in H as ->. reflexivity.
Qed.

Theorem same_reports E : ext_ok E -> string_errors_differ E -> forall s s' text tokens tokens' ind ind' w t t' e e',
  errstr_returns E s text tokens ind (Some w) t -> errstr_returns E s' text tokens' ind' (Some w) t' ->
  parse_returns E s text tokens ind (Some e) t -> parse_returns E s' text tokens' ind' (Some e') t' ->
  one_line E (snd e) -> one_line E (snd e') ->
  snd e = snd e' /\ r_off (fst e) = r_off (fst e').
Proof.
  intros HE HS s s' text tokens tokens' ind ind' w t t' e e' Hw Hw' Hp Hp' H1 H1'.
  apply errstr_err in Hw as (d & Hd & Hr). apply errstr_err in Hw' as (d' & Hd' & Hr').
  destruct (parse_returns_unique _ _ _ _ _ _ _ _ _ Hd Hp) as [Hde _]. injection Hde as ->.
  destruct (parse_returns_unique _ _ _ _ _ _ _ _ _ Hd' Hp') as [Hde _]. injection Hde as ->.
  pose proof (error_inside E HE _ _ _ _ _ _ Hp) as Hi. pose proof (error_inside E HE _ _ _ _ _ _ Hp') as Hi'.
  unfold next_offset in *. eapply (report_inj E text e e' w); try eassumption; lia.
Qed.

Lemma message_example : decimal 4003%N (s2l "4003") /\
  fmt_error std_ext (ExpectedTag (s2l ";") 4003%N) = s2l "#4003, Expected: `;`" /\ one_line std_ext (ExpectedTag (s2l ";") 4003%N) /\
  error_report std_ext (s2l "a = b") (Rng 5 0, ExpectedTag (s2l ";") 4003%N) =
    Done (s2l "Error #4003, Expected: `;`" ++ [newline] ++ s2l "1,6: a = b" ++ [newline] ++ s2l "1,6:      ^" ++ [newline]).
Proof.
  split; [exact (fmt_decimal 4003%N)|]. split; [vm_compute; reflexivity|]. split; [|vm_compute; reflexivity].
  vm_compute. intuition discriminate.
Qed.
