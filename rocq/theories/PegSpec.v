(** What it means for a rule to read a text: the specification against which parsing is
    verified. It follows the rule table of the README and knows nothing about token
    vectors, committed states, error merging or fuel.

    [reads r ind p s v ind' tr]: in front of the text [s], which starts at position [p],
    with the indent settings [ind], the rule [r] has the verdict [v]; the indent settings
    are then [ind'], and [tr] lists the failures raised on the way, oldest first, except
    those inside of a negative lookahead. *)
From Coq Require Import List NArith Bool Arith.
From Verif Require Import Base Ext Types.
Import ListNotations.

(** [Yes n out]: reads the first [n] characters and produces the tokens [out]. *)
Inductive verdict :=
| Yes (n : nat) (out : list tok)
| No.

(** Something that reads [n] characters and produces [out], followed by [v]. *)
Definition after (n : nat) (out : list tok) (v : verdict) : verdict :=
  match v with
  | Yes m out' => Yes (n + m) (out ++ out')
  | No => No
  end.

(** The first [n] characters of [s] meet [P], and no more. *)
Definition longest (P : char -> Prop) (s : str) (n : nat) : Prop :=
  n <= length s /\ Forall P (firstn n s) /\
  (forall c, nth_error s n = Some c -> ~ P c).

Definition starts_with (s text : str) : Prop := exists rest, s = text ++ rest.

Definition white (c : char) : Prop := is_ws c = true.
Definition blank (c : char) : Prop := c = space \/ c = tab.

(** The token of a property. *)
Definition token (property : option str) (r : range) (mk : str -> metadata) : list tok :=
  match property with
  | Some name => [(r, mk name)]
  | None => []
  end.

(** ** Lines and indentation *)

(** The white space in front of [s] contains no line break. *)
Definition same_line (s : str) : Prop :=
  exists w, longest white s w /\ ~ In newline (firstn w s).

(** The item on the next line starts [k] characters ahead: after the last line break of
    the white space in front. [nl]: we are already at the start of a line. *)
Inductive line_start (nl : bool) (s : str) : nat -> Prop :=
| line_start_break : forall a b w,
    longest white s w -> firstn w s = a ++ newline :: b -> ~ In newline b ->
    line_start nl s (length a + 1)
| line_start_here : nl = true -> same_line s -> line_start nl s 0.

(** The white space at the end of [s] contains a line break. *)
Definition ends_line (s : str) : Prop :=
  exists a b, s = a ++ newline :: b /\ Forall white b.

(** The first [k] characters of the text are indentation of width [n]; a space counts
    one, a tab up to [tabs]. *)
Inductive indentation (tabs : N) : N -> str -> nat -> Prop :=
| indentation_none : forall s, indentation tabs 0 s 0
| indentation_space : forall n s k,
    (0 < n)%N -> indentation tabs (n - 1) s k ->
    indentation tabs n (space :: s) (S k)
| indentation_tab : forall n s k,
    (tabs < n)%N -> indentation tabs (n - tabs) s k ->
    indentation tabs n (tab :: s) (S k)
| indentation_tab_last : forall n s,
    (0 < n <= tabs)%N -> indentation tabs n (tab :: s) 1.

(** The width of blanks. *)
Fixpoint width (tabs : N) (s : str) : N :=
  match s with
  | [] => 0
  | c :: s' => ((if N.eqb c tab then tabs else 1) + width tabs s')%N
  end.

(** ** Rules *)

Section Reads.
  Variable E : ext.
  Variable refs : list rule.

  Inductive reads : rule -> indent -> nat -> str -> verdict -> indent -> list perr -> Prop :=
  (** White space. *)
  | reads_whitespace : forall optional id ind p s n,
      longest white s n -> optional = true \/ 0 < n ->
      reads (RWhitespace optional id) ind p s (Yes n []) ind []
  | reads_whitespace_no : forall id ind p s,
      longest white s 0 ->
      reads (RWhitespace false id) ind p s No ind [(Rng p 0, ExpectedWhitespace id)]
  (** Tokens, and forbidden tokens. *)
  | reads_tag : forall text inverted property id ind p s,
      starts_with s text ->
      reads (RTag text false inverted property id) ind p s
        (Yes (length text)
             (token property (Rng p (length text)) (fun n => MBool n (negb inverted))))
        ind []
  | reads_tag_no : forall text inverted property id ind p s,
      ~ starts_with s text ->
      reads (RTag text false inverted property id) ind p s No ind
        [(Rng p 0, ExpectedTag text id)]
  | reads_not_tag : forall text inverted property id ind p s,
      ~ starts_with s text ->
      reads (RTag text true inverted property id) ind p s
        (Yes 0 (token property (Rng p 0) (fun n => MBool n (negb inverted)))) ind []
  | reads_not_tag_no : forall text inverted property id ind p s,
      starts_with s text ->
      reads (RTag text true inverted property id) ind p s No ind
        [(Rng p (length text), DidNotExpectTag text id)]
  (** Text up to any of some characters, or white space. *)
  | reads_until : forall any optional property id ind p s n,
      longest (fun c => ~ In c any) s n -> optional = true \/ 0 < n ->
      reads (RUntilAny any optional property id) ind p s
        (Yes n (token property (Rng p n) (fun name => MString name (firstn n s)))) ind []
  | reads_until_no : forall any property id ind p s,
      longest (fun c => ~ In c any) s 0 ->
      reads (RUntilAny any false property id) ind p s No ind
        [(Rng p 0, ExpectedSomething id)]
  | reads_until_ws : forall any optional property id ind p s n,
      longest (fun c => ~ white c /\ ~ In c any) s n -> optional = true \/ 0 < n ->
      reads (RUntilAnyOrWs any optional property id) ind p s
        (Yes n (token property (Rng p n) (fun name => MString name (firstn n s)))) ind []
  | reads_until_ws_no : forall any property id ind p s,
      longest (fun c => ~ white c /\ ~ In c any) s 0 ->
      reads (RUntilAnyOrWs any false property id) ind p s No ind
        [(Rng p 0, ExpectedSomething id)]
  (** Quoted text. *)
  | reads_text : forall allow_empty property id ind p s n val,
      x_string E s = Some n -> allow_empty = true \/ n <> 2 ->
      x_parse_string E (firstn n s) = inl val ->
      reads (RText allow_empty property id) ind p s
        (Yes n (token property (Rng p n) (fun name => MString name val))) ind []
  | reads_text_none : forall allow_empty property id ind p s,
      x_string E s = None ->
      reads (RText allow_empty property id) ind p s No ind [(Rng p 0, ExpectedText id)]
  | reads_text_empty : forall property id ind p s,
      x_string E s = Some 2 ->
      reads (RText false property id) ind p s No ind [(Rng p 2, EmptyTextNotAllowed id)]
  | reads_text_bad : forall allow_empty property id ind p s n r e,
      x_string E s = Some n -> allow_empty = true \/ n <> 2 ->
      x_parse_string E (firstn n s) = inr (r, e) ->
      reads (RText allow_empty property id) ind p s No ind
        [(Rng (p + r_off r) (r_len r), ParseStringError e id)]
  (** Numbers. *)
  | reads_number : forall underscore property id ind p s n val,
      x_number E underscore s = Some n ->
      x_parse_number E underscore (firstn n s) = Some val ->
      reads (RNumber underscore property id) ind p s
        (Yes n (token property (Rng p n) (fun name => MF64 name val))) ind []
  | reads_number_none : forall underscore property id ind p s,
      x_number E underscore s = None ->
      reads (RNumber underscore property id) ind p s No ind [(Rng p 0, ExpectedNumber id)]
  | reads_number_bad : forall underscore property id ind p s n,
      x_number E underscore s = Some n ->
      x_parse_number E underscore (firstn n s) = None ->
      reads (RNumber underscore property id) ind p s No ind [(Rng p n, ParseNumberError id)]
  (** One rule after the other. *)
  | reads_sequence : forall args id ind p s v ind' tr,
      reads_seq args ind p s v ind' tr ->
      reads (RSequence args id) ind p s v ind' tr
  (** The first of the rules that succeeds. *)
  | reads_select : forall args id ind p s v ind' tr,
      args <> [] -> reads_first args ind p s v ind' tr ->
      reads (RSelect args id) ind p s v ind' tr
  | reads_select_empty : forall id ind p s,
      reads (RSelect [] id) ind p s No ind [(Rng p 0, InvalidRule SelectEmpty id)]
  (** The rule for the first byte of the text, then the tail if there is one. *)
  | reads_fast_end : forall table args tail id ind p,
      reads (RFastSelect table args tail id) ind p [] No ind [(Rng p 0, ExpectedSomething id)]
  | reads_fast_none : forall table args id ind p c s,
      nth_error table (N.to_nat (utf8_first c)) = Some 255 ->
      reads (RFastSelect table args false id) ind p (c :: s) No ind
        [(Rng p 0, ExpectedSomething id)]
  | reads_fast_tail : forall table args r id ind p c s v ind' tr,
      nth_error table (N.to_nat (utf8_first c)) = Some 255 ->
      reads r ind p (c :: s) v ind' tr ->
      reads (RFastSelect table (args ++ [r]) true id) ind p (c :: s) v ind' tr
  | reads_fast : forall table args tail id ind p c s i r n out ind' tr,
      nth_error table (N.to_nat (utf8_first c)) = Some i -> i <> 255 ->
      nth_error args i = Some r ->
      reads r ind p (c :: s) (Yes n out) ind' tr ->
      reads (RFastSelect table args tail id) ind p (c :: s) (Yes n out) ind' tr
  | reads_fast_no : forall table args id ind p c s i r ind' tr,
      nth_error table (N.to_nat (utf8_first c)) = Some i -> i <> 255 ->
      nth_error args i = Some r ->
      reads r ind p (c :: s) No ind' tr ->
      reads (RFastSelect table args false id) ind p (c :: s) No ind' tr
  | reads_fast_then_tail : forall table args r' id ind p c s i r ind1 tr1 v ind2 tr2,
      nth_error table (N.to_nat (utf8_first c)) = Some i -> i <> 255 ->
      nth_error (args ++ [r']) i = Some r ->
      reads r ind p (c :: s) No ind1 tr1 ->
      reads r' ind1 p (c :: s) v ind2 tr2 ->
      reads (RFastSelect table (args ++ [r']) true id) ind p (c :: s) v ind2 (tr1 ++ tr2)
  (** As many as possible. *)
  | reads_repeat : forall r optional id ind p s k n out ind' tr,
      reads_many r ind p s k n out ind' tr -> optional = true \/ 0 < k ->
      reads (RRepeat r optional id) ind p s (Yes n out) ind' tr
  | reads_repeat_no : forall r id ind p s ind' tr,
      reads r ind p s No ind' tr ->
      reads (RRepeat r false id) ind p s No ind' tr
  (** A list with separators. *)
  | reads_separate : forall r by_ optional trail id ind p s n out ind1 tr1 v ind2 tr2,
      reads r ind p s (Yes n out) ind1 tr1 ->
      reads_more r by_ trail ind1 (p + n) (skipn n s) v ind2 tr2 ->
      reads (RSeparateBy r by_ optional trail id) ind p s (after n out v) ind2 (tr1 ++ tr2)
  | reads_separate_none : forall r by_ optional trail id ind p s ind' tr,
      reads r ind p s No ind' tr ->
      reads (RSeparateBy r by_ optional trail id) ind p s
        (if optional then Yes 0 [] else No) ind' tr
  (** Lines. *)
  | reads_lines_rule : forall r indented id ind p s v ind' tr,
      reads_lines r indented id true true ind p s v ind' tr ->
      reads (RLines r indented id) ind p s v ind' tr
  (** References. *)
  | reads_node : forall name property i id r ind p s n out ind' tr,
      nth_error refs i = Some r ->
      reads r ind p s (Yes n out) ind' tr ->
      reads (RNode name property (Some i) id) ind p s
        (Yes n (token property (Rng p 0) StartNode ++ out ++
                token property (Rng p n) EndNode)) ind' tr
  | reads_node_no : forall name property i id r ind p s ind' tr,
      nth_error refs i = Some r ->
      reads r ind p s No ind' tr ->
      reads (RNode name property (Some i) id) ind p s No ind' tr
  | reads_node_unresolved : forall name property id ind p s,
      reads (RNode name property None id) ind p s No ind
        [(Rng p 0, InvalidRule NodeNotUpdated id)]
  (** Optional rules. *)
  | reads_optional : forall r id ind p s n out ind' tr,
      reads r ind p s (Yes n out) ind' tr ->
      reads (ROptional r id) ind p s (Yes n out) ind' tr
  | reads_optional_none : forall r id ind p s ind' tr,
      reads r ind p s No ind' tr ->
      reads (ROptional r id) ind p s (Yes 0 []) ind' tr
  (** Negative lookahead. *)
  | reads_not : forall r id ind p s ind' tr,
      reads r ind p s No ind' tr ->
      reads (RNot r id) ind p s (Yes 0 []) ind' []
  | reads_not_no : forall r id ind p s n out ind' tr,
      reads r ind p s (Yes n out) ind' tr ->
      reads (RNot r id) ind p s No ind' [(Rng p n, DidNotExpectTag (firstn n s) id)]

  (** All of the rules, in order. *)
  with reads_seq : list rule -> indent -> nat -> str -> verdict -> indent -> list perr -> Prop :=
  | reads_seq_nil : forall ind p s, reads_seq [] ind p s (Yes 0 []) ind []
  | reads_seq_no : forall r rest ind p s ind' tr,
      reads r ind p s No ind' tr ->
      reads_seq (r :: rest) ind p s No ind' tr
  | reads_seq_cons : forall r rest ind p s n out ind1 tr1 v ind2 tr2,
      reads r ind p s (Yes n out) ind1 tr1 ->
      reads_seq rest ind1 (p + n) (skipn n s) v ind2 tr2 ->
      reads_seq (r :: rest) ind p s (after n out v) ind2 (tr1 ++ tr2)

  (** The first of the rules that succeeds, all at the same place. *)
  with reads_first : list rule -> indent -> nat -> str -> verdict -> indent -> list perr -> Prop :=
  | reads_first_none : forall ind p s, reads_first [] ind p s No ind []
  | reads_first_yes : forall r rest ind p s n out ind' tr,
      reads r ind p s (Yes n out) ind' tr ->
      reads_first (r :: rest) ind p s (Yes n out) ind' tr
  | reads_first_next : forall r rest ind p s ind1 tr1 v ind2 tr2,
      reads r ind p s No ind1 tr1 ->
      reads_first rest ind1 p s v ind2 tr2 ->
      reads_first (r :: rest) ind p s v ind2 (tr1 ++ tr2)

  (** [k] times the rule until it fails: [n] characters and the tokens [out]. *)
  with reads_many : rule -> indent -> nat -> str -> nat -> nat -> list tok -> indent ->
                    list perr -> Prop :=
  | reads_many_stop : forall r ind p s ind' tr,
      reads r ind p s No ind' tr ->
      reads_many r ind p s 0 0 [] ind' tr
  | reads_many_step : forall r ind p s n out ind1 tr1 k m out' ind2 tr2,
      reads r ind p s (Yes n out) ind1 tr1 ->
      reads_many r ind1 (p + n) (skipn n s) k m out' ind2 tr2 ->
      reads_many r ind p s (S k) (n + m) (out ++ out') ind2 (tr1 ++ tr2)

  (** Behind an item: separator and item, again and again. *)
  with reads_more : rule -> rule -> bool -> indent -> nat -> str -> verdict -> indent ->
                    list perr -> Prop :=
  | reads_more_stop : forall r by_ trail ind p s ind' tr,
      reads by_ ind p s No ind' tr ->
      reads_more r by_ trail ind p s (Yes 0 []) ind' tr
  | reads_more_trail : forall r by_ trail ind p s n out ind1 tr1 ind2 tr2,
      reads by_ ind p s (Yes n out) ind1 tr1 ->
      reads r ind1 (p + n) (skipn n s) No ind2 tr2 ->
      reads_more r by_ trail ind p s (if trail then Yes n out else No) ind2 (tr1 ++ tr2)
  | reads_more_item : forall r by_ trail ind p s n out ind1 tr1 m out' ind2 tr2 v ind3 tr3,
      reads by_ ind p s (Yes n out) ind1 tr1 ->
      reads r ind1 (p + n) (skipn n s) (Yes m out') ind2 tr2 ->
      reads_more r by_ trail ind2 (p + n + m) (skipn m (skipn n s)) v ind3 tr3 ->
      reads_more r by_ trail ind p s (after n out (after m out' v)) ind3 (tr1 ++ tr2 ++ tr3)

  (** Items on lines of their own. [nl]: we are at the start of a line. [fresh]: no line
      was read yet in this block, so that the block may align. *)
  with reads_lines : rule -> bool -> debug_id -> bool -> bool -> indent -> nat -> str ->
                     verdict -> indent -> list perr -> Prop :=
  | reads_lines_end : forall r indented id fresh nl ind p s,
      Forall white s ->
      reads_lines r indented id fresh nl ind p s (Yes (length s) []) ind []
  | reads_lines_missing : forall r indented id fresh ind p s,
      ~ Forall white s -> same_line s ->
      reads_lines r indented id fresh false ind p s No ind
        [(Rng (p + r_off (x_lines_err E s)) (r_len (x_lines_err E s)), ExpectedNewLine id)]
  | reads_lines_stop : forall r indented id fresh nl ind p s k fresh' ind' tr,
      ~ Forall white s -> line_start nl s k ->
      reads_line r indented fresh ind (p + k) (skipn k s) No fresh' ind' tr ->
      reads_lines r indented id fresh nl ind p s (Yes k []) ind' tr
  | reads_lines_item : forall r indented id fresh nl ind p s k n out fresh' ind1 tr1 nl'
                              v ind2 tr2,
      ~ Forall white s -> line_start nl s k ->
      reads_line r indented fresh ind (p + k) (skipn k s) (Yes n out) fresh' ind1 tr1 ->
      (nl' = true <-> ends_line (firstn n (skipn k s))) ->
      reads_lines r indented id fresh' nl' ind1 (p + k + n) (skipn n (skipn k s)) v ind2 tr2 ->
      reads_lines r indented id fresh nl ind p s (after (k + n) out v) ind2 (tr1 ++ tr2)

  (** One line, from its start. The sub rule is read one column further in than the
      block. The first line of an aligned block sets the column of the block. *)
  with reads_line : rule -> bool -> bool -> indent -> nat -> str -> verdict -> bool ->
                    indent -> list perr -> Prop :=
  | reads_line_plain : forall r fresh ind p s v ind' tr,
      reads r ind p s v ind' tr ->
      reads_line r false fresh ind p s v fresh ind' tr
  | reads_line_short : forall r fresh ind p s,
      (forall k, ~ indentation (i_tab_spaces ind) (i_indent ind) s k) ->
      reads_line r true fresh ind p s No fresh ind []
  | reads_line_deep : forall r fresh ind p s k,
      indentation (i_tab_spaces ind) (i_indent ind) s k ->
      fresh && i_align_first ind = false ->
      starts_with (skipn k s) [space] ->
      reads_line r true fresh ind p s No fresh ind []
  | reads_line_exact : forall r fresh ind p s k v ind' tr,
      indentation (i_tab_spaces ind) (i_indent ind) s k ->
      fresh && i_align_first ind = false ->
      ~ starts_with (skipn k s) [space] ->
      (i_indent ind + 1 <= u32_max)%N ->
      reads r (set_indent ind (i_indent ind + 1)) (p + k) (skipn k s) v ind' tr ->
      reads_line r true fresh ind p s (after k [] v) fresh
        (set_indent ind' (i_indent ind)) tr
  | reads_line_align : forall r ind p s k b w v ind' tr,
      indentation (i_tab_spaces ind) (i_indent ind) s k ->
      i_align_first ind = true ->
      longest blank (skipn k s) b ->
      w = (i_indent ind + width (i_tab_spaces ind) (firstn b (skipn k s)))%N ->
      (w + 1 <= u32_max)%N ->
      reads r (set_indent ind (w + 1)) (p + k + b) (skipn b (skipn k s)) v ind' tr ->
      reads_line r true true ind p s (after (k + b) [] v) false (set_indent ind' w) tr.

  Scheme reads_ind' := Minimality for reads Sort Prop
  with reads_seq_ind' := Minimality for reads_seq Sort Prop
  with reads_first_ind' := Minimality for reads_first Sort Prop
  with reads_many_ind' := Minimality for reads_many Sort Prop
  with reads_more_ind' := Minimality for reads_more Sort Prop
  with reads_lines_ind' := Minimality for reads_lines Sort Prop
  with reads_line_ind' := Minimality for reads_line Sort Prop.
  Combined Scheme reads_mutind from reads_ind', reads_seq_ind', reads_first_ind',
    reads_many_ind', reads_more_ind', reads_lines_ind', reads_line_ind'.
End Reads.

(** ** Whole texts *)

(** How far a failure reaches. *)
Definition depth (e : perr) : nat := next_offset (fst e).

(** [e] is the newest of the deepest failures of the trace [tr]. *)
Definition newest_deepest (tr : list perr) (e : perr) : Prop :=
  exists older newer, tr = older ++ e :: newer /\
    Forall (fun f => depth f <= depth e) older /\
    Forall (fun f => depth f < depth e) newer.

(** The start rule of a syntax is its last rule. *)
Definition start_rule (s : syntax) (r : rule) : Prop :=
  exists rules, s_rules s = rules ++ [r].

(** The text is accepted with these tokens. *)
Inductive accepts (E : ext) (s : syntax) (ind : indent) (text : str) : list tok -> Prop :=
| accepts_all : forall r out ind' tr,
    start_rule s r ->
    reads E (s_rules s) r ind 0 text (Yes (length text) out) ind' tr ->
    accepts E s ind text out.

(** The text is rejected after these failures. *)
Inductive rejects (E : ext) (s : syntax) (ind : indent) (text : str) : list perr -> Prop :=
| rejects_no_rules :
    s_rules s = [] -> rejects E s ind text [(Rng 0 0, NoRules)]
| rejects_fail : forall r ind' tr,
    start_rule s r ->
    reads E (s_rules s) r ind 0 text No ind' tr ->
    rejects E s ind text tr
| rejects_early : forall r n out ind' tr,
    start_rule s r ->
    reads E (s_rules s) r ind 0 text (Yes n out) ind' tr -> n < length text ->
    rejects E s ind text (tr ++ [(Rng n 0, ExpectedEnd)]).
