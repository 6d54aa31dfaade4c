(** Model of src/tokenizer.rs and src/meta_rules: parsing text with rules. *)
From Coq Require Import Ascii String List NArith Bool Arith.
From Verif Require Import Base Ext Types.
Import ListNotations.

(** src/tokenizer.rs:10-20 [read_data]: the vector is returned with the new state. *)
Definition read_data (tokens : list tok) (d : tok) (state : nat) : list tok * nat :=
  let tokens1 := if state <? length tokens then firstn state tokens else tokens in
  let tokens2 := tokens1 ++ [d] in
  (tokens2, length tokens2).

(** src/meta_rules/mod.rs:147-160 [err_update]; [opt_error] is returned. *)
Definition err_update (err opt_error : option perr) : option perr :=
  match opt_error with
  | Some o =>
    match err with
    | Some e => if next_offset (fst o) <=? next_offset (fst e) then Some e else Some o
    | None => Some o
    end
  | None => err
  end.

(** src/meta_rules/mod.rs:165-176 [ret_err]. *)
Definition ret_err (a : perr) (b : option perr) : perr :=
  match b with
  | Some b => if next_offset (fst a) <? next_offset (fst b) then b else a
  | None => a
  end.

(** src/meta_rules/mod.rs:128-129 [ParseResult<TokenizerState>]. *)
Inductive pres :=
| POk (r : range) (state : nat) (err : option perr)
| PErr (e : perr).

(** The [parse] methods: token vector, state, cursor and indent settings to the result and
    the new token vector and indent settings ([&mut] arguments are returned). *)
Definition parser := list tok -> nat -> rt -> indent -> outcome (pres * list tok * indent).

(** The common ending of leaf rules: store a value when there is a property. *)
Definition emit (property : option str) (mk : str -> metadata) (r : range)
  (toks : list tok) (st : nat) : list tok * nat :=
  match property with
  | Some name => read_data toks (r, mk name) st
  | None => (toks, st)
  end.

(** src/meta_rules/whitespace.rs:22-31 and rule.rs:76-78. *)
Definition parse_whitespace (optional : bool) (id : debug_id) : parser :=
  fun toks st t ind =>
    let r := rt_whitespace t in
    if Nat.eqb (r_len r) 0 && negb optional
    then Done (PErr (r, ExpectedWhitespace id), toks, ind)
    else Done (POk r st None, toks, ind).

(** src/meta_rules/tag.rs:37-85 [Tag::parse]. *)
Definition parse_tag (text : str) (not inverted : bool) (property : option str)
  (id : debug_id) : parser :=
  fun toks st t ind =>
    match rt_tag t text with
    | Some r =>
      if not then Done (PErr (r, DidNotExpectTag text id), toks, ind)
      else
        let '(toks', st') := emit property (fun n => MBool n (negb inverted)) r toks st in
        Done (POk r st' None, toks', ind)
    | None =>
      if not then
        let r := rt_start t in
        let '(toks', st') := emit property (fun n => MBool n (negb inverted)) r toks st in
        Done (POk r st' None, toks', ind)
      else Done (PErr (rt_start t, ExpectedTag text id), toks, ind)
    end.

(** src/meta_rules/until_any.rs:30-52 [UntilAny::parse] and
    src/meta_rules/until_any_or_whitespace.rs:30-53, which differ only in the range. *)
Definition parse_until (r : range) (optional : bool) (property : option str)
  (id : debug_id) : parser :=
  fun toks st t ind =>
    if Nat.eqb (r_len r) 0 && negb optional
    then Done (PErr (r, ExpectedSomething id), toks, ind)
    else
      let text := rt_raw_string t (r_len r) in
      let '(toks', st') := emit property (fun n => MString n text) r toks st in
      Done (POk r st' None, toks', ind).

Section WithExt.
Variable E : ext.

(** src/meta_rules/text.rs:28-62 [Text::parse]. *)
Definition parse_text (allow_empty : bool) (property : option str) (id : debug_id) : parser :=
  fun toks st t ind =>
    match x_string E (src t) with
    | Some n =>
      let r := rt_peek t n in
      if negb allow_empty && Nat.eqb n 2
      then Done (PErr (r, EmptyTextNotAllowed id), toks, ind)
      else
        match x_parse_string E (rt_raw_string t n) with
        | inr (re, e) =>
          Done (PErr (Rng (off t + r_off re) (r_len re), ParseStringError e id), toks, ind)
        | inl text =>
          let '(toks', st') := emit property (fun n => MString n text) r toks st in
          Done (POk r st' None, toks', ind)
        end
    | None => Done (PErr (rt_start t, ExpectedText id), toks, ind)
    end.

(** src/meta_rules/number.rs:28-59 [Number::parse]. *)
Definition parse_number (underscore : bool) (property : option str) (id : debug_id) : parser :=
  fun toks st t ind =>
    match x_number E underscore (src t) with
    | Some n =>
      let r := rt_peek t n in
      match x_parse_number E underscore (rt_raw_string t n) with
      | None => Done (PErr (r, ParseNumberError id), toks, ind)
      | Some val =>
        let '(toks', st') := emit property (fun n => MF64 n val) r toks st in
        Done (POk r st' None, toks', ind)
      end
    | None => Done (PErr (rt_start t, ExpectedNumber id), toks, ind)
    end.

(** src/meta_rules/select.rs:37-54, the loop of [Select::parse] from some alternative on. *)
Fixpoint select_loop (p : rule -> parser) (args : list rule) (id : debug_id)
  (toks : list tok) (st : nat) (t : rt) (ind : indent) (oe : option perr)
  : outcome (pres * list tok * indent) :=
  match args with
  | [] =>
    match oe with
    | None => Done (PErr (rt_start t, InvalidRule SelectEmpty id), toks, ind)
    | Some e => Done (PErr e, toks, ind)
    end
  | r :: rest =>
    do (res, toks', ind') <- p r toks st t ind;
    match res with
    | POk rg st' err => Done (POk (rt_peek t (r_len rg)) st' (err_update err oe), toks', ind')
    | PErr e => select_loop p rest id toks' st t ind' (err_update (Some e) oe)
    end
  end.

(** src/meta_rules/select.rs:28-55 [Select::parse]. *)
Definition parse_select (p : rule -> parser) (args : list rule) (id : debug_id) : parser :=
  fun toks st t ind => select_loop p args id toks st t ind None.

(** src/meta_rules/fast_select.rs:71-81: the last sub rule, when there is a tail. *)
Definition fast_tail (p : rule -> parser) (args : list rule) (oe : option perr) : parser :=
  fun toks st t ind =>
    match args with
    | [] => Panic (* self.args.len() - 1 *)
    | _ =>
      match nth_error args (length args - 1) with
      | None => Panic
      | Some r =>
        do (res, toks', ind') <- p r toks st t ind;
        match res with
        | POk rg st' err =>
          Done (POk (rt_peek t (r_len rg)) st' (err_update err oe), toks', ind')
        | PErr e => Done (PErr (ret_err e oe), toks', ind')
        end
      end
    end.

(** src/meta_rules/fast_select.rs:44-111 [FastSelect::parse]. *)
Definition parse_fast_select (p : rule -> parser) (table : list nat) (args : list rule)
  (tail : bool) (id : debug_id) : parser :=
  fun toks st t ind =>
    match src t with
    | [] => Done (PErr (rt_start t, ExpectedSomething id), toks, ind)
    | ch :: _ =>
      match nth_error table (N.to_nat (utf8_first ch)) with
      | None => Panic (* the table has 256 entries in Rust *)
      | Some i =>
        if Nat.eqb i 255 then
          if tail then fast_tail p args None toks st t ind
          else Done (PErr (rt_start t, ExpectedSomething id), toks, ind)
        else
          match nth_error args i with
          | None => Panic
          | Some r =>
            do (res, toks', ind') <- p r toks st t ind;
            match res with
            | POk rg st' err => Done (POk (rt_peek t (r_len rg)) st' err, toks', ind')
            | PErr e =>
              if tail then fast_tail p args (Some e) toks' st t ind'
              else Done (PErr e, toks', ind')
            end
          end
      end
    end.

(** src/meta_rules/sequence.rs:41-52, the loop of [Sequence::parse] from some sub rule on. *)
Fixpoint seq_loop (p : rule -> parser) (args : list rule) (start : rt)
  (toks : list tok) (st : nat) (t : rt) (ind : indent) (oe : option perr)
  : outcome (pres * list tok * indent) :=
  match args with
  | [] => Done (POk (rt_subtract t start) st oe, toks, ind)
  | r :: rest =>
    do (res, toks', ind') <- p r toks st t ind;
    match res with
    | POk rg st' err =>
      seq_loop p rest start toks' st' (rt_consume t (r_len rg)) ind' (err_update err oe)
    | PErr e => Done (PErr (ret_err e oe), toks', ind')
    end
  end.

(** src/meta_rules/sequence.rs:29-53 [Sequence::parse]. *)
Definition parse_sequence (p : rule -> parser) (args : list rule) : parser :=
  fun toks st t ind => seq_loop p args t toks st t ind None.

(** src/meta_rules/separate_by.rs:48-82, the loop of [SeparateBy::parse]. *)
Fixpoint sep_loop (fuel : nat) (p_rule p_by : parser) (optional allow_trail : bool)
  (start : rt) (first : bool)
  (toks : list tok) (st : nat) (t : rt) (ind : indent) (oe : option perr)
  : outcome (pres * list tok * indent) :=
  match fuel with
  | O => OutOfFuel
  | S fuel' =>
    do (res, toks1, ind1) <- p_rule toks st t ind;
    match res with
    | PErr e =>
      if (if first then negb optional else negb allow_trail)
      then Done (PErr (ret_err e oe), toks1, ind1)
      else Done (POk (rt_subtract t start) st (err_update (Some e) oe), toks1, ind1)
    | POk rg st1 err =>
      let t1 := rt_consume t (r_len rg) in
      let oe1 := err_update err oe in
      do (res2, toks2, ind2) <- p_by toks1 st1 t1 ind1;
      match res2 with
      | PErr e => Done (POk (rt_subtract t1 start) st1 (err_update (Some e) oe1), toks2, ind2)
      | POk rg2 st2 err2 =>
        sep_loop fuel' p_rule p_by optional allow_trail start false
          toks2 st2 (rt_consume t1 (r_len rg2)) ind2 (err_update err2 oe1)
      end
    end
  end.

(** src/meta_rules/separate_by.rs:35-83 [SeparateBy::parse]. *)
Definition parse_separate_by (fuel : nat) (p_rule p_by : parser)
  (optional allow_trail : bool) : parser :=
  fun toks st t ind =>
    sep_loop fuel p_rule p_by optional allow_trail t true toks st t ind None.

(** src/meta_rules/repeat.rs:44-61, the loop of [Repeat::parse]. *)
Fixpoint repeat_loop (fuel : nat) (p_rule : parser) (optional : bool)
  (start : rt) (first : bool)
  (toks : list tok) (st : nat) (t : rt) (ind : indent) (oe : option perr)
  : outcome (pres * list tok * indent) :=
  match fuel with
  | O => OutOfFuel
  | S fuel' =>
    do (res, toks1, ind1) <- p_rule toks st t ind;
    match res with
    | PErr e =>
      if first && negb optional
      then Done (PErr (ret_err e oe), toks1, ind1)
      else Done (POk (rt_subtract t start) st (err_update (Some e) oe), toks1, ind1)
    | POk rg st1 err =>
      repeat_loop fuel' p_rule optional start false
        toks1 st1 (rt_consume t (r_len rg)) ind1 (err_update err oe)
    end
  end.

(** src/meta_rules/repeat.rs:31-62 [Repeat::parse]. *)
Definition parse_repeat (fuel : nat) (p_rule : parser) (optional : bool) : parser :=
  fun toks st t ind => repeat_loop fuel p_rule optional t true toks st t ind None.

(** The variables captured by the closures of [Lines::parse]. *)
Record lines_state := LS {
  ls_toks : list tok;
  ls_state : nat;
  ls_err : option perr;
  ls_first : bool;
  ls_ind : indent
}.

(** src/meta_rules/lines.rs:49-64: skips indentation of width [n] (the [while] loop);
    returns the number of characters skipped, or [None] for [return None]. *)
Fixpoint skip_indent (s : str) (n tab_spaces : N) : option nat :=
  if (n =? 0)%N then Some 0
  else
    match s with
    | [] => None
    | c :: s' =>
      if N.eqb c space then option_map S (skip_indent s' (n - 1) tab_spaces)
      else if N.eqb c tab then
        if (n <=? tab_spaces)%N then Some 1
        else option_map S (skip_indent s' (n - tab_spaces) tab_spaces)
      else None
    end.

(** src/meta_rules/lines.rs:67-77: aligns to the first line (the [loop]); returns the
    number of characters skipped and the new indentation. *)
Fixpoint align_indent (s : str) (ind tab_spaces : N) : outcome (nat * N) :=
  match s with
  | [] => Done (0, ind)
  | c :: s' =>
    if N.eqb c space then
      do ind1 <- add_u32 ind 1;
      do (k, ind2) <- align_indent s' ind1 tab_spaces;
      Done (S k, ind2)
    else if N.eqb c tab then
      do ind1 <- add_u32 ind tab_spaces;
      do (k, ind2) <- align_indent s' ind1 tab_spaces;
      Done (S k, ind2)
    else Done (0, ind)
  end.

(** src/meta_rules/lines.rs:85-103: the sub rule is read with the indentation increased
    by one; [offset] is the start of the line. *)
Definition lines_item_indent (p_rule : parser) (offset : nat) (t : rt) (first : bool)
  (ls : lines_state) (ind : indent) : outcome (option range * lines_state) :=
  do indent1 <- add_u32 (i_indent ind) 1;
  do (res, toks', ind') <-
    p_rule (ls_toks ls) (ls_state ls) t (set_indent ind indent1);
  let ind'' := set_indent ind' (i_indent ind) in
  match res with
  | PErr e =>
    Done (None, LS toks' (ls_state ls) (err_update (Some e) (ls_err ls)) first ind'')
  | POk rg st' err =>
    Done (Some (Rng offset (next_offset rg - offset)),
          LS toks' st' (err_update err (ls_err ls)) first ind'')
  end.

(** src/meta_rules/lines.rs:45-104: the closure for indented lines. *)
Definition lines_closure_indent (p_rule : parser) (t : rt) (ls : lines_state)
  : outcome (option range * lines_state) :=
  let ind := ls_ind ls in
  match skip_indent (src t) (i_indent ind) (i_tab_spaces ind) with
  | None => Done (None, ls)
  | Some k =>
    let t1 := rt_consume t k in
    if ls_first ls && i_align_first ind then
      do (k2, n) <- align_indent (src t1) (i_indent ind) (i_tab_spaces ind);
      lines_item_indent p_rule (off t) (rt_consume t1 k2) false ls (set_indent ind n)
    else
      match rt_tag t1 [space] with
      | Some _ => Done (None, ls)
      | None => lines_item_indent p_rule (off t) t1 (ls_first ls) ls ind
      end
  end.

(** src/meta_rules/lines.rs:115-127: the closure for plain lines. *)
Definition lines_closure_plain (p_rule : parser) (t : rt) (ls : lines_state)
  : outcome (option range * lines_state) :=
  do (res, toks', ind') <- p_rule (ls_toks ls) (ls_state ls) t (ls_ind ls);
  match res with
  | PErr e =>
    Done (None, LS toks' (ls_state ls) (err_update (Some e) (ls_err ls)) (ls_first ls) ind')
  | POk rg st' err =>
    Done (Some rg, LS toks' st' (err_update err (ls_err ls)) (ls_first ls) ind')
  end.

(** src/meta_rules/lines.rs:33-138 [Lines::parse]. *)
Definition parse_lines (fuel : nat) (p_rule : parser) (indented : bool) (id : debug_id)
  : parser :=
  fun toks st t ind =>
    let closure :=
      if indented then lines_closure_indent p_rule else lines_closure_plain p_rule in
    do (res, ls) <- rt_lines E closure fuel t (LS toks st None true ind);
    match res with
    | inr r => Done (PErr (ret_err (r, ExpectedNewLine id) (ls_err ls)), ls_toks ls, ls_ind ls)
    | inl r => Done (POk r (ls_state ls) (ls_err ls), ls_toks ls, ls_ind ls)
    end.

(** src/meta_rules/node.rs:34-89 [Node::parse]. *)
Definition parse_node (p : rule -> parser) (refs : list rule) (property : option str)
  (index : option nat) (id : debug_id) : parser :=
  fun toks st t ind =>
    match index with
    | None => Done (PErr (rt_start t, InvalidRule NodeNotUpdated id), toks, ind)
    | Some i =>
      let '(toks1, st1) := emit property StartNode (rt_start t) toks st in
      match nth_error refs i with
      | None => Panic (* refs[index] *)
      | Some r =>
        do (res, toks2, ind2) <- p r toks1 st1 t ind;
        match res with
        | PErr e => Done (PErr (ret_err e None), toks2, ind2)
        | POk rg st2 err =>
          let range := rt_subtract (rt_consume t (r_len rg)) t in
          let '(toks3, st3) := emit property EndNode range toks2 st2 in
          Done (POk range st3 (err_update err None), toks3, ind2)
        end
      end
    end.

(** src/meta_rules/optional.rs:29-54 [Optional::parse] and rule.rs:115-117. *)
Definition parse_optional (p_rule : parser) : parser :=
  fun toks st t ind =>
    do (res, toks', ind') <- p_rule toks st t ind;
    match res with
    | POk rg st' err =>
      Done (POk (rt_subtract (rt_consume t (r_len rg)) t) st' (err_update err None), toks', ind')
    | PErr e => Done (POk (rt_start t) st (Some (ret_err e None)), toks', ind')
    end.

(** src/meta_rules/not.rs:27-49 [Not::parse]. *)
Definition parse_not (p_rule : parser) (id : debug_id) : parser :=
  fun toks st t ind =>
    do (res, toks', ind') <- p_rule toks st t ind;
    match res with
    | POk rg _ _ =>
      Done (PErr (rg, DidNotExpectTag (rt_raw_string t (r_len rg)) id), toks', ind')
    | PErr _ => Done (POk (rt_start t) st None, toks', ind')
    end.

(** src/meta_rules/rule.rs:67-122 [Rule::parse]. Each recursive call and each loop gets
    one unit of fuel less. *)
Fixpoint parse_rule (fuel : nat) (refs : list rule) (r : rule) : parser :=
  match fuel with
  | O => fun _ _ _ _ => OutOfFuel
  | S fuel' =>
    let p := parse_rule fuel' refs in
    match r with
    | RWhitespace optional id => parse_whitespace optional id
    | RTag text not inverted property id => parse_tag text not inverted property id
    | RUntilAny any optional property id =>
      fun toks st t ind => parse_until (rt_until_any t any) optional property id toks st t ind
    | RUntilAnyOrWs any optional property id =>
      fun toks st t ind =>
        parse_until (rt_until_any_or_ws t any) optional property id toks st t ind
    | RText allow_empty property id => parse_text allow_empty property id
    | RNumber underscore property id => parse_number underscore property id
    | RSelect args id => parse_select p args id
    | RFastSelect table args tail id => parse_fast_select p table args tail id
    | RSequence args _ => parse_sequence p args
    | RSeparateBy r by_ optional allow_trail _ =>
      parse_separate_by fuel' (p r) (p by_) optional allow_trail
    | RRepeat r optional _ => parse_repeat fuel' (p r) optional
    | RLines r indented id => parse_lines fuel' (p r) indented id
    | RNode _ property index id => parse_node p refs property index id
    | ROptional r _ => parse_optional (p r)
    | RNot r id => parse_not (p r) id
    end
  end.

(** The result of [parse]: [None] is [Ok(())]. *)
Definition parse_result := option perr.

(** src/meta_rules/mod.rs:58-88 [parse_with_indent]. The token vector is returned. *)
Definition parse_with_indent (fuel : nat) (s : syntax) (text : str) (tokens : list tok)
  (ind : indent) : outcome (parse_result * list tok) :=
  match nth_error (s_rules s) (length (s_rules s) - 1) with
  | None => Done (Some (empty_range 0, NoRules), tokens)
  | Some r =>
    do (res, tokens', _) <- parse_rule fuel (s_rules s) r tokens (length tokens) (RT text 0) ind;
    match res with
    | POk rg st oe =>
      if next_offset rg <? length text
      then Done (Some (ret_err (empty_range (next_offset rg), ExpectedEnd) oe), tokens')
      else Done (None, firstn st tokens')
    | PErr e => Done (Some e, tokens')
    end
  end.

(** src/meta_rules/mod.rs:49-55 [parse]. *)
Definition parse (fuel : nat) (s : syntax) (text : str) (tokens : list tok)
  : outcome (parse_result * list tok) :=
  parse_with_indent fuel s text tokens indent_default.

End WithExt.

(** src/meta_rules/rule.rs:135-141: the first name equal to [name]. *)
Fixpoint find_name (name : str) (names : list str) (i : nat) : option nat :=
  match names with
  | [] => None
  | n :: names' => if str_eqb name n then Some i else find_name name names' (S i)
  end.

(** src/meta_rules/rule.rs:128-190 [Rule::update_refs]. *)
Fixpoint rule_update_refs (names : list str) (r : rule) : rule :=
  match r with
  | RNode name property index id =>
    match index with
    | None => RNode name property (find_name name names 0) id
    | Some _ => r
    end
  | RSelect args id => RSelect (map (rule_update_refs names) args) id
  | RSequence args id => RSequence (map (rule_update_refs names) args) id
  | RSeparateBy r by_ o t id =>
    RSeparateBy (rule_update_refs names r) (rule_update_refs names by_) o t id
  | RRepeat r o id => RRepeat (rule_update_refs names r) o id
  | RLines r i id => RLines (rule_update_refs names r) i id
  | ROptional r id => ROptional (rule_update_refs names r) id
  | RNot r id => RNot (rule_update_refs names r) id
  | RWhitespace _ _ | RTag _ _ _ _ _ | RUntilAny _ _ _ _ | RUntilAnyOrWs _ _ _ _
  | RText _ _ _ | RNumber _ _ _ | RFastSelect _ _ _ _ => r
  end.

(** src/meta_rules/mod.rs:119-123 [update_refs]. *)
Definition update_refs (s : syntax) : syntax :=
  Syn (map (rule_update_refs (s_names s)) (s_rules s)) (s_names s).
