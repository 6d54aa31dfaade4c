(** The library as an optimised build runs it: overflowing arithmetic wraps instead of
    panicking. Repeated here is what counts, or calls what counts: reading lines, and
    [json::write]; conversion is in [ReleaseConvert]. *)
From Coq Require Import Ascii String List NArith Bool Arith.
From Verif Require Import Base Ext Types ParseModel OptimizeModel ConvertModel HandlerModel
  BootstrapRules LibModel LoadModel JsonModel ReleaseConvert.
Import ListNotations.
Local Open Scope string_scope.
Local Open Scope list_scope.
Local Open Scope nat_scope.

(** [a + b] and [a - b] on [u32], without overflow checks. *)
Definition add_u32_r (a b : N) : N := ((a + b) mod (u32_max + 1))%N.
Definition sub_u32_r (a b : N) : N := ((a + (u32_max + 1) - b) mod (u32_max + 1))%N.

Section Release.
  Variable E : ext.

  (** src/meta_rules/lines.rs:67-77: aligns to the first line (the [loop]). *)
  Fixpoint align_indent_r (s : str) (ind tab_spaces : N) : nat * N :=
    match s with
    | [] => (0, ind)
    | c :: s' =>
      if N.eqb c space then
        let (k, ind2) := align_indent_r s' (add_u32_r ind 1) tab_spaces in (S k, ind2)
      else if N.eqb c tab then
        let (k, ind2) := align_indent_r s' (add_u32_r ind tab_spaces) tab_spaces in (S k, ind2)
      else (0, ind)
    end.

  (** src/meta_rules/lines.rs:85-103: the sub rule is read with the indentation increased
      by one. *)
  Definition lines_item_indent_r (p_rule : parser) (offset : nat) (t : rt) (first : bool)
    (ls : lines_state) (ind : indent) : outcome (option range * lines_state) :=
    do (res, toks', ind') <-
      p_rule (ls_toks ls) (ls_state ls) t (set_indent ind (add_u32_r (i_indent ind) 1));
    let ind'' := set_indent ind' (i_indent ind) in
    match res with
    | PErr e =>
      Done (None, LS toks' (ls_state ls) (err_update (Some e) (ls_err ls)) first ind'')
    | POk rg st' err =>
      Done (Some (Rng offset (next_offset rg - offset)),
            LS toks' st' (err_update err (ls_err ls)) first ind'')
    end.

  (** src/meta_rules/lines.rs:45-104: the closure for indented lines. *)
  Definition lines_closure_indent_r (p_rule : parser) (t : rt) (ls : lines_state)
    : outcome (option range * lines_state) :=
    let ind := ls_ind ls in
    match skip_indent (src t) (i_indent ind) (i_tab_spaces ind) with
    | None => Done (None, ls)
    | Some k =>
      let t1 := rt_consume t k in
      if ls_first ls && i_align_first ind then
        let (k2, n) := align_indent_r (src t1) (i_indent ind) (i_tab_spaces ind) in
        lines_item_indent_r p_rule (off t) (rt_consume t1 k2) false ls (set_indent ind n)
      else
        match rt_tag t1 [space] with
        | Some _ => Done (None, ls)
        | None => lines_item_indent_r p_rule (off t) t1 (ls_first ls) ls ind
        end
    end.

  (** src/meta_rules/lines.rs:33-138 [Lines::parse]. *)
  Definition parse_lines_r (fuel : nat) (p_rule : parser) (indented : bool) (id : debug_id)
    : parser :=
    fun toks st t ind =>
      let closure :=
        if indented then lines_closure_indent_r p_rule else lines_closure_plain p_rule in
      do (res, ls) <- rt_lines E closure fuel t (LS toks st None true ind);
      match res with
      | inr r => Done (PErr (ret_err (r, ExpectedNewLine id) (ls_err ls)), ls_toks ls, ls_ind ls)
      | inl r => Done (POk r (ls_state ls) (ls_err ls), ls_toks ls, ls_ind ls)
      end.

  (** src/meta_rules/rule.rs:67-122 [Rule::parse]. *)
  Fixpoint parse_rule_r (fuel : nat) (refs : list rule) (r : rule) : parser :=
    match fuel with
    | O => fun _ _ _ _ => OutOfFuel
    | S fuel' =>
      let p := parse_rule_r fuel' refs in
      match r with
      | RWhitespace optional id => parse_whitespace optional id
      | RTag text not inverted property id => parse_tag text not inverted property id
      | RUntilAny any optional property id =>
        fun toks st t ind => parse_until (rt_until_any t any) optional property id toks st t ind
      | RUntilAnyOrWs any optional property id =>
        fun toks st t ind =>
          parse_until (rt_until_any_or_ws t any) optional property id toks st t ind
      | RText allow_empty property id => parse_text E allow_empty property id
      | RNumber underscore property id => parse_number E underscore property id
      | RSelect args id => parse_select p args id
      | RFastSelect table args tail id => parse_fast_select p table args tail id
      | RSequence args _ => parse_sequence p args
      | RSeparateBy r by_ optional allow_trail _ =>
        parse_separate_by fuel' (p r) (p by_) optional allow_trail
      | RRepeat r optional _ => parse_repeat fuel' (p r) optional
      | RLines r indented id => parse_lines_r fuel' (p r) indented id
      | RNode _ property index id => parse_node p refs property index id
      | ROptional r _ => parse_optional (p r)
      | RNot r id => parse_not (p r) id
      end
    end.

  (** src/meta_rules/mod.rs:58-88 [parse_with_indent]. *)
  Definition parse_with_indent_r (fuel : nat) (s : syntax) (text : str) (tokens : list tok)
    (ind : indent) : outcome (parse_result * list tok) :=
    match nth_error (s_rules s) (length (s_rules s) - 1) with
    | None => Done (Some (empty_range 0, NoRules), tokens)
    | Some r =>
      do (res, tokens', _) <-
        parse_rule_r fuel (s_rules s) r tokens (length tokens) (RT text 0) ind;
      match res with
      | POk rg st oe =>
        if next_offset rg <? length text
        then Done (Some (ret_err (empty_range (next_offset rg), ExpectedEnd) oe), tokens')
        else Done (None, firstn st tokens')
      | PErr e => Done (Some e, tokens')
      end
    end.

  (** src/meta_rules/mod.rs:49-55 [parse]. *)
  Definition parse_r (fuel : nat) (s : syntax) (text : str) (tokens : list tok)
    : outcome (parse_result * list tok) :=
    parse_with_indent_r fuel s text tokens indent_default.

  (** src/lib.rs:217-230 [syntax], before optimisation. Optimising a syntax does no
      arithmetic. *)
  Definition syntax_unoptimized_r (fuel : nat) (rules : str) : outcome (syntax + perr) :=
    do boot <- optimize fuel bootstrap_rules;
    do (res, tokens) <- parse_r fuel boot rules [];
    match res with
    | Some e => Done (inr e)
    | None =>
      do (res, _) <- convert_r fuel tokens [];
      match res with
      | Some s => Done (inl s)
      | None => Done (inr conversion_error)
      end
    end.

  (** src/lib.rs:217-230 [syntax]. *)
  Definition lib_syntax_r (fuel : nat) (rules : str) : outcome (syntax + perr) :=
    do res <- syntax_unoptimized_r fuel rules;
    match res with
    | inl s => do s' <- optimize fuel s; Done (inl s')
    | inr e => Done (inr e)
    end.

  (** src/lib.rs:247-267 [load_syntax_data]. The error report is that of [HandlerModel]: it
      never overflows (C38). *)
  Definition load_syntax_data_r (fuel : nat) (syntax_file data_file : option str)
    : outcome (ended (list tok)) :=
    match syntax_file with
    | None => Done (Aborted [])
    | Some s =>
      do res <- lib_syntax_r fuel s;
      do unwrapped <- stderr_unwrap E s res;
      match unwrapped with
      | Aborted w => Done (Aborted w)
      | Returned rules =>
        match data_file with
        | None => Done (Aborted [])
        | Some d =>
          do (res, tokens) <- parse_r fuel rules d [];
          stderr_unwrap E d (match res with None => inl tokens | Some e => inr e end)
        end
      end
    end.

  (** src/json.rs:25-65, the loop; the counter is a [u32]. *)
  Fixpoint write_loop_r (data : list tok) (i : nat) (first : bool) (indent : N) (out : str) : str :=
    match data with
    | [] => out
    | d :: rest =>
      let e := is_end d in
      let indent1 := if e then sub_u32_r indent 1 else indent in
      let print_comma := negb first && negb e in
      let out1 := if print_comma then out ++ s2l "," ++ [newline]
                  else if Nat.eqb i 0 then out else out ++ [newline] in
      let out2 := out1 ++ repeat space (N.to_nat indent1) in
      let s := is_start d in
      write_loop_r rest (S i) s (if s then add_u32_r indent1 1 else indent1)
        (out2 ++ write_item E (snd d))
    end.

  (** src/json.rs:9-68 [write]; [as u32] drops the upper bits. *)
  Definition json_write_r (data : list tok) : str :=
    let starts := (N.of_nat (length (filter is_start data)) mod (u32_max + 1))%N in
    let ends := (N.of_nat (length (filter is_end data)) mod (u32_max + 1))%N in
    write_loop_r data 0 true (N.max starts ends - N.min starts ends) [] ++ [newline].
End Release.
