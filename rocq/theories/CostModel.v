(** Model of parsing that counts the calls of [Rule::parse]. *)
From Coq Require Import List NArith Bool Arith.
From Verif Require Import Base Ext Types ParseModel.
Import ListNotations.

(** An outcome with the number of calls made on the way. *)
Definition counted (A : Type) : Type := nat * outcome A.

Definition cbind {A B} (x : counted A) (k : A -> counted B) : counted B :=
  match snd x with
  | Done a => let y := k a in (fst x + fst y, snd y)
  | Panic => (fst x, Panic)
  | OutOfFuel => (fst x, OutOfFuel)
  end.

(** No call. *)
Definition free {A} (o : outcome A) : counted A := (0, o).

Definition counted_parser :=
  list tok -> nat -> rt -> indent -> counted (pres * list tok * indent).

(** src/meta_rules/select.rs:28-55, as [ParseModel.select_loop]. *)
Fixpoint select_cost (p : rule -> counted_parser) (args : list rule) (id : debug_id)
  (toks : list tok) (st : nat) (t : rt) (ind : indent) (oe : option perr)
  : counted (pres * list tok * indent) :=
  match args with
  | [] =>
    match oe with
    | None => free (Done (PErr (rt_start t, InvalidRule SelectEmpty id), toks, ind))
    | Some e => free (Done (PErr e, toks, ind))
    end
  | r :: rest =>
    cbind (p r toks st t ind) (fun '(res, toks', ind') =>
    match res with
    | POk rg st' err =>
      free (Done (POk (rt_peek t (r_len rg)) st' (err_update err oe), toks', ind'))
    | PErr e => select_cost p rest id toks' st t ind' (err_update (Some e) oe)
    end)
  end.

(** src/meta_rules/fast_select.rs:71-81, as [ParseModel.fast_tail]. *)
Definition tail_cost (p : rule -> counted_parser) (args : list rule) (oe : option perr)
  : counted_parser :=
  fun toks st t ind =>
    match args with
    | [] => free Panic
    | _ =>
      match nth_error args (length args - 1) with
      | None => free Panic
      | Some r =>
        cbind (p r toks st t ind) (fun '(res, toks', ind') =>
        match res with
        | POk rg st' err =>
          free (Done (POk (rt_peek t (r_len rg)) st' (err_update err oe), toks', ind'))
        | PErr e => free (Done (PErr (ret_err e oe), toks', ind'))
        end)
      end
    end.

(** src/meta_rules/fast_select.rs:44-111, as [ParseModel.parse_fast_select]. *)
Definition fast_cost (p : rule -> counted_parser) (table : list nat) (args : list rule)
  (tail : bool) (id : debug_id) : counted_parser :=
  fun toks st t ind =>
    match src t with
    | [] => free (Done (PErr (rt_start t, ExpectedSomething id), toks, ind))
    | ch :: _ =>
      match nth_error table (N.to_nat (utf8_first ch)) with
      | None => free Panic
      | Some i =>
        if Nat.eqb i 255 then
          if tail then tail_cost p args None toks st t ind
          else free (Done (PErr (rt_start t, ExpectedSomething id), toks, ind))
        else
          match nth_error args i with
          | None => free Panic
          | Some r =>
            cbind (p r toks st t ind) (fun '(res, toks', ind') =>
            match res with
            | POk rg st' err => free (Done (POk (rt_peek t (r_len rg)) st' err, toks', ind'))
            | PErr e =>
              if tail then tail_cost p args (Some e) toks' st t ind'
              else free (Done (PErr e, toks', ind'))
            end)
          end
      end
    end.

(** src/meta_rules/sequence.rs:29-53, as [ParseModel.seq_loop]. *)
Fixpoint seq_cost (p : rule -> counted_parser) (args : list rule) (start : rt)
  (toks : list tok) (st : nat) (t : rt) (ind : indent) (oe : option perr)
  : counted (pres * list tok * indent) :=
  match args with
  | [] => free (Done (POk (rt_subtract t start) st oe, toks, ind))
  | r :: rest =>
    cbind (p r toks st t ind) (fun '(res, toks', ind') =>
    match res with
    | POk rg st' err =>
      seq_cost p rest start toks' st' (rt_consume t (r_len rg)) ind' (err_update err oe)
    | PErr e => free (Done (PErr (ret_err e oe), toks', ind'))
    end)
  end.

(** src/meta_rules/separate_by.rs:48-82, as [ParseModel.sep_loop]. *)
Fixpoint sep_cost (fuel : nat) (p_rule p_by : counted_parser) (optional allow_trail : bool)
  (start : rt) (first : bool)
  (toks : list tok) (st : nat) (t : rt) (ind : indent) (oe : option perr)
  : counted (pres * list tok * indent) :=
  match fuel with
  | O => free OutOfFuel
  | S fuel' =>
    cbind (p_rule toks st t ind) (fun '(res, toks1, ind1) =>
    match res with
    | PErr e =>
      if (if first then negb optional else negb allow_trail)
      then free (Done (PErr (ret_err e oe), toks1, ind1))
      else free (Done (POk (rt_subtract t start) st (err_update (Some e) oe), toks1, ind1))
    | POk rg st1 err =>
      let t1 := rt_consume t (r_len rg) in
      let oe1 := err_update err oe in
      cbind (p_by toks1 st1 t1 ind1) (fun '(res2, toks2, ind2) =>
      match res2 with
      | PErr e =>
        free (Done (POk (rt_subtract t1 start) st1 (err_update (Some e) oe1), toks2, ind2))
      | POk rg2 st2 err2 =>
        sep_cost fuel' p_rule p_by optional allow_trail start false
          toks2 st2 (rt_consume t1 (r_len rg2)) ind2 (err_update err2 oe1)
      end)
    end)
  end.

(** src/meta_rules/repeat.rs:44-61, as [ParseModel.repeat_loop]. *)
Fixpoint repeat_cost (fuel : nat) (p_rule : counted_parser) (optional : bool)
  (start : rt) (first : bool)
  (toks : list tok) (st : nat) (t : rt) (ind : indent) (oe : option perr)
  : counted (pres * list tok * indent) :=
  match fuel with
  | O => free OutOfFuel
  | S fuel' =>
    cbind (p_rule toks st t ind) (fun '(res, toks1, ind1) =>
    match res with
    | PErr e =>
      if first && negb optional
      then free (Done (PErr (ret_err e oe), toks1, ind1))
      else free (Done (POk (rt_subtract t start) st (err_update (Some e) oe), toks1, ind1))
    | POk rg st1 err =>
      repeat_cost fuel' p_rule optional start false
        toks1 st1 (rt_consume t (r_len rg)) ind1 (err_update err oe)
    end)
  end.

(** src/meta_rules/lines.rs:85-103, as [ParseModel.lines_item_indent]. *)
Definition item_cost (p_rule : counted_parser) (offset : nat) (t : rt) (first : bool)
  (ls : lines_state) (ind : indent) : counted (option range * lines_state) :=
  cbind (free (add_u32 (i_indent ind) 1)) (fun indent1 =>
  cbind (p_rule (ls_toks ls) (ls_state ls) t (set_indent ind indent1))
    (fun '(res, toks', ind') =>
  let ind'' := set_indent ind' (i_indent ind) in
  match res with
  | PErr e =>
    free (Done (None, LS toks' (ls_state ls) (err_update (Some e) (ls_err ls)) first ind''))
  | POk rg st' err =>
    free (Done (Some (Rng offset (next_offset rg - offset)),
                LS toks' st' (err_update err (ls_err ls)) first ind''))
  end)).

(** src/meta_rules/lines.rs:45-127, as [ParseModel.lines_closure_indent] and
    [ParseModel.lines_closure_plain]. *)
Definition closure_cost (indented : bool) (p_rule : counted_parser) (t : rt) (ls : lines_state)
  : counted (option range * lines_state) :=
  let ind := ls_ind ls in
  if indented then
    match skip_indent (src t) (i_indent ind) (i_tab_spaces ind) with
    | None => free (Done (None, ls))
    | Some k =>
      let t1 := rt_consume t k in
      if ls_first ls && i_align_first ind then
        cbind (free (align_indent (src t1) (i_indent ind) (i_tab_spaces ind))) (fun '(k2, n) =>
        item_cost p_rule (off t) (rt_consume t1 k2) false ls (set_indent ind n))
      else
        match rt_tag t1 [space] with
        | Some _ => free (Done (None, ls))
        | None => item_cost p_rule (off t) t1 (ls_first ls) ls ind
        end
    end
  else
    cbind (p_rule (ls_toks ls) (ls_state ls) t (ls_ind ls)) (fun '(res, toks', ind') =>
    match res with
    | PErr e =>
      free (Done (None, LS toks' (ls_state ls) (err_update (Some e) (ls_err ls)) (ls_first ls) ind'))
    | POk rg st' err =>
      free (Done (Some rg, LS toks' st' (err_update err (ls_err ls)) (ls_first ls) ind'))
    end).

Section Cost.
  Variable E : ext.

  (** [ReadToken::lines], as [Ext.lines_loop]. *)
  Fixpoint lines_cost (f : rt -> lines_state -> counted (option range * lines_state))
    (fuel : nat) (nl : bool) (t : rt) (st : lines_state)
    : counted ((rt + range) * lines_state) :=
    match fuel with
    | O => free OutOfFuel
    | S fuel' =>
      let w := span_len is_ws (src t) in
      if Nat.eqb w (length (src t)) then free (Done (inl (rt_consume t w), st))
      else
        let go (t1 : rt) :=
          cbind (f t1 st) (fun '(res, st1) =>
          match res with
          | None => free (Done (inl t1, st1))
          | Some r =>
            lines_cost f fuel'
              (ends_with_newline (rt_raw_string t1 (r_len r)))
              (rt_consume t1 (r_len r)) st1
          end) in
        match after_last_newline (firstn w (src t)) with
        | Some k => go (rt_consume t k)
        | None =>
          if nl then go t
          else
            let r := x_lines_err E (src t) in
            free (Done (inr (Rng (off t + r_off r) (r_len r)), st))
        end
    end.

  (** src/meta_rules/rule.rs:67-122 [Rule::parse], as [ParseModel.parse_rule]; a call counts
      for one, whatever it does besides calling itself. *)
  Fixpoint rule_cost (fuel : nat) (refs : list rule) (r : rule) : counted_parser :=
    fun toks st t ind =>
    match fuel with
    | O => free OutOfFuel
    | S fuel' =>
      let p := rule_cost fuel' refs in
      let '(n, o) :=
        match r with
        | RSelect args id => select_cost p args id toks st t ind None
        | RFastSelect table args tail id => fast_cost p table args tail id toks st t ind
        | RSequence args _ => seq_cost p args t toks st t ind None
        | RSeparateBy r by_ optional allow_trail _ =>
          sep_cost fuel' (p r) (p by_) optional allow_trail t true toks st t ind None
        | RRepeat r optional _ => repeat_cost fuel' (p r) optional t true toks st t ind None
        | RLines r indented id =>
          cbind (lines_cost (closure_cost indented (p r)) fuel' true t (LS toks st None true ind))
            (fun '(res, ls) =>
          match res with
          | inr r =>
            free (Done (PErr (ret_err (r, ExpectedNewLine id) (ls_err ls)), ls_toks ls, ls_ind ls))
          | inl t' => free (Done (POk (rt_subtract t' t) (ls_state ls) (ls_err ls),
                                  ls_toks ls, ls_ind ls))
          end)
        | RNode _ property index id =>
          match index with
          | None => free (Done (PErr (rt_start t, InvalidRule NodeNotUpdated id), toks, ind))
          | Some i =>
            let '(toks1, st1) := emit property StartNode (rt_start t) toks st in
            match nth_error refs i with
            | None => free Panic
            | Some r =>
              cbind (p r toks1 st1 t ind) (fun '(res, toks2, ind2) =>
              match res with
              | PErr e => free (Done (PErr (ret_err e None), toks2, ind2))
              | POk rg st2 err =>
                let range := rt_subtract (rt_consume t (r_len rg)) t in
                let '(toks3, st3) := emit property EndNode range toks2 st2 in
                free (Done (POk range st3 (err_update err None), toks3, ind2))
              end)
            end
          end
        | ROptional r _ =>
          cbind (p r toks st t ind) (fun '(res, toks', ind') =>
          match res with
          | POk rg st' err =>
            free (Done (POk (rt_subtract (rt_consume t (r_len rg)) t) st' (err_update err None),
                        toks', ind'))
          | PErr e => free (Done (POk (rt_start t) st (Some (ret_err e None)), toks', ind'))
          end)
        | RNot r id =>
          cbind (p r toks st t ind) (fun '(res, toks', ind') =>
          match res with
          | POk rg _ _ =>
            free (Done (PErr (rg, DidNotExpectTag (rt_raw_string t (r_len rg)) id), toks', ind'))
          | PErr _ => free (Done (POk (rt_start t) st None, toks', ind'))
          end)
        | _ => free (parse_rule E 1 refs r toks st t ind)
        end in
      (S n, o)
    end.

  (** src/meta_rules/mod.rs:58-88: the number of calls of [Rule::parse] that
      [parse_with_indent] makes, and its outcome. *)
  Definition parse_cost (fuel : nat) (s : syntax) (text : str) (tokens : list tok)
    (ind : indent) : counted (parse_result * list tok) :=
    match nth_error (s_rules s) (length (s_rules s) - 1) with
    | None => free (Done (Some (empty_range 0, NoRules), tokens))
    | Some r =>
      cbind (rule_cost fuel (s_rules s) r tokens (length tokens) (RT text 0) ind)
        (fun '(res, tokens', _) =>
      match res with
      | POk rg st oe =>
        if next_offset rg <? length text
        then free (Done (Some (ret_err (empty_range (next_offset rg), ExpectedEnd) oe), tokens'))
        else free (Done (None, firstn st tokens'))
      | PErr e => free (Done (Some e, tokens'))
      end)
    end.
End Cost.
