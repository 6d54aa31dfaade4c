(** src/bootstrap/convert.rs as an optimised build runs it: overflowing arithmetic wraps
    instead of panicking. All readers that count, or call one that counts, are repeated from
    [ConvertModel]; they differ from there in [ignore_loop], [finish] and [node_loop] only.
    Indexing and slicing out of range panic in every build. *)
From Coq Require Import Ascii String List NArith ZArith Bool Arith.
From Verif Require Import Base Ext Types ParseModel ConvertModel.
Import ListNotations.
Local Open Scope string_scope.
Local Open Scope list_scope.
Local Open Scope nat_scope.

(** [a + b] and [a * b] on [usize], without overflow checks. *)
Definition add_usize_r (a b : N) : outcome N := Done ((a + b) mod (usize_max + 1))%N.
Definition mul_usize_r (a b : N) : outcome N := Done ((a * b) mod (usize_max + 1))%N.

(** src/bootstrap/convert.rs:93-103, the loop of [Convert::ignore]. Simplification: the
    [usize] counter, which wraps below zero, is an integer; the data has fewer than 2^64
    items. *)
Fixpoint ignore_loop_r (data : list tok) (acc : Z) (len : nat) : outcome nat :=
  match data with
  | [] => Done len
  | (_, item) :: rest =>
    let acc' := match item with
                | StartNode _ => (acc + 1)%Z
                | EndNode _ => (acc - 1)%Z
                | _ => acc
                end in
    if (acc' =? 0)%Z then Done (len + 1) else ignore_loop_r rest acc' (len + 1)
  end.

(** [*debug_id += 1] and building the rule. *)
Definition finish_r (start c : conv) (st : cstate) (mk : N -> rule)
  : outcome (option (range * rule) * cstate) :=
  do id <- add_usize_r (fst st) 1;
  Done (Some (c_subtract c start, mk id), (id, snd st)).

(** src/bootstrap/convert.rs:92-105 [Convert::ignore]. *)
Definition c_ignore_r (c : conv) : outcome range :=
  do len <- ignore_loop_r (c_data c) 0 0;
  Done (Rng (c_off c) len).

(** The final [else] branch of all loops: ignore the next item. *)
Definition skip_item_r (c : conv) (ig : list range) : outcome (conv * list range) :=
  do r <- c_ignore_r c;
  do c' <- c_update c r;
  Done (c', ig ++ [r])%list.

(** src/bootstrap/convert.rs:258-276 and 306-324, the loops of
    [read_until_any_or_whitespace] and [read_until_any]. *)
Fixpoint until_loop_r (fuel : nat) (node : str) (ss : strings) (c : conv)
  (any : option str) (optional : option bool) (property : option str) (ig : list range)
  : outcome (conv * option str * option bool * option str * list range) :=
  match fuel with
  | O => OutOfFuel
  | S fuel' =>
    match c_end_node c node with
    | Some r => do c' <- c_update c r; Done (c', any, optional, property, ig)
    | None =>
      do res <- read_set fuel' (s2l "any_characters") c ss;
      match res with
      | Some (r, v) =>
        do c' <- c_update c r; until_loop_r fuel' node ss c' (Some v) optional property ig
      | None =>
        match c_meta_bool c (s2l "optional") with
        | Some (r, v) =>
          do c' <- c_update c r; until_loop_r fuel' node ss c' any (Some v) property ig
        | None =>
          do res <- read_set fuel' (s2l "property") c ss;
          match res with
          | Some (r, v) =>
            do c' <- c_update c r; until_loop_r fuel' node ss c' any optional (Some v) ig
          | None =>
            do (c', ig') <- skip_item_r c ig;
            until_loop_r fuel' node ss c' any optional property ig'
          end
        end
      end
    end
  end.

(** src/bootstrap/convert.rs:245-291 [read_until_any_or_whitespace] and 293-339
    [read_until_any]; they differ in the node name and the rule built. *)
Definition read_until_r (fuel : nat) (node : str)
  (mk : str -> bool -> option str -> N -> rule) (ss : strings) : reader :=
  fun c st =>
    match c_start_node c node with
    | None => Done (None, st)
    | Some r =>
      do c1 <- c_update c r;
      do (c2, any, optional, property, ig) <- until_loop_r fuel node ss c1 None None None (snd st);
      match any with
      | Some any =>
        finish_r c c2 (fst st, ig)
          (mk any (match optional with Some b => b | None => false end) property)
      | None => Done (None, (fst st, ig))
      end
    end.

(** src/bootstrap/convert.rs:356-377, the loop of [read_tag]. *)
Fixpoint tag_loop_r (fuel : nat) (ss : strings) (c : conv)
  (text property : option str) (not inverted : option bool) (ig : list range)
  : outcome (conv * option str * option str * option bool * option bool * list range) :=
  match fuel with
  | O => OutOfFuel
  | S fuel' =>
    match c_end_node c (s2l "tag") with
    | Some r => do c' <- c_update c r; Done (c', text, property, not, inverted, ig)
    | None =>
      do res <- read_set fuel' (s2l "text") c ss;
      match res with
      | Some (r, v) =>
        do c' <- c_update c r; tag_loop_r fuel' ss c' (Some v) property not inverted ig
      | None =>
        do res <- read_set fuel' (s2l "property") c ss;
        match res with
        | Some (r, v) =>
          do c' <- c_update c r; tag_loop_r fuel' ss c' text (Some v) not inverted ig
        | None =>
          match c_meta_bool c (s2l "not") with
          | Some (r, v) =>
            do c' <- c_update c r; tag_loop_r fuel' ss c' text property (Some v) inverted ig
          | None =>
            match c_meta_bool c (s2l "inverted") with
            | Some (r, v) =>
              do c' <- c_update c r; tag_loop_r fuel' ss c' text property not (Some v) ig
            | None =>
              do (c', ig') <- skip_item_r c ig;
              tag_loop_r fuel' ss c' text property not inverted ig'
            end
          end
        end
      end
    end
  end.

(** src/bootstrap/convert.rs:341-394 [read_tag]. *)
Definition read_tag_r (fuel : nat) (ss : strings) : reader :=
  fun c st =>
    match c_start_node c (s2l "tag") with
    | None => Done (None, st)
    | Some r =>
      do c1 <- c_update c r;
      do (c2, text, property, not, inverted, ig) <-
        tag_loop_r fuel ss c1 None None None None (snd st);
      match text with
      | Some text =>
        finish_r c c2 (fst st, ig) (RTag text (or_false not) (or_false inverted) property)
      | None => Done (None, (fst st, ig))
      end
    end.

(** src/bootstrap/convert.rs:396-411 [read_whitespace]. *)
Definition read_whitespace_r : reader :=
  fun c st =>
    match c_start_node c (s2l "whitespace") with
    | None => Done (None, st)
    | Some r =>
      do c1 <- c_update c r;
      match c_meta_bool c1 (s2l "optional") with
      | None => Done (None, st)
      | Some (r, optional) =>
        do c2 <- c_update c1 r;
        match c_end_node c2 (s2l "whitespace") with
        | None => Done (None, st)
        | Some r =>
          do c3 <- c_update c2 r;
          finish_r c c3 st (RWhitespace optional)
        end
      end
    end.

(** The loops of [read_text] (src/bootstrap/convert.rs:425-440, flag first) and of
    [read_number] (464-479, property first): a bool and a property. *)
Fixpoint flag_loop_r (fuel : nat) (node flag : str) (ss : strings) (c : conv)
  (b : option bool) (property : option str) (ig : list range)
  : outcome (conv * option bool * option str * list range) :=
  match fuel with
  | O => OutOfFuel
  | S fuel' =>
    match c_end_node c node with
    | Some r => do c' <- c_update c r; Done (c', b, property, ig)
    | None =>
      match c_meta_bool c flag with
      | Some (r, v) => do c' <- c_update c r; flag_loop_r fuel' node flag ss c' (Some v) property ig
      | None =>
        do res <- read_set fuel' (s2l "property") c ss;
        match res with
        | Some (r, v) =>
          do c' <- c_update c r; flag_loop_r fuel' node flag ss c' b (Some v) ig
        | None =>
          do (c', ig') <- skip_item_r c ig;
          flag_loop_r fuel' node flag ss c' b property ig'
        end
      end
    end
  end.

(** src/bootstrap/convert.rs:413-449 [read_text]. *)
Definition read_text_r (fuel : nat) (ss : strings) : reader :=
  fun c st =>
    match c_start_node c (s2l "text") with
    | None => Done (None, st)
    | Some r =>
      do c1 <- c_update c r;
      do (c2, allow_empty, property, ig) <-
        flag_loop_r fuel (s2l "text") (s2l "allow_empty") ss c1 None None (snd st);
      finish_r c c2 (fst st, ig) (RText (or_true allow_empty) property)
    end.

(** src/bootstrap/convert.rs:451-488 [read_number]. The order in which the code tests for
    the property and for the flag is immaterial (different kinds of items). *)
Definition read_number_r (fuel : nat) (ss : strings) : reader :=
  fun c st =>
    match c_start_node c (s2l "number") with
    | None => Done (None, st)
    | Some r =>
      do c1 <- c_update c r;
      do (c2, underscore, property, ig) <-
        flag_loop_r fuel (s2l "number") (s2l "underscore") ss c1 None None (snd st);
      finish_r c c2 (fst st, ig) (RNumber (or_false underscore) property)
    end.

(** src/bootstrap/convert.rs:503-518, the loop of [read_reference]. *)
Fixpoint reference_loop_r (fuel : nat) (ss : strings) (c : conv)
  (name property : option str) (ig : list range)
  : outcome (conv * option str * option str * list range) :=
  match fuel with
  | O => OutOfFuel
  | S fuel' =>
    match c_end_node c (s2l "reference") with
    | Some r => do c' <- c_update c r; Done (c', name, property, ig)
    | None =>
      match c_meta_string c (s2l "name") with
      | Some (r, v) => do c' <- c_update c r; reference_loop_r fuel' ss c' (Some v) property ig
      | None =>
        do res <- read_set fuel' (s2l "property") c ss;
        match res with
        | Some (r, v) =>
          do c' <- c_update c r; reference_loop_r fuel' ss c' name (Some v) ig
        | None =>
          do (c', ig') <- skip_item_r c ig;
          reference_loop_r fuel' ss c' name property ig'
        end
      end
    end
  end.

(** src/bootstrap/convert.rs:490-532 [read_reference]. *)
Definition read_reference_r (fuel : nat) (ss : strings) : reader :=
  fun c st =>
    match c_start_node c (s2l "reference") with
    | None => Done (None, st)
    | Some r =>
      do c1 <- c_update c r;
      do (c2, name, property, ig) <- reference_loop_r fuel ss c1 None None (snd st);
      match name with
      | Some name => finish_r c c2 (fst st, ig) (RNode name property None)
      | None => Done (None, (fst st, ig))
      end
    end.

(** src/bootstrap/convert.rs:190-204 and 545-559, the loops of [read_sequence] and
    [read_select]. [rd] is [read_rule(debug_id, "rule", ..)]. *)
Fixpoint args_loop_r (fuel : nat) (rd : reader) (node : str) (c : conv)
  (args : list rule) (st : cstate) : outcome (conv * list rule * cstate) :=
  match fuel with
  | O => OutOfFuel
  | S fuel' =>
    match c_end_node c node with
    | Some r => do c' <- c_update c r; Done (c', args, st)
    | None =>
      do (res, st') <- rd c st;
      match res with
      | Some (r, v) =>
        do c' <- c_update c r; args_loop_r fuel' rd node c' (args ++ [v])%list st'
      | None =>
        do (c', ig') <- skip_item_r c (snd st');
        args_loop_r fuel' rd node c' args (fst st', ig')
      end
    end
  end.

(** src/bootstrap/convert.rs:179-210 [read_sequence] and 534-566 [read_select]. *)
Definition read_args_r (fuel : nat) (rd : reader) (node : str)
  (mk : list rule -> N -> rule) : reader :=
  fun c st =>
    match c_start_node c node with
    | None => Done (None, st)
    | Some r =>
      do c1 <- c_update c r;
      do (c2, args, st2) <- args_loop_r fuel rd node c1 [] st;
      finish_r c c2 st2 (mk args)
    end.

(** src/bootstrap/convert.rs:568-590 [read_optional] and 592-614 [read_not]. *)
Definition read_wrap_r (rd : reader) (node : str) (mk : rule -> N -> rule) : reader :=
  fun c st =>
    match c_start_node c node with
    | None => Done (None, st)
    | Some r =>
      do c1 <- c_update c r;
      do (res, st1) <- rd c1 st;
      match res with
      | None => Done (None, st1)
      | Some (r, rule) =>
        do c2 <- c_update c1 r;
        match c_end_node c2 node with
        | None => Done (None, st1)
        | Some r =>
          do c3 <- c_update c2 r;
          finish_r c c3 st1 (mk rule)
        end
      end
    end.

(** src/bootstrap/convert.rs:630-655, the loop of [read_separated_by]. *)
Fixpoint sep_by_loop_r (fuel : nat) (rd_by rd_rule : reader) (c : conv)
  (optional allow_trail : option bool) (by_ rule_ : option rule) (st : cstate)
  : outcome (conv * option bool * option bool * option rule * option rule * cstate) :=
  match fuel with
  | O => OutOfFuel
  | S fuel' =>
    match c_end_node c (s2l "separated_by") with
    | Some r => do c' <- c_update c r; Done (c', optional, allow_trail, by_, rule_, st)
    | None =>
      match c_meta_bool c (s2l "optional") with
      | Some (r, v) =>
        do c' <- c_update c r;
        sep_by_loop_r fuel' rd_by rd_rule c' (Some v) allow_trail by_ rule_ st
      | None =>
        match c_meta_bool c (s2l "allow_trail") with
        | Some (r, v) =>
          do c' <- c_update c r;
          sep_by_loop_r fuel' rd_by rd_rule c' optional (Some v) by_ rule_ st
        | None =>
          do (res, st1) <- rd_by c st;
          match res with
          | Some (r, v) =>
            do c' <- c_update c r;
            sep_by_loop_r fuel' rd_by rd_rule c' optional allow_trail (Some v) rule_ st1
          | None =>
            do (res, st2) <- rd_rule c st1;
            match res with
            | Some (r, v) =>
              do c' <- c_update c r;
              sep_by_loop_r fuel' rd_by rd_rule c' optional allow_trail by_ (Some v) st2
            | None =>
              do (c', ig') <- skip_item_r c (snd st2);
              sep_by_loop_r fuel' rd_by rd_rule c' optional allow_trail by_ rule_ (fst st2, ig')
            end
          end
        end
      end
    end
  end.

(** src/bootstrap/convert.rs:616-672 [read_separated_by]. *)
Definition read_separated_by_r (fuel : nat) (rd_by rd_rule : reader) : reader :=
  fun c st =>
    match c_start_node c (s2l "separated_by") with
    | None => Done (None, st)
    | Some r =>
      do c1 <- c_update c r;
      do (c2, optional, allow_trail, by_, rule_, st2) <-
        sep_by_loop_r fuel rd_by rd_rule c1 None None None None st;
      match by_, rule_ with
      | Some by_, Some rule_ =>
        finish_r c c2 st2 (RSeparateBy rule_ by_ (or_true optional) (or_true allow_trail))
      | _, _ => Done (None, st2)
      end
    end.

(** src/bootstrap/convert.rs:674-700 [read_lines]. *)
Definition read_lines_r (rd : reader) : reader :=
  fun c st =>
    match c_start_node c (s2l "lines") with
    | None => Done (None, st)
    | Some r =>
      do c1 <- c_update c r;
      do (c2, indented) <- match c_meta_bool c1 (s2l "indent") with
                           | Some (r, v) => do c2 <- c_update c1 r; Done (c2, v)
                           | None => Done (c1, false)
                           end;
      do (res, st1) <- rd c2 st;
      match res with
      | None => Done (None, st1)
      | Some (r, rule) =>
        do c3 <- c_update c2 r;
        match c_end_node c3 (s2l "lines") with
        | None => Done (None, st1)
        | Some r =>
          do c4 <- c_update c3 r;
          finish_r c c4 st1 (RLines rule indented)
        end
      end
    end.

(** src/bootstrap/convert.rs:714-731, the loop of [read_repeat]. *)
Fixpoint rep_loop_r (fuel : nat) (rd : reader) (c : conv)
  (rule_ : option rule) (optional : option bool) (st : cstate)
  : outcome (conv * option rule * option bool * cstate) :=
  match fuel with
  | O => OutOfFuel
  | S fuel' =>
    match c_end_node c (s2l "repeat") with
    | Some r => do c' <- c_update c r; Done (c', rule_, optional, st)
    | None =>
      do (res, st1) <- rd c st;
      match res with
      | Some (r, v) =>
        do c' <- c_update c r; rep_loop_r fuel' rd c' (Some v) optional st1
      | None =>
        match c_meta_bool c (s2l "optional") with
        | Some (r, v) =>
          do c' <- c_update c r; rep_loop_r fuel' rd c' rule_ (Some v) st1
        | None =>
          do (c', ig') <- skip_item_r c (snd st1);
          rep_loop_r fuel' rd c' rule_ optional (fst st1, ig')
        end
      end
    end
  end.

(** src/bootstrap/convert.rs:702-744 [read_repeat]. *)
Definition read_repeat_r (fuel : nat) (rd : reader) : reader :=
  fun c st =>
    match c_start_node c (s2l "repeat") with
    | None => Done (None, st)
    | Some r =>
      do c1 <- c_update c r;
      do (c2, rule_, optional, st2) <- rep_loop_r fuel rd c1 None None st;
      match rule_, optional with
      | Some rule_, Some optional => finish_r c c2 st2 (RRepeat rule_ optional)
      | _, _ => Done (None, st2)
      end
    end.

(** src/bootstrap/convert.rs:746-835 [read_rule]. *)
Fixpoint read_rule_r (fuel : nat) (property : str) (ss : strings) : reader :=
  match fuel with
  | O => fun _ _ => OutOfFuel
  | S fuel' =>
    fun c st =>
      match c_start_node c property with
      | None => Done (None, st)
      | Some r =>
        do c1 <- c_update c r;
        let rd := read_rule_r fuel' (s2l "rule") ss in
        do (res, st1) <-
          first_reader
            [ read_args_r fuel' rd (s2l "sequence") RSequence;
              read_until_r fuel' (s2l "until_any_or_whitespace") RUntilAnyOrWs ss;
              read_until_r fuel' (s2l "until_any") RUntilAny ss;
              read_tag_r fuel' ss;
              read_whitespace_r;
              read_text_r fuel' ss;
              read_number_r fuel' ss;
              read_reference_r fuel' ss;
              read_args_r fuel' rd (s2l "select") RSelect;
              read_wrap_r rd (s2l "optional") ROptional;
              read_wrap_r rd (s2l "not") RNot;
              read_separated_by_r fuel' (read_rule_r fuel' (s2l "by") ss) rd;
              read_lines_r rd;
              read_repeat_r fuel' rd ] c1 st;
        match res with
        | None => Done (None, st1)
        | Some (r, rule) =>
          do c2 <- c_update c1 r;
          match c_end_node c2 property with
          | None => Done (None, st1)
          | Some r =>
            do c3 <- c_update c2 r;
            Done (Some (c_subtract c3 c, rule), st1)
          end
        end
      end
  end.

(** src/bootstrap/convert.rs:849-870, the loop of [read_node]. *)
Fixpoint node_loop_r (fuel : nat) (ss : strings) (c : conv)
  (id : option N) (name : option str) (rule_ : option rule) (ig : list range)
  : outcome (conv * option str * option rule * list range) :=
  match fuel with
  | O => OutOfFuel
  | S fuel' =>
    match c_end_node c (s2l "node") with
    | Some r => do c' <- c_update c r; Done (c', name, rule_, ig)
    | None =>
      match c_meta_f64 c (s2l "id") with
      | Some (r, v) =>
        do c' <- c_update c r; node_loop_r fuel' ss c' (Some (f64_as_usize v)) name rule_ ig
      | None =>
        match c_meta_string c (s2l "name") with
        | Some (r, v) => do c' <- c_update c r; node_loop_r fuel' ss c' id (Some v) rule_ ig
        | None =>
          do debug_id <- mul_usize_r (match id with Some n => n | None => 0%N end) 1000;
          do (res, st) <- read_rule_r fuel' (s2l "rule") ss c (debug_id, ig);
          match res with
          | Some (r, v) => do c' <- c_update c r; node_loop_r fuel' ss c' id name (Some v) (snd st)
          | None =>
            do (c', ig') <- skip_item_r c (snd st);
            node_loop_r fuel' ss c' id name rule_ ig'
          end
        end
      end
    end
  end.

(** src/bootstrap/convert.rs:837-877 [read_node]. *)
Definition read_node_r (fuel : nat) (ss : strings) (c : conv) (ig : list range)
  : outcome (option (range * (str * rule)) * list range) :=
  match c_start_node c (s2l "node") with
  | None => Done (None, ig)
  | Some r =>
    do c1 <- c_update c r;
    do (c2, name, rule_, ig') <- node_loop_r fuel ss c1 None None None ig;
    match name, rule_ with
    | Some name, Some rule_ => Done (Some (c_subtract c2 c, (name, rule_)), ig')
    | _, _ => Done (None, ig')
    end
  end.

(** src/bootstrap/convert.rs:890-899, the loop over nodes. *)
Fixpoint nodes_loop_r (fuel : nat) (ss : strings) (c : conv) (s : syntax) (ig : list range)
  : outcome (option syntax * list range) :=
  match fuel with
  | O => OutOfFuel
  | S fuel' =>
    do (res, ig') <- read_node_r fuel' ss c ig;
    match res with
    | Some (r, (name, rule_)) =>
      do c' <- c_update c r; nodes_loop_r fuel' ss c' (syntax_push s name rule_) ig'
    | None =>
      if 0 <? c_remaining c then Done (None, ig') else Done (Some s, ig')
    end
  end.

(** src/bootstrap/convert.rs:142-902 [convert]; the ignored ranges are returned.
    [None] is [Err(())]. *)
Definition convert_r (fuel : nat) (data : list tok) (ignored : list range)
  : outcome (option syntax * list range) :=
  do (c, ss) <- strings_loop fuel (c_new data) [];
  do (res, ig) <- nodes_loop_r fuel ss c syntax_new ignored;
  match res with
  | Some s => Done (Some (update_refs s), ig)
  | None => Done (None, ig)
  end.
