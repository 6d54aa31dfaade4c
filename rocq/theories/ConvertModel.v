(** Model of src/bootstrap/convert.rs: from meta data to rules. *)
From Coq Require Import Ascii String List NArith Bool Arith.
From Verif Require Import Base Ext Types ParseModel.
Import ListNotations.
Local Open Scope string_scope.
Local Open Scope list_scope.
Local Open Scope nat_scope.

(** src/bootstrap/convert.rs:27-30 [Convert]. *)
Record conv := Cv { c_data : list tok; c_off : nat }.

(** src/bootstrap/convert.rs:34-39 [Convert::new]. *)
Definition c_new (data : list tok) : conv := Cv data 0.

(** src/bootstrap/convert.rs:43-45 [Convert::remaining_data_len]. *)
Definition c_remaining (c : conv) : nat := length (c_data c).

(** src/bootstrap/convert.rs:49-51 [Convert::subtract]. Simplification: where [rhs] is ahead of
    [c] the code overflows; here the length is 0. All uses subtract an earlier cursor. *)
Definition c_subtract (c rhs : conv) : range := Rng (c_off rhs) (c_off c - c_off rhs).

(** src/bootstrap/convert.rs:54-59 [Convert::source]; indexing out of range and
    [end - start] below zero are panics. *)
Definition c_source (c rhs : conv) : outcome (option range) :=
  if Nat.eqb (length (c_data rhs)) 0 || (c_off c <=? c_off rhs) then Done None
  else
    match nth_error (c_data rhs) 0, nth_error (c_data rhs) (c_off c - c_off rhs - 1) with
    | Some a, Some b =>
      let start := r_off (fst a) in
      let end_ := next_offset (fst b) in
      if end_ <? start then Panic else Done (Some (Rng start (end_ - start)))
    | _, _ => Panic
    end.

(** src/bootstrap/convert.rs:62-66 [Convert::update]; slicing out of range is a panic. *)
Definition c_update (c : conv) (r : range) : outcome conv :=
  let n := next_offset r in
  if n <? c_off c then Panic
  else if length (c_data c) <? n - c_off c then Panic
  else Done (Cv (skipn (n - c_off c) (c_data c)) n).

(** src/bootstrap/convert.rs:69-77 [Convert::start_node]; [None] is [Err(())]. *)
Definition c_start_node (c : conv) (name : str) : option range :=
  match c_data c with
  | (_, StartNode n) :: _ => if str_eqb n name then Some (Rng (c_off c) 1) else None
  | _ => None
  end.

(** src/bootstrap/convert.rs:80-88 [Convert::end_node]. *)
Definition c_end_node (c : conv) (name : str) : option range :=
  match c_data c with
  | (_, EndNode n) :: _ => if str_eqb n name then Some (Rng (c_off c) 1) else None
  | _ => None
  end.

(** src/bootstrap/convert.rs:93-103, the loop of [Convert::ignore]; [acc -= 1] below zero
    is a panic. *)
Fixpoint ignore_loop (data : list tok) (acc len : nat) : outcome nat :=
  match data with
  | [] => Done len
  | (_, item) :: rest =>
    do acc' <- match item with
               | StartNode _ => Done (acc + 1)
               | EndNode _ => if Nat.eqb acc 0 then Panic else Done (acc - 1)
               | _ => Done acc
               end;
    if Nat.eqb acc' 0 then Done (len + 1) else ignore_loop rest acc' (len + 1)
  end.

(** src/bootstrap/convert.rs:92-105 [Convert::ignore]. *)
Definition c_ignore (c : conv) : outcome range :=
  do len <- ignore_loop (c_data c) 0 0;
  Done (Rng (c_off c) len).

(** src/bootstrap/convert.rs:108-116 [Convert::meta_string]. *)
Definition c_meta_string (c : conv) (name : str) : option (range * str) :=
  match c_data c with
  | (_, MString n v) :: _ => if str_eqb n name then Some (Rng (c_off c) 1, v) else None
  | _ => None
  end.

(** src/bootstrap/convert.rs:119-127 [Convert::meta_f64]. *)
Definition c_meta_f64 (c : conv) (name : str) : option (range * f64) :=
  match c_data c with
  | (_, MF64 n v) :: _ => if str_eqb n name then Some (Rng (c_off c) 1, v) else None
  | _ => None
  end.

(** src/bootstrap/convert.rs:130-138 [Convert::meta_bool]. *)
Definition c_meta_bool (c : conv) (name : str) : option (range * bool) :=
  match c_data c with
  | (_, MBool n v) :: _ => if str_eqb n name then Some (Rng (c_off c) 1, v) else None
  | _ => None
  end.

(** The defined strings: name and text. *)
Definition strings := list (str * str).

(** src/bootstrap/convert.rs:154-167, the loop of [read_string]. *)
Fixpoint string_loop (fuel : nat) (c : conv) (name text : option str)
  : outcome (option (conv * option str * option str)) :=
  match fuel with
  | O => OutOfFuel
  | S fuel' =>
    match c_meta_string c (s2l "name") with
    | Some (r, v) => do c' <- c_update c r; string_loop fuel' c' (Some v) text
    | None =>
      match c_meta_string c (s2l "text") with
      | Some (r, v) => do c' <- c_update c r; string_loop fuel' c' name (Some v)
      | None =>
        match c_end_node c (s2l "string") with
        | Some r => do c' <- c_update c r; Done (Some (c', name, text))
        | None => Done None
        end
      end
    end
  end.

(** src/bootstrap/convert.rs:147-177 [read_string]. *)
Definition read_string (fuel : nat) (c : conv) : outcome (option (range * (str * str))) :=
  match c_start_node c (s2l "string") with
  | None => Done None
  | Some r =>
    do c1 <- c_update c r;
    do res <- string_loop fuel c1 None None;
    match res with
    | Some (c2, Some name, Some text) => Done (Some (c_subtract c2 c, (name, text)))
    | _ => Done None
    end
  end.

(** src/bootstrap/convert.rs:212-214 [find_string]. *)
Fixpoint find_string (val : str) (ss : strings) : option str :=
  match ss with
  | [] => None
  | (n, t) :: ss' => if str_eqb n val then Some t else find_string val ss'
  end.

(** src/bootstrap/convert.rs:225-238, the loop of [read_set]. *)
Fixpoint set_loop (fuel : nat) (property : str) (ss : strings) (c : conv)
  (text : option str) : outcome (option (conv * option str)) :=
  match fuel with
  | O => OutOfFuel
  | S fuel' =>
    match c_end_node c property with
    | Some r => do c' <- c_update c r; Done (Some (c', text))
    | None =>
      match c_meta_string c (s2l "ref") with
      | Some (r, v) => do c' <- c_update c r; set_loop fuel' property ss c' (find_string v ss)
      | None =>
        match c_meta_string c (s2l "value") with
        | Some (r, v) => do c' <- c_update c r; set_loop fuel' property ss c' (Some v)
        | None => Done None
        end
      end
    end
  end.

(** src/bootstrap/convert.rs:216-243 [read_set]. *)
Definition read_set (fuel : nat) (property : str) (c : conv) (ss : strings)
  : outcome (option (range * str)) :=
  match c_start_node c property with
  | None => Done None
  | Some r =>
    do c1 <- c_update c r;
    do res <- set_loop fuel property ss c1 None;
    match res with
    | Some (c2, Some text) => Done (Some (c_subtract c2 c, text))
    | _ => Done None
    end
  end.

(** The two [&mut] arguments of the readers: debug id and ignored ranges. *)
Definition cstate := (N * list range)%type.

(** A reader of a rule; [None] is [Err(())]. *)
Definition reader := conv -> cstate -> outcome (option (range * rule) * cstate).

(** The final [else] branch of all loops: ignore the next item. *)
Definition skip_item (c : conv) (ig : list range) : outcome (conv * list range) :=
  do r <- c_ignore c;
  do c' <- c_update c r;
  Done (c', ig ++ [r])%list.

(** [*debug_id += 1] and building the rule. *)
Definition finish (start c : conv) (st : cstate) (mk : N -> rule)
  : outcome (option (range * rule) * cstate) :=
  do id <- add_usize (fst st) 1;
  Done (Some (c_subtract c start, mk id), (id, snd st)).

(** src/bootstrap/convert.rs:258-276 and 306-324, the loops of
    [read_until_any_or_whitespace] and [read_until_any]. *)
Fixpoint until_loop (fuel : nat) (node : str) (ss : strings) (c : conv)
  (any : option str) (optional : option bool) (property : option str) (ig : list range)
  : outcome (conv * option str * option bool * option str * list range) :=
  match fuel with
  | O => OutOfFuel
  | S fuel' =>
    match c_end_node c node with
    | Some r => do c' <- c_update c r; Done (c', any, optional, property, ig)
    | None =>
      do res <- read_set fuel' (s2l "any_characters") c ss;
      match res with
      | Some (r, v) =>
        do c' <- c_update c r; until_loop fuel' node ss c' (Some v) optional property ig
      | None =>
        match c_meta_bool c (s2l "optional") with
        | Some (r, v) =>
          do c' <- c_update c r; until_loop fuel' node ss c' any (Some v) property ig
        | None =>
          do res <- read_set fuel' (s2l "property") c ss;
          match res with
          | Some (r, v) =>
            do c' <- c_update c r; until_loop fuel' node ss c' any optional (Some v) ig
          | None =>
            do (c', ig') <- skip_item c ig;
            until_loop fuel' node ss c' any optional property ig'
          end
        end
      end
    end
  end.

(** src/bootstrap/convert.rs:245-291 [read_until_any_or_whitespace] and 293-339
    [read_until_any]; they differ in the node name and the rule built. *)
Definition read_until (fuel : nat) (node : str)
  (mk : str -> bool -> option str -> N -> rule) (ss : strings) : reader :=
  fun c st =>
    match c_start_node c node with
    | None => Done (None, st)
    | Some r =>
      do c1 <- c_update c r;
      do (c2, any, optional, property, ig) <- until_loop fuel node ss c1 None None None (snd st);
      match any with
      | Some any =>
        finish c c2 (fst st, ig)
          (mk any (match optional with Some b => b | None => false end) property)
      | None => Done (None, (fst st, ig))
      end
    end.

(** src/bootstrap/convert.rs:356-377, the loop of [read_tag]. *)
Fixpoint tag_loop (fuel : nat) (ss : strings) (c : conv)
  (text property : option str) (not inverted : option bool) (ig : list range)
  : outcome (conv * option str * option str * option bool * option bool * list range) :=
  match fuel with
  | O => OutOfFuel
  | S fuel' =>
    match c_end_node c (s2l "tag") with
    | Some r => do c' <- c_update c r; Done (c', text, property, not, inverted, ig)
    | None =>
      do res <- read_set fuel' (s2l "text") c ss;
      match res with
      | Some (r, v) =>
        do c' <- c_update c r; tag_loop fuel' ss c' (Some v) property not inverted ig
      | None =>
        do res <- read_set fuel' (s2l "property") c ss;
        match res with
        | Some (r, v) =>
          do c' <- c_update c r; tag_loop fuel' ss c' text (Some v) not inverted ig
        | None =>
          match c_meta_bool c (s2l "not") with
          | Some (r, v) =>
            do c' <- c_update c r; tag_loop fuel' ss c' text property (Some v) inverted ig
          | None =>
            match c_meta_bool c (s2l "inverted") with
            | Some (r, v) =>
              do c' <- c_update c r; tag_loop fuel' ss c' text property not (Some v) ig
            | None =>
              do (c', ig') <- skip_item c ig;
              tag_loop fuel' ss c' text property not inverted ig'
            end
          end
        end
      end
    end
  end.

Definition or_false (b : option bool) : bool := match b with Some b => b | None => false end.
Definition or_true (b : option bool) : bool := match b with Some b => b | None => true end.

(** src/bootstrap/convert.rs:341-394 [read_tag]. *)
Definition read_tag (fuel : nat) (ss : strings) : reader :=
  fun c st =>
    match c_start_node c (s2l "tag") with
    | None => Done (None, st)
    | Some r =>
      do c1 <- c_update c r;
      do (c2, text, property, not, inverted, ig) <-
        tag_loop fuel ss c1 None None None None (snd st);
      match text with
      | Some text =>
        finish c c2 (fst st, ig) (RTag text (or_false not) (or_false inverted) property)
      | None => Done (None, (fst st, ig))
      end
    end.

(** src/bootstrap/convert.rs:396-411 [read_whitespace]. *)
Definition read_whitespace : reader :=
  fun c st =>
    match c_start_node c (s2l "whitespace") with
    | None => Done (None, st)
    | Some r =>
      do c1 <- c_update c r;
      match c_meta_bool c1 (s2l "optional") with
      | None => Done (None, st)
      | Some (r, optional) =>
        do c2 <- c_update c1 r;
        match c_end_node c2 (s2l "whitespace") with
        | None => Done (None, st)
        | Some r =>
          do c3 <- c_update c2 r;
          finish c c3 st (RWhitespace optional)
        end
      end
    end.

(** The loops of [read_text] (src/bootstrap/convert.rs:425-440, flag first) and of
    [read_number] (464-479, property first): a bool and a property. *)
Fixpoint flag_loop (fuel : nat) (node flag : str) (ss : strings) (c : conv)
  (b : option bool) (property : option str) (ig : list range)
  : outcome (conv * option bool * option str * list range) :=
  match fuel with
  | O => OutOfFuel
  | S fuel' =>
    match c_end_node c node with
    | Some r => do c' <- c_update c r; Done (c', b, property, ig)
    | None =>
      match c_meta_bool c flag with
      | Some (r, v) => do c' <- c_update c r; flag_loop fuel' node flag ss c' (Some v) property ig
      | None =>
        do res <- read_set fuel' (s2l "property") c ss;
        match res with
        | Some (r, v) =>
          do c' <- c_update c r; flag_loop fuel' node flag ss c' b (Some v) ig
        | None =>
          do (c', ig') <- skip_item c ig;
          flag_loop fuel' node flag ss c' b property ig'
        end
      end
    end
  end.

(** src/bootstrap/convert.rs:413-449 [read_text]. *)
Definition read_text (fuel : nat) (ss : strings) : reader :=
  fun c st =>
    match c_start_node c (s2l "text") with
    | None => Done (None, st)
    | Some r =>
      do c1 <- c_update c r;
      do (c2, allow_empty, property, ig) <-
        flag_loop fuel (s2l "text") (s2l "allow_empty") ss c1 None None (snd st);
      finish c c2 (fst st, ig) (RText (or_true allow_empty) property)
    end.

(** src/bootstrap/convert.rs:451-488 [read_number]. The order in which the code tests for
    the property and for the flag is immaterial (different kinds of items). *)
Definition read_number (fuel : nat) (ss : strings) : reader :=
  fun c st =>
    match c_start_node c (s2l "number") with
    | None => Done (None, st)
    | Some r =>
      do c1 <- c_update c r;
      do (c2, underscore, property, ig) <-
        flag_loop fuel (s2l "number") (s2l "underscore") ss c1 None None (snd st);
      finish c c2 (fst st, ig) (RNumber (or_false underscore) property)
    end.

(** src/bootstrap/convert.rs:503-518, the loop of [read_reference]. *)
Fixpoint reference_loop (fuel : nat) (ss : strings) (c : conv)
  (name property : option str) (ig : list range)
  : outcome (conv * option str * option str * list range) :=
  match fuel with
  | O => OutOfFuel
  | S fuel' =>
    match c_end_node c (s2l "reference") with
    | Some r => do c' <- c_update c r; Done (c', name, property, ig)
    | None =>
      match c_meta_string c (s2l "name") with
      | Some (r, v) => do c' <- c_update c r; reference_loop fuel' ss c' (Some v) property ig
      | None =>
        do res <- read_set fuel' (s2l "property") c ss;
        match res with
        | Some (r, v) =>
          do c' <- c_update c r; reference_loop fuel' ss c' name (Some v) ig
        | None =>
          do (c', ig') <- skip_item c ig;
          reference_loop fuel' ss c' name property ig'
        end
      end
    end
  end.

(** src/bootstrap/convert.rs:490-532 [read_reference]. *)
Definition read_reference (fuel : nat) (ss : strings) : reader :=
  fun c st =>
    match c_start_node c (s2l "reference") with
    | None => Done (None, st)
    | Some r =>
      do c1 <- c_update c r;
      do (c2, name, property, ig) <- reference_loop fuel ss c1 None None (snd st);
      match name with
      | Some name => finish c c2 (fst st, ig) (RNode name property None)
      | None => Done (None, (fst st, ig))
      end
    end.

(** src/bootstrap/convert.rs:190-204 and 545-559, the loops of [read_sequence] and
    [read_select]. [rd] is [read_rule(debug_id, "rule", ..)]. *)
Fixpoint args_loop (fuel : nat) (rd : reader) (node : str) (c : conv)
  (args : list rule) (st : cstate) : outcome (conv * list rule * cstate) :=
  match fuel with
  | O => OutOfFuel
  | S fuel' =>
    match c_end_node c node with
    | Some r => do c' <- c_update c r; Done (c', args, st)
    | None =>
      do (res, st') <- rd c st;
      match res with
      | Some (r, v) =>
        do c' <- c_update c r; args_loop fuel' rd node c' (args ++ [v])%list st'
      | None =>
        do (c', ig') <- skip_item c (snd st');
        args_loop fuel' rd node c' args (fst st', ig')
      end
    end
  end.

(** src/bootstrap/convert.rs:179-210 [read_sequence] and 534-566 [read_select]. *)
Definition read_args (fuel : nat) (rd : reader) (node : str)
  (mk : list rule -> N -> rule) : reader :=
  fun c st =>
    match c_start_node c node with
    | None => Done (None, st)
    | Some r =>
      do c1 <- c_update c r;
      do (c2, args, st2) <- args_loop fuel rd node c1 [] st;
      finish c c2 st2 (mk args)
    end.

(** src/bootstrap/convert.rs:568-590 [read_optional] and 592-614 [read_not]. *)
Definition read_wrap (rd : reader) (node : str) (mk : rule -> N -> rule) : reader :=
  fun c st =>
    match c_start_node c node with
    | None => Done (None, st)
    | Some r =>
      do c1 <- c_update c r;
      do (res, st1) <- rd c1 st;
      match res with
      | None => Done (None, st1)
      | Some (r, rule) =>
        do c2 <- c_update c1 r;
        match c_end_node c2 node with
        | None => Done (None, st1)
        | Some r =>
          do c3 <- c_update c2 r;
          finish c c3 st1 (mk rule)
        end
      end
    end.

(** src/bootstrap/convert.rs:630-655, the loop of [read_separated_by]. *)
Fixpoint sep_by_loop (fuel : nat) (rd_by rd_rule : reader) (c : conv)
  (optional allow_trail : option bool) (by_ rule_ : option rule) (st : cstate)
  : outcome (conv * option bool * option bool * option rule * option rule * cstate) :=
  match fuel with
  | O => OutOfFuel
  | S fuel' =>
    match c_end_node c (s2l "separated_by") with
    | Some r => do c' <- c_update c r; Done (c', optional, allow_trail, by_, rule_, st)
    | None =>
      match c_meta_bool c (s2l "optional") with
      | Some (r, v) =>
        do c' <- c_update c r;
        sep_by_loop fuel' rd_by rd_rule c' (Some v) allow_trail by_ rule_ st
      | None =>
        match c_meta_bool c (s2l "allow_trail") with
        | Some (r, v) =>
          do c' <- c_update c r;
          sep_by_loop fuel' rd_by rd_rule c' optional (Some v) by_ rule_ st
        | None =>
          do (res, st1) <- rd_by c st;
          match res with
          | Some (r, v) =>
            do c' <- c_update c r;
            sep_by_loop fuel' rd_by rd_rule c' optional allow_trail (Some v) rule_ st1
          | None =>
            do (res, st2) <- rd_rule c st1;
            match res with
            | Some (r, v) =>
              do c' <- c_update c r;
              sep_by_loop fuel' rd_by rd_rule c' optional allow_trail by_ (Some v) st2
            | None =>
              do (c', ig') <- skip_item c (snd st2);
              sep_by_loop fuel' rd_by rd_rule c' optional allow_trail by_ rule_ (fst st2, ig')
            end
          end
        end
      end
    end
  end.

(** src/bootstrap/convert.rs:616-672 [read_separated_by]. *)
Definition read_separated_by (fuel : nat) (rd_by rd_rule : reader) : reader :=
  fun c st =>
    match c_start_node c (s2l "separated_by") with
    | None => Done (None, st)
    | Some r =>
      do c1 <- c_update c r;
      do (c2, optional, allow_trail, by_, rule_, st2) <-
        sep_by_loop fuel rd_by rd_rule c1 None None None None st;
      match by_, rule_ with
      | Some by_, Some rule_ =>
        finish c c2 st2 (RSeparateBy rule_ by_ (or_true optional) (or_true allow_trail))
      | _, _ => Done (None, st2)
      end
    end.

(** src/bootstrap/convert.rs:674-700 [read_lines]. *)
Definition read_lines (rd : reader) : reader :=
  fun c st =>
    match c_start_node c (s2l "lines") with
    | None => Done (None, st)
    | Some r =>
      do c1 <- c_update c r;
      do (c2, indented) <- match c_meta_bool c1 (s2l "indent") with
                           | Some (r, v) => do c2 <- c_update c1 r; Done (c2, v)
                           | None => Done (c1, false)
                           end;
      do (res, st1) <- rd c2 st;
      match res with
      | None => Done (None, st1)
      | Some (r, rule) =>
        do c3 <- c_update c2 r;
        match c_end_node c3 (s2l "lines") with
        | None => Done (None, st1)
        | Some r =>
          do c4 <- c_update c3 r;
          finish c c4 st1 (RLines rule indented)
        end
      end
    end.

(** src/bootstrap/convert.rs:714-731, the loop of [read_repeat]. *)
Fixpoint rep_loop (fuel : nat) (rd : reader) (c : conv)
  (rule_ : option rule) (optional : option bool) (st : cstate)
  : outcome (conv * option rule * option bool * cstate) :=
  match fuel with
  | O => OutOfFuel
  | S fuel' =>
    match c_end_node c (s2l "repeat") with
    | Some r => do c' <- c_update c r; Done (c', rule_, optional, st)
    | None =>
      do (res, st1) <- rd c st;
      match res with
      | Some (r, v) =>
        do c' <- c_update c r; rep_loop fuel' rd c' (Some v) optional st1
      | None =>
        match c_meta_bool c (s2l "optional") with
        | Some (r, v) =>
          do c' <- c_update c r; rep_loop fuel' rd c' rule_ (Some v) st1
        | None =>
          do (c', ig') <- skip_item c (snd st1);
          rep_loop fuel' rd c' rule_ optional (fst st1, ig')
        end
      end
    end
  end.

(** src/bootstrap/convert.rs:702-744 [read_repeat]. *)
Definition read_repeat (fuel : nat) (rd : reader) : reader :=
  fun c st =>
    match c_start_node c (s2l "repeat") with
    | None => Done (None, st)
    | Some r =>
      do c1 <- c_update c r;
      do (c2, rule_, optional, st2) <- rep_loop fuel rd c1 None None st;
      match rule_, optional with
      | Some rule_, Some optional => finish c c2 st2 (RRepeat rule_ optional)
      | _, _ => Done (None, st2)
      end
    end.

(** [if let Ok(..) = a(..) { .. } else if let Ok(..) = b(..) ..] over readers. *)
Fixpoint first_reader (rds : list reader) : reader :=
  fun c st =>
    match rds with
    | [] => Done (None, st)
    | rd :: rest =>
      do (res, st') <- rd c st;
      match res with
      | Some x => Done (Some x, st')
      | None => first_reader rest c st'
      end
    end.

(** src/bootstrap/convert.rs:746-835 [read_rule]. *)
Fixpoint read_rule (fuel : nat) (property : str) (ss : strings) : reader :=
  match fuel with
  | O => fun _ _ => OutOfFuel
  | S fuel' =>
    fun c st =>
      match c_start_node c property with
      | None => Done (None, st)
      | Some r =>
        do c1 <- c_update c r;
        let rd := read_rule fuel' (s2l "rule") ss in
        do (res, st1) <-
          first_reader
            [ read_args fuel' rd (s2l "sequence") RSequence;
              read_until fuel' (s2l "until_any_or_whitespace") RUntilAnyOrWs ss;
              read_until fuel' (s2l "until_any") RUntilAny ss;
              read_tag fuel' ss;
              read_whitespace;
              read_text fuel' ss;
              read_number fuel' ss;
              read_reference fuel' ss;
              read_args fuel' rd (s2l "select") RSelect;
              read_wrap rd (s2l "optional") ROptional;
              read_wrap rd (s2l "not") RNot;
              read_separated_by fuel' (read_rule fuel' (s2l "by") ss) rd;
              read_lines rd;
              read_repeat fuel' rd ] c1 st;
        match res with
        | None => Done (None, st1)
        | Some (r, rule) =>
          do c2 <- c_update c1 r;
          match c_end_node c2 property with
          | None => Done (None, st1)
          | Some r =>
            do c3 <- c_update c2 r;
            Done (Some (c_subtract c3 c, rule), st1)
          end
        end
      end
  end.

(** src/bootstrap/convert.rs:849-870, the loop of [read_node]. *)
Fixpoint node_loop (fuel : nat) (ss : strings) (c : conv)
  (id : option N) (name : option str) (rule_ : option rule) (ig : list range)
  : outcome (conv * option str * option rule * list range) :=
  match fuel with
  | O => OutOfFuel
  | S fuel' =>
    match c_end_node c (s2l "node") with
    | Some r => do c' <- c_update c r; Done (c', name, rule_, ig)
    | None =>
      match c_meta_f64 c (s2l "id") with
      | Some (r, v) =>
        do c' <- c_update c r; node_loop fuel' ss c' (Some (f64_as_usize v)) name rule_ ig
      | None =>
        match c_meta_string c (s2l "name") with
        | Some (r, v) => do c' <- c_update c r; node_loop fuel' ss c' id (Some v) rule_ ig
        | None =>
          do debug_id <- mul_usize (match id with Some n => n | None => 0%N end) 1000;
          do (res, st) <- read_rule fuel' (s2l "rule") ss c (debug_id, ig);
          match res with
          | Some (r, v) => do c' <- c_update c r; node_loop fuel' ss c' id name (Some v) (snd st)
          | None =>
            do (c', ig') <- skip_item c (snd st);
            node_loop fuel' ss c' id name rule_ ig'
          end
        end
      end
    end
  end.

(** src/bootstrap/convert.rs:837-877 [read_node]. *)
Definition read_node (fuel : nat) (ss : strings) (c : conv) (ig : list range)
  : outcome (option (range * (str * rule)) * list range) :=
  match c_start_node c (s2l "node") with
  | None => Done (None, ig)
  | Some r =>
    do c1 <- c_update c r;
    do (c2, name, rule_, ig') <- node_loop fuel ss c1 None None None ig;
    match name, rule_ with
    | Some name, Some rule_ => Done (Some (c_subtract c2 c, (name, rule_)), ig')
    | _, _ => Done (None, ig')
    end
  end.

(** src/bootstrap/convert.rs:881-888, the loop over strings. *)
Fixpoint strings_loop (fuel : nat) (c : conv) (ss : strings) : outcome (conv * strings) :=
  match fuel with
  | O => OutOfFuel
  | S fuel' =>
    do res <- read_string fuel' c;
    match res with
    | Some (r, v) => do c' <- c_update c r; strings_loop fuel' c' (ss ++ [v])%list
    | None => Done (c, ss)
    end
  end.

(** src/bootstrap/convert.rs:890-899, the loop over nodes. *)
Fixpoint nodes_loop (fuel : nat) (ss : strings) (c : conv) (s : syntax) (ig : list range)
  : outcome (option syntax * list range) :=
  match fuel with
  | O => OutOfFuel
  | S fuel' =>
    do (res, ig') <- read_node fuel' ss c ig;
    match res with
    | Some (r, (name, rule_)) =>
      do c' <- c_update c r; nodes_loop fuel' ss c' (syntax_push s name rule_) ig'
    | None =>
      if 0 <? c_remaining c then Done (None, ig') else Done (Some s, ig')
    end
  end.

(** src/bootstrap/convert.rs:142-902 [convert]; the ignored ranges are returned.
    [None] is [Err(())]. *)
Definition convert (fuel : nat) (data : list tok) (ignored : list range)
  : outcome (option syntax * list range) :=
  do (c, ss) <- strings_loop fuel (c_new data) [];
  do (res, ig) <- nodes_loop fuel ss c syntax_new ignored;
  match res with
  | Some s => Done (Some (update_refs s), ig)
  | None => Done (None, ig)
  end.
