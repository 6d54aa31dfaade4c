(** How rules are written as meta data; independent of how the data is read. *)
From Coq Require Import Ascii String List NArith Bool Arith.
From Verif Require Import Base Ext Types ConvertSpec.
Import ListNotations.
Local Open Scope string_scope.
Local Open Scope list_scope.
Local Open Scope nat_scope.

(** A node of the name around the items. *)
Definition node_of (name : str) (inner d : list tok) : Prop :=
  exists r r', d = (r, StartNode name) :: inner ++ [(r', EndNode name)].

(** The text of the first of the strings that have the name. *)
Definition defined (ss : list (str * str)) (name text : str) : Prop :=
  exists before after, ss = before ++ (name, text) :: after /\ ~ In name (map fst before).

(** What can be told about a rule besides its sub rules: a text such as a property, a flag,
    a name, or a number. *)
Inductive field :=
| Text (p v : str)
| Flag (p : str) (b : bool)
| Name (p v : str)
| Num (p : str) (x : f64).

Inductive written (ss : list (str * str)) : field -> list tok -> Prop :=
| written_value : forall p v r d,
    node_of p [(r, MString (s2l "value") v)] d -> written ss (Text p v) d
| written_ref : forall p v n r d,
    defined ss n v -> node_of p [(r, MString (s2l "ref") n)] d -> written ss (Text p v) d
| written_flag : forall p b r, written ss (Flag p b) [(r, MBool p b)]
| written_name : forall p v r, written ss (Name p v) [(r, MString p v)]
| written_num : forall p x r, written ss (Num p x) [(r, MF64 p x)].

(** The last value that is told. *)
Definition tell_text (p : str) (acc : option str) (f : field) : option str :=
  match f with Text q v => if str_eqb q p then Some v else acc | _ => acc end.
Definition tell_flag (p : str) (acc : option bool) (f : field) : option bool :=
  match f with Flag q b => if str_eqb q p then Some b else acc | _ => acc end.
Definition tell_name (p : str) (acc : option str) (f : field) : option str :=
  match f with Name q v => if str_eqb q p then Some v else acc | _ => acc end.
Definition tell_num (p : str) (acc : option f64) (f : field) : option f64 :=
  match f with Num q x => if str_eqb q p then Some x else acc | _ => acc end.

Definition last_text (p : str) (fs : list field) : option str := fold_left (tell_text p) fs None.
Definition last_flag (p : str) (fs : list field) : option bool := fold_left (tell_flag p) fs None.
Definition last_name (p : str) (fs : list field) : option str := fold_left (tell_name p) fs None.
Definition last_num (p : str) (fs : list field) : option f64 := fold_left (tell_num p) fs None.

Definition value_or (b : bool) (o : option bool) : bool := match o with Some v => v | None => b end.

(** The fields that a node may have. *)
Definition allowed (texts flags names nums : list str) (f : field) : Prop :=
  match f with
  | Text p _ => In p texts
  | Flag p _ => In p flags
  | Name p _ => In p names
  | Num p _ => In p nums
  end.

Definition fields (ss : list (str * str)) (texts flags names nums : list str)
  (fs : list field) (d : list tok) : Prop :=
  Forall (allowed texts flags names nums) fs /\
  exists items, d = concat items /\ Forall2 (written ss) fs items.

Section Write.
  Variable ss : list (str * str).

  (** [wbody lo d r hi]: the data [d] writes the rule [r], whose debug ids are given out
      one after the other, from [lo + 1] to [hi]. *)
  Inductive wbody : N -> list tok -> rule -> N -> Prop :=
  | w_whitespace : forall lo d r b,
      node_of (s2l "whitespace") [(r, MBool (s2l "optional") b)] d ->
      wbody lo d (RWhitespace b (lo + 1)) (lo + 1)
  | w_tag : forall lo d fs inner text,
      fields ss [s2l "text"; s2l "property"] [s2l "not"; s2l "inverted"] [] [] fs inner ->
      last_text (s2l "text") fs = Some text ->
      node_of (s2l "tag") inner d ->
      wbody lo d (RTag text (value_or false (last_flag (s2l "not") fs))
                      (value_or false (last_flag (s2l "inverted") fs))
                      (last_text (s2l "property") fs) (lo + 1)) (lo + 1)
  | w_until_any : forall lo d fs inner any,
      fields ss [s2l "any_characters"; s2l "property"] [s2l "optional"] [] [] fs inner ->
      last_text (s2l "any_characters") fs = Some any ->
      node_of (s2l "until_any") inner d ->
      wbody lo d (RUntilAny any (value_or false (last_flag (s2l "optional") fs))
                      (last_text (s2l "property") fs) (lo + 1)) (lo + 1)
  | w_until_any_or_ws : forall lo d fs inner any,
      fields ss [s2l "any_characters"; s2l "property"] [s2l "optional"] [] [] fs inner ->
      last_text (s2l "any_characters") fs = Some any ->
      node_of (s2l "until_any_or_whitespace") inner d ->
      wbody lo d (RUntilAnyOrWs any (value_or false (last_flag (s2l "optional") fs))
                      (last_text (s2l "property") fs) (lo + 1)) (lo + 1)
  | w_text : forall lo d fs inner,
      fields ss [s2l "property"] [s2l "allow_empty"] [] [] fs inner ->
      node_of (s2l "text") inner d ->
      wbody lo d (RText (value_or true (last_flag (s2l "allow_empty") fs))
                      (last_text (s2l "property") fs) (lo + 1)) (lo + 1)
  | w_number : forall lo d fs inner,
      fields ss [s2l "property"] [s2l "underscore"] [] [] fs inner ->
      node_of (s2l "number") inner d ->
      wbody lo d (RNumber (value_or false (last_flag (s2l "underscore") fs))
                      (last_text (s2l "property") fs) (lo + 1)) (lo + 1)
  | w_reference : forall lo d fs inner name,
      fields ss [s2l "property"] [] [s2l "name"] [] fs inner ->
      last_name (s2l "name") fs = Some name ->
      node_of (s2l "reference") inner d ->
      wbody lo d (RNode name (last_text (s2l "property") fs) None (lo + 1)) (lo + 1)
  | w_sequence : forall lo d inner args hi,
      wargs lo inner args hi -> node_of (s2l "sequence") inner d ->
      wbody lo d (RSequence args (hi + 1)) (hi + 1)
  | w_select : forall lo d inner args hi,
      wargs lo inner args hi -> node_of (s2l "select") inner d ->
      wbody lo d (RSelect args (hi + 1)) (hi + 1)
  | w_optional : forall lo d inner r hi,
      wrule (s2l "rule") lo inner r hi -> node_of (s2l "optional") inner d ->
      wbody lo d (ROptional r (hi + 1)) (hi + 1)
  | w_not : forall lo d inner r hi,
      wrule (s2l "rule") lo inner r hi -> node_of (s2l "not") inner d ->
      wbody lo d (RNot r (hi + 1)) (hi + 1)
  | w_lines : forall lo d inner r hi,
      wrule (s2l "rule") lo inner r hi -> node_of (s2l "lines") inner d ->
      wbody lo d (RLines r false (hi + 1)) (hi + 1)
  | w_lines_indent : forall lo d inner r hi q b,
      wrule (s2l "rule") lo inner r hi ->
      node_of (s2l "lines") ((q, MBool (s2l "indent") b) :: inner) d ->
      wbody lo d (RLines r b (hi + 1)) (hi + 1)
  | w_repeat : forall lo d fs1 fs2 before inner after r hi b,
      fields ss [] [s2l "optional"] [] [] fs1 before ->
      wrule (s2l "rule") lo inner r hi ->
      fields ss [] [s2l "optional"] [] [] fs2 after ->
      last_flag (s2l "optional") (fs1 ++ fs2) = Some b ->
      node_of (s2l "repeat") (before ++ inner ++ after) d ->
      wbody lo d (RRepeat r b (hi + 1)) (hi + 1)
  | w_separated_by : forall lo d fs1 fs2 fs3 before by_d between rule_d after by_ r mid hi,
      fields ss [] [s2l "optional"; s2l "allow_trail"] [] [] fs1 before ->
      fields ss [] [s2l "optional"; s2l "allow_trail"] [] [] fs2 between ->
      fields ss [] [s2l "optional"; s2l "allow_trail"] [] [] fs3 after ->
      wrule (s2l "by") lo by_d by_ mid -> wrule (s2l "rule") mid rule_d r hi ->
      node_of (s2l "separated_by") (before ++ by_d ++ between ++ rule_d ++ after) d ->
      wbody lo d (RSeparateBy r by_ (value_or true (last_flag (s2l "optional") (fs1 ++ fs2 ++ fs3)))
        (value_or true (last_flag (s2l "allow_trail") (fs1 ++ fs2 ++ fs3))) (hi + 1)) (hi + 1)
  | w_separated_by_swap : forall lo d fs1 fs2 fs3 before by_d between rule_d after by_ r mid hi,
      fields ss [] [s2l "optional"; s2l "allow_trail"] [] [] fs1 before ->
      fields ss [] [s2l "optional"; s2l "allow_trail"] [] [] fs2 between ->
      fields ss [] [s2l "optional"; s2l "allow_trail"] [] [] fs3 after ->
      wrule (s2l "rule") lo rule_d r mid -> wrule (s2l "by") mid by_d by_ hi ->
      node_of (s2l "separated_by") (before ++ rule_d ++ between ++ by_d ++ after) d ->
      wbody lo d (RSeparateBy r by_ (value_or true (last_flag (s2l "optional") (fs1 ++ fs2 ++ fs3)))
        (value_or true (last_flag (s2l "allow_trail") (fs1 ++ fs2 ++ fs3))) (hi + 1)) (hi + 1)
  (** A rule in the node that holds it. *)
  with wrule : str -> N -> list tok -> rule -> N -> Prop :=
  | w_rule : forall p lo inner d r hi,
      wbody lo inner r hi -> node_of p inner d -> wrule p lo d r hi
  (** Rules one after the other. *)
  with wargs : N -> list tok -> list rule -> N -> Prop :=
  | w_no_args : forall lo, wargs lo [] [] lo
  | w_arg : forall lo d r mid ds rs hi,
      wrule (s2l "rule") lo d r mid -> wargs mid ds rs hi ->
      wargs lo (d ++ ds) (r :: rs) hi.

  (** A node rule: name and number before or after the rule; the number counts when it
      stands before. *)
  Inductive wnode : list tok -> str -> rule -> Prop :=
  | w_node : forall d fs1 fs2 before inner after name r hi k,
      fields ss [] [] [s2l "name"] [s2l "id"] fs1 before ->
      wrule (s2l "rule") (k * 1000) inner r hi ->
      fields ss [] [] [s2l "name"] [s2l "id"] fs2 after ->
      last_name (s2l "name") (fs1 ++ fs2) = Some name ->
      k = match last_num (s2l "id") fs1 with Some x => f64_as_usize x | None => 0%N end ->
      node_of (s2l "node") (before ++ inner ++ after) d ->
      wnode d name r.
End Write.

(** A string: name and text in any order. *)
Inductive wstring : list tok -> str * str -> Prop :=
| w_string : forall d fs inner name text,
    fields [] [] [] [s2l "name"; s2l "text"] [] fs inner ->
    last_name (s2l "name") fs = Some name -> last_name (s2l "text") fs = Some text ->
    node_of (s2l "string") inner d -> wstring d (name, text).

(** Strings, then nodes. *)
Inductive wdocument : list tok -> list str -> list rule -> Prop :=
| w_document : forall ss sds nds names rules,
    Forall2 wstring sds ss ->
    length names = length rules ->
    Forall2 (fun d nr => wnode ss d (fst nr) (snd nr)) nds (combine names rules) ->
    wdocument (concat sds ++ concat nds) names rules.
