(** What data says, as trees: the meaning of conversion without cursors, ranges and ids. *)
From Coq Require Import Ascii String List NArith Bool Arith.
From Verif Require Import Base Ext Types DataSpec IdSpec OptSpec.
Import ListNotations.
Local Open Scope string_scope.
Local Open Scope list_scope.
Local Open Scope nat_scope.

(** Well nested data is a list of trees. *)
Inductive tree :=
| Leaf (m : metadata)
| Tree (name : str) (kids : list tree).

Fixpoint flat (t : tree) : list metadata :=
  match t with
  | Leaf m => [m]
  | Tree name kids => StartNode name :: flat_map flat kids ++ [EndNode name]
  end.

(** Leaves are strings, numbers and flags. *)
Fixpoint good (t : tree) : Prop :=
  match t with
  | Leaf m => leaf m
  | Tree _ kids => (fix all (l : list tree) : Prop := match l with [] => True | k :: l' => good k /\ all l' end) kids
  end.

(** The last of the answers. *)
Definition last_of {A} (f : tree -> option A) : list tree -> option A :=
  fix go (l : list tree) : option A :=
  match l with
  | [] => None
  | t :: l' => match go l' with Some a => Some a | None => f t end
  end.

(** All answers, in order. *)
Definition answers {A} (f : tree -> option A) : list tree -> list A :=
  fix go (l : list tree) : list A :=
  match l with
  | [] => []
  | t :: l' => match f t with Some a => a :: go l' | None => go l' end
  end.

(** A list of answers, if all answer. *)
Definition all_of {A} (f : tree -> option A) : list tree -> option (list A) :=
  fix go (l : list tree) : option (list A) :=
  match l with
  | [] => Some []
  | t :: l' => match f t, go l' with Some a, Some r => Some (a :: r) | _, _ => None end
  end.

Definition otherwise {A} (d : A) (o : option A) : A := match o with Some a => a | None => d end.

(** A flag, a string or a number of the name. *)
Definition flag_of (name : str) (t : tree) : option bool :=
  match t with Leaf (MBool n v) => if str_eqb n name then Some v else None | _ => None end.
Definition string_at (name : str) (t : tree) : option str :=
  match t with Leaf (MString n v) => if str_eqb n name then Some v else None | _ => None end.
Definition number_at (name : str) (t : tree) : option f64 :=
  match t with Leaf (MF64 n v) => if str_eqb n name then Some v else None | _ => None end.

Definition named (name : str) (t : tree) : bool :=
  match t with Tree n _ => str_eqb n name | Leaf _ => false end.

Definition is_some {A} (o : option A) : bool := match o with Some _ => true | None => false end.

(** The defined strings: name and text. The first of a name counts. *)
Definition definition (ss : list (str * str)) (name : str) : option str :=
  option_map snd (find (fun d => str_eqb (fst d) name) ss).

(** A text: a node that holds references to strings and values only. The last counts. *)
Definition text_of (ss : list (str * str)) (name : str) (t : tree) : option str :=
  match t with
  | Tree n kids =>
    if str_eqb n name && forallb (fun k => is_some (string_at (s2l "ref") k) || is_some (string_at (s2l "value") k)) kids
    then
      match last_of (fun k => match string_at (s2l "ref") k with
                              | Some v => Some (definition ss v)
                              | None => option_map Some (string_at (s2l "value") k)
                              end) kids with
      | Some o => o
      | None => None
      end
    else None
  | Leaf _ => None
  end.

(** A rule of the kind with these items below; [sub] is the meaning of a node with a rule. *)
Definition kind_meaning (ss : list (str * str)) (sub : tree -> option rule) (kind : str) (kids : list tree) : option rule :=
  let is s := str_eqb kind (s2l s) in
  let flag s := last_of (flag_of (s2l s)) kids in
  let text s := last_of (text_of ss (s2l s)) kids in
  let rules s := last_of (fun k => if named (s2l s) k then sub k else None) kids in
  let wrap (mk : rule -> rule) :=
    match kids with
    | [k] => option_map mk (if named (s2l "rule") k then sub k else None)
    | _ => None
    end in
  if is "sequence" then Some (RSequence (answers (fun k => if named (s2l "rule") k then sub k else None) kids) 0)
  else if is "select" then Some (RSelect (answers (fun k => if named (s2l "rule") k then sub k else None) kids) 0)
  else if is "until_any_or_whitespace" then
    option_map (fun any => RUntilAnyOrWs any (otherwise false (flag "optional")) (text "property") 0) (text "any_characters")
  else if is "until_any" then
    option_map (fun any => RUntilAny any (otherwise false (flag "optional")) (text "property") 0) (text "any_characters")
  else if is "tag" then
    option_map (fun t => RTag t (otherwise false (flag "not")) (otherwise false (flag "inverted")) (text "property") 0) (text "text")
  else if is "whitespace" then
    match kids with [k] => option_map (fun b => RWhitespace b 0) (flag_of (s2l "optional") k) | _ => None end
  else if is "text" then Some (RText (otherwise true (flag "allow_empty")) (text "property") 0)
  else if is "number" then Some (RNumber (otherwise false (flag "underscore")) (text "property") 0)
  else if is "reference" then
    option_map (fun n => RNode n (text "property") None 0) (last_of (string_at (s2l "name")) kids)
  else if is "optional" then wrap (fun r => ROptional r 0)
  else if is "not" then wrap (fun r => RNot r 0)
  else if is "separated_by" then
    match rules "by", rules "rule" with
    | Some b, Some r => Some (RSeparateBy r b (otherwise true (flag "optional")) (otherwise true (flag "allow_trail")) 0)
    | _, _ => None
    end
  else if is "lines" then
    match kids with
    | [k] => option_map (fun r => RLines r false 0) (if named (s2l "rule") k then sub k else None)
    | [f; k] =>
      match flag_of (s2l "indent") f with
      | Some b => option_map (fun r => RLines r b 0) (if named (s2l "rule") k then sub k else None)
      | None => None
      end
    | _ => None
    end
  else if is "repeat" then
    match rules "rule", flag "optional" with
    | Some r, Some b => Some (RRepeat r b 0)
    | _, _ => None
    end
  else None.

(** The rule in a node that holds one: all ids are 0, references are not resolved. *)
Fixpoint rule_in (ss : list (str * str)) (t : tree) : option rule :=
  match t with
  | Tree _ [Tree kind kids] => kind_meaning ss (rule_in ss) kind kids
  | _ => None
  end.

Definition rule_of (ss : list (str * str)) (name : str) (t : tree) : option rule :=
  if named name t then rule_in ss t else None.

(** A string with its name. *)
Definition string_of (t : tree) : option (str * str) :=
  match t with
  | Tree n kids =>
    if str_eqb n (s2l "string") && forallb (fun k => is_some (string_at (s2l "name") k) || is_some (string_at (s2l "text") k)) kids
    then
      match last_of (string_at (s2l "name")) kids, last_of (string_at (s2l "text")) kids with
      | Some name, Some text => Some (name, text)
      | _, _ => None
      end
    else None
  | Leaf _ => None
  end.

(** A node: a rule with its name. *)
Definition node_of (ss : list (str * str)) (t : tree) : option (str * rule) :=
  match t with
  | Tree n kids =>
    if str_eqb n (s2l "node") then
      match last_of (string_at (s2l "name")) kids, last_of (rule_of ss (s2l "rule")) kids with
      | Some name, Some r => Some (name, r)
      | _, _ => None
      end
    else None
  | Leaf _ => None
  end.

(** The whole data: strings, then nodes, and nothing else. *)
Fixpoint data_meaning (ss : list (str * str)) (ts : list tree) : option (list (str * rule)) :=
  match ts with
  | t :: ts' =>
    match string_of t with
    | Some d => data_meaning (ss ++ [d]) ts'
    | None => all_of (node_of ss) ts
    end
  | [] => Some []
  end.

(** The result of converting the data says what the trees mean: the ids of the rules are free,
    the references are resolved with the names of the nodes. *)
Definition says (ts : list tree) (result : option syntax) : Prop :=
  match data_meaning [] ts with
  | Some nodes => exists s, result = Some s /\ s_names s = map fst nodes /\
      Forall2 (fun r r' => exists r1, like_rule any_ids r r1 /\ resolved (map fst nodes) r1 r') (map snd nodes) (s_rules s)
  | None => result = None
  end.

(** Two results are the same but for ids. *)
Definition same_but_ids (a b : option syntax) : Prop :=
  match a, b with
  | Some s, Some s' => s_names s = s_names s' /\ Forall2 (like_rule any_ids) (s_rules s) (s_rules s')
  | None, None => True
  | _, _ => False
  end.

(** ** Data that says the same *)

Definition called (name : str) (t : tree) : bool :=
  match t with
  | Tree n _ => str_eqb n name
  | Leaf (MString n _) | Leaf (MF64 n _) | Leaf (MBool n _) => str_eqb n name
  | Leaf _ => false
  end.

(** The kinds of rules that pass over what they do not know, with the names they know. *)
Definition known : list (str * list str) :=
  [ (s2l "sequence", [s2l "rule"]);
    (s2l "select", [s2l "rule"]);
    (s2l "until_any_or_whitespace", [s2l "any_characters"; s2l "optional"; s2l "property"]);
    (s2l "until_any", [s2l "any_characters"; s2l "optional"; s2l "property"]);
    (s2l "tag", [s2l "text"; s2l "not"; s2l "inverted"; s2l "property"]);
    (s2l "text", [s2l "allow_empty"; s2l "property"]);
    (s2l "number", [s2l "underscore"; s2l "property"]);
    (s2l "reference", [s2l "name"; s2l "property"]);
    (s2l "separated_by", [s2l "optional"; s2l "allow_trail"; s2l "by"; s2l "rule"]);
    (s2l "repeat", [s2l "rule"; s2l "optional"]) ].

(** The items of one name are the same, in the same order. *)
Definition same_items (names : list str) (ks ks' : list tree) : Prop :=
  forall n, In n names -> filter (called n) ks = filter (called n) ks'.

(** Inside nodes and inside the rules of these kinds, items of different names may change places,
    and items of other names may be there or not. *)
Inductive rearranged : tree -> tree -> Prop :=
| re_same : forall t, rearranged t t
| re_trans : forall a b c, rearranged a b -> rearranged b c -> rearranged a c
| re_items : forall n ks ks', Forall2 rearranged ks ks' -> rearranged (Tree n ks) (Tree n ks')
| re_rule : forall p kind names ks ks', p = s2l "rule" \/ p = s2l "by" -> In (kind, names) known -> same_items names ks ks' ->
    rearranged (Tree p [Tree kind ks]) (Tree p [Tree kind ks'])
| re_node : forall ks ks', same_items [s2l "name"; s2l "rule"] ks ks' -> rearranged (Tree (s2l "node") ks) (Tree (s2l "node") ks').

(** A document with one node, and in it a rule of this kind with these items. *)
Definition one_rule (kind : str) (kids : list tree) : list tree :=
  [Tree (s2l "node") [Leaf (MString (s2l "name") (s2l "doc")); Tree (s2l "rule") [Tree kind kids]]].
