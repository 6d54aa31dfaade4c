(** What conversion passes over, as ranges of the data. *)
From Coq Require Import Ascii String List NArith Bool Arith.
From Verif Require Import Base Ext Types DataSpec TreeSpec.
Import ListNotations.
Local Open Scope string_scope.
Local Open Scope list_scope.
Local Open Scope nat_scope.

(** Trees one after the other, the first at index [o] of the data. *)
Definition walk (f : nat -> tree -> list range) : nat -> list tree -> list range :=
  fix go (o : nat) (ts : list tree) : list range :=
  match ts with
  | [] => []
  | t :: ts' => f o t ++ go (o + length (flat t)) ts'
  end.

(** An item that is not used is passed over as a whole. *)
Definition unless (used : bool) (o : nat) (t : tree) : list range :=
  if used then [] else [Rng o (length (flat t))].

(** In a node of the kind, at index [o]. [sub] is what is passed over inside of a rule, which also
    happens in rules that turn out not to mean anything. *)
Definition passed_kind (ss : list (str * str)) (sub : nat -> tree -> list range) (kind : str) (o : nat) (kids : list tree)
  : list range :=
  let is s := str_eqb kind (s2l s) in
  let flag s k := is_some (flag_of (s2l s) k) in
  let text s k := is_some (text_of ss (s2l s) k) in
  let rule s k := is_some (rule_of ss (s2l s) k) in
  let inside s o k := if named (s2l s) k then sub o k else [] in
  let first o ks := match ks with k :: _ => inside "rule" o k | [] => [] end in
  if is "sequence" || is "select" then walk (fun o k => inside "rule" o k ++ unless (rule "rule" k) o k) (o + 1) kids
  else if is "until_any_or_whitespace" || is "until_any" then
    walk (fun o k => unless (text "any_characters" k || flag "optional" k || text "property" k) o k) (o + 1) kids
  else if is "tag" then
    walk (fun o k => unless (text "text" k || text "property" k || flag "not" k || flag "inverted" k) o k) (o + 1) kids
  else if is "text" then walk (fun o k => unless (flag "allow_empty" k || text "property" k) o k) (o + 1) kids
  else if is "number" then walk (fun o k => unless (flag "underscore" k || text "property" k) o k) (o + 1) kids
  else if is "reference" then
    walk (fun o k => unless (is_some (string_at (s2l "name") k) || text "property" k) o k) (o + 1) kids
  else if is "optional" || is "not" then first (o + 1) kids
  else if is "separated_by" then
    walk (fun o k => inside "by" o k ++ inside "rule" o k ++
                     unless (flag "optional" k || flag "allow_trail" k || rule "by" k || rule "rule" k) o k) (o + 1) kids
  else if is "lines" then
    match kids with
    | f :: ks => if flag "indent" f then first (o + 2) ks else first (o + 1) kids
    | [] => []
    end
  else if is "repeat" then
    walk (fun o k => inside "rule" o k ++ unless (rule "rule" k || flag "optional" k) o k) (o + 1) kids
  else [].

(** In a node that holds a rule: in its first item. *)
Fixpoint passed_rule (ss : list (str * str)) (o : nat) (t : tree) : list range :=
  match t with
  | Tree _ (Tree kind kids :: _) => passed_kind ss (passed_rule ss) kind (o + 1) kids
  | _ => []
  end.

Definition passed_node (ss : list (str * str)) (o : nat) (t : tree) : list range :=
  match t with
  | Tree n kids =>
    if str_eqb n (s2l "node") then
      walk (fun o k => (if named (s2l "rule") k then passed_rule ss o k else []) ++
              unless (is_some (number_at (s2l "id") k) || is_some (string_at (s2l "name") k) || is_some (rule_of ss (s2l "rule") k)) o k)
        (o + 1) kids
    else []
  | Leaf _ => []
  end.

(** Nodes up to the first that means nothing. *)
Fixpoint passed_nodes (ss : list (str * str)) (o : nat) (ts : list tree) : list range :=
  match ts with
  | [] => []
  | t :: ts' => passed_node ss o t ++ (if is_some (node_of ss t) then passed_nodes ss (o + length (flat t)) ts' else [])
  end.

(** The whole data: strings, then nodes. *)
Fixpoint passed_data (ss : list (str * str)) (o : nat) (ts : list tree) : list range :=
  match ts with
  | t :: ts' =>
    match string_of t with
    | Some d => passed_data (ss ++ [d]) (o + length (flat t)) ts'
    | None => passed_nodes ss o ts
    end
  | [] => []
  end.

(** The strings that the data defines. *)
Fixpoint strings_of (ts : list tree) : list (str * str) :=
  match ts with
  | t :: ts' => match string_of t with Some d => d :: strings_of ts' | None => [] end
  | [] => []
  end.
