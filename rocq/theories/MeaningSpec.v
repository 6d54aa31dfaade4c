(** What the texts of the meta language mean, also where the name of a string is not defined;
    independent of how they are read. *)
From Coq Require Import Ascii String List NArith Bool Arith.
From Verif Require Import Base Ext Types PegSpec JsonSpec WriteSpec TextSpec SurfaceSpec.
Import ListNotations.
Local Open Scope string_scope.
Local Open Scope list_scope.
Local Open Scope nat_scope.

(** What the name of a string stands for: the text of the first string of the name, or
    nothing. *)
Definition stands_for (ss : list (str * str)) (n : str) (o : option str) : Prop :=
  match o with
  | Some v => defined ss n v
  | None => ~ In n (map fst ss)
  end.

(** What is kept of a list of rules. *)
Definition kept (o : option rule) : list rule := match o with Some r => [r] | None => [] end.

Section Meaning.
  Variable E : ext.
  Variable ss : list (str * str).

  Inductive text_means (allow_empty : bool) : option str -> str -> Prop :=
  | means_quoted : forall v t, literal E v t -> allow_empty = true \/ length t <> 2 ->
      text_means allow_empty (Some v) t
  | means_name : forall o n, is_name n -> stands_for ss n o -> text_means allow_empty o (s2l "_" ++ n).

  (** A property whose name is not defined is no property. *)
  Inductive prop_means : option str -> str -> Prop :=
  | means_no_prop : prop_means None []
  | means_prop : forall o t, text_means false o t -> prop_means o (s2l ":" ++ t).

  (** [rule_means o t]: the text [t] means the rule [o], or there is no rule because a name
      is not defined. A rule is lost when its own text is lost, or its only sub rule. *)
  Inductive rule_means : option rule -> str -> Prop :=
  | means_whitespace : forall b id, rule_means (Some (RWhitespace b id)) (s2l ".w" ++ mark b)
  | means_until_ws : forall any o p id t tp, text_means true any t -> prop_means p tp ->
      rule_means (option_map (fun v => RUntilAnyOrWs v o p id) any) (s2l ".." ++ t ++ mark o ++ tp)
  | means_until : forall any o p id t tp, text_means true any t -> prop_means p tp ->
      rule_means (option_map (fun v => RUntilAny v o p id) any) (s2l "..." ++ t ++ mark o ++ tp)
  | means_lines : forall r i id w1 t w2, Forall white w1 -> rule_means r t -> Forall white w2 ->
      rule_means (option_map (fun r => RLines r i id) r)
        (s2l ".l" ++ sign i (s2l "+") ++ s2l "(" ++ w1 ++ t ++ w2 ++ s2l ")")
  | means_repeat : forall r o id t, rule_means r t ->
      rule_means (option_map (fun r => RRepeat r o id) r) (s2l ".r" ++ mark o ++ s2l "(" ++ t ++ s2l ")")
  | means_number : forall u p id tp, prop_means p tp ->
      rule_means (Some (RNumber u p id)) (s2l ".$" ++ sign u (s2l "_") ++ tp)
  | means_text : forall b p id tp, prop_means p tp ->
      rule_means (Some (RText b p id)) (s2l ".t" ++ mark b ++ tp)
  | means_reference : forall name p id tp, is_rule_name name -> prop_means p tp ->
      rule_means (Some (RNode name p None id)) (name ++ tp)
  | means_sequence : forall args id w t, Forall white w -> rules_mean args t ->
      rule_means (Some (RSequence args id)) (s2l "[" ++ w ++ t ++ s2l "]")
  | means_select : forall args id w t, Forall white w -> rules_mean args t ->
      rule_means (Some (RSelect args id)) (s2l "{" ++ w ++ t ++ s2l "}")
  | means_separate_by : forall r by_ o dot id w1 tb w2 tr w3,
      Forall white w1 -> rule_means by_ tb -> Forall white w2 -> w2 <> [] -> rule_means r tr ->
      Forall white w3 ->
      rule_means
        (match r, by_ with Some r, Some by_ => Some (RSeparateBy r by_ o true id) | _, _ => None end)
        (s2l ".s" ++ mark o ++ sign dot (s2l ".") ++ s2l "(" ++ w1 ++ tb ++ w2 ++ tr ++ w3 ++ s2l ")")
  | means_tag : forall v n id t, text_means false v t ->
      rule_means (option_map (fun v => RTag v n false None id) v) (sign n (s2l "!") ++ t)
  | means_tag_prop : forall v n i p id t tp, text_means false v t -> text_means false p tp ->
      rule_means (option_map (fun v => RTag v n i p id) v)
        (sign n (s2l "!") ++ t ++ s2l ":" ++ sign i (s2l "!") ++ tp)
  | means_optional : forall r id t, rule_means r t ->
      rule_means (option_map (fun r => ROptional r id) r) (s2l "?" ++ t)
  | means_not : forall r id t, rule_means r t -> (forall r', r = Some r' -> ~ positive_tag r') ->
      rule_means (option_map (fun r => RNot r id) r) (s2l "!" ++ t)
  (** Of rules one after the other, the lost ones are left out. *)
  with rules_mean : list rule -> str -> Prop :=
  | means_last : forall r t w, rule_means r t -> Forall white w -> rules_mean (kept r) (t ++ w)
  | means_more : forall r t w rs ts, rule_means r t -> Forall white w -> w <> [] -> rules_mean rs ts ->
      rules_mean (kept r ++ rs) (t ++ w ++ ts).

  Scheme rule_means_ind' := Minimality for rule_means Sort Prop
  with rules_mean_ind' := Minimality for rules_mean Sort Prop.
  Combined Scheme means_mutind from rule_means_ind', rules_mean_ind'.

  (** The strings and the nodes (name, number and rule) of an entry. *)
  Inductive entry_means : list (str * str) -> list (str * f64 * option rule) -> str -> Prop :=
  | means_string : forall n v t w1 w2, is_name n -> literal E v t -> Forall white w1 -> Forall white w2 ->
      entry_means [(n, v)] [] (s2l "_" ++ n ++ s2l ":" ++ w1 ++ t ++ w2)
  | means_node : forall x num n r w1 w2 w3 t w4,
      numeral E x num -> is_rule_name n -> rule_means r t ->
      Forall white w1 -> w1 <> [] -> Forall white w2 -> w2 <> [] -> Forall white w3 -> Forall white w4 ->
      entry_means [] [(n, x, r)] (num ++ w1 ++ n ++ w2 ++ s2l "=" ++ w3 ++ t ++ w4)
  | means_comment : forall t, entry_text E (literal E) any_string EComment t -> entry_means [] [] t.

  (** Entries on lines of their own, strings before nodes. *)
  Inductive entries_mean : list (str * str) -> list (str * f64 * option rule) -> str -> Prop :=
  | means_none : forall w, Forall white w -> entries_mean [] [] w
  | means_last_entry : forall w s n t, Forall white w -> entry_means s n t -> entries_mean s n (w ++ t)
  | means_more_entries : forall w s n t s' n' rest, Forall white w -> entry_means s n t ->
      entries_mean s' n' rest -> n = [] \/ s' = [] ->
      entries_mean (s ++ s') (n ++ n') (w ++ t ++ newline :: rest).
End Meaning.

(** The text means these strings and nodes; names of strings refer to the strings of the
    same text. *)
Definition means (E : ext) (strings : list (str * str)) (nodes : list (str * f64 * option rule))
  (text : str) : Prop := entries_mean E strings strings nodes text.

(** The same rule up to debug ids, or none in both cases. *)
Definition like_meaning (a b : option rule) : Prop :=
  match a, b with
  | Some r, Some r' => IdSpec.like_rule IdSpec.any_ids r r'
  | None, None => True
  | _, _ => False
  end.

(** There is room for the debug ids of a node with this number: they start at 1000 times the
    number, and there are not more of them than characters. *)
Definition within (text : str) (number : f64) : Prop :=
  (f64_as_usize number * 1000 + N.of_nat (length text) <= usize_max)%N.
