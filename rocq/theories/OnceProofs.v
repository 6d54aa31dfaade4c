(** Rules as the built-in rules write them: like [WriteSpec], with no text told twice. *)
From Coq Require Import Ascii String List NArith Bool Arith.
From Verif Require Import Base Ext Types ConvertSpec WriteSpec.
Import ListNotations.
Local Open Scope string_scope.
Local Open Scope list_scope.
Local Open Scope nat_scope.

Definition text_names (fs : list field) : list str :=
  flat_map (fun f => match f with Text p _ => [p] | _ => [] end) fs.

(** No text is told twice. *)
Definition once (fs : list field) : Prop := NoDup (text_names fs).

Section Once.
  Variable ss : list (str * str).

  Inductive ubody : N -> list tok -> rule -> N -> Prop :=
  | u_whitespace : forall lo d r b,
      node_of (s2l "whitespace") [(r, MBool (s2l "optional") b)] d ->
      ubody lo d (RWhitespace b (lo + 1)) (lo + 1)
  | u_tag : forall lo d fs inner text,
      once fs ->
      fields ss [s2l "text"; s2l "property"] [s2l "not"; s2l "inverted"] [] [] fs inner ->
      last_text (s2l "text") fs = Some text ->
      node_of (s2l "tag") inner d ->
      ubody lo d (RTag text (value_or false (last_flag (s2l "not") fs))
                      (value_or false (last_flag (s2l "inverted") fs))
                      (last_text (s2l "property") fs) (lo + 1)) (lo + 1)
  | u_until_any : forall lo d fs inner any,
      once fs ->
      fields ss [s2l "any_characters"; s2l "property"] [s2l "optional"] [] [] fs inner ->
      last_text (s2l "any_characters") fs = Some any ->
      node_of (s2l "until_any") inner d ->
      ubody lo d (RUntilAny any (value_or false (last_flag (s2l "optional") fs))
                      (last_text (s2l "property") fs) (lo + 1)) (lo + 1)
  | u_until_any_or_ws : forall lo d fs inner any,
      once fs ->
      fields ss [s2l "any_characters"; s2l "property"] [s2l "optional"] [] [] fs inner ->
      last_text (s2l "any_characters") fs = Some any ->
      node_of (s2l "until_any_or_whitespace") inner d ->
      ubody lo d (RUntilAnyOrWs any (value_or false (last_flag (s2l "optional") fs))
                      (last_text (s2l "property") fs) (lo + 1)) (lo + 1)
  | u_text : forall lo d fs inner,
      once fs ->
      fields ss [s2l "property"] [s2l "allow_empty"] [] [] fs inner ->
      node_of (s2l "text") inner d ->
      ubody lo d (RText (value_or true (last_flag (s2l "allow_empty") fs))
                      (last_text (s2l "property") fs) (lo + 1)) (lo + 1)
  | u_number : forall lo d fs inner,
      once fs ->
      fields ss [s2l "property"] [s2l "underscore"] [] [] fs inner ->
      node_of (s2l "number") inner d ->
      ubody lo d (RNumber (value_or false (last_flag (s2l "underscore") fs))
                      (last_text (s2l "property") fs) (lo + 1)) (lo + 1)
  | u_reference : forall lo d fs inner name,
      once fs ->
      fields ss [s2l "property"] [] [s2l "name"] [] fs inner ->
      last_name (s2l "name") fs = Some name ->
      node_of (s2l "reference") inner d ->
      ubody lo d (RNode name (last_text (s2l "property") fs) None (lo + 1)) (lo + 1)
  | u_sequence : forall lo d inner args hi,
      uargs lo inner args hi -> node_of (s2l "sequence") inner d ->
      ubody lo d (RSequence args (hi + 1)) (hi + 1)
  | u_select : forall lo d inner args hi,
      uargs lo inner args hi -> node_of (s2l "select") inner d ->
      ubody lo d (RSelect args (hi + 1)) (hi + 1)
  | u_optional : forall lo d inner r hi,
      urule (s2l "rule") lo inner r hi -> node_of (s2l "optional") inner d ->
      ubody lo d (ROptional r (hi + 1)) (hi + 1)
  | u_not : forall lo d inner r hi,
      urule (s2l "rule") lo inner r hi -> node_of (s2l "not") inner d ->
      ubody lo d (RNot r (hi + 1)) (hi + 1)
  | u_lines : forall lo d inner r hi,
      urule (s2l "rule") lo inner r hi -> node_of (s2l "lines") inner d ->
      ubody lo d (RLines r false (hi + 1)) (hi + 1)
  | u_lines_indent : forall lo d inner r hi q b,
      urule (s2l "rule") lo inner r hi ->
      node_of (s2l "lines") ((q, MBool (s2l "indent") b) :: inner) d ->
      ubody lo d (RLines r b (hi + 1)) (hi + 1)
  | u_repeat : forall lo d fs before inner r hi b,
      fields ss [] [s2l "optional"] [] [] fs before ->
      urule (s2l "rule") lo inner r hi ->
      last_flag (s2l "optional") fs = Some b ->
      node_of (s2l "repeat") (before ++ inner) d ->
      ubody lo d (RRepeat r b (hi + 1)) (hi + 1)
  | u_separated_by : forall lo d fs before by_d rule_d by_ r mid hi,
      fields ss [] [s2l "optional"; s2l "allow_trail"] [] [] fs before ->
      urule (s2l "by") lo by_d by_ mid -> urule (s2l "rule") mid rule_d r hi ->
      node_of (s2l "separated_by") (before ++ by_d ++ rule_d) d ->
      ubody lo d (RSeparateBy r by_ (value_or true (last_flag (s2l "optional") fs))
        (value_or true (last_flag (s2l "allow_trail") fs)) (hi + 1)) (hi + 1)
  with urule : str -> N -> list tok -> rule -> N -> Prop :=
  | u_rule : forall p lo inner d r hi,
      ubody lo inner r hi -> node_of p inner d -> urule p lo d r hi
  with uargs : N -> list tok -> list rule -> N -> Prop :=
  | u_no_args : forall lo, uargs lo [] [] lo
  | u_arg : forall lo d r mid ds rs hi,
      urule (s2l "rule") lo d r mid -> uargs mid ds rs hi ->
      uargs lo (d ++ ds) (r :: rs) hi.

  Inductive unode : list tok -> str -> rule -> Prop :=
  | u_node : forall d fs before inner name r hi k,
      fields ss [] [] [s2l "name"] [s2l "id"] fs before ->
      urule (s2l "rule") (k * 1000) inner r hi ->
      last_name (s2l "name") fs = Some name ->
      k = match last_num (s2l "id") fs with Some x => f64_as_usize x | None => 0%N end ->
      node_of (s2l "node") (before ++ inner) d ->
      unode d name r.

  Scheme ubody_ind' := Minimality for ubody Sort Prop
    with urule_ind' := Minimality for urule Sort Prop
    with uargs_ind' := Minimality for uargs Sort Prop.
  Combined Scheme once_ind from ubody_ind', urule_ind', uargs_ind'.

  Lemma no_fields a b c d : fields ss a b c d [] [].
  Proof. split; [constructor|]. exists []. split; [reflexivity|constructor]. Qed.

  (** It is a special case. *)
  Lemma once_write :
    (forall lo d r hi, ubody lo d r hi -> wbody ss lo d r hi) /\
    (forall p lo d r hi, urule p lo d r hi -> wrule ss p lo d r hi) /\
    (forall lo d rs hi, uargs lo d rs hi -> wargs ss lo d rs hi).
  Proof.
    apply once_ind; intros; try (econstructor; eassumption).
    - eapply (w_repeat ss lo d fs []) with (before := before) (after := []); try eassumption;
        [apply no_fields|rewrite app_nil_r; assumption|rewrite app_nil_r; assumption].
    - assert (H5 := w_separated_by ss lo d fs [] [] before by_d [] rule_d [] by_ r mid hi H (no_fields _ _ _ _) (no_fields _ _ _ _) H1 H3).
      cbn [app] in H5. rewrite !app_nil_r in H5. exact (H5 H4).
  Qed.

  Lemma once_node d n r : unode d n r -> wnode ss d n r.
  Proof.
    intros [d' fs before inner name r' hi k H1 H2 H3 H4 H5].
    eapply (w_node ss d' fs []) with (before := before) (after := []);
      [exact H1|apply once_write; exact H2|apply no_fields|rewrite app_nil_r; exact H3|exact H4|rewrite app_nil_r; exact H5].
  Qed.
End Once.
