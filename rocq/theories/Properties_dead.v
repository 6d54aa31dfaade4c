(** Property theorems: alternatives that are never chosen. *)
From Coq Require Import Ascii String List NArith Bool Arith.
From Verif Require Import Base Ext Types ParseModel PegSpec DataSpec RuleSpec ApiSpec IdSpec TotalSpec LawSpec DeadSpec TotalCheck DeadProofs Examples.
Import ListNotations.
Local Open Scope string_scope.
Local Open Scope list_scope.
Local Open Scope nat_scope.

(** ** C93: alternatives that are never chosen may be dropped. *)

(** Where the earlier alternative fails, the covered one does not succeed. *)
Theorem C93_never : forall E s, no_indented_lines s -> forall c r, covers (s_rules s) c r -> occurs s c -> occurs s r ->
  forall ind p t ind1 n out ind2, runs E (s_rules s) c ind p t No ind1 -> runs E (s_rules s) r ind p t (Yes n out) ind2 -> False.
Proof. exact never_chosen. Qed.
Print Assumptions C93_never.

(** Dropping covered alternatives anywhere changes no result: the same texts are read with the same data, and the same
    texts are rejected. *)
Theorem C93_parse : forall E, ext_ok E -> forall s s', no_indented_lines s -> trimmed_syntax s s' -> forall text tokens ind,
  (forall tokens', parse_returns E s text tokens ind None tokens' -> parse_returns E s' text tokens ind None tokens') /\
  ((exists e tokens', parse_returns E s text tokens ind (Some e) tokens') ->
     exists e tokens', parse_returns E s' text tokens ind (Some e) tokens').
Proof. exact trim_parse. Qed.
Print Assumptions C93_parse.

(** If the syntax terminates, the other way around as well. *)
Theorem C93_same : forall E, ext_ok E -> forall s s', no_indented_lines s -> trimmed_syntax s s' -> valid s -> well_formed s ->
  forall text tokens ind, columns_fit ind text ->
  (forall tokens', parse_returns E s text tokens ind None tokens' <-> parse_returns E s' text tokens ind None tokens') /\
  ((exists e tokens', parse_returns E s text tokens ind (Some e) tokens') <->
     exists e tokens', parse_returns E s' text tokens ind (Some e) tokens').
Proof. exact trim_same_results. Qed.
Print Assumptions C93_same.

(** The error need not be the same. *)
Theorem C93_error_refuted : exists s s', no_indented_lines s /\ trimmed_syntax s s' /\ valid s /\ well_formed s /\
  exists text e e' tokens tokens', parse_returns std_ext s text [] indent_default (Some e) tokens /\
  parse_returns std_ext s' text [] indent_default (Some e') tokens' /\ e <> e'.
Proof. exact error_refuted. Qed.
Print Assumptions C93_error_refuted.

(** With indented lines it is false: even a second copy of an alternative may be chosen. *)
Theorem C93_indented_refuted : exists s s', trimmed_syntax s s' /\ exists text,
  parse_returns std_ext s text [] indent_default None [] /\
  exists e tokens', parse_returns std_ext s' text [] indent_default (Some e) tokens'.
Proof. exact block_refuted. Qed.
Print Assumptions C93_indented_refuted.

(** [item = ["a" ?.t?:"more"]  doc = .s?(",", {"a":"x" "ab":"y" item:"z" .t?:"t" .t!:"u"})]: the second, the third and the
    last alternative are never chosen. *)
Example C93_example : no_indented_lines dead_syntax /\ trimmed_syntax dead_syntax trim_syntax /\
  valid dead_syntax /\ well_formed dead_syntax /\
  parse_returns std_ext trim_syntax (tx "a,a") [] indent_default None [(Rng 0 1, MBool (tx "x") true); (Rng 2 1, MBool (tx "x") true)] /\
  exists e tokens', parse_returns std_ext dead_syntax (tx "ab") [] indent_default (Some e) tokens'.
Proof.
  split; [exact dead_flat|]. split; [exact dead_trimmed|]. split; [apply validb_spec; reflexivity|].
  split; [apply well_formedb_spec; reflexivity|]. split; [exists 40; reflexivity|]. eexists _, _. exists 40. reflexivity.
Qed.
