(** Property theorems: the order of alternatives. *)
From Coq Require Import Ascii String List NArith Bool Arith.
From Verif Require Import Base Ext Types ParseModel PegSpec RuleSpec ApiSpec OrderSpec OrderProofs Examples.
Import ListNotations.
Local Open Scope string_scope.
Local Open Scope list_scope.
Local Open Scope nat_scope.

(** ** C94: alternatives that begin differently may be put in any order. *)

(** A rule runs as before, also with indented lines. *)
Theorem C94_rule : forall E, ext_ok E -> forall s s', Forall2 (reordered E (s_rules s)) (s_rules s) (s_rules s') ->
  forall r r', reordered E (s_rules s) r r' -> forall ind p t v ind',
  runs E (s_rules s) r ind p t v ind' <-> runs E (s_rules s') r' ind p t v ind'.
Proof. exact order_runs. Qed.
Print Assumptions C94_rule.

(** The same texts are accepted, with the same data, and the same texts are rejected. *)
Theorem C94_parse : forall E, ext_ok E -> forall s s', reordered_syntax E s s' -> forall text tokens ind,
  (forall tokens', parse_returns E s text tokens ind None tokens' <-> parse_returns E s' text tokens ind None tokens') /\
  ((exists e tokens', parse_returns E s text tokens ind (Some e) tokens') <->
     exists e tokens', parse_returns E s' text tokens ind (Some e) tokens').
Proof. exact order_parse. Qed.
Print Assumptions C94_parse.

(** Alternatives that may begin alike may not be swapped: [{"a" "ab"}] and [{"ab" "a"}] on [ab]. *)
Theorem C94_alike_refuted : exists a b text,
  parse_returns std_ext (Syn [RSelect [b; a] 3%N] [tx "doc"]) text [] indent_default None [] /\
  exists e tokens', parse_returns std_ext (Syn [RSelect [a; b] 3%N] [tx "doc"]) text [] indent_default (Some e) tokens'.
Proof.
  exists (RTag (tx "a") false false None 1%N), (RTag (tx "ab") false false None 2%N), (tx "ab").
  split; [exists 20; reflexivity|]. eexists _, _. exists 20. reflexivity.
Qed.
Print Assumptions C94_alike_refuted.

(** The error that is reported need not be the same: [{"a" "b"}] and [{"b" "a"}] on [x]. *)
Theorem C94_error_refuted : exists s s', reordered_syntax std_ext s s' /\ exists text e e' tokens tokens',
  parse_returns std_ext s text [] indent_default (Some e) tokens /\
  parse_returns std_ext s' text [] indent_default (Some e') tokens' /\ e <> e'.
Proof. exact order_error_refuted. Qed.
Print Assumptions C94_error_refuted.

(** [list = ["[" .s?(",", value:"item") "]"]  value = {.$:"num" .t?:"text" ["x" .l+(list)] list}], with all four alternatives at
    another place. *)
Example C94_example : reordered_syntax std_ext order_one order_two /\
  parse_returns std_ext order_two (tx "[""b"",[]]") [] indent_default None
    [(Rng 1 0, StartNode (tx "item")); (Rng 1 3, MString (tx "text") (tx "b")); (Rng 1 3, EndNode (tx "item"));
     (Rng 5 0, StartNode (tx "item")); (Rng 5 2, EndNode (tx "item"))].
Proof. split; [exact order_reordered|]. exists 60. vm_compute. reflexivity. Qed.
