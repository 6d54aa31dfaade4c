(** C85: the number of an error leads to the rule in the text of the syntax. *)
From Coq Require Import Ascii String List NArith Bool Arith.
From Verif Require Import Base Ext Types HandlerModel LoadModel PegSpec DataSpec ApiSpec OptSpec JsonSpec ConvertSpec WriteSpec SyntaxSpec LoadSpec TextSpec
  ExtProofs JsonProofs2 TextProofs7 TextProofs8 Examples TextExamples WhereSpec WhereProofs.
Import ListNotations.
Local Open Scope string_scope.
Local Open Scope list_scope.
Local Open Scope nat_scope.

(** An error of parsing has a number, which is 1000 times the number of a node of the text
    plus the place of a rule of this node, counted from 1; and that rule has such errors.
    Otherwise there are no nodes, or the text goes on behind its expected end. *)
Theorem C85_place : forall E, ext_ok E -> string_literals_ok E -> no_slash_number E ->
  forall strings nodes text, document E strings nodes text -> Forall real_char text ->
  let names := map (fun n => fst (fst n)) nodes in
  let lo n := (f64_as_usize (snd (fst n)) * 1000)%N in
  Forall (fun n => (lo n + N.of_nat (length (rules_in_order (snd n))) <= usize_max)%N) nodes ->
  forall s ind data tokens rng e tokens', syntax_returns E text (inl s) ->
  parse_returns E s data tokens ind (Some (rng, e)) tokens' ->
  (e = NoRules /\ nodes = []) \/ e = ExpectedEnd \/
  exists n k x, In n nodes /\ error_number e = Some (lo n + 1 + N.of_nat k)%N /\
    nth_error (rules_in_order (snd n)) k = Some x /\ complains names x e.
Proof. exact error_place. Qed.
Print Assumptions C85_place.

(** "If you get an error #4003, then it was caused by a rule in the node starting with 4",
    namely the third, if the nodes have less than thousand rules and different numbers. *)
Theorem C85_node : forall E, ext_ok E -> string_literals_ok E -> no_slash_number E ->
  forall strings nodes text, document E strings nodes text -> Forall real_char text ->
  let names := map (fun n => fst (fst n)) nodes in
  let lo n := (f64_as_usize (snd (fst n)) * 1000)%N in
  Forall (fun n => (lo n + N.of_nat (length (rules_in_order (snd n))) <= usize_max)%N) nodes ->
  forall s ind data tokens rng e tokens' d, syntax_returns E text (inl s) ->
  parse_returns E s data tokens ind (Some (rng, e)) tokens' -> error_number e = Some d ->
  Forall (fun n => length (rules_in_order (snd n)) < 1000) nodes ->
  NoDup (map (fun n => f64_as_usize (snd (fst n))) nodes) ->
  exists n x, In n nodes /\ (forall n', In n' nodes -> (f64_as_usize (snd (fst n')) = d / 1000)%N <-> n' = n) /\
    (0 < d mod 1000)%N /\ nth_error (rules_in_order (snd n)) (N.to_nat (d mod 1000) - 1) = Some x /\ complains names x e.
Proof. exact error_node. Qed.
Print Assumptions C85_node.

(** The report that loading writes begins with this number. *)
Theorem C85_report : forall E, ext_ok E -> string_literals_ok E -> no_slash_number E ->
  forall strings nodes text, document E strings nodes text -> Forall real_char text ->
  let names := map (fun n => fst (fst n)) nodes in
  let lo n := (f64_as_usize (snd (fst n)) * 1000)%N in
  Forall (fun n => (lo n + N.of_nat (length (rules_in_order (snd n))) <= usize_max)%N) nodes ->
  forall data w, loads E (Some text) (Some data) (Aborted w) ->
  starts_with w (s2l "Error No rules are specified") \/ starts_with w (s2l "Error Expected end") \/
  exists n k x e, In n nodes /\ starts_with w (s2l "Error #" ++ fmt_N (lo n + 1 + N.of_nat k) ++ s2l ", ") /\
    nth_error (rules_in_order (snd n)) k = Some x /\ complains names x e /\ starts_with w (s2l "Error " ++ fmt_error E e).
Proof. exact error_printed. Qed.
Print Assumptions C85_report.

(** A node with thousand rules: there is only node 1, but the number of the error is 2000. *)
Theorem C85_thousand_refuted : exists body s r tokens,
  let text := tx "1 doc = [" ++ body ++ tx "]" in
  syntax_returns std_ext text (inl s) /\ s_names s = [tx "doc"] /\ s_rules s = [r] /\
  parse_returns std_ext s (tx "b") [] indent_default (Some (Rng 0 0, ExpectedTag (tx "a") 2000)) tokens.
Proof.
  exists (concat (repeat (tx ".w? ") 999) ++ tx """a"""). do 3 eexists. cbv zeta.
  split; [exists 2100; vm_compute; reflexivity|]. split; [reflexivity|]. split; [reflexivity|].
  exists 2100. vm_compute. reflexivity.
Qed.
Print Assumptions C85_thousand_refuted.

(** [3 doc = ["a":!_p !doc]] and the text [aa]: #3003 is the third rule, [!doc]. *)
Example C85_example :
  (ext_ok std_ext /\ string_literals_ok std_ext /\ no_slash_number std_ext) /\
  document std_ext C44_strings C44_nodes C44_text /\ Forall real_char C44_text /\
  Forall (fun n => (f64_as_usize (snd (fst n)) * 1000 + N.of_nat (length (rules_in_order (snd n))) <= usize_max)%N) C44_nodes /\
  Forall (fun n => length (rules_in_order (snd n)) < 1000) C44_nodes /\
  NoDup (map (fun n : str * f64 * rule => f64_as_usize (snd (fst n))) C44_nodes) /\
  (exists s tokens, syntax_returns std_ext C44_text (inl s) /\
     parse_returns std_ext s (tx "aa") [] indent_default (Some (Rng 1 1, DidNotExpectTag (tx "a") 3003)) tokens) /\
  (exists w, loads std_ext (Some C44_text) (Some (tx "aa")) (Aborted w) /\ starts_with w (tx "Error #3003, ")) /\
  map (fun n : str * f64 * rule => nth_error (rules_in_order (snd n)) 2) C44_nodes = [Some (RNot (RNode (tx "doc") None None 0) 0)].
Proof.
  split; [split; [exact std_ext_ok|split; [exact std_string_literals|exact std_no_slash]]|].
  split; [exact C44_document|]. split; [apply real_check; reflexivity|].
  split; [constructor; [vm_compute; discriminate|constructor]|].
  split; [constructor; [apply Nat.ltb_lt; reflexivity|constructor]|].
  split; [constructor; [intros []|constructor]|].
  split; [do 2 eexists; split; [exists 300; vm_compute; reflexivity|exists 100; vm_compute; reflexivity]|].
  split; [|reflexivity]. eexists. split; [exists 300; vm_compute; reflexivity|]. eexists. vm_compute. reflexivity.
Qed.
