(** Rewriting the rules of a syntax. *)
From Coq Require Import Ascii String List NArith ZArith Bool Arith Lia.
From Verif Require Import Base Ext Types ParseModel DataSpec PegSpec RuleSpec ApiSpec LawSpec
  ExtProofs RuleProofs LawProofs Examples.
Import ListNotations.
Local Open Scope string_scope.
Local Open Scope list_scope.
Local Open Scope nat_scope.

(** ** C54: rules may be inlined, regrouped and simplified. *)

(** The two sides of a law have the same results at every position. *)
Theorem C54_rule : forall E refs r r', law refs r r' -> forall ind p s v ind',
  runs E refs r ind p s v ind' <-> runs E refs r' ind p s v ind'.
Proof. exact law_runs. Qed.
Print Assumptions C54_rule.

(** A syntax rewritten by the laws of the old syntax gives no other results than it: the same
    tokens, the same errors, or none because it does not terminate. *)
Theorem C54_rewritten : forall E, ext_ok E -> forall s s', Forall2 (law (s_rules s)) (s_rules s) (s_rules s') ->
  forall text tokens ind,
  (forall tokens', parse_returns E s' text tokens ind None tokens' -> parse_returns E s text tokens ind None tokens') /\
  (forall e, (exists tokens', parse_returns E s' text tokens ind (Some e) tokens') ->
     exists tokens', parse_returns E s text tokens ind (Some e) tokens').
Proof. exact law_parse. Qed.
Print Assumptions C54_rewritten.

(** If the laws of the new syntax lead back to the old one, the results are the same. *)
Theorem C54_equivalent : forall E s s', ext_ok E ->
  Forall2 (law (s_rules s)) (s_rules s) (s_rules s') ->
  Forall2 (law (s_rules s')) (s_rules s) (s_rules s') -> forall text tokens ind,
  (forall tokens', parse_returns E s' text tokens ind None tokens' <-> parse_returns E s text tokens ind None tokens') /\
  (forall e, (exists tokens', parse_returns E s' text tokens ind (Some e) tokens') <->
     exists tokens', parse_returns E s text tokens ind (Some e) tokens').
Proof. exact law_parse_both. Qed.
Print Assumptions C54_equivalent.

(** Replacing a rule by a reference to itself is an example of the former but not of the
    latter. *)
Theorem C54_equivalent_refuted : exists s s', Forall2 (law (s_rules s)) (s_rules s) (s_rules s') /\
  parse_returns std_ext s (tx "a") [] indent_default None [] /\
  parse_diverges std_ext s' (tx "a") [] indent_default.
Proof.
  exists (Syn [RTag (tx "a") false false None 1] [tx "doc"]), self_reference.
  split; [constructor; [apply law_sym, law_inline; reflexivity|constructor]|].
  split; [exists 5; reflexivity|apply self_reference_diverges].
Qed.
Print Assumptions C54_equivalent_refuted.

(** [item = ["(" num ")"]  doc = .r?([item {{.w! ?"x"} "y"}])], inlined, flattened and without
    the alternative that is never tried. *)
Example C54_example :
  let num := RNumber false (Some (tx "n")) 1 in
  let open := RTag (tx "(") false false None 2 in
  let close := RTag (tx ")") false false None 3 in
  let w := RWhitespace false 4 in
  let x := ROptional (RTag (tx "x") false false None 5) 6 in
  let y := RTag (tx "y") false false None 7 in
  let item := RSequence [open; num; close] 8 in
  let s := Syn [item; RRepeat (RSequence [RNode (tx "item") None (Some 0) 9; RSelect [RSelect [w; x] 10; y] 11] 12) true 13]
               [tx "item"; tx "doc"] in
  let s' := Syn [item; RRepeat (RSequence [open; num; close; RSelect [w; x] 11] 12) true 13] [tx "item"; tx "doc"] in
  Forall2 (law (s_rules s)) (s_rules s) (s_rules s') /\
  Forall2 (law (s_rules s')) (s_rules s) (s_rules s') /\
  parse_returns std_ext s (tx "(1)x(2)") [] indent_default None
    [(Rng 1 1, MF64 (tx "n") (SpecFloat.S754_finite false 4503599627370496%positive (-52)%Z));
     (Rng 5 1, MF64 (tx "n") (SpecFloat.S754_finite false 4503599627370496%positive (-51)%Z))].
Proof.
  intros num open close w x y item s s'.
  assert (H : forall refs, nth_error refs 0 = Some item ->
    law refs (RSequence [RNode (tx "item") None (Some 0) 9; RSelect [RSelect [w; x] 10; y] 11] 12)
      (RSequence [open; num; close; RSelect [w; x] 11] 12)).
  { intros refs H0.
    eapply law_trans; [apply (law_in_sequence refs (RNode (tx "item") None (Some 0) 9) item [] [RSelect [RSelect [w; x] 10; y] 11]), law_inline, H0|].
    eapply law_trans; [apply (law_sequence_flat refs [] [open; num; close] [RSelect [RSelect [w; x] 10; y] 11])|].
    apply (law_in_sequence refs (RSelect [RSelect [w; x] 10; y] 11) (RSelect [w; x] 11) [open; num; close] []).
    eapply law_trans; [apply (law_select_flat refs [] [w; x] [y]); discriminate|].
    apply (law_select_end refs [w] x [y]). apply cannot_fail_optional. }
  split; [|split].
  - constructor; [apply law_refl|]. constructor; [|constructor]. apply law_in_repeat, H. reflexivity.
  - constructor; [apply law_refl|]. constructor; [|constructor]. apply law_in_repeat, H. reflexivity.
  - exists 40. vm_compute. reflexivity.
Qed.
