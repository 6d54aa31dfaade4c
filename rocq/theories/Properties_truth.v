(** Property theorems: what errors say. *)
From Coq Require Import Ascii String List NArith Bool Arith.
From Verif Require Import Base Ext Types PegSpec DataSpec ApiSpec SyntaxSpec TruthSpec TruthProofs Examples.
Import ListNotations.
Local Open Scope string_scope.
Local Open Scope list_scope.
Local Open Scope nat_scope.

(** ** C65: errors tell the truth. *)

(** If a text is not accepted, then there are no rules; or the end is missing, in front of
    which there is something; or the error is that of a rule that is used, with its debug id,
    and what it says of the text at its place is so: the tag is not there, there is no number,
    and so on. *)
Theorem C65_errors : forall E s ind text tokens rng e tokens',
  parse_returns E s text tokens ind (Some (rng, e)) tokens' ->
  (e = NoRules /\ rng = Rng 0 0 /\ s_rules s = []) \/
  (e = ExpectedEnd /\ r_len rng = 0 /\ r_off rng < length text) \/
  (exists r, used s r /\ explains E (s_rules s) text r rng e).
Proof. exact errors_true. Qed.
Print Assumptions C65_errors.

(** A number is missing behind the comma. *)
Definition C65_text : str := s2l "1 number = .$:""n""
2 pair = [number:""a"" "","" number:""b""]
3 doc = [pair ""."" ]".

Example C65_example : exists s tokens',
  syntax_returns std_ext C65_text (inl s) /\
  parse_returns std_ext s (s2l "1,x") [] indent_default (Some (Rng 2 0, ExpectedNumber 1001)) tokens' /\
  used s (RNumber false (Some (s2l "n")) 1001) /\
  explains std_ext (s_rules s) (s2l "1,x") (RNumber false (Some (s2l "n")) 1001) (Rng 2 0) (ExpectedNumber 1001).
Proof.
  do 2 eexists. split; [exists 300; vm_compute; reflexivity|].
  split; [exists 100; vm_compute; reflexivity|]. split.
  - match goal with |- used ?s _ =>
      assert (H : used s (nth 2 (s_rules s) (RWhitespace true 0))) by (apply used_start; exists (firstn 2 (s_rules s)); reflexivity)
    end.
    cbn [nth s_rules] in H.
    pose proof (used_part _ _ _ H (or_introl eq_refl)) as H1.
    pose proof (used_reference _ _ _ _ _ _ H1 eq_refl) as H2.
    pose proof (used_part _ _ _ H2 (or_introl eq_refl)) as H3.
    exact (used_reference _ _ _ _ _ _ H3 eq_refl).
  - apply says_number. reflexivity.
Qed.
