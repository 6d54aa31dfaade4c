(** Extending syntaxes. *)
From Coq Require Import Ascii String List NArith Bool Arith Lia.
From Verif Require Import Base Ext Types ParseModel OptimizeModel PegSpec DataSpec ApiSpec OptSpec OptPublic ExtProofs PegFacts ParseProofs
  ParsePublic TotalSpec TotalProofs TotalCheck ShapeSpec GrammarSpec GrammarProofs GrammarCheck GrammarPublic OccursProofs AtEnd FasterPublic ExtendSpec ExtendProofs Examples.
Import ListNotations.
Local Open Scope string_scope.
Local Open Scope list_scope.
Local Open Scope nat_scope.

Theorem extended_optimized E : ext_ok E -> strings_end E -> forall s s' s'', without_lines s -> extends_syntax s s' ->
  valid s' -> well_formed s' -> clear E s' -> optimize_returns s' s'' -> tails_fail_at_end E s' ->
  forall r, start_rule s r -> forall text ind ind', Forall real_char text -> columns_fit ind' text -> forall tokens tokens' new,
  parse_returns E s text tokens ind None (tokens ++ new) ->
  exists new', parse_returns E s'' text tokens' ind' None (tokens' ++ new') /\ map snd new' = map snd new.
Proof.
  intros HE Hs s s' s'' Hl Hx Hv Hw Hc Ho Ht r Hr text ind ind' Hreal Hf tokens tokens' new H.
  destruct (extended_keeps E HE Hs s s' Hl Hx Hv Hw Hc r Hr text ind ind' Hf tokens tokens' new H) as (new' & Hn & Hm).
  exists new'. split; [|exact Hm]. apply (optimize_accepts E HE s' s'' Ho Ht text tokens' ind' Hreal). exact Hn.
Qed.

(** ** JSON values with more *)

(** [0 tuple = ["(" .w? .s!.(["," .w?] [value .w?]) ")"]], trailing commas in arrays, ["undefined"], and a last [";"]. *)
Definition json_more : syntax := Syn
  [RSequence [t (tx "(") 1; w 2;
     RSeparateBy (RSequence [RNode (tx "value") None (Some 3) 3; w 4] 5) (RSequence [t (tx ",") 6; w 7] 8) false true 9; t (tx ")") 10] 11;
   RSequence [t (tx "[") 1; w 2;
     RSeparateBy (RSequence [RNode (tx "value") None (Some 3) 3; w 4] 5) (RSequence [t (tx ",") 6; w 7] 8) true true 9; t (tx "]") 10] 11;
   RSequence [t (tx "{") 101; w 102;
     RSeparateBy (RSequence [RText true (Some (tx "key")) 103; w 104; t (tx ":") 105; w 106; RNode (tx "value") None (Some 3) 107; w 108] 109)
       (RSequence [t (tx ",") 110; w 111] 112) true false 113; t (tx "}") 114] 115;
   RSelect [RNode (tx "tuple") (Some (tx "tuple")) (Some 0) 200; RNode (tx "array") (Some (tx "array")) (Some 1) 201;
     RNode (tx "object") (Some (tx "object")) (Some 2) 202;
     RText true (Some (tx "str")) 203; RNumber false (Some (tx "num")) 204; RTag (tx "undefined") false false None 209;
     RTag (tx "true") false false (Some (tx "bool")) 205; RTag (tx "false") false true (Some (tx "bool")) 206;
     RTag (tx "null") false false (Some (tx "null")) 207] 208;
   RSequence [w 301; RNode (tx "value") None (Some 3) 302; w 303; ROptional (RSequence [t (tx ";") 304; w 305] 306) 307] 308]
  [tx "tuple"; tx "array"; tx "object"; tx "value"; tx "document"].

Ltac ext := repeat first
  [ match goal with |- omissible _ => constructor end
  | match goal with |- incl _ _ => intros ? ?; assumption end
  | match goal with |- _ = true -> _ = true => (intros; reflexivity) || (intros; assumption) end
  | match goal with |- extends_all _ (?r :: _) (?r' :: _) => apply ex_cons end
  | match goal with |- extends_all _ [] [] => apply ex_nil end
  | match goal with |- extends_all _ [] (_ :: _) => apply ex_more end
  | match goal with |- extends _ _ _ => apply ex_kind end
  | match goal with |- loosens _ (RNode _ _ (Some ?i) _) _ => apply (lo_node S) end
  | match goal with |- loosens _ _ _ => constructor end ].

Lemma json_extended : extends_syntax json_syntax json_more.
Proof.
  assert (Hall : Forall2 (extends S) (s_rules json_syntax) (tl (s_rules json_more))).
  { unfold json_syntax, json_more, json_rules. cbn [s_rules tl].
    apply Forall2_cons; [ext|]. apply Forall2_cons; [ext|]. apply Forall2_cons; [|apply Forall2_cons; [ext|constructor]].
    apply ex_kind. apply lo_select.
    repeat match goal with |- extends_each _ (?r :: _) _ => first
      [ match r with RNode ?a ?b (Some ?i) ?c => apply ex_one with (r' := RNode a b (Some (S i)) c) end
      | apply ex_one with (r' := r) ]; [ext|cbn; tauto|] end.
    apply ex_none. }
  exists S. split.
  - intros i r Hi. change (nth_error (s_rules json_more) (S i)) with (nth_error (tl (s_rules json_more)) i).
    revert i Hi. induction Hall as [|a b l l' Hab _ IH]; intros [|i] Hi; try discriminate.
    + injection Hi as <-. exists b. split; [reflexivity|exact Hab].
    + apply IH. exact Hi.
  - intros r [a Ha]. change (s_rules json_more) with (hd (RNot (w 0) 0) (s_rules json_more) :: tl (s_rules json_more)).
    rewrite Ha in Hall. apply Forall2_app_inv_l in Hall as (b & c & _ & Hc & He). inversion Hc as [|? r' ? nil_ Hr Hnil]; subst. inversion Hnil; subst.
    exists r'. split; [|exact Hr]. exists (hd (RNot (w 0) 0) (s_rules json_more) :: b).
    change (s_rules json_more) with (hd (RNot (w 0) 0) (s_rules json_more) :: tl (s_rules json_more)) at 1. rewrite He. reflexivity.
Qed.

Lemma json_more_clear : valid json_more /\ well_formed json_more /\ clear std_ext json_more.
Proof.
  split; [apply validb_spec; vm_compute; reflexivity|]. split; [apply well_formedb_spec; vm_compute; reflexivity|].
  apply (clearb_spec std_ext number_chars 40 _ std_numbers). vm_compute. reflexivity.
Qed.

(** ** Where the next character does not decide *)

Definition tag (c : string) (id : debug_id) : rule := RTag (tx c) false false None id.

(** [[.r?({"a" "c"}) "b"]], and an alternative at the end: [[.r?({"a" "c" "b"}) "b"]]. *)
Definition narrow_rule : rule := RSequence [RRepeat (RSelect [tag "a" 1; tag "c" 5] 6) true 2; tag "b" 3] 4.
Definition wider_rule : rule := RSequence [RRepeat (RSelect [tag "a" 1; tag "c" 5; tag "b" 7] 6) true 2; tag "b" 3] 4.
Definition narrow : syntax := Syn [narrow_rule] [tx "doc"].
Definition wider : syntax := Syn [wider_rule] [tx "doc"].

Lemma wider_extends : extends_syntax narrow wider.
Proof.
  exists (fun i => i).
  assert (H : extends (fun i => i) narrow_rule wider_rule).
  { apply ex_kind. apply lo_sequence. apply ex_cons; [|apply ex_cons; [apply ex_kind; apply lo_tag|apply ex_nil]].
    apply ex_kind. apply lo_repeat; [|auto]. apply ex_kind. apply lo_select.
    apply ex_one with (r' := tag "a" 1); [apply ex_kind; apply lo_tag|cbn; tauto|].
    apply ex_one with (r' := tag "c" 5); [apply ex_kind; apply lo_tag|cbn; tauto|]. apply ex_none. }
  split.
  - intros [|i] r Hi; [injection Hi as <-; eexists; split; [reflexivity|exact H]|]. destruct i; discriminate.
  - intros r [a Ha]. change (s_rules narrow) with ([] ++ s_rules narrow) in Ha. apply app_inj_tail in Ha as [_ <-].
    eexists. split; [exists []; reflexivity|exact H].
Qed.

Lemma wider_lost : exists s s' text new e tokens, extends_syntax s s' /\ without_lines s /\ valid s /\ well_formed s /\ valid s' /\ well_formed s' /\ clear std_ext s /\
  parse_returns std_ext s text [] indent_default None new /\ parse_returns std_ext s' text [] indent_default (Some e) tokens.
Proof.
  assert (Hc : clear std_ext narrow) by (apply (clearb_spec std_ext number_chars 40 _ std_numbers); vm_compute; reflexivity).
  do 2 eexists. exists (tx "ab"). do 3 eexists. split; [exact wider_extends|]. split; [exact (clear_no_lines std_ext _ Hc)|].
  split; [apply validb_spec; vm_compute; reflexivity|]. split; [apply well_formedb_spec; vm_compute; reflexivity|].
  split; [apply validb_spec; vm_compute; reflexivity|]. split; [apply well_formedb_spec; vm_compute; reflexivity|].
  split; [exact Hc|]. split; exists 30; vm_compute; reflexivity.
Qed.

Lemma json_more_reads : exists new, parse_returns std_ext json_syntax json_text [] indent_default None ([] ++ new) /\ map snd new = json_data /\
  exists e tokens tokens' s'', parse_returns std_ext json_syntax (tx "[(1,), undefined,];") [] indent_default (Some e) tokens /\
  parse_returns std_ext json_more (tx "[(1,), undefined,];") [] indent_default None tokens' /\
  optimize_returns json_more s'' /\ tails_fail_at_end std_ext json_more.
Proof.
  eexists. split; [exists 100; vm_compute; reflexivity|]. split; [vm_compute; reflexivity|].
  do 4 eexists. split; [exists 100; vm_compute; reflexivity|]. split; [exists 100; vm_compute; reflexivity|].
  split; [exists 100; vm_compute; reflexivity|]. apply (good_tails_check std_ext 100 _ std_ext_ok). vm_compute. reflexivity.
Qed.

Lemma json_without_lines : without_lines json_syntax.
Proof. exact (clear_no_lines std_ext _ (proj2 (proj2 json_clear))). Qed.
