(** C99: parts of a document may be read on their own. *)
From Coq Require Import Ascii String List NArith Bool Arith Lia.
From Verif Require Import Base Ext Types ParseModel OptimizeModel PegSpec DataSpec ApiSpec OptSpec ExtProofs PegFacts ParseProofs OptPublic
  ParsePublic TotalSpec TotalProofs TotalCheck ShapeSpec GrammarSpec GrammarProofs GrammarCheck GrammarPublic PlaceSpec PlaceProofs PlacePublic
  OccursProofs EditSpec EditProofs PartSpec PartProofs AtEnd Examples.
Import ListNotations.
Local Open Scope string_scope.
Local Open Scope list_scope.
Local Open Scope nat_scope.

Lemma part_start s i name reference id : start_rule (documents_of s i name reference id) (RNode reference None (Some i) id).
Proof. exists (s_rules s). reflexivity. Qed.

Lemma part_no_lines s i name reference id : without_lines s -> without_lines (documents_of s i name reference id).
Proof. intros H r indented d Ho. apply occurs_old in Ho as [Ho|Ho]; [exact (H _ _ _ Ho)|discriminate]. Qed.

(** Documents of the rule are what the rule generates. *)
Lemma part_places E s i name reference id r : valid s -> nth_error (s_rules s) i = Some r -> forall p x ts,
  places E (s_rules (documents_of s i name reference id)) (RNode reference None (Some i) id) p x ts <-> places E (s_rules s) r p x ts.
Proof.
  intros Hv Hi p x ts. assert (Hlt : i < length (s_rules s)) by (apply nth_error_Some; congruence). cbn [documents_of s_rules]. split.
  - intros H. inversion H as [| | | | | | | | | | | | |n pr j d r' p' x' ts' Hj Hp| | |]; subst. rewrite nth_error_app1 in Hj by exact Hlt.
    rewrite Hi in Hj. injection Hj as <-. cbn [token app]. rewrite app_nil_r.
    apply (proj1 (places_old E s Hv i reference id)) in Hp; [exact Hp|]. eapply target_occurs. exact Hi.
  - intros H. assert (Hm : places E (s_rules s ++ [RNode reference None (Some i) id]) (RNode reference None (Some i) id) p x ([] ++ ts ++ [])).
    { apply (at_node E _ reference None i id r p x ts); [rewrite nth_error_app1 by exact Hlt; exact Hi|].
      apply (proj1 (places_more_rules E s i reference id)). exact H. }
    rewrite app_nil_r in Hm. exact Hm.
Qed.

Theorem part_read E : ext_ok E -> strings_end E -> numbers_end E -> forall s, valid s -> well_formed s -> clear E s ->
  forall name i, names_rule s name i ->
  forall text tokens ind new before o inner n after, parse_returns E s text tokens ind None (tokens ++ new) -> node_at new before name o inner n after ->
  forall title reference id tokens' ind', columns_fit ind' (firstn n (skipn o text)) ->
  exists data, inner = moved_by o data /\
    parse_returns E (documents_of s i title reference id) (firstn n (skipn o text)) tokens' ind' None (tokens' ++ data).
Proof.
  intros HE Hs Hn s Hv Hw Hc name i Hname text tokens ind new before o inner n after H Hnode title reference id tokens' ind' Hf.
  destruct (replaced E HE Hs s Hv Hw Hc _ _ _ _ _ _ _ _ _ _ H Hnode) as (ref1 & i1 & id1 & r & A1 & A2 & A3 & _).
  rewrite (Hname _ _ _ A1) in A2. assert (Hlt : i < length (s_rules s)) by (apply nth_error_Some; congruence).
  destruct (proj1 (places_back E (s_rules s) o) _ _ _ _ A3 0 ltac:(lia)) as (data & -> & K). exists data. split; [reflexivity|].
  apply (clear_placed E HE Hs (documents_of s i title reference id) (part_valid s Hv i title reference id Hlt) (part_formed s Hv i title reference id Hlt Hw)
    (part_clear E s Hv i title reference id Hn Hc) _ (part_start s i title reference id) _ ind' Hf).
  apply (part_places E s i title reference id r Hv A2). exact K.
Qed.

Theorem part_reparsed E : ext_ok E -> strings_end E -> forall s, valid s -> well_formed s -> clear E s ->
  forall name i, names_rule s name i ->
  forall text tokens ind new before o inner n after, parse_returns E s text tokens ind None (tokens ++ new) -> node_at new before name o inner n after ->
  forall title reference id y tokens' ind' data, parse_returns E (documents_of s i title reference id) y tokens' ind' None (tokens' ++ data) ->
  columns_fit ind (edited o n y text) ->
  exists after', Forall2 (adjusted o n (length y)) after after' /\
    parse_returns E s (edited o n y text) tokens ind None
      (tokens ++ before ++ (Rng o 0, StartNode name) :: moved_by o data ++ (Rng o (length y), EndNode name) :: after').
Proof.
  intros HE Hs s Hv Hw Hc name i Hname text tokens ind new before o inner n after H Hnode title reference id y tokens' ind' data Hy Hf.
  destruct (replaced E HE Hs s Hv Hw Hc _ _ _ _ _ _ _ _ _ _ H Hnode) as (ref1 & i1 & id1 & r & A1 & A2 & _ & A4).
  rewrite (Hname _ _ _ A1) in A2. apply A4; [|exact Hf].
  pose proof (parse_placed E HE _ (part_no_lines s i title reference id (clear_no_lines E s Hc)) _ (part_start s i title reference id) _ _ _ _ Hy) as Hp.
  apply (part_places E s i title reference id r Hv A2) in Hp.
  pose proof (proj1 (places_moved E (s_rules s) o) _ _ _ _ Hp) as Hm. rewrite Nat.add_0_r in Hm. exact Hm.
Qed.

Theorem part_optimized E : ext_ok E -> strings_end E -> numbers_end E -> forall s, valid s -> well_formed s -> clear E s ->
  forall name i, names_rule s name i -> forall title reference id s1 s2,
  optimize_returns s s1 -> tails_fail_at_end E s ->
  optimize_returns (documents_of s i title reference id) s2 -> tails_fail_at_end E (documents_of s i title reference id) ->
  forall text tokens ind new before o inner n after, Forall real_char text ->
  parse_returns E s1 text tokens ind None (tokens ++ new) -> node_at new before name o inner n after ->
  (forall tokens' ind', columns_fit ind' (firstn n (skipn o text)) ->
   exists data, inner = moved_by o data /\ parse_returns E s2 (firstn n (skipn o text)) tokens' ind' None (tokens' ++ data)) /\
  (forall y tokens' ind' data, Forall real_char y -> parse_returns E s2 y tokens' ind' None (tokens' ++ data) -> columns_fit ind (edited o n y text) ->
   exists after', Forall2 (adjusted o n (length y)) after after' /\
     parse_returns E s1 (edited o n y text) tokens ind None
       (tokens ++ before ++ (Rng o 0, StartNode name) :: moved_by o data ++ (Rng o (length y), EndNode name) :: after')).
Proof.
  intros HE Hs Hn s Hv Hw Hc name i Hname title reference id s1 s2 O1 T1 O2 T2 text tokens ind new before o inner n after Hreal H Hnode.
  apply (optimize_accepts E HE s s1 O1 T1 text tokens ind Hreal) in H. split.
  - intros tokens' ind' Hf. destruct (part_read E HE Hs Hn s Hv Hw Hc name i Hname _ _ _ _ _ _ _ _ _ H Hnode title reference id tokens' ind' Hf) as (data & K1 & K2).
    exists data. split; [exact K1|]. apply (optimize_accepts E HE _ s2 O2 T2 _ tokens' ind' (proj1 Hf)). exact K2.
  - intros y tokens' ind' data Hry Hy Hf. apply (optimize_accepts E HE _ s2 O2 T2 _ tokens' ind' Hry) in Hy.
    destruct (part_reparsed E HE Hs s Hv Hw Hc name i Hname _ _ _ _ _ _ _ _ _ H Hnode title reference id _ _ _ _ Hy Hf) as (after' & K1 & K2).
    exists after'. split; [exact K1|]. apply (optimize_accepts E HE s s1 O1 T1 _ tokens ind (proj1 Hf)). exact K2.
Qed.

Lemma std_numbers_end : numbers_end std_ext.
Proof. intros underscore. apply (proj2 std_numbers). discriminate. Qed.

(** ** What it needs *)

(** [0 w = ["a" !!"b"]
     1 doc = [w:"w" "b"]] *)
Definition looks_ahead : syntax :=
  Syn [RSequence [t (tx "a") 1; RNot (RNot (t (tx "b") 2) 3) 4] 5; RSequence [RNode (tx "w") (Some (tx "w")) (Some 0) 6; t (tx "b") 7] 8] [tx "w"; tx "doc"].

Lemma no_lines_check s : forallb (all_sub (fun q => match q with RLines _ _ _ => false | _ => true end)) (s_rules s) = true -> without_lines s.
Proof. intros H r indented id Ho. apply (all_rules_spec _ _ H) in Ho. discriminate. Qed.

Lemma ahead_part : exists s name i text new before o inner n after e left_,
  valid s /\ well_formed s /\ without_lines s /\ names_rule s name i /\
  parse_returns std_ext s text [] indent_default None new /\ node_at new before name o inner n after /\
  parse_returns std_ext (documents_of s i (tx "part") (tx "w") 9) (firstn n (skipn o text)) [] indent_default (Some e) left_.
Proof.
  exists looks_ahead, (tx "w"), 0, (tx "ab"), [(Rng 0 0, StartNode (tx "w")); (Rng 0 1, EndNode (tx "w"))], [], 0, [], 1, []. eexists. eexists.
  split; [apply validb_spec; vm_compute; reflexivity|]. split; [apply well_formedb_spec; vm_compute; reflexivity|].
  split; [apply no_lines_check; reflexivity|]. split; [apply names_ruleb_spec; vm_compute; reflexivity|].
  split; [exists 50; vm_compute; reflexivity|]. split; [split; [reflexivity|constructor]|]. exists 50. vm_compute. reflexivity.
Qed.

Lemma unclear_part : exists s name i text new before o inner n after y data e left_,
  valid s /\ well_formed s /\ without_lines s /\ names_rule s name i /\
  parse_returns std_ext s text [] indent_default None new /\ node_at new before name o inner n after /\
  parse_returns std_ext (documents_of s i (tx "part") (tx "w") 9) y [] indent_default None data /\
  parse_returns std_ext s (edited o n y text) [] indent_default (Some e) left_.
Proof.
  exists unclear, (tx "w"), 0, (tx "abbc"), [(Rng 0 0, StartNode (tx "w")); (Rng 0 2, EndNode (tx "w"))], [], 0, [], 2, [].
  exists (tx "a"), []. eexists. eexists.
  split; [apply validb_spec; vm_compute; reflexivity|]. split; [apply well_formedb_spec; vm_compute; reflexivity|].
  split; [apply no_lines_check; reflexivity|]. split; [apply names_ruleb_spec; vm_compute; reflexivity|].
  split; [exists 50; vm_compute; reflexivity|]. split; [split; [reflexivity|constructor]|].
  split; [exists 50; vm_compute; reflexivity|]. exists 50. vm_compute. reflexivity.
Qed.

(** ** The arrays of a JSON document *)

Lemma json_part : exists one, let arrays := documents_of json_syntax 0 (tx "part") (tx "array") 900 in
  parse_returns std_ext json_syntax (tx "[1,[]]") [] indent_default None (target_data one) /\
  node_at (target_data one) [arr 0; (Rng 1 1, MF64 (tx "num") one)] (tx "array") 3 [] 2 [rra 0 6] /\
  parse_returns std_ext arrays (tx "[]") [] indent_default None [] /\
  parse_returns std_ext arrays (tx "[false]") [] indent_default None [(Rng 1 5, MBool (tx "bool") false)] /\
  parse_returns std_ext json_syntax (edited 3 2 (tx "[false]") (tx "[1,[]]")) [] indent_default None
    [arr 0; (Rng 1 1, MF64 (tx "num") one); arr 3; (Rng 4 5, MBool (tx "bool") false); rra 3 7; rra 0 11].
Proof.
  eexists. cbv zeta. split; [exists 200; vm_compute; reflexivity|]. split; [split; [reflexivity|constructor]|].
  split; [exists 200; vm_compute; reflexivity|]. split; [exists 200; vm_compute; reflexivity|]. exists 200. vm_compute. reflexivity.
Qed.

Lemma json_part_optimized : exists s1 s2, optimize_returns json_syntax s1 /\ tails_fail_at_end std_ext json_syntax /\
  optimize_returns (documents_of json_syntax 0 (tx "part") (tx "array") 900) s2 /\
  tails_fail_at_end std_ext (documents_of json_syntax 0 (tx "part") (tx "array") 900).
Proof.
  destruct json_optimized as (s1 & O1 & T1). exists s1. eexists. split; [exact O1|]. split; [exact T1|].
  split; [exists 100; vm_compute; reflexivity|]. apply (good_tails_check std_ext 100 _ std_ext_ok). vm_compute. reflexivity.
Qed.
