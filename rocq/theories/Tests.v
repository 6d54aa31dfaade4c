(** The repository's unit and integration tests, replayed on the model with [std_ext].
    They validate the model; they are not properties. *)
From Coq Require Import Ascii String List NArith ZArith Bool Arith SpecFloat.
From Verif Require Import Base Ext Types ParseModel OptimizeModel ConvertModel HandlerModel
  JsonModel SearchModel BootstrapRules LibModel Assets.
Import ListNotations.
Local Open Scope string_scope.
Local Open Scope list_scope.

Definition t := s2l.
Definition num (n : N) : f64 := std_decimal false n 0%Z.
Definition val := t "val".

(** Runs one rule on a text at an offset, with no tokens and default indentation. *)
Definition run (r : rule) (text : str) (o : nat) :=
  match parse_rule std_ext 100 [] r [] 0 (RT text o) indent_default with
  | Done (res, toks, _) => Some (res, toks)
  | _ => None
  end.

(** Only the result. *)
Definition run_res (r : rule) (text : str) (o : nat) := option_map fst (run r text o).

(** ** src/meta_rules/lines.rs *)

Example lines_fail : run_res (RLines (RNumber false None 1) false 0) (t "
1
2

3


""error""
4
        ") 0 = Some (POk (Rng 0 10) 0 (Some (Rng 10 0, ExpectedNumber 1))).
Proof. vm_compute. reflexivity. Qed.

Example lines_fails_same_line :
  run_res (RLines (RSequence [RNumber false (Some val) 1; RWhitespace true 2] 1) false 0) (t "
1
2

3 4

5
 ") 0 = Some (PErr (Rng 8 0, ExpectedNewLine 0)).
Proof. vm_compute. reflexivity. Qed.

Example lines_success : run_res (RLines (RNumber false (Some val) 1) false 0) (t "
1
2

3


4
 ") 0 = Some (POk (Rng 0 13) 4 None).
Proof. vm_compute. reflexivity. Qed.

Example lines_sequence :
  parse std_ext 100
    (syntax_push syntax_new []
       (RSequence [RLines (RNumber true (Some (t "num")) 2) false 1;
                   RLines (RText false (Some (t "tex")) 4) false 3] 0)) (t "
1
2
3
""one""
""two""
""three""
        ") [] =
  Done (None, [(Rng 1 1, MF64 (t "num") (num 1)); (Rng 3 1, MF64 (t "num") (num 2));
               (Rng 5 1, MF64 (t "num") (num 3)); (Rng 7 5, MString (t "tex") (t "one"));
               (Rng 13 5, MString (t "tex") (t "two"));
               (Rng 19 7, MString (t "tex") (t "three"))]).
Proof. vm_compute. reflexivity. Qed.

Example lines_indent_success : run_res (RLines (RNumber false (Some val) 1) true 0) (t "
1
2

3


4
 ") 0 = Some (POk (Rng 0 13) 4 None).
Proof. vm_compute. reflexivity. Qed.

Example lines_indent_1_2 : run_res (RLines (RNumber false (Some val) 1) true 0) (t "
1
2
 3
4
 ") 0 = Some (POk (Rng 0 5) 2 None).
Proof. vm_compute. reflexivity. Qed.

Example lines_indent_align : run_res (RLines (RNumber false (Some val) 1) true 0) (t "
    1
    2
") 0 = Some (POk (Rng 0 13) 2 None).
Proof. vm_compute. reflexivity. Qed.

Example lines_indent_align_tabs : run_res (RLines (RNumber false (Some val) 1) true 0)
  ([newline; tab] ++ t "1
    2
") 0 = Some (POk (Rng 0 10) 2 None).
Proof. vm_compute. reflexivity. Qed.

Example lines_indent_align_tabs2 : run_res (RLines (RNumber false (Some val) 1) true 0)
  (t "
    1
" ++ [tab] ++ t "2
") 0 = Some (POk (Rng 0 10) 2 None).
Proof. vm_compute. reflexivity. Qed.

(** ** src/meta_rules/mod.rs, node.rs, number.rs, optional.rs, repeat.rs, select.rs *)

Example no_rules : parse std_ext 1 syntax_new [] [] = Done (Some (Rng 0 0, NoRules), []).
Proof. reflexivity. Qed.

Definition foo := t "foo".
Definition node_ref_syntax : syntax :=
  update_refs
    (syntax_push
       (syntax_push syntax_new foo
          (RSequence [RNumber false (Some (t "num")) 2;
                      ROptional (RSequence [RWhitespace false 3;
                                            RNode foo (Some foo) None 3] 4) 3] 1))
       [] (RNode foo (Some foo) None 0)).

Example node_ref :
  omap (fun x => (fst x, map snd (snd x))) (parse std_ext 100 node_ref_syntax (t "1 2 3") []) =
  Done (None, [StartNode foo; MF64 (t "num") (num 1); StartNode foo; MF64 (t "num") (num 2);
               StartNode foo; MF64 (t "num") (num 3); EndNode foo; EndNode foo; EndNode foo]).
Proof. vm_compute. reflexivity. Qed.

Example number_expected :
  run_res (RNumber false None 0) (t "foo") 0 = Some (PErr (Rng 0 0, ExpectedNumber 0)).
Proof. vm_compute. reflexivity. Qed.

Example number_successful :
  let text := t "foo 1 1.1 10e1 10.0E1 10_000" in
  run_res (RNumber true None 0) (skipn 4 text) 4 = Some (POk (Rng 4 1) 0 None) /\
  run_res (RNumber true None 0) (skipn 6 text) 6 = Some (POk (Rng 6 3) 0 None) /\
  run_res (RNumber true None 0) (skipn 10 text) 10 = Some (POk (Rng 10 4) 0 None) /\
  run_res (RNumber true None 0) (skipn 22 text) 22 = Some (POk (Rng 22 6) 0 None) /\
  run (RNumber false (Some val) 0) (skipn 15 text) 15 =
    Some (POk (Rng 15 6) 1 None, [(Rng 15 6, MF64 val (num 100))]).
Proof. vm_compute. repeat split. Qed.

Example optional_fail_but_continue :
  run (ROptional (RSequence [RText true None 2; RNumber false (Some (t "num")) 3] 1) 0)
    (t "2") 0 =
  Some (POk (Rng 0 0) 0 (Some (Rng 0 0, ExpectedText 2)), []).
Proof. vm_compute. reflexivity. Qed.

Definition par_a := RTag (t "(a)") false false None 1.

Example repeat_fail :
  run_res (RRepeat par_a false 0) (t "[a][a][a]") 0 =
  Some (PErr (Rng 0 0, ExpectedTag (t "(a)") 1)).
Proof. vm_compute. reflexivity. Qed.

Example repeat_success :
  run_res (RRepeat par_a false 0) (t "(a)(a)(a)") 0 =
  Some (POk (Rng 0 9) 0 (Some (Rng 9 0, ExpectedTag (t "(a)") 1))).
Proof. vm_compute. reflexivity. Qed.

Example select_invalid_rule :
  exists m i ts, parse std_ext 100 (syntax_push syntax_new [] (RSelect [] 0)) [] [] =
  Done (Some (Rng 0 0, InvalidRule m i), ts).
Proof. vm_compute. eauto. Qed.

Example select_fail_first :
  parse std_ext 100
    (syntax_push syntax_new []
       (RSelect [RText true None 1; RNumber false (Some (t "num")) 2] 0)) (t "2") [] =
  Done (None, [(Rng 0 1, MF64 (t "num") (num 2))]).
Proof. vm_compute. reflexivity. Qed.

(** ** src/meta_rules/separate_by.rs *)

Definition comma := RTag (t ",") false false None 2.
Definition sep_arg p := RUntilAnyOrWs (t ",)") false p 1.
Definition arg := t "arg".

Example separate_by_required :
  run_res (RSeparateBy (sep_arg None) comma false false 0) (skipn 4 (t "foo()")) 4 =
  Some (PErr (Rng 4 0, ExpectedSomething 1)).
Proof. vm_compute. reflexivity. Qed.

Example separate_by_optional :
  run_res (RSeparateBy (sep_arg None) comma true false 0) (skipn 4 (t "foo()")) 4 =
  Some (POk (Rng 4 0) 0 (Some (Rng 4 0, ExpectedSomething 1))).
Proof. vm_compute. reflexivity. Qed.

Example separate_by_disallow_trail :
  run_res (RSeparateBy (sep_arg (Some arg)) comma true false 0) (skipn 4 (t "foo(a,b,c,)")) 4 =
  Some (PErr (Rng 10 0, ExpectedSomething 1)).
Proof. vm_compute. reflexivity. Qed.

Example separate_by_allow_trail :
  omap (fun x => (fst (fst x), map snd (snd (fst x))))
    (parse_rule std_ext 100 [] (RSeparateBy (sep_arg (Some arg)) comma true true 0) [] 0
       (RT (skipn 4 (t "foo(a,b,c,)")) 4) indent_default) =
  Done (POk (Rng 4 6) 3 (Some (Rng 10 0, ExpectedSomething 1)),
        [MString arg (t "a"); MString arg (t "b"); MString arg (t "c")]).
Proof. vm_compute. reflexivity. Qed.

Example separate_by_successful :
  omap (fun x => (fst (fst x), map snd (snd (fst x))))
    (parse_rule std_ext 100 [] (RSeparateBy (sep_arg (Some arg)) comma true false 0) [] 0
       (RT (skipn 4 (t "foo(a,b,c)")) 4) indent_default) =
  Done (POk (Rng 4 5) 3 (Some (Rng 9 0, ExpectedTag (t ",") 2)),
        [MString arg (t "a"); MString arg (t "b"); MString arg (t "c")]).
Proof. vm_compute. reflexivity. Qed.

Example separate_by_nested :
  omap (fun x => (fst (fst x), map snd (snd (fst x))))
    (parse_rule std_ext 100 []
       (RSeparateBy
          (RSeparateBy (RUntilAnyOrWs (t ",;") false (Some arg) 2)
             (RTag (t ",") false false None 3) false true 1)
          (RTag (t ";") false false None 4) false true 0) [] 0
       (RT (t "a,b,c;d,e,f;") 0) indent_default) =
  Done (POk (Rng 0 12) 6 (Some (Rng 12 0, ExpectedSomething 2)),
        map (fun s => MString arg (t s)) ["a"; "b"; "c"; "d"; "e"; "f"]).
Proof. vm_compute. reflexivity. Qed.

(** ** src/meta_rules/tag.rs, text.rs, until_any.rs, whitespace.rs *)

Example tag_expected :
  run_res (RTag (t "(") false false None 0) (t ")") 0 =
  Some (PErr (Rng 0 0, ExpectedTag (t "(") 0)).
Proof. vm_compute. reflexivity. Qed.

Example tag_did_not_expect :
  run_res (RTag (t ")") true false None 0) (t ")") 0 =
  Some (PErr (Rng 0 1, DidNotExpectTag (t ")") 0)).
Proof. vm_compute. reflexivity. Qed.

Example tag_successful :
  let text := t "fn foo()" in
  run (RTag (t "fn ") false false None 0) text 0 = Some (POk (Rng 0 3) 0 None, []) /\
  run (RTag (t "(") false false (Some arg) 0) (skipn 6 text) 6 =
    Some (POk (Rng 6 1) 1 None, [(Rng 6 1, MBool arg true)]) /\
  run (RTag (t "(") false true (Some arg) 0) (skipn 6 text) 6 =
    Some (POk (Rng 6 1) 1 None, [(Rng 6 1, MBool arg false)]).
Proof. vm_compute. repeat split. Qed.

Example text_expected :
  run_res (RText true None 0) (t "23") 0 = Some (PErr (Rng 0 0, ExpectedText 0)).
Proof. vm_compute. reflexivity. Qed.

Example text_empty :
  run_res (RText false None 0) (t """""") 0 = Some (PErr (Rng 0 2, EmptyTextNotAllowed 0)).
Proof. vm_compute. reflexivity. Qed.

Example text_successful :
  run (RText true (Some foo) 0) (t """hello""") 4 =
  Some (POk (Rng 4 7) 1 None, [(Rng 4 7, MString foo (t "hello"))]).
Proof. vm_compute. reflexivity. Qed.

Example until_any_required :
  run_res (RUntilAny (t "(") false None 0) (t "()") 3 =
  Some (PErr (Rng 3 0, ExpectedSomething 0)).
Proof. vm_compute. reflexivity. Qed.

Example until_any_successful :
  run (RUntilAny (t "(") false (Some foo) 0) (t "foo()") 3 =
  Some (POk (Rng 3 3) 1 None, [(Rng 3 3, MString foo (t "foo"))]).
Proof. vm_compute. reflexivity. Qed.

Example until_any_or_whitespace_required :
  run_res (RUntilAnyOrWs (t "(") false None 0) (t "()") 3 =
  Some (PErr (Rng 3 0, ExpectedSomething 0)).
Proof. vm_compute. reflexivity. Qed.

Example until_any_or_whitespace_successful :
  run (RUntilAnyOrWs (t "(") false (Some foo) 0) (t "foo()") 3 =
  Some (POk (Rng 3 3) 1 None, [(Rng 3 3, MString foo (t "foo"))]).
Proof. vm_compute. reflexivity. Qed.

Example whitespace_optional :
  run_res (RWhitespace true 0) (t "a,b, c") 0 = Some (POk (Rng 0 0) 0 None) /\
  run_res (RWhitespace true 0) (t " c") 4 = Some (POk (Rng 4 1) 0 None).
Proof. vm_compute. repeat split. Qed.

Example whitespace_required :
  run_res (RWhitespace false 0) (t "   b,c") 2 = Some (POk (Rng 2 3) 0 None) /\
  run_res (RWhitespace false 0) (t "c") 7 = Some (PErr (Rng 7 0, ExpectedWhitespace 0)).
Proof. vm_compute. repeat split. Qed.

(** ** src/json.rs *)

Definition r0 := Rng 0 0.
Definition xyz : list tok :=
  [(r0, MF64 (t "x") (num 1)); (r0, MF64 (t "y") (num 2)); (r0, MF64 (t "z") (num 3))].
Definition pos := t "pos".

Example json_numbers : json_write std_ext xyz = Done (t """x"":1,
""y"":2,
""z"":3
").
Proof. vm_compute. reflexivity. Qed.

Example json_node :
  json_write std_ext ((r0, StartNode pos) :: xyz ++ [(r0, EndNode pos)]) = Done (t """pos"":{
 ""x"":1,
 ""y"":2,
 ""z"":3
}
").
Proof. vm_compute. reflexivity. Qed.

Example json_node2 :
  let n := [(r0, StartNode pos); (r0, MF64 (t "x") (num 1)); (r0, EndNode pos)] in
  json_write std_ext (n ++ n) = Done (t """pos"":{
 ""x"":1
},
""pos"":{
 ""x"":1
}
").
Proof. vm_compute. reflexivity. Qed.

Example json_write_string :
  write_string [10; 13; 9]%N = t """\n\r\t""".
Proof. reflexivity. Qed.

(** ** src/optimize.rs *)

Definition names (l : list string) : list rule :=
  map (fun n => RTag (t n) false false None 0) l.

Definition table_of (l : list (nat * nat)) : list nat :=
  map (fun i => match find (fun p => Nat.eqb (fst p) i) l with
                | Some (_, v) => v
                | None => 255
                end) (seq 0 256).

Example optimize_test_1 :
  unique_table_from_select 10 [] (names ["John"; "Peter"]) =
  Done (table_of [(74, 0); (80, 1)], 2).
Proof. vm_compute. reflexivity. Qed.

Example optimize_test_2 :
  unique_table_from_select 10 [] (names ["John"; "Peter"; "Carl"; "Johnathan"]) =
  Done (table_of [(67, 2); (74, 0); (80, 1)], 3).
Proof. vm_compute. reflexivity. Qed.

Example optimize_test_empty : unique_table_from_select 10 [] [] = Done (table_of [], 0).
Proof. vm_compute. reflexivity. Qed.

(** Reads a syntax, and a document with it. *)
Definition doc (rules text : str) : option (parse_result * list metadata) :=
  match lib_syntax std_ext 400 rules with
  | Done (inl s) =>
    match parse std_ext 400 s text [] with
    | Done (r, ts) => Some (r, map snd ts)
    | _ => None
    end
  | _ => None
  end.

Example optimize_test_type : doc (t "
            100 type = {
                ""f64"":""f64""
                [""["" type:""arr"" ""]""]
                ""thr"":""thr_any""
            }
        ") (t "[f64]") =
  Some (None, [StartNode (t "arr"); MBool (t "f64") true; EndNode (t "arr")]).
Proof. vm_compute. reflexivity. Qed.

(** ** tests/lib.rs *)

Definition hello_doc := t "
        1 say_hi = [""hi"" .w? {""James"":""james"" ""Peter"":""peter""} ""!""]
        2 document = say_hi
    ".

Example url_in_multiline_comments :
  doc (t "
        /* this is an url http://www.piston.rs */" ++ hello_doc) (t "hi James!") =
  Some (None, [MBool (t "james") true]).
Proof. vm_compute. reflexivity. Qed.

Example star_in_multiline_comments :
  doc (t "
        /* this is a comment with **** and some **** */" ++ hello_doc) (t "hi James!") =
  Some (None, [MBool (t "james") true]).
Proof. vm_compute. reflexivity. Qed.

Example nested_multiline_comments :
  doc (t "
        /* this is a nested comment /* hey I think /* this */ works */ */" ++ hello_doc)
    (t "hi James!") =
  Some (None, [MBool (t "james") true]).
Proof. vm_compute. reflexivity. Qed.

Example nested_multiline_comments_fail :
  exists p i, lib_syntax std_ext 400 (t "
        /* this is a nested comment /* hey I think /* this works, no? */ */" ++ hello_doc) =
  Done (inr (p, ExpectedTag (t "*/") i)).
Proof. vm_compute. eauto. Qed.

Definition not_rules := t "0 doc = [![{""hi"" ""hello""} .w!] ""there""]".

Example not_rule_pass : doc not_rules (t "there") = Some (None, []).
Proof. vm_compute. reflexivity. Qed.

Example not_rule_stop :
  exists p i ts, doc not_rules (t "hi there") = Some (Some (p, DidNotExpectTag (t "hi ") i), ts).
Proof. vm_compute. eauto. Qed.

(** ** src/search/src/lib.rs *)

Definition search_doc (rules text : string) : list tok :=
  match lib_syntax std_ext 400 (t rules) with
  | Done (inl s) =>
    match parse std_ext 400 s (t text) [] with
    | Done (None, ts) => ts
    | _ => []
    end
  | _ => []
  end.

Example search_for_string :
  let s := search_new (search_doc
    "0 document = .r?([..""""!:""name"" .w? .$:""val"" .w?])" "a 1 b 2") in
  for_string (fun s => fst (search_f64 s (t "val"))) s (t "name") (t "a") = inl (num 1) /\
  for_string (fun s => fst (search_f64 s (t "val"))) s (t "name") (t "b") = inl (num 2) /\
  (exists e, for_string (fun s => fst (search_f64 s (t "val"))) s (t "name") (t "c") = inr e) /\
  for_f64 (fun s => fst (search_string s (t "name"))) s (t "val") (num 1) = inl (t "b").
Proof. vm_compute. repeat split. eauto. Qed.

Example search_for_bool :
  let s := search_new (search_doc
    "0 document = .r?([..""""!:""name"" .w? {""true"":""val"" ""false"":!""val""} .w?])"
    "a true b false") in
  for_bool (fun s => fst (search_string s (t "name"))) s (t "val") true = inl (t "b").
Proof. vm_compute. repeat split. Qed.

Definition proposition := t "proposition".

Example search_for_end_node :
  let s := search_new (search_doc
    "0 proposition = {""true"":""val"" ""false"":!""val""}
     0 document = .r?([proposition:""proposition"" .w?])" "true false") in
  for_end_node (fun s => fst (search_bool (snd (search_node s proposition)) (t "val")))
    (snd (search_node s proposition)) proposition = inl false.
Proof. vm_compute. repeat split. Qed.

(** ** examples/*.rs *)

Example example_indent :
  omap (fun x => (fst x, map snd (snd x)))
    (match lib_syntax std_ext 400 (t "
        2 node = [.$:""num"" .l+(node:""node"")]
        1 document = [.w? node:""node"" .w?]
    ") with
     | Done (inl s) => parse std_ext 400 s (t "
1
 2
  3
  4
 5
  6
    ") []
     | _ => OutOfFuel
     end) =
  let n := t "node" in
  let v k := MF64 (t "num") (num k) in
  Done (None, [StartNode n; v 1%N; StartNode n; v 2%N; StartNode n; v 3%N; EndNode n;
               StartNode n; v 4%N; EndNode n; EndNode n; StartNode n; v 5%N; StartNode n;
               v 6%N; EndNode n; EndNode n; EndNode n]).
Proof. vm_compute. reflexivity. Qed.

Example example_neg_match :
  doc (t "1 document = [!""hi"":""hi_did_not_occured"" ...""""?]") (t "hello!") =
  Some (None, [MBool (t "hi_did_not_occured") true]).
Proof. vm_compute. reflexivity. Qed.

Example example_key_value :
  doc (t "
        0 document = .l({
            [.w? ""#"" ...""\n""?]
            [.w? ..""=""!:""key"" .w? ""="" .w? {
                .$_:""number""
                {""true"":""bool"" ""false"":!""bool""}
                .t?:""string""
                ..""""!:""value""
            } .w?]
        })") (t "
        # A monster
        age = 250
        strength = 200
        name = ""Big Dragon""
        violent = true
    ") =
  Some (None, [MString (t "key") (t "age"); MF64 (t "number") (num 250);
               MString (t "key") (t "strength"); MF64 (t "number") (num 200);
               MString (t "key") (t "name"); MString (t "string") (t "Big Dragon");
               MString (t "key") (t "violent"); MBool (t "bool") true]).
Proof. vm_compute. reflexivity. Qed.
