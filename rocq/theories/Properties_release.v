(** C83: an optimised build does the same, and where it does not. *)
From Coq Require Import Ascii String List NArith Bool Arith.
From Verif Require Import Base Ext Types ParseModel ConvertModel LibModel LoadModel JsonModel DataSpec ApiSpec IdSpec TotalSpec ConvertSpec
  SyntaxSpec LoadSpec JsonSpec ExtProofs TotalCheck SafeProofs SyntaxProofs SyntaxProofs2 JsonProofs3 Examples ReleaseConvert ReleaseModel ReleaseSpec
  ReleaseSafe ReleasePublic DataCheck.
Import ListNotations.
Local Open Scope string_scope.
Local Open Scope list_scope.
Local Open Scope nat_scope.

(** ** C83: an optimised build does what an ordinary build does, unless that one panics. *)

Theorem C83_parse : forall E s text tokens ind,
  (forall r t, parse_returns E s text tokens ind r t -> release_parses E s text tokens ind r t) /\
  (parse_diverges E s text tokens ind -> release_parse_diverges E s text tokens ind) /\
  (~ parse_panics E s text tokens ind -> ~ release_parse_panics E s text tokens ind /\
     forall r t, release_parses E s text tokens ind r t -> parse_returns E s text tokens ind r t).
Proof. exact release_parse_same. Qed.
Print Assumptions C83_parse.

(** With a valid syntax and columns below 2^32 there is no difference. *)
Theorem C83_valid : forall E s, valid s -> forall text tokens ind, columns_fit ind text -> forall r t,
  release_parses E s text tokens ind r t <-> parse_returns E s text tokens ind r t.
Proof. exact release_parse_valid. Qed.
Print Assumptions C83_valid.

(** With larger columns it still does not panic. *)
Theorem C83_never_panics : forall E s, valid s -> forall text tokens ind,
  Forall real_char text -> ~ release_parse_panics E s text tokens ind.
Proof. exact release_safe. Qed.
Print Assumptions C83_never_panics.

Definition C83_syntax : syntax := Syn [RLines (RTag (tx "a") false false None 0) true 0] [tx "doc"].
Definition C83_text : str := [tab; tab; 97%N].

Example C83_example :
  valid C83_syntax /\ columns_fit indent_default C83_text /\
  release_parses std_ext C83_syntax C83_text [] indent_default None [] /\
  release_parses std_ext ex_syntax (tx "(a") [] indent_default
    (fst (match parse_with_indent std_ext 50 ex_syntax (tx "(a") [] indent_default with Done p => p | _ => (None, []) end))
    (snd (match parse_with_indent std_ext 50 ex_syntax (tx "(a") [] indent_default with Done p => p | _ => (None, []) end)) /\
  fst (match parse_with_indent std_ext 50 ex_syntax (tx "(a") [] indent_default with Done p => p | _ => (None, []) end) <> None.
Proof.
  split; [apply validb_spec; reflexivity|]. split; [apply columns_fitb_spec; reflexivity|].
  split; [exists 20; vm_compute; reflexivity|]. split; [exists 50; vm_compute; reflexivity|]. vm_compute. discriminate.
Qed.

(** A column beyond 32 bits: the one panics, the other accepts. *)
Theorem C83_columns_refuted : exists s text ind, valid s /\ Forall real_char text /\
  parse_panics std_ext s text [] ind /\ release_parses std_ext s text [] ind None [].
Proof.
  exists C83_syntax, C83_text, (Ind 0 true u32_max).
  repeat split; [apply validb_spec; reflexivity|apply all_real; reflexivity|exists 20; reflexivity|exists 20; reflexivity].
Qed.
Print Assumptions C83_columns_refuted.

(** Conversion. *)
Theorem C83_convert : forall data ig,
  (forall r g, convert_returns data ig r g -> release_converts data ig r g) /\
  (convert_diverges data ig -> release_convert_diverges data ig) /\
  (~ convert_panics data ig -> ~ release_convert_panics data ig /\
     forall r g, release_converts data ig r g -> convert_returns data ig r g).
Proof. exact release_convert_same. Qed.
Print Assumptions C83_convert.

(** However large the numbers of the nodes are, conversion returns, *)
Theorem C83_convert_total : forall data ig, nested (map snd data) -> (N.of_nat (length data) <= usize_max)%N ->
  (exists result ig', release_converts data ig result ig') /\ ~ release_convert_panics data ig.
Proof. exact release_convert_total. Qed.
Print Assumptions C83_convert_total.

(** and the numbers bear on debug ids only. *)
Theorem C83_numbers : forall data data' ig result ig', Forall2 but_numbers data data' -> convert_returns data' ig result ig' ->
  exists result', release_converts data ig result' ig' /\ but_ids result' result.
Proof. exact release_numbers. Qed.
Print Assumptions C83_numbers.

Definition C83_large : str := tx "2305843009213693952 a = ""x""" ++ [newline] ++ tx "0 doc = [a a]".
Definition C83_small : str := tx "0000000000000000007 a = ""x""" ++ [newline] ++ tx "0 doc = [a a]".
Definition C83_data (text : str) : list tok :=
  match parse_with_indent std_ext 300 boot_computed text [] indent_default with Done (None, t) => t | _ => [] end.

Example C83_numbers_example :
  nested (map snd (C83_data C83_large)) /\ length (C83_data C83_large) = 29 /\ convert_panics (C83_data C83_large) [] /\
  Forall2 but_numbers (C83_data C83_large) (C83_data C83_small) /\
  exists s, convert_returns (C83_data C83_small) [] (Some s) [] /\ length (s_rules s) = 2.
Proof.
  split. { apply nestedb_spec. vm_compute. reflexivity. }
  split; [vm_compute; reflexivity|]. split; [exists 300; vm_compute; reflexivity|].
  split. { vm_compute. repeat (apply Forall2_cons; [split; reflexivity|]). apply Forall2_nil. }
  eexists. split; [exists 300; vm_compute; reflexivity|reflexivity].
Qed.

(** The numbers of two nodes may then give two rules the same debug id: here the tag of
    [a] and the first item of the sequence. *)
Theorem C83_ids_refuted : exists text x y, columns_fit indent_default text /\
  syntax_panics std_ext text /\
  release_syntax std_ext text (inl (Syn [RTag (tx "x") false false None 1; RSequence [RNode (tx "a") None (Some 0) 1; y] x] [tx "a"; tx "doc"])).
Proof.
  exists C83_large, 3%N, (RNode (tx "a") None (Some 0) 2).
  split; [apply columns_fitb_spec; reflexivity|]. split; exists 300; vm_compute; reflexivity.
Qed.
Print Assumptions C83_ids_refuted.

(** Data that closes a node which was not opened: the one panics, the other never returns. *)
Theorem C83_unopened_refuted : exists data, forall ig, convert_panics data ig /\ release_convert_diverges data ig.
Proof. exists unopened. exact (fun ig => conj (unopened_panics ig) (unopened_hangs ig)). Qed.
Print Assumptions C83_unopened_refuted.

(** Reading the rules of a syntax returns, whatever numbers it holds. *)
Theorem C83_reading : forall E, ext_ok E -> forall text, columns_fit indent_default text ->
  (forall tokens, text_data E text tokens -> (N.of_nat (length tokens) <= usize_max)%N) ->
  (exists result, release_reads E text result) /\ ~ release_reading_panics E text.
Proof. exact release_reading_total. Qed.
Print Assumptions C83_reading.

Theorem C83_syntax_same : forall E text result, syntax_returns E text result -> release_syntax E text result.
Proof. exact release_syntax_same. Qed.
Print Assumptions C83_syntax_same.

(** Loading a document. *)
Theorem C83_loads : forall E syntax_file data_file result,
  loads E syntax_file data_file result ->
  release_loads E syntax_file data_file result /\
  forall result', release_loads E syntax_file data_file result' -> result' = result.
Proof.
  exact (fun E sy da r H => conj (release_loads_same E sy da r H)
    (fun r' H' => release_loads_unique E sy da r' r H' (release_loads_same E sy da r H))).
Qed.
Print Assumptions C83_loads.

Example C83_reading_example :
  columns_fit indent_default C83_large /\ text_data std_ext C83_large (C83_data C83_large) /\
  reading_panics std_ext C83_large /\ (exists s, release_reads std_ext C83_large (inl s)).
Proof.
  split; [apply columns_fitb_spec; reflexivity|].
  split. { exists boot_computed. split; [exists 100; exact boot_optimized|exists 300; vm_compute; reflexivity]. }
  split; [exists 300; vm_compute; reflexivity|]. eexists. exists 300. vm_compute. reflexivity.
Qed.

(** Writing JSON: the same text, where the other panics an endless row of spaces. *)
Theorem C83_json : forall E data, (2 * N.of_nat (length data) <= u32_max)%N ->
  (forall text, json_write E data = Done text -> json_write_r E data = text) /\
  (over_closed (map snd data) -> (u32_max <= N.of_nat (length (json_write_r E data)))%N).
Proof.
  exact (fun E data H => conj (proj1 (release_json_same E data H))
    (fun Ho => proj2 (release_json_same E data H) (proj2 (json_write_panics E data) Ho))).
Qed.
Print Assumptions C83_json.

Example C83_json_example :
  json_write_r std_ext (C83_data C83_small) = match json_write std_ext (C83_data C83_small) with Done t => t | _ => [] end /\
  length (json_write_r std_ext (C83_data C83_small)) = 276 /\ over_closed [EndNode (tx "x"); StartNode (tx "x")].
Proof.
  split; [vm_compute; reflexivity|]. split; [vm_compute; reflexivity|].
  apply (json_write_panics std_ext [(Rng 0 0, EndNode (tx "x")); (Rng 0 0, StartNode (tx "x"))]). vm_compute. reflexivity.
Qed.
