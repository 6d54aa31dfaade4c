(** Property theorems: which parsed data is written as valid JSON. *)
From Coq Require Import Ascii String List NArith Bool Arith.
From Verif Require Import Base Ext Types ParseModel PegSpec DataSpec ApiSpec JsonModel JsonSpec JsonProofs2 ExtProofs ValidSpec ValidProofs Examples.
Import ListNotations.
Local Open Scope string_scope.
Local Open Scope list_scope.
Local Open Scope nat_scope.

(** ** C73: which data is written as valid JSON. *)

(** Exactly the data whose strings and names have no control characters but line feed, return and tab, and
    whose numbers print as JSON numbers. *)
Theorem C73_exact : forall E toks out,
  nested (map snd toks) -> prints_words E (map snd toks) -> json_write E toks = Done out ->
  (written_valid out <-> strings_writable (map snd toks) /\ numbers_printable E (map snd toks)).
Proof. exact valid_exact. Qed.
Print Assumptions C73_exact.

(** From texts to documents: a text without other control characters and without backslashes, read with a
    syntax whose names have none either. *)
Theorem C73_parsed : forall E, ext_ok E -> plain_literals E -> forall s text ind toks out,
  parse_returns E s text [] ind None toks -> json_write E toks = Done out ->
  Forall writable text -> ~ In backslash text -> (forall name, gives_name s name -> Forall writable name) ->
  numbers_printable E (map snd toks) -> written_valid out.
Proof. exact parsed_valid. Qed.
Print Assumptions C73_parsed.

(** The assumption holds for the reconstruction of the crate [read_token]. *)
Theorem C73_plain : plain_literals std_ext.
Proof. exact std_plain_literals. Qed.
Print Assumptions C73_plain.

(** Finding: backslashes matter. The text ["\b"], which is JSON itself, is read and written as a document
    that is not JSON. *)
Theorem C73_printable_refuted : forall E, ext_ok E -> string_literals_ok E -> exists s text toks out,
  (forall name, gives_name s name -> Forall printable name) /\ Forall printable text /\
  parse_returns E s text [] indent_default None toks /\ json_write E toks = Done out /\ ~ written_valid out.
Proof. exact printable_invalid. Qed.
Print Assumptions C73_printable_refuted.

(** Finding: keys of an object may repeat; of two items with the same name most readers of JSON keep one. *)
Theorem C73_unique_keys_refuted : exists s text toks out v,
  parse_returns std_ext s text [] indent_default None toks /\ json_write std_ext toks = Done out /\
  valid_json v (open_brace :: out ++ [close_brace]) /\ repeats_key v.
Proof.
  exists (Syn [RRepeat (RTag (tx "a") false false (Some (tx "k")) 1) false 2] [tx "doc"]), (tx "aa").
  do 2 eexists. exists (JObject [(tx "k", JBool true); (tx "k", JBool true)]).
  split; [exists 10; vm_compute; reflexivity|]. split; [vm_compute; reflexivity|]. split.
  - apply (text_object _ _ _ (tx """k"":true," ++ [newline] ++ tx """k"":true" ++ [newline])).
    apply (members_more _ _ _ _ (tx """k"":true") _ ([newline] ++ tx """k"":true" ++ [newline])).
    + apply (member _ _ (tx "k") (tx "k") (JBool true) (tx "true") [] [] [] []); try constructor; try discriminate; constructor.
    + apply members_last. apply (member _ _ (tx "k") (tx "k") (JBool true) (tx "true") [newline] [] [] [newline]);
        repeat constructor; try discriminate; unfold json_ws; simpl; tauto.
  - eexists. split; [reflexivity|]. intros H. inversion H as [|x l Hx _]; subst. apply Hx. left. reflexivity.
Qed.
Print Assumptions C73_unique_keys_refuted.

(** A text with a line break and a quoted string. *)
Example C73_example :
  let s := Syn [RSequence [RUntilAnyOrWs [] false (Some (tx "key")) 1; RWhitespace false 2; RText false (Some (tx "v")) 3] 4] [tx "doc"] in
  let text := tx "name" ++ [newline] ++ tx """x""" in
  Forall writable text /\ ~ In backslash text /\ (forall name, gives_name s name -> Forall writable name) /\
  exists toks out, parse_returns std_ext s text [] indent_default None toks /\ json_write std_ext toks = Done out /\
    numbers_printable std_ext (map snd toks) /\ length toks = 2 /\ prints_words std_ext (map snd toks).
Proof.
  intros s text. split; [|split; [|split]].
  - unfold text. repeat (constructor; [first [left; discriminate|right; simpl; tauto]|]). constructor.
  - unfold text. simpl. intros H. repeat destruct H as [H|H]; try discriminate H. destruct H.
  - intros name (r & (top & [<-|[]] & Ho) & Hr).
    assert (Hw : forall w, forallb (N.leb 32) w = true -> Forall writable w).
    { intros w Hw. apply Forall_forall. intros c Hc. rewrite forallb_forall in Hw. left. apply N.leb_le. apply Hw. exact Hc. }
    inversion Ho as [|r' c Hc Hi]; subst; [discriminate Hr|].
    destruct Hc as [<-|[<-|[<-|[]]]]; inversion Hi as [|r' c Hc Hi']; subst; try (destruct Hc);
      cbn in Hr; try discriminate Hr; injection Hr as <-; apply Hw; reflexivity.
  - do 2 eexists. split; [exists 100; vm_compute; reflexivity|]. split; [vm_compute; reflexivity|].
    split; [|split; [reflexivity|]].
    + intros d x [<-|[<-|[]]] [].
    + intros d x [<-|[<-|[]]] [].
Qed.
