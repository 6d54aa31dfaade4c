(** The texts that the examples hello_world.rs and neg_match.rs read, and what they print. *)
From Coq Require Import Ascii String List NArith Bool Arith.
From Verif Require Import Base Ext Types PegSpec Examples.
Import ListNotations.
Local Open Scope string_scope.
Local Open Scope list_scope.
Local Open Scope nat_scope.

(** examples/hello_world.rs:7-10. *)
Definition hello_rules : str := s2l "
        1 say_hi = [""hi"" .w? {""James"":""james"" ""Peter"":""peter""} ""!""]
        2 document = say_hi
    ".

(** A greeting of one of the two, with any white space in front of the name. *)
Inductive greeting : str -> metadata -> Prop :=
| greet_james : forall w, Forall white w ->
    greeting (s2l "hi" ++ w ++ s2l "James!") (MBool (s2l "james") true)
| greet_peter : forall w, Forall white w ->
    greeting (s2l "hi" ++ w ++ s2l "Peter!") (MBool (s2l "peter") true).

(** examples/neg_match.rs:33-35. *)
Definition neg_rules : str := s2l "
        1 document = [!""hi"":""hi_did_not_occured"" ...""""?]
    ".

(** The double negative of the documentation in examples/neg_match.rs:17-23. *)
Definition double_rules : str := s2l "
        1 document = [!""hi"":!""hi"" ...""""?]
    ".
