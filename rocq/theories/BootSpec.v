(** Bootstrapping, as in examples/bootstrap.rs and examples/bootstrap_old.rs. *)
From Coq Require Import List NArith Bool Arith.
From Verif Require Import Base Ext Types ParseModel ConvertModel ApiSpec ConvertSpec.
Import ListNotations.

(** Rules read a text which describes rules; those read the same text; and so on. *)
Inductive generation (E : ext) (text : str) (first : syntax) : nat -> syntax -> Prop :=
| generation_first : generation E text first 0 first
| generation_next : forall n s data s' ignored,
    generation E text first n s ->
    parse_returns E s text [] indent_default None data ->
    convert_returns data [] (Some s') ignored ->
    generation E text first (S n) s'.

(** Two syntaxes accept the same texts, with the same meta data, and reject the others at the same
    depth. *)
Definition accept_alike (E : ext) (s s' : syntax) : Prop :=
  forall text tokens ind, Forall real_char text ->
  (forall tokens', parse_returns E s text tokens ind None tokens' <->
                   parse_returns E s' text tokens ind None tokens') /\
  (forall d,
    (exists e tokens', parse_returns E s text tokens ind (Some e) tokens' /\ next_offset (fst e) = d) <->
    (exists e tokens', parse_returns E s' text tokens ind (Some e) tokens' /\ next_offset (fst e) = d)).
