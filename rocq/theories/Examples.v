(** Small syntaxes used by the examples next to the theorems. *)
From Coq Require Import Ascii String List NArith Bool Arith.
From Verif Require Import Base Ext Types ParseModel.
Import ListNotations.
Local Open Scope string_scope.
Local Open Scope list_scope.

Notation "'tx' s" := (s2l s) (at level 0, s at level 0).

(** item: "(" name [":" value] ")" *)
Definition ex_item : rule :=
  RSequence
    [RTag (tx "(") false false None 1;
     RUntilAnyOrWs (tx ":)") false (Some (tx "name")) 2;
     ROptional (RSequence
       [RTag (tx ":") false false None 3;
        RSelect [RNumber false (Some (tx "num")) 4;
                 RText true (Some (tx "text")) 5;
                 RTag (tx "yes") false false (Some (tx "flag")) 6;
                 RTag (tx "no") false true (Some (tx "flag")) 7] 8] 9) 10;
     RTag (tx ")") false false None 11] 12.

(** doc: item* white space *)
Definition ex_doc : rule :=
  RSequence [RRepeat (RNode (tx "item") (Some (tx "item")) (Some 0) 13) true 14;
             RWhitespace true 15] 16.

Definition ex_syntax : syntax := Syn [ex_item; ex_doc] [tx "item"; tx "doc"].

Definition ex_text : str := tx "(a:12)(b:""hi"")(c:no)(d) ".

(** A text that [ex_syntax] rejects inside of the second item. *)
Definition ex_bad : str := tx "(a:12)(b:?)".

(** A block of numbers, one per line, at one column. *)
Definition ex_block : rule := RLines (RNumber false (Some (tx "n")) 1) true 2.
Definition ex_lines : syntax := Syn [ex_block] [tx "doc"].

(** A value that was computed. *)
Lemma done_witness {A B} (f : nat -> outcome (A * B)) (n : nat) (b : outcome (A * B)) :
  f n = b -> forall x y, b = Done (x, y) -> exists fuel, f fuel = Done (x, y).
Proof. intros H x y ->. exists n. exact H. Qed.
