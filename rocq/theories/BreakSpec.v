(** Line breaks of Unix and of Windows. *)
From Coq Require Import List NArith Bool Arith.
From Verif Require Import Base Ext Types DataSpec.
Import ListNotations.

(** The carriage return of a Windows line break. *)
Definition carriage : char := 13%N.

(** The texts differ only in the way their line breaks are written. *)
Inductive same_breaks : str -> str -> Prop :=
| sb_nil : same_breaks [] []
| sb_char : forall c s s', same_breaks s s' -> same_breaks (c :: s) (c :: s')
| sb_add : forall s s', same_breaks s s' ->
    same_breaks (newline :: s) (carriage :: newline :: s')
| sb_drop : forall s s', same_breaks s s' ->
    same_breaks (carriage :: newline :: s) (newline :: s').

(** Rules that do not tell one line break from the other. A token contains no part of a line
    break. What is read up to some characters stops at both parts of a line break or at none; or
    it stops at the line break only, may be empty and is not stored. A table sends both parts of a
    line break to the same rule. *)
Definition break_safe (r : rule) : Prop :=
  match r with
  | RTag text _ _ _ _ => ~ In newline text /\ ~ In carriage text
  | RUntilAny any optional property _ =>
    (In carriage any <-> In newline any) \/
    (In newline any /\ optional = true /\ property = None)
  | RFastSelect table _ _ _ => nth_error table 10 = nth_error table 13
  | _ => True
  end.

Definition breaks_safe (s : syntax) : Prop := forall r, occurs s r -> break_safe r.

(** The token of one text corresponds to the token of the other: the same name and value, but
    line breaks inside of a value are written as they are in its text. *)
Inductive same_token (text : str) : tok -> tok -> Prop :=
| st_start : forall r r' n, same_token text (r, StartNode n) (r', StartNode n)
| st_end : forall r r' n, same_token text (r, EndNode n) (r', EndNode n)
| st_bool : forall r r' n b, same_token text (r, MBool n b) (r', MBool n b)
| st_number : forall r r' n x, same_token text (r, MF64 n x) (r', MF64 n x)
| st_string : forall r r' n v v', same_breaks v v' ->
    (~ In newline (under text r) -> v' = v) ->
    same_token text (r, MString n v) (r', MString n v').

(** What is assumed of the readers of texts and numbers: they do not tell one line break from
    the other, and numbers contain none. *)
Record breaks_ok (E : ext) : Prop := {
  breaks_number : forall u s s' n, same_breaks s s' -> x_number E u s = Some n ->
    x_number E u s' = Some n /\ firstn n s' = firstn n s /\
    same_breaks (skipn n s) (skipn n s');
  breaks_string : forall s s' n, same_breaks s s' -> x_string E s = Some n ->
    exists n', x_string E s' = Some n' /\ (n = 2 <-> n' = 2) /\
      same_breaks (firstn n s) (firstn n' s') /\ same_breaks (skipn n s) (skipn n' s') /\
      match x_parse_string E (firstn n s), x_parse_string E (firstn n' s') with
      | inl v, inl v' => same_breaks v v'
      | inr _, inr _ => True
      | _, _ => False
      end
}.
