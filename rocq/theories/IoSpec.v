(** Writing to a destination that may fail. *)
From Coq Require Import List NArith Bool Arith.
From Verif Require Import Base Ext Types IoModel.
Import ListNotations.

Section Writer.
  Variables W ioerr : Type.
  Variable put : W -> list N -> W * option ioerr.

  (** The bytes were handed over in pieces, and the destination took all of them. *)
  Inductive takes : W -> list N -> W -> Prop :=
  | takes_none : forall w, takes w [] w
  | takes_piece : forall w s w1 t w2,
      put w s = (w1, None) -> takes w1 t w2 -> takes w (s ++ t) w2.

  (** The destination reported an error [e] for a piece of the bytes, having taken all
      before; it got nothing afterwards. *)
  Definition stops (w : W) (whole : list N) (e : ioerr) (w' : W) : Prop :=
    exists before piece behind w1, whole = before ++ piece ++ behind /\
      takes w before w1 /\ put w1 piece = (w', Some e).

  (** A function that writes [whole] and then ends as [fine], unless the destination fails. *)
  Definition writes (m : io W ioerr) (whole : list N) (fine : written ioerr) : Prop :=
    forall w w' r, m w = (w', r) ->
      (r = fine /\ takes w whole w') \/ (exists e, r = Failed e /\ stops w whole e w').

  (** What a destination has taken: all of a piece, or a part of it and an error. *)
  Definition keeps_count (taken : W -> list N) : Prop :=
    (forall w s w', put w s = (w', None) -> taken w' = taken w ++ s) /\
    (forall w s w' e, put w s = (w', Some e) ->
       exists p q, s = p ++ q /\ taken w' = taken w ++ p).
End Writer.

(** A Unicode scalar value: what a [char] holds. *)
Definition scalar (c : char) : Prop := (c < 55296 \/ 57343 < c < 1114112)%N.

(** What a [String] holds. *)
Definition string_value (s : str) : Prop := Forall scalar s.
