(** Documents in which the items of a list are put in another order. *)
From Coq Require Import List NArith Bool Arith.
From Verif Require Import Base Types DataSpec PlaceSpec ExchangeSpec.
Import ListNotations.

(** Items with the texts [gaps] in front of them. *)
Fixpoint row_text (gaps : list str) (items : list (str * list tok)) : str :=
  match gaps, items with
  | g :: gaps, (x, _) :: items => g ++ x ++ row_text gaps items
  | _, _ => []
  end.

(** The data of such a text at [p]: the items are nodes of the name, and [mids] is the data in front of them. *)
Fixpoint row_data (name : str) (p : nat) (gaps : list str) (mids : list (list tok)) (items : list (str * list tok)) : list tok :=
  match gaps, mids, items with
  | g :: gaps, m :: mids, (x, ts) :: items =>
    m ++ node name (p + length g) (moved_by (p + length g) ts) (length x) ++ row_data name (p + length g + length x) gaps mids items
  | _, _, _ => []
  end.

(** An item that is not empty, with its data. *)
Definition item_ok (item : str * list tok) : Prop := fst item <> [] /\ nested (map snd (snd item)).

(** The item of the data is the same but for its place, and it has the same place if it begins up to [lo] or from [hi] on. *)
Definition kept (lo hi : nat) (t t' : tok) : Prop :=
  snd t' = snd t /\ (r_off (fst t) <= lo \/ hi <= r_off (fst t) -> t' = t).

(** The same items at other places. *)
Definition same_data (ts us : list tok) : Prop := map snd us = map snd ts.
