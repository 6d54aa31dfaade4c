(** Words for searching. *)
From Coq Require Import List NArith Bool Arith ZArith SpecFloat.
From Verif Require Import Base Ext Types SearchModel.
Import ListNotations.

(** Equality of floating point numbers: not a number is equal to nothing, and there are
    two zeros. *)
Definition same_number (a b : f64) : Prop :=
  (a = b /\ a <> S754_nan) \/ (exists s t, a = S754_zero s /\ b = S754_zero t).

(** What the five kinds of search look for. *)
Inductive wanted :=
| WString (name val : str)
| WF64 (name : str) (val : f64)
| WBool (name : str) (val : bool)
| WNode (name : str)
| WEnd (name : str).

Inductive is_wanted : wanted -> metadata -> Prop :=
| is_string : forall name val, is_wanted (WString name val) (MString name val)
| is_f64 : forall name val val', same_number val' val -> is_wanted (WF64 name val) (MF64 name val')
| is_bool : forall name val, is_wanted (WBool name val) (MBool name val)
| is_node : forall name, is_wanted (WNode name) (StartNode name)
| is_end : forall name, is_wanted (WEnd name) (EndNode name).

(** The function of the library that looks for it. *)
Definition search_for {T} (w : wanted) (f : search -> T + range) (s : search) : T + range :=
  match w with
  | WString name val => for_string f s name val
  | WF64 name val => for_f64 f s name val
  | WBool name val => for_bool f s name val
  | WNode name => for_node f s name
  | WEnd name => for_end_node f s name
  end.

(** Where a search stands: the range of the item it passed last, or the start. *)
Definition stands_at (s : search) : range :=
  match sr_range s with Some r => r | None => Rng 0 0 end.

(** Reading the next item. *)
Inductive next_item {A} (matches : metadata -> A -> Prop) (s : search)
  : (A + range) * search -> Prop :=
| next_found : forall r d rest a,
    sr_data s = (r, d) :: rest -> matches d a ->
    next_item matches s (inl a, Sr (Some r) rest)
| next_other : forall r d rest,
    sr_data s = (r, d) :: rest -> (forall a, ~ matches d a) ->
    next_item matches s (inr r, s)
| next_end : sr_data s = [] -> next_item matches s (inr (stands_at s), s).
