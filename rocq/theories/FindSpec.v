(** Searching data that was parsed. *)
From Coq Require Import Ascii String List NArith Bool Arith.
From Verif Require Import Base Ext Types SearchModel SearchSpec Examples.
Import ListNotations.
Local Open Scope string_scope.
Local Open Scope list_scope.
Local Open Scope nat_scope.

(** The searches that a program can get at, starting from [Search::new], whatever it reads and
    looks for. *)
Inductive gets (data : list tok) : search -> Prop :=
| gets_new : gets data (search_new data)
| gets_bool : forall s name, gets data s -> gets data (snd (search_bool s name))
| gets_f64 : forall s name, gets data s -> gets data (snd (search_f64 s name))
| gets_string : forall s name, gets data s -> gets data (snd (search_string s name))
| gets_node : forall s name, gets data s -> gets data (snd (search_node s name))
| gets_end_node : forall s name, gets data s -> gets data (snd (search_end_node s name))
| gets_for : forall s w s', gets data s -> search_for w (@inl search range) s = inl s' -> gets data s'.

(** The ranges of the errors that the operations on a search return. *)
Inductive complains (s : search) : range -> Prop :=
| complains_bool : forall name r, fst (search_bool s name) = inr r -> complains s r
| complains_f64 : forall name r, fst (search_f64 s name) = inr r -> complains s r
| complains_string : forall name r, fst (search_string s name) = inr r -> complains s r
| complains_node : forall name r, fst (search_node s name) = inr r -> complains s r
| complains_end_node : forall name r, fst (search_end_node s name) = inr r -> complains s r
| complains_for : forall w r, search_for w (@inl search range) s = inr r -> complains s r.

(** The range of the last item. *)
Definition last_range (before : list tok) : option range :=
  match rev before with
  | [] => None
  | d :: _ => Some (fst d)
  end.

(** Rules for the witness: lists in lists. *)
Definition list_rules : str := tx "1 list = [""("" .r?({list:""list"" "".""}) "")""]
2 doc = list:""list""".

(** The program goes into the next node, or into the first node of this name. *)
Definition enters (s : search) (name : str) (s' : search) : Prop :=
  search_node s name = (inl tt, s') \/ search_for (WNode name) (@inl search range) s = inl s'.
