(** C40, C41: searching meta data. *)
From Coq Require Import Ascii String List NArith Bool Arith SpecFloat.
From Verif Require Import Base Ext Types SearchModel SearchSpec SearchProofs Examples ModelFacts.
Import ListNotations.
Local Open Scope string_scope.
Local Open Scope list_scope.

(** ** C40: searching finds the first match. *)

Theorem C40_first_match : forall T w (f : search -> T + range) s before r d rest,
  sr_data s = before ++ (r, d) :: rest ->
  Forall (fun x => ~ is_wanted w (snd x)) before -> is_wanted w d ->
  search_for w f s = f (Sr (Some r) rest).
Proof. exact (@search_first). Qed.
Print Assumptions C40_first_match.

Theorem C40_no_match : forall T w (f : search -> T + range) s,
  Forall (fun x => ~ is_wanted w (snd x)) (sr_data s) ->
  search_for w f s = inr (stands_at s).
Proof. exact (@search_none). Qed.
Print Assumptions C40_no_match.

Definition ex_data : list tok :=
  [(Rng 0 0, StartNode (tx "a")); (Rng 0 1, MBool (tx "x") false); (Rng 1 2, MBool (tx "x") true);
   (Rng 3 1, MF64 (tx "n") (S754_zero true)); (Rng 3 1, EndNode (tx "a")); (Rng 4 1, MBool (tx "x") true)].

(** The value counts, zeros are equal, and the first match is taken. *)
Example C40_example :
  search_for (WBool (tx "x") true) (fun s => inl (sr_data s)) (search_new ex_data)
    = inl (skipn 3 ex_data) /\
  search_for (WF64 (tx "n") (S754_zero false)) (@inl search range) (search_new ex_data)
    = inl (Sr (Some (Rng 3 1)) (skipn 4 ex_data)) /\
  search_for (WNode (tx "x")) (@inl search range) (Sr (Some (Rng 7 1)) ex_data) = inr (Rng 7 1).
Proof. repeat split. Qed.

(** ** C41: readers advance only on success. *)

Theorem C41_bool : forall s name,
  next_item (fun d v => d = MBool name v) s (search_bool s name).
Proof. exact reader_bool. Qed.
Print Assumptions C41_bool.

Theorem C41_f64 : forall s name,
  next_item (fun d v => d = MF64 name v) s (search_f64 s name).
Proof. exact reader_f64. Qed.
Print Assumptions C41_f64.

Theorem C41_string : forall s name,
  next_item (fun d v => d = MString name v) s (search_string s name).
Proof. exact reader_string. Qed.
Print Assumptions C41_string.

Theorem C41_node : forall s name,
  next_item (fun d (v : unit) => d = StartNode name) s (search_node s name).
Proof. exact reader_node. Qed.
Print Assumptions C41_node.

Theorem C41_end_node : forall s name,
  next_item (fun d (v : unit) => d = EndNode name) s (search_end_node s name).
Proof. exact reader_end. Qed.
Print Assumptions C41_end_node.

(** [next_item] leaves no choice. *)
Theorem C41_unique : forall s name,
  (forall x, next_item (fun d v => d = MBool name v) s x -> x = search_bool s name) /\
  (forall x, next_item (fun d v => d = MF64 name v) s x -> x = search_f64 s name) /\
  (forall x, next_item (fun d v => d = MString name v) s x -> x = search_string s name) /\
  (forall x, next_item (fun d (v : unit) => d = StartNode name) s x -> x = search_node s name) /\
  (forall x, next_item (fun d (v : unit) => d = EndNode name) s x -> x = search_end_node s name).
Proof. exact readers_only. Qed.
Print Assumptions C41_unique.

Example C41_example :
  search_node (search_new ex_data) (tx "a") = (inl tt, Sr (Some (Rng 0 0)) (skipn 1 ex_data)) /\
  search_bool (Sr None (skipn 1 ex_data)) (tx "x")
    = (inl false, Sr (Some (Rng 0 1)) (skipn 2 ex_data)) /\
  search_bool (search_new ex_data) (tx "x") = (inr (Rng 0 0), search_new ex_data).
Proof. repeat split. Qed.
