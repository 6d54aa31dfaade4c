(** C75: searching data that was parsed. *)
From Coq Require Import Ascii String List NArith Bool Arith.
From Verif Require Import Base Ext Types ParseModel LibModel PegSpec ApiSpec DataSpec SyntaxSpec SearchModel SearchSpec
  FindSpec FindProofs Examples.
Import ListNotations.
Local Open Scope string_scope.
Local Open Scope list_scope.
Local Open Scope nat_scope.

(** Whatever a program reads and looks for, its search stands between two items of the data and
    remembers the range of the one before; and every such place can be got at. *)
Theorem C75_places : forall data s, gets data s <->
  exists before, data = before ++ sr_data s /\ sr_range s = last_range before.
Proof. exact gets_exact. Qed.
Print Assumptions C75_places.

(** On data from a text, errors lie inside of the text, so that they can be reported. *)
Theorem C75_located : forall E, ext_ok E -> forall s ind text data sr r,
  parse_returns E s text [] ind None data -> gets data sr -> complains sr r ->
  next_offset r <= length text.
Proof. exact complains_inside. Qed.
Print Assumptions C75_located.

(** Behind the start of a node, its own end follows; looking for an end of that name finds it
    exactly if no node of that name is inside. *)
Theorem C75_leave : forall data s name s1,
  nested (map snd data) -> gets data s -> enters s name s1 ->
  exists body r rest, sr_data s1 = body ++ (r, EndNode name) :: rest /\ nested (map snd body) /\
    (search_for (WEnd name) (@inl search range) s1 = inl (Sr (Some r) rest) <->
     ~ In (StartNode name) (map snd body)).
Proof. exact leaving. Qed.
Print Assumptions C75_leave.

(** False: looking for the end of the node one is in leaves that node. *)
Theorem C75_leave_refuted : exists s data s1 r rest,
  syntax_returns std_ext list_rules (inl s) /\
  parse_returns std_ext s (tx "(().)") [] indent_default None data /\
  enters (search_new data) (tx "list") s1 /\
  search_for (WEnd (tx "list")) (@inl search range) s1 = inl (Sr (Some r) rest) /\
  r = Rng 1 2 /\ map snd rest = [EndNode (tx "list")].
Proof. exact left_inner. Qed.
Print Assumptions C75_leave_refuted.

(** A list without lists inside, in front of an item of another name. *)
Example C75_example :
  let data := [(Rng 0 0, StartNode (tx "a")); (Rng 0 1, MBool (tx "x") true); (Rng 0 2, EndNode (tx "a"));
               (Rng 2 1, MBool (tx "y") false)] in
  let s1 := Sr (Some (Rng 0 0)) (skipn 1 data) in
  nested (map snd data) /\ gets data (search_new data) /\ enters (search_new data) (tx "a") s1 /\
  search_for (WEnd (tx "a")) (@inl search range) s1 = inl (Sr (Some (Rng 0 2)) (skipn 3 data)) /\
  complains s1 (Rng 0 0) /\ complains s1 (Rng 0 1) /\
  gets data (Sr (Some (Rng 0 2)) (skipn 3 data)).
Proof. exact find_example. Qed.
