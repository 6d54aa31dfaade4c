(** C59: writing to a destination that may fail. *)
From Coq Require Import Ascii String List NArith Bool Arith.
From Verif Require Import Base Ext Types JsonModel HandlerModel IoModel DataSpec JsonSpec IoSpec
  IoProofs IoUtf8 IoPublic WrapProofs Examples.
Import ListNotations.
Local Open Scope string_scope.
Local Open Scope list_scope.
Local Open Scope nat_scope.

(** ** C59: an error of the destination is passed on, and nothing is written after it. *)

(** Unless the data is over-closed, JSON is written in full or up to an error. *)
Theorem C59_json : forall E data, ~ over_closed (map snd data) ->
  exists out, json_write E data = Done out /\
    forall W ioerr put, writes W ioerr put (json_write_to W ioerr put E data) (bytes out) Fine.
Proof. exact json_io. Qed.
Print Assumptions C59_json.

(** Over-closed data is written up to the panic; how far depends on the data only. *)
Theorem C59_json_panic : forall E data, over_closed (map snd data) ->
  exists before, forall W ioerr put,
    writes W ioerr put (json_write_to W ioerr put E data) (bytes before) Crashed.
Proof. exact json_io_panic. Qed.
Print Assumptions C59_json_panic.

Theorem C59_report : forall E lines e, exists out, handler_write E lines e = Done out /\
  forall W ioerr put, writes W ioerr put (handler_write_to W ioerr put E lines e) (bytes out) Fine.
Proof. exact report_io. Qed.
Print Assumptions C59_report.

Theorem C59_message : forall lines rg msg, exists out, handler_write_msg lines rg msg = Done out /\
  forall W ioerr put, writes W ioerr put (write_msg_to W ioerr put lines rg msg) (bytes out) Fine.
Proof. exact message_io. Qed.
Print Assumptions C59_message.

(** An [unwrap] of such a result panics if and only if the stream fails, and so do
    [json::print] and [ParseErrorHandler::error]. *)
Theorem C59_unwrap : forall W ioerr put m whole, writes W ioerr put m whole Fine ->
  forall w w' r, unwrap W ioerr m w = (w', r) ->
    (r = Fine /\ takes W ioerr put w whole w') \/
    (r = Crashed /\ exists e, stops W ioerr put w whole e w').
Proof. exact unwrap_io. Qed.
Print Assumptions C59_unwrap.

Theorem C59_print : forall E data, ~ over_closed (map snd data) ->
  exists out, json_write E data = Done out /\
    forall W ioerr put w w' r, json_print W ioerr put E data w = (w', r) ->
      (r = Fine /\ takes W ioerr put w (bytes out) w') \/
      (r = Crashed /\ exists e, stops W ioerr put w (bytes out) e w').
Proof. exact print_io. Qed.
Print Assumptions C59_print.

Theorem C59_print_panic : forall E data, over_closed (map snd data) ->
  forall W ioerr put w w' r, json_print W ioerr put E data w = (w', r) -> r = Crashed.
Proof. exact print_io_panic. Qed.
Print Assumptions C59_print_panic.

Theorem C59_error : forall E lines e, exists out, handler_write E lines e = Done out /\
  forall W ioerr put w w' r, handler_error W ioerr put E lines e w = (w', r) ->
    (r = Fine /\ takes W ioerr put w (bytes out) w') \/
    (r = Crashed /\ exists e', stops W ioerr put w (bytes out) e' w').
Proof. exact error_io. Qed.
Print Assumptions C59_error.

(** What is in a file or a buffer afterwards: all, or a part from the start. *)
Theorem C59_counted : forall W ioerr put taken, keeps_count W ioerr put taken ->
  forall m whole fine, writes W ioerr put m whole fine ->
  forall w w' r, m w = (w', r) ->
    (r = fine /\ taken w' = taken w ++ whole) \/
    (exists e p q, r = Failed e /\ whole = p ++ q /\ taken w' = taken w ++ p).
Proof. exact counted_io. Qed.
Print Assumptions C59_counted.

Theorem C59_vector : forall ioerr m whole fine, writes (list N) ioerr vec_put m whole fine ->
  forall w, m w = (w ++ whole, fine).
Proof. exact vec_io. Qed.
Print Assumptions C59_vector.

(** The bytes are UTF-8, from which the text is read back. *)
Theorem C59_utf8 : forall l s, from_utf8 l = Some s <-> string_value s /\ l = bytes s.
Proof. exact from_utf8_iff. Qed.
Print Assumptions C59_utf8.

(** Neither [unwrap] of [syntax_errstr] and [parse_errstr] panics. *)
Theorem C59_errstr : forall E text e, string_value text -> string_value (fmt_error E (snd e)) ->
  errstr E text e = error_report E text e.
Proof. exact errstr_io. Qed.
Print Assumptions C59_errstr.

(** A disk with room for some bytes; it reports how much did not fit. *)
Definition disk_put (w : list N * nat) (s : list N) : (list N * nat) * option nat :=
  let (have, room) := w in
  if length s <=? room then ((have ++ s, room - length s), None)
  else ((have ++ firstn room s, 0), Some (length s - room)).

Definition ex_data : list tok :=
  [(Rng 0 1, StartNode (tx "a")); (Rng 0 1, MString (tx "b") [233%N; newline]);
   (Rng 0 1, EndNode (tx "a"))].

Example C59_example :
  keeps_count _ _ disk_put fst /\
  ~ over_closed (map snd ex_data) /\
  json_write std_ext ex_data
  = Done (tx """a"":{" ++ [newline] ++ tx " ""b"":""" ++ [233%N] ++ tx "\n""" ++ [newline] ++
          tx "}" ++ [newline]) /\
  json_write_to _ _ disk_put std_ext ex_data ([], 100)
  = ((s2l """a"":{" ++ [newline] ++ s2l " ""b"":""" ++ [195%N; 169%N] ++ s2l "\n""" ++ [newline] ++
      s2l "}" ++ [newline], 80), Fine) /\
  json_write_to _ _ disk_put std_ext ex_data ([], 13)
  = ((s2l """a"":{" ++ [newline] ++ s2l " ""b"":""" ++ [195%N], 0), Failed 1) /\
  json_print _ _ disk_put std_ext ex_data ([], 13)
  = ((s2l """a"":{" ++ [newline] ++ s2l " ""b"":""" ++ [195%N], 0), Crashed).
Proof.
  refine (conj _ (conj _ (conj _ (conj _ (conj _ _))))); [| |vm_compute; reflexivity..].
  - split; intros [have room] s; unfold disk_put.
    + destruct (_ <=? _); intros w' H; [injection H as <-; reflexivity|discriminate].
    + destruct (_ <=? _); intros w' e H; [discriminate|]. injection H as <- _.
      exists (firstn room s), (skipn room s). split; [symmetry; apply firstn_skipn|reflexivity].
  - intros H. apply (JsonProofs3.json_write_panics std_ext ex_data) in H. discriminate.
Qed.

Example C59_error_example :
  handler_error _ _ disk_put std_ext [(Rng 0 2, tx "ab")] (Rng 1 0, ExpectedTag (tx ";") 7) ([], 60)
  = ((s2l "Error #7, Expected: `;`" ++ [newline] ++ s2l "1,2: ab" ++ [newline] ++
      s2l "1,2:  ^" ++ [newline], 20), Fine) /\
  handler_error _ _ disk_put std_ext [(Rng 0 2, tx "ab")] (Rng 1 0, ExpectedTag (tx ";") 7) ([], 5)
  = ((s2l "Error", 0), Crashed) /\
  over_closed (map snd [(Rng 0 1, EndNode (tx "a")); (Rng 0 1, StartNode (tx "a"))]) /\
  json_print _ _ disk_put std_ext [(Rng 0 1, StartNode (tx "b")); (Rng 0 1, EndNode (tx "b"))]
    ([], 100) = ((s2l """b"":{" ++ [newline] ++ s2l "}" ++ [newline], 92), Fine).
Proof.
  refine (conj _ (conj _ (conj _ _))); [vm_compute; reflexivity..| |vm_compute; reflexivity].
  apply (JsonProofs3.json_write_panics std_ext). reflexivity.
Qed.

(** A range at the end of a line with a letter of two bytes. *)
Example C59_errstr_example :
  string_value [233%N; newline] /\ string_value (fmt_error std_ext (ExpectedTag (tx ";") 7)) /\
  errstr std_ext [233%N; newline] (Rng 2 0, ExpectedTag (tx ";") 7)
  = Done (tx "Error #7, Expected: `;`" ++ [newline] ++ tx "1,3: " ++ [233%N; newline] ++
          tx "1,3:  ^" ++ [newline]) /\
  from_utf8 [237; 160; 128]%N = None /\ from_utf8 [240; 159; 146; 150]%N = Some [128150%N].
Proof.
  refine (conj _ (conj _ (conj _ (conj _ _)))); [| |vm_compute; reflexivity..].
  - repeat constructor.
  - repeat (constructor; [left; reflexivity|]). constructor.
Qed.

(** A node that is closed twice: two lines are written before the panic. *)
Example C59_panic_example :
  over_closed [StartNode (tx "a"); EndNode (tx "a"); EndNode (tx "a"); StartNode (tx "a")] /\
  json_write_to _ Empty_set vec_put std_ext
    [(Rng 0 0, StartNode []); (Rng 0 0, EndNode []); (Rng 0 0, EndNode []); (Rng 0 0, StartNode [])] []
  = (s2l """"":{" ++ [newline] ++ s2l "}", Crashed).
Proof.
  split; [|vm_compute; reflexivity].
  exists [StartNode (tx "a"); EndNode (tx "a"); EndNode (tx "a")], [StartNode (tx "a")].
  split; [reflexivity|]. vm_compute. repeat constructor.
Qed.
