(** Model of the writers of src/json.rs and src/parse_error_handler.rs on a destination that
    may fail. *)
From Coq Require Import Ascii String List NArith Bool Arith.
From Verif Require Import Base Ext Types JsonModel HandlerModel.
Import ListNotations.
Local Open Scope string_scope.
Local Open Scope list_scope.
Local Open Scope nat_scope.

(** [char::encode_utf8]. *)
Definition utf8 (c : char) : list N :=
  if (c <? 128)%N then [c]
  else if (c <? 2048)%N then [192 + c / 64; 128 + c mod 64]%N
  else if (c <? 65536)%N then [224 + c / 4096; 128 + (c / 64) mod 64; 128 + c mod 64]%N
  else [240 + c / 262144; 128 + (c / 4096) mod 64; 128 + (c / 64) mod 64; 128 + c mod 64]%N.

(** [str::as_bytes]. *)
Definition bytes (s : str) : list N := flat_map utf8 s.

Section Writer.
  (** The destination, the errors it may report, and [Write::write_fmt] with the formatted
      bytes. *)
  Variables W ioerr : Type.
  Variable put : W -> list N -> W * option ioerr.

  (** How a function ends that writes: it returns [Ok(())] or [Err(e)], or it panics. *)
  Inductive written :=
  | Fine
  | Failed (e : ioerr)
  | Crashed.

  Definition io := W -> W * written.

  (** [Ok(())]. *)
  Definition done : io := fun w => (w, Fine).

  Definition crash : io := fun w => (w, Crashed).

  (** [write!(w, ..)] with the formatted text. *)
  Definition print (s : str) : io :=
    fun w => let (w', r) := put w (bytes s) in
      (w', match r with None => Fine | Some e => Failed e end).

  (** [m?; k]. *)
  Definition next (m k : io) : io :=
    fun w => match m w with
             | (w', Fine) => k w'
             | other => other
             end.

  (** [for x in l { f(x)?; } k]. *)
  Definition each {A} (f : A -> io) (l : list A) (k : io) : io :=
    fold_right (fun x rest => next (f x) rest) k l.

  (** [.unwrap()]. *)
  Definition unwrap (m : io) : io :=
    fun w => match m w with
             | (w', Failed _) => (w', Crashed)
             | other => other
             end.

  (** src/json.rs:71-92 [write_string]. *)
  Definition write_string_to (val : str) : io :=
    next (print [quote]) (each (fun c => print (write_char c)) val (print [quote])).

  Section WithExt.
    Variable E : ext.

    (** src/json.rs:40-63. *)
    Definition write_item_to (d : metadata) : io :=
      match d with
      | StartNode name => next (write_string_to name) (print (s2l ":{"))
      | EndNode _ => print (s2l "}")
      | MBool name val => next (write_string_to name) (print (s2l ":" ++ fmt_bool val))
      | MF64 name val => next (write_string_to name) (print (s2l ":" ++ x_fmt_f64 E val))
      | MString name val =>
        next (write_string_to name) (next (print (s2l ":")) (write_string_to val))
      end.

    (** src/json.rs:25-65, the loop. *)
    Fixpoint write_loop_to (data : list tok) (i : nat) (first : bool) (indent : nat) (k : io)
      : io :=
      match data with
      | [] => k
      | d :: rest =>
        let e := is_end d in
        if e && Nat.eqb indent 0 then crash
        else
          let indent1 := if e then indent - 1 else indent in
          let print_comma := negb first && negb e in
          let s := is_start d in
          next (if print_comma then print (s2l "," ++ [newline])
                else if Nat.eqb i 0 then done else print [newline])
            (each (fun _ => print [space]) (seq 0 indent1)
              (next (write_item_to (snd d))
                (write_loop_to rest (S i) s (if s then S indent1 else indent1) k)))
      end.

    (** src/json.rs:9-68 [write]. *)
    Definition json_write_to (data : list tok) : io :=
      let starts := length (filter is_start data) in
      let ends := length (filter is_end data) in
      let indent := Nat.max starts ends - Nat.min starts ends in
      write_loop_to data 0 true indent (print [newline]).

    (** src/json.rs:95-99 [print]; the destination is standard output. *)
    Definition json_print (data : list tok) : io := unwrap (json_write_to data).

    (** src/parse_error_handler.rs:47-76 and 123-150. *)
    Fixpoint report_loop_to (lines : list (range * str)) (rg : range) (i : nat)
      (printed : bool) : io :=
      match lines with
      | [] => done
      | (r, text) :: rest =>
        match ends_intersect rg r with
        | None => report_loop_to rest rg (S i) printed
        | Some intersect =>
          if r_off intersect <? r_off r then report_loop_to rest rg (S i) printed
          else
            let j := r_off intersect - r_off r in
            let s := if 75 <? j then j - 50 else 0 in
            let e := Nat.min (s + 100) (r_len r) in
            let pos := fmt_nat (i + 1) ++ s2l "," ++ fmt_nat (j + 1) ++ s2l ": " in
            next (print pos)
              (if e <? s then crash
               else
                 each (fun c => print [c]) (firstn (e - s) (skipn s text))
                   (next (print [newline])
                     (if printed then report_loop_to rest rg (S i) true
                      else
                        next (print pos)
                          (each (fun c => print [pointer_char c]) (firstn (j - s) (skipn s text))
                            (next (print (s2l "^" ++ [newline]))
                              (report_loop_to rest rg (S i) true))))))
        end
      end.

    (** src/parse_error_handler.rs:40-78 [write_msg]. *)
    Definition write_msg_to (lines : list (range * str)) (rg : range) (msg : str) : io :=
      next (print (msg ++ [newline])) (report_loop_to lines rg 0 false).

    (** src/parse_error_handler.rs:114-117. *)
    Fixpoint print_lines_to (lines : list (range * str)) (i : nat) (k : io) : io :=
      match lines with
      | [] => k
      | (_, text) :: rest =>
        next (print (fmt_nat (i + 1) ++ s2l ": " ++ text ++ [newline])) (print_lines_to rest (S i) k)
      end.

    (** src/parse_error_handler.rs:81-152 [write]. *)
    Definition handler_write_to (lines : list (range * str)) (e : perr) : io :=
      let (rg, error) := e in
      let report := report_loop_to lines rg 0 false in
      next (print (s2l "Error " ++ fmt_error E error ++ [newline]))
        match error with
        | ExpectedTag _ _ =>
          match first_line lines rg 0 with
          | Some n =>
            let p := prev_line (rev (firstn n lines)) n 0 in
            print_lines_to (skipn p (firstn n lines)) p report
          | None => report
          end
        | _ => report
        end.

    (** src/parse_error_handler.rs:155-157 [error]; the destination is standard error. *)
    Definition handler_error (lines : list (range * str)) (e : perr) : io :=
      unwrap (handler_write_to lines e).
  End WithExt.
End Writer.

Arguments Fine {ioerr}.
Arguments Failed {ioerr} e.
Arguments Crashed {ioerr}.

(** [impl Write for Vec<u8>]: appending never fails. *)
Definition vec_put {ioerr} (w : list N) (s : list N) : list N * option ioerr := (w ++ s, None).

(** A byte behind the first one of a character. *)
Definition continues (b : N) : bool := ((128 <=? b) && (b <=? 191))%N.

(** [String::from_utf8], as [core::str::from_utf8] is documented: [None] is an error, with
    overlong forms, surrogates and values above 0x10FFFF rejected by their leading bytes. *)
Fixpoint from_utf8 (l : list N) : option str :=
  match l with
  | [] => Some []
  | b1 :: l1 =>
    if (b1 <? 128)%N then option_map (cons b1) (from_utf8 l1)
    else if ((194 <=? b1) && (b1 <=? 223))%N then
      match l1 with
      | b2 :: l2 =>
        if continues b2
        then option_map (cons ((b1 - 192) * 64 + (b2 - 128))%N) (from_utf8 l2)
        else None
      | [] => None
      end
    else if ((224 <=? b1) && (b1 <=? 239))%N then
      match l1 with
      | b2 :: b3 :: l3 =>
        let low := if (b1 =? 224)%N then 160%N else 128%N in
        let high := if (b1 =? 237)%N then 159%N else 191%N in
        if ((low <=? b2) && (b2 <=? high))%N && continues b3
        then option_map (cons ((b1 - 224) * 4096 + (b2 - 128) * 64 + (b3 - 128))%N) (from_utf8 l3)
        else None
      | _ => None
      end
    else if ((240 <=? b1) && (b1 <=? 244))%N then
      match l1 with
      | b2 :: b3 :: b4 :: l4 =>
        let low := if (b1 =? 240)%N then 144%N else 128%N in
        let high := if (b1 =? 244)%N then 143%N else 191%N in
        if ((low <=? b2) && (b2 <=? high))%N && continues b3 && continues b4
        then option_map (cons ((b1 - 240) * 262144 + (b2 - 128) * 4096 + (b3 - 128) * 64
                               + (b4 - 128))%N) (from_utf8 l4)
        else None
      | _ => None
      end
    else None
  end.

(** src/meta_rules/mod.rs:110-113 and src/lib.rs:237-239: the report is written to a vector
    and turned into a string. Both calls of [unwrap] are panics on an error. *)
Definition errstr (E : ext) (text : str) (e : perr) : outcome str :=
  match handler_write_to (list N) Empty_set vec_put E (handler_new text) e [] with
  | (w, Fine) => match from_utf8 w with Some s => Done s | None => Panic end
  | _ => Panic
  end.
