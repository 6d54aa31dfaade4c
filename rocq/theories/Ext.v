(** The external crates [range] and [read_token] (not in the sandbox) as assumed, and
    the few functions of Rust's standard library on characters that the code uses. *)
From Coq Require Import Ascii String List NArith ZArith Bool Arith SpecFloat.
From Verif Require Import Base.
Import ListNotations.

(** ** Characters (Rust std) *)

(** [char]: Unicode scalar values. *)
Definition valid_char (c : char) : Prop :=
  (c < 55296 \/ (57344 <= c /\ c < 1114112))%N.

Definition valid_charb (c : char) : bool :=
  (c <? 55296)%N || ((57344 <=? c)%N && (c <? 1114112)%N).

(** [char::is_whitespace]: the Unicode property White_Space. *)
Definition is_ws (c : char) : bool :=
  ((9 <=? c) && (c <=? 13))%N
  || (c =? 32)%N || (c =? 133)%N || (c =? 160)%N || (c =? 5760)%N
  || ((8192 <=? c) && (c <=? 8202))%N
  || (c =? 8232)%N || (c =? 8233)%N || (c =? 8239)%N || (c =? 8287)%N
  || (c =? 12288)%N.

(** First byte written by [char::encode_utf8]. *)
Definition utf8_first (c : char) : N :=
  if (c <? 128)%N then c
  else if (c <? 2048)%N then (192 + c / 64)%N
  else if (c <? 65536)%N then (224 + c / 4096)%N
  else (240 + c / 262144)%N.

(** The values of the Rust type [char] (surrogates included, which is harmless). *)
Definition real_char (c : char) : Prop := (c < 1114112)%N.

(** [char::len_utf8]. *)
Definition utf8_len (c : char) : nat :=
  if (c <? 128)%N then 1
  else if (c <? 2048)%N then 2
  else if (c <? 65536)%N then 3
  else 4.

(** [str::len], in bytes. *)
Fixpoint byte_len (s : str) : nat :=
  match s with
  | [] => 0
  | c :: s' => utf8_len c + byte_len s'
  end.

Definition newline : char := 10%N.
Definition space : char := 32%N.
Definition tab : char := 9%N.
Definition quote : char := 34%N.
Definition backslash : char := 92%N.

(** ** [f64] *)

(** Rust's [f64] as an IEEE 754 binary64 datum. *)
Definition f64 := spec_float.

(** [val as usize]: truncation, saturating, NaN to 0. *)
Definition f64_as_usize (x : f64) : N :=
  match x with
  | S754_zero _ => 0%N
  | S754_infinity true => 0%N
  | S754_infinity false => usize_max
  | S754_nan => 0%N
  | S754_finite true _ _ => 0%N
  | S754_finite false m e => N.min usize_max (Z.to_N (Z.shiftl (Zpos m) e))
  end.

(** [==] on [f64]. *)
Definition f64_eqb (x y : f64) : bool := SFeqb x y.

(** ** Crate [range] *)

(** [Range::ends_intersect]: the intersection of two ranges, where ranges that only
    touch at their ends also intersect (in an empty range). *)
Definition ends_intersect (a b : range) : option range :=
  let s := Nat.max (r_off a) (r_off b) in
  let e := Nat.min (next_offset a) (next_offset b) in
  if s <=? e then Some (Rng s (e - s)) else None.

(** ** Crate [read_token] *)

(** [ReadToken { src, offset }]: the remaining text and its offset in characters. *)
Record rt := RT { src : str; off : nat }.

(** [ReadToken::start]. *)
Definition rt_start (t : rt) : range := Rng (off t) 0.

(** [ReadToken::peek(n)]. *)
Definition rt_peek (t : rt) (n : nat) : range := Rng (off t) n.

(** [ReadToken::consume(n)]: skips [n] characters. *)
Definition rt_consume (t : rt) (n : nat) : rt := RT (skipn n (src t)) (off t + n).

(** [ReadToken::subtract(rhs)]: from [rhs] up to [self]. *)
Definition rt_subtract (t rhs : rt) : range := Rng (off rhs) (off t - off rhs).

Fixpoint is_prefix (p s : str) : bool :=
  match p, s with
  | [], _ => true
  | a :: p', b :: s' => N.eqb a b && is_prefix p' s'
  | _ :: _, [] => false
  end.

(** [ReadToken::tag]. *)
Definition rt_tag (t : rt) (text : str) : option range :=
  if is_prefix text (src t) then Some (Rng (off t) (length text)) else None.

(** Length of the longest prefix on which [f] holds. *)
Fixpoint span_len (f : char -> bool) (s : str) : nat :=
  match s with
  | [] => 0
  | c :: s' => if f c then S (span_len f s') else 0
  end.

(** [ReadToken::whitespace]. *)
Definition rt_whitespace (t : rt) : range := Rng (off t) (span_len is_ws (src t)).

Definition mem_char (c : char) (any : str) : bool := existsb (N.eqb c) any.

(** [ReadToken::until_any], first component. *)
Definition rt_until_any (t : rt) (any : str) : range :=
  Rng (off t) (span_len (fun c => negb (mem_char c any)) (src t)).

(** [ReadToken::until_any_or_whitespace], first component. *)
Definition rt_until_any_or_ws (t : rt) (any : str) : range :=
  Rng (off t) (span_len (fun c => negb (is_ws c) && negb (mem_char c any)) (src t)).

(** [ReadToken::raw_string(n)]. *)
Definition rt_raw_string (t : rt) (n : nat) : str := firstn n (src t).

(** Kinds of error of [ReadToken::parse_string] ([ParseStringError]). *)
Inductive string_error := BadEscape | BadUnicode | BadUnicodeValue (n : N).

(** The functions of [read_token] (and of [f64: Display]) whose exact behaviour is left
    open. Offsets are relative to the current position. *)
Record ext := Ext {
  (** [ReadToken::number(settings)]: length of the number literal in front. *)
  x_number : bool -> str -> option nat;
  (** [ReadToken::parse_number(settings, n)] on these [n] characters; [None] is an error. *)
  x_parse_number : bool -> str -> option f64;
  (** [ReadToken::string()]: length of the string literal in front, with its quotes. *)
  x_string : str -> option nat;
  (** [ReadToken::parse_string(n)] on these [n] characters: the text, or the relative
      range and kind of the error. *)
  x_parse_string : str -> str + (range * string_error);
  (** The relative range of the error of [ReadToken::lines] when a new line is missing
      in front of the remaining text. *)
  x_lines_err : str -> range;
  (** [Display] for [f64], [ParseNumberError] and [ParseStringError]. *)
  x_fmt_f64 : f64 -> str;
  x_fmt_number_error : str;
  x_fmt_string_error : string_error -> str
}.

(** What is assumed of them. *)
Record ext_ok (E : ext) : Prop := {
  x_number_bounds : forall u s n, x_number E u s = Some n -> 1 <= n <= length s;
  x_string_bounds : forall s n, x_string E s = Some n ->
    2 <= n <= length s /\ hd_error s = Some quote;
  x_parse_string_bounds : forall s r e, x_parse_string E s = inr (r, e) ->
    next_offset r <= length s;
  x_lines_err_bounds : forall s, next_offset (x_lines_err E s) <= length s
}.

(** ** [ReadToken::lines]

    Reconstruction: "parses lines, stops when [f] returns [None]; returns [Ok(range)] of
    the lines read, [Err(range)] when a new line was expected". Lines with only
    whitespace are skipped. [f] is called at the start of a line, that is after the last
    line break of the whitespace in front. A line break is required between two items;
    it may have been read by [f] itself as whitespace at the end of an item. *)

(** Number of characters up to and including the last line break. *)
Fixpoint after_last_newline (s : str) : option nat :=
  match s with
  | [] => None
  | c :: s' =>
    match after_last_newline s' with
    | Some n => Some (S n)
    | None => if N.eqb c newline then Some 1 else None
    end
  end.

(** Does the whitespace at the end of [s] contain a line break? *)
Definition ends_with_newline (s : str) : bool :=
  existsb (N.eqb newline) (firstn (span_len is_ws (rev s)) (rev s)).

Section Lines.
  Variable E : ext.
  Context {St : Type}.
  (** The closure with its captured mutable state. *)
  Variable f : rt -> St -> outcome (option range * St).

  (** One pass per line. [nl]: no line break is required any more.
      Returns the final cursor, or the range of the missing line break. *)
  Fixpoint lines_loop (fuel : nat) (nl : bool) (t : rt) (st : St)
    : outcome ((rt + range) * St) :=
    match fuel with
    | O => OutOfFuel
    | S fuel' =>
      let w := span_len is_ws (src t) in
      if Nat.eqb w (length (src t)) then Done (inl (rt_consume t w), st)
      else
        let go (t1 : rt) :=
          do (res, st1) <- f t1 st;
          match res with
          | None => Done (inl t1, st1)
          | Some r =>
            lines_loop fuel'
              (ends_with_newline (rt_raw_string t1 (r_len r)))
              (rt_consume t1 (r_len r)) st1
          end in
        match after_last_newline (firstn w (src t)) with
        | Some k => go (rt_consume t k)
        | None =>
          if nl then go t
          else
            let r := x_lines_err E (src t) in
            Done (inr (Rng (off t + r_off r) (r_len r)), st)
        end
    end.

  Definition rt_lines (fuel : nat) (t : rt) (st : St)
    : outcome ((range + range) * St) :=
    do (res, st') <- lines_loop fuel true t st;
    match res with
    | inl t' => Done (inl (rt_subtract t' t), st')
    | inr r => Done (inr r, st')
    end.
End Lines.

(** ** A concrete instance, for examples *)

Definition is_digit (c : char) : bool := ((48 <=? c) && (c <=? 57))%N.

(** State of the number scanner: sign allowed here, digit seen, dot seen, exponent seen,
    exponent sign allowed here. *)
Fixpoint std_number_go (underscore : bool) (s : str) (sign digit dot expo esign : bool)
  (n : nat) : option nat :=
  let stop := if digit then Some n else None in
  match s with
  | [] => stop
  | c :: s' =>
    if is_digit c then std_number_go underscore s' false true dot expo false (S n)
    else if sign && ((c =? 43) || (c =? 45))%N
    then std_number_go underscore s' false digit dot expo false (S n)
    else if esign && ((c =? 43) || (c =? 45))%N
    then std_number_go underscore s' false digit dot expo false (S n)
    else if underscore && digit && (c =? 95)%N
    then std_number_go underscore s' false digit dot expo false (S n)
    else if negb dot && negb expo && (c =? 46)%N
    then std_number_go underscore s' false digit true expo false (S n)
    else if digit && negb expo && ((c =? 101) || (c =? 69))%N
    then std_number_go underscore s' false digit dot true true (S n)
    else stop
  end.

Definition std_number (underscore : bool) (s : str) : option nat :=
  std_number_go underscore s true false false false false 0.

(** Decimal digits to a natural, returning the number of digits read. *)
Fixpoint std_digits (s : str) (acc : N) (k : nat) : N * nat * str :=
  match s with
  | c :: s' => if is_digit c then std_digits s' (acc * 10 + (c - 48))%N (S k) else (acc, k, s)
  | [] => (acc, k, s)
  end.

Definition prec64 : Z := 53.
Definition emax64 : Z := 1024.

(** The binary64 nearest to [m * 10^e]. *)
Definition std_decimal (neg : bool) (m : N) (e : Z) : f64 :=
  match m with
  | N0 => S754_zero neg
  | Npos p =>
    if (400 <? e)%Z then S754_infinity neg
    else if (e <? - 1200)%Z then S754_zero neg
    else if (0 <=? e)%Z
    then binary_normalize prec64 emax64
           ((if neg then Z.opp else id) (Zpos p * 10 ^ e)%Z) 0 neg
    else
      let '(q, e', l) :=
        SFdiv_core_binary prec64 emax64 (Zpos p) 0 (10 ^ (- e))%Z 0 in
      binary_round_aux prec64 emax64 neg q e' l
  end.

(** [str::parse::<f64>] on the literals that [std_number] accepts. *)
Definition std_parse_f64 (s : str) : option f64 :=
  let '(neg, s) := match s with
                   | 45%N :: s' => (true, s')
                   | 43%N :: s' => (false, s')
                   | _ => (false, s)
                   end in
  let '(m, k, s) := std_digits s 0%N 0 in
  let '(m, kf, s) := match s with
                     | 46%N :: s' => std_digits s' m 0
                     | _ => (m, 0, s)
                     end in
  if Nat.eqb (k + kf) 0 then None
  else
    match s with
    | [] => Some (std_decimal neg m (- Z.of_nat kf))
    | c :: s' =>
      if ((c =? 101) || (c =? 69))%N then
        let '(eneg, s') := match s' with
                           | 45%N :: s'' => (true, s'')
                           | 43%N :: s'' => (false, s'')
                           | _ => (false, s')
                           end in
        let '(ex, ke, rest) := std_digits s' 0%N 0 in
        match ke, rest with
        | S _, [] =>
          let ex := (if eneg then Z.opp else id) (Z.of_N (N.min ex 100000)) in
          Some (std_decimal neg m (ex - Z.of_nat kf))
        | _, _ => None
        end
      else None
    end.

Definition std_parse_number (underscore : bool) (s : str) : option f64 :=
  std_parse_f64 (if underscore then filter (fun c => negb (c =? 95)%N) s else s).

(** Scans behind the opening quote; [n] characters were passed so far. *)
Fixpoint std_string_go (s : str) (escape : bool) (n : nat) : option nat :=
  match s with
  | [] => None
  | c :: s' =>
    if escape then std_string_go s' false (S n)
    else if N.eqb c backslash then std_string_go s' true (S n)
    else if N.eqb c quote then Some (S n)
    else std_string_go s' false (S n)
  end.

Definition std_string (s : str) : option nat :=
  match s with
  | c :: s' => if N.eqb c quote then std_string_go s' false 1 else None
  | [] => None
  end.

Definition hex_digit (c : char) : option N :=
  if is_digit c then Some (c - 48)%N
  else if ((97 <=? c) && (c <=? 102))%N then Some (c - 87)%N
  else if ((65 <=? c) && (c <=? 70))%N then Some (c - 55)%N
  else None.

(** Unescapes the inside of a literal up to (not including) its last character.
    [n] is the number of characters before [s]. *)
Fixpoint std_unescape (s : str) (n : nat) (acc : str) : str + (range * string_error) :=
  match s with
  | [] => inl (rev acc)
  | [_] => inl (rev acc)
  | c :: s' =>
    if N.eqb c backslash then
      match s' with
      | [] => inl (rev acc)
      | d :: s'' =>
        if N.eqb d quote then std_unescape s'' (n + 2) (quote :: acc)
        else if N.eqb d backslash then std_unescape s'' (n + 2) (backslash :: acc)
        else if N.eqb d 47 then std_unescape s'' (n + 2) (47%N :: acc)
        else if N.eqb d 98 then std_unescape s'' (n + 2) (8%N :: acc)
        else if N.eqb d 102 then std_unescape s'' (n + 2) (12%N :: acc)
        else if N.eqb d 110 then std_unescape s'' (n + 2) (10%N :: acc)
        else if N.eqb d 114 then std_unescape s'' (n + 2) (13%N :: acc)
        else if N.eqb d 116 then std_unescape s'' (n + 2) (9%N :: acc)
        else if N.eqb d 117 then
          match s'' with
          | a :: b :: c1 :: d1 :: s4 =>
            match hex_digit a, hex_digit b, hex_digit c1, hex_digit d1 with
            | Some x3, Some x2, Some x1, Some x0 =>
              let v := (((x3 * 16 + x2) * 16 + x1) * 16 + x0)%N in
              if valid_charb v then std_unescape s4 (n + 6) (v :: acc)
              else inr (Rng n 6, BadUnicodeValue v)
            | _, _, _, _ => inr (Rng n 2, BadUnicode)
            end
          | _ => inr (Rng n 2, BadUnicode)
          end
        else inr (Rng n 2, BadEscape)
      end
    else std_unescape s' (n + 1) (c :: acc)
  end.

Definition std_parse_string (s : str) : str + (range * string_error) :=
  match s with
  | [] => inl []
  | _ :: s' => std_unescape s' 1 []
  end.

Fixpoint dec_digits (fuel : nat) (n : N) (acc : str) : str :=
  match fuel with
  | O => acc
  | S f =>
    let acc' := (48 + n mod 10)%N :: acc in
    if (n <? 10)%N then acc' else dec_digits f (n / 10)%N acc'
  end.

(** [Display] for unsigned integers. *)
Definition fmt_N (n : N) : str := dec_digits (S (N.to_nat (N.log2 n))) n [].

Definition fmt_nat (n : nat) : str := fmt_N (N.of_nat n).

(** Prints integers exactly as Rust does; other values are printed as mantissa and
    binary exponent, which Rust does not do (example instance only). *)
Definition std_fmt_f64 (x : f64) : str :=
  match x with
  | S754_zero true => s2l "-0"
  | S754_zero false => s2l "0"
  | S754_infinity true => s2l "-inf"
  | S754_infinity false => s2l "inf"
  | S754_nan => s2l "NaN"
  | S754_finite neg m e =>
    let body :=
      if (0 <=? e)%Z then fmt_N (Z.to_N (Z.shiftl (Zpos m) e))
      else if (Zpos m mod 2 ^ (- e) =? 0)%Z then fmt_N (Z.to_N (Zpos m / 2 ^ (- e))%Z)
      else fmt_N (Npos m) ++ s2l "p-" ++ fmt_N (Z.to_N (- e)) in
    (if neg then s2l "-" else []) ++ body
  end.

Definition std_fmt_string_error (e : string_error) : str :=
  match e with
  | BadEscape => s2l "Expected valid escape character"
  | BadUnicode => s2l "Expected 4 hexadecimals"
  | BadUnicodeValue n => s2l "Invalid unicode " ++ fmt_N n
  end.

Definition std_ext : ext := {|
  x_number := std_number;
  x_parse_number := std_parse_number;
  x_string := std_string;
  x_parse_string := std_parse_string;
  x_lines_err := fun _ => Rng 0 0;
  x_fmt_f64 := std_fmt_f64;
  x_fmt_number_error := s2l "Invalid number format";
  x_fmt_string_error := std_fmt_string_error
|}.
