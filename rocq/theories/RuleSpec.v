(** The behaviour of a single rule, as observed by running it, and small specifications
    of repetition, lists and lines. *)
From Coq Require Import List NArith Bool Arith.
From Verif Require Import Base Ext Types ParseModel PegSpec.
Import ListNotations.

(** Running the rule [r] in front of the text [s] at position [p] gives the verdict [v]
    and leaves the indent settings [ind'], whatever tokens [base] are committed and
    whatever uncommitted tokens [junk] follow them. *)
Definition runs (E : ext) (refs : list rule) (r : rule) (ind : indent) (p : nat) (s : str)
  (v : verdict) (ind' : indent) : Prop :=
  forall base junk, exists fuel res toks',
    parse_rule E fuel refs r (base ++ junk) (length base) (RT s p) ind
      = Done (res, toks', ind') /\
    match v with
    | Yes n out => exists junk' err,
      res = POk (Rng p n) (length (base ++ out)) err /\ toks' = (base ++ out) ++ junk'
    | No => exists e junk', res = PErr e /\ toks' = base ++ junk'
    end.

(** A reading: where it starts, how long it is, its tokens, the settings afterwards. *)
Section Repetition.
  Variable one : indent -> nat -> str -> verdict -> indent -> Prop.

  (** [k] successful readings, one directly after the other. *)
  Inductive times : nat -> indent -> nat -> str -> nat -> list tok -> indent -> Prop :=
  | times_0 : forall ind p s, times 0 ind p s 0 [] ind
  | times_S : forall k ind p s n out ind1 m out' ind2,
      one ind p s (Yes n out) ind1 ->
      times k ind1 (p + n) (skipn n s) m out' ind2 ->
      times (S k) ind p s (n + m) (out ++ out') ind2.
End Repetition.

(** A separator followed by an item. *)
Inductive then_item (by_ item : indent -> nat -> str -> verdict -> indent -> Prop)
  : indent -> nat -> str -> verdict -> indent -> Prop :=
| then_item_yes : forall ind p s n out ind1 m out' ind2,
    by_ ind p s (Yes n out) ind1 ->
    item ind1 (p + n) (skipn n s) (Yes m out') ind2 ->
    then_item by_ item ind p s (Yes (n + m) (out ++ out')) ind2.

(** How a list ends behind an item: in front of something that is not a separator, or
    with a separator that is not followed by an item. *)
Inductive list_end (by_ item : indent -> nat -> str -> verdict -> indent -> Prop)
  (trail : bool) : indent -> nat -> str -> verdict -> indent -> Prop :=
| list_end_here : forall ind p s ind',
    by_ ind p s No ind' ->
    list_end by_ item trail ind p s (Yes 0 []) ind'
| list_end_trail : forall ind p s n out ind1 ind2,
    trail = true ->
    by_ ind p s (Yes n out) ind1 -> item ind1 (p + n) (skipn n s) No ind2 ->
    list_end by_ item trail ind p s (Yes n out) ind2
| list_end_fail : forall ind p s n out ind1 ind2,
    trail = false ->
    by_ ind p s (Yes n out) ind1 -> item ind1 (p + n) (skipn n s) No ind2 ->
    list_end by_ item trail ind p s No ind2.

(** ** Lines *)

(** The text between the previous item (if any) and the next line to be read: white space
    that ends with a line break, or nothing when the previous item already ended its
    line. The next line starts in front of [rest]. *)
Inductive gap_ok (prev : option str) : str -> str -> Prop :=
| gap_break : forall g rest,
    Forall white g -> same_line rest -> ~ Forall white rest ->
    gap_ok prev (g ++ [newline]) rest
| gap_none : forall rest,
    (forall x, prev = Some x -> ends_line x) -> same_line rest -> ~ Forall white rest ->
    gap_ok prev [] rest.

(** A block of lines. [line] reads one line; [items] are the gaps and items read. *)
Section Block.
  Context {St : Type}.
  Variable line : St -> nat -> str -> verdict -> St -> Prop.

  Inductive block : option str -> St -> nat -> str -> list (str * str) -> verdict -> St -> Prop :=
  (** only white space is left: all of it is read *)
  | block_end : forall prev st p s,
      Forall white s -> block prev st p s [] (Yes (length s) []) st
  (** the next line is not an item: the block ends in front of that line *)
  | block_stop : forall prev st p gap rest st',
      gap_ok prev gap rest -> line st (p + length gap) rest No st' ->
      block prev st p (gap ++ rest) [] (Yes (length gap) []) st'
  (** an item is followed by something else on its line *)
  | block_glued : forall x st p s,
      ~ ends_line x -> same_line s -> ~ Forall white s -> block (Some x) st p s [] No st
  | block_item : forall prev st p gap item rest out st1 items v st2,
      gap_ok prev gap (item ++ rest) ->
      line st (p + length gap) (item ++ rest) (Yes (length item) out) st1 ->
      block (Some item) st1 (p + length gap + length item) rest items v st2 ->
      block prev st p (gap ++ item ++ rest) ((gap, item) :: items)
        (after (length gap + length item) out v) st2.
End Block.

(** One plain line. *)
Definition plain_line (one : indent -> nat -> str -> verdict -> indent -> Prop)
  (st : indent * bool) (p : nat) (s : str) (v : verdict) (st' : indent * bool) : Prop :=
  one (fst st) p s v (fst st') /\ snd st' = snd st.

(** One line of an indented block. The flag tells that the block has not read a line
    yet. A block that is to align takes its column from its first line. The sub rule is
    run with an indentation one deeper than the column of the block. *)
Inductive indented_line (one : indent -> nat -> str -> verdict -> indent -> Prop)
  : indent * bool -> nat -> str -> verdict -> indent * bool -> Prop :=
| indented_short : forall ind fresh p s,
    (forall k, ~ indentation (i_tab_spaces ind) (i_indent ind) s k) ->
    indented_line one (ind, fresh) p s No (ind, fresh)
| indented_deep : forall ind fresh p s k,
    fresh && i_align_first ind = false ->
    indentation (i_tab_spaces ind) (i_indent ind) s k -> starts_with (skipn k s) [space] ->
    indented_line one (ind, fresh) p s No (ind, fresh)
| indented_exact : forall ind fresh p s k v ind',
    fresh && i_align_first ind = false ->
    indentation (i_tab_spaces ind) (i_indent ind) s k -> ~ starts_with (skipn k s) [space] ->
    (i_indent ind < u32_max)%N ->
    one (set_indent ind (i_indent ind + 1)) (p + k) (skipn k s) v ind' ->
    indented_line one (ind, fresh) p s (after k [] v) (set_indent ind' (i_indent ind), fresh)
| indented_first : forall ind p s k b column v ind',
    i_align_first ind = true ->
    indentation (i_tab_spaces ind) (i_indent ind) s k ->
    longest blank (skipn k s) b ->
    column = (i_indent ind + width (i_tab_spaces ind) (firstn b (skipn k s)))%N ->
    (column < u32_max)%N ->
    one (set_indent ind (column + 1)) (p + k + b) (skipn (k + b) s) v ind' ->
    indented_line one (ind, true) p s (after (k + b) [] v) (set_indent ind' column, false).

(** A line of [c] spaces of indentation, followed by something read by the rule with an
    indentation one deeper. *)
Definition at_column (c : N) (item : str) : Prop :=
  exists y, item = repeat space (N.to_nat c) ++ y /\ hd_error y <> Some space.

(** The text of the items of a block and the gaps before them. *)
Fixpoint joined (items : list (str * str)) : str :=
  match items with
  | [] => []
  | (gap, item) :: rest => gap ++ item ++ joined rest
  end.

(** Gaps are white space, and consecutive items are separated by a line break. *)
Inductive broken : option str -> list (str * str) -> Prop :=
| broken_nil : forall prev, broken prev []
| broken_cons : forall prev gap item items,
    Forall white gap ->
    (forall x, prev = Some x -> ends_line (x ++ gap)) ->
    broken (Some item) items -> broken prev ((gap, item) :: items).
