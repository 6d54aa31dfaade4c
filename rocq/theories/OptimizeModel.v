(** Model of src/optimize.rs and [Syntax::optimize]. *)
From Coq Require Import Ascii String List NArith Bool Arith.
From Verif Require Import Base Ext Types.
Import ListNotations.

(** src/optimize.rs:30-75 [unique_byte]. Recursion through node references needs fuel. *)
Fixpoint unique_byte (fuel : nat) (refs : list rule) (r : rule) : outcome (option N) :=
  match fuel with
  | O => OutOfFuel
  | S fuel' =>
    match r with
    | RWhitespace _ _ | RUntilAny _ _ _ _ | RUntilAnyOrWs _ _ _ _ | RNumber _ _ _
    | RLines _ _ _ | ROptional _ _ | RFastSelect _ _ _ _ => Done None
    | RNot r1 _ =>
      match r1 with
      | RNot r2 _ => unique_byte fuel' refs r2
      | _ => Done None
      end
    | RText _ _ _ => Done (Some 34%N)
    | RSelect args _ =>
      match args with
      | [a] => unique_byte fuel' refs a
      | _ => Done None
      end
    | RSeparateBy r1 _ optional _ _ =>
      if optional then Done None else unique_byte fuel' refs r1
    | RSequence args _ =>
      match args with
      | [] => Done None
      | a :: _ => unique_byte fuel' refs a
      end
    | RRepeat r1 optional _ =>
      if optional then Done None else unique_byte fuel' refs r1
    | RNode _ _ index _ =>
      match index with
      | Some i =>
        match nth_error refs i with
        | Some r1 => unique_byte fuel' refs r1
        | None => Panic (* refs[index] *)
        end
      | None => Done None
      end
    | RTag text not _ _ _ =>
      if not then Done None
      else
        match text with
        | c :: _ => Done (Some (utf8_first c))
        | [] => Done None
        end
    end
  end.

(** [data[b] = i]. *)
Fixpoint set_nth (l : list nat) (n : nat) (x : nat) : list nat :=
  match l, n with
  | [], _ => []
  | _ :: l', O => x :: l'
  | y :: l', S n' => y :: set_nth l' n' x
  end.

(** src/optimize.rs:16-24, the loop from alternative [i] on; [up] is [unique_up_to].
    Indexing outside of the 256 entries cannot happen for a byte and is a panic here. *)
Fixpoint unique_loop (fuel : nat) (refs : list rule) (args : list rule) (i : nat)
  (data : list nat) (up : nat) : outcome (list nat * nat) :=
  match args with
  | [] => Done (data, up)
  | r :: rest =>
    if 255 <=? i then Done (data, up)
    else
      do ub <- unique_byte fuel refs r;
      match ub with
      | None => Done (data, up)
      | Some b =>
        match nth_error data (N.to_nat b) with
        | None => Panic
        | Some x =>
          if Nat.eqb x 255
          then unique_loop fuel refs rest (S i) (set_nth data (N.to_nat b) i) (i + 1)
          else Done (data, up)
        end
      end
  end.

(** src/optimize.rs:13-26 [unique_table_from_select]. *)
Definition unique_table_from_select (fuel : nat) (refs : list rule) (args : list rule)
  : outcome (list nat * nat) :=
  unique_loop fuel refs args 0 (repeat 255 256) 0.

(** [iter().map(..).collect()] of a function that may panic. *)
Definition map_o {A B} (f : A -> outcome B) : list A -> outcome (list B) :=
  fix go (l : list A) : outcome (list B) :=
    match l with
    | [] => Done []
    | x :: l' =>
      do y <- f x;
      do ys <- go l';
      Done (y :: ys)
    end.

(** src/optimize.rs:78-184 [optimize_rule]. The branch of lines 135-151 builds a [Select]
    and then tests whether it is a [FastSelect]; it has no effect, apart from optimising
    the arguments once more, and is omitted (C64: [OptCostModel] has it). *)
Fixpoint optimize_rule (fuel : nat) (refs : list rule) (r : rule) : outcome rule :=
  match r with
  | RWhitespace _ _ | RTag _ _ _ _ _ | RUntilAny _ _ _ _ | RUntilAnyOrWs _ _ _ _
  | RText _ _ _ | RNumber _ _ _ | RNode _ _ _ _ | RFastSelect _ _ _ _ => Done r
  | RSequence args id =>
    do args' <- map_o (optimize_rule fuel refs) args;
    Done (RSequence args' id)
  | RSeparateBy r1 by_ optional allow_trail id =>
    do r1' <- optimize_rule fuel refs r1;
    do by' <- optimize_rule fuel refs by_;
    Done (RSeparateBy r1' by' optional allow_trail id)
  | RRepeat r1 optional id =>
    do r1' <- optimize_rule fuel refs r1;
    Done (RRepeat r1' optional id)
  | RLines r1 indented id =>
    do r1' <- optimize_rule fuel refs r1;
    Done (RLines r1' indented id)
  | ROptional r1 id =>
    do r1' <- optimize_rule fuel refs r1;
    Done (ROptional r1' id)
  | RNot r1 id =>
    do r1' <- optimize_rule fuel refs r1;
    Done (RNot r1' id)
  | RSelect args id =>
    do (table, up) <- unique_table_from_select fuel refs args;
    do args' <- map_o (optimize_rule fuel refs) args;
    if up <? 2 then Done (RSelect args' id)
    else if up <? length args
    then Done (RFastSelect table (firstn up args' ++ [RSelect (skipn up args') id]) true id)
    else Done (RFastSelect table args' false id)
  end.

(** src/lib.rs:210-213 [Syntax::optimize]. *)
Definition optimize (fuel : nat) (s : syntax) : outcome syntax :=
  do rules <- map_o (optimize_rule fuel (s_rules s)) (s_rules s);
  Done (Syn rules (s_names s)).
