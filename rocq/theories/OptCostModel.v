(** Model of src/optimize.rs once more, with the branch that [OptimizeModel] leaves out and
    with the number of calls of [optimize_rule]. *)
From Coq Require Import Ascii String List NArith Bool Arith.
From Verif Require Import Base Ext Types OptimizeModel.
Import ListNotations.

(** [iter().map(..).collect()]; the calls add up. *)
Definition map_count {A B} (f : A -> outcome (B * N)) : list A -> outcome (list B * N) :=
  fix go (l : list A) : outcome (list B * N) :=
    match l with
    | [] => Done ([], 0%N)
    | x :: l' =>
      do (y, n) <- f x;
      do (ys, m) <- go l';
      Done (y :: ys, (n + m)%N)
    end.

(** src/optimize.rs:78-184 [optimize_rule], with the number of calls of it, this one
    included. *)
Fixpoint optimize_rule_count (fuel : nat) (refs : list rule) (r : rule) : outcome (rule * N) :=
  match r with
  | RWhitespace _ _ | RTag _ _ _ _ _ | RUntilAny _ _ _ _ | RUntilAnyOrWs _ _ _ _
  | RText _ _ _ | RNumber _ _ _ | RNode _ _ _ _ | RFastSelect _ _ _ _ => Done (r, 1%N)
  | RSequence args id =>
    do (args', n) <- map_count (optimize_rule_count fuel refs) args;
    Done (RSequence args' id, (1 + n)%N)
  | RSeparateBy r1 by_ optional allow_trail id =>
    do (r1', n) <- optimize_rule_count fuel refs r1;
    do (by', m) <- optimize_rule_count fuel refs by_;
    Done (RSeparateBy r1' by' optional allow_trail id, (1 + n + m)%N)
  | RRepeat r1 optional id =>
    do (r1', n) <- optimize_rule_count fuel refs r1;
    Done (RRepeat r1' optional id, (1 + n)%N)
  | RLines r1 indented id =>
    do (r1', n) <- optimize_rule_count fuel refs r1;
    Done (RLines r1' indented id, (1 + n)%N)
  | ROptional r1 id =>
    do (r1', n) <- optimize_rule_count fuel refs r1;
    Done (ROptional r1' id, (1 + n)%N)
  | RNot r1 id =>
    do (r1', n) <- optimize_rule_count fuel refs r1;
    Done (RNot r1' id, (1 + n)%N)
  | RSelect args id =>
    do (table, up) <- unique_table_from_select fuel refs args;
    if up <? 2 then
      (* lines 135-151: [Some] is the early return *)
      do (early, n) <-
        match args with
        | a :: ((_ :: _ :: _) as rest) =>
          do (try_args, n) <- map_count (optimize_rule_count fuel refs) rest;
          let try_opt := RSelect try_args id in
          match try_opt with
          | RFastSelect _ _ _ _ =>
            do (a', m) <- optimize_rule_count fuel refs a;
            Done (Some (RSelect [a'; try_opt] id), (n + m)%N)
          | _ => Done (None, n)
          end
        | _ => Done (None, 0%N)
        end;
      match early with
      | Some r' => Done (r', (1 + n)%N)
      | None =>
        do (args', m) <- map_count (optimize_rule_count fuel refs) args;
        Done (RSelect args' id, (1 + n + m)%N)
      end
    else
      do (args', n) <- map_count (optimize_rule_count fuel refs) args;
      if up <? length args
      then Done (RFastSelect table (firstn up args' ++ [RSelect (skipn up args') id]) true id, (1 + n)%N)
      else Done (RFastSelect table args' false id, (1 + n)%N)
  end.

(** src/lib.rs:210-213 [Syntax::optimize]. *)
Definition optimize_count (fuel : nat) (s : syntax) : outcome (syntax * N) :=
  do (rules, n) <- map_count (optimize_rule_count fuel (s_rules s)) (s_rules s);
  Done (Syn rules (s_names s), n).
