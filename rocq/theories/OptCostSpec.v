(** How often optimisation visits the rules of a syntax. *)
From Coq Require Import Ascii String List NArith Bool Arith.
From Verif Require Import Base Ext Types DataSpec OptCostModel StuckSpec.
Import ListNotations.
Local Open Scope nat_scope.

(** Optimising makes this number of calls of [optimize_rule]. *)
Definition optimize_makes_calls (s : syntax) (n : N) : Prop :=
  exists fuel s', optimize_count fuel s = Done (s', n).

Section Visits.
  Variable refs : list rule.

  (** The two rules begin with known and different bytes. *)
  Definition begin_differently (a b : rule) : Prop :=
    exists x y, begins refs a x /\ begins refs b y /\ x <> y.

  (** Rules that are looked through once. *)
  Definition plain (r : rule) : Prop :=
    match r with
    | RFastSelect _ _ _ _ => False
    | RSelect (a :: b :: _ :: _) _ => begin_differently a b
    | _ => True
    end.

  (** [visits r n]: optimising [r] visits [n] rules. The parts of a rule are visited once. All
      alternatives of a select but the first are visited twice if there are more than two and
      the first two do not begin with different bytes. *)
  Inductive visits : rule -> N -> Prop :=
  | visits_fast : forall table args tail id, visits (RFastSelect table args tail id) 1%N
  | visits_once : forall r n, plain r -> visits_all (children r) n -> visits r (1 + n)%N
  | visits_twice : forall a b c rest id n m, ~ begin_differently a b ->
      visits a n -> visits_all (b :: c :: rest) m ->
      visits (RSelect (a :: b :: c :: rest) id) (1 + n + 2 * m)%N
  with visits_all : list rule -> N -> Prop :=
  | visits_none : visits_all [] 0%N
  | visits_more : forall r rs n m, visits r n -> visits_all rs m -> visits_all (r :: rs) (n + m)%N.

  Scheme visits_ind' := Minimality for visits Sort Prop
  with visits_all_ind' := Minimality for visits_all Sort Prop.
  Combined Scheme visits_mutind from visits_ind', visits_all_ind'.
End Visits.

(** The number of rules inside a rule, itself included. *)
Fixpoint rule_size (r : rule) : N :=
  match r with
  | RSelect args _ | RSequence args _ => (1 + fold_right (fun a n => rule_size a + n) 0 args)%N
  | RSeparateBy a b _ _ _ => (1 + rule_size a + rule_size b)%N
  | RRepeat a _ _ | RLines a _ _ | ROptional a _ | RNot a _ => (1 + rule_size a)%N
  | _ => 1%N
  end.

(** How deep selects of more than two alternatives are nested. *)
Fixpoint select_depth (r : rule) : N :=
  match r with
  | RSelect args _ =>
    ((if (2 <? length args)%nat then 1 else 0) + fold_right (fun a n => N.max (select_depth a) n) 0 args)%N
  | RSequence args _ => fold_right (fun a n => N.max (select_depth a) n) 0%N args
  | RSeparateBy a b _ _ _ => N.max (select_depth a) (select_depth b)
  | RRepeat a _ _ | RLines a _ _ | ROptional a _ | RNot a _ => select_depth a
  | _ => 0%N
  end.

Definition syntax_size (s : syntax) : N := fold_right (fun r n => (rule_size r + n)%N) 0%N (s_rules s).
Definition syntax_depth (s : syntax) : N := fold_right (fun r n => N.max (select_depth r) n) 0%N (s_rules s).
