(** The counted parser: the count is a function of the input, and exists exactly if parsing
    returns. *)
From Coq Require Import Ascii String List NArith Bool Arith Lia.
From Verif Require Import Base Ext Types ParseModel CostModel CostSpec DataSpec ApiSpec CostProofs
  PegSpec ExtProofs TotalSpec TotalCheck Examples.
Import ListNotations.
Local Open Scope string_scope.
Local Open Scope list_scope.
Local Open Scope nat_scope.

Theorem count_unique E s text tokens ind n n' :
  makes_calls E s text tokens ind n -> makes_calls E s text tokens ind n' -> n = n'.
Proof.
  intros (f & r & H) (f' & r' & H').
  assert (Hle : forall f g m r m' r', f <= g -> parse_cost E f s text tokens ind = (m, Done r) ->
    parse_cost E g s text tokens ind = (m', Done r') -> m = m').
  { clear. intros f g m r m' r' Hfg H H'.
    destruct (parse_more E f g s text tokens ind Hfg) as [He|He].
    - rewrite H in He. discriminate.
    - congruence. }
  destruct (Nat.le_ge_cases f f') as [Hl|Hl]; [eapply Hle; eassumption|].
  symmetry. eapply Hle; eassumption.
Qed.

Theorem count_exists E s text tokens ind :
  (exists n, makes_calls E s text tokens ind n) <->
  exists result tokens', parse_returns E s text tokens ind result tokens'.
Proof.
  split.
  - intros (n & f & [result tokens'] & H). exists result, tokens', f.
    rewrite <- parse_same, H. reflexivity.
  - intros (result & tokens' & f & H). rewrite <- parse_same in H.
    destruct (parse_cost E f s text tokens ind) as [n o] eqn:Hc. cbn [snd] in H. subst o.
    exists n, f, (result, tokens'). exact Hc.
Qed.

(** The rules a rule refers to. *)
Fixpoint refers (r : rule) : list nat :=
  match r with
  | RNode _ _ (Some j) _ => [j]
  | RSelect args _ | RSequence args _ | RFastSelect _ args _ _ => flat_map refers args
  | RSeparateBy r by_ _ _ _ => refers r ++ refers by_
  | RRepeat r _ _ | RLines r _ _ | ROptional r _ | RNot r _ => refers r
  | _ => []
  end.

Lemma refers_spec name property j id r : occurs_in (RNode name property (Some j) id) r -> In j (refers r).
Proof.
  induction 1 as [|r c Hc _ IH]; [left; reflexivity|].
  destruct r; cbn [children refers] in *; try contradiction;
    try (apply in_flat_map; eauto; fail); try (destruct Hc as [->|[]]; exact IH).
  apply in_or_app. destruct Hc as [->|[->|[]]]; auto.
Qed.

Lemma ex_no_recursion : no_recursion ex_syntax.
Proof.
  exists (fun i => i). intros i r name property j id Hi Ho. apply refers_spec in Ho.
  destruct i as [|[|i]]; cbn in Hi; [| |destruct i; discriminate Hi]; injection Hi as <-; cbn in Ho.
  - destruct Ho.
  - destruct Ho as [<-|[]]. lia.
Qed.

Lemma makes_calls_check E fuel s text tokens ind n :
  match parse_cost E fuel s text tokens ind with (m, Done _) => m =? n | _ => false end = true ->
  makes_calls E s text tokens ind n.
Proof.
  intros H. exists fuel. destruct (parse_cost E fuel s text tokens ind) as [m [r| |]]; try discriminate.
  apply Nat.eqb_eq in H. subst m. exists r. reflexivity.
Qed.
