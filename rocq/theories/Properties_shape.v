(** C69: data has the shape of the grammar. *)
From Coq Require Import Ascii String List NArith Bool Arith Lia.
From Verif Require Import Base Ext Types ParseModel PegSpec ApiSpec DataSpec OptSpec ExtProofs TreeSpec ShapeSpec ShapeProofs Examples.
Import ListNotations.
Local Open Scope string_scope.
Local Open Scope list_scope.
Local Open Scope nat_scope.

(** What a text adds to the data has the shape of the last rule. *)
Theorem C69_shape : forall E, ext_ok E -> forall s text tokens ind r, start_rule s r -> forall new,
  parse_returns E s text tokens ind None (tokens ++ new) -> shape (s_rules s) r (map snd new).
Proof. exact parse_shape. Qed.
Print Assumptions C69_shape.

(** With an optimised syntax it has the shape of the rule that was optimised. *)
Theorem C69_optimized : forall E, ext_ok E -> forall s s' text tokens ind r, optimize_returns s s' -> start_rule s r -> forall new,
  parse_returns E s' text tokens ind None (tokens ++ new) -> shape (s_rules s) r (map snd new).
Proof. exact optimized_shape. Qed.
Print Assumptions C69_optimized.

(** The data is one list of trees, and every node in it, at any depth, belongs to a reference
    with that property, and what is in the node has the shape of the rule referred to. *)
Theorem C69_nodes : forall E, ext_ok E -> forall s text tokens ind new, parse_returns E s text tokens ind None (tokens ++ new) ->
  exists ts, (Forall good ts /\ map snd new = flat_map flat ts) /\
    (forall ts', Forall good ts' -> map snd new = flat_map flat ts' -> ts' = ts) /\
    (forall p ks, below (Tree p ks) ts -> exists name i id r,
       occurs s (RNode name (Some p) (Some i) id) /\ nth_error (s_rules s) i = Some r /\ shape (s_rules s) r (flat_map flat ks)).
Proof. exact parse_trees. Qed.
Print Assumptions C69_nodes.

Definition C69_twelve : f64 := match std_parse_number false (tx "12") with Some x => x | None => SpecFloat.S754_nan end.

(** The items of [ex_text]. *)
Definition C69_trees : list tree :=
  let item l := Tree (tx "item") l in
  let name v := Leaf (MString (tx "name") v) in
  [ item [name (tx "a"); Leaf (MF64 (tx "num") C69_twelve)];
    item [name (tx "b"); Leaf (MString (tx "text") (tx "hi"))];
    item [name (tx "c"); Leaf (MBool (tx "flag") false)];
    item [name (tx "d")] ].

Example C69_example : exists new,
  start_rule ex_syntax ex_doc /\ parse_returns std_ext ex_syntax ex_text [] indent_default None ([] ++ new) /\
  Forall good C69_trees /\ map snd new = flat_map flat C69_trees /\
  below (Tree (tx "item") [Leaf (MString (tx "name") (tx "d"))]) C69_trees.
Proof.
  eexists. split; [exists [ex_item]; reflexivity|]. split; [exists 40; vm_compute; reflexivity|].
  split; [repeat constructor|]. split; [vm_compute; reflexivity|]. apply below_here. do 3 right. left. reflexivity.
Qed.

(** What that says of every text that [ex_syntax] reads: all nodes are items, they start with a
    name that is not empty, and at most one item follows. *)
Example C69_items : forall E, ext_ok E -> forall text tokens ind new ts,
  parse_returns E ex_syntax text tokens ind None (tokens ++ new) -> Forall good ts -> map snd new = flat_map flat ts ->
  forall p ks, below (Tree p ks) ts -> p = tx "item" /\ exists v rest, ks = Leaf (MString (tx "name") v) :: rest /\ v <> [] /\ length rest <= 1.
Proof.
  intros E HE text tokens ind new ts H Hg Ht p ks Hb. destruct (C69_nodes E HE _ _ _ _ _ H) as (ts' & _ & Hone & Hn).
  rewrite (Hone ts Hg Ht) in Hb. destruct (Hn p ks Hb) as (name & i & id & r & (top & Hin & Ho) & Hr & Hs).
  assert (p = tx "item" /\ r = ex_item) as [-> ->].
  { destruct Hin as [<-|[<-|[]]];
      repeat match goal with
        | X : occurs_in _ _ |- _ => inversion X as [|? c Hc]; clear X; subst
        | X : In _ (children _) |- _ => cbn in X
        | X : _ \/ _ |- _ => destruct X as [<-|X]
        | X : False |- _ => destruct X
        end. cbn in Hr. injection Hr as <-. auto. }
  split; [reflexivity|]. clear - Hs. unfold ex_item in Hs.
  repeat match goal with
    | X : shape _ (RSequence _ _) _ |- _ => inversion X; clear X; subst
    | X : shape _ (RTag _ _ _ None _) _ |- _ => inversion X; clear X; subst
    | X : shape _ (RUntilAnyOrWs _ _ _ _) _ |- _ => inversion X; clear X; subst
    end.
  assert (Ha : length a1 <= 1).
  { clear - H5. repeat match goal with
      | X : shape _ (ROptional _ _) _ |- _ => inversion X; clear X; subst
      | X : shape _ (RSequence _ _) _ |- _ => inversion X; clear X; subst
      | X : shape _ (RTag _ _ _ _ _) _ |- _ => inversion X; clear X; subst
      | X : shape _ (RText _ _ _) _ |- _ => inversion X; clear X; subst
      | X : shape _ (RNumber _ _ _) _ |- _ => inversion X; clear X; subst
      | X : shape _ (RSelect _ _) _ |- _ => inversion X; clear X; subst
      | X : In _ _ |- _ => cbn in X
      | X : _ = _ \/ _ |- _ => destruct X as [<-|X]
      | X : False |- _ => destruct X
      end; cbn; auto. }
  destruct ks as [|[m|m l] rest]; cbn in H3; try discriminate H3. injection H3 as <- H3. rewrite app_nil_r in H3. subst a1.
  exists v, rest. split; [reflexivity|]. split; [destruct H8; [discriminate|assumption]|].
  destruct rest as [|[m|m l] [|[m'|m' l'] rest]]; cbn in *; rewrite ?app_length in Ha; cbn in Ha; lia.
Qed.

(** A syntax that optimisation changes. *)
Definition C69_select : rule := RSelect [RTag (tx "a") false false (Some (tx "p")) 1; RTag (tx "b") false true (Some (tx "q")) 2; RNumber false (Some (tx "n")) 3] 4.

Example C69_optimized_example : exists s' new,
  optimize_returns (Syn [C69_select] [tx "doc"]) s' /\ s' <> Syn [C69_select] [tx "doc"] /\
  parse_returns std_ext s' (tx "b") [] indent_default None ([] ++ new) /\ map snd new = [MBool (tx "q") false].
Proof.
  do 2 eexists. split; [exists 20; vm_compute; reflexivity|]. split; [intros H; discriminate H|].
  split; [exists 20; vm_compute; reflexivity|]. vm_compute. reflexivity.
Qed.
