(** Texts on which reading a syntax goes wrong. *)
From Coq Require Import Ascii String List NArith Bool Arith Lia.
From Verif Require Import Base Ext Types DataSpec ParseModel OptimizeModel ConvertModel BootstrapRules
  LibModel ApiSpec OptSpec ConvertSpec SyntaxSpec OptProofs2 FuelProofs ConvertFuel SyntaxProofs Examples.
Import ListNotations.
Local Open Scope string_scope.
Local Open Scope list_scope.
Local Open Scope nat_scope.

Definition line_end : str := [newline].

(** A rule that starts with itself, below a select. *)
Definition hanging_text : str :=
  tx "1 a = [a ""x""]" ++ line_end ++ tx "2 doc = {""b"" a}".

Definition hanging : syntax :=
  Syn [RSequence [RNode (tx "a") None (Some 0) 1001; RTag (tx "x") false false None 1002] 1003;
       RSelect [RTag (tx "b") false false None 2001; RNode (tx "a") None (Some 0) 2002] 2003]
      [tx "a"; tx "doc"].

Lemma hanging_read : syntax_unoptimized std_ext 300 hanging_text = Done (inl hanging).
Proof. vm_compute. reflexivity. Qed.

Lemma hanging_diverges : optimize_diverges hanging.
Proof.
  intros f. unfold optimize, hanging. cbn [s_rules map_o optimize_rule obind].
  unfold unique_table_from_select. cbn [unique_loop].
  destruct f as [|f]; [reflexivity|]. cbn [Nat.leb].
  match goal with |- context [unique_byte (S f) ?r (RNode ?a ?b ?c ?d)] =>
    assert (H : forall f, unique_byte f r (RNode a b c d) = OutOfFuel /\
                          forall q, nth_error r 0 = Some q -> unique_byte f r q = OutOfFuel) end.
  { clear f. induction f as [f IH] using lt_wf_ind. destruct f as [|f]; [split; reflexivity|].
    split.
    - cbn [unique_byte nth_error]. apply (IH f); [lia|reflexivity].
    - intros q [= <-]. destruct f as [|f]; [reflexivity|].
      cbn [unique_byte nth_error]. apply (IH f); [lia|reflexivity]. }
  destruct (H (S f)) as [H1 _]. rewrite H1.
  cbn [unique_byte obind]. vm_compute. reflexivity.
Qed.

Theorem hanging_syntax : syntax_diverges std_ext hanging_text.
Proof.
  intros f. unfold lib_syntax. destruct (syntax_unoptimized std_ext f hanging_text) as [r| |] eqn:Hf; [| |reflexivity].
  all: assert (H : syntax_unoptimized std_ext f hanging_text = Done (inl hanging));
    [rewrite <- hanging_read; apply (agree (fun n => syntax_unoptimized std_ext n hanging_text));
     [intros m n; apply syntax_unoptimized_mono|rewrite Hf; discriminate|rewrite hanging_read; discriminate]|].
  - rewrite Hf in H. injection H as ->. cbn [obind]. rewrite hanging_diverges. reflexivity.
  - rewrite Hf in H. discriminate.
Qed.

(** ** Conversion of data that is not nested *)

Definition unclosed : list tok := [(Rng 0 0, StartNode (tx "node"))].

Theorem unclosed_diverges ig : convert_diverges unclosed ig.
Proof.
  assert (H : forall fuel ss ig, node_loop fuel ss (Cv [] 1) None None None ig = OutOfFuel).
  { induction fuel as [|fuel IH]; intros ss ig'; [reflexivity|]. cbn [node_loop].
    change (c_end_node (Cv [] 1) (s2l "node")) with (@None range). cbv iota.
    change (c_meta_f64 (Cv [] 1) (s2l "id")) with (@None (range * f64)). cbv iota.
    change (c_meta_string (Cv [] 1) (s2l "name")) with (@None (range * str)). cbv iota.
    change (mul_usize 0 1000) with (Done 0%N). cbn [obind].
    destruct fuel as [|fuel]; [reflexivity|].
    change (read_rule (S fuel) (s2l "rule") ss (Cv [] 1) (0%N, ig')) with
      (Done (@None (range * rule), (0%N, ig'))). cbn [obind snd].
    change (skip_item (Cv [] 1) ig') with (Done (Cv [] 1, ig' ++ [Rng 1 0])). cbn [obind].
    apply IH. }
  intros [|[|fuel]]; [reflexivity..|]. unfold convert.
  change (strings_loop (S (S fuel)) (c_new unclosed) []) with (Done (c_new unclosed, @nil (str * str))).
  cbn [obind nodes_loop]. unfold read_node.
  change (c_start_node (c_new unclosed) (s2l "node")) with (Some (Rng 0 1)). cbv iota.
  change (c_update (c_new unclosed) (Rng 0 1)) with (Done (Cv (@nil tok) 1)). cbn [obind].
  rewrite H. reflexivity.
Qed.

Definition unopened : list tok := [(Rng 0 0, StartNode (tx "node")); (Rng 0 0, EndNode (tx "x"))].

Theorem unopened_panics ig : convert_panics unopened ig.
Proof. exists 10. vm_compute. reflexivity. Qed.
