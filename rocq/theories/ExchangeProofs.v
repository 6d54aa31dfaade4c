(** C101: nodes of the same rule may be exchanged. *)
From Coq Require Import Ascii String List NArith Bool Arith Lia Permutation.
From Verif Require Import Base Ext Types ParseModel OptimizeModel PegSpec DataSpec ApiSpec OptSpec ExtProofs PegFacts ParseProofs OptPublic
  ParsePublic TotalSpec TotalProofs TotalCheck ShapeSpec GrammarSpec GrammarProofs GrammarCheck GrammarPublic PlaceSpec PlaceProofs PlacePublic
  OccursProofs EditSpec EditProofs ExchangeSpec JsonSpec JsonProofs3 LeftProofs2 DataCheck AtEnd Examples.
Import ListNotations.
Local Open Scope string_scope.
Local Open Scope list_scope.
Local Open Scope nat_scope.

Lemma edit_parts (a y z : str) : firstn (length a) (a ++ y ++ z) = a /\ firstn (length y) (skipn (length a) (a ++ y ++ z)) = y /\
  skipn (length a + length y) (a ++ y ++ z) = z.
Proof.
  split; [rewrite firstn_app, Nat.sub_diag, firstn_all, firstn_O, app_nil_r; reflexivity|]. split.
  - rewrite skipn_app, Nat.sub_diag, skipn_all. cbn [app skipn]. rewrite firstn_app, Nat.sub_diag, firstn_all, firstn_O, app_nil_r. reflexivity.
  - rewrite app_assoc, <- app_length, skipn_app, Nat.sub_diag, skipn_all. reflexivity.
Qed.

(** Both edits together. *)
Lemma edited_twice o1 n1 o2 n2 (text : str) : o1 + n1 <= o2 -> o2 + n2 <= length text ->
  edited o1 n1 (firstn n2 (skipn o2 text)) (edited o2 n2 (firstn n1 (skipn o1 text)) text) = exchanged o1 n1 o2 n2 text.
Proof.
  intros H1 H2. unfold edited at 1. unfold exchanged. unfold edited. f_equal; [|f_equal].
  - rewrite firstn_app, firstn_firstn, Nat.min_l by lia. rewrite firstn_length_le by lia. replace (o1 - o2) with 0 by lia. rewrite firstn_O, app_nil_r. reflexivity.
  - rewrite skipn_app, firstn_length_le by lia. replace (o1 + n1 - o2) with 0 by lia. cbn [skipn]. f_equal. rewrite skipn_firstn_comm. reflexivity.
Qed.

Lemma exchanged_fit o1 n1 o2 n2 ind (text : str) : o1 + n1 <= o2 -> o2 + n2 <= length text ->
  columns_fit ind text -> columns_fit ind (exchanged o1 n1 o2 n2 text).
Proof.
  intros H1 H2 [Hr Hl].
  assert (Hp : Permutation text (exchanged o1 n1 o2 n2 text)).
  { unfold exchanged.
    assert (Ht : text = firstn o1 text ++ firstn n1 (skipn o1 text) ++ firstn (o2 - (o1 + n1)) (skipn (o1 + n1) text) ++ firstn n2 (skipn o2 text) ++ skipn (o2 + n2) text).
    { rewrite <- (firstn_skipn o1 text) at 1. f_equal. rewrite <- (firstn_skipn n1 (skipn o1 text)) at 1. f_equal. rewrite skipn_skipn_add.
      rewrite <- (firstn_skipn (o2 - (o1 + n1)) (skipn (o1 + n1) text)) at 1. f_equal. rewrite skipn_skipn_add.
      replace (o1 + n1 + (o2 - (o1 + n1))) with o2 by lia. rewrite <- (firstn_skipn n2 (skipn o2 text)) at 1. f_equal. rewrite skipn_skipn_add. reflexivity. }
    rewrite Ht at 1. apply Permutation_app_head. rewrite !app_assoc. apply Permutation_app_tail. rewrite <- !app_assoc.
    set (A := firstn n1 _). set (B := firstn _ (skipn (o1 + n1) text)). set (C := firstn n2 _).
    transitivity ((B ++ C) ++ A); [apply Permutation_app_comm|]. rewrite <- app_assoc. rewrite !app_assoc. apply Permutation_app_tail. apply Permutation_app_comm. }
  split; [apply (Permutation_Forall Hp); exact Hr|]. rewrite <- (Permutation_length Hp). exact Hl.
Qed.

Lemma adjusted_moved_inv o n m d ts us : o < d -> Forall2 (adjusted o n m) (moved_by d ts) us -> o + n <= d -> us = moved_by (d - n + m) ts.
Proof.
  intros Hlt. revert us. induction ts as [|t ts IH]; intros us H Hd; inversion H; subst; [reflexivity|].
  cbn [moved_by map] in *. f_equal; [|apply IH; assumption]. destruct y as [rg md]. destruct H2 as [Hs [[Hl Heq]|(K & _)]]; cbn [fst snd r_off r_len] in *; [|lia].
  subst. f_equal. f_equal. lia.
Qed.

Section Exchange.
  Variable E : ext.
  Variable s : syntax.

  Lemma exchange_places r : occurs s r -> forall name i, names_rule s name i -> forall text ts before o1 inner1 n1 mid o2 inner2 n2 after,
    places E (s_rules s) r 0 text ts -> ts = before ++ node name o1 inner1 n1 ++ mid ++ node name o2 inner2 n2 ++ after ->
    nested (map snd inner1) -> nested (map snd inner2) -> o1 < o2 ->
    let p := o2 - n1 + n2 in
    o1 + n1 <= o2 /\ o2 + n2 <= length text /\
    exists data1 data2 mid' after' after'', inner1 = moved_by o1 data1 /\ inner2 = moved_by o2 data2 /\
      Forall2 (adjusted o1 n1 n2) mid mid' /\ Forall2 (adjusted o2 n2 n1) after after' /\ Forall2 (adjusted o1 n1 n2) after' after'' /\
      places E (s_rules s) r 0 (exchanged o1 n1 o2 n2 text)
        (before ++ node name o1 (moved_by o1 data2) n2 ++ mid' ++ node name p (moved_by p data1) n1 ++ after'').
  Proof.
    intros Ho name i Hname text ts before o1 inner1 n1 mid o2 inner2 n2 after H Hts N1 N2 Hlt p.
    assert (Hn1 : node_at ts before name o1 inner1 n1 (mid ++ node name o2 inner2 n2 ++ after)).
    { split; [|exact N1]. rewrite Hts. unfold node. repeat (cbn [app]; rewrite <- ?app_assoc). reflexivity. }
    assert (Hn2 : node_at ts (before ++ node name o1 inner1 n1 ++ mid) name o2 inner2 n2 after).
    { split; [|exact N2]. rewrite Hts. unfold node. repeat (cbn [app]; rewrite <- ?app_assoc). reflexivity. }
    destruct (proj1 (places_edit E s) _ _ _ _ H Ho _ _ _ _ _ _ Hn1) as (rf1 & i1 & d1 & q1 & a1 & y1 & z1 & A1 & A2 & A3 & A4 & A5 & A6 & _).
    destruct (proj1 (places_edit E s) _ _ _ _ H Ho _ _ _ _ _ _ Hn2) as (rf2 & i2 & d2 & q2 & a2 & y2 & z2 & B1 & B2 & B3 & B4 & B5 & B6 & B7).
    rewrite (Hname _ _ _ A1) in A2. rewrite (Hname _ _ _ B1), A2 in B2. injection B2 as <-.
    destruct (proj1 (places_back E (s_rules s) o1) _ _ _ _ A6 0 ltac:(lia)) as (data1 & -> & A0).
    destruct (proj1 (places_back E (s_rules s) o2) _ _ _ _ B6 0 ltac:(lia)) as (data2 & -> & B0).
    pose proof (proj1 (places_moved E (s_rules s) o2) _ _ _ _ A0) as A8. rewrite Nat.add_0_r in A8.
    pose proof (proj1 (places_moved E (s_rules s) o1) _ _ _ _ B0) as B8. rewrite Nat.add_0_r in B8.
    destruct (B7 _ _ A8) as (after' & C1 & C2).
    assert (Hn3 : node_at ((before ++ node name o1 (moved_by o1 data1) n1 ++ mid) ++ (Rng o2 0, StartNode name) :: moved_by o2 data1 ++ (Rng o2 (length y1), EndNode name) :: after')
      before name o1 (moved_by o1 data1) n1 (mid ++ node name o2 (moved_by o2 data1) n1 ++ after')).
    { split; [|exact N1]. rewrite A5. unfold node. repeat (cbn [app]; rewrite <- ?app_assoc). reflexivity. }
    destruct (proj1 (places_edit E s) _ _ _ _ C2 Ho _ _ _ _ _ _ Hn3) as (rf3 & i3 & d3 & q3 & a3 & y3 & z3 & D1 & D2 & D3 & D4 & D5 & _ & D7).
    rewrite (Hname _ _ _ D1), A2 in D2. injection D2 as <-.
    destruct (D7 _ _ B8) as (X & F1 & F2). cbn [Nat.add] in A4, B4, D4.
    apply Forall2_app_inv_l in F1 as (mid' & X1 & F3 & F4 & ->). apply Forall2_app_inv_l in F4 as (X2 & after'' & F4 & F5 & ->).
    unfold node in F4. inversion F4 as [|t0 u0 ? X3 G1 G2]; subst t0 X2. clear F4. 
    destruct u0 as [rg md]. destruct G1 as [Gs [[Gl Geq]|(_ & _ & [nm Gn] & _)]]; cbn [fst snd r_off r_len] in *; [|discriminate]. subst md rg.
    apply Forall2_app_inv_l in G2 as (X4 & X5 & G3 & G4 & ->). rewrite <- B5 in G3, G4.
    apply adjusted_moved_inv in G3; [|lia|lia]. subst X4.
    inversion G4 as [|t0 u0 ? X6 G5 G6]; subst t0 X5. inversion G6; subst X6. clear G4 G6.
    destruct u0 as [rg md]. destruct G5 as [Gs [[_ Geq]|(K & _)]]; cbn [fst snd r_off r_len] in *; [|lia]. subst md rg.
    split; [exact Gl|]. assert (Hlen : o2 + n2 <= length text) by (rewrite B3, !app_length; lia). split; [exact Hlen|].
    rewrite <- B5 in F2, F3, F5. rewrite <- A5 in C1. exists data1, data2, mid', after', after''. do 5 (split; [first [reflexivity|assumption]|]).
    rewrite <- (edited_twice o1 n1 o2 n2 text Gl Hlen).
    destruct (edit_parts a1 y1 z1) as (_ & P1 & _). rewrite <- A3, <- A4, <- A5 in P1. rewrite P1.
    destruct (edit_parts a2 y2 z2) as (Q1 & Q2 & Q3). rewrite <- B3, <- B4, <- B5 in Q2. rewrite <- B3, <- B4 in Q1. rewrite <- B3, <- B4, <- B5 in Q3. rewrite Q2.
    unfold edited at 2. rewrite Q1, Q3. destruct (edit_parts a3 y3 z3) as (R1 & _ & R3). rewrite <- D3, <- D4 in R1. rewrite <- D3, <- D4, <- D5 in R3.
    unfold edited. rewrite R1, R3. unfold node. unfold p.
    repeat (cbn [app] in F2; rewrite <- ?app_assoc in F2). repeat (cbn [app]; rewrite <- ?app_assoc).
    exact F2.
  Qed.
End Exchange.

Theorem nodes_exchanged E : ext_ok E -> strings_end E -> forall s, valid s -> well_formed s -> clear E s ->
  forall name i, names_rule s name i ->
  forall text tokens ind before o1 inner1 n1 mid o2 inner2 n2 after, columns_fit ind text ->
  parse_returns E s text tokens ind None (tokens ++ before ++ node name o1 inner1 n1 ++ mid ++ node name o2 inner2 n2 ++ after) ->
  nested (map snd inner1) -> nested (map snd inner2) -> o1 < o2 ->
  let p := o2 - n1 + n2 in
  exists data1 data2 mid' after' after'', inner1 = moved_by o1 data1 /\ inner2 = moved_by o2 data2 /\
    Forall2 (adjusted o1 n1 n2) mid mid' /\ Forall2 (adjusted o2 n2 n1) after after' /\ Forall2 (adjusted o1 n1 n2) after' after'' /\
    parse_returns E s (exchanged o1 n1 o2 n2 text) tokens ind None
      (tokens ++ before ++ node name o1 (moved_by o1 data2) n2 ++ mid' ++ node name p (moved_by p data1) n1 ++ after'').
Proof.
  intros HE Hs s Hv Hw Hc name i Hname text tokens ind before o1 inner1 n1 mid o2 inner2 n2 after Hf H N1 N2 Hlt p.
  destruct (has_start E s _ _ _ _ HE H) as (start & Hr).
  pose proof (parse_placed E HE s (clear_no_lines E s Hc) start Hr text tokens ind _ H) as Hp.
  destruct (exchange_places E s start (start_occurs _ _ Hr) name i Hname _ _ _ _ _ _ _ _ _ _ _ Hp eq_refl N1 N2 Hlt)
    as (Gl & Hlen & data1 & data2 & mid' & after' & after'' & K1 & K2 & K3 & K4 & K5 & K6).
  exists data1, data2, mid', after', after''. do 5 (split; [assumption|]).
  apply (clear_placed E HE Hs s Hv Hw Hc start Hr _ ind (exchanged_fit _ _ _ _ ind text Gl Hlen Hf)). exact K6.
Qed.

Theorem exchanged_optimized E : ext_ok E -> strings_end E -> forall s s', valid s -> well_formed s -> clear E s ->
  optimize_returns s s' -> tails_fail_at_end E s -> forall name i, names_rule s name i ->
  forall text tokens ind before o1 inner1 n1 mid o2 inner2 n2 after, columns_fit ind text ->
  parse_returns E s' text tokens ind None (tokens ++ before ++ node name o1 inner1 n1 ++ mid ++ node name o2 inner2 n2 ++ after) ->
  nested (map snd inner1) -> nested (map snd inner2) -> o1 < o2 ->
  let p := o2 - n1 + n2 in
  exists data1 data2 mid' after' after'', inner1 = moved_by o1 data1 /\ inner2 = moved_by o2 data2 /\
    Forall2 (adjusted o1 n1 n2) mid mid' /\ Forall2 (adjusted o2 n2 n1) after after' /\ Forall2 (adjusted o1 n1 n2) after' after'' /\
    parse_returns E s' (exchanged o1 n1 o2 n2 text) tokens ind None
      (tokens ++ before ++ node name o1 (moved_by o1 data2) n2 ++ mid' ++ node name p (moved_by p data1) n1 ++ after'').
Proof.
  intros HE Hs s s' Hv Hw Hc Ho Ht name i Hname text tokens ind before o1 inner1 n1 mid o2 inner2 n2 after Hf H N1 N2 Hlt p.
  apply (optimize_accepts E HE s s' Ho Ht text tokens ind (proj1 Hf)) in H.
  destruct (has_start E s _ _ _ _ HE H) as (start & Hr).
  pose proof (parse_placed E HE s (clear_no_lines E s Hc) start Hr text tokens ind _ H) as Hp.
  destruct (exchange_places E s start (start_occurs _ _ Hr) name i Hname _ _ _ _ _ _ _ _ _ _ _ Hp eq_refl N1 N2 Hlt)
    as (Gl & Hlen & data1 & data2 & mid' & after' & after'' & K1 & K2 & K3 & K4 & K5 & K6).
  pose proof (exchanged_fit _ _ _ _ ind text Gl Hlen Hf) as Hf'.
  exists data1, data2, mid', after', after''. do 5 (split; [assumption|]).
  apply (optimize_accepts E HE s s' Ho Ht _ tokens ind (proj1 Hf')).
  apply (clear_placed E HE Hs s Hv Hw Hc start Hr _ ind Hf'). exact K6.
Qed.

(** ** What it needs *)

(** [0 w = {"ab" "a"}
     1 doc = [w:"w" "b" w:"w" "!"]] *)
Definition eager : syntax :=
  Syn [RSelect [t (tx "ab") 1; t (tx "a") 2] 3;
       RSequence [RNode (tx "w") (Some (tx "w")) (Some 0) 4; t (tx "b") 5; RNode (tx "w") (Some (tx "w")) (Some 0) 6; t (tx "!") 7] 8] [tx "w"; tx "doc"].

Lemma eager_refuted : exists s name i text before o1 inner1 n1 mid o2 inner2 n2 after e left_,
  valid s /\ well_formed s /\ without_lines s /\ names_rule s name i /\ columns_fit indent_default text /\
  parse_returns std_ext s text [] indent_default None (before ++ node name o1 inner1 n1 ++ mid ++ node name o2 inner2 n2 ++ after) /\
  nested (map snd inner1) /\ nested (map snd inner2) /\ o1 < o2 /\
  parse_returns std_ext s (exchanged o1 n1 o2 n2 text) [] indent_default (Some e) left_.
Proof.
  exists eager, (tx "w"), 0, (tx "abba!"), [], 0, [], 2, [], 3, [], 1, []. eexists. eexists.
  split; [apply validb_spec; vm_compute; reflexivity|]. split; [apply well_formedb_spec; vm_compute; reflexivity|].
  split; [intros r indented id (top & Hin & Ho); cbn in Hin; destruct Hin as [<-|[<-|[]]]; apply (all_sub_spec (fun q => match q with RLines _ _ _ => false | _ => true end)) in Ho; try reflexivity; discriminate|].
  split; [apply names_ruleb_spec; vm_compute; reflexivity|]. split; [apply columns_fitb_spec; vm_compute; reflexivity|].
  split; [exists 50; vm_compute; reflexivity|]. do 2 (split; [constructor|]). split; [lia|].
  exists 50. vm_compute. reflexivity.
Qed.

(** [[1]] and [[]] in [[[1],0,[]]] are exchanged. *)
Lemma json_exchanged : exists one zero,
  columns_fit indent_default (tx "[[1],0,[]]") /\
  parse_returns std_ext json_syntax (tx "[[1],0,[]]") [] indent_default None
    ([arr 0] ++ node (tx "array") 1 [(Rng 2 1, MF64 (tx "num") one)] 3 ++ [(Rng 5 1, MF64 (tx "num") zero)] ++ node (tx "array") 7 [] 2 ++ [rra 0 10]) /\
  nested (map snd [(Rng 2 1, MF64 (tx "num") one)]) /\
  exchanged 1 3 7 2 (tx "[[1],0,[]]") = tx "[[],0,[1]]" /\
  parse_returns std_ext json_syntax (tx "[[],0,[1]]") [] indent_default None
    ([arr 0] ++ node (tx "array") 1 [] 2 ++ [(Rng 4 1, MF64 (tx "num") zero)] ++ node (tx "array") 6 [(Rng 7 1, MF64 (tx "num") one)] 3 ++ [rra 0 10]).
Proof.
  eexists. eexists. split; [apply columns_fitb_spec; vm_compute; reflexivity|]. split; [exists 200; vm_compute; reflexivity|].
  split; [apply nestedb_spec; reflexivity|]. split; [reflexivity|]. exists 200. vm_compute. reflexivity.
Qed.
