(** UTF-8. *)
From Coq Require Import List NArith ZArith Bool Arith Lia.
From Verif Require Import Base Ext Types IoModel IoSpec.
Import ListNotations.
Local Open Scope N_scope.

Ltac Zify.zify_post_hook ::= Z.to_euclidean_division_equations.

Ltac bdest :=
  repeat match goal with
  | |- context [N.ltb ?a ?b] => destruct (N.ltb_spec a b)
  | |- context [N.leb ?a ?b] => destruct (N.leb_spec a b)
  | |- context [N.eqb ?a ?b] => destruct (N.eqb_spec a b)
  end; cbn [andb].

(** Decides the comparisons in a condition, first to last. *)
Ltac decide_all :=
  repeat match goal with
  | |- context [N.ltb ?a ?b] => (replace (N.ltb a b) with true by (symmetry; apply N.ltb_lt; lia)) ||
                                (replace (N.ltb a b) with false by (symmetry; apply N.ltb_ge; lia))
  | |- context [N.leb ?a ?b] => (replace (N.leb a b) with true by (symmetry; apply N.leb_le; lia)) ||
                                (replace (N.leb a b) with false by (symmetry; apply N.leb_gt; lia))
  end; cbn [andb].

Lemma utf8_first_byte c : hd 0 (utf8 c) = utf8_first c.
Proof. unfold utf8, utf8_first. bdest; reflexivity. Qed.

Lemma utf8_length c : length (utf8 c) = utf8_len c.
Proof. unfold utf8, utf8_len. bdest; cbn [length]; reflexivity. Qed.

Lemma bytes_length s : length (bytes s) = byte_len s.
Proof.
  induction s as [|c s IH]; [reflexivity|]. cbn [bytes flat_map byte_len].
  rewrite app_length, utf8_length. f_equal. exact IH.
Qed.

Lemma from_utf8_cons b1 l1 : from_utf8 (b1 :: l1) =
    if (b1 <? 128)%N then option_map (cons b1) (from_utf8 l1)
    else if ((194 <=? b1) && (b1 <=? 223))%N then
      match l1 with
      | b2 :: l2 =>
        if continues b2
        then option_map (cons ((b1 - 192) * 64 + (b2 - 128))%N) (from_utf8 l2)
        else None
      | [] => None
      end
    else if ((224 <=? b1) && (b1 <=? 239))%N then
      match l1 with
      | b2 :: b3 :: l3 =>
        let low := if (b1 =? 224)%N then 160%N else 128%N in
        let high := if (b1 =? 237)%N then 159%N else 191%N in
        if ((low <=? b2) && (b2 <=? high))%N && continues b3
        then option_map (cons ((b1 - 224) * 4096 + (b2 - 128) * 64 + (b3 - 128))%N) (from_utf8 l3)
        else None
      | _ => None
      end
    else if ((240 <=? b1) && (b1 <=? 244))%N then
      match l1 with
      | b2 :: b3 :: b4 :: l4 =>
        let low := if (b1 =? 240)%N then 144%N else 128%N in
        let high := if (b1 =? 244)%N then 143%N else 191%N in
        if ((low <=? b2) && (b2 <=? high))%N && continues b3 && continues b4
        then option_map (cons ((b1 - 240) * 262144 + (b2 - 128) * 4096 + (b3 - 128) * 64
                               + (b4 - 128))%N) (from_utf8 l4)
        else None
      | _ => None
      end
    else None.
Proof. reflexivity. Qed.

Lemma from_utf8_char c l : scalar c -> from_utf8 (utf8 c ++ l) = option_map (cons c) (from_utf8 l).
Proof.
  unfold scalar, utf8. intros H.
  destruct (N.ltb_spec c 128) as [H1|H1].
  { rewrite <- ?app_comm_cons; cbn [app]; rewrite from_utf8_cons; cbv beta iota. destruct (N.ltb_spec c 128); [reflexivity|lia]. }
  destruct (N.ltb_spec c 2048) as [H2|H2].
  { rewrite <- ?app_comm_cons; cbn [app]; rewrite from_utf8_cons; cbv beta iota. set (b1 := 192 + c / 64). set (b2 := 128 + c mod 64).
    assert (Hb1 : 194 <= b1 <= 223) by (unfold b1; lia).
    assert (Hb2 : 128 <= b2 <= 191) by (unfold b2; lia).
    assert (Hc : (b1 - 192) * 64 + (b2 - 128) = c) by (unfold b1, b2; lia).
    rewrite Hc. clearbody b1 b2. clear H H1 H2 Hc. unfold continues. decide_all. reflexivity. }
  destruct (N.ltb_spec c 65536) as [H3|H3].
  { rewrite <- ?app_comm_cons; cbn [app]; rewrite from_utf8_cons; cbv beta iota. set (b1 := 224 + c / 4096). set (b2 := 128 + (c / 64) mod 64). set (b3 := 128 + c mod 64).
    assert (Hb1 : 224 <= b1 <= 239) by (unfold b1; lia).
    assert (Hb2 : 128 <= b2 <= 191) by (unfold b2; lia).
    assert (Hb3 : 128 <= b3 <= 191) by (unfold b3; lia).
    assert (Hlow : b1 = 224 -> 160 <= b2) by (unfold b1, b2; lia).
    assert (Hhigh : b1 = 237 -> b2 <= 159) by (unfold b1, b2; lia).
    assert (Hc : (b1 - 224) * 4096 + (b2 - 128) * 64 + (b3 - 128) = c) by (unfold b1, b2, b3; lia).
    rewrite Hc. clearbody b1 b2 b3. clear H H1 H2 H3 Hc. unfold continues.
    destruct (N.eqb_spec b1 224), (N.eqb_spec b1 237); try lia; decide_all; reflexivity. }
  { rewrite <- ?app_comm_cons; cbn [app]; rewrite from_utf8_cons; cbv beta iota. set (b1 := 240 + c / 262144). set (b2 := 128 + (c / 4096) mod 64).
    set (b3 := 128 + (c / 64) mod 64). set (b4 := 128 + c mod 64).
    assert (Hb1 : 240 <= b1 <= 244) by (unfold b1; lia).
    assert (Hb2 : 128 <= b2 <= 191) by (unfold b2; lia).
    assert (Hb3 : 128 <= b3 <= 191) by (unfold b3; lia).
    assert (Hb4 : 128 <= b4 <= 191) by (unfold b4; lia).
    assert (Hlow : b1 = 240 -> 144 <= b2) by (unfold b1, b2; lia).
    assert (Hhigh : b1 = 244 -> b2 <= 143) by (unfold b1, b2; lia).
    assert (Hc : (b1 - 240) * 262144 + (b2 - 128) * 4096 + (b3 - 128) * 64 + (b4 - 128) = c)
      by (unfold b1, b2, b3, b4; lia).
    rewrite Hc. clearbody b1 b2 b3 b4. clear H H1 H2 H3 Hc. unfold continues.
    destruct (N.eqb_spec b1 240), (N.eqb_spec b1 244); try lia; decide_all; reflexivity. }
Qed.

Lemma from_utf8_bytes s : string_value s -> from_utf8 (bytes s) = Some s.
Proof.
  induction 1 as [|c s Hc _ IH]; [reflexivity|]. cbn [bytes flat_map].
  rewrite from_utf8_char by exact Hc. fold (bytes s). rewrite IH. reflexivity.
Qed.

Lemma utf8_two b1 b2 : 194 <= b1 <= 223 -> 128 <= b2 <= 191 ->
  let c := (b1 - 192) * 64 + (b2 - 128) in scalar c /\ utf8 c = [b1; b2].
Proof.
  intros H1 H2 c. assert (Hc : 128 <= c < 2048) by (unfold c; lia).
  split; [unfold scalar; lia|]. unfold utf8.
  destruct (N.ltb_spec c 128); [lia|]. destruct (N.ltb_spec c 2048); [|lia].
  assert (E1 : 192 + c / 64 = b1) by (unfold c; lia).
  assert (E2 : 128 + c mod 64 = b2) by (unfold c; lia).
  rewrite E1, E2. reflexivity.
Qed.

Lemma utf8_three b1 b2 b3 : 224 <= b1 <= 239 -> 128 <= b2 <= 191 -> 128 <= b3 <= 191 ->
  (b1 = 224 -> 160 <= b2) -> (b1 = 237 -> b2 <= 159) ->
  let c := (b1 - 224) * 4096 + (b2 - 128) * 64 + (b3 - 128) in scalar c /\ utf8 c = [b1; b2; b3].
Proof.
  intros H1 H2 H3 Hl Hh c. assert (Hc : 2048 <= c < 65536) by (unfold c; lia).
  split; [unfold scalar, c; lia|]. unfold utf8.
  destruct (N.ltb_spec c 128); [lia|]. destruct (N.ltb_spec c 2048); [lia|].
  destruct (N.ltb_spec c 65536); [|lia].
  assert (E1 : 224 + c / 4096 = b1) by (unfold c; lia).
  assert (E2 : 128 + (c / 64) mod 64 = b2) by (unfold c; lia).
  assert (E3 : 128 + c mod 64 = b3) by (unfold c; lia).
  rewrite E1, E2, E3. reflexivity.
Qed.

Lemma utf8_four b1 b2 b3 b4 : 240 <= b1 <= 244 -> 128 <= b2 <= 191 -> 128 <= b3 <= 191 ->
  128 <= b4 <= 191 -> (b1 = 240 -> 144 <= b2) -> (b1 = 244 -> b2 <= 143) ->
  let c := (b1 - 240) * 262144 + (b2 - 128) * 4096 + (b3 - 128) * 64 + (b4 - 128) in
  scalar c /\ utf8 c = [b1; b2; b3; b4].
Proof.
  intros H1 H2 H3 H4 Hl Hh c. assert (Hc : 65536 <= c < 1114112) by (unfold c; lia).
  split; [unfold scalar; lia|]. unfold utf8.
  destruct (N.ltb_spec c 128); [lia|]. destruct (N.ltb_spec c 2048); [lia|].
  destruct (N.ltb_spec c 65536); [lia|].
  assert (E1 : 240 + c / 262144 = b1) by (unfold c; lia).
  assert (E2 : 128 + (c / 4096) mod 64 = b2) by (unfold c; lia).
  assert (E3 : 128 + (c / 64) mod 64 = b3) by (unfold c; lia).
  assert (E4 : 128 + c mod 64 = b4) by (unfold c; lia).
  rewrite E1, E2, E3, E4. reflexivity.
Qed.

Lemma from_utf8_some n : forall l s, (length l <= n)%nat -> from_utf8 l = Some s ->
  string_value s /\ l = bytes s.
Proof.
  assert (Hcons : forall l c s', option_map (cons c) (from_utf8 l) = Some s' ->
    exists s, from_utf8 l = Some s /\ s' = c :: s).
  { intros l c s'. destruct (from_utf8 l) as [s|]; [|discriminate]. cbn.
    intros H. injection H as <-. exists s. auto. }
  induction n as [|n IH]; intros [|b1 l1] s Hn H; try (cbn in Hn; Lia.lia).
  - injection H as <-. split; [constructor|reflexivity].
  - injection H as <-. split; [constructor|reflexivity].
  - cbn [length] in Hn. rewrite from_utf8_cons in H. revert H. unfold continues.
    assert (Hstep : forall c rest s, scalar c -> (length rest <= n)%nat ->
      option_map (cons c) (from_utf8 rest) = Some s ->
      string_value s /\ utf8 c ++ rest = bytes s).
    { intros c rest s' Hc Hr Hs. destruct (Hcons _ _ _ Hs) as (s1 & H1 & ->).
      destruct (IH _ _ Hr H1) as [Hv ->]. split; [constructor; assumption|reflexivity]. }
    destruct (N.ltb_spec b1 128) as [Ha|Ha].
    { intros H. assert (Hu : utf8 b1 = [b1]) by (unfold utf8; destruct (N.ltb_spec b1 128); [reflexivity|lia]).
      pose proof (Hstep b1 l1 s) as G. rewrite Hu in G. apply G; [unfold scalar; lia|Lia.lia|exact H]. }
    destruct ((194 <=? b1) && (b1 <=? 223))%bool eqn:Hb.
    { apply andb_prop in Hb. destruct Hb as [Hb1 Hb2]. apply N.leb_le in Hb1, Hb2.
      destruct l1 as [|b2 l2]; [discriminate|].
      destruct ((128 <=? b2) && (b2 <=? 191))%bool eqn:Hc; [|discriminate].
      apply andb_prop in Hc. destruct Hc as [Hc1 Hc2]. apply N.leb_le in Hc1, Hc2.
      destruct (utf8_two b1 b2) as [Hs Hu]; [lia|lia|]. intros H.
      pose proof (Hstep _ l2 s Hs) as G. rewrite Hu in G. apply G; [cbn in Hn; Lia.lia|exact H]. }
    clear Hb. destruct ((224 <=? b1) && (b1 <=? 239))%bool eqn:Hb.
    { apply andb_prop in Hb. destruct Hb as [Hb1 Hb2]. apply N.leb_le in Hb1, Hb2.
      destruct l1 as [|b2 [|b3 l3]]; try discriminate.
      match goal with |- (if ?x then _ else _) = _ -> _ => destruct x eqn:Hc end; [|discriminate].
      apply andb_prop in Hc. destruct Hc as [Hc Hd]. apply andb_prop in Hc, Hd.
      destruct Hc as [Hc1 Hc2], Hd as [Hd1 Hd2]. apply N.leb_le in Hc1, Hc2, Hd1, Hd2.
      destruct (N.eqb_spec b1 224), (N.eqb_spec b1 237);
        (destruct (utf8_three b1 b2 b3) as [Hs Hu]; [lia|lia|lia|lia|lia|]);
        intros H; pose proof (Hstep _ l3 s Hs) as G; rewrite Hu in G;
        (apply G; [cbn in Hn; Lia.lia|exact H]). }
    clear Hb. destruct ((240 <=? b1) && (b1 <=? 244))%bool eqn:Hb; [|discriminate].
    apply andb_prop in Hb. destruct Hb as [Hb1 Hb2]. apply N.leb_le in Hb1, Hb2.
    destruct l1 as [|b2 [|b3 [|b4 l4]]]; try discriminate.
    match goal with |- (if ?x then _ else _) = _ -> _ => destruct x eqn:Hc end; [|discriminate].
    apply andb_prop in Hc. destruct Hc as [Hc He]. apply andb_prop in Hc. destruct Hc as [Hc Hd].
    apply andb_prop in Hc, Hd, He.
    destruct Hc as [Hc1 Hc2], Hd as [Hd1 Hd2], He as [He1 He2].
    apply N.leb_le in Hc1, Hc2, Hd1, Hd2, He1, He2.
    destruct (N.eqb_spec b1 240), (N.eqb_spec b1 244);
      (destruct (utf8_four b1 b2 b3 b4) as [Hs Hu]; [lia|lia|lia|lia|lia|lia|]);
      intros H; pose proof (Hstep _ l4 s Hs) as G; rewrite Hu in G;
      (apply G; [cbn in Hn; Lia.lia|exact H]).
Qed.

(** Exactly the encodings of strings are read, and each as the string it encodes. *)
Lemma from_utf8_iff l s : from_utf8 l = Some s <-> string_value s /\ l = bytes s.
Proof.
  split.
  - intros H. eapply from_utf8_some; [apply le_n|exact H].
  - intros [Hs ->]. apply from_utf8_bytes. exact Hs.
Qed.
