(** Written rules are read back: rules with sub rules, nodes, documents. *)
From Coq Require Import Ascii String List NArith Bool Arith Lia.
From Verif Require Import Base Ext Types DataSpec ParseModel ConvertModel ConvertSpec WriteSpec
  OptSpec OptProofs ConvertSound ConvertTotal WriteProofs.
Import ListNotations.
Local Open Scope string_scope.
Local Open Scope list_scope.
Local Open Scope nat_scope.

Lemma finish_back (d rest : list tok) o lo ig mk : (lo + 1 <= usize_max)%N ->
  finish (Cv (d ++ rest) o) (Cv rest (o + length d)) (lo, ig) mk =
  Done (Some (Rng o (length d), mk (lo + 1)%N), ((lo + 1)%N, ig)).
Proof.
  intros H. unfold finish. cbn [fst snd]. rewrite add_one by exact H. cbn [obind].
  rewrite sub_cursor. reflexivity.
Qed.

Lemma start_here r n rest o : c_start_node (Cv ((r, StartNode n) :: rest) o) n = Some (Rng o 1).
Proof. unfold c_start_node. cbn [c_data c_off]. rewrite str_eqb_refl. reflexivity. Qed.

(** The data of a node is opened, its end is reached, and the rule is built. *)
Ltac open_node Hn :=
  destruct Hn as (q & q' & ->); rewrite node_length in *; rewrite node_unfold, start_here, update_one; cbn [obind].

Ltac close_node q inner q' node o :=
  cbn [obind fst snd]; rewrite (fold_end q inner q' node o); rewrite <- (node_unfold q node);
  rewrite finish_back by assumption; rewrite node_length; reflexivity.

Lemma read_tag_back ss fuel lo d fs inner text rest o ig :
  fields ss [s2l "text"; s2l "property"] [s2l "not"; s2l "inverted"] [] [] fs inner ->
  last_text (s2l "text") fs = Some text -> node_of (s2l "tag") inner d ->
  length d <= fuel -> (lo + 1 <= usize_max)%N ->
  read_tag fuel ss (Cv (d ++ rest) o) (lo, ig) =
  Done (Some (Rng o (length d), RTag text (value_or false (last_flag (s2l "not") fs))
                      (value_or false (last_flag (s2l "inverted") fs))
                      (last_text (s2l "property") fs) (lo + 1)), ((lo + 1)%N, ig)).
Proof.
  intros (Ha & items & -> & Hw) Ht Hn Hl Hu. unfold read_tag. open_node Hn.
  rewrite (tag_loop_fields ss q' rest fs items Hw Ha) by lia. cbn [obind].
  fold (last_text (s2l "text") fs). rewrite Ht. close_node q (concat items) q' (s2l "tag") o.
Qed.

Lemma read_until_back ss fuel node mk lo d fs inner any rest o ig :
  fields ss [s2l "any_characters"; s2l "property"] [s2l "optional"] [] [] fs inner ->
  last_text (s2l "any_characters") fs = Some any -> node_of node inner d ->
  length d <= fuel -> (lo + 1 <= usize_max)%N ->
  read_until fuel node mk ss (Cv (d ++ rest) o) (lo, ig) =
  Done (Some (Rng o (length d), mk any (value_or false (last_flag (s2l "optional") fs))
                      (last_text (s2l "property") fs) (lo + 1)%N), ((lo + 1)%N, ig)).
Proof.
  intros (Ha & items & -> & Hw) Ht Hn Hl Hu. unfold read_until. open_node Hn.
  rewrite (until_loop_fields ss node q' rest fs items Hw Ha) by lia. cbn [obind].
  fold (last_text (s2l "any_characters") fs). rewrite Ht. close_node q (concat items) q' node o.
Qed.

Lemma read_text_back ss fuel lo d fs inner rest o ig :
  fields ss [s2l "property"] [s2l "allow_empty"] [] [] fs inner ->
  node_of (s2l "text") inner d -> length d <= fuel -> (lo + 1 <= usize_max)%N ->
  read_text fuel ss (Cv (d ++ rest) o) (lo, ig) =
  Done (Some (Rng o (length d), RText (value_or true (last_flag (s2l "allow_empty") fs))
                      (last_text (s2l "property") fs) (lo + 1)), ((lo + 1)%N, ig)).
Proof.
  intros (Ha & items & -> & Hw) Hn Hl Hu. unfold read_text. open_node Hn.
  rewrite (text_loop_fields ss q' rest fs items Hw Ha) by lia.
  close_node q (concat items) q' (s2l "text") o.
Qed.

Lemma read_number_back ss fuel lo d fs inner rest o ig :
  fields ss [s2l "property"] [s2l "underscore"] [] [] fs inner ->
  node_of (s2l "number") inner d -> length d <= fuel -> (lo + 1 <= usize_max)%N ->
  read_number fuel ss (Cv (d ++ rest) o) (lo, ig) =
  Done (Some (Rng o (length d), RNumber (value_or false (last_flag (s2l "underscore") fs))
                      (last_text (s2l "property") fs) (lo + 1)), ((lo + 1)%N, ig)).
Proof.
  intros (Ha & items & -> & Hw) Hn Hl Hu. unfold read_number. open_node Hn.
  rewrite (number_loop_fields ss q' rest fs items Hw Ha) by lia.
  close_node q (concat items) q' (s2l "number") o.
Qed.

Lemma read_reference_back ss fuel lo d fs inner name rest o ig :
  fields ss [s2l "property"] [] [s2l "name"] [] fs inner ->
  last_name (s2l "name") fs = Some name ->
  node_of (s2l "reference") inner d -> length d <= fuel -> (lo + 1 <= usize_max)%N ->
  read_reference fuel ss (Cv (d ++ rest) o) (lo, ig) =
  Done (Some (Rng o (length d), RNode name (last_text (s2l "property") fs) None (lo + 1)), ((lo + 1)%N, ig)).
Proof.
  intros (Ha & items & -> & Hw) Ht Hn Hl Hu. unfold read_reference. open_node Hn.
  rewrite (reference_loop_fields ss q' rest fs items Hw Ha) by lia. cbn [obind].
  fold (last_name (s2l "name") fs). rewrite Ht.
  close_node q (concat items) q' (s2l "reference") o.
Qed.

Lemma read_whitespace_back lo d r b rest o ig :
  node_of (s2l "whitespace") [(r, MBool (s2l "optional") b)] d -> (lo + 1 <= usize_max)%N ->
  read_whitespace (Cv (d ++ rest) o) (lo, ig) =
  Done (Some (Rng o (length d), RWhitespace b (lo + 1)), ((lo + 1)%N, ig)).
Proof.
  intros Hn Hu. unfold read_whitespace. open_node Hn. cbn [app].
  unfold c_meta_bool. cbn [c_data c_off]. names. rewrite update_one. cbn [obind].
  rewrite end_here, update_one.
  cbn [obind]. unfold finish. cbn [fst snd]. rewrite add_one by exact Hu. cbn [obind length Nat.add].
  unfold c_subtract. cbn [c_off].
  replace (o + 1 + 1 + 1 - o) with 3 by lia. reflexivity.
Qed.

Section Sub.
  Variable ss : list (str * str).
  Variable K : nat.
  Variable rd : reader.
  Hypothesis Hoff : reader_off (s2l "rule") rd.
  Hypothesis Hrd : forall lo d r hi, wrule ss (s2l "rule") lo d r hi -> length d <= K ->
    (hi <= usize_max)%N -> forall rest o ig,
    rd (Cv (d ++ rest) o) (lo, ig) = Done (Some (Rng o (length d), r), (hi, ig)).

  Lemma args_loop_back node q' rest lo d rs hi : wargs ss lo d rs hi ->
    (hi <= usize_max)%N -> forall fuel o args ig, length d < fuel -> length d <= K ->
    args_loop fuel rd node (Cv (d ++ (q', EndNode node) :: rest) o) args (lo, ig) =
    Done (Cv rest (o + length d + 1), args ++ rs, (hi, ig)).
  Proof.
    induction 1 as [lo|lo d r mid ds rs hi Hw Hws IH]; intros Hu fuel o args ig Hl HK.
    - destruct fuel; [lia|]. cbn [args_loop app length]. rewrite end_here, update_one. cbn [obind].
      rewrite Nat.add_0_r, app_nil_r. reflexivity.
    - rewrite app_length in *. destruct fuel; [lia|]. cbn [args_loop]. rewrite <- app_assoc.
      pose proof (proj1 (proj2 (wnested ss)) _ _ _ _ _ Hw) as Hi.
      pose proof (proj2 (proj2 (wids ss)) _ _ _ _ Hws) as Hle.
      pose proof (item_length _ Hi).
      rewrite end_item by exact Hi. rewrite (Hrd _ _ _ _ Hw) by lia. cbn [obind].
      rewrite update_first. cbn [obind]. rewrite IH by lia.
      rewrite <- app_assoc. cbn [app]. rewrite Nat.add_assoc. reflexivity.
  Qed.

  Lemma read_args_back fuel node mk lo d inner args hi rest o ig :
    wargs ss lo inner args hi -> node_of node inner d -> length d <= fuel -> length d <= K ->
    (hi + 1 <= usize_max)%N ->
    read_args fuel rd node mk (Cv (d ++ rest) o) (lo, ig) =
    Done (Some (Rng o (length d), mk args (hi + 1)%N), ((hi + 1)%N, ig)).
  Proof.
    intros Hw Hn Hl HK Hu. unfold read_args. open_node Hn.
    rewrite (args_loop_back node q' rest lo inner args hi Hw) by lia. cbn [app].
    close_node q inner q' node o.
  Qed.

  Lemma read_wrap_back node mk lo d inner r hi rest o ig :
    wrule ss (s2l "rule") lo inner r hi -> node_of node inner d -> length d <= K ->
    (hi + 1 <= usize_max)%N ->
    read_wrap rd node mk (Cv (d ++ rest) o) (lo, ig) =
    Done (Some (Rng o (length d), mk r (hi + 1)%N), ((hi + 1)%N, ig)).
  Proof.
    intros Hw Hn HK Hu. unfold read_wrap. open_node Hn.
    rewrite (Hrd _ _ _ _ Hw) by lia. cbn [obind]. rewrite update_first. cbn [obind].
    rewrite end_here, update_one. close_node q inner q' node o.
  Qed.

  Lemma read_lines_back lo d inner r hi rest o ig :
    wrule ss (s2l "rule") lo inner r hi -> node_of (s2l "lines") inner d -> length d <= K ->
    (hi + 1 <= usize_max)%N ->
    read_lines rd (Cv (d ++ rest) o) (lo, ig) =
    Done (Some (Rng o (length d), RLines r false (hi + 1)%N), ((hi + 1)%N, ig)).
  Proof.
    intros Hw Hn HK Hu. unfold read_lines. open_node Hn.
    assert (Hm : c_meta_bool (Cv (inner ++ (q', EndNode (s2l "lines")) :: rest) (o + 1)) (s2l "indent") = None).
    { inversion Hw as [? ? ? ? ? ? _ Hn']; subst. destruct Hn' as (a & b & ->). reflexivity. }
    rewrite Hm. cbn [obind].
    rewrite (Hrd _ _ _ _ Hw) by lia. cbn [obind]. rewrite update_first. cbn [obind].
    rewrite end_here, update_one. close_node q inner q' (s2l "lines") o.
  Qed.

  Lemma read_lines_indent_back lo d inner r hi p b rest o ig :
    wrule ss (s2l "rule") lo inner r hi ->
    node_of (s2l "lines") ((p, MBool (s2l "indent") b) :: inner) d -> length d <= K ->
    (hi + 1 <= usize_max)%N ->
    read_lines rd (Cv (d ++ rest) o) (lo, ig) =
    Done (Some (Rng o (length d), RLines r b (hi + 1)%N), ((hi + 1)%N, ig)).
  Proof.
    intros Hw Hn HK Hu. unfold read_lines. open_node Hn. cbn [app length] in *.
    unfold c_meta_bool. cbn [c_data c_off]. names. rewrite update_one. cbn [obind].
    rewrite (Hrd _ _ _ _ Hw) by lia. cbn [obind]. rewrite update_first. cbn [obind].
    rewrite end_here, update_one. cbn [obind].
    unfold finish. cbn [fst snd]. rewrite add_one by exact Hu. cbn [obind].
    unfold c_subtract. cbn [c_off].
    replace (o + 1 + 1 + length inner + 1 - o) with (1 + S (length inner) + 1) by lia. reflexivity.
  Qed.

  Lemma fields_short fs items : Forall2 (written ss) fs items -> length fs <= length (concat items).
  Proof.
    induction 1 as [|f it fs items Hw H IH]; [cbn; lia|]. cbn [concat length]. rewrite app_length.
    apply written_item, item_length in Hw. lia.
  Qed.

  Lemma flag_start f it n rest o : written ss f it -> (forall p v, f <> Text p v) ->
    c_start_node (Cv (it ++ rest) o) n = None.
  Proof.
    intros H Hn. destruct H; try reflexivity; exfalso; eapply Hn; reflexivity.
  Qed.

  Lemma rep_flags tail fs items : Forall2 (written ss) fs items ->
    Forall (allowed [] [s2l "optional"] [] []) fs -> forall fuel o rl op st,
    rep_loop (length fs + fuel) rd (Cv (concat items ++ tail) o) rl op st =
    rep_loop fuel rd (Cv tail (o + length (concat items))) rl (fold_left (tell_flag (s2l "optional")) fs op) st.
  Proof.
    induction 1 as [|f it fs items Hw Hws IH]; intros Hall fuel o rl op st.
    - cbn [length concat app Nat.add fold_left]. rewrite Nat.add_0_r. reflexivity.
    - inversion Hall as [|? ? Ha Hall']; subst. cbn [length Nat.add rep_loop concat].
      rewrite <- app_assoc. rewrite end_item by (eapply written_item; exact Hw).
      pick Ha. rewrite Hoff by (eapply flag_start; [exact Hw|discriminate]). cbn [obind].
      rewrite (meta_bool_field _ _ _ Hw). names. rewrite update_first. cbn [obind].
      rewrite IH by exact Hall'. cbn [fold_left tell_flag]. names. rewrite app_length, Nat.add_assoc. reflexivity.
  Qed.

  Lemma read_repeat_back fuel lo d fs1 fs2 before inner after r hi b rest o ig :
    fields ss [] [s2l "optional"] [] [] fs1 before ->
    wrule ss (s2l "rule") lo inner r hi ->
    fields ss [] [s2l "optional"] [] [] fs2 after ->
    last_flag (s2l "optional") (fs1 ++ fs2) = Some b ->
    node_of (s2l "repeat") (before ++ inner ++ after) d ->
    length d <= fuel -> length d <= K -> (hi + 1 <= usize_max)%N ->
    read_repeat fuel rd (Cv (d ++ rest) o) (lo, ig) =
    Done (Some (Rng o (length d), RRepeat r b (hi + 1)%N), ((hi + 1)%N, ig)).
  Proof.
    intros (Ha1 & items1 & -> & Hw1) Hw (Ha2 & items2 & -> & Hw2) Hb Hn Hl HK Hu. unfold read_repeat.
    open_node Hn. rewrite !app_length in *.
    pose proof (fields_short _ _ Hw1). pose proof (fields_short _ _ Hw2).
    pose proof (proj1 (proj2 (wnested ss)) _ _ _ _ _ Hw) as Hi. pose proof (item_length _ Hi).
    replace fuel with (length fs1 + S (length fs2 + S (fuel - length fs1 - length fs2 - 2))) by lia.
    rewrite <- !app_assoc. rewrite (rep_flags _ _ _ Hw1 Ha1). cbn [rep_loop].
    rewrite end_item by exact Hi. rewrite (Hrd _ _ _ _ Hw) by lia. cbn [obind]. rewrite update_first. cbn [obind].
    rewrite (rep_flags _ _ _ Hw2 Ha2). cbn [rep_loop]. rewrite end_here, update_one. cbn [obind].
    rewrite <- fold_left_app. fold (last_flag (s2l "optional") (fs1 ++ fs2)). rewrite Hb.
    replace (o + 1 + length (concat items1) + length inner + length (concat items2) + 1)
      with (o + 1 + length (concat items1 ++ inner ++ concat items2) + 1) by (rewrite !app_length; lia).
    rewrite <- ?app_assoc.
    set (inner2 := concat items1 ++ inner ++ concat items2).
    replace (concat items1 ++ inner ++ concat items2 ++ (q', EndNode (s2l "repeat")) :: rest)
      with (inner2 ++ (q', EndNode (s2l "repeat")) :: rest) by (unfold inner2; rewrite <- !app_assoc; reflexivity).
    cbn [obind fst snd]. rewrite (fold_end q inner2 q' (s2l "repeat") o). rewrite <- (node_unfold q (s2l "repeat")).
    rewrite finish_back by assumption. rewrite node_length. unfold inner2. rewrite !app_length. reflexivity.
  Qed.

  Variable rd_by : reader.
  Hypothesis Hoff_by : reader_off (s2l "by") rd_by.
  Hypothesis Hby : forall lo d r hi, wrule ss (s2l "by") lo d r hi -> length d <= K ->
    (hi <= usize_max)%N -> forall rest o ig,
    rd_by (Cv (d ++ rest) o) (lo, ig) = Done (Some (Rng o (length d), r), (hi, ig)).

  Lemma sep_flags tail fs items : Forall2 (written ss) fs items ->
    Forall (allowed [] [s2l "optional"; s2l "allow_trail"] [] []) fs -> forall fuel o op tr b rl st,
    sep_by_loop (length fs + fuel) rd_by rd (Cv (concat items ++ tail) o) op tr b rl st =
    sep_by_loop fuel rd_by rd (Cv tail (o + length (concat items)))
      (fold_left (tell_flag (s2l "optional")) fs op) (fold_left (tell_flag (s2l "allow_trail")) fs tr) b rl st.
  Proof.
    induction 1 as [|f it fs items Hw Hws IH]; intros Hall fuel o op tr b rl st.
    - cbn [length concat app Nat.add fold_left]. rewrite Nat.add_0_r. reflexivity.
    - inversion Hall as [|? ? Ha Hall']; subst. cbn [length Nat.add sep_by_loop concat].
      rewrite <- app_assoc. rewrite end_item by (eapply written_item; exact Hw).
      pick Ha; rewrite !(meta_bool_field _ _ _ Hw); names; rewrite update_first; cbn [obind];
        rewrite IH by exact Hall'; cbn [fold_left tell_flag]; names; rewrite app_length, Nat.add_assoc; reflexivity.
  Qed.

  Lemma wrule_no_bool p lo d r hi n rest o : wrule ss p lo d r hi -> c_meta_bool (Cv (d ++ rest) o) n = None.
  Proof. intros H. inversion H as [? ? ? ? ? ? _ Hn]; subst. destruct Hn as (a & b & ->). reflexivity. Qed.

  Lemma rule_no_by lo d r hi rest o : wrule ss (s2l "rule") lo d r hi -> c_start_node (Cv (d ++ rest) o) (s2l "by") = None.
  Proof. intros H. inversion H as [? ? ? ? ? ? _ Hn]; subst. destruct Hn as (a & b & ->). reflexivity. Qed.

  Lemma sep_by_step fuel lo d r hi rest o op tr b rl ig : wrule ss (s2l "by") lo d r hi -> length d <= K ->
    (hi <= usize_max)%N ->
    sep_by_loop (S fuel) rd_by rd (Cv (d ++ rest) o) op tr b rl (lo, ig) =
    sep_by_loop fuel rd_by rd (Cv rest (o + length d)) op tr (Some r) rl (hi, ig).
  Proof.
    intros Hw HK Hu. pose proof (proj1 (proj2 (wnested ss)) _ _ _ _ _ Hw) as Hi.
    cbn [sep_by_loop]. rewrite end_item by exact Hi. rewrite !(wrule_no_bool _ _ _ _ _ _ _ _ Hw).
    rewrite (Hby _ _ _ _ Hw) by lia. cbn [obind]. rewrite update_first. reflexivity.
  Qed.

  Lemma sep_rule_step fuel lo d r hi rest o op tr b rl ig : wrule ss (s2l "rule") lo d r hi -> length d <= K ->
    (hi <= usize_max)%N ->
    sep_by_loop (S fuel) rd_by rd (Cv (d ++ rest) o) op tr b rl (lo, ig) =
    sep_by_loop fuel rd_by rd (Cv rest (o + length d)) op tr b (Some r) (hi, ig).
  Proof.
    intros Hw HK Hu. pose proof (proj1 (proj2 (wnested ss)) _ _ _ _ _ Hw) as Hi.
    cbn [sep_by_loop]. rewrite end_item by exact Hi. rewrite !(wrule_no_bool _ _ _ _ _ _ _ _ Hw).
    rewrite Hoff_by by (eapply rule_no_by; exact Hw). cbn [obind].
    rewrite (Hrd _ _ _ _ Hw) by lia. cbn [obind]. rewrite update_first. reflexivity.
  Qed.

  Lemma read_separated_by_back fuel lo d fs1 fs2 fs3 before by_d between rule_d after by_ r mid hi rest o ig :
    fields ss [] [s2l "optional"; s2l "allow_trail"] [] [] fs1 before ->
    fields ss [] [s2l "optional"; s2l "allow_trail"] [] [] fs2 between ->
    fields ss [] [s2l "optional"; s2l "allow_trail"] [] [] fs3 after ->
    (wrule ss (s2l "by") lo by_d by_ mid /\ wrule ss (s2l "rule") mid rule_d r hi /\
      node_of (s2l "separated_by") (before ++ by_d ++ between ++ rule_d ++ after) d) \/
    (wrule ss (s2l "rule") lo rule_d r mid /\ wrule ss (s2l "by") mid by_d by_ hi /\
      node_of (s2l "separated_by") (before ++ rule_d ++ between ++ by_d ++ after) d) ->
    length d <= fuel -> length d <= K -> (hi + 1 <= usize_max)%N ->
    read_separated_by fuel rd_by rd (Cv (d ++ rest) o) (lo, ig) =
    Done (Some (Rng o (length d), RSeparateBy r by_ (value_or true (last_flag (s2l "optional") (fs1 ++ fs2 ++ fs3)))
        (value_or true (last_flag (s2l "allow_trail") (fs1 ++ fs2 ++ fs3))) (hi + 1)%N), ((hi + 1)%N, ig)).
  Proof.
    intros (Ha1 & items1 & -> & Hw1) (Ha2 & items2 & -> & Hw2) (Ha3 & items3 & -> & Hw3).
    pose proof (fields_short _ _ Hw1). pose proof (fields_short _ _ Hw2). pose proof (fields_short _ _ Hw3).
    intros [(Hb & Hr & Hn)|(Hr & Hb & Hn)] Hl HK Hu; unfold read_separated_by;
      pose proof (proj1 (proj2 (wnested ss)) _ _ _ _ _ Hb) as Hib; pose proof (item_length _ Hib);
      pose proof (proj1 (proj2 (wnested ss)) _ _ _ _ _ Hr) as Hir; pose proof (item_length _ Hir).
    - open_node Hn. rewrite !app_length in *.
      pose proof (proj2 (proj1 (proj2 (wids ss)) _ _ _ _ _ Hr)).
      replace fuel with (length fs1 + S (length fs2 + S (length fs3 + S (fuel - length fs1 - length fs2 - length fs3 - 3)))) by lia.
      rewrite <- !app_assoc. rewrite (sep_flags _ _ _ Hw1 Ha1).
      rewrite (sep_by_step _ _ _ _ _ _ _ _ _ _ _ _ Hb) by lia.
      rewrite (sep_flags _ _ _ Hw2 Ha2). rewrite (sep_rule_step _ _ _ _ _ _ _ _ _ _ _ _ Hr) by lia.
      rewrite (sep_flags _ _ _ Hw3 Ha3). cbn [sep_by_loop]. rewrite end_here, update_one. cbn [obind].
      rewrite <- !fold_left_app. rewrite <- ?app_assoc.
      set (inner := concat items1 ++ by_d ++ concat items2 ++ rule_d ++ concat items3).
      replace (concat items1 ++ by_d ++ concat items2 ++ rule_d ++ concat items3 ++ (q', EndNode (s2l "separated_by")) :: rest)
        with (inner ++ (q', EndNode (s2l "separated_by")) :: rest) by (unfold inner; rewrite <- !app_assoc; reflexivity).
      match goal with |- context [Cv rest ?x] => replace x with (o + 1 + length inner + 1) by (unfold inner; rewrite !app_length; lia) end.
      cbn [obind fst snd]; rewrite (fold_end q inner q' (s2l "separated_by") o); rewrite <- (node_unfold q (s2l "separated_by")).
      rewrite finish_back by assumption. rewrite node_length. unfold inner. rewrite !app_length. reflexivity.
    - open_node Hn. rewrite !app_length in *.
      pose proof (proj2 (proj1 (proj2 (wids ss)) _ _ _ _ _ Hb)).
      replace fuel with (length fs1 + S (length fs2 + S (length fs3 + S (fuel - length fs1 - length fs2 - length fs3 - 3)))) by lia.
      rewrite <- !app_assoc. rewrite (sep_flags _ _ _ Hw1 Ha1).
      rewrite (sep_rule_step _ _ _ _ _ _ _ _ _ _ _ _ Hr) by lia.
      rewrite (sep_flags _ _ _ Hw2 Ha2). rewrite (sep_by_step _ _ _ _ _ _ _ _ _ _ _ _ Hb) by lia.
      rewrite (sep_flags _ _ _ Hw3 Ha3). cbn [sep_by_loop]. rewrite end_here, update_one. cbn [obind].
      rewrite <- !fold_left_app. rewrite <- ?app_assoc.
      set (inner := concat items1 ++ rule_d ++ concat items2 ++ by_d ++ concat items3).
      replace (concat items1 ++ rule_d ++ concat items2 ++ by_d ++ concat items3 ++ (q', EndNode (s2l "separated_by")) :: rest)
        with (inner ++ (q', EndNode (s2l "separated_by")) :: rest) by (unfold inner; rewrite <- !app_assoc; reflexivity).
      match goal with |- context [Cv rest ?x] => replace x with (o + 1 + length inner + 1) by (unfold inner; rewrite !app_length; lia) end.
      cbn [obind fst snd]; rewrite (fold_end q inner q' (s2l "separated_by") o); rewrite <- (node_unfold q (s2l "separated_by")).
      rewrite finish_back by assumption. rewrite node_length. unfold inner. rewrite !app_length. reflexivity.
  Qed.
End Sub.

(** ** The reader of any rule *)

Lemma first_nth c st n rd q x st' : c_start_node c n = Some q -> rd c st = Done (Some x, st') ->
  forall i names rds, Forall2 reader_off names rds -> NoDup names ->
  nth_error names i = Some n -> nth_error rds i = Some rd ->
  first_reader rds c st = Done (Some x, st').
Proof.
  intros Hs Hrd. induction i as [|i IH]; intros names rds H Hd Hn Hr.
  - destruct H as [|a b names rds Hab H]; [discriminate|]. cbn in Hn, Hr. injection Hn as ->. injection Hr as ->.
    cbn [first_reader]. rewrite Hrd. reflexivity.
  - destruct H as [|a b names rds Hab H]; [discriminate|]. cbn in Hn, Hr. inversion Hd; subst.
    cbn [first_reader]. rewrite Hab.
    + cbn [obind]. eapply IH; eassumption.
    + eapply start_other; [exact Hs|]. intros ->. apply nth_error_In in Hn. contradiction.
Qed.

Lemma node_of_start name inner d rest o : node_of name inner d -> c_start_node (Cv (d ++ rest) o) name = Some (Rng o 1).
Proof. intros (r & r' & ->). cbn [app]. apply start_here. Qed.

Lemma read_rule_back ss : forall fuel p lo d r hi, wrule ss p lo d r hi -> length d <= fuel ->
  (hi <= usize_max)%N -> forall rest o ig,
  read_rule fuel p ss (Cv (d ++ rest) o) (lo, ig) = Done (Some (Rng o (length d), r), (hi, ig)).
Proof.
  induction fuel as [|fuel IH]; intros p lo d r hi Hw Hl Hu rest o ig.
  { apply (proj1 (proj2 (wnested ss))) in Hw. apply item_length in Hw. lia. }
  inversion Hw as [? ? inner ? ? ? Hb Hn]; subst. cbn [read_rule]. cbv zeta. open_node Hn.
  assert (Hro : forall p, reader_off p (read_rule fuel p ss)).
  { intros p0. apply read_rule_off. apply (proj1 (wnested ss)) in Hb. apply item_length in Hb. lia. }
  match goal with |- context [first_reader ?l] => set (rds := l) end.
  assert (Hoffs : Forall2 reader_off rule_kinds rds).
  { unfold rule_kinds, rds.
    repeat (apply Forall2_cons; [intros c0 st0 Hc0; cbv beta delta [read_args read_until read_tag read_whitespace read_text
      read_number read_reference read_wrap read_separated_by read_lines read_repeat]; rewrite Hc0; reflexivity|]);
      apply Forall2_nil. }
  assert (Hfirst : first_reader rds (Cv (inner ++ (q', EndNode p) :: rest) (o + 1)) (lo, ig) =
    Done (Some (Rng (o + 1) (length inner), r), (hi, ig))).
  { inversion Hb; subst;
      match goal with Hn : node_of ?n _ inner |- _ => pose proof (node_of_start n _ inner ((q', EndNode p) :: rest) (o + 1) Hn) as Hs end.
    - refine (first_nth _ _ _ _ _ _ _ Hs _ 4 _ _ Hoffs rule_kinds_distinct eq_refl eq_refl).
      eapply read_whitespace_back; eassumption.
    - refine (first_nth _ _ _ _ _ _ _ Hs _ 3 _ _ Hoffs rule_kinds_distinct eq_refl eq_refl).
      eapply read_tag_back; try eassumption; lia.
    - refine (first_nth _ _ _ _ _ _ _ Hs _ 2 _ _ Hoffs rule_kinds_distinct eq_refl eq_refl).
      eapply read_until_back; try eassumption; lia.
    - refine (first_nth _ _ _ _ _ _ _ Hs _ 1 _ _ Hoffs rule_kinds_distinct eq_refl eq_refl).
      eapply read_until_back; try eassumption; lia.
    - refine (first_nth _ _ _ _ _ _ _ Hs _ 5 _ _ Hoffs rule_kinds_distinct eq_refl eq_refl).
      eapply read_text_back; try eassumption; lia.
    - refine (first_nth _ _ _ _ _ _ _ Hs _ 6 _ _ Hoffs rule_kinds_distinct eq_refl eq_refl).
      eapply read_number_back; try eassumption; lia.
    - refine (first_nth _ _ _ _ _ _ _ Hs _ 7 _ _ Hoffs rule_kinds_distinct eq_refl eq_refl).
      eapply read_reference_back; try eassumption; lia.
    - refine (first_nth _ _ _ _ _ _ _ Hs _ 0 _ _ Hoffs rule_kinds_distinct eq_refl eq_refl).
      eapply read_args_back with (K := fuel); try eassumption; try lia. intros; apply IH; assumption.
    - refine (first_nth _ _ _ _ _ _ _ Hs _ 8 _ _ Hoffs rule_kinds_distinct eq_refl eq_refl).
      eapply read_args_back with (K := fuel); try eassumption; try lia. intros; apply IH; assumption.
    - refine (first_nth _ _ _ _ _ _ _ Hs _ 9 _ _ Hoffs rule_kinds_distinct eq_refl eq_refl).
      eapply read_wrap_back with (K := fuel); try eassumption; try lia. intros; apply IH; assumption.
    - refine (first_nth _ _ _ _ _ _ _ Hs _ 10 _ _ Hoffs rule_kinds_distinct eq_refl eq_refl).
      eapply read_wrap_back with (K := fuel); try eassumption; try lia. intros; apply IH; assumption.
    - refine (first_nth _ _ _ _ _ _ _ Hs _ 12 _ _ Hoffs rule_kinds_distinct eq_refl eq_refl).
      eapply read_lines_back with (K := fuel); try eassumption; try lia. intros; apply IH; assumption.
    - refine (first_nth _ _ _ _ _ _ _ Hs _ 12 _ _ Hoffs rule_kinds_distinct eq_refl eq_refl).
      eapply read_lines_indent_back with (K := fuel); try eassumption; try lia. intros; apply IH; assumption.
    - refine (first_nth _ _ _ _ _ _ _ Hs _ 13 _ _ Hoffs rule_kinds_distinct eq_refl eq_refl).
      eapply read_repeat_back with (K := fuel) (fs1 := fs1) (fs2 := fs2) (before := before) (after := after);
        try eassumption; try lia; [apply Hro|]. intros; apply IH; assumption.
    - refine (first_nth _ _ _ _ _ _ _ Hs _ 11 _ _ Hoffs rule_kinds_distinct eq_refl eq_refl).
      eapply read_separated_by_back with (K := fuel) (fs1 := fs1) (fs2 := fs2) (fs3 := fs3)
        (before := before) (between := between) (after := after); try eassumption; try lia;
        [intros; apply IH; assumption|apply Hro|intros; apply IH; assumption|].
      left. repeat split; eassumption.
    - refine (first_nth _ _ _ _ _ _ _ Hs _ 11 _ _ Hoffs rule_kinds_distinct eq_refl eq_refl).
      eapply read_separated_by_back with (K := fuel) (fs1 := fs1) (fs2 := fs2) (fs3 := fs3)
        (before := before) (between := between) (after := after); try eassumption; try lia;
        [intros; apply IH; assumption|apply Hro|intros; apply IH; assumption|].
      right. repeat split; eassumption. }
  rewrite Hfirst. cbn [obind]. rewrite update_first. cbn [obind]. rewrite end_here, update_one. cbn [obind].
  replace (o + 1 + length inner + 1) with (o + (1 + length inner + 1)) by lia. rewrite sub_cursor. reflexivity.
Qed.
