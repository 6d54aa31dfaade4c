(** When a syntax may be read as a context-free grammar. *)
From Coq Require Import Ascii String List NArith Bool Arith Lia.
From Verif Require Import Base Ext Types ParseModel OptimizeModel PegSpec DataSpec ApiSpec OptSpec ExtProofs PegFacts ParseProofs OptPublic
  ParsePublic TotalSpec TotalProofs TotalCheck ShapeSpec GrammarSpec GrammarProofs GrammarCheck OutlinePublic SurfaceSpec SurfaceExamples AtEnd OccursProofs Examples.
Import ListNotations.
Local Open Scope string_scope.
Local Open Scope list_scope.
Local Open Scope nat_scope.

Lemma one_start s r r' : start_rule s r -> start_rule s r' -> r' = r.
Proof. intros [a Ha] [b Hb]. rewrite Ha in Hb. apply app_inj_tail in Hb. symmetry. apply Hb. Qed.

Lemma start_occurs s r : start_rule s r -> occurs s r.
Proof. intros [a Ha]. apply occurs_top. rewrite Ha. apply in_or_app. right. left. reflexivity. Qed.

Theorem parse_generated E : ext_ok E -> forall s, without_lines s -> forall r, start_rule s r -> forall text tokens ind new,
  parse_returns E s text tokens ind None (tokens ++ new) -> generates E (s_rules s) r text (map snd new).
Proof.
  intros HE s Hno r Hr text tokens ind new H. apply (parse_accepts E HE) in H. destruct H as (out & Ha & Ht).
  apply app_inv_head in Ht. subst out. destruct Ha as [r' out ind' tr Hr' H]. rewrite (one_start _ _ _ Hr Hr') in H.
  pose proof (proj1 (reads_generated E HE s Hno) _ _ _ _ _ _ _ H (start_occurs _ _ Hr)) as Hg. cbn [generated] in Hg.
  rewrite firstn_all in Hg. exact Hg.
Qed.

Theorem clear_parse E : ext_ok E -> strings_end E -> forall s, valid s -> well_formed s -> clear E s ->
  forall r, start_rule s r -> forall text ind, columns_fit ind text -> forall tokens ms,
  (exists new, parse_returns E s text tokens ind None (tokens ++ new) /\ map snd new = ms) <->
  generates E (s_rules s) r text ms.
Proof.
  intros HE Hs s Hv Hw Hc r Hr text ind Hf tokens ms. split.
  - intros (new & H & <-). eapply parse_generated; try eassumption. apply (clear_no_lines E). exact Hc.
  - intros H. destruct (proj1 (generated_read E HE Hs s Hv Hw Hc) _ _ _ H (start_occurs _ _ Hr) [] ind 0) as (out & ind' & tr & Hr' & Hm).
    + apply on_start. exact Hr.
    + rewrite app_nil_r. exact Hf.
    + rewrite app_nil_r in Hr'. exists out. split; [|exact Hm]. apply (parse_accepts E HE). exists out. split; [|reflexivity].
      eapply accepts_all; eassumption.
Qed.

Theorem clear_one_meaning E : ext_ok E -> strings_end E -> forall s, valid s -> well_formed s -> clear E s ->
  forall r, start_rule s r -> forall text, columns_fit indent_default text -> forall ms ms',
  generates E (s_rules s) r text ms -> generates E (s_rules s) r text ms' -> ms = ms'.
Proof.
  intros HE Hs s Hv Hw Hc r Hr text Hf ms ms' H H'.
  apply (clear_parse E HE Hs s Hv Hw Hc r Hr text indent_default Hf []) in H.
  apply (clear_parse E HE Hs s Hv Hw Hc r Hr text indent_default Hf []) in H'.
  destruct H as (new & H & <-), H' as (new' & H' & <-).
  apply (parse_accepts E HE) in H. apply (parse_accepts E HE) in H'.
  destruct H as (out & Ha & Ht), H' as (out' & Ha' & Ht'). cbn [app] in *. subst.
  rewrite (accepts_unique E _ _ _ _ _ Ha Ha'). reflexivity.
Qed.

Theorem clear_optimized E : ext_ok E -> strings_end E -> forall s s', valid s -> well_formed s -> clear E s ->
  optimize_returns s s' -> tails_fail_at_end E s ->
  forall r, start_rule s r -> forall text ind, columns_fit ind text -> forall tokens ms,
  (exists new, parse_returns E s' text tokens ind None (tokens ++ new) /\ map snd new = ms) <->
  generates E (s_rules s) r text ms.
Proof.
  intros HE Hs s s' Hv Hw Hc Ho Ht r Hr text ind Hf tokens ms.
  rewrite <- (clear_parse E HE Hs s Hv Hw Hc r Hr text ind Hf tokens ms).
  split; intros (new & H & Hm); exists new; (split; [|exact Hm]);
    apply (optimize_accepts E HE s s' Ho Ht text tokens ind (proj1 Hf)); exact H.
Qed.

(** ** The order of the alternatives *)

Section Order.
  Variable E : ext.
  Variables refs refs' : list rule.
  Hypothesis Hrefs : Forall2 reordered refs refs'.

  Lemma forall2_nth i r : nth_error refs i = Some r -> exists r', nth_error refs' i = Some r' /\ reordered r r'.
  Proof.
    revert i. induction Hrefs as [|a b l l' Hab Hl IH]; intros [|i] H; try discriminate; cbn in *.
    - injection H as <-. eauto.
    - apply IH; assumption.
  Qed.

  Lemma forall2_nth' i r : nth_error refs' i = Some r -> exists r', nth_error refs i = Some r' /\ reordered r' r.
  Proof.
    revert i. induction Hrefs as [|a b l l' Hab Hl IH]; intros [|i] H; try discriminate; cbn in *.
    - injection H as <-. eauto.
    - apply IH; assumption.
  Qed.

  Lemma forall2_in {A B} (R : A -> B -> Prop) l l' x : Forall2 R l l' -> In x l -> exists y, In y l' /\ R x y.
  Proof. induction 1 as [|a b l l' Hab Hl IH]; intros Hx; [destruct Hx|]. destruct Hx as [->|Hx]; [eauto using in_eq|]. destruct (IH Hx) as (y & Hy & Hr). eauto using in_cons. Qed.

  Lemma forall2_in' {A B} (R : A -> B -> Prop) l l' y : Forall2 R l l' -> In y l' -> exists x, In x l /\ R x y.
  Proof. induction 1 as [|a b l l' Hab Hl IH]; intros Hx; [destruct Hx|]. destruct Hx as [->|Hx]; [eauto using in_eq|]. destruct (IH Hx) as (x & Hy & Hr). eauto using in_cons. Qed.

  Lemma generates_reordered :
    (forall r x ms, generates E refs r x ms -> forall r', reordered r r' -> generates E refs' r' x ms) /\
    (forall args x ms, generates_all E refs args x ms -> forall args', Forall2 reordered args args' -> generates_all E refs' args' x ms) /\
    (forall r k x ms, generates_times E refs r k x ms -> forall r', reordered r r' -> generates_times E refs' r' k x ms) /\
    (forall r by_ trail x ms, generates_more E refs r by_ trail x ms -> forall r' by_', reordered r r' -> reordered by_ by_' ->
       generates_more E refs' r' by_' trail x ms).
  Proof.
    apply generates_mutind; intros;
      repeat match goal with G : reordered (_ _) _ |- _ => inversion G; subst; clear G
        | G : Forall2 _ (_ :: _) _ |- _ => inversion G; subst; clear G | G : Forall2 _ [] _ |- _ => inversion G; subst; clear G end;
      try discriminate; try (econstructor; eauto; fail).
    - cbn in *. subst. inversion H; subst. apply gen_sequence. apply gen_all_nil.
    - cbn in *. subst. destruct H.
    - match goal with G : Forall2 _ _ _, G' : forall r, In r _ <-> _ |- _ =>
        destruct (forall2_in _ _ _ _ G H) as (q & Hq & Hr); apply G' in Hq end. eapply gen_select; eauto.
    - cbn in *. subst. destruct H.
    - destruct (forall2_nth _ _ H) as (q & Hq & Hr). eapply gen_node; eauto.
  Qed.

  Lemma reordered_generates :
    (forall r x ms, generates E refs' r x ms -> forall r', reordered r' r -> generates E refs r' x ms) /\
    (forall args x ms, generates_all E refs' args x ms -> forall args', Forall2 reordered args' args -> generates_all E refs args' x ms) /\
    (forall r k x ms, generates_times E refs' r k x ms -> forall r', reordered r' r -> generates_times E refs r' k x ms) /\
    (forall r by_ trail x ms, generates_more E refs' r by_ trail x ms -> forall r' by_', reordered r' r -> reordered by_' by_ ->
       generates_more E refs r' by_' trail x ms).
  Proof.
    apply generates_mutind; intros;
      repeat match goal with G : reordered _ (_ _) |- _ => inversion G; subst; clear G
        | G : Forall2 _ _ (_ :: _) |- _ => inversion G; subst; clear G | G : Forall2 _ _ [] |- _ => inversion G; subst; clear G end;
      try discriminate; try (econstructor; eauto; fail).
    - cbn in *. subst. inversion H; subst. apply gen_sequence. apply gen_all_nil.
    - cbn in *. subst. destruct H.
    - match goal with G : Forall2 _ _ _, G' : forall r, In r _ <-> _ |- _ =>
        apply G' in H; destruct (forall2_in' _ _ _ _ G H) as (q & Hq & Hr) end. eapply gen_select; eauto.
    - cbn in *. subst. destruct H.
    - destruct (forall2_nth' _ _ H) as (q & Hq & Hr). eapply gen_node; eauto.
  Qed.
End Order.

Lemma reordered_start s s' r : reordered_syntax s s' -> start_rule s r -> exists r', start_rule s' r' /\ reordered r r'.
Proof.
  intros H [a Ha]. unfold reordered_syntax in H. rewrite Ha in H. apply Forall2_app_inv_l in H.
  destruct H as (l1 & l2 & _ & H2 & Hs). inversion H2 as [|? r' ? l Hr Hl]; subst. inversion Hl; subst. exists r'. split; [exists l1; exact Hs|exact Hr].
Qed.

Theorem clear_reordered E : ext_ok E -> strings_end E -> forall s s', reordered_syntax s s' ->
  valid s -> well_formed s -> clear E s -> valid s' -> well_formed s' -> clear E s' ->
  forall text ind, columns_fit ind text -> forall tokens ms,
  (exists new, parse_returns E s text tokens ind None (tokens ++ new) /\ map snd new = ms) <->
  (exists new, parse_returns E s' text tokens ind None (tokens ++ new) /\ map snd new = ms).
Proof.
  intros HE Hs s s' Hre Hv Hw Hc Hv' Hw' Hc' text ind Hf tokens ms.
  assert (Hdec : s_rules s = [] \/ exists r, start_rule s r).
  { destruct (s_rules s) as [|a l] eqn:Hl using rev_ind; [left; reflexivity|right]. exists a, l. exact Hl. }
  destruct Hdec as [Hn|[r Hr]].
  - unfold reordered_syntax in Hre. rewrite Hn in Hre. assert (Hn' : s_rules s' = []) by (inversion Hre; reflexivity).
    assert (Hnone : forall x new, s_rules x = [] -> ~ parse_returns E x text tokens ind None new).
    { intros x new Hx Hp. apply (parse_accepts E HE) in Hp. destruct Hp as (out & Ha & _). destruct Ha as [q out ind' tr [l Hq] _].
      rewrite Hx in Hq. destruct l; discriminate. }
    split; intros (new & Hp & _); [destruct (Hnone s _ Hn Hp)|destruct (Hnone s' _ Hn' Hp)].
  - destruct (reordered_start _ _ _ Hre Hr) as (r' & Hr' & Hrr).
    rewrite (clear_parse E HE Hs s Hv Hw Hc r Hr text ind Hf tokens ms), (clear_parse E HE Hs s' Hv' Hw' Hc' r' Hr' text ind Hf tokens ms).
    split; intros H; [eapply (proj1 (generates_reordered E _ _ Hre))|eapply (proj1 (reordered_generates E _ _ Hre))]; eassumption.
Qed.

(** ** The stand-ins *)

Lemma std_strings_end : strings_end std_ext.
Proof. intros x rest rest' H. exact (proj2 (whole_string std_ext std_whole_readers x rest H) rest'). Qed.

(** Signs, point, digits, E, underscore, e. *)
Definition number_chars : cset :=
  [(43, Some 43); (45, Some 46); (48, Some 57); (69, Some 69); (95, Some 95); (101, Some 101)]%N.

Lemma N_le_dec (a b : N) : {(a <= b)%N} + {~ (a <= b)%N}.
Proof. destruct (N.leb a b) eqn:H; [left; apply N.leb_le|right; apply N.leb_gt in H; lia]; exact H. Qed.

Lemma member_dec c a : member c a \/ ~ member c a.
Proof.
  assert (H : {Exists (within c) a} + {~ Exists (within c) a}).
  { apply Exists_dec. intros [lo hi]. unfold within. cbn [fst snd].
    destruct (N_le_dec lo c); [|right; lia]. destruct hi as [hi|]; [|left; auto]. destruct (N_le_dec c hi); [left|right]; lia. }
  unfold member. destruct H as [H|H]; rewrite Exists_exists in H; [left|right]; exact H.
Qed.

Lemma not_number c : ~ member c number_chars ->
  is_digit c = false /\ ((c =? 43) || (c =? 45))%N = false /\ (c =? 95)%N = false /\ (c =? 46)%N = false /\ ((c =? 101) || (c =? 69))%N = false.
Proof.
  intros H. assert (Hn : forall lo hi, In (lo, Some hi) number_chars -> ~ (lo <= c <= hi)%N).
  { intros lo hi Hi Hc. apply H. exists (lo, Some hi). split; [exact Hi|exact Hc]. }
  pose proof (Hn 43 43 ltac:(cbn; tauto))%N. pose proof (Hn 45 46 ltac:(cbn; tauto))%N. pose proof (Hn 48 57 ltac:(cbn; tauto))%N.
  pose proof (Hn 69 69 ltac:(cbn; tauto))%N. pose proof (Hn 95 95 ltac:(cbn; tauto))%N. pose proof (Hn 101 101 ltac:(cbn; tauto))%N.
  unfold is_digit. repeat split; rewrite ?orb_false_iff, ?andb_false_iff, ?N.leb_gt, ?N.eqb_neq; lia.
Qed.

Lemma number_go_ends u rest' : (forall c, hd_error rest' = Some c -> ~ member c number_chars) ->
  forall x rest a b c d e n, std_number_go u (x ++ rest) a b c d e n = Some (n + length x) ->
  std_number_go u (x ++ rest') a b c d e n = Some (n + length x).
Proof.
  intros Hr. assert (Hend : forall a b c d e n, std_number_go u rest' a b c d e n = if b then Some n else None).
  { intros. destruct rest' as [|y rest']; [reflexivity|]. destruct (not_number y (Hr y eq_refl)) as (H1 & H2 & H3 & H4 & H5).
    cbn [std_number_go]. rewrite H1, H2, H3, H4, H5, !andb_false_r. reflexivity. }
  induction x as [|y x IH]; intros rest a b c d e n H; cbn [app length] in *.
  - rewrite Hend. rewrite Nat.add_0_r in *. destruct b; [reflexivity|]. exfalso.
    destruct rest as [|y rest]; [discriminate|]. cbn [std_number_go] in H.
    repeat match type of H with (if ?q then _ else _) = _ => destruct q end;
      try discriminate; apply number_go_bound in H; lia.
  - cbn [std_number_go] in *. rewrite <- Nat.add_succ_comm in *.
    repeat match type of H with (if ?q then _ else _) = _ => destruct q end; try discriminate;
      try (eapply IH; exact H); injection H; lia.
Qed.

Lemma std_numbers : number_set std_ext number_chars.
Proof.
  split.
  - intros u c s n H. cbn in H. unfold std_number in H. cbn [std_number_go] in H.
    destruct (member_dec c number_chars) as [Hi|Hn]; [exact Hi|]. exfalso.
    destruct (not_number c Hn) as (H1 & H2 & H3 & H4 & H5). rewrite H1, H2, H3, H4, ?H5, ?andb_false_r in H. discriminate.
  - intros u o Ho x rest rest' H Hr. cbn [x_number std_ext] in *. unfold std_number in *.
    eapply (number_go_ends u rest') with (n := 0); [|exact H]. intros c Hc. apply Ho. congruence.
Qed.

(** ** A syntax of JSON values *)

Definition w (id : debug_id) := RWhitespace true id.
Definition t (text : str) (id : debug_id) := RTag text false false None id.

(** [0 array = ["[" .w? .s?(["," .w?] [value .w?]) "]"]
     1 object = ["{" .w? .s?(["," .w?] [.t?:"key" .w? ":" .w? value .w?]) "}"]
     2 value = {array:"array" object:"object" .t?:"str" .$:"num" "true":"bool" "false":!"bool" "null":"null"}
     3 document = [.w? value .w?]] *)
Definition json_rules : list rule :=
  [RSequence [t (tx "[") 1; w 2;
     RSeparateBy (RSequence [RNode (tx "value") None (Some 2) 3; w 4] 5) (RSequence [t (tx ",") 6; w 7] 8) true false 9; t (tx "]") 10] 11;
   RSequence [t (tx "{") 101; w 102;
     RSeparateBy (RSequence [RText true (Some (tx "key")) 103; w 104; t (tx ":") 105; w 106; RNode (tx "value") None (Some 2) 107; w 108] 109)
       (RSequence [t (tx ",") 110; w 111] 112) true false 113; t (tx "}") 114] 115;
   RSelect [RNode (tx "array") (Some (tx "array")) (Some 0) 201; RNode (tx "object") (Some (tx "object")) (Some 1) 202;
     RText true (Some (tx "str")) 203; RNumber false (Some (tx "num")) 204;
     RTag (tx "true") false false (Some (tx "bool")) 205; RTag (tx "false") false true (Some (tx "bool")) 206;
     RTag (tx "null") false false (Some (tx "null")) 207] 208;
   RSequence [w 301; RNode (tx "value") None (Some 2) 302; w 303] 304].
Definition json_syntax : syntax := Syn json_rules [tx "array"; tx "object"; tx "value"; tx "document"].

(** The alternatives of [value] backwards. *)
Definition json_backwards : syntax :=
  Syn (map (fun r => match r with RSelect args id => RSelect (rev args) id | r => r end) json_rules) [tx "array"; tx "object"; tx "value"; tx "document"].

Lemma json_fine : validb json_syntax && well_formedb json_syntax = true /\ clearb 40 number_chars json_syntax = true /\
  validb json_backwards && well_formedb json_backwards = true /\ clearb 40 number_chars json_backwards = true.
Proof. vm_compute. repeat split. Qed.

Lemma json_optimized : exists s', optimize_returns json_syntax s' /\ tails_fail_at_end std_ext json_syntax.
Proof.
  eexists. split; [exists 100; vm_compute; reflexivity|].
  apply (good_tails_check std_ext 100 _ std_ext_ok). vm_compute. reflexivity.
Qed.

Lemma json_clear : valid json_syntax /\ well_formed json_syntax /\ clear std_ext json_syntax.
Proof.
  destruct json_fine as (H1 & H2 & _). apply andb_true_iff in H1. destruct H1 as [Hv Hw].
  split; [apply validb_spec; exact Hv|]. split; [apply well_formedb_spec; exact Hw|].
  exact (clearb_spec std_ext number_chars 40 _ std_numbers H2).
Qed.

Lemma json_backwards_clear : valid json_backwards /\ well_formed json_backwards /\ clear std_ext json_backwards.
Proof.
  destruct json_fine as (_ & _ & H1 & H2). apply andb_true_iff in H1. destruct H1 as [Hv Hw].
  split; [apply validb_spec; exact Hv|]. split; [apply well_formedb_spec; exact Hw|].
  exact (clearb_spec std_ext number_chars 40 _ std_numbers H2).
Qed.

Lemma reordered_refl : forall r, (forall table args tail id, ~ occurs_in (RFastSelect table args tail id) r) ->
  (forall q indented id, ~ occurs_in (RLines q indented id) r) -> reordered r r.
Proof.
  fix IH 1. intros r Hf Hl.
  assert (Hc : forall c, In c (children r) -> (forall table args tail id, ~ occurs_in (RFastSelect table args tail id) c) /\
    (forall q indented id, ~ occurs_in (RLines q indented id) c)).
  { intros c Hc. split; [intros table args tail id Ho; apply (Hf table args tail id)|intros q indented id Ho; apply (Hl q indented id)];
      eapply occurs_below; eassumption. }
  destruct r as [o i|x n v p i|y o p i|y o p i|a p i|u p i|args i|tb args tl i|args i|r b o tr i|r o i|r d i|n p ix i|r i|r i];
    try (apply re_same; reflexivity); cbn [children] in Hc.
  - apply re_select with (args' := args); [|tauto]. clear Hf Hl. induction args as [|a args IHa]; constructor.
    + apply IH; apply Hc; left; reflexivity.
    + apply IHa. intros c Hi. apply Hc. right. exact Hi.
  - destruct (Hf tb args tl i). apply occurs_here.
  - apply re_sequence. clear Hf Hl. induction args as [|a args IHa]; constructor.
    + apply IH; apply Hc; left; reflexivity.
    + apply IHa. intros c Hi. apply Hc. right. exact Hi.
  - apply re_separate; apply IH; apply Hc; cbn; auto.
  - apply re_repeat; apply IH; apply Hc; left; reflexivity.
  - destruct (Hl r d i). apply occurs_here.
  - apply re_optional; apply IH; apply Hc; left; reflexivity.
  - apply re_not; apply IH; apply Hc; left; reflexivity.
Qed.

Lemma json_reordered : reordered_syntax json_syntax json_backwards.
Proof.
  unfold reordered_syntax. cbn [s_rules json_syntax json_backwards json_rules map].
  assert (Hre : forall r, all_sub (fun q => match q with RFastSelect _ _ _ _ | RLines _ _ _ => false | _ => true end) r = true -> reordered r r).
  { intros r H. apply reordered_refl; intros; intros Ho; apply (all_sub_spec _ _ H) in Ho; discriminate. }
  apply Forall2_cons; [apply Hre; reflexivity|]. apply Forall2_cons; [apply Hre; reflexivity|].
  apply Forall2_cons; [|apply Forall2_cons; [apply Hre; reflexivity|apply Forall2_nil]].
  eapply re_select; [|intros r; apply in_rev].
  repeat (apply Forall2_cons; [apply re_same; reflexivity|]). apply Forall2_nil.
Qed.

(** [doc = {"a" "ab"}] *)
Definition short_first : syntax := Syn [RSelect [RTag (tx "a") false false None 1; RTag (tx "ab") false false None 2] 3] [tx "doc"].

(** [doc = [.r?("a") "a"]] *)
Definition greedy : syntax :=
  Syn [RSequence [RRepeat (RTag (tx "a") false false None 1) true 2; RTag (tx "a") false false None 3] 4] [tx "doc"].

Lemma short_first_lost : exists r e tokens, valid short_first /\ well_formed short_first /\ start_rule short_first r /\
  generates std_ext (s_rules short_first) r (tx "ab") [] /\
  parse_returns std_ext short_first (tx "ab") [] indent_default (Some e) tokens.
Proof.
  do 3 eexists. split; [apply validb_spec; reflexivity|]. split; [apply well_formedb_spec; reflexivity|].
  split; [exists []; reflexivity|]. split.
  - eapply gen_select; [right; left; reflexivity|]. apply (gen_tag std_ext _ (tx "ab") false None 2).
  - exists 20. vm_compute. reflexivity.
Qed.

Lemma greedy_lost : exists r e tokens, valid greedy /\ well_formed greedy /\ start_rule greedy r /\
  generates std_ext (s_rules greedy) r (tx "aa") [] /\
  parse_returns std_ext greedy (tx "aa") [] indent_default (Some e) tokens.
Proof.
  do 3 eexists. split; [apply validb_spec; reflexivity|]. split; [apply well_formedb_spec; reflexivity|].
  split; [exists []; reflexivity|]. split.
  - apply gen_sequence.
    apply (gen_all_cons std_ext _ _ _ (tx "a") [] (tx "a") []).
    + apply gen_repeat with (k := 1); [|left; reflexivity].
      apply (gen_times_S std_ext _ _ 0 (tx "a") [] [] []); [apply (gen_tag std_ext _ (tx "a") false None 1)|apply gen_times_O].
    + apply (gen_all_cons std_ext _ _ _ (tx "a") [] [] []); [apply (gen_tag std_ext _ (tx "a") false None 3)|apply gen_all_nil].
  - exists 20. vm_compute. reflexivity.
Qed.

Definition json_text : str := tx " {""a"": [1, ""x"" ,true], ""b"":null}".

Definition json_one : f64 := match std_parse_number false (tx "1") with Some x => x | None => SpecFloat.S754_nan end.

Definition json_data : list metadata :=
  [StartNode (tx "object"); MString (tx "key") (tx "a"); StartNode (tx "array"); MF64 (tx "num") json_one; MString (tx "str") (tx "x");
   MBool (tx "bool") true; EndNode (tx "array"); MString (tx "key") (tx "b"); MBool (tx "null") true; EndNode (tx "object")].

Lemma json_example : exists r, start_rule json_syntax r /\ columns_fit indent_default json_text /\
  generates std_ext (s_rules json_syntax) r json_text json_data /\
  (exists new, parse_returns std_ext json_backwards json_text [] indent_default None ([] ++ new) /\ map snd new = json_data) /\
  (exists s' new, optimize_returns json_syntax s' /\ parse_returns std_ext s' json_text [] indent_default None ([] ++ new) /\ map snd new = json_data).
Proof.
  destruct json_clear as (Hv & Hw & Hc). destruct json_backwards_clear as (Hv' & Hw' & Hc').
  assert (Hp : exists new, parse_returns std_ext json_syntax json_text [] indent_default None ([] ++ new) /\ map snd new = json_data).
  { eexists. split; [exists 200; vm_compute; reflexivity|vm_compute; reflexivity]. }
  assert (Hf : columns_fit indent_default json_text) by (apply columns_fitb_spec; vm_compute; reflexivity).
  assert (Hr : exists r, start_rule json_syntax r) by (eexists; exists (firstn 3 json_rules); reflexivity). destruct Hr as [r Hr].
  pose proof (proj1 (clear_parse std_ext std_ext_ok std_strings_end json_syntax Hv Hw Hc r Hr json_text indent_default Hf [] json_data) Hp) as Hg.
  exists r. split; [exact Hr|]. split; [exact Hf|]. split; [exact Hg|]. split.
  - apply (clear_reordered std_ext std_ext_ok std_strings_end json_syntax json_backwards json_reordered Hv Hw Hc Hv' Hw' Hc' json_text indent_default Hf []).
    exact Hp.
  - destruct json_optimized as (s' & Ho & Ht). exists s'.
    destruct (proj2 (clear_optimized std_ext std_ext_ok std_strings_end json_syntax s' Hv Hw Hc Ho Ht r Hr json_text indent_default Hf [] json_data) Hg)
      as (new & Hn & Hm). exists new. auto.
Qed.

Lemma greedy_no_select args id : ~ occurs greedy (RSelect args id).
Proof.
  intros H. apply (all_rules_spec (fun q => match q with RSelect _ _ => false | _ => true end) greedy eq_refl) in H. discriminate.
Qed.
