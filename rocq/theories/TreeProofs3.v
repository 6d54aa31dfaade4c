(** Conversion is what the trees of the data mean: rules with sub rules, nodes, the whole data. *)
From Coq Require Import Ascii String List NArith Bool Arith Lia.
From Verif Require Import Base Ext Types DataSpec ParseModel ConvertModel ConvertSpec OptProofs ConvertSound ConvertTotal
  SyntaxProofs TreeSpec TreeProofs TreeProofs2.
Import ListNotations.
Local Open Scope string_scope.
Local Open Scope list_scope.
Local Open Scope nat_scope.

(** A sub rule is read. *)
Ltac sub_read Hrd x H :=
  match type of Hrd with means ?rd _ =>
    match type of H with context [rd ?c ?st] =>
      let R := fresh "R" in destruct (rd c st) as [[? ?]| |] eqn:R; try discriminate H; cbn [obind] in H;
      apply (Hrd x) in R; [|assumption|assumption]
    end
  end.

Lemma zeroed_some o n res x : zeroed res = at_ o n x ->
  (exists v, res = Some (Rng o n, v) /\ x = Some (zero_ids v)) \/ (res = None /\ x = None).
Proof.
  destruct res as [[q v]|], x as [w|]; cbn; intros H; try discriminate; [left|right; auto].
  injection H as -> <-. eauto.
Qed.

Lemma by_not_rule ss x v : rule_of ss (s2l "by") x = Some v -> rule_of ss (s2l "rule") x = None.
Proof.
  unfold rule_of. destruct x as [|n ks]; [discriminate|]. cbn [named]. destruct (str_eqb n (s2l "by")) eqn:E; [|discriminate].
  apply str_eqb_eq in E. subst n. reflexivity.
Qed.

(** No sub rule starts here. *)
Ltac off_read Hoff H :=
  match type of Hoff with forall c st out, _ -> ?rd c st = _ -> _ =>
    match type of H with context [rd ?c ?st] =>
      let R := fresh "R" in destruct (rd c st) as [out| |] eqn:R; try discriminate H; apply Hoff in R; [subst out; cbn [obind] in H|reflexivity]
    end
  end.

Section Sub.
  Variable ss : list (str * str).
  Variables rd rd_by : reader.
  Hypothesis Hrd : means rd (rule_of ss (s2l "rule")).
  Hypothesis Hoff : forall c st out, c_start_node c (s2l "rule") = None -> rd c st = Done out -> out = (None, st).
  Hypothesis Hby : means rd_by (rule_of ss (s2l "by")).

  Lemma args_loop_means node : forall fuel ts inner r' rest o args st out, Forall good ts -> holds_all ts inner ->
    args_loop fuel rd node (Cv (inner ++ (r', EndNode node) :: rest) o) args st = Done out ->
    exists args' st', out = (Cv rest (o + length inner + 1), args', st') /\
      map zero_ids args' = map zero_ids args ++ answers (rule_of ss (s2l "rule")) ts.
  Proof.
    induction fuel as [|fuel IH]; intros ts inner r' rest o args st out Hg Hh H; [discriminate|].
    cbn [args_loop] in H. destruct ts as [|x ts].
    { destruct inner; [|discriminate Hh]. cbn [app] in H. rewrite end_here, update_one in H. cbn [obind] in H. apply Done_inj in H. subst out.
      do 2 eexists. cbn [length]. rewrite Nat.add_0_r. split; [reflexivity|]. cbn. rewrite app_nil_r. reflexivity. }
    inversion Hg; subst. split_first Hh part inner' Hf. rewrite (end_at x) in H by assumption. sub_read Hrd x H.
    apply zeroed_some in R. cbn [answers]. destruct R as [(v & -> & ->)|[-> ->]].
    - rewrite update_first in H. cbn [obind] in H. apply (IH ts) in H; [|assumption|assumption]. destruct H as (args' & st' & -> & Ha).
      do 2 eexists. split; [rewrite app_length, Nat.add_assoc; reflexivity|]. rewrite Ha, map_app, <- app_assoc. reflexivity.
    - rewrite (skip_at x) in H by assumption. cbn [obind] in H. apply (IH ts) in H; [|assumption|assumption]. destruct H as (args' & st' & -> & Ha).
      do 2 eexists. split; [rewrite app_length, Nat.add_assoc; reflexivity|]. exact Ha.
  Qed.

  Lemma read_args_means fuel node (mk : list rule -> N -> rule) : (forall l id, zero_ids (mk l id) = mk (map zero_ids l) 0%N) ->
    means (read_args fuel rd node mk) (kind_is node (fun ks => Some (mk (answers (rule_of ss (s2l "rule")) ks) 0%N))).
  Proof.
    intros Hmk. unfold read_args. reader_start node. destruct (args_loop _ _ _ _ _ _) as [out| |] eqn:Hl; try discriminate. cbn [obind] in H.
    apply (args_loop_means node fuel ks) in Hl; [|exact Hg|exact Hi]. destruct Hl as (args' & st2 & -> & Ha).
    apply finish_means in H; [|intros; rewrite !Hmk; reflexivity]. rewrite H, Hmk, Ha, node_length. reflexivity.
  Qed.

  Lemma read_wrap_means node (mk : rule -> N -> rule) : (forall v id, zero_ids (mk v id) = mk (zero_ids v) 0%N) ->
    means (read_wrap rd node mk) (kind_is node (fun ks =>
      match ks with [k] => option_map (fun v => mk v 0%N) (rule_of ss (s2l "rule") k) | _ => None end)).
  Proof.
    intros Hmk. unfold read_wrap. reader_start node. destruct ks as [|k ks].
    { destruct inner; [|discriminate Hi]. cbn [app] in H. off_read Hoff H. injection H as <- _. reflexivity. }
    inversion Hg; subst. split_first Hi part inner' Hf. sub_read Hrd k H. apply zeroed_some in R. destruct R as [(v & -> & ->)|[-> ->]].
    2:{ injection H as <- _. destruct ks; reflexivity. }
    rewrite update_first in H. cbn [obind] in H. destruct ks as [|k2 ks].
    - destruct inner'; [|discriminate Hi]. cbn [app] in H. rewrite end_here, update_one in H. cbn [obind] in H.
      apply finish_means in H; [|intros; rewrite !Hmk; reflexivity]. rewrite H, Hmk. cbn [app]. rewrite node_length. reflexivity.
    - inversion H3; subst. split_first Hi part2 inner2 Hf2. rewrite (end_at k2) in H by assumption. injection H as <- _. reflexivity.
  Qed.

  Lemma read_lines_means : means (read_lines rd) (kind_is (s2l "lines") (fun ks =>
    match ks with
    | [k] => option_map (fun r => RLines r false 0%N) (rule_of ss (s2l "rule") k)
    | [f; k] =>
      match flag_of (s2l "indent") f with
      | Some b => option_map (fun r => RLines r b 0%N) (rule_of ss (s2l "rule") k)
      | None => None
      end
    | _ => None
    end)).
  Proof.
    unfold read_lines. reader_start (s2l "lines"). destruct ks as [|k ks].
    { destruct inner; [|discriminate Hi]. cbn [app] in H. rewrite meta_bool_end in H by apply not_leaf_end. cbn [obind] in H.
      off_read Hoff H. injection H as <- _. reflexivity. }
    inversion Hg; subst. split_first Hi part inner' Hf. rewrite (bool_at k) in H by assumption.
    destruct (flag_of (s2l "indent") k) as [b|] eqn:F.
    - seen H. rewrite update_first in H. cbn [obind] in H. destruct ks as [|k2 ks].
      { destruct inner'; [|discriminate Hi]. cbn [app] in H. off_read Hoff H. injection H as <- _.
        replace (rule_of ss (s2l "rule") k) with (@None rule) by (symmetry; excl F k). reflexivity. }
      inversion H3; subst. split_first Hi part2 inner2 Hf2. sub_read Hrd k2 H. apply zeroed_some in R. destruct R as [(v & -> & ->)|[-> ->]].
      2:{ injection H as <- _. destruct ks; reflexivity. }
      rewrite update_first in H. cbn [obind] in H. destruct ks as [|k3 ks].
      + destruct inner2; [|discriminate Hi]. cbn [app] in H. rewrite end_here, update_one in H. cbn [obind] in H.
        replace (o + 1 + length part + length part2 + 1) with (o + 1 + length (part ++ part2) + 1) in H by len.
        apply finish_means in H; [|reflexivity]. rewrite H. cbn [app]. rewrite app_assoc, node_length. reflexivity.
      + apply Forall_cons_iff in H5; destruct H5. split_first Hi part3 inner3 Hf3. rewrite (end_at k3) in H by assumption. injection H as <- _. reflexivity.
    - seen H. sub_read Hrd k H. apply zeroed_some in R. destruct R as [(v & -> & ->)|[-> ->]].
      2:{ injection H as <- _. destruct ks as [|? [|]]; reflexivity. }
      rewrite update_first in H. cbn [obind] in H. destruct ks as [|k2 ks].
      + destruct inner'; [|discriminate Hi]. cbn [app] in H. rewrite end_here, update_one in H. cbn [obind] in H.
        apply finish_means in H; [|reflexivity]. rewrite H. cbn [app]. rewrite node_length. reflexivity.
      + inversion H3; subst. split_first Hi part2 inner2 Hf2. rewrite (end_at k2) in H by assumption. injection H as <- _. destruct ks; reflexivity.
  Qed.

  Lemma rep_loop_means : forall fuel ts inner r' rest o rl op st out, Forall good ts -> holds_all ts inner ->
    rep_loop fuel rd (Cv (inner ++ (r', EndNode (s2l "repeat")) :: rest) o) rl op st = Done out ->
    exists rl' st', out = (Cv rest (o + length inner + 1), rl', orelse (last_of (flag_of (s2l "optional")) ts) op, st') /\
      option_map zero_ids rl' = orelse (last_of (rule_of ss (s2l "rule")) ts) (option_map zero_ids rl).
  Proof.
    induction fuel as [|fuel IH]; intros ts inner r' rest o rl op st out Hg Hh H; [discriminate|].
    cbn [rep_loop] in H. destruct ts as [|x ts].
    { destruct inner; [|discriminate Hh]. cbn [app] in H. rewrite end_here, update_one in H. cbn [obind] in H. apply Done_inj in H. subst out.
      do 2 eexists. cbn [length]. rewrite Nat.add_0_r. split; reflexivity. }
    inversion Hg; subst. split_first Hh part inner' Hf. rewrite (end_at x) in H by assumption. rewrite !orelse_last.
    sub_read Hrd x H. apply zeroed_some in R. destruct R as [(v & -> & F)|[-> F]].
    - replace (flag_of (s2l "optional") x) with (@None bool) by (symmetry; excl F x). rewrite F.
      rewrite update_first in H. cbn [obind] in H. apply (IH ts) in H; [|assumption|assumption]. destruct H as (rl' & st' & -> & Ha).
      do 2 eexists. split; [rewrite app_length, Nat.add_assoc; reflexivity|exact Ha].
    - rewrite F, (bool_at x) in * by assumption. destruct (flag_of (s2l "optional") x) as [b|].
      + seen H. rewrite update_first in H. cbn [obind] in H. apply (IH ts) in H; [|assumption|assumption]. destruct H as (rl' & st' & -> & Ha).
        do 2 eexists. split; [rewrite app_length, Nat.add_assoc; reflexivity|exact Ha].
      + seen H. rewrite (skip_at x) in H by assumption. cbn [obind] in H. apply (IH ts) in H; [|assumption|assumption]. destruct H as (rl' & st' & -> & Ha).
        do 2 eexists. split; [rewrite app_length, Nat.add_assoc; reflexivity|exact Ha].
  Qed.

  Lemma read_repeat_means fuel : means (read_repeat fuel rd) (kind_is (s2l "repeat") (fun ks =>
    match last_of (rule_of ss (s2l "rule")) ks, last_of (flag_of (s2l "optional")) ks with
    | Some r, Some b => Some (RRepeat r b 0%N)
    | _, _ => None
    end)).
  Proof.
    unfold read_repeat. reader_start (s2l "repeat"). destruct (rep_loop _ _ _ _ _ _) as [out| |] eqn:Hl; try discriminate. cbn [obind] in H.
    apply (rep_loop_means fuel ks) in Hl; [|exact Hg|exact Hi]. destruct Hl as (rl' & st2 & -> & Ha). rewrite orelse_none in H.
    cbn [option_map] in Ha. rewrite orelse_none in Ha. rewrite <- Ha. destruct rl' as [v|]; cbn [option_map]; [|injection H as <- _; reflexivity].
    destruct (last_of (flag_of (s2l "optional")) ks) as [b|]; [|injection H as <- _; reflexivity].
    apply finish_means in H; [|reflexivity]. rewrite H, node_length. reflexivity.
  Qed.

  Lemma sep_by_loop_means : forall fuel ts inner r' rest o op tr b rl st out, Forall good ts -> holds_all ts inner ->
    sep_by_loop fuel rd_by rd (Cv (inner ++ (r', EndNode (s2l "separated_by")) :: rest) o) op tr b rl st = Done out ->
    exists b' rl' st', out = (Cv rest (o + length inner + 1), orelse (last_of (flag_of (s2l "optional")) ts) op,
        orelse (last_of (flag_of (s2l "allow_trail")) ts) tr, b', rl', st') /\
      option_map zero_ids b' = orelse (last_of (rule_of ss (s2l "by")) ts) (option_map zero_ids b) /\
      option_map zero_ids rl' = orelse (last_of (rule_of ss (s2l "rule")) ts) (option_map zero_ids rl).
  Proof.
    induction fuel as [|fuel IH]; intros ts inner r' rest o op tr b rl st out Hg Hh H; [discriminate|].
    cbn [sep_by_loop] in H. destruct ts as [|x ts].
    { destruct inner; [|discriminate Hh]. cbn [app] in H. rewrite end_here, update_one in H. cbn [obind] in H. apply Done_inj in H. subst out.
      do 3 eexists. cbn [length]. rewrite Nat.add_0_r. split; [reflexivity|split; reflexivity]. }
    inversion Hg; subst. split_first Hh part inner' Hf. rewrite (end_at x) in H by assumption. rewrite !orelse_last.
    rewrite !(bool_at x) in H by assumption. destruct (flag_of (s2l "optional") x) as [v|] eqn:F.
    { replace (flag_of (s2l "allow_trail") x) with (@None bool) by (symmetry; excl F x).
      replace (rule_of ss (s2l "by") x) with (@None rule) by (symmetry; excl F x).
      replace (rule_of ss (s2l "rule") x) with (@None rule) by (symmetry; excl F x).
      seen H. rewrite update_first in H. cbn [obind] in H. apply (IH ts) in H; [|assumption|assumption]. destruct H as (b' & rl' & st' & -> & Ha & Hb).
      do 3 eexists. split; [rewrite app_length, Nat.add_assoc; reflexivity|auto]. }
    seen H. destruct (flag_of (s2l "allow_trail") x) as [v|] eqn:G.
    { replace (rule_of ss (s2l "by") x) with (@None rule) by (symmetry; excl G x).
      replace (rule_of ss (s2l "rule") x) with (@None rule) by (symmetry; excl G x).
      seen H. rewrite update_first in H. cbn [obind] in H. apply (IH ts) in H; [|assumption|assumption]. destruct H as (b' & rl' & st' & -> & Ha & Hb).
      do 3 eexists. split; [rewrite app_length, Nat.add_assoc; reflexivity|auto]. }
    seen H. sub_read Hby x H. apply zeroed_some in R. destruct R as [(v & -> & K)|[-> K]].
    { replace (rule_of ss (s2l "rule") x) with (@None rule) by (symmetry; exact (by_not_rule ss _ _ K)). rewrite K.
      rewrite update_first in H. cbn [obind] in H. apply (IH ts) in H; [|assumption|assumption]. destruct H as (b' & rl' & st' & -> & Ha & Hb).
      do 3 eexists. split; [rewrite app_length, Nat.add_assoc; reflexivity|auto]. }
    rewrite K. sub_read Hrd x H. apply zeroed_some in R. destruct R as [(v & -> & J)|[-> J]].
    - rewrite J. rewrite update_first in H. cbn [obind] in H. apply (IH ts) in H; [|assumption|assumption]. destruct H as (b' & rl' & st' & -> & Ha & Hb).
      do 3 eexists. split; [rewrite app_length, Nat.add_assoc; reflexivity|auto].
    - rewrite J. rewrite (skip_at x) in H by assumption. cbn [obind] in H. apply (IH ts) in H; [|assumption|assumption].
      destruct H as (b' & rl' & st' & -> & Ha & Hb). do 3 eexists. split; [rewrite app_length, Nat.add_assoc; reflexivity|auto].
  Qed.

  Lemma read_separated_by_means fuel : means (read_separated_by fuel rd_by rd) (kind_is (s2l "separated_by") (fun ks =>
    match last_of (rule_of ss (s2l "by")) ks, last_of (rule_of ss (s2l "rule")) ks with
    | Some b, Some r => Some (RSeparateBy r b (otherwise true (last_of (flag_of (s2l "optional")) ks))
        (otherwise true (last_of (flag_of (s2l "allow_trail")) ks)) 0%N)
    | _, _ => None
    end)).
  Proof.
    unfold read_separated_by. reader_start (s2l "separated_by"). destruct (sep_by_loop _ _ _ _ _ _ _ _ _) as [out| |] eqn:Hl; try discriminate.
    cbn [obind] in H. apply (sep_by_loop_means fuel ks) in Hl; [|exact Hg|exact Hi]. destruct Hl as (b' & rl' & st2 & -> & Ha & Hb).
    rewrite !orelse_none in H. cbn [option_map] in Ha, Hb. rewrite orelse_none in Ha, Hb. rewrite <- Ha, <- Hb.
    destruct b' as [b|]; cbn [option_map]; [|injection H as <- _; reflexivity].
    destruct rl' as [v|]; cbn [option_map]; [|injection H as <- _; reflexivity].
    apply finish_means in H; [|reflexivity]. rewrite H, node_length. reflexivity.
  Qed.
End Sub.

(** ** Any rule *)

Lemma first_only : forall names rds, Forall2 reader_off names rds -> NoDup names ->
  forall i n rd, nth_error names i = Some n -> nth_error rds i = Some rd ->
  forall c st q, c_start_node c n = Some q -> first_reader rds c st = (do (res, st') <- rd c st; Done (res, st')).
Proof.
  induction 1 as [|n0 rd0 names rds H0 H IH]; intros Hd i n rd Hn Hr c st q Hq; [destruct i; discriminate|].
  inversion Hd as [|? ? Hnot Hd']; subst. cbn [first_reader]. destruct i as [|i].
  - injection Hn as ->. injection Hr as ->. destruct (rd c st) as [[res st']| |]; try reflexivity. cbn [obind].
    destruct res; [reflexivity|]. apply (first_off names); [exact H|].
    apply Forall_forall. intros m Hm. eapply start_other; [exact Hq|]. intros ->. contradiction.
  - cbn [nth_error] in *. rewrite H0.
    + cbn [obind]. eapply IH; eassumption.
    + eapply start_other; [exact Hq|]. intros ->. apply Hnot. eapply nth_error_In, Hn.
Qed.

(** Where no node of a known kind starts, no rule is read. *)
Lemma kind_of_none ss kids kind : (forall n, In n rule_kinds -> str_eqb kind n = false) -> kind_meaning ss (rule_in ss) kind kids = None.
Proof.
  intros H. unfold kind_meaning. cbv zeta.
  repeat match goal with |- context [str_eqb kind (s2l ?s)] => rewrite (H (s2l s)) by (unfold rule_kinds; cbn [In]; tauto) end.
  reflexivity.
Qed.

Lemma read_rule_means ss : forall fuel p, p = s2l "rule" \/ p = s2l "by" -> means (read_rule fuel p ss) (rule_of ss p).
Proof.
  induction fuel as [|fuel IH]; intros p Hp; [intros t part rest o st res st' Hg Hh H; discriminate|].
  assert (Hr := IH _ (or_introl eq_refl)). assert (Hb := IH _ (or_intror eq_refl)). clear IH.
  cbn [read_rule]. cbv zeta. intros t part rest o st res st' Hg Hh H. unfold rule_of.
  rewrite (start_at t) in H by assumption. destruct t as [m|n ks]; [injection H as <- _; reflexivity|].
  cbn [named] in *. destruct (str_eqb n p) eqn:En; [|injection H as <- _; reflexivity].
  apply str_eqb_eq in En. subst n. apply holds_tree in Hh. destruct Hh as (r & r' & inner & -> & Hi).
  rewrite node_unfold, update_one in H. cbn [obind] in H. apply good_tree in Hg.
  match type of H with context [first_reader ?l] => set (rds := l) in * end.
  assert (Hro : forall c st out, c_start_node c (s2l "rule") = None -> read_rule fuel (s2l "rule") ss c st = Done out -> out = (None, st)).
  { clear. intros c st out Hc H. destruct fuel; [discriminate|]. cbn [read_rule] in H. rewrite Hc in H. injection H as <-. reflexivity. }
  assert (Hoffs : Forall2 reader_off rule_kinds rds).
  { unfold rule_kinds, rds.
    repeat (apply Forall2_cons; [intros c0 st0 Hc0; cbv beta delta [read_args read_until read_tag read_whitespace read_text
      read_number read_reference read_wrap read_separated_by read_lines read_repeat]; rewrite Hc0; reflexivity|]).
    apply Forall2_nil. }
  assert (Hall : Forall2 (fun n rd => means rd (kind_is n (kind_meaning ss (rule_in ss) n))) rule_kinds rds).
  { unfold rule_kinds, rds. repeat (apply Forall2_cons; [|]); [..|apply Forall2_nil].
    - exact (read_args_means ss _ Hr fuel (s2l "sequence") RSequence (fun _ _ => eq_refl)).
    - exact (read_until_means fuel (s2l "until_any_or_whitespace") RUntilAnyOrWs ss (fun _ _ _ _ => eq_refl)).
    - exact (read_until_means fuel (s2l "until_any") RUntilAny ss (fun _ _ _ _ => eq_refl)).
    - exact (read_tag_means fuel ss).
    - exact read_whitespace_means.
    - exact (read_text_means fuel ss).
    - exact (read_number_means fuel ss).
    - exact (read_reference_means fuel ss).
    - exact (read_args_means ss _ Hr fuel (s2l "select") RSelect (fun _ _ => eq_refl)).
    - exact (read_wrap_means ss _ Hr Hro (s2l "optional") ROptional (fun _ _ => eq_refl)).
    - exact (read_wrap_means ss _ Hr Hro (s2l "not") RNot (fun _ _ => eq_refl)).
    - exact (read_separated_by_means ss _ _ Hr Hb fuel).
    - exact (read_lines_means ss _ Hr Hro).
    - exact (read_repeat_means ss _ Hr fuel). }
  clearbody rds. cbn [rule_in]. destruct ks as [|k ks].
  { destruct inner; [|discriminate Hi]. cbn [app] in H. rewrite first_off with (names := rule_kinds) in H; [|exact Hoffs|apply Forall_forall; reflexivity].
    injection H as <- _. reflexivity. }
  apply Forall_cons_iff in Hg. destruct Hg as [Hk Hg]. split_first Hi part inner' Hf.
  destruct (in_dec (list_eq_dec N.eq_dec) (match k with Tree kind _ => kind | Leaf _ => [] end) rule_kinds) as [Hin|Hnot].
  - destruct k as [m|kind kk]; [exfalso; revert Hin; clear; unfold rule_kinds; cbn [In]; intros H;
      repeat (destruct H as [H|H]; [discriminate H|]); exact H|].
    apply In_nth_error in Hin. destruct Hin as [i Hn].
    assert (Hrd : exists rd, nth_error rds i = Some rd /\ means rd (kind_is kind (kind_meaning ss (rule_in ss) kind))).
    { clear - Hall Hn. revert i Hn. induction Hall as [|n rd ns rds Hm Hall IH]; intros i Hn; [destruct i; discriminate|].
      destruct i as [|i]; [|exact (IH i Hn)]. injection Hn as ->. exists rd. split; [reflexivity|exact Hm]. }
    destruct Hrd as (rd & Hrd & Hm).
    rewrite (first_only _ _ Hoffs rule_kinds_distinct i kind rd Hn Hrd _ _ (Rng (o + 1) 1)) in H.
    2:{ rewrite (start_at (Tree kind kk)) by assumption. cbn [named]. rewrite str_eqb_refl. reflexivity. }
    sub_read Hm (Tree kind kk) H. apply zeroed_some in R. cbn [kind_is] in R. rewrite str_eqb_refl in R.
    destruct R as [(v & -> & Hv)|[-> Hv]].
    2:{ injection H as <- _. rewrite Hv. destruct ks; reflexivity. }
    rewrite update_first in H. cbn [obind] in H. destruct ks as [|k2 ks].
    + destruct inner'; [|discriminate Hi]. cbn [app] in H. rewrite end_here, update_one in H. cbn [obind] in H. rewrite Hv.
      replace (o + 1 + length part + 1) with (o + (1 + length part + 1)) in H by lia. rewrite sub_cursor in H.
      injection H as <- _. cbn [app]. rewrite node_length. reflexivity.
    + apply Forall_cons_iff in Hg. destruct Hg as [Hk2 Hg]. split_first Hi part2 inner2 Hf2. rewrite (end_at k2) in H by assumption.
      injection H as <- _. reflexivity.
  - rewrite first_off with (names := rule_kinds) in H; [|exact Hoffs|].
    2:{ apply Forall_forall. intros n Hn. rewrite (start_at k) by assumption. destruct k as [m|kind kk]; [reflexivity|]. cbn [named].
        destruct (str_eqb kind n) eqn:E; [|reflexivity]. apply str_eqb_eq in E. subst n. contradiction. }
    injection H as <- _. destruct k as [m|kind kk]; [reflexivity|]. destruct ks; [|reflexivity].
    rewrite kind_of_none; [reflexivity|]. intros n Hn. destruct (str_eqb kind n) eqn:E; [|reflexivity].
    apply str_eqb_eq in E. subst n. contradiction.
Qed.

(** ** Nodes *)

Lemma node_loop_means ss : forall fuel ts inner r' rest o id name rl ig out, Forall good ts -> holds_all ts inner ->
  node_loop fuel ss (Cv (inner ++ (r', EndNode (s2l "node")) :: rest) o) id name rl ig = Done out ->
  exists rl' ig', out = (Cv rest (o + length inner + 1), orelse (last_of (string_at (s2l "name")) ts) name, rl', ig') /\
    option_map zero_ids rl' = orelse (last_of (rule_of ss (s2l "rule")) ts) (option_map zero_ids rl).
Proof.
  induction fuel as [|fuel IH]; intros ts inner r' rest o id name rl ig out Hg Hh H; [discriminate|].
  cbn [node_loop] in H. destruct ts as [|x ts].
  { destruct inner; [|discriminate Hh]. cbn [app] in H. rewrite end_here, update_one in H. cbn [obind] in H. apply Done_inj in H. subst out.
    do 2 eexists. cbn [length]. rewrite Nat.add_0_r. split; reflexivity. }
  apply Forall_cons_iff in Hg. destruct Hg as [Hx Hg]. split_first Hh part inner' Hf. rewrite (end_at x) in H by assumption. rewrite !orelse_last.
  rewrite (f64_at x) in H by assumption. destruct (number_at (s2l "id") x) as [v|] eqn:F.
  { replace (string_at (s2l "name") x) with (@None str) by (symmetry; excl F x).
    replace (rule_of ss (s2l "rule") x) with (@None rule) by (symmetry; excl F x).
    seen H. rewrite update_first in H. cbn [obind] in H. apply (IH ts) in H; [|assumption|assumption]. destruct H as (rl' & ig' & -> & Ha).
    do 2 eexists. split; [rewrite app_length, Nat.add_assoc; reflexivity|exact Ha]. }
  seen H. rewrite (str_at x) in H by assumption. destruct (string_at (s2l "name") x) as [v|] eqn:G.
  { replace (rule_of ss (s2l "rule") x) with (@None rule) by (symmetry; excl G x).
    seen H. rewrite update_first in H. cbn [obind] in H. apply (IH ts) in H; [|assumption|assumption]. destruct H as (rl' & ig' & -> & Ha).
    do 2 eexists. split; [rewrite app_length, Nat.add_assoc; reflexivity|exact Ha]. }
  seen H. destruct (mul_usize _ _) as [d| |]; try discriminate. cbn [obind] in H.
  destruct (read_rule _ _ _ _ _) as [[res st]| |] eqn:R; try discriminate. cbn [obind] in H.
  apply (read_rule_means ss fuel (s2l "rule") (or_introl eq_refl) x) in R; [|assumption|assumption].
  apply zeroed_some in R. destruct R as [(v & -> & ->)|[-> ->]].
  - rewrite update_first in H. cbn [obind] in H. apply (IH ts) in H; [|assumption|assumption]. destruct H as (rl' & ig' & -> & Ha).
    do 2 eexists. split; [rewrite app_length, Nat.add_assoc; reflexivity|exact Ha].
  - rewrite (skip_at x) in H by assumption. cbn [obind] in H. apply (IH ts) in H; [|assumption|assumption]. destruct H as (rl' & ig' & -> & Ha).
    do 2 eexists. split; [rewrite app_length, Nat.add_assoc; reflexivity|exact Ha].
Qed.

Lemma read_node_means fuel ss t part rest o ig res ig' : good t -> holds t part ->
  read_node fuel ss (Cv (part ++ rest) o) ig = Done (res, ig') ->
  option_map (fun x => (fst x, (fst (snd x), zero_ids (snd (snd x))))) res = at_ o (length part) (node_of ss t).
Proof.
  intros Hg Hh H. unfold read_node in H. rewrite (start_at t) in H by assumption. destruct t as [m|n ks]; [injection H as <- _; reflexivity|].
  cbn [named node_of] in *. destruct (str_eqb n (s2l "node")) eqn:En; [|injection H as <- _; reflexivity].
  apply str_eqb_eq in En. subst n. apply holds_tree in Hh. destruct Hh as (r & r' & inner & -> & Hi).
  rewrite node_unfold, update_one in H. cbn [obind] in H. apply good_tree in Hg.
  destruct (node_loop _ _ _ _ _ _ _) as [out| |] eqn:Hl; try discriminate. cbn [obind] in H.
  apply (node_loop_means ss fuel ks) in Hl; [|exact Hg|exact Hi]. destruct Hl as (rl' & ig2 & -> & Ha).
  rewrite orelse_none in H. cbn [option_map] in Ha. rewrite orelse_none in Ha. rewrite <- Ha.
  destruct (last_of (string_at (s2l "name")) ks) as [name|]; [|injection H as <- _; reflexivity].
  destruct rl' as [v|]; cbn [option_map]; [|injection H as <- _; reflexivity].
  replace (o + 1 + length inner + 1) with (o + (1 + length inner + 1)) in H by lia. rewrite sub_cursor in H.
  injection H as <- _. rewrite node_length. reflexivity.
Qed.

Definition pushed (s : syntax) (ns : list (str * rule)) : syntax :=
  fold_left (fun s n => syntax_push s (fst n) (snd n)) ns s.

Definition zero_node (n : str * rule) : str * rule := (fst n, zero_ids (snd n)).

Lemma nodes_loop_means ss : forall fuel ts part o s ig res ig', Forall good ts -> holds_all ts part ->
  nodes_loop fuel ss (Cv part o) s ig = Done (res, ig') ->
  match all_of (node_of ss) ts with
  | Some ns => exists ns', map zero_node ns' = ns /\ res = Some (pushed s ns')
  | None => res = None
  end.
Proof.
  induction fuel as [|fuel IH]; intros ts part o s ig res ig' Hg Hh H; [discriminate|]. cbn [nodes_loop] in H. destruct ts as [|t ts].
  { destruct part; [|discriminate Hh]. change (read_node fuel ss (Cv [] o) ig) with (@Done (option (range * (str * rule)) * list range) (None, ig)) in H.
    cbn [obind] in H. injection H as <- _. exists []. split; reflexivity. }
  apply Forall_cons_iff in Hg. destruct Hg as [Ht Hg]. apply holds_cons in Hh. destruct Hh as (p1 & p2 & -> & H1 & H2). cbn [all_of].
  destruct (read_node _ _ _ _) as [[res1 ig1]| |] eqn:R; try discriminate. cbn [obind] in H. apply (read_node_means fuel ss t) in R; [|assumption|assumption].
  destruct (node_of ss t) as [[name v]|].
  - destruct res1 as [[q [name' v']]|]; [|discriminate]. cbn in R. injection R as -> -> <-. rewrite update_first in H. cbn [obind] in H.
    apply (IH ts) in H; [|assumption|assumption]. destruct (all_of (node_of ss) ts) as [ns|]; [|exact H].
    destruct H as (ns' & <- & ->). exists ((name, v') :: ns'). split; reflexivity.
  - destruct res1; [discriminate|]. assert (Hp := item_length _ (holds_item t p1 Ht H1)).
    replace (0 <? c_remaining (Cv (p1 ++ p2) o)) with true in H; [injection H as <- _; reflexivity|].
    symmetry. apply Nat.ltb_lt. unfold c_remaining. cbn. rewrite app_length. lia.
Qed.

Lemma data_means : forall fuel fuel' ts part o ss c ss' ig res ig', Forall good ts -> holds_all ts part ->
  strings_loop fuel (Cv part o) ss = Done (c, ss') -> nodes_loop fuel' ss' c syntax_new ig = Done (res, ig') ->
  match data_meaning ss ts with
  | Some ns => exists ns', map zero_node ns' = ns /\ res = Some (pushed syntax_new ns')
  | None => res = None
  end.
Proof.
  induction fuel as [|fuel IH]; intros fuel' ts part o ss c ss' ig res ig' Hg Hh H Hn; [discriminate|]. cbn [strings_loop] in H.
  destruct ts as [|t ts].
  { destruct part; [|discriminate Hh]. change (read_string fuel (Cv [] o)) with (@Done (option (range * (str * str))) None) in H.
    cbn [obind] in H. injection H as <- <-. exact (nodes_loop_means ss fuel' [] [] o syntax_new ig res ig' (Forall_nil _) eq_refl Hn). }
  assert (Hg' := Hg). assert (Hh' := Hh). cbn [data_meaning].
  apply Forall_cons_iff in Hg. destruct Hg as [Ht Hg]. apply holds_cons in Hh. destruct Hh as (p1 & p2 & -> & H1 & H2).
  destruct (read_string _ _) as [res1| |] eqn:R; try discriminate. cbn [obind] in H. apply (read_string_means fuel t) in R; [|assumption|assumption].
  destruct (string_of t) as [d|]; subst res1; cbn [at_ option_map] in H.
  - rewrite update_first in H. cbn [obind] in H. exact (IH _ _ _ _ _ _ _ _ _ _ Hg H2 H Hn).
  - injection H as <- <-. exact (nodes_loop_means ss fuel' (t :: ts) _ _ _ _ _ _ Hg' Hh' Hn).
Qed.
