(** What conversion passes over: rules, nodes and the whole data. *)
From Coq Require Import Ascii String List NArith Bool Arith Lia.
From Verif Require Import Base Ext Types DataSpec ParseModel ConvertModel ConvertSpec OptProofs ConvertSound ConvertTotal
  SyntaxProofs TreeSpec TreeProofs TreeProofs2 TreeProofs3 IgnoreSpec IgnoreProofs.
Import ListNotations.
Local Open Scope string_scope.
Local Open Scope list_scope.
Local Open Scope nat_scope.

Lemma passed_none ss sub o kids kind : (forall n, In n rule_kinds -> str_eqb kind n = false) -> passed_kind ss sub kind o kids = [].
Proof.
  intros H. unfold passed_kind. cbv zeta.
  repeat match goal with |- context [str_eqb kind (s2l ?s)] => rewrite (H (s2l s)) by (unfold rule_kinds; cbn [In]; tauto) end.
  reflexivity.
Qed.

Definition inside_of (ss : list (str * str)) (p : str) (o : nat) (k : tree) : list range := if named p k then passed_rule ss o k else [].

Lemma read_rule_passes ss : forall fuel p, p = s2l "rule" \/ p = s2l "by" -> passes (read_rule fuel p ss) (inside_of ss p).
Proof.
  induction fuel as [|fuel IH]; intros p Hp; [intros t part rest o st res st' Hg Hh H; discriminate|].
  assert (Pr := IH _ (or_introl eq_refl)). assert (Pb := IH _ (or_intror eq_refl)). clear IH.
  assert (Hr := read_rule_means ss fuel _ (or_introl eq_refl)). assert (Hb := read_rule_means ss fuel _ (or_intror eq_refl)).
  cbn [read_rule]. cbv zeta. intros t part rest o st res st' Hg Hh H. unfold inside_of.
  rewrite (start_at t) in H by assumption. destruct t as [m|n ks]; [injection H as _ <-; cbn; rewrite app_nil_r; reflexivity|].
  cbn [named] in *. destruct (str_eqb n p) eqn:En; [|injection H as _ <-; rewrite app_nil_r; reflexivity].
  apply str_eqb_eq in En. subst n. apply holds_tree in Hh. destruct Hh as (r & r' & inner & -> & Hi).
  rewrite node_unfold, update_one in H. cbn [obind] in H. apply good_tree in Hg.
  match type of H with context [first_reader ?l] => set (rds := l) in * end.
  assert (Hro : forall c st out, c_start_node c (s2l "rule") = None -> read_rule fuel (s2l "rule") ss c st = Done out -> out = (None, st)).
  { clear. intros c st out Hc H. destruct fuel; [discriminate|]. cbn [read_rule] in H. rewrite Hc in H. injection H as <-. reflexivity. }
  assert (Hoffs : Forall2 reader_off rule_kinds rds).
  { unfold rule_kinds, rds.
    repeat (apply Forall2_cons; [intros c0 st0 Hc0; cbv beta delta [read_args read_until read_tag read_whitespace read_text
      read_number read_reference read_wrap read_separated_by read_lines read_repeat]; rewrite Hc0; reflexivity|]).
    apply Forall2_nil. }
  assert (Hall : Forall2 (fun n rd => passes rd (kind_passes n (passed_kind ss (passed_rule ss) n))) rule_kinds rds).
  { unfold rule_kinds, rds. repeat (apply Forall2_cons; [|]); [..|apply Forall2_nil].
    - exact (read_args_passes ss _ Hr Pr fuel (s2l "sequence") RSequence).
    - exact (read_until_passes fuel (s2l "until_any_or_whitespace") RUntilAnyOrWs ss).
    - exact (read_until_passes fuel (s2l "until_any") RUntilAny ss).
    - exact (read_tag_passes fuel ss).
    - intros t0 part0 rest0 o0 st0 res0 st0' Hg0 Hh0 H0. rewrite (read_whitespace_passes _ _ _ _ _ _ _ Hg0 Hh0 H0).
      destruct t0 as [m0|n0 k0]; [reflexivity|]. cbn [kind_passes]. destruct (str_eqb _ _); reflexivity.
    - exact (read_text_passes fuel ss).
    - exact (read_number_passes fuel ss).
    - exact (read_reference_passes fuel ss).
    - exact (read_args_passes ss _ Hr Pr fuel (s2l "select") RSelect).
    - exact (read_wrap_passes ss _ Hr Hro Pr (s2l "optional") ROptional).
    - exact (read_wrap_passes ss _ Hr Hro Pr (s2l "not") RNot).
    - exact (read_separated_by_passes ss _ _ Hr Hb Pr Pb fuel).
    - exact (read_lines_passes ss _ Hr Hro Pr).
    - exact (read_repeat_passes ss _ Hr Pr fuel). }
  clearbody rds. cbn [passed_rule]. destruct ks as [|k ks].
  { destruct inner; [|discriminate Hi]. cbn [app] in H. rewrite first_off with (names := rule_kinds) in H; [|exact Hoffs|apply Forall_forall; reflexivity].
    injection H as _ <-. rewrite app_nil_r. reflexivity. }
  apply Forall_cons_iff in Hg. destruct Hg as [Hk Hg]. split_first Hi part inner' Hf.
  destruct (in_dec (list_eq_dec N.eq_dec) (match k with Tree kind _ => kind | Leaf _ => [] end) rule_kinds) as [Hin|Hnot].
  - destruct k as [m|kind kk]; [exfalso; revert Hin; clear; unfold rule_kinds; cbn [In]; intros H;
      repeat (destruct H as [H|H]; [discriminate H|]); exact H|].
    apply In_nth_error in Hin. destruct Hin as [i Hn].
    assert (Hrd : exists rd, nth_error rds i = Some rd /\ passes rd (kind_passes kind (passed_kind ss (passed_rule ss) kind))).
    { clear - Hall Hn. revert i Hn. induction Hall as [|n rd ns rds Hm Hall IH]; intros i Hn; [destruct i; discriminate|].
      destruct i as [|i]; [|exact (IH i Hn)]. injection Hn as ->. exists rd. split; [reflexivity|exact Hm]. }
    destruct Hrd as (rd & Hrd & Hm).
    rewrite (first_only _ _ Hoffs rule_kinds_distinct i kind rd Hn Hrd _ _ (Rng (o + 1) 1)) in H.
    2:{ rewrite (start_at (Tree kind kk)) by assumption. cbn [named]. rewrite str_eqb_refl. reflexivity. }
    destruct (rd _ _) as [[res1 st1]| |] eqn:R; try discriminate. cbn [obind] in H.
    apply (Hm (Tree kind kk)) in R; [|assumption|assumption]. cbn [kind_passes] in R. rewrite str_eqb_refl in R. rewrite <- R. clear R.
    destruct res1 as [[q v]|]; [|injection H as _ <-; reflexivity].
    destruct (c_update _ _) as [c2| |]; try discriminate. cbn [obind] in H. destruct (c_end_node _ _); [|injection H as _ <-; reflexivity].
    destruct (c_update _ _) as [c3| |]; try discriminate. cbn [obind] in H. injection H as _ <-. reflexivity.
  - rewrite first_off with (names := rule_kinds) in H; [|exact Hoffs|].
    2:{ apply Forall_forall. intros n Hn. rewrite (start_at k) by assumption. destruct k as [m|kind kk]; [reflexivity|]. cbn [named].
        destruct (str_eqb kind n) eqn:E; [|reflexivity]. apply str_eqb_eq in E. subst n. contradiction. }
    cbn [obind] in H. injection H as _ <-. destruct k as [m|kind kk]; [rewrite app_nil_r; reflexivity|].
    rewrite passed_none; [rewrite app_nil_r; reflexivity|]. intros n Hn. destruct (str_eqb kind n) eqn:E; [|reflexivity].
    apply str_eqb_eq in E. subst n. contradiction.
Qed.

(** ** Nodes *)

Definition node_item (ss : list (str * str)) (o : nat) (k : tree) : list range :=
  (if named (s2l "rule") k then passed_rule ss o k else []) ++
  unless (is_some (number_at (s2l "id") k) || is_some (string_at (s2l "name") k) || is_some (rule_of ss (s2l "rule") k)) o k.

Lemma node_loop_passes ss : forall fuel ts inner r' rest o id name rl ig out, Forall good ts -> holds_all ts inner ->
  node_loop fuel ss (Cv (inner ++ (r', EndNode (s2l "node")) :: rest) o) id name rl ig = Done out ->
  snd out = ig ++ walk (node_item ss) o ts.
Proof.
  induction fuel as [|fuel IH]; intros ts inner r' rest o id name rl ig out Hg Hh H; [discriminate|].
  cbn [node_loop] in H. destruct ts as [|x ts]; [no_item Hh H|].
  apply Forall_cons_iff in Hg. destruct Hg as [Hx Hg]. split_first Hh part inner' Hf. rewrite (end_at x) in H by assumption.
  assert (Hl := holds_length _ _ Hf). rewrite walk_cons, <- Hl. unfold node_item at 1.
  rewrite (f64_at x) in H by assumption. destruct (number_at (s2l "id") x) as [v|] eqn:F.
  { seen H. rewrite update_first in H. cbn [obind] in H. apply (IH ts) in H; [|assumption|assumption]. rewrite H.
    destruct x; [reflexivity|discriminate F]. }
  seen H. rewrite (str_at x) in H by assumption. destruct (string_at (s2l "name") x) as [v|] eqn:G.
  { seen H. rewrite update_first in H. cbn [obind] in H. apply (IH ts) in H; [|assumption|assumption]. rewrite H.
    destruct x; [reflexivity|discriminate G]. }
  seen H. destruct (mul_usize _ _) as [d| |]; try discriminate. cbn [obind] in H.
  destruct (read_rule _ _ _ _ _) as [[res st]| |] eqn:R; try discriminate. cbn [obind] in H. assert (S := R).
  apply (read_rule_passes ss fuel (s2l "rule") (or_introl eq_refl) x) in S; [|assumption|assumption]. cbn [snd] in S.
  apply (read_rule_means ss fuel (s2l "rule") (or_introl eq_refl) x) in R; [|assumption|assumption].
  apply zeroed_some in R. destruct R as [(v & -> & ->)|[-> ->]].
  - rewrite update_first in H. cbn [obind] in H. apply (IH ts) in H; [|assumption|assumption]. rewrite H, S. cbn [is_some orb unless].
    rewrite app_nil_r, <- app_assoc. reflexivity.
  - rewrite (skip_at x) in H by assumption. cbn [obind] in H. apply (IH ts) in H; [|assumption|assumption]. rewrite H, S, Hl.
    cbn [is_some orb unless]. rewrite <- !app_assoc. reflexivity.
Qed.

Lemma read_node_passes fuel ss t part rest o ig res ig' : good t -> holds t part ->
  read_node fuel ss (Cv (part ++ rest) o) ig = Done (res, ig') -> ig' = ig ++ passed_node ss o t.
Proof.
  intros Hg Hh H. unfold read_node in H. rewrite (start_at t) in H by assumption.
  destruct t as [m|n ks]; [injection H as _ <-; cbn; rewrite app_nil_r; reflexivity|].
  cbn [named passed_node] in *. destruct (str_eqb n (s2l "node")) eqn:En; [|injection H as _ <-; rewrite app_nil_r; reflexivity].
  apply str_eqb_eq in En. subst n. apply holds_tree in Hh. destruct Hh as (r & r' & inner & -> & Hi).
  rewrite node_unfold, update_one in H. cbn [obind] in H. apply good_tree in Hg.
  destruct (node_loop _ _ _ _ _ _ _) as [out| |] eqn:Hl; try discriminate. cbn [obind] in H.
  apply (node_loop_passes ss fuel ks) in Hl; [|exact Hg|exact Hi]. destruct out as [[[c name] rl] ig2]. cbn [snd] in Hl.
  fold (node_item ss). rewrite <- Hl. destruct name; [|injection H as _ <-; reflexivity]. destruct rl; injection H as _ <-; reflexivity.
Qed.

Lemma nodes_loop_passes ss : forall fuel ts part o s ig res ig', Forall good ts -> holds_all ts part ->
  nodes_loop fuel ss (Cv part o) s ig = Done (res, ig') -> ig' = ig ++ passed_nodes ss o ts.
Proof.
  induction fuel as [|fuel IH]; intros ts part o s ig res ig' Hg Hh H; [discriminate|]. cbn [nodes_loop] in H. destruct ts as [|t ts].
  { destruct part; [|discriminate Hh]. change (read_node fuel ss (Cv [] o) ig) with (@Done (option (range * (str * rule)) * list range) (None, ig)) in H.
    cbn [obind] in H. injection H as _ <-. rewrite app_nil_r. reflexivity. }
  apply Forall_cons_iff in Hg. destruct Hg as [Ht Hg]. apply holds_cons in Hh. destruct Hh as (p1 & p2 & -> & H1 & H2). cbn [passed_nodes].
  destruct (read_node _ _ _ _) as [[res1 ig1]| |] eqn:R; try discriminate. cbn [obind] in H. assert (S := R).
  apply (read_node_passes fuel ss t) in S; [|assumption|assumption]. apply (read_node_means fuel ss t) in R; [|assumption|assumption].
  destruct (node_of ss t) as [[name v]|]; cbn [is_some].
  - destruct res1 as [[q [name' v']]|]; [|discriminate]. cbn in R. injection R as -> -> <-. rewrite update_first in H. cbn [obind] in H.
    apply (IH ts) in H; [|assumption|assumption]. rewrite H, S, (holds_length _ _ H1), <- app_assoc. reflexivity.
  - destruct res1; [discriminate|]. rewrite app_nil_r. rewrite <- S. destruct (0 <? _); injection H as _ <-; reflexivity.
Qed.

Lemma data_passes : forall fuel fuel' ts part o ss c ss' ig res ig', Forall good ts -> holds_all ts part ->
  strings_loop fuel (Cv part o) ss = Done (c, ss') -> nodes_loop fuel' ss' c syntax_new ig = Done (res, ig') ->
  ig' = ig ++ passed_data ss o ts.
Proof.
  induction fuel as [|fuel IH]; intros fuel' ts part o ss c ss' ig res ig' Hg Hh H Hn; [discriminate|]. cbn [strings_loop] in H.
  destruct ts as [|t ts].
  { destruct part; [|discriminate Hh]. change (read_string fuel (Cv [] o)) with (@Done (option (range * (str * str))) None) in H.
    cbn [obind] in H. injection H as <- <-. exact (nodes_loop_passes ss fuel' [] [] o syntax_new ig res ig' (Forall_nil _) eq_refl Hn). }
  assert (Hg' := Hg). assert (Hh' := Hh). cbn [passed_data].
  apply Forall_cons_iff in Hg. destruct Hg as [Ht Hg]. apply holds_cons in Hh. destruct Hh as (p1 & p2 & -> & H1 & H2).
  destruct (read_string _ _) as [res1| |] eqn:R; try discriminate. cbn [obind] in H. apply (read_string_means fuel t) in R; [|assumption|assumption].
  destruct (string_of t) as [d|]; subst res1; cbn [at_ option_map] in H.
  - rewrite update_first in H. cbn [obind] in H. rewrite <- (holds_length _ _ H1). exact (IH _ _ _ _ _ _ _ _ _ _ Hg H2 H Hn).
  - injection H as <- <-. exact (nodes_loop_passes ss fuel' (t :: ts) _ _ _ _ _ _ Hg' Hh' Hn).
Qed.

Lemma convert_passes data ts ig result ig' : Forall good ts -> map snd data = flat_map flat ts ->
  convert_returns data ig result ig' -> ig' = ig ++ passed_data [] 0 ts.
Proof.
  intros Hg Hh [fuel H]. unfold convert in H. destruct (strings_loop _ _ _) as [[c ss]| |] eqn:S; try discriminate. cbn [obind] in H.
  destruct (nodes_loop _ _ _ _ _) as [[res ig2]| |] eqn:N; try discriminate. cbn [obind] in H.
  assert (He := data_passes fuel fuel ts data 0 [] c ss ig res ig2 Hg Hh S N). destruct res; injection H as _ <-; exact He.
Qed.
