(** What conversion passes over: loops and readers. *)
From Coq Require Import Ascii String List NArith Bool Arith Lia.
From Verif Require Import Base Ext Types DataSpec ParseModel ConvertModel ConvertSpec OptProofs ConvertSound ConvertTotal
  SyntaxProofs TreeSpec TreeProofs TreeProofs2 TreeProofs3 IgnoreSpec.
Import ListNotations.
Local Open Scope string_scope.
Local Open Scope list_scope.
Local Open Scope nat_scope.

Lemma holds_length t part : holds t part -> length part = length (flat t).
Proof. intros H. unfold holds in H. rewrite <- H, map_length. reflexivity. Qed.

Lemma walk_cons f o t ts : walk f o (t :: ts) = f o t ++ walk f (o + length (flat t)) ts.
Proof. reflexivity. Qed.

(** ** Loops *)

Ltac no_item Hh H :=
  match type of Hh with holds_all [] ?inner => destruct inner; [|discriminate Hh] end;
  cbn [app] in H; rewrite end_here, update_one in H; cbn [obind] in H; apply Done_inj in H; subst;
  cbn [walk snd]; rewrite ?app_nil_r; reflexivity.

Ltac item_used IH ts H :=
  seen H; rewrite update_first in H; cbn [obind] in H; apply (IH ts) in H; [|assumption|assumption];
  rewrite H; cbn [is_some orb unless app]; rewrite ?orb_true_r; reflexivity.
Ltac item_passed IH ts x H Hl :=
  seen H; rewrite (skip_at x) in H by assumption; cbn [obind] in H; apply (IH ts) in H; [|assumption|assumption];
  rewrite H, ?Hl; cbn [is_some orb unless]; rewrite <- ?app_assoc; reflexivity.

Lemma until_loop_passes node ss : forall fuel ts inner r' rest o a op p ig out, Forall good ts -> holds_all ts inner ->
  until_loop fuel node ss (Cv (inner ++ (r', EndNode node) :: rest) o) a op p ig = Done out ->
  snd out = ig ++ walk (fun o k => unless (is_some (text_of ss (s2l "any_characters") k) || is_some (flag_of (s2l "optional") k) ||
    is_some (text_of ss (s2l "property") k)) o k) o ts.
Proof.
  induction fuel as [|fuel IH]; intros ts inner r' rest o a op p ig out Hg Hh H; [discriminate|].
  cbn [until_loop] in H. destruct ts as [|x ts]; [no_item Hh H|]. inversion Hg; subst. split_first Hh part inner' Hf.
  rewrite (end_at x) in H by assumption. assert (Hl := holds_length _ _ Hf). rewrite walk_cons, <- Hl. set_read x H.
  destruct (text_of ss (s2l "any_characters") x) as [v|]; [item_used IH ts H|].
  seen H. rewrite (bool_at x) in H by assumption. destruct (flag_of (s2l "optional") x) as [v|]; [item_used IH ts H|].
  seen H. set_read x H. destruct (text_of ss (s2l "property") x) as [v|]; [item_used IH ts H|].
  item_passed IH ts x H Hl.
Qed.

Lemma tag_loop_passes ss : forall fuel ts inner r' rest o t p n i ig out, Forall good ts -> holds_all ts inner ->
  tag_loop fuel ss (Cv (inner ++ (r', EndNode (s2l "tag")) :: rest) o) t p n i ig = Done out ->
  snd out = ig ++ walk (fun o k => unless (is_some (text_of ss (s2l "text") k) || is_some (text_of ss (s2l "property") k) ||
    is_some (flag_of (s2l "not") k) || is_some (flag_of (s2l "inverted") k)) o k) o ts.
Proof.
  induction fuel as [|fuel IH]; intros ts inner r' rest o t p n i ig out Hg Hh H; [discriminate|].
  cbn [tag_loop] in H. destruct ts as [|x ts]; [no_item Hh H|]. inversion Hg; subst. split_first Hh part inner' Hf.
  rewrite (end_at x) in H by assumption. assert (Hl := holds_length _ _ Hf). rewrite walk_cons, <- Hl. set_read x H.
  destruct (text_of ss (s2l "text") x) as [v|]; [item_used IH ts H|].
  seen H. set_read x H. destruct (text_of ss (s2l "property") x) as [v|]; [item_used IH ts H|].
  seen H. rewrite !(bool_at x) in H by assumption. destruct (flag_of (s2l "not") x) as [v|]; [item_used IH ts H|].
  seen H. destruct (flag_of (s2l "inverted") x) as [v|]; [item_used IH ts H|].
  item_passed IH ts x H Hl.
Qed.

Lemma flag_loop_passes node flag ss : forall fuel ts inner r' rest o b p ig out, Forall good ts -> holds_all ts inner ->
  flag_loop fuel node flag ss (Cv (inner ++ (r', EndNode node) :: rest) o) b p ig = Done out ->
  snd out = ig ++ walk (fun o k => unless (is_some (flag_of flag k) || is_some (text_of ss (s2l "property") k)) o k) o ts.
Proof.
  induction fuel as [|fuel IH]; intros ts inner r' rest o b p ig out Hg Hh H; [discriminate|].
  cbn [flag_loop] in H. destruct ts as [|x ts]; [no_item Hh H|]. inversion Hg; subst. split_first Hh part inner' Hf.
  rewrite (end_at x) in H by assumption. assert (Hl := holds_length _ _ Hf). rewrite walk_cons, <- Hl.
  rewrite !(bool_at x) in H by assumption. destruct (flag_of flag x) as [v|]; [item_used IH ts H|].
  seen H. set_read x H. destruct (text_of ss (s2l "property") x) as [v|]; [item_used IH ts H|].
  item_passed IH ts x H Hl.
Qed.

Lemma reference_loop_passes ss : forall fuel ts inner r' rest o n p ig out, Forall good ts -> holds_all ts inner ->
  reference_loop fuel ss (Cv (inner ++ (r', EndNode (s2l "reference")) :: rest) o) n p ig = Done out ->
  snd out = ig ++ walk (fun o k => unless (is_some (string_at (s2l "name") k) || is_some (text_of ss (s2l "property") k)) o k) o ts.
Proof.
  induction fuel as [|fuel IH]; intros ts inner r' rest o n p ig out Hg Hh H; [discriminate|].
  cbn [reference_loop] in H. destruct ts as [|x ts]; [no_item Hh H|]. inversion Hg; subst. split_first Hh part inner' Hf.
  rewrite (end_at x) in H by assumption. assert (Hl := holds_length _ _ Hf). rewrite walk_cons, <- Hl.
  rewrite !(str_at x) in H by assumption. destruct (string_at (s2l "name") x) as [v|]; [item_used IH ts H|].
  seen H. set_read x H. destruct (text_of ss (s2l "property") x) as [v|]; [item_used IH ts H|].
  item_passed IH ts x H Hl.
Qed.

(** ** Readers *)

(** The reader passes over these ranges, whether it succeeds or not. *)
Definition passes (rd : reader) (P : nat -> tree -> list range) : Prop :=
  forall t part rest o st res st', good t -> holds t part -> rd (Cv (part ++ rest) o) st = Done (res, st') ->
  snd st' = snd st ++ P o t.

Definition kind_passes (kind : str) (F : nat -> list tree -> list range) (o : nat) (t : tree) : list range :=
  match t with Tree n ks => if str_eqb n kind then F o ks else [] | Leaf _ => [] end.

Ltac passes_start kind :=
  intros t part rest o st res st' Hg Hh H;
  rewrite (start_at t) in H by assumption; destruct t as [m|n ks]; [injection H as _ <-; cbn; rewrite app_nil_r; reflexivity|];
  cbn [named kind_passes] in *; destruct (str_eqb n kind) eqn:En; [|injection H as _ <-; rewrite app_nil_r; reflexivity];
  apply str_eqb_eq in En; subst n; apply holds_tree in Hh; destruct Hh as (r & r' & inner & -> & Hi);
  rewrite node_unfold, update_one in H; cbn [obind] in H; apply good_tree in Hg.

Lemma finish_passes a b st mk res st' : finish a b st mk = Done (res, st') -> snd st' = snd st.
Proof. unfold finish. destruct (add_usize _ _); try discriminate. cbn [obind]. intros H. apply Done_inj in H. assert (He := f_equal snd H). cbn in He. subst st'. reflexivity. Qed.

Lemma read_until_passes fuel node mk ss : passes (read_until fuel node mk ss) (kind_passes node (fun o ks =>
  walk (fun o k => unless (is_some (text_of ss (s2l "any_characters") k) || is_some (flag_of (s2l "optional") k) ||
    is_some (text_of ss (s2l "property") k)) o k) (o + 1) ks)).
Proof.
  unfold read_until. passes_start node. destruct (until_loop _ _ _ _ _ _ _ _) as [out| |] eqn:Hl; try discriminate. cbn [obind] in H.
  apply (until_loop_passes node ss fuel ks) in Hl; [|exact Hg|exact Hi]. destruct out as [[[[c a] op] p] ig]. cbn [snd] in Hl. subst ig.
  destruct a; [apply finish_passes in H; exact H|injection H as _ <-; reflexivity].
Qed.

Lemma read_tag_passes fuel ss : passes (read_tag fuel ss) (kind_passes (s2l "tag") (fun o ks =>
  walk (fun o k => unless (is_some (text_of ss (s2l "text") k) || is_some (text_of ss (s2l "property") k) ||
    is_some (flag_of (s2l "not") k) || is_some (flag_of (s2l "inverted") k)) o k) (o + 1) ks)).
Proof.
  unfold read_tag. passes_start (s2l "tag"). destruct (tag_loop _ _ _ _ _ _ _ _) as [out| |] eqn:Hl; try discriminate. cbn [obind] in H.
  apply (tag_loop_passes ss fuel ks) in Hl; [|exact Hg|exact Hi]. destruct out as [[[[[c t] p] n] i] ig]. cbn [snd] in Hl. subst ig.
  destruct t; [apply finish_passes in H; exact H|injection H as _ <-; reflexivity].
Qed.

Lemma read_text_passes fuel ss : passes (read_text fuel ss) (kind_passes (s2l "text") (fun o ks =>
  walk (fun o k => unless (is_some (flag_of (s2l "allow_empty") k) || is_some (text_of ss (s2l "property") k)) o k) (o + 1) ks)).
Proof.
  unfold read_text. passes_start (s2l "text"). destruct (flag_loop _ _ _ _ _ _ _ _) as [out| |] eqn:Hl; try discriminate. cbn [obind] in H.
  apply (flag_loop_passes _ _ ss fuel ks) in Hl; [|exact Hg|exact Hi]. destruct out as [[[c a] p] ig]. cbn [snd] in Hl. subst ig.
  apply finish_passes in H. exact H.
Qed.

Lemma read_number_passes fuel ss : passes (read_number fuel ss) (kind_passes (s2l "number") (fun o ks =>
  walk (fun o k => unless (is_some (flag_of (s2l "underscore") k) || is_some (text_of ss (s2l "property") k)) o k) (o + 1) ks)).
Proof.
  unfold read_number. passes_start (s2l "number"). destruct (flag_loop _ _ _ _ _ _ _ _) as [out| |] eqn:Hl; try discriminate. cbn [obind] in H.
  apply (flag_loop_passes _ _ ss fuel ks) in Hl; [|exact Hg|exact Hi]. destruct out as [[[c a] p] ig]. cbn [snd] in Hl. subst ig.
  apply finish_passes in H. exact H.
Qed.

Lemma read_reference_passes fuel ss : passes (read_reference fuel ss) (kind_passes (s2l "reference") (fun o ks =>
  walk (fun o k => unless (is_some (string_at (s2l "name") k) || is_some (text_of ss (s2l "property") k)) o k) (o + 1) ks)).
Proof.
  unfold read_reference. passes_start (s2l "reference"). destruct (reference_loop _ _ _ _ _ _) as [out| |] eqn:Hl; try discriminate. cbn [obind] in H.
  apply (reference_loop_passes ss fuel ks) in Hl; [|exact Hg|exact Hi]. destruct out as [[[c a] p] ig]. cbn [snd] in Hl. subst ig.
  destruct a; [apply finish_passes in H; exact H|injection H as _ <-; reflexivity].
Qed.

Lemma read_whitespace_passes : passes read_whitespace (fun _ _ => []).
Proof.
  intros t part rest o st res st' Hg Hh H. rewrite app_nil_r. unfold read_whitespace in H.
  destruct (c_start_node _ _); [|injection H as _ <-; reflexivity]. destruct (c_update _ _) as [c1| |]; try discriminate. cbn [obind] in H.
  destruct (c_meta_bool _ _) as [[q b]|]; [|injection H as _ <-; reflexivity]. destruct (c_update _ _) as [c2| |]; try discriminate. cbn [obind] in H.
  destruct (c_end_node _ _); [|injection H as _ <-; reflexivity]. destruct (c_update _ _) as [c3| |]; try discriminate. cbn [obind] in H.
  apply finish_passes in H. exact H.
Qed.

(** ** Rules with sub rules *)

Ltac sub_read2 Hrd Hp x H :=
  match type of Hrd with TreeProofs2.means ?rd _ =>
    match type of H with context [rd ?c ?st] =>
      let R := fresh "R" in let S := fresh "S" in destruct (rd c st) as [[? ?]| |] eqn:R; try discriminate H; cbn [obind] in H;
      assert (S := R); apply (Hrd x) in R; [|assumption|assumption]; apply (Hp x) in S; [|assumption|assumption]; apply zeroed_some in R
    end
  end.

Section Sub.
  Variable ss : list (str * str).
  Variables rd rd_by : reader.
  Hypothesis Hrd : TreeProofs2.means rd (rule_of ss (s2l "rule")).
  Hypothesis Hoff : forall c st out, c_start_node c (s2l "rule") = None -> rd c st = Done out -> out = (None, st).
  Hypothesis Hby : TreeProofs2.means rd_by (rule_of ss (s2l "by")).

  Definition inside (s : string) (o : nat) (k : tree) : list range := if named (s2l s) k then passed_rule ss o k else [].
  Hypothesis Prd : passes rd (inside "rule").
  Hypothesis Pby : passes rd_by (inside "by").

  Lemma args_loop_passes node : forall fuel ts inner r' rest o args st out, Forall good ts -> holds_all ts inner ->
    args_loop fuel rd node (Cv (inner ++ (r', EndNode node) :: rest) o) args st = Done out ->
    snd (snd out) = snd st ++ walk (fun o k => inside "rule" o k ++ unless (is_some (rule_of ss (s2l "rule") k)) o k) o ts.
  Proof.
    induction fuel as [|fuel IH]; intros ts inner r' rest o args st out Hg Hh H; [discriminate|].
    cbn [args_loop] in H. destruct ts as [|x ts]; [no_item Hh H|]. inversion Hg; subst. split_first Hh part inner' Hf.
    rewrite (end_at x) in H by assumption. assert (Hl := holds_length _ _ Hf). rewrite walk_cons, <- Hl.
    sub_read2 Hrd Prd x H. destruct R as [(v & -> & ->)|[-> ->]].
    - rewrite update_first in H. cbn [obind] in H. apply (IH ts) in H; [|assumption|assumption]. rewrite H, S. cbn [is_some unless].
      rewrite app_nil_r, <- app_assoc. reflexivity.
    - rewrite (skip_at x) in H by assumption. cbn [obind] in H. apply (IH ts) in H; [|assumption|assumption]. rewrite H. cbn [snd].
      rewrite S, Hl. cbn [is_some unless]. rewrite <- !app_assoc. reflexivity.
  Qed.

  Lemma read_args_passes fuel node mk : passes (read_args fuel rd node mk) (kind_passes node (fun o ks =>
    walk (fun o k => inside "rule" o k ++ unless (is_some (rule_of ss (s2l "rule") k)) o k) (o + 1) ks)).
  Proof.
    unfold read_args. passes_start node. destruct (args_loop _ _ _ _ _ _) as [out| |] eqn:Hl; try discriminate. cbn [obind] in H.
    apply (args_loop_passes node fuel ks) in Hl; [|exact Hg|exact Hi]. destruct out as [[c a] st2]. cbn [snd] in Hl.
    apply finish_passes in H. congruence.
  Qed.

  Definition inside_first (o : nat) (ks : list tree) : list range := match ks with k :: _ => inside "rule" o k | [] => [] end.

  Lemma read_wrap_passes node mk : passes (read_wrap rd node mk) (kind_passes node (fun o ks => inside_first (o + 1) ks)).
  Proof.
    unfold read_wrap. passes_start node. destruct ks as [|k ks].
    { destruct inner; [|discriminate Hi]. cbn [app] in H. off_read Hoff H. injection H as _ <-. cbn. rewrite app_nil_r. reflexivity. }
    inversion Hg; subst. split_first Hi part inner' Hf. sub_read2 Hrd Prd k H. cbn [inside_first]. rewrite <- S. clear S.
    destruct R as [(v & -> & _)|[-> _]]; [|injection H as _ <-; reflexivity].
    rewrite update_first in H. cbn [obind] in H. destruct (c_end_node _ _); [|injection H as _ <-; reflexivity].
    destruct (c_update _ _) as [c3| |]; try discriminate. cbn [obind] in H. apply finish_passes in H. exact H.
  Qed.

  Lemma read_lines_passes : passes (read_lines rd) (kind_passes (s2l "lines") (fun o ks =>
    match ks with
    | f :: ks' => if is_some (flag_of (s2l "indent") f) then inside_first (o + 2) ks' else inside_first (o + 1) ks
    | [] => []
    end)).
  Proof.
    unfold read_lines. passes_start (s2l "lines").
    assert (Hend : forall (res1 : option (range * rule)) st1 a b, (exists mk, match res1 with
        | None => Done (None, st1)
        | Some (r, rule) => do c3 <- c_update b r;
          match c_end_node c3 (s2l "lines") with None => Done (None, st1) | Some r => do c4 <- c_update c3 r; finish a c4 st1 (mk rule) end
        end = Done (res, st')) -> snd st' = snd st1).
    { intros res1 st1 a b [mk G]. destruct res1 as [[q v]|]; [|injection G as _ <-; reflexivity].
      destruct (c_update _ _) as [c3| |]; try discriminate. cbn [obind] in G. destruct (c_end_node _ _); [|injection G as _ <-; reflexivity].
      destruct (c_update _ _) as [c4| |]; try discriminate. cbn [obind] in G. apply finish_passes in G. exact G. }
    destruct ks as [|k ks].
    { destruct inner; [|discriminate Hi]. cbn [app] in H. rewrite meta_bool_end in H by apply not_leaf_end. cbn [obind] in H.
      off_read Hoff H. injection H as _ <-. rewrite app_nil_r. reflexivity. }
    inversion Hg; subst. split_first Hi part inner' Hf. rewrite (bool_at k) in H by assumption.
    destruct (flag_of (s2l "indent") k) as [b|] eqn:F.
    - seen H. rewrite update_first in H. cbn [obind is_some] in *.
      assert (Hl : length part = 1). { rewrite (holds_length _ _ Hf). destruct k; [reflexivity|discriminate F]. }
      rewrite Hl in H. replace (o + 1 + 1) with (o + 2) in H by lia. destruct ks as [|k2 ks].
      { destruct inner'; [|discriminate Hi]. cbn [app] in H. off_read Hoff H. injection H as _ <-. cbn. rewrite app_nil_r. reflexivity. }
      inversion H3; subst. split_first Hi part2 inner2 Hf2. sub_read2 Hrd Prd k2 H. cbn [inside_first]. rewrite <- S. clear S R.
      eapply Hend. eexists (fun v id => RLines v b id). exact H.
    - seen H. sub_read2 Hrd Prd k H. cbn [is_some inside_first]. rewrite <- S. clear S R.
      eapply Hend. eexists (fun v id => RLines v false id). exact H.
  Qed.

  Lemma inside_leaf s o m : inside s o (Leaf m) = [].
  Proof. reflexivity. Qed.

  Lemma rep_loop_passes : forall fuel ts inner r' rest o rl op st out, Forall good ts -> holds_all ts inner ->
    rep_loop fuel rd (Cv (inner ++ (r', EndNode (s2l "repeat")) :: rest) o) rl op st = Done out ->
    snd (snd out) = snd st ++ walk (fun o k => inside "rule" o k ++ unless (is_some (rule_of ss (s2l "rule") k) || is_some (flag_of (s2l "optional") k)) o k) o ts.
  Proof.
    induction fuel as [|fuel IH]; intros ts inner r' rest o rl op st out Hg Hh H; [discriminate|].
    cbn [rep_loop] in H. destruct ts as [|x ts]; [no_item Hh H|]. inversion Hg; subst. split_first Hh part inner' Hf.
    rewrite (end_at x) in H by assumption. assert (Hl := holds_length _ _ Hf). rewrite walk_cons, <- Hl.
    sub_read2 Hrd Prd x H. destruct R as [(v & -> & ->)|[-> ->]].
    - rewrite update_first in H. cbn [obind] in H. apply (IH ts) in H; [|assumption|assumption]. rewrite H, S. cbn [is_some orb unless].
      rewrite app_nil_r, <- app_assoc. reflexivity.
    - rewrite (bool_at x) in H by assumption. destruct (flag_of (s2l "optional") x) as [b|].
      + seen H. rewrite update_first in H. cbn [obind] in H. apply (IH ts) in H; [|assumption|assumption]. rewrite H, S. cbn [is_some orb unless].
        rewrite app_nil_r, <- app_assoc. reflexivity.
      + seen H. rewrite (skip_at x) in H by assumption. cbn [obind] in H. apply (IH ts) in H; [|assumption|assumption]. rewrite H. cbn [snd].
        rewrite S, Hl. cbn [is_some orb unless]. rewrite <- !app_assoc. reflexivity.
  Qed.

  Lemma read_repeat_passes fuel : passes (read_repeat fuel rd) (kind_passes (s2l "repeat") (fun o ks =>
    walk (fun o k => inside "rule" o k ++ unless (is_some (rule_of ss (s2l "rule") k) || is_some (flag_of (s2l "optional") k)) o k) (o + 1) ks)).
  Proof.
    unfold read_repeat. passes_start (s2l "repeat"). destruct (rep_loop _ _ _ _ _ _) as [out| |] eqn:Hl; try discriminate. cbn [obind] in H.
    apply (rep_loop_passes fuel ks) in Hl; [|exact Hg|exact Hi]. destruct out as [[[c a] b] st2]. cbn [snd] in Hl.
    destruct a; [|injection H as _ <-; exact Hl]. destruct b; [|injection H as _ <-; exact Hl]. apply finish_passes in H. congruence.
  Qed.

  Lemma sep_by_loop_passes : forall fuel ts inner r' rest o op tr b rl st out, Forall good ts -> holds_all ts inner ->
    sep_by_loop fuel rd_by rd (Cv (inner ++ (r', EndNode (s2l "separated_by")) :: rest) o) op tr b rl st = Done out ->
    snd (snd out) = snd st ++ walk (fun o k => inside "by" o k ++ inside "rule" o k ++
      unless (is_some (flag_of (s2l "optional") k) || is_some (flag_of (s2l "allow_trail") k) || is_some (rule_of ss (s2l "by") k) || is_some (rule_of ss (s2l "rule") k)) o k) o ts.
  Proof.
    induction fuel as [|fuel IH]; intros ts inner r' rest o op tr b rl st out Hg Hh H; [discriminate|].
    cbn [sep_by_loop] in H. destruct ts as [|x ts]; [no_item Hh H|]. inversion Hg; subst. split_first Hh part inner' Hf.
    rewrite (end_at x) in H by assumption. assert (Hl := holds_length _ _ Hf). rewrite walk_cons, <- Hl.
    rewrite !(bool_at x) in H by assumption. destruct (flag_of (s2l "optional") x) as [v|] eqn:F.
    { seen H. rewrite update_first in H. cbn [obind] in H. apply (IH ts) in H; [|assumption|assumption]. rewrite H.
      destruct x as [m|]; [|discriminate F]. rewrite !inside_leaf. reflexivity. }
    seen H. destruct (flag_of (s2l "allow_trail") x) as [v|] eqn:G.
    { seen H. rewrite update_first in H. cbn [obind] in H. apply (IH ts) in H; [|assumption|assumption]. rewrite H.
      destruct x as [m|]; [|discriminate G]. rewrite !inside_leaf. reflexivity. }
    seen H. sub_read2 Hby Pby x H. destruct R as [(v & -> & K)|[-> K]].
    { rewrite K. rewrite update_first in H. cbn [obind] in H. apply (IH ts) in H; [|assumption|assumption]. rewrite H, S. cbn [is_some orb unless].
      replace (inside "rule" o x) with (@nil range). { rewrite app_nil_r, <- app_assoc. reflexivity. }
      unfold rule_of in K. unfold inside. destruct x as [m|n ks]; [reflexivity|]. cbn [named] in *. destruct (str_eqb n (s2l "by")) eqn:E; [|discriminate K].
      apply str_eqb_eq in E. subst n. reflexivity. }
    rewrite K. sub_read2 Hrd Prd x H. destruct R as [(v & -> & J)|[-> J]].
    - rewrite J, update_first in *. cbn [obind] in H. apply (IH ts) in H; [|assumption|assumption]. rewrite H, S0, S. cbn [is_some orb unless].
      rewrite app_nil_r, <- !app_assoc. reflexivity.
    - rewrite J. rewrite (skip_at x) in H by assumption. cbn [obind] in H. apply (IH ts) in H; [|assumption|assumption]. rewrite H. cbn [snd].
      rewrite S0, S, Hl. cbn [is_some orb unless]. rewrite <- !app_assoc. reflexivity.
  Qed.

  Lemma read_separated_by_passes fuel : passes (read_separated_by fuel rd_by rd) (kind_passes (s2l "separated_by") (fun o ks =>
    walk (fun o k => inside "by" o k ++ inside "rule" o k ++
      unless (is_some (flag_of (s2l "optional") k) || is_some (flag_of (s2l "allow_trail") k) || is_some (rule_of ss (s2l "by") k) || is_some (rule_of ss (s2l "rule") k)) o k) (o + 1) ks)).
  Proof.
    unfold read_separated_by. passes_start (s2l "separated_by"). destruct (sep_by_loop _ _ _ _ _ _ _ _ _) as [out| |] eqn:Hl; try discriminate.
    cbn [obind] in H. apply (sep_by_loop_passes fuel ks) in Hl; [|exact Hg|exact Hi]. destruct out as [[[[[c op] tr] b] rl] st2]. cbn [snd] in Hl.
    destruct b; [|injection H as _ <-; exact Hl]. destruct rl; [|injection H as _ <-; exact Hl]. apply finish_passes in H. congruence.
  Qed.
End Sub.
