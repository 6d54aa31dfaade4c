(** Conversion is what the trees of the data mean: rules without sub rules. *)
From Coq Require Import Ascii String List NArith Bool Arith Lia.
From Verif Require Import Base Ext Types DataSpec ParseModel ConvertModel ConvertSpec OptProofs ConvertSound ConvertTotal
  SyntaxProofs TreeSpec TreeProofs.
Import ListNotations.
Local Open Scope string_scope.
Local Open Scope list_scope.
Local Open Scope nat_scope.

(** One round of a loop. *)
Ltac none_left Hh H := (* no item is left *)
  match type of Hh with holds_all [] ?inner => destruct inner; [|discriminate Hh] end;
  cbn [app] in H; rewrite end_here, update_one in H; cbn [obind] in H; apply Done_inj in H; subst;
  eexists; cbn [last_of orelse length]; rewrite Nat.add_0_r; reflexivity.

Ltac seen H := cbn [at_ option_map obind] in H.
Ltac took IH ts H := (* the item was read, by the next rounds the rest *)
  seen H; rewrite update_first in H; cbn [obind] in H; apply (IH ts) in H; [|assumption|assumption];
  destruct H as (? & ->); eexists.
Ltac skipped IH ts x H :=
  seen H; rewrite (skip_at x) in H by assumption; cbn [obind] in H; apply (IH ts) in H; [|assumption|assumption];
  destruct H as (? & ->); eexists.
Ltac lens := rewrite ?app_length, ?Nat.add_assoc; reflexivity.
Ltac set_read x H := (* a text *)
  match type of H with context [read_set ?f ?p ?c ?ss] =>
    let R := fresh "R" in destruct (read_set f p c ss) as [?| |] eqn:R; try discriminate H; cbn [obind] in H;
    apply (read_set_means f p ss x) in R; [|assumption|assumption]; subst
  end.

Lemma until_loop_means node ss : forall fuel ts inner r' rest o a op p ig out, Forall good ts -> holds_all ts inner ->
  until_loop fuel node ss (Cv (inner ++ (r', EndNode node) :: rest) o) a op p ig = Done out ->
  exists ig', out = (Cv rest (o + length inner + 1), orelse (last_of (text_of ss (s2l "any_characters")) ts) a,
    orelse (last_of (flag_of (s2l "optional")) ts) op, orelse (last_of (text_of ss (s2l "property")) ts) p, ig').
Proof.
  induction fuel as [|fuel IH]; intros ts inner r' rest o a op p ig out Hg Hh H; [discriminate|].
  cbn [until_loop] in H. destruct ts as [|x ts]; [none_left Hh H|]. inversion Hg; subst. split_first Hh part inner' Hf.
  rewrite (end_at x) in H by assumption. rewrite !orelse_last. set_read x H.
  destruct (text_of ss (s2l "any_characters") x) as [v|] eqn:F.
  { took IH ts H. replace (flag_of (s2l "optional") x) with (@None bool) by (symmetry; excl F x).
    replace (text_of ss (s2l "property") x) with (@None str) by (symmetry; excl F x). lens. }
  seen H. rewrite (bool_at x) in H by assumption. destruct (flag_of (s2l "optional") x) as [v|] eqn:G.
  { took IH ts H. replace (text_of ss (s2l "property") x) with (@None str) by (symmetry; excl G x). lens. }
  seen H. set_read x H. destruct (text_of ss (s2l "property") x) as [v|] eqn:K.
  { took IH ts H. lens. }
  skipped IH ts x H. lens.
Qed.

Lemma tag_loop_means ss : forall fuel ts inner r' rest o t p n i ig out, Forall good ts -> holds_all ts inner ->
  tag_loop fuel ss (Cv (inner ++ (r', EndNode (s2l "tag")) :: rest) o) t p n i ig = Done out ->
  exists ig', out = (Cv rest (o + length inner + 1), orelse (last_of (text_of ss (s2l "text")) ts) t,
    orelse (last_of (text_of ss (s2l "property")) ts) p, orelse (last_of (flag_of (s2l "not")) ts) n,
    orelse (last_of (flag_of (s2l "inverted")) ts) i, ig').
Proof.
  induction fuel as [|fuel IH]; intros ts inner r' rest o t p n i ig out Hg Hh H; [discriminate|].
  cbn [tag_loop] in H. destruct ts as [|x ts]; [none_left Hh H|]. inversion Hg; subst. split_first Hh part inner' Hf.
  rewrite (end_at x) in H by assumption. rewrite !orelse_last. set_read x H.
  destruct (text_of ss (s2l "text") x) as [v|] eqn:F.
  { took IH ts H. replace (text_of ss (s2l "property") x) with (@None str) by (symmetry; excl F x).
    replace (flag_of (s2l "not") x) with (@None bool) by (symmetry; excl F x).
    replace (flag_of (s2l "inverted") x) with (@None bool) by (symmetry; excl F x). lens. }
  seen H. set_read x H. destruct (text_of ss (s2l "property") x) as [v|] eqn:K.
  { took IH ts H. replace (flag_of (s2l "not") x) with (@None bool) by (symmetry; excl K x).
    replace (flag_of (s2l "inverted") x) with (@None bool) by (symmetry; excl K x). lens. }
  seen H. rewrite !(bool_at x) in H by assumption. destruct (flag_of (s2l "not") x) as [v|] eqn:G.
  { took IH ts H. replace (flag_of (s2l "inverted") x) with (@None bool) by (symmetry; excl G x). lens. }
  seen H. destruct (flag_of (s2l "inverted") x) as [v|] eqn:J.
  { took IH ts H. lens. }
  skipped IH ts x H. lens.
Qed.

Lemma flag_loop_means node flag ss : forall fuel ts inner r' rest o b p ig out, Forall good ts -> holds_all ts inner ->
  flag_loop fuel node flag ss (Cv (inner ++ (r', EndNode node) :: rest) o) b p ig = Done out ->
  exists ig', out = (Cv rest (o + length inner + 1), orelse (last_of (flag_of flag) ts) b,
    orelse (last_of (text_of ss (s2l "property")) ts) p, ig').
Proof.
  induction fuel as [|fuel IH]; intros ts inner r' rest o b p ig out Hg Hh H; [discriminate|].
  cbn [flag_loop] in H. destruct ts as [|x ts]; [none_left Hh H|]. inversion Hg; subst. split_first Hh part inner' Hf.
  rewrite (end_at x) in H by assumption. rewrite !orelse_last.
  rewrite !(bool_at x) in H by assumption. destruct (flag_of flag x) as [v|] eqn:G.
  { took IH ts H. replace (text_of ss (s2l "property") x) with (@None str) by (symmetry; excl G x). lens. }
  seen H. set_read x H. destruct (text_of ss (s2l "property") x) as [v|] eqn:K.
  { took IH ts H. lens. }
  skipped IH ts x H. lens.
Qed.

Lemma reference_loop_means ss : forall fuel ts inner r' rest o n p ig out, Forall good ts -> holds_all ts inner ->
  reference_loop fuel ss (Cv (inner ++ (r', EndNode (s2l "reference")) :: rest) o) n p ig = Done out ->
  exists ig', out = (Cv rest (o + length inner + 1), orelse (last_of (string_at (s2l "name")) ts) n,
    orelse (last_of (text_of ss (s2l "property")) ts) p, ig').
Proof.
  induction fuel as [|fuel IH]; intros ts inner r' rest o n p ig out Hg Hh H; [discriminate|].
  cbn [reference_loop] in H. destruct ts as [|x ts]; [none_left Hh H|]. inversion Hg; subst. split_first Hh part inner' Hf.
  rewrite (end_at x) in H by assumption. rewrite !orelse_last.
  rewrite !(str_at x) in H by assumption. destruct (string_at (s2l "name") x) as [v|] eqn:G.
  { took IH ts H. replace (text_of ss (s2l "property") x) with (@None str) by (symmetry; excl G x). lens. }
  seen H. set_read x H. destruct (text_of ss (s2l "property") x) as [v|] eqn:K.
  { took IH ts H. lens. }
  skipped IH ts x H. lens.
Qed.

(** ** Readers *)

(** The reader returns what the tree means. *)
Definition zeroed (x : option (range * rule)) : option (range * rule) := option_map (fun y => (fst y, zero_ids (snd y))) x.

Definition means (rd : reader) (M : tree -> option rule) : Prop :=
  forall t part rest o st res st', good t -> holds t part -> rd (Cv (part ++ rest) o) st = Done (res, st') ->
  zeroed res = at_ o (length part) (M t).

(** For the items in a node of the kind. *)
Definition kind_is (kind : str) (F : list tree -> option rule) (t : tree) : option rule :=
  match t with Tree n ks => if str_eqb n kind then F ks else None | Leaf _ => None end.

Ltac reader_start kind :=
  intros t part rest o st res st' Hg Hh H;
  rewrite (start_at t) in H by assumption; destruct t as [m|n ks]; [injection H as <- _; reflexivity|];
  cbn [named kind_is] in *; destruct (str_eqb n kind) eqn:En; [|injection H as <- _; reflexivity];
  apply str_eqb_eq in En; subst n; apply holds_tree in Hh; destruct Hh as (r & r' & inner & -> & Hi);
  rewrite node_unfold, update_one in H; cbn [obind] in H; apply good_tree in Hg.

Lemma finish_means d rest o (inner : list tok) st mk res st' : (forall id, zero_ids (mk id) = zero_ids (mk 0%N)) ->
  finish (Cv d o) (Cv rest (o + 1 + length inner + 1)) st mk = Done (res, st') ->
  zeroed res = Some (Rng o (1 + length inner + 1), zero_ids (mk 0%N)).
Proof.
  intros Hm H. unfold finish in H. destruct (add_usize _ _); try discriminate. cbn [obind] in H.
  replace (o + 1 + length inner + 1) with (o + (1 + length inner + 1)) in H by lia. rewrite sub_cursor in H. apply Done_inj in H.
  assert (He := f_equal fst H). cbn [fst] in He. subst res. cbn [zeroed option_map fst snd]. rewrite Hm. reflexivity.
Qed.

Lemma read_until_means fuel node (mk : str -> bool -> option str -> N -> rule) ss :
  (forall a b p id, zero_ids (mk a b p id) = mk a b p 0%N) ->
  means (read_until fuel node mk ss) (kind_is node (fun ks =>
    option_map (fun any => mk any (otherwise false (last_of (flag_of (s2l "optional")) ks)) (last_of (text_of ss (s2l "property")) ks) 0%N)
      (last_of (text_of ss (s2l "any_characters")) ks))).
Proof.
  intros Hmk. unfold read_until. reader_start node.
  destruct (until_loop _ _ _ _ _ _ _ _) as [out| |] eqn:Hl; try discriminate. cbn [obind] in H.
  apply (until_loop_means node ss fuel ks) in Hl; [|exact Hg|exact Hi]. destruct Hl as (ig' & ->). rewrite !orelse_none in H.
  destruct (last_of (text_of ss (s2l "any_characters")) ks) as [any|]; [|injection H as <- _; reflexivity].
  apply finish_means in H; [|intros; rewrite !Hmk; reflexivity]. rewrite H, Hmk, node_length. reflexivity.
Qed.

Lemma read_tag_means fuel ss : means (read_tag fuel ss) (kind_is (s2l "tag") (fun ks =>
  option_map (fun t => RTag t (otherwise false (last_of (flag_of (s2l "not")) ks)) (otherwise false (last_of (flag_of (s2l "inverted")) ks))
    (last_of (text_of ss (s2l "property")) ks) 0%N) (last_of (text_of ss (s2l "text")) ks))).
Proof.
  unfold read_tag. reader_start (s2l "tag").
  destruct (tag_loop _ _ _ _ _ _ _ _) as [out| |] eqn:Hl; try discriminate. cbn [obind] in H.
  apply (tag_loop_means ss fuel ks) in Hl; [|exact Hg|exact Hi]. destruct Hl as (ig' & ->). rewrite !orelse_none in H.
  destruct (last_of (text_of ss (s2l "text")) ks) as [any|]; [|injection H as <- _; reflexivity].
  apply finish_means in H; [|reflexivity]. rewrite H, node_length. reflexivity.
Qed.

Lemma read_text_means fuel ss : means (read_text fuel ss) (kind_is (s2l "text") (fun ks =>
  Some (RText (otherwise true (last_of (flag_of (s2l "allow_empty")) ks)) (last_of (text_of ss (s2l "property")) ks) 0%N))).
Proof.
  unfold read_text. reader_start (s2l "text").
  destruct (flag_loop _ _ _ _ _ _ _ _) as [out| |] eqn:Hl; try discriminate. cbn [obind] in H.
  apply (flag_loop_means _ _ ss fuel ks) in Hl; [|exact Hg|exact Hi]. destruct Hl as (ig' & ->). rewrite !orelse_none in H.
  apply finish_means in H; [|reflexivity]. rewrite H, node_length. reflexivity.
Qed.

Lemma read_number_means fuel ss : means (read_number fuel ss) (kind_is (s2l "number") (fun ks =>
  Some (RNumber (otherwise false (last_of (flag_of (s2l "underscore")) ks)) (last_of (text_of ss (s2l "property")) ks) 0%N))).
Proof.
  unfold read_number. reader_start (s2l "number").
  destruct (flag_loop _ _ _ _ _ _ _ _) as [out| |] eqn:Hl; try discriminate. cbn [obind] in H.
  apply (flag_loop_means _ _ ss fuel ks) in Hl; [|exact Hg|exact Hi]. destruct Hl as (ig' & ->). rewrite !orelse_none in H.
  apply finish_means in H; [|reflexivity]. rewrite H, node_length. reflexivity.
Qed.

Lemma read_reference_means fuel ss : means (read_reference fuel ss) (kind_is (s2l "reference") (fun ks =>
  option_map (fun n => RNode n (last_of (text_of ss (s2l "property")) ks) None 0%N) (last_of (string_at (s2l "name")) ks))).
Proof.
  unfold read_reference. reader_start (s2l "reference").
  destruct (reference_loop _ _ _ _ _ _) as [out| |] eqn:Hl; try discriminate. cbn [obind] in H.
  apply (reference_loop_means ss fuel ks) in Hl; [|exact Hg|exact Hi]. destruct Hl as (ig' & ->). rewrite !orelse_none in H.
  destruct (last_of (string_at (s2l "name")) ks) as [any|]; [|injection H as <- _; reflexivity].
  apply finish_means in H; [|reflexivity]. rewrite H, node_length. reflexivity.
Qed.

Lemma read_whitespace_means : means read_whitespace (kind_is (s2l "whitespace") (fun ks =>
  match ks with [k] => option_map (fun b => RWhitespace b 0%N) (flag_of (s2l "optional") k) | _ => None end)).
Proof.
  unfold read_whitespace. reader_start (s2l "whitespace"). destruct ks as [|k ks].
  { destruct inner; [|discriminate Hi]. cbn [app] in H. rewrite meta_bool_end in H by apply not_leaf_end. injection H as <- _. reflexivity. }
  inversion Hg; subst. split_first Hi part inner' Hf. rewrite (bool_at k) in H by assumption.
  destruct (flag_of (s2l "optional") k) as [b|].
  2:{ injection H as <- _. destruct ks; reflexivity. }
  seen H. rewrite update_first in H. cbn [obind] in H. destruct ks as [|k2 ks].
  - destruct inner'; [|discriminate Hi]. cbn [app] in H. rewrite end_here, update_one in H. cbn [obind] in H.
    apply finish_means in H; [|reflexivity]. rewrite H. cbn [app]. rewrite node_length. reflexivity.
  - inversion H3; subst. split_first Hi part2 inner2 Hf2. rewrite (end_at k2) in H by assumption. injection H as <- _. reflexivity.
Qed.
