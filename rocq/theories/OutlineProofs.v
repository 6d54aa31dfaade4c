(** C74: outlines are read as the trees they show. *)
From Coq Require Import List NArith Bool Arith Lia.
From Verif Require Import Base Ext Types ParseModel PegSpec PegProofs PegFacts RuleSpec RuleProofs LinesProofs TabSpec TabProofs
  ApiSpec ParseProofs OutlineSpec.
Import ListNotations.

Section Tree.
  Variable P : tree -> Prop.
  Hypothesis step : forall x m c kids, Forall (fun k => P (snd k)) kids -> P (Tree x m c kids).
  Fixpoint tree_rec' (t : tree) : P t :=
    match t with
    | Tree x m c kids => step x m c kids
        ((fix go (l : list (str * tree)) : Forall (fun k => P (snd k)) l :=
            match l with
            | [] => Forall_nil _
            | k :: l' => Forall_cons _ (tree_rec' (snd k)) (go l')
            end) kids)
    end.
End Tree.

Definition below (c : N) (kids : list (str * tree)) : str :=
  concat (map (fun k => fst k ++ spaces c ++ written (snd k)) kids).
Definition below_nodes (name : str) (kids : list (str * tree)) : list metadata :=
  concat (map (fun k => nodes name (snd k)) kids).

Lemma written_eq x m c kids : written (Tree x m c kids) = x ++ below c kids.
Proof. reflexivity. Qed.
Lemma nodes_eq name x m c kids :
  nodes name (Tree x m c kids) = StartNode name :: m ++ below_nodes name kids ++ [EndNode name].
Proof. reflexivity. Qed.

(** What may follow a tree whose items below would be in column [i], and how much of it is read. *)
Inductive behind (i : N) : str -> nat -> Prop :=
| behind_end : forall rest, Forall white rest -> behind i rest (length rest)
| behind_line : forall g m y c, Forall white g -> (N.of_nat m < i)%N -> ~ white c ->
    behind i ((g ++ [newline]) ++ repeat space m ++ c :: y) (length g + 1).

Lemma white_newline : white newline. Proof. reflexivity. Qed.
Lemma white_space : white space. Proof. reflexivity. Qed.

Lemma spaces_white c : Forall white (spaces c).
Proof. unfold spaces. induction (N.to_nat c); constructor; [exact white_space|assumption]. Qed.

Lemma spaces_blank c : Forall blank (spaces c).
Proof. unfold spaces. induction (N.to_nat c); constructor; [left; reflexivity|assumption]. Qed.

Lemma spaces_width T c : width T (spaces c) = c.
Proof.
  rewrite width_all_spaces.
  - unfold spaces. rewrite repeat_length. lia.
  - unfold spaces. induction (N.to_nat c); constructor; [reflexivity|assumption].
Qed.

Lemma spaces_no_break c : ~ In newline (spaces c).
Proof. unfold spaces. intros H. apply repeat_spec in H. discriminate. Qed.

Lemma longest_app a c y : Forall white a -> ~ white c -> longest white (a ++ c :: y) (length a).
Proof.
  intros Ha Hc. split; [rewrite app_length; lia|]. split; [rewrite firstn_length_app; exact Ha|].
  intros d Hd. rewrite nth_error_app2, Nat.sub_diag in Hd by lia. injection Hd as <-. exact Hc.
Qed.

Lemma line_ahead c d y : ~ white d -> same_line (spaces c ++ d :: y).
Proof.
  intros Hd. exists (length (spaces c)). split; [apply longest_app; [apply spaces_white|exact Hd]|].
  rewrite firstn_length_app. apply spaces_no_break.
Qed.

Lemma not_white c (d : char) y : ~ white d -> ~ Forall white (spaces c ++ d :: y).
Proof. intros Hd H. apply Forall_app in H as [_ H]. inversion H. contradiction. Qed.

Lemma spaces_ahead (d : char) y : ~ white d -> no_blank_ahead (d :: y).
Proof. intros Hd c [= <-] [-> | ->]; apply Hd; reflexivity. Qed.

Lemma reaches_spaces T c : reaches T c (spaces c).
Proof.
  unfold spaces. rewrite <- (N2Nat.id c) at 1. induction (N.to_nat c) as [|n IH]; [apply reaches_nil; reflexivity|].
  cbn [repeat]. apply reaches_cons. split; [left; reflexivity|]. split; [lia|].
  replace (N.of_nat (S n) - width T [space])%N with (N.of_nat n); [exact IH|].
  rewrite blank_width. change (N.eqb space tab) with false. cbn iota. lia.
Qed.

Lemma spaces_add a b : spaces (a + b) = spaces a ++ spaces b.
Proof. unfold spaces. rewrite N2Nat.inj_add. apply repeat_app. Qed.

Lemma spaces_length c : length (spaces c) = N.to_nat c.
Proof. apply repeat_length. Qed.

Lemma indented_spaces T i c x : (i <= c)%N -> indentation T i (spaces c ++ x) (length (spaces i)).
Proof.
  intros Hi. apply indentation_reaches. exists (spaces i), (spaces (c - i) ++ x).
  split; [rewrite app_assoc, <- spaces_add; do 2 f_equal; lia|]. split; [reflexivity|apply reaches_spaces].
Qed.

Lemma short_spaces T i m x : (m < i)%N -> no_blank_ahead x -> forall k, ~ indentation T i (spaces m ++ x) k.
Proof.
  intros Hi Hx k H. apply indentation_reaches in H as (a & y & He & _ & Hr).
  destruct (blanks_split _ _ _ _ (spaces_blank m) Hx He (proj1 Hr)) as (b & Hb & _).
  destruct Hr as (_ & Hw & _). pose proof (spaces_width T m) as Hs. rewrite Hb, width_app in Hs. lia.
Qed.

Lemma solid_written (head : str -> list metadata -> Prop) i t : (forall x m, head x m -> solid x) -> outline head i t ->
  exists c y, written t = c :: y /\ ~ white c.
Proof.
  intros Hh H. destruct H as [i x m c kids Hx _ _ _]. apply Hh in Hx as [(d & y & -> & Hd) _].
  exists d, (y ++ below c kids). auto.
Qed.

Lemma app_inj_length {A} (a b c d : list A) : length a = length b -> a ++ c = b ++ d -> a = b /\ c = d.
Proof.
  revert b. induction a as [|x a IH]; intros [|y b] Hl He; try discriminate; [auto|].
  injection He as -> He. injection Hl as Hl. destruct (IH b Hl He) as [-> ->]. auto.
Qed.

Section Outline.
  Variable E : ext.
  Hypothesis HE : ext_ok E.
  Variable refs : list rule.
  Variables (h : rule) (head : str -> list metadata -> Prop) (name : str).
  Hypothesis Hh : reads_heads E refs h head.
  Variables (i0 : nat) (e f g : debug_id) (name2 : str).
  Hypothesis Hn : nth_error refs i0 =
    Some (RSequence [h; RLines (RNode name2 (Some name) (Some i0) e) true f] g).

  Definition node (name1 : str) (b : debug_id) : rule := RNode name1 (Some name) (Some i0) b.
  Definition kid : rule := node name2 e.
  Definition lines : rule := RLines kid true f.
  Definition line := indented_line (runs E refs kid).

  Lemma head_solid x m : head x m -> solid x.
  Proof. intros H. apply (proj1 Hh) in H. apply H. Qed.

  Lemma node_inv name1 b ind p s n out ind' :
    runs E refs (node name1 b) ind p s (Yes n out) ind' ->
    exists n1 o1 ind1 n2 o2, runs E refs h ind p s (Yes n1 o1) ind1 /\
      runs E refs lines ind1 (p + n1) (skipn n1 s) (Yes n2 o2) ind' /\ n = n1 + n2 /\
      map snd out = StartNode name :: map snd o1 ++ map snd o2 ++ [EndNode name].
  Proof.
    rewrite runs_reads. intros (tr & H).
    assert (Hi : exists r n' out', nth_error refs i0 = Some r /\ reads E refs r ind p s (Yes n' out') ind' tr /\
      n = n' /\ out = token (Some name) (Rng p 0) StartNode ++ out' ++ token (Some name) (Rng p n) EndNode).
    { inversion H; subst. do 3 eexists. eauto. }
    destruct Hi as (r & n' & out' & Hr & Hv & <- & ->). rewrite Hn in Hr. injection Hr as <-.
    assert (Hs : reads_seq E refs [h; lines] ind p s (Yes n out') ind' tr) by (inversion Hv; subst; assumption).
    inversion Hs as [| |? ? ? ? ? n1 o1 ind1 tr1 v ? tr2 H1 H2]; subst.
    inversion H2 as [|? ? ? ? ? ? ? H3|? ? ? ? ? n2 o2 ind2 tr3 v2 ? tr4 H3 H4]; subst; [discriminate|].
    inversion H4; subst. cbn [after] in *. rewrite !Nat.add_0_r, !app_nil_r in *.
    match goal with HH : Yes _ _ = Yes _ _ |- _ => injection HH as <- <- end.
    exists n1, o1, ind1, n2, o2. split; [apply runs_reads; eauto|]. split; [apply runs_reads; eauto|].
    split; [lia|]. cbn [token]. rewrite !map_app. cbn. rewrite <- !app_assoc. reflexivity.
  Qed.

  Lemma node_intro name1 b ind p s n1 o1 ind1 n2 o2 ind' :
    runs E refs h ind p s (Yes n1 o1) ind1 ->
    runs E refs lines ind1 (p + n1) (skipn n1 s) (Yes n2 o2) ind' ->
    exists out, runs E refs (node name1 b) ind p s (Yes (n1 + n2) out) ind' /\
      map snd out = StartNode name :: map snd o1 ++ map snd o2 ++ [EndNode name].
  Proof.
    rewrite !runs_reads. intros (tr1 & H1) (tr2 & H2).
    exists (token (Some name) (Rng p 0) StartNode ++ (o1 ++ o2 ++ []) ++ token (Some name) (Rng p (n1 + n2)) EndNode).
    split.
    - apply runs_reads. exists (tr1 ++ tr2 ++ []). eapply reads_node; [exact Hn|]. apply reads_sequence.
      replace (n1 + n2) with (n1 + (n2 + 0)) by lia.
      change (Yes (n1 + (n2 + 0)) (o1 ++ o2 ++ [])) with (after n1 o1 (after n2 o2 (Yes 0 []))).
      eapply reads_seq_cons; [exact H1|]. eapply reads_seq_cons; [exact H2|]. constructor.
    - cbn [token]. rewrite !map_app. cbn. rewrite app_nil_r, <- !app_assoc. reflexivity.
  Qed.

  (** ** An outline is read *)

  Definition tree_read (t : tree) : Prop := forall i name1 b ind p rest k,
    outline head i t -> ~ glued t -> i_indent ind = i -> i_align_first ind = true -> behind i rest k ->
    exists out ind', runs E refs (node name1 b) ind p (written t ++ rest) (Yes (length (written t) + k) out) ind' /\
      map snd out = nodes name t.

  Lemma line_read c t fresh ind p rest k : tree_read t -> outline head (c + 1) t -> (c < u32_max)%N ->
    i_align_first ind = true ->
    (fresh = true /\ (i_indent ind <= c)%N) \/ (fresh = false /\ i_indent ind = c) ->
    behind (c + 1) rest k ->
    exists out ind', line (ind, fresh) p (spaces c ++ written t ++ rest)
      (Yes (length (spaces c) + (length (written t) + k)) out) (ind', false) /\
      map snd out = nodes name t /\ i_indent ind' = c /\ i_align_first ind' = true.
  Proof.
    intros Ht Ho Hc Ha Hf Hb.
    destruct (solid_written head (c + 1)%N t (head_solid) Ho) as (d & y & Hw & Hd).
    assert (Hg : ~ glued t).
    { intros G. inversion Ho as [i' x m c' kids _ _ Hk _]; subst. destruct kids as [|[g1 k1] kids]; cbn in G; [contradiction|].
      destruct g1; [|contradiction]. specialize (Hk ltac:(discriminate)). lia. }
    destruct (Ht (c + 1)%N name2 e (set_indent ind (c + 1)) (p + length (spaces c)) rest k Ho Hg eq_refl Ha Hb)
      as (out & ind' & Hr & Hout).
    exists out, (set_indent ind' c). split; [|split; [exact Hout|split; [reflexivity|]]].
    2:{ apply runs_mode in Hr. destruct Hr as [_ Hr]. cbn in *. congruence. }
    change (Yes (length (spaces c) + (length (written t) + k)) out)
      with (after (length (spaces c)) [] (Yes (length (written t) + k) out)).
    unfold line. destruct Hf as [[-> Hi]|[-> Hi]].
    - assert (Hl : length (spaces c) = length (spaces (i_indent ind)) + length (spaces (c - i_indent ind))).
      { rewrite <- app_length, <- spaces_add. replace (i_indent ind + (c - i_indent ind))%N with c by lia. reflexivity. }
      assert (Hsp : spaces c ++ written t ++ rest =
        spaces (i_indent ind) ++ spaces (c - i_indent ind) ++ written t ++ rest).
      { replace c with (i_indent ind + (c - i_indent ind))%N at 1 by lia. rewrite spaces_add, <- app_assoc. reflexivity. }
      rewrite Hl. eapply (indented_first _ ind p _ (length (spaces (i_indent ind))) (length (spaces (c - i_indent ind))) c).
      + exact Ha.
      + apply indented_spaces. exact Hi.
      + rewrite Hsp, skipn_past. rewrite Hw. cbn [app].
        split; [rewrite app_length; lia|]. split; [rewrite firstn_length_app; apply spaces_blank|].
        intros z Hz Hbl. rewrite nth_error_app2, Nat.sub_diag in Hz by lia. injection Hz as <-.
        exact (spaces_ahead d y Hd d eq_refl Hbl).
      + rewrite Hsp, skipn_past, firstn_length_app, spaces_width. lia.
      + exact Hc.
      + rewrite <- Hl, skipn_past, <- Nat.add_assoc, <- Hl. exact Hr.
    - replace (set_indent ind' c) with (set_indent ind' (i_indent ind)) by (rewrite Hi; reflexivity).
      eapply indented_exact.
      + reflexivity.
      + rewrite Hi. apply indented_spaces. lia.
      + rewrite skipn_past. rewrite Hw. intros (z & Hz). cbn in Hz. injection Hz as -> _. apply Hd. reflexivity.
      + lia.
      + rewrite Hi, skipn_past. exact Hr.
  Qed.

  Lemma ends_line_snoc z w : Forall white w -> ends_line (z ++ w ++ [newline]).
  Proof.
    intros _. exists (z ++ w), []. split; [rewrite <- app_assoc; reflexivity|constructor].
  Qed.

  Lemma kids_read c kids : Forall (fun k => tree_read (snd k)) kids ->
    Forall (fun k => outline head (c + 1) (snd k)) kids -> Forall (fun k => breaks (fst k)) kids ->
    forall t i fresh prev g1 ind p rest k,
    tree_read t -> outline head (c + 1) t -> (c < u32_max)%N -> (i <= c)%N ->
    (g1 = [] /\ (forall x, prev = Some x -> ends_line x) \/ breaks g1) ->
    i_align_first ind = true ->
    (fresh = true /\ (i_indent ind <= c)%N) \/ (fresh = false /\ i_indent ind = c) ->
    behind i rest k ->
    exists items out ind',
      block line prev (ind, fresh) p (g1 ++ spaces c ++ written t ++ below c kids ++ rest) items
        (Yes (length (g1 ++ spaces c ++ written t ++ below c kids) + k) out) (ind', false) /\
      map snd out = nodes name t ++ below_nodes name kids.
  Proof.
    intros Hr. induction Hr as [|[g2 t2] kids Ht2 Hr IH]; intros Ho Hg t i fresh prev g1 ind p rest k Ht Hot Hc Hic Hg1 Ha Hf Hb.
    - change (below c []) with (@nil char). cbn [app]. rewrite app_nil_r.
      assert (Hb' : behind (c + 1) rest k).
      { destruct Hb as [rest Hw|gg m y d Hw Hm Hd]; constructor; try assumption. lia. }
      destruct (line_read c t fresh ind (p + length g1) rest k Ht Hot Hc Ha Hf Hb') as (out & ind' & Hl & Hout & Hi' & Ha').
      destruct (solid_written head (c + 1)%N t (head_solid) Hot) as (d & y & Hw & Hd).
      assert (Hk : rest = firstn k rest ++ skipn k rest) by (symmetry; apply firstn_skipn).
      assert (Hkl : k <= length rest) by (destruct Hb; [lia|rewrite !app_length; cbn; lia]).
      assert (Hgap : gap_ok prev g1 (spaces c ++ written t ++ rest)).
      { rewrite Hw. cbn [app]. destruct Hg1 as [[-> Hp]|(w & -> & Hww)].
        - apply gap_none; [exact Hp|apply line_ahead; exact Hd|apply not_white; exact Hd].
        - apply gap_break; [exact Hww|apply line_ahead; exact Hd|apply not_white; exact Hd]. }
      set (item := spaces c ++ written t ++ firstn k rest).
      assert (Hil : length item = length (spaces c) + (length (written t) + k)).
      { unfold item. rewrite !app_length, firstn_length. lia. }
      assert (Hie : spaces c ++ written t ++ rest = item ++ skipn k rest).
      { unfold item. rewrite <- !app_assoc, <- Hk. reflexivity. }
      assert (Hbl : exists ind2, block line (Some item) (ind', false) (p + length g1 + length item) (skipn k rest) []
        (Yes 0 []) (ind2, false)).
      { exists ind'. destruct Hb as [rest Hww|gg m y' d' Hww Hm Hd'].
        - rewrite skipn_all. apply (block_end line (Some item) (ind', false) _ []). constructor.
        - assert (Hsk : skipn (length gg + 1) ((gg ++ [newline]) ++ repeat space m ++ d' :: y') = repeat space m ++ d' :: y').
          { replace (length gg + 1) with (length (gg ++ [newline])) by (rewrite app_length; reflexivity). apply skipn_past. }
          rewrite Hsk. replace (repeat space m) with (spaces (N.of_nat m)) by (unfold spaces; rewrite Nat2N.id; reflexivity).
          apply (block_stop line (Some item) (ind', false) _ []).
          + apply gap_none; [|apply line_ahead; exact Hd'|apply not_white; exact Hd'].
            intros x [= <-]. unfold item. replace (length gg + 1) with (length (gg ++ [newline])) by (rewrite app_length; reflexivity).
            rewrite firstn_length_app.
            rewrite app_assoc. apply ends_line_snoc. exact Hww.
          + unfold line. apply indented_short. rewrite Hi'. apply short_spaces; [lia|apply spaces_ahead; exact Hd']. }
      destruct Hbl as (ind2 & Hbl).
      exists [(g1, item)], (out ++ []), ind2. split.
      + rewrite Hie. replace (Yes (length (g1 ++ spaces c ++ written t) + k) (out ++ []))
          with (after (length g1 + length item) out (Yes 0 [])) by (cbn [after]; f_equal; rewrite !app_length, Hil; lia).
        eapply block_item; [rewrite <- Hie; exact Hgap|rewrite <- Hie, Hil; exact Hl|exact Hbl].
      + rewrite app_nil_r, app_nil_r. exact Hout.
    - inversion Ho as [|? ? Ho2 Ho']; subst. inversion Hg as [|? ? Hg2 Hg']; subst. cbn [fst snd] in *.
      destruct Hg2 as (w & -> & Hww).
      destruct (solid_written head (c + 1)%N t (head_solid) Hot) as (d & y & Hw & Hd).
      destruct (solid_written head (c + 1)%N t2 (head_solid) Ho2) as (d2 & y2 & Hw2 & Hd2).
      set (rest2 := spaces c ++ written t2 ++ below c kids ++ rest).
      assert (Hbe : below c ((w ++ [newline], t2) :: kids) ++ rest = (w ++ [newline]) ++ rest2).
      { unfold below, rest2. cbn [map concat fst snd]. rewrite <- !app_assoc. reflexivity. }
      assert (Hb' : behind (c + 1) ((w ++ [newline]) ++ rest2) (length w + 1)).
      { unfold rest2, spaces. rewrite Hw2. cbn [app]. apply behind_line; [exact Hww|lia|exact Hd2]. }
      destruct (line_read c t fresh ind (p + length g1) _ _ Ht Hot Hc Ha Hf Hb') as (out & ind' & Hl & Hout & Hi' & Ha').
      set (item := spaces c ++ written t ++ w ++ [newline]).
      assert (Hie : spaces c ++ written t ++ (w ++ [newline]) ++ rest2 = item ++ rest2).
      { unfold item. rewrite <- !app_assoc. reflexivity. }
      assert (Hil : length item = length (spaces c) + (length (written t) + (length w + 1))).
      { unfold item. rewrite !app_length. cbn. lia. }
      destruct (IH Ho' Hg' t2 i false (Some item) [] ind' (p + length g1 + length item) rest k Ht2 Ho2 Hc Hic) as (items & out2 & ind2 & Hbl & Hout2).
      { left. split; [reflexivity|]. intros x [= <-]. unfold item. rewrite app_assoc. apply ends_line_snoc. exact Hww. }
      { exact Ha'. } { right. auto. } { exact Hb. }
      exists ((g1, item) :: items), (out ++ out2), ind2. split.
      + cbn [app] in Hbl. fold rest2 in Hbl. match goal with |- block _ _ _ _ ?X _ _ _ => replace X with (g1 ++ item ++ rest2) end.
        2:{ rewrite <- Hie. do 3 f_equal. symmetry. exact Hbe. }
        match goal with |- block _ _ _ _ _ _ ?V _ => replace V with
          (after (length g1 + length item) out (Yes (length (spaces c ++ written t2 ++ below c kids) + k) out2)) end.
        2:{ cbn [after]. f_equal. rewrite Hil. unfold below. cbn [map concat fst snd]. rewrite !app_length. cbn [length]. lia. }
        eapply block_item; [|rewrite <- Hie, Hil; exact Hl|exact Hbl].
        rewrite <- Hie, Hw. cbn [app]. destruct Hg1 as [[-> Hp]|(w1 & -> & Hw1)].
        * apply gap_none; [exact Hp|apply line_ahead; exact Hd|apply not_white; exact Hd].
        * apply gap_break; [exact Hw1|apply line_ahead; exact Hd|apply not_white; exact Hd].
      + etransitivity; [apply map_app|]. etransitivity; [apply f_equal2; [exact Hout|exact Hout2]|]. reflexivity.
  Qed.

  Theorem outline_read t : tree_read t.
  Proof.
    induction t as [x m c kids IH] using tree_rec'. intros i name1 b ind p rest k Ho Hg Hi Ha Hb.
    inversion Ho as [? ? ? ? ? Hx Hgaps Hc Hk]; subst.
    destruct (proj1 Hh x m Hx) as [Hsol Hread].
    assert (Hnext : below c kids ++ rest = [] \/ exists d y, below c kids ++ rest = d :: y /\ white d).
    { destruct kids as [|[g1 t1] kids].
      - cbn [app]. destruct Hb as [rest Hw|gg m' y' d' Hw Hm Hd'].
        + destruct Hw as [|d y Hd Hw]; [left; reflexivity|right; do 2 eexists; split; [reflexivity|exact Hd]].
        + right. destruct Hw as [|d gg Hd Hw]; cbn; [do 2 eexists; split; [reflexivity|exact white_newline]|do 2 eexists; split; [reflexivity|exact Hd]].
      - right. unfold below. cbn [map concat fst snd]. destruct Hgaps as [[->|(w & -> & Hw)] _].
        + cbn in Hg. destruct (N.to_nat c) as [|n] eqn:Hn'; [lia|]. unfold spaces. rewrite Hn'. cbn.
          do 2 eexists. split; [reflexivity|exact white_space].
        + destruct Hw as [|d w Hd Hw]; cbn; [do 2 eexists; split; [reflexivity|exact white_newline]|do 2 eexists; split; [reflexivity|exact Hd]]. }
    destruct (Hread ind p (below c kids ++ rest) Hnext) as (o1 & Hr1 & Ho1).
    assert (Hl : exists o2 ind', runs E refs lines ind (p + length x) (below c kids ++ rest)
      (Yes (length (below c kids) + k) o2) ind' /\ map snd o2 = below_nodes name kids).
    { unfold lines. destruct kids as [|[g1 t1] kids].
      - exists [], ind. split; [|reflexivity]. apply (lines_spec E HE refs kid true). exists [], true.
        change (below c []) with (@nil char). cbn [app length plus]. destruct Hb as [rest Hw|gg m' y' d' Hw Hm Hd'].
        + apply block_end. exact Hw.
        + replace (length gg + 1) with (length (gg ++ [newline])) by (rewrite app_length; reflexivity).
          replace (repeat space m') with (spaces (N.of_nat m')) by (unfold spaces; rewrite Nat2N.id; reflexivity).
          apply block_stop.
          * apply gap_break; [exact Hw|apply line_ahead; exact Hd'|apply not_white; exact Hd'].
          * apply indented_short. apply short_spaces; [lia|apply spaces_ahead; exact Hd'].
      - inversion IH as [|? ? It1 IH']; subst. inversion Hk as [|? ? Hk1 Hk']; subst. cbn [snd] in *.
        destruct Hgaps as [Hg1 Hgs]. specialize (Hc ltac:(discriminate)).
        destruct (kids_read c kids IH' Hk' Hgs t1 (i_indent ind) true None g1 ind (p + length x) rest k It1 Hk1
          ltac:(lia) ltac:(lia)) as (items & out & ind' & Hbl & Hout).
        { destruct Hg1 as [->|Hg1]; [left; split; [reflexivity|discriminate]|right; exact Hg1]. }
        { exact Ha. } { left. split; [reflexivity|lia]. } { exact Hb. }
        exists out, ind'. split; [|exact Hout]. apply (lines_spec E HE refs kid true). exists items, false.
        assert (Hbe : below c ((g1, t1) :: kids) = g1 ++ spaces c ++ written t1 ++ below c kids).
        { unfold below. cbn [map concat fst snd]. rewrite <- !app_assoc. reflexivity. }
        rewrite Hbe. rewrite <- !app_assoc. exact Hbl. }
    destruct Hl as (o2 & ind' & Hr2 & Ho2).
    destruct (node_intro name1 b ind p (x ++ below c kids ++ rest) (length x) o1 ind (length (below c kids) + k) o2 ind')
      as (out & Hr & Hout); [exact Hr1|rewrite skipn_past; exact Hr2|].
    exists out, ind'. split.
    - rewrite written_eq, <- app_assoc, app_length, <- Nat.add_assoc. exact Hr.
    - rewrite Hout, Ho1, Ho2, nodes_eq. reflexivity.
  Qed.

  (** ** What is read is an outline *)

  Definition tail_ok (gap rest : str) : Prop := gap = [] \/ breaks gap \/ (Forall white gap /\ rest = []).

  Definition ends_solid (x : str) : Prop := exists z c, x = z ++ [c] /\ ~ white c.

  Lemma below_ends c kids : Forall (fun k => ends_solid (written (snd k))) kids ->
    forall x, ends_solid x -> ends_solid (x ++ below c kids).
  Proof.
    induction 1 as [|k kids Hk _ IH]; intros x Hx.
    - unfold below. cbn. rewrite app_nil_r. exact Hx.
    - unfold below. cbn [map concat]. rewrite app_assoc. apply (IH (x ++ fst k ++ spaces c ++ written (snd k))).
      destruct Hk as (z & d & Hz & Hd). exists (x ++ fst k ++ spaces c ++ z), d. split; [|exact Hd].
      rewrite Hz, <- !app_assoc. reflexivity.
  Qed.

  Lemma written_ends t : forall i, outline head i t -> ends_solid (written t).
  Proof.
    induction t as [x m c kids IH] using tree_rec'. intros i H. inversion H as [? ? ? ? ? Hx _ _ Hk]; subst.
    rewrite written_eq. apply below_ends; [|apply head_solid in Hx; apply Hx].
    clear - IH Hk. induction IH as [|k kids Hk1 _ IH]; [constructor|]. inversion Hk; subst. constructor; eauto.
  Qed.

  Definition back (s : str) : Prop := forall name1 b ind p n out ind',
    ~ In tab s -> i_align_first ind = true -> runs E refs (node name1 b) ind p s (Yes n out) ind' ->
    exists t gap rest, s = written t ++ gap ++ rest /\ n = length (written t ++ gap) /\
      outline head (i_indent ind) t /\ map snd out = nodes name t /\ tail_ok gap rest.

  Lemma reaches_no_tab T c a : reaches T c a -> ~ In tab a -> a = spaces c.
  Proof.
    revert c. induction a as [|d a IH]; intros c H Ht.
    - apply reaches_nil in H as ->. reflexivity.
    - apply reaches_cons in H as (Hb & Hc & H). destruct Hb as [-> | ->]; [|exfalso; apply Ht; left; reflexivity].
      rewrite blank_width in H. change (N.eqb space tab) with false in H. cbn iota in H.
      apply IH in H; [|intros H'; apply Ht; right; exact H']. rewrite H.
      replace c with (1 + (c - 1))%N at 2 by lia. rewrite spaces_add. reflexivity.
  Qed.

  Lemma blank_no_tab a : Forall blank a -> ~ In tab a -> a = spaces (N.of_nat (length a)).
  Proof.
    intros Ha Ht. unfold spaces. rewrite Nat2N.id. induction Ha as [|d a Hd Ha IH]; [reflexivity|].
    destruct Hd as [-> | ->]; [|exfalso; apply Ht; left; reflexivity].
    cbn. f_equal. apply IH. intros H. apply Ht. right. exact H.
  Qed.

  Lemma no_tab_app (a b : str) : ~ In tab (a ++ b) -> ~ In tab a /\ ~ In tab b.
  Proof. intros H. split; intros H'; apply H; apply in_or_app; auto. Qed.

  (** One line that was read. *)
  Lemma line_back ind fresh p s n out ind1 fresh' :
    (forall s', length s' <= length s -> back s') -> ~ In tab s -> i_align_first ind = true ->
    line (ind, fresh) p s (Yes n out) (ind1, fresh') ->
    fresh' = false /\ i_align_first ind1 = true /\
    exists c t gap rest, s = spaces c ++ written t ++ gap ++ rest /\ n = length (spaces c ++ written t ++ gap) /\
      outline head (c + 1) t /\ map snd out = nodes name t /\ tail_ok gap rest /\
      (i_indent ind <= c < u32_max)%N /\ (fresh = false -> c = i_indent ind) /\ i_indent ind1 = c.
  Proof.
    intros Hb Ht Ha H. unfold line in H.
    inversion H; subst; try discriminate;
      match goal with Hx : indentation _ _ _ _ |- _ => rename Hx into Hi end;
      match goal with Hx : runs _ _ _ _ _ _ _ _ |- _ => rename Hx into Hr end;
      try match goal with Hx : _ && _ = false |- _ => rename Hx into Hf end;
      try match goal with Hx : longest _ _ _ |- _ => rename Hx into Hl end.
    - destruct v as [m o|]; [|discriminate]. cbn [after app] in *.
      match goal with HH : Yes _ _ = Yes _ _ |- _ => injection HH as <- <- end.
      rewrite Ha, andb_true_r in Hf. subst fresh'. split; [reflexivity|].
      apply indentation_reaches in Hi as (a & y & -> & <- & Hre).
      apply no_tab_app in Ht as [Hta Hty]. apply reaches_no_tab in Hre; [|exact Hta]. subst a. rewrite skipn_past in *.
      destruct (Hb y ltac:(rewrite app_length; lia) name2 e (set_indent ind (i_indent ind + 1)) _ _ _ _ Hty Ha Hr) as (t & gap & rest & -> & -> & Ho & Hout & Htl).
      apply runs_mode in Hr. destruct Hr as [_ Hal]. cbn in Hal.
      split; [cbn; congruence|]. exists (i_indent ind), t, gap, rest. split; [reflexivity|].
      split; [rewrite !app_length; lia|]. split; [exact Ho|]. split; [exact Hout|]. split; [exact Htl|].
      split; [lia|]. split; reflexivity.
    - destruct v as [m o|]; [|discriminate]. cbn [after app] in *.
      match goal with HH : Yes _ _ = Yes _ _ |- _ => injection HH as <- <- end.
      split; [reflexivity|].
      apply indentation_reaches in Hi as (a & y & -> & <- & Hre).
      apply no_tab_app in Ht as [Hta Hty]. apply reaches_no_tab in Hre; [|exact Hta]. subst a.
      rewrite <- skipn_add in Hr. rewrite skipn_past in *. destruct Hl as (Hbl & Hbb & _).
      assert (Hsp : firstn b y = spaces (N.of_nat b)).
      { rewrite (blank_no_tab (firstn b y)); [rewrite firstn_length, Nat.min_l by exact Hbl; reflexivity|exact Hbb|].
        intros Hin. apply Hty. rewrite <- (firstn_skipn b y). apply in_or_app. left. exact Hin. }
      rewrite Hsp, spaces_width in *.
      assert (Hty2 : ~ In tab (skipn b y)).
      { intros Hin. apply Hty. rewrite <- (firstn_skipn b y). apply in_or_app. right. exact Hin. }
      destruct (Hb (skipn b y) ltac:(rewrite app_length, skipn_length; lia) name2 e (set_indent ind (i_indent ind + N.of_nat b + 1)) _ _ _ _ Hty2 Ha Hr)
        as (t & gap & rest & Hy & -> & Ho & Hout & Htl).
      apply runs_mode in Hr. destruct Hr as [_ Hal]. cbn in Hal.
      split; [cbn; congruence|]. exists (i_indent ind + N.of_nat b)%N, t, gap, rest.
      split. { rewrite <- (firstn_skipn b y), Hsp, Hy, spaces_add, <- app_assoc. reflexivity. }
      split. { rewrite !app_length, !spaces_length. lia. }
      split; [exact Ho|]. split; [exact Hout|]. split; [exact Htl|]. split; [lia|]. split; [discriminate|reflexivity].
  Qed.

  Definition prev_ok (prev : option str) (g0 s : str) : Prop :=
    (prev = None /\ g0 = []) \/
    (exists z, prev = Some (z ++ g0) /\ ends_solid z /\ tail_ok g0 s).

  Definition kids_ok (prev : option str) (kids : list (str * tree)) : Prop :=
    match prev with
    | None => gaps kids
    | Some _ => Forall (fun k => breaks (fst k)) kids
    end.

  Lemma solid_not_ending z : ends_solid z -> ~ ends_line z.
  Proof.
    intros (y & c & -> & Hc) (a & b & He & Hb).
    destruct (@exists_last _ (newline :: b) ltac:(discriminate)) as (b' & d & Hd).
    rewrite Hd in He. rewrite app_assoc in He. apply app_inj_tail in He as [_ ->].
    assert (Hw : Forall white (newline :: b)) by (constructor; [exact white_newline|exact Hb]).
    rewrite Hd in Hw. apply Forall_app in Hw as [_ Hw]. inversion Hw. contradiction.
  Qed.

  Lemma tail_white gap rest : tail_ok gap rest -> Forall white gap.
  Proof.
    intros [->|[(w & -> & Hw)|[H _]]]; [constructor| |exact H].
    apply Forall_app. split; [exact Hw|constructor; [exact white_newline|constructor]].
  Qed.

  Lemma breaks_app a b : Forall white a -> breaks b -> breaks (a ++ b).
  Proof.
    intros Ha (w & -> & Hw). exists (a ++ w). split; [apply app_assoc|]. apply Forall_app. auto.
  Qed.

  Lemma block_back prev st p s items v st' : block line prev st p s items v st' ->
    forall ind fresh n out g0, st = (ind, fresh) -> v = Yes n out ->
    (forall s', length s' <= length s -> back s') -> ~ In tab s -> i_align_first ind = true ->
    prev_ok prev g0 s ->
    exists c kids gap rest, g0 ++ s = below c kids ++ gap ++ rest /\
      length g0 + n = length (below c kids ++ gap) /\ tail_ok gap rest /\ kids_ok prev kids /\
      Forall (fun k => outline head (c + 1) (snd k)) kids /\ map snd out = below_nodes name kids /\
      (kids <> [] -> (i_indent ind <= c < u32_max)%N) /\ (fresh = false -> c = i_indent ind).
  Proof.
    induction 1 as [prev st p s Hs|prev st p gap rest st' Hg Hl|x st p s _ _ _|prev st p gap item rest o st1 items v st2 Hg Hl _ IH];
      intros ind fresh n out g0 -> Hv Hb Ht Ha Hp.
    - injection Hv as <- <-. exists (i_indent ind), [], (g0 ++ s), []. change (below (i_indent ind) []) with (@nil char). cbn [app].
      assert (Hw : Forall white g0).
      { destruct Hp as [[_ ->]|(z & _ & _ & H)]; [constructor|exact (tail_white _ _ H)]. }
      split; [rewrite app_nil_r; reflexivity|]. split; [symmetry; apply app_length|].
      split; [right; right; split; [apply Forall_app; auto|reflexivity]|].
      split; [destruct prev; constructor|]. split; [constructor|]. split; [reflexivity|]. split; [congruence|reflexivity].
    - injection Hv as <- <-. exists (i_indent ind), [], (g0 ++ gap), rest. change (below (i_indent ind) []) with (@nil char). cbn [app].
      assert (Hw : Forall white g0).
      { destruct Hp as [[_ ->]|(z & _ & _ & H)]; [constructor|exact (tail_white _ _ H)]. }
      split; [cbn; rewrite <- app_assoc; reflexivity|]. split; [symmetry; apply app_length|].
      split.
      { destruct Hg as [g' rest Hg' _ _|rest _ _ Hnw].
        - right. left. apply breaks_app; [exact Hw|]. exists g'. auto.
        - rewrite app_nil_r. destruct Hp as [[_ ->]|(z & _ & _ & H)]; [left; reflexivity|]. exact H. }
      split; [destruct prev; constructor|]. split; [constructor|]. split; [reflexivity|]. split; [congruence|reflexivity].
    - discriminate.
    - destruct v as [n2 o2|]; [|discriminate]. cbn [after] in Hv. injection Hv as <- <-.
      apply no_tab_app in Ht as [_ Ht]. destruct st1 as [ind1 fresh1].
      destruct (line_back ind fresh _ (item ++ rest) _ _ ind1 fresh1 ltac:(intros s' Hs'; apply Hb; rewrite !app_length in *; lia) Ht Ha Hl)
        as (-> & Ha1 & c & t & kg & rest1 & He & Hlen & Hot & Hout & Htl & Hc & Hcf & Hi1).
      assert (Hir : item = spaces c ++ written t ++ kg /\ rest = rest1).
      { apply app_inj_length; [exact Hlen|]. rewrite <- !app_assoc. exact He. }
      destruct Hir as [-> <-]. apply no_tab_app in Ht as [_ Htr].
      assert (Hends : ends_solid (spaces c ++ written t)).
      { destruct (written_ends t _ Hot) as (z & d & Hz & Hd). exists (spaces c ++ z), d.
        split; [rewrite Hz, app_assoc; reflexivity|exact Hd]. }
      destruct (IH ind1 false n2 o2 kg eq_refl eq_refl) as (c' & kids & gap' & rest' & He' & Hlen' & Htl' & Hk' & Hot' & Hout' & Hc' & Hcf').
      { intros s' Hs'. apply Hb. rewrite !app_length. lia. }
      { exact Htr. } { exact Ha1. }
      { right. exists (spaces c ++ written t). split; [rewrite <- app_assoc; reflexivity|]. split; [exact Hends|exact Htl]. }
      specialize (Hcf' eq_refl). rewrite Hi1 in Hcf'. subst c'. cbn [kids_ok] in Hk'.
      exists c, ((g0 ++ gap, t) :: kids), gap', rest'.
      assert (Hbe : below c ((g0 ++ gap, t) :: kids) = g0 ++ gap ++ spaces c ++ written t ++ below c kids).
      { unfold below. cbn [map concat fst snd]. rewrite <- !app_assoc. reflexivity. }
      rewrite Hbe.
      split. { rewrite <- !app_assoc. rewrite He'. reflexivity. }
      split. { rewrite !app_length in *. lia. }
      split; [exact Htl'|].
      assert (Hw : Forall white g0).
      { destruct Hp as [[_ ->]|(z & _ & _ & H)]; [constructor|exact (tail_white _ _ H)]. }
      split.
      { destruct Hp as [[-> ->]|(z & -> & Hz & Hgz)]; cbn [kids_ok gaps].
        - split; [|exact Hk']. cbn [app]. remember ((spaces c ++ written t ++ kg) ++ rest) as tl eqn:Etl. clear Etl.
          destruct Hg as [g' tl Hg' _ _|tl _ _ _]; [right; exists g'; auto|left; reflexivity].
        - constructor; [|exact Hk']. cbn [fst]. remember ((spaces c ++ written t ++ kg) ++ rest) as tl eqn:Etl.
          destruct Hg as [g' tl Hg' _ _|tl Hpe _ Hnw].
          + apply breaks_app; [exact Hw|]. exists g'. auto.
          + rewrite app_nil_r. destruct Hgz as [->|[H|[_ H]]]; [|exact H|].
            * exfalso. specialize (Hpe _ eq_refl). rewrite app_nil_r in Hpe. exact (solid_not_ending _ Hz Hpe).
            * exfalso. apply Hnw. cbn [app] in H. rewrite H. constructor. }
      split. { constructor; [exact Hot|exact Hot']. }
      split. { etransitivity; [apply map_app|]. etransitivity; [apply f_equal2; [exact Hout|exact Hout']|]. reflexivity. }
      split; [intros _; lia|exact Hcf].
  Qed.

  Theorem outline_back : forall N s, length s <= N -> back s.
  Proof.
    induction N as [|N IH]; intros s Hlen name1 b ind p n out ind' Ht Ha H;
      apply node_inv in H as (n1 & o1 & ind1 & n2 & o2 & H1 & H2 & -> & Hout);
      destruct (proj2 Hh _ _ _ _ _ _ H1) as (-> & Hn1 & Hx);
      assert (Hpos : 0 < n1) by
        (apply head_solid in Hx as [(c & y & Hx & _) _]; destruct n1; [discriminate|lia]); [lia|].
    apply (lines_spec E HE refs kid true) in H2 as (items & fresh' & H2).
    assert (Hts : ~ In tab (skipn n1 s)).
    { intros Hin. apply Ht. rewrite <- (firstn_skipn n1 s). apply in_or_app. right. exact Hin. }
    destruct (block_back _ _ _ _ _ _ _ H2 ind true n2 o2 [] eq_refl eq_refl) as
      (c & kids & gap & rest & He & Hl & Htl & Hk & Hot & Hout2 & Hc & _).
    { intros s' Hs'. apply IH. rewrite skipn_length in Hs'. lia. }
    { exact Hts. } { exact Ha. } { left. auto. }
    cbn [app length plus] in He, Hl. cbn [kids_ok] in Hk.
    exists (Tree (firstn n1 s) (map snd o1) c kids), gap, rest. rewrite written_eq, nodes_eq.
    split. { rewrite <- app_assoc. rewrite <- He. symmetry. apply firstn_skipn. }
    split. { rewrite <- app_assoc, app_length, firstn_length, Nat.min_l by exact Hn1. lia. }
    split. { constructor; assumption. }
    split; [|exact Htl]. rewrite Hout, Hout2. reflexivity.
  Qed.
End Outline.
