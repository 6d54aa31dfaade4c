(** C15: blocks inside the items of a block are deeper. *)
From Coq Require Import List NArith Bool Arith Lia.
From Verif Require Import Base Ext Types ParseModel PegSpec DataSpec PrimProofs PegProofs RuleSpec
  PegFacts RuleProofs IndentProofs LinesProofs BlockPublic.
Import ListNotations.

Section Deeper.
  Variables (E : ext) (HE : ext_ok E) (refs : list rule) (r : rule).

  (** The sub rule reads what stands behind the [c] spaces, one deeper. *)
  Definition read_behind (c : N) (item : str) : Prop :=
    exists y behind q ind1 out ind2, item = repeat space (N.to_nat c) ++ y /\ i_indent ind1 = (c + 1)%N /\
      ~ In tab (y ++ behind) /\ runs E refs r ind1 q (y ++ behind) (Yes (length y) out) ind2.

  Lemma behind c k s item rest q ind1 m out ind2 : ~ In tab s -> s = item ++ rest -> length item = k + m ->
    s = repeat space (N.to_nat c) ++ skipn k s -> k = N.to_nat c -> i_indent ind1 = (c + 1)%N ->
    runs E refs r ind1 q (skipn k s) (Yes m out) ind2 -> read_behind c item.
  Proof.
    intros Ht Hs Hl Hk -> Hi Hr. set (k := N.to_nat c) in *.
    exists (skipn k item), rest, q, ind1, out, ind2. split; [|split; [exact Hi|split]].
    - rewrite <- (firstn_skipn k item) at 1. f_equal.
      assert (Hf : firstn k s = repeat space k).
      { rewrite Hk, firstn_app, firstn_all2, repeat_length, Nat.sub_diag by (rewrite repeat_length; lia).
        cbn. rewrite app_nil_r. reflexivity. }
      rewrite Hs, firstn_app in Hf. replace (k - length item) with 0 in Hf by lia. cbn in Hf. rewrite app_nil_r in Hf. exact Hf.
    - intros Hi'. apply Ht. rewrite Hs. apply in_app_iff in Hi' as [Hi'|Hi']; apply in_or_app; [left|right; exact Hi'].
      rewrite <- (firstn_skipn k item). apply in_or_app. right. exact Hi'.
    - rewrite Hs, skipn_app in Hr. replace (k - length item) with 0 in Hr by lia.
      change (skipn 0 rest) with rest in Hr.
      rewrite skipn_length. replace (length item - k) with m by lia. exact Hr.
  Qed.

  Lemma spaces_behind c s y : s = repeat space (N.to_nat c) ++ y -> skipn (N.to_nat c) s = y.
  Proof.
    intros ->. rewrite skipn_app, skipn_all2, repeat_length, Nat.sub_diag by (rewrite repeat_length; lia). reflexivity.
  Qed.

  Lemma settled_behind ind0 c st p s item rest out st' : settled ind0 c st -> ~ In tab s -> s = item ++ rest ->
    indented_line (runs E refs r) st p s (Yes (length item) out) st' -> read_behind c item.
  Proof.
    intros (Hm & Hc & Hf) Ht Hs H. inversion H; subst st st' p0 s0; cbn [fst snd] in *.
    - destruct v as [m o|]; [|discriminate]. match goal with Ha : after _ _ _ = _ |- _ => cbn in Ha; injection Ha as Hn Ho end.
      destruct (indentation_spaces _ _ _ _ ltac:(eassumption) Ht) as (Hk & y & Hy). rewrite Hc in *. rewrite Hk in Hy.
      assert (Hsk : skipn k s = y) by (rewrite Hk; apply spaces_behind; exact Hy).
      eapply (behind c k s item rest); [exact Ht|exact Hs|symmetry; exact Hn|rewrite Hsk; exact Hy|exact Hk| |eassumption]. cbn. lia.
    - exfalso. destruct Hm as [_ Hm]. cbn in *. congruence.
  Qed.

  Lemma first_behind ind p s item rest out st' : i_align_first ind = true -> ~ In tab s -> s = item ++ rest ->
    indented_line (runs E refs r) (ind, true) p s (Yes (length item) out) st' -> read_behind (i_indent (fst st')) item.
  Proof.
    intros Ha Ht Hs H. inversion H; subst; cbn [fst snd] in *.
    - rewrite Ha in *. discriminate.
    - destruct v as [m o|]; [|discriminate]. match goal with Hx : after _ _ _ = _ |- _ => cbn in Hx; injection Hx as Hn Ho end.
      match goal with Hi : indentation _ _ _ _ |- _ => destruct (indentation_spaces _ _ _ _ Hi Ht) as (Hk & y & Hy) end. rewrite Hk in Hy.
      set (s := item ++ rest) in *.
      assert (Hsk : skipn k s = y) by (rewrite Hk; apply spaces_behind; exact Hy).
      rewrite Hsk in *.
      assert (Hty : ~ In tab y).
      { intros Hi'. apply Ht. rewrite Hy. apply in_or_app. right. exact Hi'. }
      match goal with Hl : longest blank _ _ |- _ => destruct (blanks_spaces _ _ Hl Hty) as (Hb & Hd) end.
      rewrite Hb in *. rewrite width_spaces in *. cbn [i_indent set_indent] in *.
      apply (behind _ (k + b) s item rest (p + k + b) (set_indent ind (i_indent ind + N.of_nat b + 1)) m o ind'); [exact Ht|reflexivity|symmetry; exact Hn| |rewrite Hk; lia|reflexivity|assumption].
      assert (Hkb : skipn (k + b) s = skipn b y) by (rewrite <- Hsk; symmetry; apply skipn_skipn_add).
      rewrite Hkb.
      rewrite Hy at 1. rewrite <- (firstn_skipn b y) at 1. rewrite Hb, app_assoc, <- repeat_app. f_equal. f_equal. lia.
  Qed.

  Lemma block_behind ind0 c prev st p s items v st' : block (indented_line (runs E refs r)) prev st p s items v st' ->
    settled ind0 c st -> ~ In tab s -> Forall (read_behind c) (map snd items).
  Proof.
    induction 1; intros Hs Ht; cbn; try constructor.
    - eapply settled_behind; [exact Hs|eapply no_tab_app_r; exact Ht|reflexivity|eassumption].
    - apply IHblock; [|eapply no_tab_app_r, no_tab_app_r; exact Ht].
      eapply settled_line; [exact Hs|eapply no_tab_app_r; exact Ht|eassumption].
  Qed.

  Theorem lines_deeper id ind p s v ind' : runs E refs (RLines r true id) ind p s v ind' -> ~ In tab s ->
    exists items fresh' c,
      block (indented_line (runs E refs r)) None (ind, true) p s items v (ind', fresh') /\
      (i_indent ind <= c)%N /\ Forall (at_column c) (map snd items) /\ Forall (read_behind c) (map snd items).
  Proof.
    intros H Ht. destruct (lines_columns E HE refs r id ind p s v ind' H Ht) as (items & fresh & c & Hb & Hc & Ha & Hcol & Hi).
    exists items, fresh, c. split; [exact Hb|]. split; [exact Hc|]. split; [exact Hcol|].
    destruct (i_align_first ind) eqn:Hal.
    - destruct items as [|[gap item] items]; [constructor|]. specialize (Hi ltac:(discriminate)).
      inversion Hb; subst.
      match goal with Hl : indented_line _ _ _ _ _ ?s1, Hx : block _ (Some item) ?s1 _ _ _ _ _ |- _ =>
        pose proof (first_behind _ _ _ _ _ _ _ Hal (no_tab_app_r _ _ Ht) eq_refl Hl) as Hf;
        destruct (first_line E refs r ind (ind, true) _ _ _ _ (conj eq_refl eq_refl) eq_refl eq_refl Hal (no_tab_app_r _ _ Ht) Hl)
          as [[_ Hv]|(c' & Hc' & Hs & _)]; [discriminate|];
        pose proof (block_settled E refs r ind _ _ _ _ _ _ _ _ Hx Hs (no_tab_app_r _ _ (no_tab_app_r _ _ Ht))) as [_ Hst];
        pose proof (block_behind ind _ _ _ _ _ _ _ _ Hx Hs (no_tab_app_r _ _ (no_tab_app_r _ _ Ht))) as Hrest
      end.
      destruct Hst as (_ & Hst & _). cbn [fst] in Hst. destruct Hs as (_ & Hs & _). rewrite Hst in *. rewrite Hs in Hf.
      constructor; assumption.
    - rewrite (Ha eq_refl) in *. eapply (block_behind ind); [exact Hb| |exact Ht].
      split; [split; reflexivity|]. split; [reflexivity|]. rewrite Hal. reflexivity.
  Qed.
End Deeper.

Lemma sequence_of_two E refs a b id ind p s n out ind' : runs E refs (RSequence [a; b] id) ind p s (Yes n out) ind' ->
  exists n1 out1 ind1 n2 out2, runs E refs a ind p s (Yes n1 out1) ind1 /\
    runs E refs b ind1 (p + n1) (skipn n1 s) (Yes n2 out2) ind' /\ n = n1 + n2.
Proof.
  intros H. apply runs_reads in H as (tr & H). inversion H; subst.
  match goal with HH : reads_seq _ _ _ _ _ _ _ _ _ |- _ => inversion HH; subst end.
  match goal with HH : after _ _ ?v = _ |- _ => destruct v as [m o|]; [|discriminate]; injection HH as <- <- end.
  match goal with HH : reads_seq _ _ [b] _ _ _ _ _ _ |- _ => inversion HH; subst end.
  match goal with HH : after _ _ ?v = _ |- _ => destruct v as [m' o'|]; [|discriminate]; injection HH as <- <- end.
  match goal with HH : reads_seq _ _ [] _ _ _ _ _ _ |- _ => inversion HH; subst end.
  do 5 eexists. split; [apply runs_reads; eexists; eassumption|]. split; [apply runs_reads; eexists; eassumption|]. lia.
Qed.

(** Items that end with a block of their own. *)
Theorem nested_deeper E (HE : ext_ok E) refs h r id0 id1 id ind p s v ind' :
  runs E refs (RLines (RSequence [h; RLines r true id0] id1) true id) ind p s v ind' -> ~ In tab s ->
  exists items fresh' c,
    block (indented_line (runs E refs (RSequence [h; RLines r true id0] id1))) None (ind, true) p s items v (ind', fresh') /\
    Forall (at_column c) (map snd items) /\
    Forall (fun item => exists x y inner gap c', item = repeat space (N.to_nat c) ++ x ++ y /\
      y = joined inner ++ gap /\ Forall white gap /\ (c < c')%N /\ Forall (at_column c') (map snd inner)) (map snd items).
Proof.
  intros H Ht. destruct (lines_deeper E HE refs _ id ind p s v ind' H Ht) as (items & fresh & c & Hb & _ & Hc & Hr).
  exists items, fresh, c. split; [exact Hb|]. split; [exact Hc|].
  rewrite Forall_forall in Hr |- *. intros item Hi. destruct (Hr item Hi) as (y & rest & q & ind1 & out & ind2 & He & Hi1 & Hty & Hrun).
  apply sequence_of_two in Hrun as (n1 & out1 & ind3 & n2 & out2 & H1 & H2 & Hn).
  pose proof (runs_grows E refs _ _ _ _ _ _ H1) as Hg.
  assert (Ht2 : ~ In tab (skipn n1 (y ++ rest))).
  { intros Hx. apply Hty. rewrite <- (firstn_skipn n1 (y ++ rest)). apply in_or_app. right. exact Hx. }
  destruct (lines_columns E HE refs r id0 _ _ _ _ _ H2 Ht2) as (inner & fresh2 & c' & Hb2 & Hc2 & _ & Hcol & _).
  apply block_pieces in Hb2 as (_ & gap & rest' & Hs & Hgap & Hn2 & _).
  exists (firstn n1 y), (skipn n1 y), inner, gap, c'. split; [rewrite firstn_skipn; exact He|].
  split; [|split; [exact Hgap|split; [lia|exact Hcol]]].
  rewrite skipn_app in Hs. replace (n1 - length y) with 0 in Hs by lia. change (skipn 0 rest) with rest in Hs.
  assert (Hlen : length (skipn n1 y) = length (joined inner ++ gap)) by (rewrite skipn_length; lia).
  rewrite app_assoc in Hs. apply (f_equal (firstn (length (skipn n1 y)))) in Hs.
  rewrite firstn_app, firstn_all, Nat.sub_diag in Hs. cbn [firstn] in Hs. rewrite app_nil_r in Hs. rewrite Hs, Hlen.
  rewrite firstn_app, firstn_all, Nat.sub_diag. cbn [firstn]. apply app_nil_r.
Qed.
