(** Lines of blocks, as seen by running the rule. *)
From Coq Require Import List NArith Bool Arith Lia.
From Verif Require Import Base Ext Types ParseModel PegSpec DataSpec PrimProofs PegProofs RuleSpec
  RuleProofs LinesProofs TabSpec TabProofs.
Import ListNotations.

Section Public.
  Variables (E : ext) (HE : ext_ok E) (refs : list rule) (r : rule).

  Theorem lines_pieces indented id ind p s v ind' :
    runs E refs (RLines r indented id) ind p s v ind' ->
    exists items fresh',
      block ((if indented then indented_line else plain_line) (runs E refs r))
        None (ind, true) p s items v (ind', fresh') /\
      broken None items /\
      match v with
      | Yes n out => exists gap rest, s = joined items ++ gap ++ rest /\ Forall white gap /\
          n = length (joined items ++ gap) /\
          (rest = [] \/ (~ Forall white rest /\ exists st1,
             (if indented then indented_line else plain_line) (runs E refs r)
               st1 (p + n) rest No (ind', fresh')))
      | No => exists x rest, s = joined items ++ rest /\
          last (map (fun i => Some (snd i)) items) None = Some x /\
          ~ ends_line x /\ same_line rest /\ ~ Forall white rest
      end.
  Proof.
    intros H. destruct indented;
      apply lines_spec in H as (items & fresh & H); trivial; exists items, fresh;
      (split; [exact H|exact (block_pieces _ _ _ _ _ _ _ _ H)]).
  Qed.

  Theorem lines_columns id ind p s v ind' :
    runs E refs (RLines r true id) ind p s v ind' -> ~ In tab s ->
    exists items fresh' c,
      block (indented_line (runs E refs r)) None (ind, true) p s items v (ind', fresh') /\
      (i_indent ind <= c)%N /\ (i_align_first ind = false -> c = i_indent ind) /\
      Forall (at_column c) (map snd items) /\ (items <> [] -> i_indent ind' = c).
  Proof.
    intros H Ht. apply lines_spec in H as (items & fresh & H); trivial.
    destruct (block_columns _ _ _ _ _ _ _ _ _ H Ht) as (c & Hc). exists items, fresh, c. split; [exact H|exact Hc].
  Qed.

  Theorem lines_tab_columns id ind p s v ind' :
    runs E refs (RLines r true id) ind p s v ind' ->
    exists items fresh',
      block (indented_line (runs E refs r)) None (ind, true) p s items v (ind', fresh') /\
      if i_align_first ind
      then items = [] \/
        exists gap item rest, items = (gap, item) :: rest /\
          first_line_at (i_tab_spaces ind) (i_indent ind) (i_indent ind') item /\
          Forall (line_at (i_tab_spaces ind) (i_indent ind')) (map snd rest)
      else i_indent ind' = i_indent ind /\
        Forall (line_at (i_tab_spaces ind) (i_indent ind)) (map snd items).
  Proof.
    intros H. apply lines_spec in H as (items & fresh & H); trivial. exists items, fresh. split; [exact H|].
    apply block_tab_columns in H. destruct (i_align_first ind); [|exact H].
    destruct H as [H|(c & gap & item & rest & H1 & H2 & H3)]; [auto|]. right. cbn in H2. subst c.
    exists gap, item, rest. auto.
  Qed.

  (** *** Reading whole blocks *)

  Lemma blank_white c : blank c -> white c.
  Proof. intros [-> | ->]; reflexivity. Qed.

  Lemma blank_newline c : blank c -> c <> newline.
  Proof. intros [-> | ->]; discriminate. Qed.

  Lemma blanks_longest b x : Forall blank b -> item_text x -> forall rest,
    longest white (b ++ x ++ rest) (length b).
  Proof.
    intros Hb ((c & y & -> & Hc) & _) rest. induction Hb as [|d b Hd Hb IH].
    - apply longest_0. exact Hc.
    - apply longest_S. split; [apply blank_white, Hd|exact IH].
  Qed.

  Lemma item_line b x rest : Forall blank b -> item_text x ->
    same_line (b ++ x ++ rest) /\ ~ Forall white (b ++ x ++ rest).
  Proof.
    intros Hb Hx. split.
    - exists (length b). split; [apply blanks_longest; assumption|]. rewrite firstn_length_app.
      intros Hi. rewrite Forall_forall in Hb. exact (blank_newline _ (Hb _ Hi) eq_refl).
    - intros Hw. apply Forall_app in Hw as [_ Hw]. apply Forall_app in Hw as [Hw _].
      destruct Hx as ((c & y & -> & Hc) & _). inversion Hw; subst. auto.
  Qed.

  Lemma item_blank x rest : item_text x -> no_blank_ahead (x ++ rest).
  Proof.
    intros ((c & y & -> & Hc) & _) d [= <-] Hd. apply Hc, blank_white, Hd.
  Qed.

  Lemma blanks_ends a x : Forall blank a -> item_text x -> ~ ends_line (a ++ x).
  Proof.
    intros Ha Hx (u & d & He & Hd). apply (proj2 Hx).
    assert (Hsplit : exists u', u = a ++ u').
    { clear -He Ha. revert u He. induction Ha as [|e b He' Hb IHb]; intros u He; [exists u; reflexivity|].
      destruct u as [|f u]; cbn in He; injection He as He1 He2.
      - exfalso. exact (blank_newline _ He' He1).
      - subst f. destruct (IHb u He2) as (u' & ->). exists u'. reflexivity. }
    destruct Hsplit as (u' & ->). rewrite <- app_assoc in He. apply app_inv_head in He. exists u', d. auto.
  Qed.

  Lemma more_lines_ahead lines tl : tl = [] \/ hd_error tl = Some newline ->
    more_lines lines ++ tl = [] \/ hd_error (more_lines lines ++ tl) = Some newline.
  Proof. destruct lines as [|l lines]; [exact (fun H => H)|right; reflexivity]. Qed.

  Lemma line_reads ind c p b x rest : i_indent ind = c -> (c < u32_max)%N ->
    reaches (i_tab_spaces ind) c b -> item_text x -> reads_item E refs r ind c x ->
    rest = [] \/ hd_error rest = Some newline ->
    exists out, indented_line (runs E refs r) (ind, false) p (b ++ x ++ rest)
      (Yes (length (b ++ x)) out) (ind, false).
  Proof.
    intros Hi Hc Hb Hx Hr Ht. destruct (Hr (p + length b) rest Ht) as (out & ind' & Ho). exists out.
    apply settled_line_iff; [reflexivity|lia|apply Hb|apply item_blank, Hx|]. right.
    exists b, []. rewrite app_nil_r. rewrite Hi. split; [reflexivity|]. split; [exact Hb|].
    right. split; [discriminate|]. exists (Yes (length x) out), ind'. split; [exact Ho|].
    split; [rewrite app_length; reflexivity|]. apply runs_mode in Ho as [H1 H2].
    destruct ind, ind'. cbn in *. subst. reflexivity.
  Qed.

  Lemma more_block ind c tl n : i_indent ind = c -> (c < u32_max)%N ->
    tl = [] \/ hd_error tl = Some newline ->
    (forall x p, ~ ends_line x ->
       block (indented_line (runs E refs r)) (Some x) (ind, false) p tl [] (Yes n []) (ind, false)) ->
    forall lines p x, ~ ends_line x ->
    Forall (fun l => reaches (i_tab_spaces ind) c (fst l) /\ item_text (snd l) /\
                     reads_item E refs r ind c (snd l)) lines ->
    exists out, block (indented_line (runs E refs r)) (Some x) (ind, false) p (more_lines lines ++ tl)
      (map (fun l => ([newline], fst l ++ snd l)) lines)
      (Yes (length (more_lines lines) + n) out) (ind, false).
  Proof.
    intros Hi Hc Htl Hend. induction lines as [|[b y] lines IH]; intros p x Hx HF.
    - exists []. apply Hend, Hx.
    - inversion HF as [|? ? (Hb & Hy & Hr) HF']; subst. cbn [fst snd] in *.
      destruct (IH (p + 1 + length (b ++ y)) (b ++ y)) as (out & Hbl); [|exact HF'|].
      { apply blanks_ends; [apply Hb|exact Hy]. }
      destruct (line_reads ind _ (p + 1) b y (more_lines lines ++ tl) eq_refl Hc Hb Hy Hr (more_lines_ahead _ _ Htl)) as (o & Ho).
      exists (o ++ out).
      unfold more_lines. cbn [map concat fst snd]. fold (more_lines lines).
      replace (((newline :: b ++ y) ++ more_lines lines) ++ tl) with ([newline] ++ (b ++ y) ++ (more_lines lines ++ tl))
        by (cbn; rewrite <- !app_assoc; reflexivity).
      replace (Yes (length ((newline :: b ++ y) ++ more_lines lines) + n) (o ++ out))
        with (after (length [newline] + length (b ++ y)) o (Yes (length (more_lines lines) + n) out)).
      2:{ cbn [after length app]. rewrite !app_length. f_equal. lia. }
      eapply block_item; [|rewrite <- app_assoc; exact Ho|exact Hbl].
      rewrite <- (app_nil_l [newline]). rewrite <- app_assoc.
      destruct (item_line b y (more_lines lines ++ tl) (proj1 Hb) Hy).
      apply gap_break; [constructor|assumption|assumption].
  Qed.

  (** A block is read to its end, if its lines are at its column. *)
  Theorem block_reads id ind p c a x lines :
    i_align_first ind = true -> (c < u32_max)%N ->
    Forall blank a -> first_line_at (i_tab_spaces ind) (i_indent ind) c (a ++ x) ->
    item_text x -> reads_item E refs r ind c x ->
    Forall (fun l => reaches (i_tab_spaces ind) c (fst l) /\ item_text (snd l) /\
                     reads_item E refs r ind c (snd l)) lines ->
    let block := a ++ x ++ more_lines lines in
    (exists out, runs E refs (RLines r true id) ind p block (Yes (length block) out) (set_indent ind c)) /\
    (forall b y, Forall blank b -> item_text y -> not_at (i_tab_spaces ind) c b ->
     exists out, runs E refs (RLines r true id) ind p (block ++ newline :: b ++ y)
       (Yes (length block + 1) out) (set_indent ind c)).
  Proof.
    intros Hal Hc Ha Hf Hx Hr HF block0.
    assert (Hmain : forall tl n, tl = [] \/ hd_error tl = Some newline ->
      (forall x p, ~ ends_line x -> block (indented_line (runs E refs r)) (Some x) (set_indent ind c, false) p tl [] (Yes n [])
        (set_indent ind c, false)) ->
      exists out, runs E refs (RLines r true id) ind p (block0 ++ tl) (Yes (length block0 + n) out) (set_indent ind c)).
    { intros tl n Htl Hend.
      assert (Hax : ~ ends_line (a ++ x)) by (apply blanks_ends; assumption).
      destruct (more_block (set_indent ind c) c tl n eq_refl Hc Htl Hend lines (p + 0 + length (a ++ x)) (a ++ x) Hax) as (out & Hb).
      { eapply Forall_impl; [|exact HF]. intros l (H1 & H2 & H3). split; [exact H1|]. split; [exact H2|exact H3]. }
      destruct (Hr (p + 0 + length a) (more_lines lines ++ tl) (more_lines_ahead _ _ Htl)) as (o & ind' & Ho).
      exists (o ++ out). apply lines_spec; [exact HE|]. exists (([], a ++ x) :: map (fun l => ([newline], fst l ++ snd l)) lines), false.
      replace (block0 ++ tl) with ([] ++ (a ++ x) ++ (more_lines lines ++ tl))
        by (unfold block0; rewrite <- !app_assoc; reflexivity).
      replace (Yes (length block0 + n) (o ++ out)) with
        (after (length (@nil char) + length (a ++ x)) o (Yes (length (more_lines lines) + n) out)).
      2:{ cbn [after length]. unfold block0. rewrite !app_length. f_equal. lia. }
      destruct (item_line a x (more_lines lines ++ tl) Ha Hx) as [Hs1 Hs2].
      eapply block_item; [apply gap_none; [discriminate|rewrite <- app_assoc; assumption..]| |exact Hb].
      destruct Hf as (a1 & a2 & y & He & Hre & Hb2 & Hy & Hcol).
      assert (Hq : a = a1 ++ a2).
      { assert (Hab : Forall blank (a1 ++ a2)) by (apply Forall_app; split; [apply Hre|exact Hb2]).
        rewrite app_assoc in He.
        assert (Hxx : no_blank_ahead x) by (rewrite <- (app_nil_r x); apply item_blank, Hx).
        destruct (blanks_split a x (a1 ++ a2) y Ha Hxx He Hab) as (d & Hd & Hyd).
        destruct d as [|e d]; [rewrite app_nil_r in Hd; exact Hd|]. exfalso. rewrite Hyd in Hy. apply (Hy e eq_refl).
        rewrite Hd in Ha. apply Forall_app in Ha as [_ Ha]. inversion Ha; assumption. }
      rewrite <- app_assoc. cbn [length]. 
      assert (Hu : (i_indent ind + width (i_tab_spaces ind) a2 < u32_max)%N) by lia.
      clear Hb Hend.
      replace (Yes (length (a ++ x)) o) with (after (length a1 + length a2) [] (Yes (length x) o)).
      2:{ cbn [after app]. f_equal. rewrite Hq, !app_length. lia. }
      replace (set_indent ind c) with (set_indent ind' c).
      2:{ apply runs_mode in Ho as [H1 H2]. destruct ind, ind'. cbn in *. subst. reflexivity. }
      assert (Hsk : skipn (length a1) (a ++ x ++ more_lines lines ++ tl) = a2 ++ x ++ more_lines lines ++ tl).
      { rewrite Hq, <- app_assoc. apply skipn_past. }
      apply indented_first.
      - exact Hal.
      - apply indentation_reaches. exists a1, (a2 ++ x ++ more_lines lines ++ tl). rewrite Hq, <- app_assoc. auto.
      - rewrite Hsk. clear -Hb2 Hx. induction Hb2 as [|d b Hd Hb IH].
        + destruct Hx as ((ch & y & -> & Hch) & _). apply longest_0. intros H. apply Hch, blank_white, H.
        + apply longest_S. split; assumption.
      - rewrite Hsk, firstn_length_app. exact Hcol.
      - exact Hc.
      - replace (skipn (length a1 + length a2) (a ++ x ++ more_lines lines ++ tl)) with (x ++ more_lines lines ++ tl).
        2:{ rewrite Hq, <- app_length. symmetry. apply skipn_past. }
        replace (p + 0 + length a1 + length a2) with (p + 0 + length a) by (rewrite Hq, app_length; lia).
        exact Ho. }
    split.
    - destruct (Hmain [] 0) as (out & Ho); [auto| |].
      + intros x0 p0 _. apply (block_end _ (Some x0) _ p0 []). constructor.
      + exists out. rewrite app_nil_r, Nat.add_0_r in Ho. exact Ho.
    - intros b y Hb Hy Hn. apply Hmain; [right; reflexivity|].
      intros x0 p0 _. change (newline :: b ++ y) with ([newline] ++ b ++ y).
      apply block_stop with (gap := [newline]).
      + destruct (item_line b y [] Hb Hy) as [H1 H2]. rewrite app_nil_r in H1, H2.
        rewrite <- (app_nil_l [newline]). apply gap_break; [constructor|exact H1|exact H2].
      + apply settled_line_iff; [reflexivity|exact Hc|exact Hb|rewrite <- (app_nil_r y); apply item_blank, Hy|].
        cbn [set_indent i_indent i_tab_spaces]. destruct Hn as [Hn|(b1 & b2 & H1 & H2 & H3)]; [auto|].
        right. exists b1, b2. split; [exact H1|]. split; [exact H2|]. left. auto.
  Qed.

  (** Lines that are indented alike are read by the same block. *)
  Theorem alike_reads id ind p a x lines :
    (0 < i_tab_spaces ind)%N -> i_align_first ind = true ->
    (i_indent ind <= width (i_tab_spaces ind) a)%N ->
    (i_indent ind + width (i_tab_spaces ind) a < u32_max)%N ->
    Forall blank a -> clean (i_tab_spaces ind) (i_indent ind) a ->
    exists c, (i_indent ind <= c <= width (i_tab_spaces ind) a)%N /\
    (Forall (fun y => item_text y /\ reads_item E refs r ind c y) (x :: lines) ->
     let block := a ++ x ++ more_lines (map (fun y => (a, y)) lines) in
     exists out, runs E refs (RLines r true id) ind p block (Yes (length block) out) (set_indent ind c)).
  Proof.
    intros HT Hal Hw Hu Ha Hcl. set (T := i_tab_spaces ind) in *. set (o := i_indent ind) in *.
    destruct (reaches_exists T a Ha o Hw) as (a1 & a2 & Hq & Hr).
    exists (o + width T a2)%N.
    assert (Hwa : (width T a = width T a1 + width T a2)%N) by (rewrite Hq; apply width_app).
    assert (Hb2 : Forall blank a2) by (rewrite Hq in Ha; apply Forall_app in Ha as [_ Ha]; exact Ha).
    split; [destruct Hr as (_ & Hr & _); lia|]. intros HF. inversion HF as [|? ? [Hx Hrx] HF']; subst x0 l.
    apply block_reads; try assumption.
    - subst T o. lia.
    - exists a1, a2, x. rewrite app_assoc, <- Hq. split; [reflexivity|]. split; [exact Hr|]. split; [exact Hb2|].
      split; [rewrite <- (app_nil_r x); apply item_blank, Hx|reflexivity].
    - apply Forall_forall. intros l Hl. apply in_map_iff in Hl as (y & <- & Hy). cbn [fst snd].
      rewrite Forall_forall in HF'. destruct (HF' y Hy) as [H1 H2]. split; [|split; assumption].
      rewrite Hq. apply clean_reaches; [exact HT|rewrite <- Hq; exact Ha|exact Hr|rewrite <- Hq; exact Hcl].
  Qed.

  (** A line that is no wider than the column of a block is not taken by blocks inside. *)
  Theorem lines_not_swallowed id ind p g a y v ind' c :
    (c < i_indent ind)%N -> Forall white g -> Forall blank a -> item_text y ->
    (width (i_tab_spaces ind) a <= c)%N ->
    runs E refs (RLines r true id) ind p (g ++ [newline] ++ a ++ y) v ind' ->
    v = Yes (length g + 1) [] /\ ind' = ind.
  Proof.
    intros Hc Hg Ha Hy Hw H.
    assert (H' : runs E refs (RLines r true id) ind p (g ++ [newline] ++ a ++ y) (Yes (length g + 1) []) ind).
    { apply lines_spec; [exact HE|]. exists [], true. rewrite app_assoc.
      replace (length g + 1) with (length (g ++ [newline])) by (rewrite app_length; reflexivity).
      destruct (item_line a y [] Ha Hy) as [H1 H2]. rewrite app_nil_r in H1, H2.
      apply block_stop; [apply gap_break; assumption|]. apply indented_short.
      intros k Hk. apply indentation_reaches in Hk as (a1 & z & He & _ & Hr).
      assert (Hyy : no_blank_ahead y) by (rewrite <- (app_nil_r y); apply item_blank, Hy).
      destruct (blanks_split a y a1 z Ha Hyy He (proj1 Hr)) as (a2 & -> & _).
      destruct Hr as (_ & Hr & _). rewrite width_app in Hw. lia. }
    destruct (runs_deterministic _ _ _ _ _ _ _ _ _ _ H H') as [-> ->]. auto.
  Qed.
End Public.
