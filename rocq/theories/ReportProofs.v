(** The error report. *)
From Coq Require Import Ascii String List NArith Bool Arith Lia.
From Verif Require Import Base Ext Types ParseModel PegSpec PrimProofs HandlerModel LibModel ApiSpec
  ReportSpec.
Import ListNotations.
Local Open Scope list_scope.
Local Open Scope nat_scope.

(** ** It never panics *)

Lemma report_loop_done lines rg : forall i printed out,
  exists res, report_loop lines rg i printed out = Done res /\ exists more, res = out ++ more.
Proof.
  induction lines as [|[r text] lines IH]; intros i printed out.
  - exists out. split; [reflexivity|]. exists []. rewrite app_nil_r. reflexivity.
  - cbn [report_loop]. unfold ends_intersect.
    destruct (Nat.leb_spec (Nat.max (r_off rg) (r_off r)) (Nat.min (next_offset rg) (next_offset r)))
      as [Hle|_]; [|apply IH]. cbn [r_off].
    destruct (Nat.ltb_spec (Nat.max (r_off rg) (r_off r)) (r_off r)) as [H|_]; [lia|].
    set (j := Nat.max (r_off rg) (r_off r) - r_off r).
    set (s := if 75 <? j then j - 50 else 0).
    assert (Hj : j <= r_len r) by (unfold j, next_offset in *; lia).
    assert (Hs : s <= r_len r) by (unfold s; destruct (75 <? j); lia).
    destruct (Nat.ltb_spec (Nat.min (s + 100) (r_len r)) s) as [H|_]; [lia|].
    destruct printed;
      match goal with |- context [report_loop _ _ _ _ (out ++ ?x)] =>
        destruct (IH (S i) true (out ++ x)) as (res & H1 & more & H2) | _ => idtac end.
    + exists res. split; [exact H1|]. subst res. rewrite <- app_assoc. eauto.
    + match goal with |- context [report_loop _ _ _ _ ?x] =>
        destruct (IH (S i) true x) as (res & H1 & more & H2) end.
      exists res. split; [exact H1|]. subst res. rewrite <- !app_assoc. eauto.
Qed.

Lemma report_returns E text e : exists more,
  error_report E text e = Done (s2l "Error " ++ fmt_error E (snd e) ++ [newline] ++ more).
Proof.
  destruct e as [rg e]. unfold error_report, handler_write. cbn [snd].
  match goal with |- context [report_loop _ _ _ _ ?x] =>
    destruct (report_loop_done (handler_new text) rg 0 false x) as (res & H1 & more & H2) end.
  rewrite H1. subst res.
  destruct e; try (exists more; rewrite <- !app_assoc; reflexivity).
  destruct (first_line _ _ _); eexists; rewrite <- !app_assoc; reflexivity.
Qed.

Lemma write_msg_returns lines rg msg : exists more,
  handler_write_msg lines rg msg = Done (msg ++ [newline] ++ more).
Proof.
  unfold handler_write_msg.
  destruct (report_loop_done lines rg 0 false (msg ++ [newline])) as (res & H1 & more & H2).
  exists more. rewrite H1, H2, <- app_assoc. reflexivity.
Qed.

(** ** Lines *)

Definition with_breaks (ls : list str) : str := flat_map (fun l => l ++ [newline]) ls.

Lemma split_lines_line l : ~ In newline l -> split_lines l = [l].
Proof.
  induction l as [|c l IH]; intros H; [reflexivity|]. cbn [split_lines].
  destruct (N.eqb_spec c newline) as [->|_]; [exfalso; apply H; left; reflexivity|].
  rewrite IH; [reflexivity|]. intros Hc. apply H. right. exact Hc.
Qed.

Lemma split_lines_break l s : ~ In newline l ->
  split_lines (l ++ newline :: s) = l :: split_lines s.
Proof.
  induction l as [|c l IH]; intros H; [reflexivity|]. cbn [split_lines app].
  destruct (N.eqb_spec c newline) as [->|_]; [exfalso; apply H; left; reflexivity|].
  rewrite IH; [reflexivity|]. intros Hc. apply H. right. exact Hc.
Qed.

Lemma split_lines_prefix ls s : Forall (fun l => ~ In newline l) ls ->
  split_lines (with_breaks ls ++ s) = ls ++ split_lines s.
Proof.
  induction 1 as [|l ls Hl H IH]; [reflexivity|]. cbn [with_breaks flat_map app].
  fold (with_breaks ls). rewrite <- !app_assoc. cbn [app].
  rewrite split_lines_break by exact Hl. rewrite IH. reflexivity.
Qed.

Lemma prefix_lines prefix : prefix = [] \/ (exists p, prefix = p ++ [newline]) ->
  exists ls, prefix = with_breaks ls /\ Forall (fun l => ~ In newline l) ls.
Proof.
  intros [->|(p & ->)]; [exists []; split; [reflexivity|constructor]|].
  enough (exists ls, p ++ [newline] = with_breaks ls /\ Forall (fun l => ~ In newline l) ls) by assumption.
  induction p as [|c p (ls & He & Hl)].
  - exists [[]]. split; [reflexivity|]. repeat constructor. intros [].
  - destruct (N.eqb_spec c newline) as [->|Hc].
    + exists ([] :: ls). cbn [app with_breaks flat_map]. fold (with_breaks ls). rewrite <- He.
      split; [reflexivity|]. constructor; [intros []|exact Hl].
    + destruct ls as [|l ls]; [destruct p; discriminate|].
      exists ((c :: l) :: ls). cbn [app with_breaks flat_map] in *. rewrite He.
      split; [reflexivity|]. inversion Hl as [|? ? H1 H2]; subst.
      constructor; [|exact H2]. intros [->|H]; contradiction.
Qed.

Lemma line_breaks_app a b : line_breaks (a ++ b) = line_breaks a + line_breaks b.
Proof. induction a as [|c a IH]; simpl; [reflexivity|]. rewrite IH. destruct (N.eqb c newline); reflexivity. Qed.

Lemma line_breaks_none l : ~ In newline l -> line_breaks l = 0.
Proof.
  induction l as [|c l IH]; intros H; [reflexivity|]. simpl.
  destruct (N.eqb_spec c newline) as [->|_]; [exfalso; apply H; left; reflexivity|].
  apply IH. intros Hc. apply H. right. exact Hc.
Qed.

Lemma line_breaks_lines ls : Forall (fun l => ~ In newline l) ls ->
  line_breaks (with_breaks ls) = length ls.
Proof.
  induction 1 as [|l ls Hl H IH]; [reflexivity|]. cbn [with_breaks flat_map]. fold (with_breaks ls).
  rewrite !line_breaks_app, IH, (line_breaks_none _ Hl). reflexivity.
Qed.

Lemma byte_len_app a b : byte_len (a ++ b) = byte_len a + byte_len b.
Proof. induction a as [|c a IH]; simpl; [reflexivity|]. rewrite IH. lia. Qed.

Lemma byte_len_ge s : length s <= byte_len s.
Proof.
  induction s as [|c s IH]; simpl; [lia|].
  assert (1 <= utf8_len c) by (unfold utf8_len; repeat destruct (_ <? _)%N; lia). lia.
Qed.

Lemma byte_len_ascii s : Forall ascii s -> byte_len s = length s.
Proof.
  induction 1 as [|c s Hc H IH]; [reflexivity|]. simpl. rewrite IH. unfold utf8_len, ascii in *.
  destruct (N.ltb_spec c 128); [reflexivity|lia].
Qed.

Lemma number_lines_app ls ls' : forall start,
  number_lines start (ls ++ ls')
  = number_lines start ls ++ number_lines (start + byte_len (with_breaks ls)) ls'.
Proof.
  induction ls as [|l ls IH]; intros start.
  - cbn. rewrite Nat.add_0_r. reflexivity.
  - cbn [app number_lines with_breaks flat_map]. fold (with_breaks ls). rewrite IH. cbn [app].
    rewrite !byte_len_app. cbn [byte_len]. change (utf8_len newline) with 1. do 3 f_equal. lia.
Qed.

Lemma number_lines_length ls : forall start, length (number_lines start ls) = length ls.
Proof. induction ls as [|l ls IH]; intros start; [reflexivity|]. cbn. rewrite IH. reflexivity. Qed.

Lemma number_lines_texts ls : forall start, map snd (number_lines start ls) = ls.
Proof. induction ls as [|l ls IH]; intros start; [reflexivity|]. cbn. rewrite IH. reflexivity. Qed.

(** ** The lines in front *)

Lemma before_range l start o n : start + byte_len l < o ->
  ends_intersect (Rng o n) (Rng start (byte_len l)) = None.
Proof.
  intros H. unfold ends_intersect, next_offset. cbn [r_off r_len].
  destruct (Nat.leb_spec (Nat.max o start) (Nat.min (o + n) (start + byte_len l))); [lia|reflexivity].
Qed.

Lemma report_skip ls rest rg printed out : forall start i,
  start + byte_len (with_breaks ls) <= r_off rg ->
  report_loop (number_lines start ls ++ rest) rg i printed out
  = report_loop rest rg (i + length ls) printed out.
Proof.
  destruct rg as [o n]. cbn [r_off].
  induction ls as [|l ls IH]; intros start i H.
  - cbn. rewrite Nat.add_0_r. reflexivity.
  - cbn [with_breaks flat_map] in H. fold (with_breaks ls) in H. rewrite !byte_len_app in H.
    cbn [byte_len] in H. change (utf8_len newline) with 1 in H.
    cbn [number_lines app report_loop]. rewrite before_range by lia.
    rewrite IH by lia. cbn [length]. f_equal. lia.
Qed.

Lemma first_line_skip ls rest rg : forall start i,
  start + byte_len (with_breaks ls) <= r_off rg ->
  first_line (number_lines start ls ++ rest) rg i = first_line rest rg (i + length ls).
Proof.
  destruct rg as [o n]. cbn [r_off].
  induction ls as [|l ls IH]; intros start i H.
  - cbn. rewrite Nat.add_0_r. reflexivity.
  - cbn [with_breaks flat_map] in H. fold (with_breaks ls) in H. rewrite !byte_len_app in H.
    cbn [byte_len] in H. change (utf8_len newline) with 1 in H.
    cbn [number_lines app first_line]. rewrite before_range by lia.
    rewrite IH by lia. cbn [length]. f_equal. lia.
Qed.

Lemma forallb_white l : forallb is_ws l = true <-> Forall white l.
Proof. unfold white. rewrite forallb_forall, Forall_forall. reflexivity. Qed.

Lemma prev_line_spec lines : lines <> [] -> forall prev,
  exists a x blank, lines = a ++ x :: blank /\ prev_line (rev lines) (length lines) prev = length a /\
    Forall (fun l => Forall white (snd l)) blank /\ (a = [] \/ ~ Forall white (snd x)).
Proof.
  induction lines as [|t lines IH] using rev_ind; [contradiction|]. intros _ prev.
  rewrite rev_app_distr, app_length. cbn [rev app length]. rewrite Nat.add_1_r.
  destruct t as [r text]. cbn [prev_line]. rewrite Nat.sub_succ, Nat.sub_0_r.
  destruct (forallb is_ws text) eqn:Hw.
  - destruct lines as [|t0 lines].
    + exists [], (r, text), []. cbn. repeat split; [constructor|left; reflexivity].
    + destruct (IH ltac:(discriminate) (length (t0 :: lines))) as (a & x & blank & He & Hp & Hb & Hx).
      exists a, x, (blank ++ [(r, text)]). rewrite He at 1. rewrite <- app_assoc.
      split; [reflexivity|]. split; [exact Hp|]. split; [|exact Hx].
      apply Forall_app. split; [exact Hb|]. constructor; [|constructor]. apply forallb_white. exact Hw.
  - exists lines, (r, text), []. split; [reflexivity|]. split; [reflexivity|]. split; [constructor|].
    right. cbn [snd]. rewrite <- forallb_white, Hw. discriminate.
Qed.

Lemma print_lines_numbered lines : forall i, print_lines lines i = numbered i (map snd lines).
Proof. induction lines as [|[r t] lines IH]; intros i; [reflexivity|]. cbn. rewrite IH. reflexivity. Qed.

Lemma shown_spec e ls rest n :
  Forall (fun l => ~ In newline l) ls -> n = length ls ->
  exists before, shown_before e (with_breaks ls) before /\
    forall out,
    match e with
    | ExpectedTag _ _ =>
      let lines := number_lines 0 ls ++ rest in
      out ++ print_lines (skipn (prev_line (rev (firstn n lines)) n 0) (firstn n lines))
               (prev_line (rev (firstn n lines)) n 0)
    | _ => out
    end = out ++ before.
Proof.
  intros Hls Hn.
  assert (Hcase : (exists t id, e = ExpectedTag t id) \/ (forall t id, e <> ExpectedTag t id)).
  { destruct e; try (right; intros ? ?; discriminate). left. eauto. }
  destruct Hcase as [(t & id & ->)|He].
  2:{ exists []. split; [apply shown_nothing; exact He|]. intros out. rewrite app_nil_r.
      destruct e; try reflexivity; exfalso; eapply He; reflexivity. }
  assert (Hf : firstn n (number_lines 0 ls ++ rest) = number_lines 0 ls).
  { subst n. rewrite <- (number_lines_length ls 0) at 1.
    rewrite firstn_app, Nat.sub_diag, firstn_all. cbn. apply app_nil_r. }
  cbv zeta. rewrite Hf. clear Hf.
  destruct ls as [|l ls].
  { exists []. split; [apply shown_first_line|]. intros out. subst n. reflexivity. }
  destruct (prev_line_spec (number_lines 0 (l :: ls)) ltac:(discriminate) 0)
    as (a & x & blank & Ha & Hp & Hb & Hx).
  rewrite number_lines_length in Hp. rewrite <- Hn in Hp at 1. rewrite Hp.
  assert (Hmap : l :: ls = map snd a ++ snd x :: map snd blank).
  { rewrite <- (number_lines_texts (l :: ls) 0), Ha, map_app. reflexivity. }
  exists (numbered (length a) (snd x :: map snd blank)). split.
  - rewrite Hmap at 1. rewrite <- (map_length snd a). apply shown_lines.
    + rewrite Hmap in Hls. exact Hls.
    + apply Forall_map. exact Hb.
    + destruct Hx as [->|Hx]; [left; reflexivity|right; exact Hx].
  - intros out. rewrite Ha, skipn_app, skipn_all, Nat.sub_diag. cbn [app skipn].
    rewrite print_lines_numbered. reflexivity.
Qed.

(** ** The lines behind *)

Lemma excerpt_model line col L : length line <= L ->
  firstn (Nat.min (window_start col + 100) L - window_start col) (skipn (window_start col) line)
  = excerpt col line.
Proof.
  intros H. unfold excerpt.
  destruct (Nat.le_gt_cases (window_start col + 100) L) as [H1|H1].
  - rewrite Nat.min_l by exact H1. f_equal. lia.
  - rewrite Nat.min_r by lia. rewrite !firstn_all2; [reflexivity| |]; rewrite skipn_length; lia.
Qed.

Lemma report_behind lines rg printed out : forall i start,
  next_offset rg < start ->
  report_loop (number_lines start lines) rg i printed out = Done out.
Proof.
  induction lines as [|l lines IH]; intros i start H; [reflexivity|].
  cbn [number_lines report_loop]. unfold ends_intersect. cbn [r_off].
  unfold next_offset in *. cbn [r_off r_len].
  destruct (Nat.leb_spec (Nat.max (r_off rg) start)
    (Nat.min (r_off rg + r_len rg) (start + byte_len l))); [lia|]. apply IH. lia.
Qed.

Lemma split_first s : exists l rest, ~ In newline l /\ s = l ++ rest /\
  (rest = [] \/ exists q, rest = newline :: q).
Proof.
  induction s as [|c s (l & rest & Hl & -> & Hr)].
  - exists [], []. repeat split; [intros []|left; reflexivity].
  - destruct (N.eqb_spec c newline) as [->|Hc].
    + exists [], (newline :: l ++ rest). repeat split; [intros []|right; eauto].
    + exists (c :: l), rest. repeat split; [|exact Hr]. intros [->|H]; contradiction.
Qed.

Definition rest_lines (start : nat) (suffix : str) : list (range * str) :=
  match suffix with [] => [] | _ :: q => number_lines start (split_lines q) end.

Lemma number_lines_split start l rest : ~ In newline l ->
  rest = [] \/ (exists q, rest = newline :: q) ->
  number_lines start (split_lines (l ++ rest))
  = (Rng start (byte_len l), l) :: rest_lines (start + byte_len l + 1) rest.
Proof.
  intros Hl [->|(q & ->)].
  - rewrite app_nil_r, split_lines_line by exact Hl. reflexivity.
  - rewrite split_lines_break by exact Hl. cbn [number_lines rest_lines]. do 2 f_equal. lia.
Qed.

Lemma position_eq i j :
  fmt_nat (i + 1) ++ s2l "," ++ fmt_nat (j + 1) ++ s2l ": " = position i j.
Proof. reflexivity. Qed.

(** The report of one line, when the range starts at column [j] of the line or in front. *)
Lemma report_line o L l rest rg i printed out :
  byte_len l = L -> r_off rg <= o + L -> o <= next_offset rg ->
  report_loop ((Rng o L, l) :: rest) rg i printed out
  = let j := r_off rg - o in
    report_loop rest rg (S i) true
      (if printed then out ++ position i j ++ excerpt j l ++ [newline]
       else (out ++ position i j ++ excerpt j l ++ [newline]) ++
            position i j ++ padding j l ++ s2l "^" ++ [newline]).
Proof.
  intros HL H1 H2. cbn [report_loop]. unfold ends_intersect, next_offset in *. cbn [r_off r_len].
  destruct (Nat.leb_spec (Nat.max (r_off rg) o) (Nat.min (r_off rg + r_len rg) (o + L))) as [_|H]; [|lia].
  cbn [r_off r_len].
  destruct (Nat.ltb_spec (Nat.max (r_off rg) o) o) as [H|_]; [lia|].
  replace (Nat.max (r_off rg) o - o) with (r_off rg - o) by lia.
  set (j := r_off rg - o). cbv zeta.
  replace (if 75 <? j then j - 50 else 0) with (window_start j)
    by (unfold window_start; destruct (Nat.ltb_spec 75 j), (Nat.leb_spec j 75); lia).
  assert (Hj : j <= L) by lia.
  assert (Hs : window_start j <= L) by (unfold window_start; destruct (j <=? 75); lia).
  destruct (Nat.ltb_spec (Nat.min (window_start j + 100) L) (window_start j)) as [H|_]; [lia|].
  rewrite excerpt_model by (subst L; apply byte_len_ge).
  rewrite !position_eq. destruct printed; reflexivity.
Qed.

Lemma report_following rg : forall k suffix n p out, length suffix <= k ->
  r_off rg <= p ->
  suffix = [] \/ (exists q, suffix = newline :: q) ->
  exists behind, following byte_len (next_offset rg) n p suffix behind /\
    report_loop (rest_lines (p + 1) suffix) rg n true out = Done (out ++ behind).
Proof.
  induction k as [|k IH]; intros suffix n p out Hk Hp [->|(q & ->)].
  1,3: exists []; split; [apply following_none|rewrite app_nil_r; reflexivity].
  - cbn in Hk. lia.
  - destruct (Nat.le_gt_cases (p + 1) (next_offset rg)) as [Hle|Hgt].
    + destruct (split_first q) as (l & rest & Hl & -> & Hr). cbn [rest_lines].
      rewrite (number_lines_split _ _ _ Hl Hr).
      rewrite report_line by (try reflexivity; lia).
      replace (r_off rg - (p + 1)) with 0 by lia. cbv zeta.
      destruct (IH rest (S n) (p + 1 + byte_len l) (out ++ position n 0 ++ excerpt 0 l ++ [newline]))
        as (behind & Hb & Hd); [|lia|exact Hr|].
      * cbn in Hk. rewrite app_length in Hk. lia.
      * exists (position n 0 ++ excerpt 0 l ++ [newline] ++ behind). split.
        -- apply following_line; assumption.
        -- rewrite Hd. rewrite <- !app_assoc. reflexivity.
    + exists []. split; [apply following_behind; lia|]. cbn [rest_lines].
      rewrite report_behind by lia. rewrite app_nil_r. reflexivity.
Qed.

(** ** The report *)

Lemma report_points E text prefix line suffix e :
  line_of text prefix line suffix ->
  byte_len prefix <= r_off (fst e) <= byte_len prefix + byte_len line ->
  exists out, error_report E text e = Done out /\
    points_at E byte_len e prefix line suffix out.
Proof.
  intros [-> Hp Hl Hs] Ho. destruct e as [rg e]. cbn [fst snd] in *.
  destruct (prefix_lines prefix Hp) as (ls & -> & Hls).
  unfold error_report, handler_new, handler_write. cbn [fst snd].
  rewrite split_lines_prefix by exact Hls. rewrite number_lines_app. cbn [Nat.add].
  rewrite (number_lines_split _ _ _ Hl Hs).
  match goal with |- context [number_lines 0 ls ++ ?r] => set (rest := r) end.
  assert (Hfirst : first_line (number_lines 0 ls ++ rest) rg 0 = Some (length ls)).
  { rewrite first_line_skip by (cbn; lia). unfold rest. cbn [first_line]. unfold ends_intersect.
    unfold next_offset. cbn [r_off r_len].
    destruct (Nat.leb_spec (Nat.max (r_off rg) (byte_len (with_breaks ls)))
      (Nat.min (r_off rg + r_len rg) (byte_len (with_breaks ls) + byte_len line))); [reflexivity|lia]. }
  rewrite Hfirst.
  destruct (shown_spec e ls rest (length ls) Hls eq_refl) as (before & Hb & Heq). cbv zeta in *.
  rewrite Heq. rewrite report_skip by (cbn; lia). unfold rest.
  rewrite report_line by (try reflexivity; unfold next_offset; lia). cbv zeta.
  match goal with |- context [report_loop _ _ _ _ ?o] =>
    destruct (report_following rg (length suffix) suffix (S (0 + length ls))
      (byte_len (with_breaks ls) + byte_len line) o) as (behind & Hf & Hd) end; [lia|lia|exact Hs|].
  rewrite Hd. eexists. split; [reflexivity|].
  unfold points_at. cbn [fst snd]. rewrite line_breaks_lines by exact Hls.
  exists before, behind. split; [exact Hb|]. split; [exact Hf|].
  rewrite <- !app_assoc. reflexivity.
Qed.

Lemma following_ascii last n p suffix out : Forall ascii suffix ->
  following byte_len last n p suffix out -> following (@length char) last n p suffix out.
Proof.
  intros Ha H. induction H as [n p|n p q Hq|n p line suffix out Hp Hl Hs H IH].
  - constructor.
  - constructor. exact Hq.
  - inversion Ha as [|? ? _ Ha']; subst. apply Forall_app in Ha' as [H1 H2].
    apply following_line; [exact Hp|exact Hl|exact Hs|].
    rewrite <- (byte_len_ascii _ H1). apply IH. exact H2.
Qed.

Lemma report_points_ascii E text prefix line suffix e :
  Forall ascii text -> line_of text prefix line suffix ->
  length prefix <= r_off (fst e) <= length prefix + length line ->
  exists out, error_report E text e = Done out /\
    points_at E (@length char) e prefix line suffix out.
Proof.
  intros Ha Hl Ho. pose proof (line_text _ _ _ _ Hl) as Ht. rewrite Ht in Ha.
  apply Forall_app in Ha as [H1 H2]. apply Forall_app in H2 as [H2 H3].
  destruct (report_points E text prefix line suffix e Hl) as (out & Hr & before & behind & Hb & Hf & He).
  - rewrite !byte_len_ascii by assumption. exact Ho.
  - exists out. split; [exact Hr|]. exists before, behind. split; [exact Hb|].
    rewrite !byte_len_ascii in * by assumption. split; [|exact He].
    apply following_ascii; assumption.
Qed.

(** Every position of a text is in a line. *)
Lemma line_exists text o : o <= length text -> exists prefix line suffix,
  line_of text prefix line suffix /\ length prefix <= o <= length prefix + length line.
Proof.
  revert o. induction text as [|c text IH]; intros o Ho.
  - exists [], [], []. cbn in *. split; [|lia].
    split; [reflexivity|left; reflexivity|intros []|left; reflexivity].
  - destruct (N.eqb_spec c newline) as [->|Hc].
    + destruct o as [|o].
      * exists [], [], (newline :: text). split; [|cbn; lia].
        split; [reflexivity|left; reflexivity|intros []|right; eauto].
      * destruct (IH o ltac:(cbn in Ho; lia)) as (p & l & s & [Ht Hp Hl Hs] & Hb).
        exists (newline :: p), l, s. split; [|cbn; lia].
        split; [rewrite Ht; reflexivity| |exact Hl|exact Hs].
        right. destruct Hp as [->|(p' & ->)]; [exists []; reflexivity|exists (newline :: p'); reflexivity].
    + destruct (IH (o - 1)) as (p & l & s & [Ht Hp Hl Hs] & Hb); [cbn in Ho; lia|].
      destruct Hp as [->|(p' & ->)].
      * exists [], (c :: l), s. split; [|cbn in *; lia].
        split; [rewrite Ht; reflexivity|left; reflexivity| |exact Hs]. intros [->|H]; contradiction.
      * destruct o as [|o].
        -- exfalso. rewrite app_length in Hb. cbn in Hb. lia.
        -- exists (c :: p' ++ [newline]), l, s. split; [|cbn in *; lia].
           split; [rewrite Ht; reflexivity|right; exists (c :: p'); reflexivity|exact Hl|exact Hs].
Qed.

(** The caret is below the character. *)
Lemma caret_place col line :
  length (padding col line) = Nat.min (col - window_start col) (length line - window_start col) /\
  col - window_start col <= 75 /\
  (col <= length line -> length (padding col line) = col - window_start col) /\
  nth_error (excerpt col line) (col - window_start col) = nth_error line col.
Proof.
  assert (Hw : window_start col <= col /\ col - window_start col <= 75)
    by (unfold window_start; destruct (Nat.leb_spec col 75); lia).
  assert (Hlen : length (padding col line)
    = Nat.min (col - window_start col) (length line - window_start col))
    by (unfold padding; rewrite map_length, firstn_length, skipn_length; reflexivity).
  split; [exact Hlen|]. split; [tauto|]. split; [rewrite Hlen; lia|].
  unfold excerpt. set (s := window_start col) in *.
  assert (Hn : forall (l : str) k m, k < m -> nth_error (firstn m l) k = nth_error l k).
  { induction l as [|c l IH]; intros k m Hk; [rewrite firstn_nil; reflexivity|].
    destruct m as [|m]; [lia|]. destruct k as [|k]; [reflexivity|]. cbn. apply IH. lia. }
  rewrite Hn by lia. clear Hn Hlen.
  assert (Hk : forall (l : str) a b, nth_error (skipn a l) b = nth_error l (a + b)).
  { induction l as [|c l IH]; intros a b; [rewrite skipn_nil; destruct (a + b), b; reflexivity|].
    destruct a as [|a]; [reflexivity|]. cbn. apply IH. }
  rewrite Hk. f_equal. lia.
Qed.

(** Behind the text nothing is shown. *)
Lemma report_outside E text e : byte_len text < r_off (fst e) ->
  error_report E text e = Done (s2l "Error " ++ fmt_error E (snd e) ++ [newline]).
Proof.
  destruct e as [rg e]. cbn [fst snd]. intros H.
  assert (Hall : forall text start, start + byte_len text < r_off rg ->
    forall i printed out, report_loop (number_lines start (split_lines text)) rg i printed out = Done out
    /\ first_line (number_lines start (split_lines text)) rg i = None).
  { clear. intros text. remember (length text) as k eqn:Hk.
    assert (Hle : length text <= k) by lia. clear Hk. revert text Hle.
    induction k as [|k IH]; intros text Hle start H i printed out;
      destruct (split_first text) as (l & rest & Hl & -> & Hr); rewrite (number_lines_split _ _ _ Hl Hr);
      rewrite byte_len_app in H; cbn [report_loop first_line]; destruct rg as [o n]; cbn [r_off] in H;
      rewrite before_range by lia; destruct Hr as [->|(q & ->)]; cbn [rest_lines];
      try (split; reflexivity); rewrite app_length in Hle; cbn [length] in Hle; [lia|].
    apply IH; [lia|]. cbn [r_off byte_len] in *. change (utf8_len newline) with 1 in H. lia. }
  unfold error_report, handler_write, handler_new.
  rewrite (proj2 (Hall text 0 H 0 false [])).
  assert (He : forall o : str, match e with ExpectedTag _ _ => o | _ => o end = o) by (intros; destruct e; reflexivity).
  rewrite He. exact (proj1 (Hall text 0 H 0 false _)).
Qed.

(** ** [parse_errstr] *)

Lemma errstr_eq E fuel s text tokens ind :
  match parse_with_indent E fuel s text tokens ind with
  | Done (None, t) => parse_errstr_with_indent E fuel s text tokens ind = Done (None, t)
  | Done (Some e, t) => exists more,
    parse_errstr_with_indent E fuel s text tokens ind
    = Done (Some (s2l "Error " ++ fmt_error E (snd e) ++ [newline] ++ more), t) /\
    error_report E text e = Done (s2l "Error " ++ fmt_error E (snd e) ++ [newline] ++ more)
  | Panic => parse_errstr_with_indent E fuel s text tokens ind = Panic
  | OutOfFuel => parse_errstr_with_indent E fuel s text tokens ind = OutOfFuel
  end.
Proof.
  unfold parse_errstr_with_indent.
  destruct (parse_with_indent E fuel s text tokens ind) as [[[e|] t]| |]; cbn [obind]; try reflexivity.
  destruct (report_returns E text e) as (more & H). exists more. rewrite H. split; reflexivity.
Qed.

Lemma errstr_ok E s text tokens ind tokens' :
  errstr_returns E s text tokens ind None tokens' <-> parse_returns E s text tokens ind None tokens'.
Proof.
  split; intros [fuel H]; exists fuel; pose proof (errstr_eq E fuel s text tokens ind) as He.
  - destruct (parse_with_indent E fuel s text tokens ind) as [[[e|] t]| |].
    + destruct He as (more & He & _). congruence.
    + rewrite He in H. injection H as ->. reflexivity.
    + congruence.
    + congruence.
  - rewrite H in He. exact He.
Qed.

Lemma errstr_err E s text tokens ind w tokens' :
  errstr_returns E s text tokens ind (Some w) tokens' <->
  exists e, parse_returns E s text tokens ind (Some e) tokens' /\ error_report E text e = Done w.
Proof.
  split.
  - intros [fuel H]. pose proof (errstr_eq E fuel s text tokens ind) as He.
    destruct (parse_with_indent E fuel s text tokens ind) as [[[e|] t]| |] eqn:Hp; try congruence.
    destruct He as (more & He & Hr). rewrite He in H. injection H as <- <-.
    exists e. split; [exists fuel; exact Hp|exact Hr].
  - intros (e & [fuel H] & Hw). exists fuel. pose proof (errstr_eq E fuel s text tokens ind) as He.
    rewrite H in He. destruct He as (more & He & Hr). rewrite Hw in Hr. injection Hr as ->. exact He.
Qed.

Lemma errstr_message E s text tokens ind e tokens' :
  parse_returns E s text tokens ind (Some e) tokens' ->
  exists w, errstr_returns E s text tokens ind (Some w) tokens' /\
    starts_with w (s2l "Error " ++ fmt_error E (snd e) ++ [newline]).
Proof.
  intros H. destruct (report_returns E text e) as (more & Hr).
  eexists. split; [apply errstr_err; exists e; split; [exact H|exact Hr]|].
  exists more. rewrite <- !app_assoc. reflexivity.
Qed.

Lemma errstr_panic E s text tokens ind :
  errstr_panics E s text tokens ind <-> parse_panics E s text tokens ind.
Proof.
  split; intros [fuel H]; exists fuel; pose proof (errstr_eq E fuel s text tokens ind) as He.
  - destruct (parse_with_indent E fuel s text tokens ind) as [[[e|] t]| |]; try congruence.
    destruct He as (more & He & _). congruence.
  - rewrite H in He. exact He.
Qed.

(** ** Text outside ASCII *)

Definition shifted_syntax : syntax :=
  Syn [RTag [233%N; newline; newline] false false None 0%N] [s2l "document"].

Lemma non_ascii_report : exists s text e prefix line suffix out,
  parse_returns std_ext s text [] indent_default (Some e) [] /\
  errstr_returns std_ext s text [] indent_default (Some out) [] /\
  line_of text prefix line suffix /\
  length prefix <= r_off (fst e) <= length prefix + length line /\
  ~ points_at std_ext (@length char) e prefix line suffix out.
Proof.
  exists shifted_syntax, [233%N; newline; newline; 120%N], (Rng 3 0, ExpectedEnd),
    [233%N; newline; newline], [120%N], [].
  eexists. refine (conj _ (conj _ (conj _ (conj _ _)))).
  - exists 10. vm_compute. reflexivity.
  - exists 10. vm_compute. reflexivity.
  - split; [reflexivity|right; exists [233%N; newline]; reflexivity| |left; reflexivity].
    intros [H|[]]. discriminate.
  - cbn. lia.
  - intros (before & behind & Hb & _ & Ho). cbn [snd] in Hb.
    assert (before = []) as ->.
    { inversion Hb; subst; reflexivity. }
    vm_compute in Ho. discriminate.
Qed.
