(** C90: the layout of the JSON output. *)
From Coq Require Import Ascii String List NArith Bool Arith Lia.
From Verif Require Import Base Ext Types JsonModel JsonSpec JsonProofs JsonProofs2 JsonProofs3 LayoutSpec.
Import ListNotations.
Local Open Scope list_scope.

Section Layout.
  Variable E : ext.

  Definition starts (d : metadata) : bool := match d with StartNode _ => true | _ => false end.
  Definition ends (d : metadata) : bool := match d with EndNode _ => true | _ => false end.

  Definition comma_after (d : metadata) (rest : list metadata) : str :=
    match rest with e :: _ => if negb (starts d) && negb (ends e) then s2l "," else [] | [] => [] end.

  Fixpoint lines (indent : nat) (data : list metadata) : list str :=
    match data with
    | [] => []
    | d :: rest =>
      let here := if ends d then indent - 1 else indent in
      (repeat space here ++ write_item E d ++ comma_after d rest) :: lines (if starts d then S here else here) rest
    end.

  Fixpoint join (ls : list str) : str :=
    match ls with
    | [] => []
    | [l] => l
    | l :: rest => l ++ newline :: join rest
    end.

  Lemma join_lines ls : ls <> [] -> join ls ++ [newline] = of_lines ls.
  Proof.
    induction ls as [|l ls IH]; [congruence|intros _]. destruct ls as [|m ls].
    - cbn. rewrite app_nil_r. reflexivity.
    - change (join (l :: m :: ls)) with (l ++ newline :: join (m :: ls)). rewrite <- app_assoc. cbn [app].
      rewrite IH by discriminate. unfold of_lines. cbn [map concat]. rewrite <- !app_assoc. reflexivity.
  Qed.

  Definition before (i : nat) (first : bool) (d : metadata) : str :=
    if negb first && negb (ends d) then s2l "," ++ [newline] else if Nat.eqb i 0 then [] else [newline].

  Lemma loop_lines data : forall i first indent out out', write_loop E data i first indent out = Done out' ->
    match map snd data with
    | [] => out' = out
    | d :: _ => out' = out ++ before i first d ++ join (lines indent (map snd data))
    end.
  Proof.
    induction data as [|[r d] data IH]; intros i first indent out out' H; cbn [map snd write_loop] in *; [congruence|].
    assert (He : is_end (r, d) = ends d) by (destruct d; reflexivity).
    assert (Hs : is_start (r, d) = starts d) by (destruct d; reflexivity).
    rewrite He, Hs in H. destruct (ends d && (indent =? 0)) eqn:Hp; [discriminate|].
    apply IH in H. cbn [snd] in H. cbn [lines]. set (here := if ends d then indent - 1 else indent) in *.
    assert (Hb : (if negb first && negb (ends d) then out ++ s2l "," ++ [newline] else if Nat.eqb i 0 then out else out ++ [newline]) = out ++ before i first d).
    { unfold before. destruct (negb first && negb (ends d)); [reflexivity|]. destruct (Nat.eqb i 0); [rewrite app_nil_r|]; reflexivity. }
    rewrite Hb in H. destruct (map snd data) as [|e rest] eqn:Hm.
    - subst out'. cbn [lines join comma_after]. rewrite app_nil_r, <- !app_assoc. reflexivity.
    - rewrite H. clear H. cbn [lines]. set (L := lines _ rest).
      cbn [join]. rewrite <- !app_assoc. do 3 f_equal. unfold before, comma_after.
      cbn [Nat.eqb]. destruct (negb (starts d) && negb (ends e)); cbn; rewrite <- ?app_assoc; reflexivity.
  Qed.

  (** No underflow. *)
  Lemma loop_open data : forall i first indent out out', write_loop E data i first indent out = Done out' ->
    forall k, k < length data -> closed (firstn (S k) (map snd data)) <= indent + opened (firstn k (map snd data)).
  Proof.
    induction data as [|[r d] data IH]; intros i first indent out out' H k Hk; [cbn in Hk; lia|].
    cbn [map snd write_loop] in *.
    assert (He : is_end (r, d) = ends d) by (destruct d; reflexivity).
    assert (Hs : is_start (r, d) = starts d) by (destruct d; reflexivity).
    rewrite He, Hs in H. destruct (ends d && (indent =? 0)) eqn:Hp; [discriminate|].
    destruct k as [|k].
    - change (firstn 1 (d :: map snd data)) with [d]. change (firstn 0 (d :: map snd data)) with (@nil metadata).
      destruct d; cbn in *; try lia. destruct indent; [discriminate|lia].
    - apply IH with (k := k) in H; [|cbn in Hk; lia].
      change (firstn (S (S k)) (d :: map snd data)) with (d :: firstn (S k) (map snd data)).
      change (firstn (S k) (d :: map snd data)) with (d :: firstn k (map snd data)).
      destruct d; cbn [opened closed starts ends] in *; try lia.
      destruct indent; [discriminate|]. lia.
  Qed.

  Lemma lines_length data : forall indent, length (lines indent data) = length data.
  Proof. induction data as [|d data IH]; intros indent; cbn; [reflexivity|]. rewrite IH. reflexivity. Qed.

  Lemma lines_nth data : forall indent,
    (forall k, k < length data -> closed (firstn (S k) data) <= indent + opened (firstn k data)) ->
    forall k d, nth_error data k = Some d ->
    nth_error (lines indent data) k =
      Some (repeat space (indent + opened (firstn k data) - closed (firstn (S k) data)) ++ write_item E d ++ comma_after d (skipn (S k) data)).
  Proof.
    induction data as [|d data IH]; intros indent Hok k x Hx; [destruct k; discriminate|].
    destruct k as [|k].
    - injection Hx as <-. cbn [lines nth_error skipn]. f_equal. f_equal. f_equal.
      change (firstn 1 (d :: data)) with [d]. change (firstn 0 (d :: data)) with (@nil metadata).
      destruct d; cbn; lia.
    - cbn [nth_error lines] in *. rewrite IH with (d := x); [|clear x Hx k; intros k Hk|exact Hx].
      + change (firstn (S (S k)) (d :: data)) with (d :: firstn (S k) data).
        change (firstn (S k) (d :: data)) with (d :: firstn k data).
        change (skipn (S (S k)) (d :: data)) with (skipn (S k) data).
        f_equal. f_equal. f_equal. pose proof (Hok 0 ltac:(cbn; lia)) as H0.
        change (firstn 1 (d :: data)) with [d] in H0. change (firstn 0 (d :: data)) with (@nil metadata) in H0.
        destruct d; cbn [opened closed starts ends] in *; lia.
      + pose proof (Hok (S k) ltac:(cbn; lia)) as H1. pose proof (Hok 0 ltac:(cbn; lia)) as H0.
        change (firstn (S (S k)) (d :: data)) with (d :: firstn (S k) data) in H1.
        change (firstn (S k) (d :: data)) with (d :: firstn k data) in H1.
        change (firstn 1 (d :: data)) with [d] in H0. change (firstn 0 (d :: data)) with (@nil metadata) in H0.
        destruct d; cbn [opened closed starts ends] in *; lia.
  Qed.

  Lemma quoted_write s : quoted s (write_string s).
  Proof.
    exists (flat_map write_char s). split; [reflexivity|]. apply write_string_text. intros c _.
    destruct (in_dec N.eq_dec c [10; 13; 9]%N); auto.
  Qed.

  Lemma write_item_text d : item_text E d (write_item E d).
  Proof.
    destruct d as [n|n|n b|n x|n v]; cbn [write_item].
    - apply item_start, quoted_write.
    - apply item_end.
    - replace (write_string n ++ s2l ":" ++ fmt_bool b) with (write_string n ++ s2l (if b then ":true" else ":false")) by (destruct b; reflexivity).
      apply item_bool, quoted_write.
    - apply (item_number E n x (write_string n)), quoted_write.
    - apply (item_string E n v (write_string n) (write_string v)); apply quoted_write.
  Qed.

  Lemma comma_goes_on data k d : nth_error data k = Some d ->
    (goes_on data k /\ comma_after d (skipn (S k) data) = s2l ",") \/ (~ goes_on data k /\ comma_after d (skipn (S k) data) = []).
  Proof.
    intros Hd. assert (He : nth_error data (S k) = nth_error (skipn (S k) data) 0).
    { rewrite <- (firstn_skipn (S k) data) at 1. assert (Hk : k < length data) by (apply nth_error_Some; rewrite Hd; discriminate).
      rewrite nth_error_app2; rewrite firstn_length; [f_equal|]; lia. }
    destruct (skipn (S k) data) as [|e rest]; cbn [comma_after].
    - change (nth_error (@nil metadata) 0) with (@None metadata) in He. right. split; [|reflexivity]. intros (x & y & _ & Hy & _). congruence.
    - change (nth_error (e :: rest) 0) with (Some e) in He. destruct (negb (starts d) && negb (ends e)) eqn:Hc.
      + left. split; [|reflexivity]. exists d, e. split; [exact Hd|]. split; [exact He|]. apply andb_true_iff in Hc as [H1 H2].
        split; intros n ->; discriminate.
      + right. split; [|reflexivity]. intros (x & y & Hx & Hy & H1 & H2). rewrite Hd in Hx. rewrite He in Hy.
        injection Hx as <-. injection Hy as <-. destruct d; try (specialize (H1 _ eq_refl); contradiction); destruct e; try discriminate; specialize (H2 _ eq_refl); contradiction.
  Qed.

  Lemma loop_shows data : forall i first out out', write_loop E data i first (imbalance (map snd data)) out = Done out' ->
    shows E (map snd data) (lines (imbalance (map snd data)) (map snd data)).
  Proof.
    intros i first out out' H. split; [apply lines_length|].
    intros k d line Hd Hl. rewrite (lines_nth _ (imbalance (map snd data))) with (d := d) in Hl; [|intros j Hj|exact Hd].
    - injection Hl as <-. exists (write_item E d), (comma_after d (skipn (S k) (map snd data))). split; [reflexivity|].
      split; [apply write_item_text|]. apply comma_goes_on. exact Hd.
    - rewrite map_length in Hj. exact (loop_open data i first _ out out' H j Hj).
  Qed.

  Theorem layout data out : json_write E data = Done out -> data <> [] ->
    exists ls, out = of_lines ls /\ shows E (map snd data) ls.
  Proof.
    intros H Hne. rewrite json_write_eq in H. destruct (write_loop _ _ _ _ _ _) as [res| |] eqn:Hw; try discriminate. injection H as <-.
    pose proof (loop_lines data _ _ _ _ _ Hw) as Hl. destruct data as [|[r d] data]; [congruence|]. cbn [map snd] in Hl.
    exists (lines (imbalance (map snd ((r, d) :: data))) (map snd ((r, d) :: data))). split.
    - rewrite Hl. unfold before. cbn [negb andb Nat.eqb app map snd]. apply join_lines. discriminate.
    - exact (loop_shows _ _ _ _ _ Hw).
  Qed.

  (** ** Lengths *)

  Lemma chars_length raw s u : chars_text raw s u -> length s <= length u <= 2 * length s.
  Proof. induction 1; cbn; lia. Qed.

  Lemma item_length d t : item_text E d t -> content E d <= length t <= 2 * content E d + 9.
  Proof.
    intros H. destruct H as [n t (u & -> & Hu)|n|n b t (u & -> & Hu)|n x t (u & -> & Hu)|n v t w (u & -> & Hu) (u' & -> & Hu')];
      repeat match goal with HH : chars_text _ _ _ |- _ => apply chars_length in HH end; cbn [content]; try destruct b;
      rewrite ?app_length; cbn; rewrite ?app_length; cbn; rewrite ?app_length; cbn; lia.
  Qed.


  Lemma nth_lt (ls : list str) k l : nth_error ls k = Some l -> k < length ls.
  Proof. intros H. apply (proj1 (nth_error_Some ls k)). rewrite H. discriminate. Qed.

  Lemma chars_no_break s u : chars_text (fun c => ~ In c [10; 13; 9]%N) s u -> ~ In newline u.
  Proof.
    induction 1 as [|c s u H1 H2 Hr H IH|e c s u He H IH]; [intros []| |].
    - intros [-> | Hi]; [apply Hr; left; reflexivity|exact (IH Hi)].
    - intros [Hi|[Hi|Hi]]; [discriminate| |exact (IH Hi)]. subst e. cbn in He.
      repeat (destruct He as [He|He]; [discriminate|]). destruct He.
  Qed.

  Lemma item_no_break d t : item_text E d t -> (forall name x, d = MF64 name x -> ~ In newline (x_fmt_f64 E x)) -> ~ In newline t.
  Proof.
    intros H Hx. destruct H as [n t (u & -> & Hu)|n|n b t (u & -> & Hu)|n x t (u & -> & Hu)|n v t w (u & -> & Hu) (u' & -> & Hu')];
      repeat match goal with HH : chars_text _ _ _ |- _ => apply chars_no_break in HH end; try specialize (Hx _ _ eq_refl); try destruct b;
      intros Hi; repeat (rewrite in_app_iff in Hi || cbn in Hi);
      repeat match goal with HH : _ \/ _ |- _ => destruct HH as [HH|HH] | HH : False |- _ => destruct HH end; try discriminate; contradiction.
  Qed.

  Theorem layout_split data ls : one_line_numbers E data -> shows E data ls -> Forall (fun l => ~ In newline l) ls.
  Proof.
    intros Hx (Hlen & Hs). apply Forall_forall. intros l Hl. apply In_nth_error in Hl as (k & Hk).
    destruct (nth_error data k) as [d|] eqn:Hd.
    2:{ apply nth_error_None in Hd. assert (k < length ls) by (exact (nth_lt ls k l Hk)). lia. }
    destruct (Hs k d l Hd Hk) as (t & comma & -> & Ht & Hc). intros Hi. rewrite !in_app_iff in Hi. destruct Hi as [Hi|[Hi|Hi]].
    - apply repeat_spec in Hi. discriminate.
    - apply (item_no_break d t Ht) in Hi; [exact Hi|]. intros name x ->. apply (Hx name). apply (nth_error_In data k). exact Hd.
    - destruct Hc as [[_ ->] | [_ ->]]; [|destruct Hi]. destruct Hi as [Hi|[]]. discriminate.
  Qed.

  Lemma sum_low f (ls : list str) : (forall k l, nth_error ls k = Some l -> f k <= length l) ->
    list_sum (map f (seq 0 (length ls))) <= list_sum (map (@length char) ls).
  Proof.
    revert f. induction ls as [|l ls IH]; intros f H; [reflexivity|]. cbn [length seq map].
    change (list_sum (f 0 :: map f (seq 1 (length ls)))) with (f 0 + list_sum (map f (seq 1 (length ls)))).
    change (list_sum (length l :: map (@length char) ls)) with (length l + list_sum (map (@length char) ls)).
    rewrite <- seq_shift, map_map. pose proof (H 0 l eq_refl). pose proof (IH (fun k => f (S k)) (fun k => H (S k))). lia.
  Qed.

  Lemma sum_high f (ls : list str) : (forall k l, nth_error ls k = Some l -> length l <= f k) ->
    list_sum (map (@length char) ls) <= list_sum (map f (seq 0 (length ls))).
  Proof.
    revert f. induction ls as [|l ls IH]; intros f H; [reflexivity|]. cbn [length seq map].
    change (list_sum (f 0 :: map f (seq 1 (length ls)))) with (f 0 + list_sum (map f (seq 1 (length ls)))).
    change (list_sum (length l :: map (@length char) ls)) with (length l + list_sum (map (@length char) ls)).
    rewrite <- seq_shift, map_map. pose proof (H 0 l eq_refl). pose proof (IH (fun k => f (S k)) (fun k => H (S k))). lia.
  Qed.

  Lemma of_lines_length ls : length (of_lines ls) = list_sum (map (@length char) ls) + length ls.
  Proof.
    induction ls as [|l ls IH]; [reflexivity|]. unfold of_lines in *. cbn [map concat]. rewrite !app_length, IH.
    change (list_sum (length l :: map (@length char) ls)) with (length l + list_sum (map (@length char) ls)). cbn. lia.
  Qed.

  Lemma sum_seq (data : list metadata) (g : metadata -> nat) (d0 : metadata) :
    list_sum (map (fun k => g (nth k data d0)) (seq 0 (length data))) = list_sum (map g data).
  Proof.
    induction data as [|d data IH]; [reflexivity|]. cbn [length seq map].
    rewrite <- seq_shift, map_map. cbn [nth].
    set (X := list_sum (map (fun x => g (nth x data d0)) (seq 0 (length data)))) in *.
    change (g d + X = g d + list_sum (map g data)). lia.
  Qed.

  Lemma sum_add (f g : nat -> nat) l : list_sum (map (fun k => f k + g k) l) = list_sum (map f l) + list_sum (map g l).
  Proof.
    induction l as [|x l IH]; [reflexivity|]. cbn [map].
    change (f x + g x + list_sum (map (fun k => f k + g k) l) = f x + list_sum (map f l) + (g x + list_sum (map g l))). lia.
  Qed.

  Lemma sum_line (g : metadata -> nat) (data : list metadata) :
    list_sum (map (fun d => 2 * g d + 10) data) = 2 * list_sum (map g data) + 10 * length data.
  Proof.
    induction data as [|x l IH]; [reflexivity|]. cbn [map length].
    change (2 * g x + 10 + list_sum (map (fun d => 2 * g d + 10) l) = 2 * (g x + list_sum (map g l)) + 10 * S (length l)). lia.
  Qed.

  Theorem shown_length data ls : shows E data ls ->
    spaces_before data + contents E data + length data <= length (of_lines ls) <=
      spaces_before data + 2 * contents E data + 11 * length data.
  Proof.
    intros (Hlen & Hs). rewrite of_lines_length. unfold spaces_before, contents. rewrite Hlen.
    assert (Hd : forall k l, nth_error ls k = Some l ->
      open_around data k + content E (nth k data (EndNode [])) <= length l <= open_around data k + (2 * content E (nth k data (EndNode [])) + 10)).
    { intros k l Hk. destruct (nth_error data k) as [d|] eqn:Hd.
      2:{ apply nth_error_None in Hd. assert (k < length ls) by (exact (nth_lt ls k l Hk)). lia. }
      rewrite (nth_error_nth data k _ Hd). destruct (Hs k d l Hd Hk) as (t & comma & -> & Ht & Hc).
      apply item_length in Ht. rewrite !app_length, repeat_length. assert (length comma <= 1) by (destruct Hc as [[_ ->] | [_ ->]]; cbn; lia). lia. }
    split.
    - pose proof (sum_low (fun k => open_around data k + content E (nth k data (EndNode []))) ls (fun k l H => proj1 (Hd k l H))) as H.
      rewrite sum_add, Hlen, (sum_seq data (content E)) in H. lia.
    - pose proof (sum_high (fun k => open_around data k + (2 * content E (nth k data (EndNode [])) + 10)) ls (fun k l H => proj2 (Hd k l H))) as H.
      rewrite (sum_add (open_around data)), Hlen, (sum_seq data (fun d => 2 * content E d + 10)), sum_line in H. lia.
  Qed.

  Theorem output_length data out : json_write E data = Done out -> data <> [] ->
    spaces_before (map snd data) + contents E (map snd data) + length data <= length out <=
      spaces_before (map snd data) + 2 * contents E (map snd data) + 11 * length data.
  Proof.
    intros H Hne. destruct (layout data out H Hne) as (ls & -> & Hs). apply shown_length in Hs. rewrite map_length in Hs. exact Hs.
  Qed.
End Layout.
