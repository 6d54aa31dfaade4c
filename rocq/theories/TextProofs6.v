(** Reading what is written: documents. *)
From Coq Require Import Ascii String List NArith Bool Arith Lia.
From Verif Require Import Base Ext Types ParseModel BootstrapRules PegSpec PrimProofs LinesProofs JsonSpec
  ConvertSpec WriteSpec OnceProofs TextSpec TextProofs TextProofs2 TextProofs3 TextProofs4 TextProofs5.
Import ListNotations.
Local Open Scope string_scope.
Local Open Scope list_scope.
Local Open Scope nat_scope.

(** ** The start of the line *)

Definition is_newline (c : char) : {c = newline} + {c <> newline} := N.eq_dec c newline.

Lemma last_newline (v : str) : In newline v -> exists a b, v = a ++ newline :: b /\ ~ In newline b.
Proof.
  induction v as [|c v IH]; [contradiction|]. intros H.
  destruct (in_dec N.eq_dec newline v) as [Hv|Hv].
  - destruct (IH Hv) as (a & b & -> & Hb). exists (c :: a), b. auto.
  - destruct H as [->|H]; [|contradiction]. exists [], v. auto.
Qed.

Lemma white_longest v t : Forall white v -> stops white t -> longest white (v ++ t) (length v).
Proof. intros Hv Ht. apply longest_of_app; [exact Hv|apply stops_longest; exact Ht]. Qed.

Lemma find_line nl v t : Forall white v -> stops white t -> nl = true \/ In newline v ->
  exists a b, v = a ++ b /\ line_start nl (v ++ t) (length a) /\ Forall white b.
Proof.
  intros Hv Ht Hnl. assert (Hl := white_longest v t Hv Ht).
  destruct (in_dec N.eq_dec newline v) as [Hin|Hno].
  - destruct (last_newline v Hin) as (a & b & Heq & Hb). exists (a ++ [newline]), b. split; [|split].
    + rewrite <- app_assoc. exact Heq.
    + rewrite app_length. cbn [length]. apply line_start_break with (b := b) (w := length v); [exact Hl| |exact Hb].
      rewrite firstn_len. exact Heq.
    + subst v. apply Forall_app in Hv. destruct Hv as [_ Hv]. inversion Hv. assumption.
  - destruct Hnl as [->|Hin]; [|contradiction]. exists [], v. split; [reflexivity|]. split; [|exact Hv].
    apply line_start_here; [reflexivity|]. exists (length v). split; [exact Hl|]. rewrite firstn_len. exact Hno.
Qed.

Lemma not_all_white v t : t <> [] -> stops white t -> ~ Forall white (v ++ t).
Proof.
  intros Hne Ht H. apply Forall_app in H. destruct H as [_ H]. destruct t; [contradiction|].
  inversion H; subst. contradiction.
Qed.

Lemma strings_app a b : strings_of (a ++ b) = strings_of a ++ strings_of b.
Proof. apply flat_map_app. Qed.
Lemma nodes_app a b : nodes_of (a ++ b) = nodes_of a ++ nodes_of b.
Proof. apply flat_map_app. Qed.

Section Reading.
  Variable E : ext.
  Hypothesis HE : ext_ok E.
  Variable lit : str -> str -> Prop.
  Hypothesis HL : forall v t, lit v t -> literal E v t.
  Hypothesis HN : no_slash_number E.
  Variable ss : list (str * str).

  Notation good := (good E). Notation bad := (bad E). Notation goods := (goods E). Notation bads := (bads E).

  Definition string_data (e : entry) (d : list tok) : Prop :=
    match e with EString n v => wstring d (n, v) | _ => d = [] end.
  Definition node_data (e : entry) (d : list tok) : Prop :=
    match e with ENode x n r => unode ss d n (numbered (n, x, r)) | _ => d = [] end.

  (** An item: what is read for an entry, the white space behind, and the data. *)
  Definition item (e : entry) (m : list metadata) (core trail : str) : Prop :=
    Forall white trail /\ core <> [] /\ (forall s, stops white (core ++ s)) /\
    (forall s, over s -> match e with
     | ENode _ _ _ => (forall b, Forall white b -> bad STRINGS (b ++ core ++ trail ++ s))
     | _ => (forall b p, Forall white b -> exists d, rd E STRINGS p (b ++ core ++ trail ++ s) (Yes (length (b ++ core)) d) /\
               (string_data e d /\ metas d = m))
     end) /\
    (forall s, over s -> match e with
     | EString _ _ => True
     | _ => (forall b p, Forall white b -> exists d, rd E NODES p (b ++ core ++ trail ++ s) (Yes (length (b ++ core)) d) /\
               (node_data e d /\ metas d = m))
     end) /\
    ((forall s, x_number E false (95%N :: s) = None) ->
     match e with
     | EString _ _ => (forall b s, Forall white b -> bad NODES (b ++ core ++ trail ++ s))
     | _ => True
     end).

  Lemma entry_split e t : entry_text E lit (defined ss) e t -> exists core trail m, t = core ++ trail /\ item e m core trail.
  Proof.
    assert (Hitem : forall core ok P r id1 id2, (forall s, stops white (core ++ s)) -> good r ok core P ->
      exists m, forall b p rest, ok rest -> Forall white b ->
      exists d, rd E (RSequence [RWhitespace true id1; r] id2) p (b ++ core ++ rest) (Yes (length (b ++ core)) d) /\ (P d /\ metas d = m)).
    { intros core ok P r id1 id2 Hst (m & Hg). exists m. intros b p rest Hok Hb.
      assert (Hg' : good r ok core (fun d => P d /\ metas d = m)).
      { exists m. intros p' rest' Hr'. destruct (Hg p' rest' Hr') as (out & H1 & H2 & H3). eauto. }
      assert (Hg2 : good (RSequence [RWhitespace true id1; r] id2) ok (b ++ core) (both none (fun d => P d /\ metas d = m))).
      { apply good_sequence. eapply goods_cons; [apply good_white; [exact Hb|left; reflexivity]|apply goods_last; exact Hg'|intros; apply Hst]. }
      destruct Hg2 as (m2 & Hg2). destruct (Hg2 p rest Hok) as (d & Hrd & (a & d' & -> & -> & HP) & _). exists d'. split; [|exact HP].
      rewrite <- app_assoc in Hrd. exact Hrd. }
    assert (Hcom : forall core trail, (exists b, core = s2l "/*" ++ b ++ s2l "*/" /\ comment_body b) \/
        (exists c, core = s2l "//" ++ c /\ ~ In newline c) /\ trail = [] -> forall s, over s ->
        (exists b, core = s2l "/*" ++ b ++ s2l "*/") \/ over (trail ++ s)).
    { intros core trail [(b & -> & _)|[_ ->]] s Hs; [left; eexists; reflexivity|right; exact Hs]. }
    assert (Hboth : forall core trail, Forall white trail ->
        (exists b, core = s2l "/*" ++ b ++ s2l "*/" /\ comment_body b) \/
        (exists c, core = s2l "//" ++ c /\ ~ In newline c) /\ trail = [] ->
        core <> [] /\ (forall s, stops white (core ++ s)) /\
        (forall s, over s -> (forall b p, Forall white b -> exists d, rd E STRINGS p (b ++ core ++ trail ++ s) (Yes (length (b ++ core)) d) /\ (d = [] /\ metas d = []))) /\
        (forall s, over s -> (forall b p, Forall white b -> exists d, rd E NODES p (b ++ core ++ trail ++ s) (Yes (length (b ++ core)) d) /\ (d = [] /\ metas d = [])))).
    { intros core trail Htr Hc.
      assert (Hh : exists core', core = 47%N :: core').
      { destruct Hc as [(b & -> & _)|[(c & -> & _) _]]; eexists; reflexivity. }
      assert (Hst : forall s, stops white (core ++ s)).
      { destruct Hh as (core' & ->). intros s HH. vm_compute in HH. discriminate HH. }
      assert (Hg : good COMMENT (fun s => (exists b, core = s2l "/*" ++ b ++ s2l "*/") \/ over s) core none).
      { apply good_comment. destruct Hc as [Hc|[Hc _]]; [left|right]; exact Hc. }
      split; [destruct Hh as (core' & ->); discriminate|]. split; [exact Hst|]. split.
      - destruct (Hitem core (fun s => (exists b, core = s2l "/*" ++ b ++ s2l "*/") \/ over s) none
          (match STRINGS with RSequence [_; r] _ => r | _ => STRINGS end) 22004%N 22003%N Hst) as (m & Hm).
        { refine (good_select E [_] _ _ _ _ _ _ _ _); [eapply good_ref; [reflexivity|exact Hg]|].
        intros. repeat apply Forall_cons; [|apply Forall_nil]. destruct Hh as (core' & ->).
        eapply bad_node; [reflexivity|]. apply bad_sequence, bads_first, bad_tag. reflexivity. }
        intros s Hs b p Hb. destruct (Hm b p (trail ++ s) (Hcom core trail Hc s Hs) Hb) as (d & Hd & -> & _).
        exists []. split; [exact Hd|split; reflexivity].
      - destruct (Hitem core (fun s => (exists b, core = s2l "/*" ++ b ++ s2l "*/") \/ over s) none
          (match NODES with RSequence [_; r] _ => r | _ => NODES end) 22010%N 22009%N Hst) as (m & Hm).
        { refine (good_select E [_] _ _ _ _ _ _ _ _); [eapply good_ref; [reflexivity|exact Hg]|].
        intros. repeat apply Forall_cons; [|apply Forall_nil]. destruct Hh as (core' & ->).
        eapply bad_node; [reflexivity|]. apply bad_sequence, bads_first.
        intros p'. eexists. apply reads_number_none. apply HN. }
        intros s Hs b p Hb. destruct (Hm b p (trail ++ s) (Hcom core trail Hc s Hs) Hb) as (d & Hd & -> & _).
        exists []. split; [exact Hd|split; reflexivity]. }
    intros H. destruct H as [n v t w1 w2 Hn Hq Hw1 Hw2|x num n r w1 w2 w3 t w4 Hx Hn Hm Hw1 Hn1 Hw2 Hn2 Hw3 Hw4|b w Hb Hw|c Hc].
    - exists (s2l "_" ++ n ++ s2l ":" ++ w1 ++ t), w2.
      assert (Hst : forall s, stops white ((s2l "_" ++ n ++ s2l ":" ++ w1 ++ t) ++ s)).
      { intros s HH. vm_compute in HH. discriminate HH. }
      destruct (Hitem _ (fun _ => True) (fun d => wstring d (n, v)) (match STRINGS with RSequence [_; r] _ => r | _ => STRINGS end) 22004%N 22003%N Hst) as (m & Hm).
      { refine (good_select E [] _ _ _ _ _ _ _ _); [apply (good_string_entry E lit HL); assumption|constructor]. }
      exists m. split; [rewrite <- !app_assoc; reflexivity|].
      split; [exact Hw2|]. split; [discriminate|].
      split; [exact Hst|]. split; [|split; [auto|]].
      + intros s Hs b p Hb. apply (Hm b p (w2 ++ s) I Hb).
      + intros HU b s Hb. apply bad_sequence.
        eapply bads_next; [apply good_white; [exact Hb|left; reflexivity]|apply Hst|].
        apply bads_first, bad_select; [discriminate|]. repeat apply Forall_cons; [| |apply Forall_nil].
        * eapply bad_node; [reflexivity|]. apply bad_sequence, bads_first. intros p'. eexists. apply reads_number_none. apply HU.
        * apply bad_comment_node. cbn. congruence.
    - exists (num ++ w1 ++ n ++ w2 ++ s2l "=" ++ w3 ++ t), w4.
      destruct (proj1 Hx) as (c0 & num' & Hnum & Hcw & Hcu & Hcs).
      assert (Hst : forall s, stops white ((num ++ w1 ++ n ++ w2 ++ s2l "=" ++ w3 ++ t) ++ s)).
      { intros s. rewrite Hnum. exact Hcw. }
      destruct (Hitem _ follows (fun d => unode ss d n (numbered (n, x, r))) (match NODES with RSequence [_; r] _ => r | _ => NODES end) 22010%N 22009%N Hst) as (m & Hmt).
      { refine (good_select E [] _ _ _ _ _ _ _ _); [apply (good_node_entry E HE lit HL); assumption|constructor]. }
      exists m. split; [rewrite <- !app_assoc; reflexivity|].
      split; [exact Hw4|]. split; [rewrite Hnum; discriminate|]. split; [exact Hst|]. split.
      + intros s Hs b Hb. apply bad_sequence.
        eapply bads_next; [apply good_white; [exact Hb|left; reflexivity]|apply Hst|].
        apply bads_first, bad_select; [discriminate|]. rewrite Hnum. repeat apply Forall_cons; [| |apply Forall_nil].
        * eapply bad_node; [reflexivity|]. apply bad_sequence, bads_first, bad_tag. apply prefix_head. cbn.
          congruence.
        * apply bad_comment_node. cbn. congruence.
      + split; [|auto]. intros s Hs b p Hb. apply (Hmt b p (w4 ++ s)); [apply over_follows; assumption|exact Hb].
    - exists (s2l "/*" ++ b ++ s2l "*/"), w, []. split; [rewrite <- !app_assoc; reflexivity|]. split; [exact Hw|].
      destruct (Hboth (s2l "/*" ++ b ++ s2l "*/") w Hw) as (H1 & H2 & H3 & H4); [left; eauto|]. auto.
    - exists (s2l "//" ++ c), [], []. rewrite app_nil_r. split; [reflexivity|]. split; [constructor|].
      destruct (Hboth (s2l "//" ++ c) []) as (H1 & H2 & H3 & H4); [constructor|right; eauto|]. auto.
  Qed.

  (** ** Blocks *)

  Lemma lines_item item id fresh nl p v core tail (P : list tok -> Prop) (Q : nat -> list tok -> Prop) :
    Forall white v -> nl = true \/ In newline v -> core <> [] -> (forall s, stops white (core ++ s)) ->
    (forall b p, Forall white b -> exists d, rd E item p (b ++ core ++ tail) (Yes (length (b ++ core)) d) /\ P d) ->
    (forall nl' p, exists m d2 tr, Q m d2 /\
      reads_lines E boot item false id fresh nl' indent_default p tail (Yes m d2) indent_default tr) ->
    exists d m d2 tr, P d /\ Q m d2 /\ reads_lines E boot item false id fresh nl indent_default p (v ++ core ++ tail)
      (Yes (length (v ++ core) + m) (d ++ d2)) indent_default tr.
  Proof.
    intros Hv Hnl Hne Hst Hit Hrest.
    destruct (find_line nl v (core ++ tail) Hv (Hst tail) Hnl) as (a & b & -> & Hls & Hb).
    destruct (Hit b (p + length a) Hb) as (d & (tr1 & R1) & HP).
    destruct (Hrest (ends_with_newline (b ++ core)) (p + length a + length (b ++ core))) as (m & d2 & tr2 & HQ & R2).
    exists d, m, d2, (tr1 ++ tr2). split; [exact HP|]. split; [exact HQ|].
    assert (Hskip : skipn (length a) ((a ++ b) ++ core ++ tail) = (b ++ core) ++ tail).
    { rewrite <- app_assoc, skipn_len, <- app_assoc. reflexivity. }
    replace (Yes (length ((a ++ b) ++ core) + m) (d ++ d2)) with (after (length a + length (b ++ core)) d (Yes m d2))
      by (cbn [after]; f_equal; rewrite !app_length; lia).
    eapply reads_lines_item; [|exact Hls| | |].
    - apply not_all_white; [destruct core; [contradiction|discriminate]|apply Hst].
    - rewrite Hskip, <- app_assoc. apply reads_line_plain. exact R1.
    - rewrite Hskip, firstn_len. apply ends_with_newline_spec.
    - rewrite Hskip, skipn_len. exact R2.
  Qed.

  Lemma over_newline s : over (newline :: s).
  Proof. reflexivity. Qed.

  (** Items on lines of their own. *)
  Inductive items : list (entry * list metadata) -> str -> Prop :=
  | items_none : forall w, Forall white w -> items [] w
  | items_last : forall w e m core trail, Forall white w -> item e m core trail ->
      items [(e, m)] (w ++ core ++ trail)
  | items_more : forall w e m core trail its rest, Forall white w -> item e m core trail -> items its rest ->
      items ((e, m) :: its) (w ++ core ++ trail ++ newline :: rest).

  Definition istrings (its : list (entry * list metadata)) := strings_of (map fst its).
  Definition inodes (its : list (entry * list metadata)) := nodes_of (map fst its).

  Lemma istrings_app a b : istrings (a ++ b) = istrings a ++ istrings b.
  Proof. unfold istrings. rewrite map_app. apply strings_app. Qed.
  Lemma inodes_app a b : inodes (a ++ b) = inodes a ++ inodes b.
  Proof. unfold inodes. rewrite map_app. apply nodes_app. Qed.

  Lemma entries_items es text : entries_text E lit (defined ss) es text -> exists its, map fst its = es /\ items its text.
  Proof.
    induction 1 as [w Hw|w e t Hw He|w e t es rest Hw He Hes IH].
    - exists []. split; [reflexivity|constructor; exact Hw].
    - destruct (entry_split e t He) as (core & trail & m & -> & Hi). exists [(e, m)]. split; [reflexivity|].
      apply items_last; assumption.
    - destruct (entry_split e t He) as (core & trail & m & -> & Hi). destruct IH as (its & <- & IH).
      exists ((e, m) :: its). split; [reflexivity|]. rewrite <- app_assoc. apply items_more; assumption.
  Qed.

  Definition block1_read (its : list (entry * list metadata)) (text : str) (m : nat) (d : list tok) : Prop :=
    exists pre post v' text', its = pre ++ post /\ inodes pre = [] /\
      (exists sds, d = concat sds /\ Forall2 wstring sds (istrings pre)) /\
      metas d = concat (map snd pre) /\
      skipn m text = v' ++ text' /\ Forall white v' /\ items post text' /\
      m + length (v' ++ text') = length text /\
      (post = [] \/ exists x nm r m post', post = (ENode x nm r, m) :: post').

  Definition block2_read (its : list (entry * list metadata)) (d : list tok) : Prop :=
    metas d = concat (map snd its) /\
    exists nds, d = concat nds /\ Forall2 (fun d node => unode ss d (fst (fst node)) (numbered node)) nds (inodes its).

  (** One entry, then the rest of the block. *)
  Lemma block1_step e m0 core trail its tail id fresh nl p v :
    Forall white v -> nl = true \/ In newline v ->
    Forall white trail -> core <> [] -> (forall s, stops white (core ++ s)) ->
    (match e with
     | ENode _ _ _ => (forall b, Forall white b -> bad STRINGS (b ++ core ++ tail))
     | _ => (forall b p, Forall white b -> exists d, rd E STRINGS p (b ++ core ++ tail) (Yes (length (b ++ core)) d) /\
               (string_data e d /\ metas d = m0))
     end) ->
    items ((e, m0) :: its) (core ++ tail) ->
    (forall nl' p, exists m d2 tr, block1_read its tail m d2 /\
      reads_lines E boot STRINGS false id fresh nl' indent_default p tail (Yes m d2) indent_default tr) ->
    exists m d tr, block1_read ((e, m0) :: its) (v ++ core ++ tail) m d /\
      reads_lines E boot STRINGS false id fresh nl indent_default p (v ++ core ++ tail) (Yes m d) indent_default tr.
  Proof.
    intros Hv Hnl Htr Hne Hst Hit Hall Hrest.
    assert (Hcase : (exists x nm r, e = ENode x nm r) \/
      ((forall b p, Forall white b -> exists d, rd E STRINGS p (b ++ core ++ tail) (Yes (length (b ++ core)) d) /\
         (string_data e d /\ metas d = m0)) /\
       nodes_of [e] = [])).
    { destruct e; [right; split; [exact Hit|reflexivity]|left; eauto|right; split; [exact Hit|reflexivity]]. }
    destruct Hcase as [(x & nm & r & ->)|[Hit' Hnn]].
    - destruct (find_line nl v (core ++ tail) Hv (Hst tail) Hnl) as (a & b & -> & Hls & Hb).
      destruct (Hit b Hb (p + length a)) as (tr & R).
      assert (Hsk : skipn (length a) ((a ++ b) ++ core ++ tail) = b ++ core ++ tail) by (rewrite <- app_assoc; apply skipn_len).
      exists (length a), [], tr. split.
      + exists [], ((ENode x nm r, m0) :: its), b, (core ++ tail).
        split; [reflexivity|]. split; [reflexivity|]. split; [exists []; split; [reflexivity|constructor]|].
        split; [reflexivity|]. split; [exact Hsk|]. split; [exact Hb|]. split; [exact Hall|].
        split; [rewrite !app_length; lia|right; eauto 6].
      + eapply reads_lines_stop; [|exact Hls|rewrite Hsk; apply reads_line_plain; exact R].
        apply not_all_white; [destruct core; [contradiction|discriminate]|apply Hst].
    - destruct (lines_item STRINGS id fresh nl p v core tail (fun d => string_data e d /\ metas d = m0)
        (fun m d2 => block1_read its tail m d2) Hv Hnl Hne Hst Hit') as (d & m & d2 & tr & (Hd & Hm0) & HQ & R).
      { exact Hrest. }
      eexists _, _, tr. split; [|exact R].
      destruct HQ as (pre & post & v' & text' & -> & Hpre & (sds & -> & Hsds) & Hm & Hsk & Hv' & Hpost & Hlen & Hhd).
      exists ((e, m0) :: pre), post, v', text'. split; [reflexivity|].
      split; [change (inodes ([(e, m0)] ++ pre) = []); rewrite inodes_app, Hpre, app_nil_r; exact Hnn|].
      split.
      { destruct e as [n0 v0|x nm r|]; [|discriminate Hnn|].
        - exists (d :: sds). split; [reflexivity|]. constructor; assumption.
        - cbn in Hd. subst d. exists sds. split; [reflexivity|exact Hsds]. }
      split; [rewrite metas_app, Hm0, Hm; reflexivity|].
      split; [|split; [exact Hv'|]; split; [exact Hpost|]; split; [rewrite !app_length in *; lia|exact Hhd]].
      rewrite app_assoc, skipn_app, skipn_all2 by lia.
      replace (length (v ++ core) + m - length (v ++ core)) with m by lia. exact Hsk.
  Qed.

  Lemma block1_white id its tail w fresh nl p : tail = w -> its = [] -> Forall white w ->
    exists m d tr, block1_read its tail m d /\
      reads_lines E boot STRINGS false id fresh nl indent_default p tail (Yes m d) indent_default tr.
  Proof.
    intros -> -> Hw. exists (length w), [], []. split; [|apply reads_lines_end; exact Hw].
    exists [], [], [], []. split; [reflexivity|]. split; [reflexivity|]. split; [exists []; split; [reflexivity|constructor]|].
    split; [reflexivity|]. split; [apply skipn_all|]. split; [constructor|]. split; [apply items_none; constructor|]. split; [cbn; lia|auto].
  Qed.

  (** The block of strings ends at the first node. *)
  Lemma block1 its text id fresh : items its text -> forall v nl p, Forall white v -> nl = true \/ In newline v ->
    exists m d tr, block1_read its (v ++ text) m d /\
      reads_lines E boot STRINGS false id fresh nl indent_default p (v ++ text) (Yes m d) indent_default tr.
  Proof.
    induction 1 as [w Hw|w e m0 core trail Hw Hi|w e m0 core trail its rest Hw Hi Hes IH]; intros v nl p Hv Hnl;
      (assert (Hvw : Forall white (v ++ w)) by (apply Forall_app; auto));
      (assert (Hnl' : nl = true \/ In newline (v ++ w)) by (destruct Hnl; [auto|right; apply in_or_app; auto])).
    - eapply block1_white; [reflexivity|reflexivity|exact Hvw].
    - assert (Hi' := Hi); destruct Hi' as (Htr & Hne & Hst & H1 & _ & _).
      specialize (H1 [] I). rewrite app_nil_r in H1. rewrite app_assoc.
      eapply block1_step; try eassumption; [apply (items_last []); [constructor|exact Hi]|].
      intros. eapply block1_white; [reflexivity|reflexivity|exact Htr].
    - assert (Hi' := Hi); destruct Hi' as (Htr & Hne & Hst & H1 & _ & _).
      specialize (H1 (newline :: rest) (over_newline rest)). rewrite app_assoc.
      eapply block1_step; try eassumption.
      + apply (items_more []); [constructor|exact Hi|exact Hes].
      + intros nl1 p1. replace (trail ++ newline :: rest) with ((trail ++ [newline]) ++ rest) by (rewrite <- app_assoc; reflexivity).
        apply IH; [apply Forall_app; split; [exact Htr|repeat constructor]|].
        right. apply in_or_app. right. left. reflexivity.
  Qed.

  (** The block of nodes reads to the end. *)
  Lemma block2 its text id fresh : items its text -> istrings its = [] ->
    forall v nl p, Forall white v -> nl = true \/ In newline v ->
    exists d tr, block2_read its d /\
      reads_lines E boot NODES false id fresh nl indent_default p (v ++ text) (Yes (length (v ++ text)) d) indent_default tr.
  Proof.
    assert (Hwhite : forall w nl p, Forall white w -> exists d tr, block2_read [] d /\
      reads_lines E boot NODES false id fresh nl indent_default p w (Yes (length w) d) indent_default tr).
    { intros w nl p Hw. exists [], []. split; [split; [reflexivity|]; exists []; split; [reflexivity|constructor]|].
      apply reads_lines_end. exact Hw. }
    assert (Hstep : forall e m0 es core tail v nl p, istrings ((e, m0) :: es) = [] ->
      Forall white v -> nl = true \/ In newline v -> core <> [] -> (forall s, stops white (core ++ s)) ->
      (match e with EString _ _ => True
       | _ => (forall b p, Forall white b -> exists d, rd E NODES p (b ++ core ++ tail) (Yes (length (b ++ core)) d) /\
                 (node_data e d /\ metas d = m0))
       end) ->
      (forall nl' p, exists d tr, block2_read es d /\
        reads_lines E boot NODES false id fresh nl' indent_default p tail (Yes (length tail) d) indent_default tr) ->
      exists d tr, block2_read ((e, m0) :: es) d /\
        reads_lines E boot NODES false id fresh nl indent_default p (v ++ core ++ tail) (Yes (length (v ++ core ++ tail)) d) indent_default tr).
    { intros e m0 es1 core tail v nl p Hss Hv Hnl Hne Hst Hit Hrest.
      assert (Hit' : forall b p, Forall white b -> exists d, rd E NODES p (b ++ core ++ tail) (Yes (length (b ++ core)) d) /\
        (node_data e d /\ metas d = m0)).
      { destruct e; [discriminate Hss|exact Hit|exact Hit]. }
      destruct (lines_item NODES id fresh nl p v core tail (fun d => node_data e d /\ metas d = m0)
        (fun m d2 => m = length tail /\ block2_read es1 d2) Hv Hnl Hne Hst Hit') as (d & m & d2 & tr & (Hd & Hm0) & (-> & HQ) & R).
      { intros nl' p'. destruct (Hrest nl' p') as (d2 & tr & HB & R). exists (length tail), d2, tr. auto. }
      exists (d ++ d2), tr. split.
      - destruct HQ as (Hm & nds & -> & Hn). split; [rewrite metas_app, Hm0, Hm; reflexivity|].
        destruct e as [|x nm r|]; [discriminate Hss| |].
        + exists (d :: nds). split; [reflexivity|]. constructor; assumption.
        + cbn in Hd. subst d. exists nds. split; [reflexivity|exact Hn].
      - replace (length (v ++ core ++ tail)) with (length (v ++ core) + length tail) by (rewrite !app_length; lia). exact R. }
    induction 1 as [w Hw|w e m0 core trail Hw Hi|w e m0 core trail its rest Hw Hi Hes IH]; intros Hss v nl p Hv Hnl;
      (assert (Hvw : Forall white (v ++ w)) by (apply Forall_app; auto));
      (assert (Hnl' : nl = true \/ In newline (v ++ w)) by (destruct Hnl; [auto|right; apply in_or_app; auto])).
    - apply Hwhite. exact Hvw.
    - destruct Hi as (Htr & Hne & Hst & _ & H1 & _).
      specialize (H1 [] I). rewrite app_nil_r in H1. rewrite app_assoc.
      eapply Hstep; try eassumption. intros. apply Hwhite. exact Htr.
    - destruct Hi as (Htr & Hne & Hst & _ & H1 & _).
      specialize (H1 (newline :: rest) (over_newline rest)). rewrite app_assoc.
      eapply Hstep; try eassumption.
      intros nl1 p1. replace (trail ++ newline :: rest) with ((trail ++ [newline]) ++ rest) by (rewrite <- app_assoc; reflexivity).
      apply IH; [destruct e; [discriminate Hss|exact Hss|exact Hss]|apply Forall_app; split; [exact Htr|repeat constructor]|].
      right. apply in_or_app. right. left. reflexivity.
  Qed.

  (** The whole text. *)
  Theorem items_read text first second : inodes first = [] -> istrings second = [] -> items (first ++ second) text ->
    exists data tr sds nds,
      reads E boot (nth 22 boot (RSelect [] 0)) indent_default 0 text (Yes (length text) data) indent_default tr /\
      metas data = concat (map snd (first ++ second)) /\ data = concat sds ++ concat nds /\
      Forall2 wstring sds (istrings first) /\
      Forall2 (fun d node => unode ss d (fst (fst node)) (numbered node)) nds (inodes second).
  Proof.
    intros Hn1 Hs2 Htext.
    destruct (block1 _ _ 22002%N true Htext [] true 0 (Forall_nil _) (or_introl eq_refl)) as (m & d1 & tr1 & HB & R1).
    cbn [app] in R1. destruct HB as (pre & post & v' & text' & Heq & Hpre & (sds & -> & Hsds) & Hm1 & Hsk & Hv' & Hpost & Hlen & Hhd).
    cbn [app] in *.
    assert (Hpost_s : istrings post = []).
    { destruct Hhd as [->|(x & nm & r & m1 & post' & ->)]; [reflexivity|].
      assert (Heq' := Heq). apply app_eq_app in Heq'. destruct Heq' as (l & [[-> H2]|[H1 H2]]).
      - rewrite inodes_app in Hn1. destruct l as [|e l]; [cbn in H2; rewrite H2; exact Hs2|].
        cbn [app] in H2. inversion H2; subst. cbn in Hn1. apply app_eq_nil in Hn1. destruct Hn1 as [_ Hn1]. discriminate Hn1.
      - rewrite H2, istrings_app in Hs2. apply app_eq_nil in Hs2. exact (proj2 Hs2). }
    assert (Hst : istrings pre = istrings first).
    { assert (H := f_equal istrings Heq). rewrite !istrings_app, Hs2, Hpost_s, !app_nil_r in H. symmetry. exact H. }
    assert (Hnd : inodes post = inodes second).
    { assert (H := f_equal inodes Heq). rewrite !inodes_app, Hn1, Hpre in H. symmetry. exact H. }
    destruct (block2 _ _ 22008%N true Hpost Hpost_s v' true m Hv' (or_introl eq_refl)) as (d2 & tr2 & (Hm2 & nds & -> & Hnds) & R2).
    exists (concat sds ++ concat nds), (tr1 ++ tr2 ++ [] ++ []), sds, nds. split; [|split; [|split; [reflexivity|]]].
    - change (nth 22 boot (RSelect [] 0)) with (RSequence [RLines STRINGS false 22002; RLines NODES false 22008; RWhitespace true 22014] 22001).
      apply reads_sequence.
      replace (Yes (length text) (concat sds ++ concat nds)) with
        (after m (concat sds) (after (length (v' ++ text')) (concat nds) (after 0 [] (Yes 0 [])))).
      2:{ cbn [after]. f_equal; [lia|rewrite !app_nil_r; reflexivity]. }
      econstructor; [apply reads_lines_rule; exact R1|].
      econstructor; [apply reads_lines_rule; rewrite Hsk; exact R2|].
      rewrite Hsk, skipn_all. econstructor.
      + apply (reads_whitespace E boot true); [|left; reflexivity]. split; [cbn; lia|]. split; [constructor|]. intros c Hc. discriminate Hc.
      + constructor.
    - rewrite Heq, metas_app, Hm1, Hm2, map_app, concat_app. reflexivity.
    - rewrite Hst in Hsds. rewrite Hnd in Hnds. auto.
  Qed.
End Reading.

(** The document is read by the built-in rules, and the data write it. *)
Theorem document_read E strings nodes text : ext_ok E -> string_literals_ok E -> no_slash_number E ->
  document E strings nodes text ->
  exists data tr, reads E boot (nth 22 boot (RSelect [] 0)) indent_default 0 text (Yes (length text) data) indent_default tr /\
    wdocument data (map (fun node => fst (fst node)) nodes) (map numbered nodes).
Proof.
  intros HE HS HN [fst_ snd_ text' Hn1 Hs2 Hs1 Hn2 Htext]. clear text. rename text' into text.
  assert (HL : forall v t, quoted v t -> literal E v t) by (intros; apply quoted_literal; assumption).
  destruct (entries_items E HE quoted HL HN strings _ _ Htext) as (its & Hits & Hi).
  assert (Hsplit : exists i1 i2, its = i1 ++ i2 /\ map fst i1 = fst_ /\ map fst i2 = snd_).
  { exists (firstn (length fst_) its), (skipn (length fst_) its). split; [symmetry; apply firstn_skipn|].
    split; [rewrite <- firstn_map, Hits, firstn_app, firstn_all, Nat.sub_diag; apply app_nil_r|].
    rewrite <- skipn_map, Hits, skipn_app, skipn_all, Nat.sub_diag. reflexivity. }
  destruct Hsplit as (i1 & i2 & -> & <- & <-).
  destruct (items_read E strings text i1 i2 Hn1 Hs2 Hi) as (data & tr & sds & nds & R & _ & -> & Hsds & Hnds).
  exists (concat sds ++ concat nds), tr. split; [exact R|].
  unfold istrings in Hsds. unfold inodes in Hnds. rewrite Hs1 in Hsds. rewrite Hn2 in Hnds.
  apply w_document with (ss := strings).
  - exact Hsds.
  - rewrite !map_length. reflexivity.
  - clear - Hnds. induction Hnds; constructor; [apply once_node|]; assumption.
Qed.
