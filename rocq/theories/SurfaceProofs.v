(** Texts of the form of the meta language are accepted by the built-in rules. *)
From Coq Require Import Ascii String List NArith Bool Arith Lia.
From Verif Require Import Base Ext Types ParseModel BootstrapRules PegSpec DataSpec ApiSpec OptSpec PrimProofs JsonSpec WriteSpec SyntaxSpec
  TextSpec SurfaceSpec ParseProofs SyntaxProofs TextProofs TextProofs2 TextProofs3 TextProofs4 TextProofs5 TextProofs6 TextProofs7
  OptProofs2 OptPublic PegComplete TextSame TextInv TextInv3.
Import ListNotations.
Local Open Scope string_scope.
Local Open Scope list_scope.
Local Open Scope nat_scope.

(** ** Definitions for all names *)

Definition defines (ss : list (str * str)) (names : list str) : Prop :=
  forall n, In n names -> exists v, defined ss n v.

Lemma defines_app ss a b : defines ss (a ++ b) -> defines ss a /\ defines ss b.
Proof. intros H. split; intros n Hn; apply H, in_or_app; auto. Qed.

Lemma defines_incl ss a b : incl a b -> defines ss b -> defines ss a.
Proof. intros Hi H n Hn. apply H, Hi, Hn. Qed.

Lemma all_defined names : exists ss, defines ss names.
Proof.
  exists (map (fun n => (n, [])) names). induction names as [|m names IH]; intros n Hn; [destruct Hn|].
  destruct (list_eq_dec N.eq_dec m n) as [->|Hne].
  - exists [], [], (map (fun n => (n, [])) names). auto.
  - destruct Hn as [Hn|Hn]; [contradiction|]. destruct (IH n Hn) as (v & b & a & He & Hb).
    exists v, ((m, []) :: b), a. cbn [map]. rewrite He. split; [reflexivity|]. cbn. intros [Hx|Hx]; contradiction.
Qed.

Section Names.
  Variable lit : str -> str -> Prop.

  Notation any_text := (mtext lit any_string). Notation any_prop := (mprop lit any_string).
  Notation any_rule := (mrule lit any_string). Notation any_args := (margs lit any_string).

  Lemma name_text b v t : any_text b v t -> exists L, forall ss, defines ss L -> exists v', mtext lit (defined ss) b v' t.
  Proof.
    intros [v' t' H1 H2|v' n H _].
    - exists []. intros ss _. exists v'. apply mtext_quoted; assumption.
    - exists [n]. intros ss Hs. destruct (Hs n (or_introl eq_refl)) as (w & Hw). exists w. apply mtext_name; assumption.
  Qed.

  Lemma name_prop p t : any_prop p t -> exists L, forall ss, defines ss L -> exists p', mprop lit (defined ss) p' t.
  Proof.
    intros [|v t' H].
    - exists []. intros ss _. exists None. apply mprop_none.
    - destruct (name_text _ _ _ H) as (L & HL). exists L. intros ss Hs. destruct (HL ss Hs) as (v' & Hv). exists (Some v'). apply mprop_some, Hv.
  Qed.

  Lemma name_rule :
    (forall r t, any_rule r t -> exists L, forall ss, defines ss L ->
       exists r', mrule lit (defined ss) r' t /\ (positive_tag r' -> positive_tag r)) /\
    (forall rs t, any_args rs t -> exists L, forall ss, defines ss L -> exists rs', margs lit (defined ss) rs' t).
  Proof.
    apply mrule_mutind; intros;
      repeat match goal with
      | X : any_text _ _ _ |- _ => apply name_text in X; destruct X as (?L & X)
      | X : any_prop _ _ |- _ => apply name_prop in X; destruct X as (?L & X)
      | X : exists L, _ |- _ => destruct X as (?L & X)
      end;
      match goal with
      | L1 : list str, L2 : list str |- _ => exists (L1 ++ L2)
      | L1 : list str |- _ => exists L1
      | |- _ => exists []
      end; intros ss Hs; try (apply defines_app in Hs; destruct Hs as [Hs1 Hs2]);
      repeat match goal with
      | X : forall ss, defines ss ?L -> _, Y : defines _ ?L |- _ => specialize (X _ Y); destruct X as (?r & X)
      end; repeat match goal with X : _ /\ _ |- _ => destruct X end.
    - eexists. split; [apply (m_whitespace _ _ b 0%N)|intros []].
    - eexists. split; [eapply (m_until_any_or_ws _ _ _ o _ 0%N); eassumption|intros []].
    - eexists. split; [eapply (m_until_any _ _ _ o _ 0%N); eassumption|intros []].
    - eexists. split; [eapply (m_lines _ _ _ i 0%N); eassumption|intros []].
    - eexists. split; [eapply (m_repeat _ _ _ o 0%N); eassumption|intros []].
    - eexists. split; [eapply (m_number _ _ u _ 0%N); eassumption|intros []].
    - eexists. split; [eapply (m_text _ _ b _ 0%N); eassumption|intros []].
    - eexists. split; [eapply (m_reference _ _ name _ 0%N); eassumption|intros []].
    - eexists. split; [eapply (m_sequence _ _ _ 0%N); eassumption|intros []].
    - eexists. split; [eapply (m_select _ _ _ 0%N); eassumption|intros []].
    - eexists. split; [eapply (m_separate_by _ _ _ _ o dot 0%N); eassumption|intros []].
    - eexists. split; [eapply (m_tag _ _ _ n 0%N); eassumption|]. destruct n; auto.
    - eexists. split; [eapply (m_tag_prop _ _ _ n i _ 0%N); eassumption|]. destruct n; auto.
    - eexists. split; [eapply (m_optional _ _ _ 0%N); eassumption|intros []].
    - eexists. split; [eapply (m_not _ _ _ 0%N); [eassumption|auto]|intros []].
    - eexists. eapply m_last; eassumption.
    - eexists. eapply m_more; eassumption.
  Qed.

  Definition same_kind (e e' : entry) : Prop := (not_node e <-> not_node e') /\ (not_string e <-> not_string e').

  Variable E : ext.

  Lemma name_entry e t : entry_text E lit any_string e t ->
    exists L, forall ss, defines ss L -> exists e', entry_text E lit (defined ss) e' t /\ same_kind e e'.
  Proof.
    intros [n v t' w1 w2 Hn Hq Hw1 Hw2|x num n r w1 w2 w3 t' w4 Hx Hn Hm Hw1 Hn1 Hw2 Hn2 Hw3 Hw4|b w Hb Hw|c Hc].
    - exists []. intros ss _. exists (EString n v). split; [apply entry_string; assumption|split; cbn; tauto].
    - destruct (proj1 name_rule _ _ Hm) as (L & HL). exists L. intros ss Hs. destruct (HL ss Hs) as (r' & Hr & _).
      exists (ENode x n r'). split; [apply entry_node; assumption|split; cbn; tauto].
    - exists []. intros ss _. exists EComment. split; [apply entry_comment; assumption|split; cbn; tauto].
    - exists []. intros ss _. exists EComment. split; [apply entry_line_comment; assumption|split; cbn; tauto].
  Qed.

  Lemma name_entries es text : entries_text E lit any_string es text ->
    exists L, forall ss, defines ss L -> exists es', entries_text E lit (defined ss) es' text /\ Forall2 same_kind es es'.
  Proof.
    induction 1 as [w Hw|w e t Hw He|w e t es rest Hw He Hes IH].
    - exists []. intros ss _. exists []. split; [apply entries_none; exact Hw|constructor].
    - destruct (name_entry _ _ He) as (L & HL). exists L. intros ss Hs. destruct (HL ss Hs) as (e' & He' & Hk).
      exists [e']. split; [apply entries_last; assumption|constructor; [exact Hk|constructor]].
    - destruct (name_entry _ _ He) as (L & HL). destruct IH as (L2 & HL2). exists (L ++ L2). intros ss Hs. apply defines_app in Hs.
      destruct Hs as [Hs1 Hs2]. destruct (HL ss Hs1) as (e' & He' & Hk). destruct (HL2 ss Hs2) as (es' & Hes' & Hks).
      exists (e' :: es'). split; [apply entries_more; assumption|constructor; assumption].
  Qed.
End Names.

Section Accept.
  Variable E : ext.
  Hypothesis HE : ext_ok E.
  Hypothesis HW : whole_readers E.

  Lemma no_slash : no_slash_number E.
  Proof. intros rest. apply (whole_number_start E HW). auto. Qed.
  Lemma no_underscore : forall rest, x_number E false (95%N :: rest) = None.
  Proof. intros rest. apply (whole_number_start E HW). auto. Qed.

  (** ** Order *)

  Lemma block2_stops ss its text id fresh : items E ss its text -> istrings its <> [] ->
    forall v nl p, Forall white v -> nl = true \/ In newline v ->
    exists m d tr, m <= length (v ++ text) /\ ~ Forall white (skipn m (v ++ text)) /\
      reads_lines E boot NODES false id fresh nl indent_default p (v ++ text) (Yes m d) indent_default tr.
  Proof.
    assert (Hstop : forall core tail v nl p, Forall white v -> nl = true \/ In newline v -> core <> [] -> (forall s, stops white (core ++ s)) ->
      (forall b, Forall white b -> bad E NODES (b ++ core ++ tail)) ->
      exists m d tr, m <= length (v ++ core ++ tail) /\ ~ Forall white (skipn m (v ++ core ++ tail)) /\
        reads_lines E boot NODES false id fresh nl indent_default p (v ++ core ++ tail) (Yes m d) indent_default tr).
    { intros core tail v nl p Hv Hnl Hne Hst Hbad.
      destruct (find_line nl v (core ++ tail) Hv (Hst tail) Hnl) as (a & b & -> & Hls & Hb).
      destruct (Hbad b Hb (p + length a)) as (tr & R).
      assert (Hsk : skipn (length a) ((a ++ b) ++ core ++ tail) = b ++ core ++ tail) by (rewrite <- app_assoc; apply skipn_len).
      assert (Hnw : forall x, ~ Forall white (x ++ core ++ tail)).
      { intros x. apply not_all_white; [destruct core; [contradiction|discriminate]|apply Hst]. }
      exists (length a), [], tr. split; [rewrite !app_length; lia|]. split; [rewrite Hsk; apply Hnw|].
      eapply reads_lines_stop; [apply Hnw|exact Hls|rewrite Hsk; apply reads_line_plain; exact R]. }
    induction 1 as [w Hw|w e m0 core trail Hw Hi|w e m0 core trail its rest Hw Hi Hes IH]; intros Hss v nl p Hv Hnl;
      (assert (Hvw : Forall white (v ++ w)) by (apply Forall_app; auto));
      (assert (Hnl' : nl = true \/ In newline (v ++ w)) by (destruct Hnl; [auto|right; apply in_or_app; auto])).
    - contradiction Hss. reflexivity.
    - destruct Hi as (Htr & Hne & Hst & _ & _ & H1). specialize (H1 no_underscore).
      destruct e as [n v0| |]; [|contradiction Hss; reflexivity|contradiction Hss; reflexivity].
      rewrite app_assoc. apply Hstop; try assumption. intros b Hb. specialize (H1 b [] Hb). rewrite app_nil_r in H1. exact H1.
    - destruct Hi as (Htr & Hne & Hst & _ & H2 & H1). specialize (H1 no_underscore).
      specialize (H2 (newline :: rest) (over_newline rest)). rewrite app_assoc.
      assert (Hcase : (exists n v0, e = EString n v0) \/
        ((forall b p, Forall white b -> exists d, rd E NODES p (b ++ core ++ trail ++ newline :: rest) (Yes (length (b ++ core)) d) /\
           (node_data ss e d /\ metas d = m0)) /\ istrings its <> [])).
      { destruct e; [left; eauto|right; split; [exact H2|exact Hss]|right; split; [exact H2|exact Hss]]. }
      destruct Hcase as [(n & v0 & ->)|[Hit Hss']].
      + apply Hstop; try assumption. intros b Hb. exact (H1 b (newline :: rest) Hb).
      + destruct (lines_item E NODES id fresh nl p (v ++ w) core (trail ++ newline :: rest) (fun d => node_data ss e d /\ metas d = m0)
          (fun m d2 => m <= length (trail ++ newline :: rest) /\ ~ Forall white (skipn m (trail ++ newline :: rest))) Hvw Hnl' Hne Hst Hit)
          as (d & m & d2 & tr & _ & (Hm & HQ) & R).
        { intros nl1 p1. replace (trail ++ newline :: rest) with ((trail ++ [newline]) ++ rest) by (rewrite <- app_assoc; reflexivity).
          destruct (IH Hss' (trail ++ [newline]) nl1 p1) as (m & d & tr & Hm & HQ & R).
          - apply Forall_app; split; [exact Htr|repeat constructor].
          - right. apply in_or_app. right. left. reflexivity.
          - exists m, d, tr. auto. }
        eexists _, _, tr. split; [|split; [|exact R]].
        * rewrite (app_assoc (v ++ w) core), (app_length ((v ++ w) ++ core)). lia.
        * rewrite (app_assoc (v ++ w) core), skipn_app, skipn_all2 by lia.
          replace (length ((v ++ w) ++ core) + m - length ((v ++ w) ++ core)) with m by lia. exact HQ.
  Qed.

  Lemma white_prefix (s : str) : exists w, longest white s w.
  Proof.
    induction s as [|c s (w & Hw)].
    - exists 0. split; [cbn; lia|]. split; [constructor|]. intros c Hc. discriminate Hc.
    - destruct (is_ws c) eqn:Hc.
      + exists (S w). destruct Hw as (H1 & H2 & H3). split; [cbn; lia|]. split; [cbn; constructor; [exact Hc|exact H2]|exact H3].
      + exists 0. apply stops_longest. unfold stops, white. congruence.
  Qed.

  Lemma boot_accepts text data : accepts E bootstrap_rules indent_default text data <->
    exists ind' tr, reads E boot (nth 22 boot (RSelect [] 0)) indent_default 0 text (Yes (length text) data) ind' tr.
  Proof.
    split.
    - intros [r out ind' tr Hr R]. rewrite boot_rules in R. unfold start_rule in Hr. rewrite boot_rules in Hr.
      destruct Hr as (l & Hl). assert (r = nth 22 boot (RSelect [] 0)).
      { rewrite Hl, app_nth2; assert (H := f_equal (@length rule) Hl); rewrite app_length in H; cbn [length] in H; vm_compute (length boot) in H;
          [|lia]. replace (22 - length l) with 0 by lia. reflexivity. }
      subst r. eauto.
    - intros (ind' & tr & R). eapply accepts_all with (r := nth 22 boot (RSelect [] 0)); [|rewrite boot_rules; exact R].
      unfold start_rule. rewrite boot_rules. exists (firstn 22 boot). reflexivity.
  Qed.

  Theorem items_order ss its text data : items E ss its text -> accepts E bootstrap_rules indent_default text data ->
    in_order (map fst its).
  Proof.
    intros Hi Ha. apply boot_accepts in Ha. destruct Ha as (ind' & tr & R).
    destruct (block1 E ss its text 22002%N true Hi [] true 0 (Forall_nil _) (or_introl eq_refl)) as (m & d1 & tr1 & HB & R1).
    cbn [app] in R1. destruct HB as (pre & post & v' & text' & -> & Hpre & _ & _ & Hsk & Hv' & Hpost & Hlen & _). cbn [app] in *.
    destruct (list_eq_dec (fun a b : str * str => ltac:(repeat decide equality)) (istrings post) []) as [Hs|Hs].
    - exists (map fst pre), (map fst post). split; [apply map_app|]. split; [exact Hpre|exact Hs].
    - exfalso. destruct (block2_stops ss post text' 22008%N true Hpost Hs v' true m Hv' (or_introl eq_refl)) as (m2 & d2 & tr2 & Hm2 & Hnw & R2).
      destruct (white_prefix (skipn m2 (v' ++ text'))) as (w & Hw).
      assert (Hw1 : w < length (skipn m2 (v' ++ text'))).
      { destruct Hw as (H1 & H2 & _). destruct (Nat.eq_dec w (length (skipn m2 (v' ++ text')))) as [->|]; [|lia].
        rewrite firstn_all in H2. contradiction. }
      assert (Hdoc : exists tr', reads E boot (nth 22 boot (RSelect [] 0)) indent_default 0 text (Yes (m + (m2 + (w + 0))) (d1 ++ d2 ++ [] ++ [])) indent_default tr').
      { change (nth 22 boot (RSelect [] 0)) with (RSequence [RLines STRINGS false 22002; RLines NODES false 22008; RWhitespace true 22014] 22001).
        eexists. apply reads_sequence.
        change (Yes (m + (m2 + (w + 0))) (d1 ++ d2 ++ [] ++ [])) with (after m d1 (after m2 d2 (after w [] (Yes 0 [])))).
        econstructor; [apply reads_lines_rule; exact R1|].
        econstructor; [apply reads_lines_rule; rewrite Hsk; exact R2|].
        rewrite Hsk. econstructor; [|constructor]. apply (reads_whitespace E boot true); [exact Hw|left; reflexivity]. }
      destruct Hdoc as (tr' & R'). destruct (reads_deterministic E boot _ _ _ _ _ _ _ _ _ _ R R') as (Heq & _).
      injection Heq as Heq _. rewrite skipn_length in Hw1. lia.
  Qed.

  (** ** Acceptance *)

  Lemma text_data_accepts text tokens : Forall real_char text ->
    (text_data E text tokens <-> accepts E bootstrap_rules indent_default text tokens).
  Proof.
    intros Hr. destruct (bootstrap_optimized E HE) as (bo & Hbo & Hsame). destruct (Hsame text [] indent_default Hr) as [Hp _]. split.
    - intros (bo' & Hbo' & H). assert (bo' = bo) by (eapply optimize_returns_unique; eassumption). subst bo'.
      apply Hp in H. apply parse_accepts in H; [|exact HE]. destruct H as (out & H & ->). exact H.
    - intros H. exists bo. split; [exact Hbo|]. apply Hp. apply parse_accepts; [exact HE|]. exists tokens. auto.
  Qed.

  Lemma order_kinds es es' : Forall2 same_kind es es' -> in_order es -> in_order es'.
  Proof.
    intros Hk (a & b & -> & Ha & Hb). apply Forall2_app_inv_l in Hk. destruct Hk as (a' & b' & Ka & Kb & ->).
    exists a', b'. split; [reflexivity|]. split.
    - revert Ha. induction Ka as [|e e' a a' [He _] _ IH]; intros Ha; [reflexivity|].
      destruct e; try discriminate; (destruct e'; [| destruct (proj1 He I) |]; apply IH; exact Ha).
    - revert Hb. induction Kb as [|e e' b b' [_ He] _ IH]; intros Hb; [reflexivity|].
      destruct e; try discriminate; (destruct e'; [destruct (proj1 He I)| |]; apply IH; exact Hb).
  Qed.

  Lemma kinds_back es es' : Forall2 same_kind es es' -> Forall2 same_kind es' es.
  Proof. induction 1 as [|e e' es es' [H1 H2] _ IH]; constructor; [split; tauto|exact IH]. Qed.

  Lemma order_split (its : list (entry * list metadata)) : in_order (map fst its) ->
    exists i1 i2, its = i1 ++ i2 /\ inodes i1 = [] /\ istrings i2 = [].
  Proof.
    intros (a & b & He & Ha & Hb). exists (firstn (length a) its), (skipn (length a) its). split; [symmetry; apply firstn_skipn|].
    unfold inodes, istrings. rewrite <- firstn_map, <- skipn_map, He, firstn_app, firstn_all, Nat.sub_diag, skipn_app, skipn_all, Nat.sub_diag.
    cbn. rewrite app_nil_r. auto.
  Qed.

  Lemma items_accepted ss its text : items E ss its text -> in_order (map fst its) ->
    exists data, accepts E bootstrap_rules indent_default text data /\ metas data = concat (map snd its).
  Proof.
    intros Hi Ho. apply order_split in Ho. destruct Ho as (i1 & i2 & -> & H1 & H2).
    destruct (items_read E ss text i1 i2 H1 H2 Hi) as (data & tr & sds & nds & R & Hm & _).
    exists data. split; [|exact Hm]. apply boot_accepts. eauto.
  Qed.

  Theorem form_accepted es text : Forall real_char text -> entries_text E (literal E) any_string es text ->
    (accepted E text <-> in_order es).
  Proof.
    intros Hr H. destruct (name_entries _ _ _ _ H) as (L & HL). destruct (all_defined L) as (ss & Hs).
    destruct (HL ss Hs) as (es' & He & Hk).
    destruct (entries_items E HE (literal E) (fun v t X => X) no_slash ss es' text He) as (its & Hits & Hi). split.
    - intros (data & Hd). apply text_data_accepts in Hd; [|exact Hr]. apply (items_order _ _ _ _ Hi) in Hd. rewrite Hits in Hd.
      exact (order_kinds _ _ (kinds_back _ _ Hk) Hd).
    - intros Ho. destruct (items_accepted ss its text Hi) as (data & Hd & _); [rewrite Hits; exact (order_kinds _ _ Hk Ho)|].
      exists data. apply text_data_accepts; assumption.
  Qed.

  Theorem accepted_form text : Forall real_char text -> no_short_comment text ->
    (accepted E text <-> exists es, surface E es text).
  Proof.
    intros Hr Hn. split.
    - intros (data & Hd). apply text_data_accepts in Hd; [|exact Hr]. apply boot_accepts in Hd. destruct Hd as (ind' & tr & R).
      exact (text_inv E HE HW text data ind' tr Hn R).
    - intros (es & H & Ho). exact (proj2 (form_accepted es text Hr H) Ho).
  Qed.

  (** ** A comment on its own lines *)

  Lemma items_white ss its text w : Forall white w -> items E ss its text -> items E ss its (w ++ text).
  Proof.
    intros Hw [w1 H1|w1 e m core trail H1 He|w1 e m core trail its' rest H1 He Hes].
    - apply items_none. apply Forall_app; auto.
    - rewrite app_assoc. apply items_last; [apply Forall_app; auto|exact He].
    - rewrite app_assoc. apply items_more; [apply Forall_app; auto|exact He|exact Hes].
  Qed.

  Lemma items_app ss i1 a i2 b : items E ss i1 a -> items E ss i2 b -> items E ss (i1 ++ i2) (a ++ newline :: b).
  Proof.
    intros H1 H2. induction H1 as [w Hw|w e m core trail Hw He|w e m core trail its rest Hw He Hes IH].
    - change (w ++ newline :: b) with (w ++ [newline] ++ b). rewrite app_assoc. apply items_white; [|exact H2].
      apply Forall_app. split; [exact Hw|repeat constructor].
    - rewrite <- !app_assoc. apply items_more; assumption.
    - cbn [app]. rewrite <- !app_assoc. cbn [app]. apply items_more; assumption.
  Qed.

  Lemma order_comment es1 es2 : in_order (es1 ++ es2) <-> in_order (es1 ++ EComment :: es2).
  Proof.
    split; intros (f & sn & He & Hf & Hs); apply app_eq_app in He.
    - destruct He as (l & [[-> ->]|[-> ->]]).
      + exists f, (l ++ EComment :: es2). rewrite <- app_assoc. split; [reflexivity|]. split; [exact Hf|].
        rewrite strings_app in *. exact Hs.
      + exists (es1 ++ EComment :: l), sn. rewrite <- app_assoc. split; [reflexivity|]. split; [|exact Hs].
        rewrite nodes_app in *. exact Hf.
    - destruct He as (l & [[-> ->]|[-> Hl]]).
      + exists f, (l ++ es2). rewrite <- app_assoc. split; [reflexivity|]. split; [exact Hf|]. rewrite strings_app in *. exact Hs.
      + destruct l as [|e l]; cbn in Hl.
        * subst sn. exists es1, es2. split; [reflexivity|]. rewrite app_nil_r in Hf. split; [exact Hf|exact Hs].
        * injection Hl as <- ->. exists (es1 ++ l), sn. rewrite <- app_assoc. split; [reflexivity|]. split; [|exact Hs].
          rewrite nodes_app in *. exact Hf.
  Qed.

  Lemma comment_item ss m core trail : item E ss EComment m core trail -> m = [].
  Proof.
    intros (_ & _ & _ & H & _). destruct (H [] I [] 0 (Forall_nil _)) as (d & _ & Hd & <-). cbn in Hd. subst d. reflexivity.
  Qed.

  Theorem comment_between es1 a es2 b c :
    entries_text E (literal E) any_string es1 a -> entries_text E (literal E) any_string es2 b ->
    entry_text E (literal E) any_string EComment c -> in_order (es1 ++ es2) -> Forall real_char (a ++ c ++ b) ->
    read_alike E (a ++ newline :: b) (a ++ newline :: c ++ newline :: b).
  Proof.
    intros Ha Hb Hc Ho Hr.
    assert (Hnl : real_char newline) by reflexivity.
    apply Forall_app in Hr. destruct Hr as [Hra Hr]. apply Forall_app in Hr. destruct Hr as [Hrc Hrb].
    destruct (name_entries _ _ _ _ Ha) as (L1 & HL1). destruct (name_entries _ _ _ _ Hb) as (L2 & HL2).
    destruct (all_defined (L1 ++ L2)) as (ss & Hs). apply defines_app in Hs. destruct Hs as [Hs1 Hs2].
    destruct (HL1 ss Hs1) as (es1' & Ha' & Hk1). destruct (HL2 ss Hs2) as (es2' & Hb' & Hk2).
    assert (Ho' : in_order (es1' ++ es2')) by (exact (order_kinds _ _ (Forall2_app Hk1 Hk2) Ho)).
    assert (Hc' : entry_text E (literal E) (defined ss) EComment c).
    { inversion Hc; subst; [apply entry_comment; assumption|apply entry_line_comment; assumption]. }
    destruct (entries_items E HE (literal E) (fun v t X => X) no_slash ss es1' a Ha') as (i1 & Hi1 & Hia).
    destruct (entries_items E HE (literal E) (fun v t X => X) no_slash ss es2' b Hb') as (i2 & Hi2 & Hib).
    destruct (entry_split E HE (literal E) (fun v t X => X) no_slash ss EComment c Hc') as (core & trail & m & -> & Hic).
    assert (m = []) by (eapply comment_item; exact Hic). subst m.
    destruct (items_accepted ss (i1 ++ i2) (a ++ newline :: b)) as (d & Hd & Hm);
      [apply items_app; assumption|rewrite map_app, Hi1, Hi2; exact Ho'|].
    destruct (items_accepted ss (i1 ++ (EComment, []) :: i2) (a ++ newline :: (core ++ trail) ++ newline :: b)) as (d' & Hd' & Hm').
    { apply items_app; [exact Hia|]. rewrite <- app_assoc. apply (items_more E ss []); [constructor|exact Hic|exact Hib]. }
    { rewrite map_app. cbn [map fst]. rewrite Hi1, Hi2. exact (proj1 (order_comment _ _) Ho'). }
    apply (same_data E HE _ _ d d' Hd Hd').
    - rewrite Hm, Hm', !map_app, !concat_app. reflexivity.
    - apply Forall_app. split; [exact Hra|]. constructor; [exact Hnl|exact Hrb].
    - apply Forall_app. split; [exact Hra|]. constructor; [exact Hnl|]. apply Forall_app. split; [exact Hrc|]. constructor; [exact Hnl|exact Hrb].
  Qed.

  Theorem comment_lines a b c :
    accepted E a -> accepted E b -> accepted E (a ++ newline :: b) -> no_short_comment a -> no_short_comment b ->
    entry_text E (literal E) any_string EComment c -> Forall real_char (a ++ c ++ b) ->
    read_alike E (a ++ newline :: b) (a ++ newline :: c ++ newline :: b).
  Proof.
    intros Ha Hb Hab Hna Hnb Hc Hr. assert (Hr0 := Hr).
    apply Forall_app in Hr. destruct Hr as [Hra Hr]. apply Forall_app in Hr. destruct Hr as [Hrc Hrb].
    apply accepted_form in Ha; [|assumption|assumption]. destruct Ha as (es1 & Ha & _).
    apply accepted_form in Hb; [|assumption|assumption]. destruct Hb as (es2 & Hb & _).
    apply (comment_between es1 a es2 b c Ha Hb Hc); [|exact Hr0].
    apply (form_accepted (es1 ++ es2) (a ++ newline :: b)); [|apply entries_app; assumption|exact Hab].
    apply Forall_app. split; [exact Hra|]. constructor; [reflexivity|exact Hrb].
  Qed.
End Accept.
