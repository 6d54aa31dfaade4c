(** Reading what is written: every written rule is read. *)
From Coq Require Import Ascii String List NArith Bool Arith Lia.
From Verif Require Import Base Ext Types ParseModel BootstrapRules PegSpec PrimProofs LinesProofs JsonSpec
  ConvertSpec WriteSpec OnceProofs TextSpec TextProofs TextProofs2 TextProofs3.
Import ListNotations.
Local Open Scope string_scope.
Local Open Scope list_scope.
Local Open Scope nat_scope.

Section Reading.
  Variable E : ext.
  Hypothesis HE : ext_ok E.
  Variable lit : str -> str -> Prop.
  Hypothesis HL : forall v t, lit v t -> literal E v t.
  Variable ss : list (str * str).

  Notation good := (good E). Notation bad := (bad E). Notation goods := (goods E). Notation bads := (bads E).
  Notation writes := (writes ss).

  Ltac alt := eapply bad_node; [reflexivity|]; apply bad_sequence, bads_first, bad_tag; reflexivity.
  Ltac fields_ok := cbn [app]; repeat (apply Forall_cons; [first [left; reflexivity|right; left; reflexivity]|]);
    apply Forall_nil.

  (** ** Lists of rules *)

  Definition closing (s : str) : Prop := exists c s', s = c :: s' /\ In c (s2l "]}").

  Lemma closing_follows s : closing s -> follows s.
  Proof. intros (c & s' & -> & Hc). right. cbn in Hc |- *. tauto. Qed.

  Lemma closing_stops s : closing s -> stops white s.
  Proof.
    intros (c & s' & -> & Hc) HH. cbn in Hc. destruct Hc as [<-|[<-|[]]]; vm_compute in HH; discriminate HH.
  Qed.

  Definition rule_node id : rule := RNode (s2l "rule") (Some (s2l "rule")) (Some 21) id.

  Definition args_read (rs : list rule) (t : str) : Prop :=
    exists ms, forall id1 id2 p rest, closing rest -> exists n o tr1 m o' tr2,
      reads E boot (rule_node id1) indent_default p (t ++ rest) (Yes n o) indent_default tr1 /\
      reads_more E boot (rule_node id1) (RWhitespace false id2) true indent_default (p + n)
        (skipn n (t ++ rest)) (Yes m o') indent_default tr2 /\
      n + m = length t /\ metas (o ++ o') = ms /\
      forall lo, uargs ss lo (o ++ o') (fst (number_args lo rs)) (snd (number_args lo rs)).

  Lemma rule_node_read id r t m :
    (forall p rest, follows rest -> exists out, rd E RULE p (t ++ rest) (Yes (length t) out) /\ writes r out /\ metas out = m) ->
    forall p rest, follows rest -> exists out, rd E (rule_node id) p (t ++ rest) (Yes (length t) out) /\
      written_rule ss (s2l "rule") r out /\ metas out = [StartNode (s2l "rule")] ++ m ++ [EndNode (s2l "rule")].
  Proof.
    intros H p rest Hr. destruct (H p rest Hr) as (o & (tr & R) & HP & Hm).
    eexists. split; [eexists; apply (reads_node E boot (s2l "rule") (Some (s2l "rule")) 21 id RULE indent_default p (t ++ rest) (length t) o indent_default tr eq_refl R)|].
    split; [exists o; split; [exact HP|]; eexists _, _; reflexivity|].
    cbn [token]. rewrite !metas_app, Hm. reflexivity.
  Qed.

  Lemma args_last r t w : good RULE follows t (writes r) -> Forall white w -> args_read [r] (t ++ w).
  Proof.
    intros Hr Hw. destruct Hr as (m0 & Hr).
    exists ([StartNode (s2l "rule")] ++ m0 ++ [EndNode (s2l "rule")]). intros id1 id2 p rest Hc.
    destruct (rule_node_read id1 r t m0 Hr p (w ++ rest)) as (o & (tr1 & R1) & HP & Hm0).
    { apply follows_white; [exact Hw|apply closing_follows; exact Hc]. }
    assert (Hwr : forall lo, uargs ss lo (o ++ []) (fst (number_args lo [r])) (snd (number_args lo [r]))).
    { intros lo. apply (written_urule ss _ _ _ lo) in HP. cbn [number_args].
      destruct (number lo r) as [r' hi]. cbn [fst snd] in *. econstructor; [exact HP|constructor]. }
    destruct w as [|c w].
    - destruct (bad_white E id2 rest (closing_stops _ Hc) (p + length t)) as (tr2 & R2).
      exists (length t), o, tr1, 0, [], tr2. rewrite app_nil_r. split; [exact R1|].
      rewrite skipn_len. split; [apply reads_more_stop; exact R2|]. split; [lia|]. split; [rewrite app_nil_r; exact Hm0|exact Hwr].
    - assert (Hne : c :: w <> []) by discriminate.
      destruct (good_white E false id2 (c :: w) Hw (or_intror Hne)) as (m2 & H2).
      destruct (H2 (p + length t) rest (closing_stops _ Hc)) as (o2 & (tr2 & R2) & -> & _).
      assert (R3 : bad (rule_node id1) rest).
      { destruct Hc as (c' & rest' & -> & Hc). apply bad_rule; assumption. }
      destruct (R3 (p + length t + length (c :: w))) as (tr3 & R3').
      exists (length t), o, tr1, (length (c :: w)), [], (tr2 ++ tr3). rewrite <- app_assoc. split; [exact R1|].
      rewrite skipn_len. split; [|split; [rewrite app_length; reflexivity|split; [rewrite app_nil_r; exact Hm0|exact Hwr]]].
      apply (reads_more_trail E boot _ _ true) with (n := length (c :: w)) (out := []) (ind1 := indent_default);
        [exact R2|]. rewrite skipn_len. exact R3'.
  Qed.

  Lemma args_more r t w rs ts : good RULE follows t (writes r) -> Forall white w -> w <> [] ->
    margs lit (defined ss) rs ts -> args_read rs ts -> args_read (r :: rs) (t ++ w ++ ts).
  Proof.
    intros (m0 & Hr) Hw Hne Hm (ms & IH).
    exists (([StartNode (s2l "rule")] ++ m0 ++ [EndNode (s2l "rule")]) ++ ms). intros id1 id2 p rest Hc.
    destruct (rule_node_read id1 r t m0 Hr p (w ++ ts ++ rest)) as (o & (tr1 & R1) & HP & Hm0).
    { destruct w as [|c w]; [contradiction|]. inversion Hw; subst. left. assumption. }
    assert (Hst : stops white (ts ++ rest)).
    { destruct Hm as [r1 t1 w1 H1 _|r1 t1 w1 rs1 ts1 H1 _ _ _]; rewrite <- app_assoc; apply (mrule_stops E lit HL ss r1); exact H1. }
    destruct (good_white E false id2 w Hw (or_intror Hne)) as (m2 & H2).
    destruct (H2 (p + length t) (ts ++ rest) Hst) as (o2 & (tr2 & R2) & -> & _).
    destruct (IH id1 id2 (p + length t + length w) rest Hc) as (n & o3 & tr3 & m & o4 & tr4 & R3 & R4 & Hlen & Hms & Hargs).
    exists (length t), o, tr1, (length w + (n + m)), ([] ++ o3 ++ o4), (tr2 ++ tr3 ++ tr4).
    rewrite <- !app_assoc. split; [exact R1|]. rewrite skipn_len. split; [|split].
    - apply (reads_more_item E boot _ _ true) with (v := Yes m o4) (ind1 := indent_default) (ind2 := indent_default)
        (n := length w) (out := []) (m := n) (out' := o3); [exact R2| |]; rewrite skipn_len; assumption.
    - rewrite !app_length. lia.
    - split.
      { assert (Hall : metas (o ++ o3 ++ o4) = ([StartNode (s2l "rule")] ++ m0 ++ [EndNode (s2l "rule")]) ++ ms)
          by (rewrite metas_app, Hm0, Hms; reflexivity).
        rewrite <- !app_assoc in Hall. exact Hall. }
      intros lo. apply (written_urule ss _ _ _ lo) in HP. cbn [number_args app].
      destruct (number lo r) as [r' mid]. specialize (Hargs mid). destruct (number_args mid rs) as [rs' hi].
      cbn [fst snd] in *. econstructor; [exact HP|exact Hargs].
  Qed.

  Lemma good_args rs t id1 id2 id3 : args_read rs t ->
    good (RSeparateBy (rule_node id1) (RWhitespace false id2) false true id3) closing t
      (fun d => forall lo, uargs ss lo d (fst (number_args lo rs)) (snd (number_args lo rs))).
  Proof.
    intros (ms & H). exists ms. intros p rest Hc.
    destruct (H id1 id2 p rest Hc) as (n & o & tr1 & m & o' & tr2 & R1 & R2 & Hlen & Hms & Hw).
    exists (o ++ o'). split; [|split; [exact Hw|exact Hms]]. exists (tr1 ++ tr2). rewrite <- Hlen.
    change (Yes (n + m) (o ++ o')) with (after n o (Yes m o')). econstructor; eassumption.
  Qed.

  Lemma margs_stops rs t rest : margs lit (defined ss) rs t -> stops white (t ++ rest).
  Proof. intros [r t1 w H1 _|r t1 w rs1 ts1 H1 _ _ _]; rewrite <- app_assoc; apply (mrule_stops E lit HL ss r); exact H1. Qed.

  Ltac alt_reference := apply bad_reference; first
    [left; reflexivity|right; left; reflexivity|right; right; apply sep_not_name; cbn; auto 20].
  Ltac alts' := intros; repeat (apply Forall_cons; [first [alt|alt_reference|idtac]|]); [..|apply Forall_nil].

  Lemma read_sequence args id w t : Forall white w -> margs lit (defined ss) args t -> args_read args t ->
    good RULE follows (s2l "[" ++ w ++ t ++ s2l "]") (writes (RSequence args id)).
  Proof.
    intros Hw Hm Ha. refine (good_select E [_; _; _; _; _; _; _; _] _ _ _ _ _ _ _ _); [|alts'].
    eapply good_weaken; [eapply good_node; [reflexivity|]; apply good_sequence;
      eapply goods_cons; [apply good_tag; reflexivity| |intros; exact I];
      eapply goods_cons; [apply good_white; [exact Hw|left; reflexivity]| |
        intros; rewrite <- app_assoc; apply (margs_stops args); exact Hm];
      eapply goods_cons; [apply good_args; exact Ha|apply goods_last, good_tag; reflexivity|]|intros; exact I|].
    - intros rest _. eexists _, _. split; [reflexivity|left; reflexivity].
    - intros d (inner & (a1 & b1 & -> & -> & a2 & b2 & -> & -> & a3 & b3 & -> & H3 & ->) & Hn) lo.
      cbn [app] in Hn. rewrite app_nil_r in Hn. rewrite number_sequence. specialize (H3 lo).
      destruct (number_args lo args) as [l' hi]. cbn [fst snd] in *. econstructor; eassumption.
  Qed.

  Lemma read_select args id w t : Forall white w -> margs lit (defined ss) args t -> args_read args t ->
    good RULE follows (s2l "{" ++ w ++ t ++ s2l "}") (writes (RSelect args id)).
  Proof.
    intros Hw Hm Ha. refine (good_select E [_; _; _; _; _; _; _; _; _] _ _ _ _ _ _ _ _); [|alts'].
    eapply good_weaken; [eapply good_node; [reflexivity|]; apply good_sequence;
      eapply goods_cons; [apply good_tag; reflexivity| |intros; exact I];
      eapply goods_cons; [apply good_white; [exact Hw|left; reflexivity]| |
        intros; rewrite <- app_assoc; apply (margs_stops args); exact Hm];
      eapply goods_cons; [apply good_args; exact Ha|apply goods_last, good_tag; reflexivity|]|intros; exact I|].
    - intros rest _. eexists _, _. split; [reflexivity|right; left; reflexivity].
    - intros d (inner & (a1 & b1 & -> & -> & a2 & b2 & -> & -> & a3 & b3 & -> & H3 & ->) & Hn) lo.
      cbn [app] in Hn. rewrite app_nil_r in Hn. rewrite number_select. specialize (H3 lo).
      destruct (number_args lo args) as [l' hi]. cbn [fst snd] in *. econstructor; eassumption.
  Qed.

  Lemma read_separate r by_ o dot id w1 tb w2 tr w3 :
    Forall white w1 -> mrule lit (defined ss) by_ tb -> Forall white w2 -> w2 <> [] -> mrule lit (defined ss) r tr -> Forall white w3 ->
    good RULE follows tb (writes by_) -> good RULE follows tr (writes r) ->
    good RULE follows
      (s2l ".s" ++ mark o ++ sign dot (s2l ".") ++ s2l "(" ++ w1 ++ tb ++ w2 ++ tr ++ w3 ++ s2l ")")
      (writes (RSeparateBy r by_ o true id)).
  Proof.
    intros Hw1 Hmb Hw2 Hne Hmr Hw3 Hb Hr.
    refine (good_select E [_; _; _; _; _; _; _; _; _; _] _ _ _ _ _ _ _ _); [|alts'].
    eapply good_weaken; [eapply good_node; [reflexivity|]; apply good_sequence;
      eapply goods_cons; [apply good_tag; reflexivity| |intros; exact I];
      eapply goods_cons; [apply good_mark| |intros; exact I];
      eapply goods_cons; [apply good_sign| |];
      [eapply goods_cons; [apply good_tag; reflexivity| |intros; exact I];
       eapply goods_cons; [apply good_white; [exact Hw1|left; reflexivity]| |intros; rewrite <- app_assoc; apply (mrule_stops E lit HL ss by_); exact Hmb];
       eapply goods_cons; [apply good_rule_node; exact Hb| |];
       [eapply goods_cons; [apply good_white; [exact Hw2|right; exact Hne]| |intros; rewrite <- app_assoc; apply (mrule_stops E lit HL ss r); exact Hmr];
        eapply goods_cons; [apply good_rule_node; exact Hr| |];
        [eapply goods_cons; [apply good_white; [exact Hw3|left; reflexivity]|apply goods_last, good_tag; reflexivity|
          intros rest _ HH; vm_compute in HH; discriminate HH]
        |intros rest _; rewrite <- app_assoc; apply follows_white; [exact Hw3|right; left; reflexivity]]
       |intros rest _; rewrite <- app_assoc; destruct w2 as [|c w2]; [contradiction|inversion Hw2; left; assumption]]
      |intros rest _; right; reflexivity]|intros; exact I|].
    intros d (inner & (a1 & b1 & -> & -> & a2 & b2 & -> & (q & ->) & a3 & b3 & -> & Hf & a4 & b4 & -> & -> &
      a5 & b5 & -> & -> & a6 & b6 & -> & Hby & a7 & b7 & -> & -> & a8 & b8 & -> & Hru & a9 & b9 & -> & -> & ->) & Hn) lo.
    cbn [app] in Hn. rewrite app_nil_r in Hn.
    cbn [number]. apply (written_urule ss _ _ _ lo) in Hby. destruct (number lo by_) as [by' mid].
    apply (written_urule ss _ _ _ mid) in Hru. destruct (number mid r) as [r' hi]. cbn [fst snd] in *.
    assert (Hfs : fields ss [] [s2l "optional"; s2l "allow_trail"] [] []
      ([Flag (s2l "optional") o] ++ if dot then [Flag (s2l "allow_trail") true] else [])
      ([(q, MBool (s2l "optional") o)] ++ a3)).
    { apply wr_fields; [apply wr_app; [apply wr_flag|exact Hf]|destruct dot; fields_ok]. }
    assert (Hfin := u_separated_by ss lo d _ _ a6 a8 by' r' mid hi Hfs Hby Hru Hn). destruct dot; exact Hfin.
  Qed.

  (** ** Tags *)

  Lemma mtext_mark v t rest : mtext lit (defined ss) false v t -> is_prefix [33%N] (t ++ rest) = false.
  Proof. intros H. destruct (mtext_head E lit HL ss _ _ _ H) as (t' & [-> | ->]); reflexivity. Qed.

  Lemma tag_alts n v t rest : mtext lit (defined ss) false v t -> exists c s,
    sign n (s2l "!") ++ t ++ rest = c :: s /\ (c = quote \/ c = 95%N \/ c = 33%N).
  Proof.
    intros H. destruct n; [eexists _, _; split; [reflexivity|auto]|].
    destruct (mtext_head E lit HL ss _ _ _ H) as (t' & [-> | ->]); eexists _, _; (split; [reflexivity|auto]).
  Qed.

  Definition tag_fields (i : bool) (p : option str) : list field :=
    match p with
    | Some v => (if i then [Flag (s2l "inverted") true] else []) ++ [Text (s2l "property") v]
    | None => []
    end.

  Lemma read_tag_any v n (i : bool) (p : option str) id t tail :
    mtext lit (defined ss) false v t -> (p = None -> i = false) ->
    (forall id1 id2 id3 id4 id5 id6 name, good (ROptional (RSequence [RTag [58%N] false false None id1;
        ROptional (RTag [33%N] false false (Some (s2l "inverted")) id2) id3;
        RNode name (Some (s2l "property")) (Some 4) id4] id5) id6) follows tail (wr ss (tag_fields i p))) ->
    (forall rest, follows rest -> stops name_char (tail ++ rest)) ->
    good RULE follows (sign n (s2l "!") ++ t ++ tail) (writes (RTag v n i p id)).
  Proof.
    intros Ht Hpi Htail Hst. refine (good_select E [_; _; _; _; _; _; _; _; _; _; _] _ _ _ _ _ _ _ _).
    2:{ intros rest _. rewrite <- !app_assoc.
        destruct (tag_alts n v t (tail ++ rest) Ht) as (c & s & -> & Hc).
        destruct Hc as [-> | [-> | ->]]; alts'. }
    eapply good_weaken; [eapply good_node; [reflexivity|]; apply good_sequence;
      eapply goods_cons; [apply good_sign| |];
      [eapply goods_cons; [apply (good_set E HE lit HL ss 4 false); [left; auto|exact Ht]|apply goods_last, Htail|exact Hst]
      |intros rest _; right; rewrite <- app_assoc; apply (mtext_mark v); exact Ht]|auto|].
    intros d (inner & (a1 & b1 & -> & H1 & a2 & b2 & -> & H2 & H3) & Hn) lo.
    eapply (u_tag ss lo _ ((if n then [Flag (s2l "not") true] else []) ++ [Text (s2l "text") v] ++ tag_fields i p)) in Hn.
    - destruct n, p, i; try (discriminate Hpi; reflexivity); exact Hn.
    - destruct n, p, i; repeat (constructor; [cbn; intuition discriminate|]); constructor.
    - apply wr_fields; [apply wr_app; [exact H1|apply wr_app; [apply wr_one; exact H2|exact H3]]|].
      destruct n, i, p; cbn [tag_fields]; fields_ok.
    - destruct n, i, p; reflexivity.
  Qed.

  Lemma read_tag v n id t : mtext lit (defined ss) false v t ->
    good RULE follows (sign n (s2l "!") ++ t) (writes (RTag v n false None id)).
  Proof.
    intros Ht. rewrite <- (app_nil_r t). apply read_tag_any; [exact Ht|reflexivity| |].
    - intros. eapply good_weaken; [apply good_option_none with (ok := follows)|auto|intros d ->; apply wr_nil].
      intros rest Hr. apply bad_sequence, bads_first, bad_tag. prefix_false.
    - intros rest Hr. apply follows_name. exact Hr.
  Qed.

  Lemma read_tag_prop v n i p id t tp : mtext lit (defined ss) false v t -> mtext lit (defined ss) false p tp ->
    good RULE follows (sign n (s2l "!") ++ t ++ s2l ":" ++ sign i (s2l "!") ++ tp) (writes (RTag v n i (Some p) id)).
  Proof.
    intros Ht Hp. apply read_tag_any; [exact Ht|discriminate| |].
    - intros. apply good_option, good_sequence. eapply goods_weaken;
        [eapply goods_cons; [apply good_tag; reflexivity| |intros; exact I];
         eapply goods_cons; [apply good_sign|apply goods_last, (good_set E HE lit HL ss 4 false); [left; auto|exact Hp]|
           intros rest _; right; apply (mtext_mark p); exact Hp]|apply follows_name|].
      intros d (a & b & -> & -> & a1 & b1 & -> & H1 & H2). cbn [app]. apply wr_app; [exact H1|apply wr_one; exact H2].
    - intros rest _. apply sep_not_name. cbn. auto 20.
  Qed.

  Lemma read_optional r id t : good RULE follows t (writes r) ->
    good RULE follows (s2l "?" ++ t) (writes (ROptional r id)).
  Proof.
    intros Hr. refine (good_select E [_; _; _; _; _; _; _; _; _; _; _; _] _ _ _ _ _ _ _ _).
    2:{ alts'. apply bad_tag_rule; (assumption || discriminate). }
    eapply good_weaken; [eapply good_node; [reflexivity|]; apply good_sequence;
      eapply goods_cons; [apply good_tag; reflexivity| |intros; exact I];
      apply goods_last, good_rule_node; exact Hr|auto|].
    intros d (inner & (a1 & b1 & -> & -> & Hru) & Hn) lo. cbn [app] in Hn.
    apply (written_urule ss _ _ _ lo) in Hru. cbn [number]. destruct (number lo r) as [r' hi]. cbn [fst snd] in *.
    econstructor; eassumption.
  Qed.

  Lemma read_not r id t : mrule lit (defined ss) r t -> ~ positive_tag r -> good RULE follows t (writes r) ->
    good RULE follows (s2l "!" ++ t) (writes (RNot r id)).
  Proof.
    intros Hm Hnt Hr. refine (good_select E [_; _; _; _; _; _; _; _; _; _; _; _; _] _ _ _ _ _ _ _ _).
    2:{ destruct (mrule_head E lit HL ss r t Hm) as (c & t' & -> & _ & Hh). destruct (Hh Hnt) as [Hq Hu].
        alts'. apply bad_tag_rule_not; cbn; (assumption || congruence). }
    eapply good_weaken; [eapply good_node; [reflexivity|]; apply good_sequence;
      eapply goods_cons; [apply good_tag; reflexivity| |intros; exact I];
      apply goods_last, good_rule_node; exact Hr|auto|].
    intros d (inner & (a1 & b1 & -> & -> & Hru) & Hn) lo. cbn [app] in Hn.
    apply (written_urule ss _ _ _ lo) in Hru. cbn [number]. destruct (number lo r) as [r' hi]. cbn [fst snd] in *.
    econstructor; eassumption.
  Qed.

  (** ** Every rule *)

  Theorem read_rules :
    (forall r t, mrule lit (defined ss) r t -> good RULE follows t (writes r)) /\
    (forall rs t, margs lit (defined ss) rs t -> args_read rs t).
  Proof.
    apply mrule_mutind; intros.
    - apply read_whitespace.
    - eapply read_until_ws; eassumption.
    - eapply read_until; eassumption.
    - eapply read_lines; eassumption.
    - apply read_repeat; assumption.
    - eapply read_number; eassumption.
    - eapply read_text; eassumption.
    - eapply read_reference; eassumption.
    - apply read_sequence; assumption.
    - apply read_select; assumption.
    - apply read_separate; assumption.
    - apply read_tag; assumption.
    - apply read_tag_prop; assumption.
    - apply read_optional; assumption.
    - apply read_not; assumption.
    - apply args_last; assumption.
    - apply args_more; assumption.
  Qed.

  Definition read_rule := proj1 read_rules.
End Reading.
