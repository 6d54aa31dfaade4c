(** What the built-in rules read is text of the meta language: rules. *)
From Coq Require Import Ascii String List NArith Bool Arith Lia.
From Verif Require Import Base Ext Types DataSpec ParseModel BootstrapRules PegSpec PrimProofs
  JsonSpec WriteSpec TextSpec SurfaceSpec TextProofs TextProofs2 TextProofs3 TextInv.
Import ListNotations.
Local Open Scope string_scope.
Local Open Scope list_scope.
Local Open Scope nat_scope.

Section Rules.
  Variable E : ext.
  Hypothesis HE : ext_ok E.
  Hypothesis HW : whole_readers E.

  Notation takes := (takes E). Notation takes_all := (takes_all E). Notation fails := (fails E).
  Notation takes_first := (takes_first E). Notation takes_more := (takes_more E). Notation takes_many := (takes_many E).
  Notation mtext := (mtext (literal E) any_string). Notation mprop := (mprop (literal E) any_string).
  Notation mrule := (mrule (literal E) any_string). Notation margs := (margs (literal E) any_string).

  (** Split sequences. *)
  Ltac parts :=
    repeat match goal with
    | H : takes (RSequence _ _) _ _ |- _ => apply takes_sequence in H
    | H : takes_all (_ :: _) ?t _ |- _ =>
      let t1 := fresh "t" in let t2 := fresh "t" in let H1 := fresh "Hp" in
      apply all_cons in H; destruct H as (t1 & t2 & -> & H1 & H)
    | H : takes_all [] ?t _ |- _ => apply all_nil in H; subst t
    | H : takes (RTag _ false _ _ _) ?t _ |- _ => apply takes_tag in H; subst t
    | H : takes (RTag _ true _ _ _) ?t _ |- _ => apply takes_not_tag in H; destruct H as [-> H]
    | H : takes (RWhitespace _ _) _ _ |- _ => apply takes_white in H; destruct H as (? & ? & ?)
    | H : takes (RUntilAnyOrWs _ false _ _) _ _ |- _ => apply takes_name in H; destruct H as (? & ?)
    | H : takes (RSelect _ _) _ _ |- _ => apply takes_select in H
    end.

  Lemma text_literal b prop id t rest : takes (RText b prop id) t rest ->
    exists v, literal E v t /\ (b = true \/ length t <> 2).
  Proof.
    intros H. apply takes_text in H. destruct H as (Hs & Hb & v & Hv). exists v. split; [|exact Hb].
    split; [|split; [exact (proj2 (whole_string E HW t rest Hs))|exact Hv]].
    destruct (x_string_bounds E HE _ _ Hs) as [Hl Hh]. destruct t as [|c t]; [cbn in Hl; lia|].
    cbn in Hh. injection Hh as ->. eauto.
  Qed.

  Lemma takes_set i b t rest : (i = 4 /\ b = false) \/ (i = 5 /\ b = true) ->
    forall name prop id, takes (RNode name prop (Some i) id) t rest -> exists v, mtext b v t.
  Proof.
    assert (Hsel : forall id1 id2 id3 id4 id5 p1 p2 p3 b, takes (RSelect [RText b p1 id1;
        RSequence [RTag (s2l "_") false false p3 id2; RUntilAnyOrWs separators false p2 id3] id4] id5) t rest -> exists v, mtext b v t).
    { intros id1 id2 id3 id4 id5 p1 p2 p3 b' H. parts. apply first_cons in H. destruct H as [H|[_ H]].
      - apply text_literal in H. destruct H as (v & H1 & H2). exists v. apply mtext_quoted; assumption.
      - apply first_cons in H. destruct H as [H|[_ H]]; [|destruct (first_nil _ _ _ H)]. parts. rewrite app_nil_r.
        exists []. apply mtext_name; [assumption|exact I]. }
    intros [[-> ->]|[-> ->]] name prop id H; (eapply takes_node in H; [|reflexivity]); exact (Hsel _ _ _ _ _ _ _ _ _ H).
  Qed.

  Lemma takes_prop t rest id1 id2 id3 id4 name p1 p2 :
    takes (ROptional (RSequence [RTag (s2l ":") false false p1 id1; RNode name p2 (Some 4) id2] id3) id4) t rest ->
    exists p, mprop p t.
  Proof.
    intros H. apply takes_option in H. destruct H as [H|[-> _]].
    - parts. rewrite app_nil_r. eapply (takes_set 4 false) in Hp0; [|auto]. destruct Hp0 as (v & Hv).
      exists (Some v). apply mprop_some. exact Hv.
    - exists None. apply mprop_none.
  Qed.

  Lemma takes_mark t rest name prop id : takes (RNode name prop (Some 6) id) t rest -> exists b, t = mark b.
  Proof.
    intros H. eapply takes_node in H; [|reflexivity]. parts.
    apply first_cons in H. destruct H as [H|[_ H]]; [parts; exists true; reflexivity|].
    apply first_cons in H. destruct H as [H|[_ H]]; [parts; exists false; reflexivity|]. destruct (first_nil _ _ _ H).
  Qed.

  Lemma takes_sign text inv prop id1 id2 t rest : takes (ROptional (RTag text false inv prop id1) id2) t rest ->
    exists b, t = sign b text.
  Proof.
    intros H. apply takes_option in H. destruct H as [H|[-> _]]; [parts; exists true; reflexivity|exists false; reflexivity].
  Qed.

  (** A rule, and if it is a tag then the set that it starts with. *)
  Definition SET : rule := Eval vm_compute in nth 4 boot (RSelect [] 0).
  Definition is_rule (t rest : str) : Prop :=
    exists r, mrule r t /\ (positive_tag r -> exists t1 t2, t = t1 ++ t2 /\ takes SET t1 (t2 ++ rest)).

  Lemma more_args id1 id2 n : (forall t rest, length t < n -> takes RULE t rest -> is_rule t rest) ->
    forall k t2 rest, length t2 <= k -> length t2 < n ->
    takes_more (RNode (s2l "rule") (Some (s2l "rule")) (Some 21) id1) (RWhitespace false id2) t2 rest ->
    forall r t1, mrule r t1 -> exists rs, margs rs (t1 ++ t2).
  Proof.
    intros IH. induction k as [|k IHk]; intros t2 rest Hk Hn H r t1 Hr.
    - destruct t2; [|cbn in Hk; lia]. exists [r]. apply (m_last _ _ r t1 []); [exact Hr|constructor].
    - apply more_split in H. destruct H as [->|[H|(w & t3 & t4 & -> & H1 & H2 & H3)]].
      + exists [r]. apply (m_last _ _ r t1 []); [exact Hr|constructor].
      + parts. exists [r]. apply m_last; assumption.
      + parts. rewrite !app_length in *. match goal with Ho : _ \/ _ |- _ => destruct Ho as [Ho|Hne]; [discriminate|] end.
        eapply takes_node in H2; [|reflexivity]. apply IH in H2; [|lia]. destruct H2 as (r2 & Hr2 & _).
        assert (Hw : 0 < length w) by (destruct w; [contradiction|cbn; lia]).
        destruct (IHk t4 rest ltac:(lia) ltac:(lia) H3 r2 t3 Hr2) as (rs & Hrs).
        exists (r :: rs). apply m_more; assumption.
  Qed.

  Lemma rule_args id1 id2 id3 n t rest : (forall t rest, length t < n -> takes RULE t rest -> is_rule t rest) ->
    length t < n ->
    takes (RSeparateBy (RNode (s2l "rule") (Some (s2l "rule")) (Some 21) id1) (RWhitespace false id2) false true id3) t rest ->
    exists rs, margs rs t.
  Proof.
    intros IH Hn H. apply takes_separate in H. destruct H as (t1 & t2 & -> & H1 & H2). rewrite app_length in Hn.
    eapply takes_node in H1; [|reflexivity]. apply IH in H1; [|lia]. destruct H1 as (r & Hr & _).
    eapply (more_args _ _ n IH (length t2)); [lia|lia|exact H2|exact Hr].
  Qed.

  Ltac sizes := repeat rewrite app_length in *; cbn [length] in *; lia.

  (** A rule in front of something. *)
  Ltac inner IH H :=
    eapply takes_node in H; [|reflexivity]; apply IH in H; [|sizes]; destruct H as (?r & H & _).

  Theorem rule_inv : forall n t rest, length t < n -> takes RULE t rest -> is_rule t rest.
  Proof.
    induction n as [|n IH]; intros t rest Hn H; [lia|].
    assert (IH' : forall t rest, length t < n -> takes RULE t rest -> is_rule t rest) by exact IH.
    assert (Hother : forall t r, mrule r t -> ~ positive_tag r -> is_rule t rest).
    { intros t0 r Hm Hp. exists r. split; [exact Hm|]. intros X. contradiction. }
    apply takes_select in H.
    apply first_cons in H. destruct H as [H|[_ H]].
    { (* whitespace *) eapply takes_node in H; [|reflexivity]. parts. rewrite app_nil_r.
      apply takes_mark in Hp0. destruct Hp0 as (b & ->). eapply Hother; [apply (m_whitespace _ _ b 0%N)|intros []]. }
    apply first_cons in H. destruct H as [H|[_ H]].
    { (* .. *) eapply takes_node in H; [|reflexivity]. parts. rewrite app_nil_r.
      eapply (takes_set 5 true) in Hp0; [|auto]. destruct Hp0 as (v & Hv).
      apply takes_mark in Hp1. destruct Hp1 as (b & ->). apply takes_prop in Hp2. destruct Hp2 as (p & Hp').
      eapply Hother; [apply (m_until_any_or_ws _ _ v b p 0%N); assumption|intros []]. }
    apply first_cons in H. destruct H as [H|[_ H]].
    { (* ... *) eapply takes_node in H; [|reflexivity]. parts. rewrite app_nil_r.
      eapply (takes_set 5 true) in Hp0; [|auto]. destruct Hp0 as (v & Hv).
      apply takes_mark in Hp1. destruct Hp1 as (b & ->). apply takes_prop in Hp2. destruct Hp2 as (p & Hp').
      eapply Hother; [apply (m_until_any _ _ v b p 0%N); assumption|intros []]. }
    apply first_cons in H. destruct H as [H|[_ H]].
    { (* lines *) eapply takes_node in H; [|reflexivity]. parts.
      match goal with X : takes (ROptional _ _) _ _ |- _ => apply takes_sign in X; destruct X as (b & ->) end.
      match goal with X : takes (RNode _ _ _ _) _ _ |- _ => inner IH' X; rename X into Hr end.
      eapply Hother; [eapply (m_lines _ _ _ b 0%N); eassumption|intros []]. }
    apply first_cons in H. destruct H as [H|[_ H]].
    { (* repeat *) eapply takes_node in H; [|reflexivity]. parts.
      apply takes_mark in Hp0. destruct Hp0 as (b & ->).
      match goal with X : takes (RNode _ _ _ _) _ _ |- _ => inner IH' X; rename X into Hr end.
      eapply Hother; [eapply (m_repeat _ _ _ b 0%N); eassumption|intros []]. }
    apply first_cons in H. destruct H as [H|[_ H]].
    { (* number *) eapply takes_node in H; [|reflexivity]. parts. rewrite app_nil_r.
      apply takes_sign in Hp0. destruct Hp0 as (b & ->). apply takes_prop in Hp1. destruct Hp1 as (p & Hp').
      eapply Hother; [apply (m_number _ _ b p 0%N); assumption|intros []]. }
    apply first_cons in H. destruct H as [H|[_ H]].
    { (* text *) eapply takes_node in H; [|reflexivity]. parts. rewrite app_nil_r.
      assert (Hb : exists b, t = mark b).
      { apply first_cons in Hp0. destruct Hp0 as [X|[_ X]]; [parts; exists true; reflexivity|].
        apply first_cons in X. destruct X as [X|[_ X]]; [parts; exists false; reflexivity|]. destruct (first_nil _ _ _ X). }
      destruct Hb as (b & ->). apply takes_prop in Hp1. destruct Hp1 as (p & Hp').
      eapply Hother; [apply (m_text _ _ b p 0%N); assumption|intros []]. }
    apply first_cons in H. destruct H as [H|[_ H]].
    { (* reference *) eapply takes_node in H; [|reflexivity]. parts. cbn [app] in *. rewrite app_nil_r.
      match goal with X : takes (ROptional _ _) _ _ |- _ => apply takes_prop in X; destruct X as (p & Hp') end.
      eapply Hother; [apply (m_reference _ _ _ p 0%N); [|eassumption]|intros []]. split; [assumption|].
      match goal with X : is_name ?t, Y : ~ starts_with _ [95%N] |- _ => destruct X as [X1 _]; destruct t as [|c t']; [contradiction|];
        intros X2; injection X2 as ->; apply Y; eexists; reflexivity end. }
    apply first_cons in H. destruct H as [H|[_ H]].
    { (* sequence *) eapply takes_node in H; [|reflexivity]. parts.
      match goal with X : takes (RSeparateBy _ _ _ _ _) _ _ |- _ => eapply (rule_args _ _ _ n) in X; [|exact IH'|sizes]; destruct X as (rs & Hrs) end.
      eapply Hother; [eapply (m_sequence _ _ _ 0%N); eassumption|intros []]. }
    apply first_cons in H. destruct H as [H|[_ H]].
    { (* select *) eapply takes_node in H; [|reflexivity]. parts.
      match goal with X : takes (RSeparateBy _ _ _ _ _) _ _ |- _ => eapply (rule_args _ _ _ n) in X; [|exact IH'|sizes]; destruct X as (rs & Hrs) end.
      eapply Hother; [eapply (m_select _ _ _ 0%N); eassumption|intros []]. }
    apply first_cons in H. destruct H as [H|[_ H]].
    { (* separated *) eapply takes_node in H; [|reflexivity]. parts.
      match goal with X : takes (ROptional _ _) _ _ |- _ => apply takes_sign in X; destruct X as (d & ->) end.
      match goal with X : takes (RNode _ _ (Some 6) _) _ _ |- _ => apply takes_mark in X; destruct X as (b & ->) end.
      repeat match goal with X : takes (RNode _ _ (Some 21) _) _ _ |- _ => inner IH' X end.
      match goal with X : false = true \/ _ |- _ => destruct X as [X|X]; [discriminate|] end.
      eapply Hother; [eapply (m_separate_by _ _ _ _ b d 0%N); eassumption|intros []]. }
    apply first_cons in H. destruct H as [H|[Hno H]].
    { (* tag *) eapply takes_node in H; [|reflexivity]. parts.
      apply takes_option in Hp1. apply takes_sign in Hp. destruct Hp as (n0 & ->).
      assert (Hset := Hp0). eapply takes_node in Hset; [|reflexivity]. fold SET in Hset.
      eapply (takes_set 4 false) in Hp0; [|auto]. destruct Hp0 as (v & Hv). rewrite app_nil_r.
      destruct Hp1 as [Hp1|[-> _]].
      - parts. rewrite app_nil_r in *.
        match goal with X : takes (ROptional _ _) _ _ |- _ => apply takes_sign in X; destruct X as (i & ->) end.
        match goal with X : takes (RNode _ _ _ _) _ _ |- _ => eapply (takes_set 4 false) in X; [|auto]; destruct X as (v2 & Hv2) end.
        eexists. split; [apply (m_tag_prop _ _ v n0 i v2 0%N); eassumption|]. intros Hpos. destruct n0; [destruct Hpos|].
        exists t. eexists. split; [reflexivity|]. rewrite <- !app_assoc in *. cbn [app] in *. exact Hset.
      - eexists. rewrite app_nil_r. split; [apply (m_tag _ _ v n0 0%N); assumption|].
        intros Hpos. destruct n0; [destruct Hpos|]. exists t, []. rewrite app_nil_r. split; [reflexivity|exact Hset]. }
    apply first_cons in H. destruct H as [H|[_ H]].
    { (* optional *) eapply takes_node in H; [|reflexivity]. parts. rewrite app_nil_r. inner IH' Hp0.
      eapply Hother; [eapply (m_optional _ _ _ 0%N); eassumption|intros []]. }
    apply first_cons in H. destruct H as [H|[_ H]]; [|destruct (first_nil _ _ _ H)].
    { (* not *) eapply takes_node in H; [|reflexivity]. parts. rewrite app_nil_r.
      match goal with X : takes (RNode _ _ _ _) _ _ |- _ => eapply takes_node in X; [|reflexivity]; apply IH' in X; [|sizes]; destruct X as (r & Hr & Hpos) end.
      eapply Hother; [apply (m_not _ _ r 0%N t Hr)|intros []]. intros Hp. destruct (Hpos Hp) as (t1 & t2 & -> & Hset). clear Hpos.
      eapply fails_node in Hno; [|reflexivity]. apply fails_sequence in Hno.
      apply (fails_cons E HE) in Hno. destruct Hno as [Hno|(u & rest' & He & Hu & Hno)]; [exact (fails_option _ _ _ _ Hno)|].
      apply takes_option in Hu. destruct Hu as [Hu|[-> Hu]]; [|apply fails_tag in Hu; apply Hu; cbn in He; rewrite <- He; eexists; reflexivity].
      apply takes_tag in Hu. subst u. cbn in He. injection He as <-. rewrite app_nil_r, <- app_assoc in Hno.
      apply (fails_cons E HE) in Hno. destruct Hno as [Hno|(u & rest' & He & Hu & Hno)].
      - eapply fails_node in Hno; [|reflexivity]. exact (clash E SET t1 _ eq_refl Hset Hno).
      - apply (fails_cons E HE) in Hno. destruct Hno as [Hno|(u' & rest'' & He' & Hu' & Hno)]; [exact (fails_option _ _ _ _ Hno)|].
        exact (fails_nil _ _ Hno). }
  Qed.

  Theorem takes_rule t rest : takes RULE t rest -> exists r, mrule r t.
  Proof. intros H. destruct (rule_inv (S (length t)) t rest (Nat.lt_succ_diag_r _) H) as (r & Hr & _). eauto. Qed.
End Rules.
