(** C96: clear syntaxes with the places of the data; files that are joined and cut. *)
From Coq Require Import Ascii String List NArith Bool Arith Lia.
From Verif Require Import Base Ext Types ParseModel OptimizeModel PegSpec DataSpec ApiSpec OptSpec ExtProofs PegFacts ParseProofs OptPublic
  ParsePublic TotalSpec TotalProofs TotalCheck ShapeSpec ShapeProofs GrammarSpec GrammarProofs GrammarCheck GrammarPublic PlaceSpec AtEnd Examples SurfaceSpec SurfaceExamples.
Import ListNotations.
Local Open Scope string_scope.
Local Open Scope list_scope.
Local Open Scope nat_scope.

(** ** Without the places *)

Lemma places_generates E refs :
  (forall r p x ts, places E refs r p x ts -> generates E refs r x (map snd ts)) /\
  (forall args p x ts, places_all E refs args p x ts -> generates_all E refs args x (map snd ts)) /\
  (forall r k p x ts, places_times E refs r k p x ts -> generates_times E refs r k x (map snd ts)) /\
  (forall r by_ trail p x ts, places_more E refs r by_ trail p x ts -> generates_more E refs r by_ trail x (map snd ts)).
Proof.
  apply places_mutind; intros; rewrite ?token_item, ?node_items, ?map_app; try (econstructor; eassumption).
Qed.

(** ** Moved *)

Lemma moved_app k a b : moved_by k (a ++ b) = moved_by k a ++ moved_by k b.
Proof. apply map_app. Qed.

Lemma moved_token k property p n f : moved_by k (token property (Rng p n) f) = token property (Rng (k + p) n) f.
Proof. destruct property; reflexivity. Qed.

Lemma places_moved E refs d :
  (forall r p x ts, places E refs r p x ts -> places E refs r (d + p) x (moved_by d ts)) /\
  (forall args p x ts, places_all E refs args p x ts -> places_all E refs args (d + p) x (moved_by d ts)) /\
  (forall r k p x ts, places_times E refs r k p x ts -> places_times E refs r k (d + p) x (moved_by d ts)) /\
  (forall r by_ trail p x ts, places_more E refs r by_ trail p x ts -> places_more E refs r by_ trail (d + p) x (moved_by d ts)).
Proof.
  apply places_mutind; intros; rewrite ?moved_app, ?moved_token, ?Nat.add_assoc in *; try (econstructor; eassumption).
Qed.

(** ** What is read is generated *)

Section Sound.
  Variable E : ext.
  Hypothesis HE : ext_ok E.
  Variable syn : syntax.
  Hypothesis Hno : without_lines syn.

  Local Notation refs := (s_rules syn).
  Local Notation gen := (places E refs).

  Definition placed (r : rule) (p : nat) (s : str) (v : verdict) : Prop :=
    match v with Yes n out => gen r p (firstn n s) out | No => True end.

  Lemma len_longest (P : char -> Prop) s n : longest P s n -> length (firstn n s) = n.
  Proof. intros [H _]. apply firstn_length_le. exact H. Qed.

  Lemma len_reads r ind p s n out ind' tr : reads E refs r ind p s (Yes n out) ind' tr -> length (firstn n s) = n.
  Proof. intros H. apply firstn_length_le. eapply reads_le; eassumption. Qed.

  Lemma reads_placed :
    (forall r ind p s v ind' tr, reads E refs r ind p s v ind' tr -> occurs syn r -> placed r p s v) /\
    (forall args ind p s v ind' tr, reads_seq E refs args ind p s v ind' tr -> Forall (occurs syn) args ->
       match v with Yes n out => places_all E refs args p (firstn n s) out | No => True end) /\
    (forall args ind p s v ind' tr, reads_first E refs args ind p s v ind' tr -> Forall (occurs syn) args ->
       match v with Yes n out => exists r, In r args /\ gen r p (firstn n s) out | No => True end) /\
    (forall r ind p s k n out ind' tr, reads_many E refs r ind p s k n out ind' tr -> occurs syn r ->
       places_times E refs r k p (firstn n s) out) /\
    (forall r by_ trail ind p s v ind' tr, reads_more E refs r by_ trail ind p s v ind' tr -> occurs syn r -> occurs syn by_ ->
       match v with Yes n out => places_more E refs r by_ trail p (firstn n s) out | No => True end) /\
    (forall r indented id fresh nl ind p s v ind' tr, reads_lines E refs r indented id fresh nl ind p s v ind' tr -> True) /\
    (forall r indented fresh ind p s v fresh' ind' tr, reads_line E refs r indented fresh ind p s v fresh' ind' tr -> True).
  Proof.
    assert (Hargs : forall r, occurs syn r -> Forall (occurs syn) (children r)).
    { intros r Hr. apply Forall_forall. intros c Hc. eapply occurs_child; eassumption. }
    apply reads_mutind; intros; cbn [placed] in *; try exact I;
      try match goal with H : occurs _ (RLines _ _ _) |- _ => destruct (Hno _ _ _ H) end.
    - apply at_whitespace; [apply H|eapply longest_optional; eassumption].
    - rewrite starts_firstn by assumption. apply at_tag.
    - apply at_not_tag.
    - pattern n at 2. rewrite <- (len_longest _ _ _ H). apply at_until; [apply H|eapply longest_optional; eassumption].
    - pattern n at 2. rewrite <- (len_longest _ _ _ H). apply at_until_ws; [apply H|eapply longest_optional; eassumption].
    - assert (Hl : n <= length s) by (destruct (x_string_bounds E HE _ _ H); lia).
      pattern n at 2. rewrite <- (firstn_length_le s Hl).
      apply (at_text E refs allow_empty property id p (firstn n s) (skipn n s) val).
      + rewrite firstn_skipn, firstn_length_le by exact Hl. exact H.
      + rewrite firstn_length_le by exact Hl. assumption.
      + assumption.
    - assert (Hl : n <= length s) by (destruct (x_number_bounds E HE _ _ _ H); lia).
      pattern n at 2. rewrite <- (firstn_length_le s Hl).
      apply (at_number E refs underscore property id p (firstn n s) (skipn n s) val).
      + rewrite firstn_skipn, firstn_length_le by exact Hl. exact H.
      + assumption.
    - specialize (H0 (Hargs _ H1)). destruct v; [|exact I]. apply at_sequence. assumption.
    - specialize (H1 (Hargs _ H2)). destruct v; [|exact I]. destruct H1 as (r & Hr & Hg). eapply at_select; eassumption.
    - specialize (Hargs _ H2). cbn in Hargs. apply Forall_app in Hargs. destruct Hargs as [_ Hargs]. inversion Hargs; subst.
      destruct v; [|exact I]. eapply at_fast; [apply in_or_app; right; left; reflexivity|]. apply H1. assumption.
    - assert (Hr : In r args) by (eapply nth_error_In; eassumption). eapply at_fast; [exact Hr|]. apply H3.
      eapply occurs_child; [eassumption|exact Hr].
    - specialize (Hargs _ H6). cbn in Hargs. apply Forall_app in Hargs. destruct Hargs as [_ Hargs]. inversion Hargs; subst.
      destruct v; [|exact I]. eapply at_fast; [apply in_or_app; right; left; reflexivity|]. apply H5. assumption.
    - eapply at_repeat; [|eassumption]. apply H0. specialize (Hargs _ H2). inversion Hargs; assumption.
    - specialize (Hargs _ H3). cbn in Hargs. inversion Hargs as [|? ? Ho1 Hl]; subst. inversion Hl as [|? ? Ho2 _]; subst.
      specialize (H0 Ho1). specialize (H2 Ho1 Ho2). destruct v as [m out'|]; [|exact I]. cbn [after placed].
      rewrite firstn_after. apply at_separate; [assumption|]. rewrite (len_reads _ _ _ _ _ _ _ _ H). assumption.
    - destruct optional; cbn [placed]; [apply at_separate_none|exact I].
    - pattern n at 2. rewrite <- (len_reads _ _ _ _ _ _ _ _ H0).
      eapply at_node; [eassumption|]. apply H1. apply occurs_top. eapply nth_error_In. eassumption.
    - apply at_optional. apply H0. specialize (Hargs _ H1). inversion Hargs; assumption.
    - apply at_optional_none.
    - apply at_not.
    - apply at_all_nil.
    - inversion H3 as [|? ? Ho1 Ho2]; subst. specialize (H0 Ho1). specialize (H2 Ho2). destruct v as [m out'|]; [|exact I].
      cbn [after]. rewrite firstn_after. apply at_all_cons; [assumption|]. rewrite (len_reads _ _ _ _ _ _ _ _ H). assumption.
    - inversion H1; subst. exists r. split; [left; reflexivity|]. apply H0. assumption.
    - inversion H3; subst. specialize (H2 ltac:(assumption)). destruct v as [m out'|]; [|exact I].
      destruct H2 as (q & Hq & Hg). exists q. split; [right; exact Hq|exact Hg].
    - apply at_times_O.
    - rewrite firstn_after. apply at_times_S; [auto|]. rewrite (len_reads _ _ _ _ _ _ _ _ H). auto.
    - apply at_more_stop.
    - destruct trail; [|exact I]. apply at_more_trail. apply H0. assumption.
    - specialize (H0 H6). specialize (H2 H5). specialize (H4 H5 H6). destruct v as [k out3|]; [|exact I]. cbn [after].
      rewrite !firstn_after. apply at_more_item; [assumption| |]; rewrite (len_reads _ _ _ _ _ _ _ _ H); [assumption|].
      rewrite (len_reads _ _ _ _ _ _ _ _ H1). assumption.
  Qed.
End Sound.

(** ** What is generated is read *)

Section Complete.
  Variable E : ext.
  Hypothesis HE : ext_ok E.
  Hypothesis Hstr : strings_end E.
  Variable syn : syntax.
  Hypothesis Hvalid : valid syn.
  Hypothesis Hwf : well_formed syn.
  Hypothesis Hclear : clear E syn.

  Local Notation refs := (s_rules syn).
  Local Notation fails := (fails E HE syn Hvalid Hwf Hclear).

  Lemma first_place before r behind p s n ts :
    (forall q ind, In q before -> columns_fit ind s -> exists ind' tr, reads E refs q ind p s No ind' tr) ->
    (forall ind, columns_fit ind s -> exists ind' tr, reads E refs r ind p s (Yes n ts) ind' tr) ->
    forall ind, columns_fit ind s ->
    exists ind' tr, reads_first E refs (before ++ r :: behind) ind p s (Yes n ts) ind' tr.
  Proof.
    intros Hq Hr. induction before as [|q before IH]; intros ind Hf; cbn [app].
    - destruct (Hr ind Hf) as (ind' & tr & H). exists ind', tr. apply reads_first_yes; exact H.
    - destruct (Hq q ind (or_introl eq_refl) Hf) as (ind1 & tr1 & H1).
      destruct (IH (fun q' i Hi => Hq q' i (or_intror Hi)) ind1) as (ind2 & tr2 & H2).
      { pose proof (reads_fit E syn _ _ _ _ _ _ _ 0 H1 Hf) as H. exact H. }
      exists ind2, (tr1 ++ tr2). eapply reads_first_next; eassumption.
  Qed.

  Definition read_there (r : rule) (p : nat) (x : str) (ts : list tok) : Prop :=
    occurs syn r -> forall rest ind, goes_on E syn r (hd_error rest) -> columns_fit ind (x ++ rest) ->
    exists ind' tr, reads E refs r ind p (x ++ rest) (Yes (length x) ts) ind' tr.

  Lemma until_there any optional property id ind p x rest :
    longest (fun c => ~ In c any) (x ++ rest) (length x) -> optional = true \/ 0 < length x ->
    reads E refs (RUntilAny any optional property id) ind p (x ++ rest)
      (Yes (length x) (token property (Rng p (length x)) (fun n => MString n x))) ind [].
  Proof. intros Hl Ho. pose proof (reads_until E refs any optional property id ind p _ _ Hl Ho) as H. rewrite firstn_here in H. exact H. Qed.

  Lemma until_ws_there any optional property id ind p x rest :
    longest (fun c => ~ white c /\ ~ In c any) (x ++ rest) (length x) -> optional = true \/ 0 < length x ->
    reads E refs (RUntilAnyOrWs any optional property id) ind p (x ++ rest)
      (Yes (length x) (token property (Rng p (length x)) (fun n => MString n x))) ind [].
  Proof. intros Hl Ho. pose proof (reads_until_ws E refs any optional property id ind p _ _ Hl Ho) as H. rewrite firstn_here in H. exact H. Qed.

  Lemma placed_read :
    (forall r p x ts, places E refs r p x ts -> read_there r p x ts) /\
    (forall args p x ts, places_all E refs args p x ts -> forall done id, occurs syn (RSequence (done ++ args) id) ->
       forall rest ind, goes_on E syn (RSequence (done ++ args) id) (hd_error rest) -> columns_fit ind (x ++ rest) ->
       exists ind' tr, reads_seq E refs args ind p (x ++ rest) (Yes (length x) ts) ind' tr) /\
    (forall r k p x ts, places_times E refs r k p x ts -> forall optional id, occurs syn (RRepeat r optional id) ->
       forall rest ind, goes_on E syn (RRepeat r optional id) (hd_error rest) -> columns_fit ind (x ++ rest) ->
       exists ind' tr, reads_many E refs r ind p (x ++ rest) k (length x) ts ind' tr) /\
    (forall r by_ trail p x ts, places_more E refs r by_ trail p x ts -> forall optional id, occurs syn (RSeparateBy r by_ optional trail id) ->
       forall rest ind, goes_on E syn (RSeparateBy r by_ optional trail id) (hd_error rest) -> columns_fit ind (x ++ rest) ->
       exists ind' tr, reads_more E refs r by_ trail ind p (x ++ rest) (Yes (length x) ts) ind' tr).
  Proof.
    apply places_mutind; intros; unfold read_there in *; intros;
      try match goal with H : occurs syn (RSequence _ _) |- _ => idtac | H : occurs syn ?r |- _ => pose proof (Hclear _ H) as Hd; cbn [decided_by_next] in Hd end.
    - do 2 eexists. apply reads_whitespace; [apply longest_here|apply optional_length]; try assumption.
      intros c Hc. apply Hd. rewrite <- Hc. assumption.
    - do 2 eexists. apply reads_tag; exists rest; reflexivity.
    - do 2 eexists. apply reads_not_tag. destruct Hd as (c & t & -> & Hc). cbn [app].
      intros [u Hu]. apply Hc. rewrite Hu in H0. exact H0.
    - do 2 eexists. apply until_there; [apply longest_here|apply optional_length]; try assumption.
      intros c Hc Hn. apply Hn, Hd. rewrite <- Hc. assumption.
    - do 2 eexists. apply until_ws_there; [apply longest_here|apply optional_length]; try assumption.
      intros c Hc [Hw Hn]. destruct (Hd c); [rewrite <- Hc; assumption| |]; auto.
    - do 2 eexists. eapply reads_text; [eapply Hstr; eassumption|assumption|].
      rewrite firstn_here. assumption.
    - do 2 eexists. eapply reads_number; [eapply (Hd (hd_error rest0)); [assumption|eassumption|reflexivity]|].
      rewrite firstn_here. assumption.
    - destruct (H0 [] id H1 rest ind H2 H3) as (ind' & tr & Hs).
      exists ind', tr. apply reads_sequence; exact Hs.
    - destruct (in_split _ _ H) as (before & behind & ->).
      assert (Hor : occurs syn r) by (eapply occurs_child; eassumption).
      destruct (first_place before r behind p (x ++ rest) (length x) ts) with (ind := ind) as (ind' & tr & Hs); [| |assumption|].
      + intros q i Hq Hf. destruct (in_split _ _ Hq) as (b1 & b2 & ->).
        destruct (Hd b1 q b2 r behind) as [Hne Hb]; [rewrite <- app_assoc; reflexivity|].
        apply fails; [|exact Hne| |exact Hf].
        * eapply occurs_child; [exact H2|]. cbn. apply in_or_app. left. exact Hq.
        * intros c Hc Hqc. destruct (Hb c Hqc) as [Hr He].
          destruct (proj1 (generates_begin E HE refs) _ _ _ (proj1 (places_generates E refs) _ _ _ _ H0)) as [Hn Hx].
          destruct x as [|a x]; cbn in Hc.
          -- apply (He (Hn eq_refl)). rewrite <- Hc. assumption.
          -- injection Hc as ->. exact (Hr (Hx _ _ eq_refl)).
      + intros i Hf. apply H1; [exact Hor| |exact Hf]. eapply on_select; eassumption.
      + exists ind', tr. apply reads_select; [destruct before; discriminate|exact Hs].
    - destruct Hd.
    - destruct (H0 optional id H2 rest ind H3 H4) as (ind' & tr & Hs).
      exists ind', tr. eapply reads_repeat; eassumption.
    - destruct Hd as (Hne & _ & Hq). destruct (Hq (or_introl eq_refl)) as [_ Hq'].
      destruct (fails r ind p rest) as (ind' & tr & Hs).
      + eapply occurs_child; [eassumption|left; reflexivity].
      + exact Hne.
      + intros c Hc Hb. apply (Hq' c Hb). rewrite <- Hc. assumption.
      + assumption.
      + exists ind', tr. exact (reads_separate_none E refs r by_ true trail id ind p rest ind' tr Hs).
    - destruct Hd as (Hne & [Hbe Hby] & _).
      assert (Hor : occurs syn r) by (eapply occurs_child; [eassumption|left; reflexivity]).
      rewrite <- app_assoc in *.
      destruct (H0 Hor (y ++ rest) ind) as (ind1 & tr1 & Hs1); [|assumption|].
      { destruct y as [|c y]; cbn; [eapply on_separate_end; eassumption|].
        eapply on_separator; [eassumption|]. eapply (more_begins E HE syn); [eapply (proj2 (proj2 (proj2 (places_generates E refs)))); eassumption|exact Hbe|reflexivity]. }
      destruct (H2 optional id H3 rest ind1 H4) as (ind2 & tr2 & Hs2); [eapply (fits_suffix E syn); eassumption|].
      exists ind2, (tr1 ++ tr2).
      rewrite app_length. change (Yes (length x + length y) (ts ++ ts')) with (after (length x) ts (Yes (length y) ts')).
      eapply reads_separate; [exact Hs1|]. rewrite skipn_here. exact Hs2.
    - assert (Hor : occurs syn r) by (apply occurs_top; eapply nth_error_In; eassumption).
      destruct (H1 Hor rest ind) as (ind1 & tr1 & Hs1); [eapply on_node; eassumption|assumption|].
      do 2 eexists. eapply reads_node; eassumption.
    - destruct Hd as [Hne Hq]. destruct (fails r ind p rest) as (ind' & tr & Hs).
      + eapply occurs_child; [eassumption|left; reflexivity].
      + exact Hne.
      + intros c Hc Hb. apply (Hq c Hb). rewrite <- Hc. assumption.
      + assumption.
      + exists ind', tr. apply reads_optional_none. exact Hs.
    - assert (Hor : occurs syn r) by (eapply occurs_child; [eassumption|left; reflexivity]).
      destruct (H0 Hor rest ind) as (ind1 & tr1 & Hs1); [eapply on_optional; eassumption|assumption|].
      exists ind1, tr1. apply reads_optional; exact Hs1.
    - destruct Hd as [Hne Hq]. destruct (fails r ind p rest) as (ind' & tr & Hs).
      + eapply occurs_child; [eassumption|left; reflexivity].
      + exact Hne.
      + intros c Hc Hb. apply (Hq c Hb). rewrite <- Hc. assumption.
      + assumption.
      + exists ind', []. eapply reads_not. exact Hs.
    - exists ind, []. apply reads_seq_nil.
    - assert (Hor : occurs syn r) by (eapply occurs_child; [eassumption|cbn; apply in_or_app; right; left; reflexivity]).
      rewrite <- app_assoc in *.
      destruct (H0 Hor (y ++ rest0) ind) as (ind1 & tr1 & Hs1); [|assumption|].
      { destruct (proj1 (proj2 (generates_begin E HE refs)) _ _ _ (proj1 (proj2 (places_generates E refs)) _ _ _ _ H1)) as [Hn Hc]. destruct y as [|c y]; cbn.
        - eapply on_sequence_end; eauto.
        - destruct (Hc c y eq_refl) as (before & q & behind & -> & Hf & Hq). eapply on_sequence_next; eassumption. }
      assert (Hre : done ++ r :: rest = (done ++ [r]) ++ rest) by (rewrite <- app_assoc; reflexivity).
      rewrite Hre in *.
      destruct (H2 (done ++ [r]) id H3 rest0 ind1 H4) as (ind2 & tr2 & Hs2); [eapply (fits_suffix E syn); eassumption|].
      exists ind2, (tr1 ++ tr2).
      rewrite app_length. change (Yes (length x + length y) (ts ++ ts')) with (after (length x) ts (Yes (length y) ts')).
      eapply reads_seq_cons; [exact Hs1|]. rewrite skipn_here. exact Hs2.
    - destruct Hd as [Hne Hq]. destruct (fails r ind p rest) as (ind' & tr & Hs).
      + eapply occurs_child; [eassumption|left; reflexivity].
      + exact Hne.
      + intros c Hc Hb. apply (Hq c Hb). rewrite <- Hc. assumption.
      + assumption.
      + exists ind', tr. apply reads_many_stop. exact Hs.
    - assert (Hor : occurs syn r) by (eapply occurs_child; [eassumption|left; reflexivity]).
      rewrite <- app_assoc in *.
      destruct (H0 Hor (y ++ rest) ind) as (ind1 & tr1 & Hs1); [|assumption|].
      { destruct (proj1 (proj2 (proj2 (generates_begin E HE refs))) _ _ _ _ (proj1 (proj2 (proj2 (places_generates E refs))) _ _ _ _ _ H1)) as [_ Hc]. destruct y as [|c y]; cbn.
        - eapply on_repeat_end; eassumption.
        - eapply on_repeat_again; [eassumption|eapply Hc; reflexivity]. }
      destruct (H2 optional id H3 rest ind1 H4) as (ind2 & tr2 & Hs2); [eapply (fits_suffix E syn); eassumption|].
      exists ind2, (tr1 ++ tr2).
      rewrite app_length. eapply reads_many_step; [exact Hs1|]. rewrite skipn_here. exact Hs2.
    - destruct Hd as (_ & [Hbe Hby] & _). destruct (fails by_ ind p rest) as (ind' & tr & Hs).
      + eapply occurs_child; [eassumption|right; left; reflexivity].
      + exact Hbe.
      + intros c Hc Hb. apply (Hby c Hb). rewrite <- Hc. assumption.
      + assumption.
      + exists ind', tr. apply reads_more_stop. exact Hs.
    - destruct Hd as (Hne & _ & Hq). destruct (Hq (or_intror eq_refl)) as [_ Hq'].
      assert (Hor : occurs syn r) by (eapply occurs_child; [eassumption|left; reflexivity]).
      assert (Hob : occurs syn by_) by (match goal with G : occurs syn (RSeparateBy _ _ _ _ _) |- _ => eapply occurs_child; [exact G|right; left; reflexivity] end).
      destruct (H0 Hob rest ind) as (ind1 & tr1 & Hs1); [eapply on_trail; eassumption|assumption|].
      destruct (fails r ind1 (p + length x) rest) as (ind2 & tr2 & Hs2).
      + exact Hor.
      + exact Hne.
      + intros c Hc Hb. apply (Hq' c Hb). rewrite <- Hc. assumption.
      + eapply (fits_suffix E syn); eassumption.
      + exists ind2, (tr1 ++ tr2).
        apply (reads_more_trail E refs r by_ true ind p (x ++ rest) (length x) ts ind1 tr1 ind2 tr2 Hs1). rewrite skipn_here. exact Hs2.
    - destruct Hd as (Hne & [Hbe Hby] & _).
      assert (Hor : occurs syn r) by (eapply occurs_child; [eassumption|left; reflexivity]).
      assert (Hob : occurs syn by_) by (match goal with G : occurs syn (RSeparateBy _ _ _ _ _) |- _ => eapply occurs_child; [exact G|right; left; reflexivity] end).
      rewrite <- !app_assoc in *.
      destruct (H0 Hob (y ++ z ++ rest) ind) as (ind1 & tr1 & Hs1); [|assumption|].
      { destruct (proj1 (generates_begin E HE refs) _ _ _ (proj1 (places_generates E refs) _ _ _ _ H1)) as [Hn Hc]. destruct y as [|c y]; [destruct (Hne (Hn eq_refl))|].
        cbn. eapply on_item; [eassumption|eapply Hc; reflexivity]. }
      pose proof (fits_suffix E syn _ _ _ _ _ _ _ _ H7 Hs1) as Hf1.
      destruct (H2 Hor (z ++ rest) ind1) as (ind2 & tr2 & Hs2); [|exact Hf1|].
      { destruct z as [|c z]; cbn; [eapply on_separate_end; eassumption|].
        eapply on_separator; [eassumption|]. eapply (more_begins E HE syn); [eapply (proj2 (proj2 (proj2 (places_generates E refs)))); eassumption|exact Hbe|reflexivity]. }
      pose proof (fits_suffix E syn _ _ _ _ _ _ _ _ Hf1 Hs2) as Hf2.
      destruct (H4 optional id H5 rest ind2 H6 Hf2) as (ind3 & tr3 & Hs3).
      exists ind3, (tr1 ++ tr2 ++ tr3).
      rewrite !app_length.
      change (Yes (length x + (length y + length z)) (ts ++ ts' ++ ts''))
        with (after (length x) ts (after (length y) ts' (Yes (length z) ts''))).
      eapply reads_more_item; [exact Hs1| |]; rewrite skipn_here; [exact Hs2|]. rewrite skipn_here. exact Hs3.
  Qed.
End Complete.

(** ** Whole texts *)

Section Whole.
  Variable E : ext.
  Hypothesis HE : ext_ok E.

  Lemma parse_placed s : without_lines s -> forall r, start_rule s r -> forall text tokens ind new,
    parse_returns E s text tokens ind None (tokens ++ new) -> places E (s_rules s) r 0 text new.
  Proof.
    intros Hno r Hr text tokens ind new H. apply (parse_accepts E HE) in H. destruct H as (out & Ha & Ht).
    apply app_inv_head in Ht. subst out. destruct Ha as [r' out ind' tr Hr' H]. rewrite (one_start _ _ _ Hr Hr') in H.
    pose proof (proj1 (reads_placed E HE s Hno) _ _ _ _ _ _ _ H (start_occurs _ _ Hr)) as Hg. cbn [placed] in Hg.
    rewrite firstn_all in Hg. exact Hg.
  Qed.

  Hypothesis Hs : strings_end E.

  Lemma clear_placed s : valid s -> well_formed s -> clear E s ->
    forall r, start_rule s r -> forall text ind, columns_fit ind text -> forall tokens new,
    parse_returns E s text tokens ind None (tokens ++ new) <-> places E (s_rules s) r 0 text new.
  Proof.
    intros Hv Hw Hc r Hr text ind Hf tokens new. split.
    - intros H. eapply parse_placed; try eassumption. apply (clear_no_lines E). exact Hc.
    - intros H. destruct (proj1 (placed_read E HE Hs s Hv Hw Hc) _ _ _ _ H (start_occurs _ _ Hr) [] ind) as (ind' & tr & Hr').
      + apply on_start. exact Hr.
      + rewrite app_nil_r. exact Hf.
      + rewrite app_nil_r in Hr'. apply (parse_accepts E HE). exists new. split; [|reflexivity].
        eapply accepts_all; eassumption.
  Qed.

  Lemma fit_front ind x y : columns_fit ind (x ++ y) -> columns_fit ind x.
  Proof. intros [H1 H2]. apply Forall_app in H1 as [H1 _]. rewrite app_length in H2. split; [exact H1|nia]. Qed.

  Lemma fit_back ind x y : columns_fit ind (x ++ y) -> columns_fit ind y.
  Proof. intros [H1 H2]. apply Forall_app in H1 as [_ H1]. rewrite app_length in H2. split; [exact H1|nia]. Qed.

  Lemma times_app refs r k : forall p x ts l y ts', places_times E refs r k p x ts -> places_times E refs r l (p + length x) y ts' ->
    places_times E refs r (k + l) p (x ++ y) (ts ++ ts').
  Proof.
    induction k as [|k IH]; intros p x ts l y ts' H H'; inversion H; subst; cbn [Nat.add app length] in *.
    - rewrite Nat.add_0_r in H'. exact H'.
    - rewrite <- !app_assoc. apply at_times_S; [assumption|]. apply IH; [assumption|].
      rewrite app_length, Nat.add_assoc in H'. exact H'.
  Qed.

  Lemma places_back refs d :
    (forall r p x ts, places E refs r p x ts -> forall p0, p = d + p0 -> exists ts0, ts = moved_by d ts0 /\ places E refs r p0 x ts0) /\
    (forall args p x ts, places_all E refs args p x ts -> forall p0, p = d + p0 -> exists ts0, ts = moved_by d ts0 /\ places_all E refs args p0 x ts0) /\
    (forall r k p x ts, places_times E refs r k p x ts -> forall p0, p = d + p0 -> exists ts0, ts = moved_by d ts0 /\ places_times E refs r k p0 x ts0) /\
    (forall r by_ trail p x ts, places_more E refs r by_ trail p x ts -> forall p0, p = d + p0 -> exists ts0, ts = moved_by d ts0 /\ places_more E refs r by_ trail p0 x ts0).
  Proof.
    apply places_mutind; intros; subst;
      repeat match goal with
      | IH : forall p0, d + ?q = d + p0 -> _ |- _ => destruct (IH q eq_refl) as (? & -> & ?); clear IH
      | IH : forall p0, d + ?q + ?a = d + p0 -> _ |- _ => destruct (IH (q + a) ltac:(lia)) as (? & -> & ?); clear IH
      | IH : forall p0, d + ?q + ?a + ?b = d + p0 -> _ |- _ => destruct (IH (q + a + b) ltac:(lia)) as (? & -> & ?); clear IH
      end; rewrite <- ?moved_token, <- ?moved_app; eexists; (split; [first [reflexivity|exact (eq_refl (moved_by d []))]|]); econstructor; eassumption.
  Qed.

  Lemma join_times refs r : forall items p, Forall (fun i => exists k, places_times E refs r k 0 (fst i) (snd i)) items ->
    exists k, places_times E refs r k p (whole_text items) (joined p items) /\
      (Exists (fun i => exists k, 0 < k /\ places_times E refs r k 0 (fst i) (snd i)) items -> exists k, 0 < k /\ places_times E refs r k p (whole_text items) (joined p items)).
  Proof.
    induction items as [|[x ts] items IH]; intros p H.
    - exists 0. split; [constructor|]. intros He. inversion He.
    - inversion H as [|? ? [k Hk] Hr]; subst. destruct (IH (p + length x) Hr) as (l & Hl & Hl'). cbn [fst snd] in *.
      exists (k + l). unfold whole_text. cbn [map concat joined fst]. fold (whole_text items).
      assert (Hm : forall k, places_times E refs r k 0 x ts -> places_times E refs r k p x (moved_by p ts)).
      { intros k0 H0. rewrite <- (Nat.add_0_r p) at 1. apply (places_moved E refs p). exact H0. }
      split; [apply times_app; [apply Hm, Hk|exact Hl]|].
      intros He. inversion He as [? ? (k' & Hp & Hk')|? ? He']; subst; cbn [fst snd] in *.
      + exists (k' + l). split; [lia|]. apply times_app; [apply Hm, Hk'|exact Hl].
      + destruct (Hl' He') as (l' & Hp & Hl2). exists (k + l'). split; [lia|]. apply times_app; [apply Hm, Hk|exact Hl2].
  Qed.

  Lemma cut_times refs r k : forall p x ts, places_times E refs r k p x ts ->
    exists items, x = whole_text items /\ ts = joined p items /\ length items = k /\ Forall (fun i => places E refs r 0 (fst i) (snd i)) items.
  Proof.
    induction k as [|k IH]; intros p x ts H; inversion H; subst.
    - exists []. repeat split; constructor.
    - match goal with HH : places_times _ _ _ k _ _ _ |- _ => apply IH in HH as (items & -> & -> & Hl & Hi) end.
      match goal with HH : places _ _ _ p ?y _ |- _ => destruct (proj1 (places_back refs p) _ _ _ _ HH 0 ltac:(lia)) as (us & -> & Hu); exists ((y, us) :: items) end.
      unfold whole_text. cbn. repeat split; [lia|]. constructor; assumption.
  Qed.

  Variable s : syntax.
  Hypothesis Hv : valid s.
  Hypothesis Hw : well_formed s.
  Hypothesis Hc : clear E s.

  (** [alone ind i]: the text of [i] is accepted with the data of [i]. *)
  Definition alone (ind : indent) (i : str * list tok) : Prop := parse_returns E s (fst i) [] ind None (snd i).

  Lemma fit_item ind items : columns_fit ind (whole_text items) -> Forall (fun i => columns_fit ind (fst i)) items.
  Proof.
    induction items as [|[x ts] items IH]; intros H; constructor; unfold whole_text in *; cbn in *; [eapply fit_front; exact H|apply IH; eapply fit_back; exact H].
  Qed.

  Lemma join_files r optional id ind items tokens : start_rule s (RRepeat r optional id) -> optional = true \/ items <> [] ->
    columns_fit ind (whole_text items) -> Forall (alone ind) items ->
    parse_returns E s (whole_text items) tokens ind None (tokens ++ joined 0 items).
  Proof.
    intros Hr Ho Hf Ha. apply (clear_placed s Hv Hw Hc _ Hr); [exact Hf|].
    assert (Hp : Forall (fun i => exists k, places_times E (s_rules s) r k 0 (fst i) (snd i) /\ (optional = true \/ 0 < k)) items).
    { apply fit_item in Hf. rewrite Forall_forall in *. intros i Hi. specialize (Ha i Hi). specialize (Hf i Hi).
      apply (clear_placed s Hv Hw Hc _ Hr (fst i) ind Hf []) in Ha. inversion Ha; subst. eauto. }
    destruct (join_times (s_rules s) r items 0) as (k & Hk & Hk').
    { eapply Forall_impl; [|exact Hp]. intros i (k & H & _). eauto. }
    destruct optional; [eapply at_repeat; [exact Hk|left; reflexivity]|].
    destruct Ho as [Ho|Ho]; [discriminate|]. destruct items as [|i items]; [contradiction|].
    inversion Hp as [|? ? (k1 & H1 & [?|Hlt]) _]; subst; [discriminate|].
    destruct Hk' as (k2 & Hlt2 & H2); [left; eauto|]. eapply at_repeat; [exact H2|right; exact Hlt2].
  Qed.

  Lemma cut_file r optional id ind text tokens new : start_rule s (RRepeat r optional id) -> columns_fit ind text ->
    parse_returns E s text tokens ind None (tokens ++ new) ->
    exists items, text = whole_text items /\ new = joined 0 items /\
      Forall (fun i => fst i <> [] /\ places E (s_rules s) r 0 (fst i) (snd i) /\ alone ind i) items.
  Proof.
    intros Hr Hf H. apply (clear_placed s Hv Hw Hc _ Hr text ind Hf) in H. inversion H; subst.
    match goal with HH : places_times _ _ _ _ _ _ _ |- _ => apply cut_times in HH as (items & -> & -> & Hl & Hi) end.
    exists items. split; [reflexivity|]. split; [reflexivity|]. apply fit_item in Hf. rewrite Forall_forall in *. intros i Hin.
    specialize (Hi i Hin). specialize (Hf i Hin). split; [|split; [exact Hi|]].
    - intros Hn. pose proof (Hc _ (start_occurs _ _ Hr)) as Hd. cbn [decided_by_next] in Hd. destruct Hd as [Hne _]. apply Hne.
      apply (proj1 (generates_begin E HE (s_rules s)) r (fst i) (map snd (snd i))); [|exact Hn]. apply (proj1 (places_generates E (s_rules s)) _ _ _ _ Hi).
    - apply (clear_placed s Hv Hw Hc _ Hr (fst i) ind Hf []). apply at_repeat with (k := 1); [|right; lia].
      pose proof (at_times_S E (s_rules s) r 0 0 (fst i) (snd i) [] [] Hi (at_times_O E (s_rules s) r _)) as Ht.
      rewrite !app_nil_r in Ht. exact Ht.
  Qed.

  Lemma more_app refs r by_ trail p y ts : places_more E refs r by_ trail p y ts -> trail = false -> forall sep tsep z tz y2 ts2,
    places E refs by_ (p + length y) sep tsep -> places E refs r (p + length y + length sep) z tz ->
    places_more E refs r by_ false (p + length y + length sep + length z) y2 ts2 ->
    places_more E refs r by_ false p (y ++ sep ++ z ++ y2) (ts ++ tsep ++ tz ++ ts2).
  Proof.
    revert r by_ trail p y ts. apply (places_more_ind' E refs (fun _ _ _ _ => True) (fun _ _ _ _ => True) (fun _ _ _ _ _ => True)
      (fun r by_ trail p y ts => trail = false -> forall sep tsep z tz y2 ts2,
        places E refs by_ (p + length y) sep tsep -> places E refs r (p + length y + length sep) z tz ->
        places_more E refs r by_ false (p + length y + length sep + length z) y2 ts2 ->
        places_more E refs r by_ false p (y ++ sep ++ z ++ y2) (ts ++ tsep ++ tz ++ ts2))); auto.
    - intros r by_ trail p Ht sep tsep z tz y2 ts2 H1 H2 H3. subst. cbn [app length] in *. rewrite Nat.add_0_r in *.
      apply at_more_item; assumption.
    - discriminate.
    - intros r by_ trail p x ts y ts' z ts'' H1 _ H2 _ H3 IH -> sep tsep a ta y2 ts2 Ha Hb Hd.
      rewrite <- !app_assoc. apply at_more_item; [exact H1|exact H2|]. rewrite !app_length, !Nat.add_assoc in *. apply IH; auto.
  Qed.

  Lemma join_lists r by_ optional id ind x ts sep tsep y ts' tokens : start_rule s (RSeparateBy r by_ optional false id) ->
    x <> [] -> y <> [] -> columns_fit ind (x ++ sep ++ y) -> alone ind (x, ts) -> alone ind (y, ts') -> places E (s_rules s) by_ 0 sep tsep ->
    parse_returns E s (x ++ sep ++ y) tokens ind None (tokens ++ joined 0 [(x, ts); (sep, tsep); (y, ts')]).
  Proof.
    intros Hr Hx Hy Hf Ha Hb Hsep. apply (clear_placed s Hv Hw Hc _ Hr); [exact Hf|].
    apply (clear_placed s Hv Hw Hc _ Hr x ind (fit_front _ _ _ Hf) []) in Ha.
    apply (clear_placed s Hv Hw Hc _ Hr y ind (fit_back _ _ _ (fit_back _ _ _ Hf)) []) in Hb.
    apply (proj1 (places_moved E (s_rules s) (length x))) in Hsep.
    apply (proj1 (places_moved E (s_rules s) (length x + length sep))) in Hb.
    rewrite Nat.add_0_r in *. cbn [fst snd] in Ha, Hb. cbn [joined snd Nat.add]. rewrite app_nil_r.
    assert (Hm0 : moved_by 0 ts = ts) by (unfold moved_by; rewrite <- (map_id ts) at 2; apply map_ext; intros [[o n] m]; reflexivity).
    rewrite Hm0. remember (moved_by (length x + length sep) ts') as u eqn:Hu. clear Hu.
    inversion Ha; subst; [contradiction|]. inversion Hb as [| | | | | | | | | | | |? ? ? ? ? ? z tz y2 tz2 Hz Hz2| | | |]; subst; [contradiction|].
    rewrite <- !app_assoc. apply at_separate; [assumption|]. rewrite app_length in *.
    eapply more_app; [eassumption|reflexivity| | |]; cbn [Nat.add] in *; rewrite ?Nat.add_assoc in *; assumption.
  Qed.
End Whole.

(** ** Optimised syntaxes *)

Lemma clear_placed_optimized E : ext_ok E -> strings_end E -> forall s s', valid s -> well_formed s -> clear E s ->
  optimize_returns s s' -> tails_fail_at_end E s ->
  forall r, start_rule s r -> forall text ind, columns_fit ind text -> forall tokens new,
  parse_returns E s' text tokens ind None (tokens ++ new) <-> places E (s_rules s) r 0 text new.
Proof.
  intros HE Hs s s' Hv Hw Hc Ho Ht r Hr text ind Hf tokens new.
  rewrite <- (clear_placed E HE Hs s Hv Hw Hc r Hr text ind Hf tokens new).
  symmetry. apply (optimize_accepts E HE s s' Ho Ht text tokens ind (proj1 Hf)).
Qed.

Lemma join_optimized E : ext_ok E -> strings_end E -> forall s s', valid s -> well_formed s -> clear E s ->
  optimize_returns s s' -> tails_fail_at_end E s ->
  forall r optional id, start_rule s (RRepeat r optional id) -> forall items, optional = true \/ items <> [] ->
  forall ind, columns_fit ind (whole_text items) ->
  Forall (fun i => parse_returns E s' (fst i) [] ind None (snd i)) items ->
  forall tokens, parse_returns E s' (whole_text items) tokens ind None (tokens ++ joined 0 items).
Proof.
  intros HE Hs s s' Hv Hw Hc Ho Ht r optional id Hr items Hn ind Hf Ha tokens.
  apply (optimize_accepts E HE s s' Ho Ht _ tokens ind (proj1 Hf)).
  eapply join_files; try eassumption. apply fit_item in Hf. rewrite Forall_forall in *. intros i Hi.
  apply (optimize_accepts E HE s s' Ho Ht (fst i) [] ind (proj1 (Hf i Hi))). apply Ha, Hi.
Qed.

(** ** A file of entries *)

(** [0 entry = [..."=":"key" "=" .$:"value" ";"]
     1 document = .r?(entry:"entry")] *)
Definition entries : syntax :=
  Syn [RSequence [RUntilAny (tx "=") false (Some (tx "key")) 1; t (tx "=") 2; RNumber false (Some (tx "value")) 3; t (tx ";") 4] 5;
       RRepeat (RNode (tx "entry") (Some (tx "entry")) (Some 0) 6) true 7] [tx "entry"; tx "document"].

(** [document = .s?(",") (.$:"n")] *)
Definition listing : syntax :=
  Syn [RSeparateBy (RNumber false (Some (tx "n")) 1) (t (tx ",") 2) true false 3] [tx "document"].

(** [document = .r?(.$:"n")] *)
Definition digits : syntax := Syn [RRepeat (RNumber false (Some (tx "n")) 1) true 2] [tx "document"].

Lemma entries_fine : validb entries && well_formedb entries && clearb 40 number_chars entries = true /\
  validb listing && well_formedb listing && clearb 40 number_chars listing = true.
Proof. vm_compute. split; reflexivity. Qed.

Lemma fine_clear s : validb s && well_formedb s && clearb 40 number_chars s = true -> valid s /\ well_formed s /\ clear std_ext s.
Proof.
  rewrite !andb_true_iff. intros ((Hv & Hw) & H). split; [apply validb_spec; exact Hv|]. split; [apply well_formedb_spec; exact Hw|].
  exact (clearb_spec std_ext number_chars 40 _ std_numbers H).
Qed.

Lemma entries_start : start_rule entries (RRepeat (RNode (tx "entry") (Some (tx "entry")) (Some 0) 6) true 7).
Proof. eexists [_]. reflexivity. Qed.

Lemma listing_start : start_rule listing (RSeparateBy (RNumber false (Some (tx "n")) 1) (t (tx ",") 2) true false 3).
Proof. exists []. reflexivity. Qed.

Definition entry_at (p : nat) (key : str) (n : nat) (value : f64) (len : nat) : list tok :=
  [(Rng p 0, StartNode (tx "entry")); (Rng p (length key), MString (tx "key") key);
   (Rng (p + length key + 1) n, MF64 (tx "value") value); (Rng p len, EndNode (tx "entry"))].

Definition one : f64 := match x_parse_number std_ext false (tx "1") with Some v => v | None => SpecFloat.S754_zero false end.
Definition twenty : f64 := match x_parse_number std_ext false (tx "20") with Some v => v | None => SpecFloat.S754_zero false end.

Lemma entries_example :
  parse_returns std_ext entries (tx "x=1;") [] indent_default None (entry_at 0 (tx "x") 1 one 4) /\
  parse_returns std_ext entries (tx "yz=20;") [] indent_default None (entry_at 0 (tx "yz") 2 twenty 6) /\
  parse_returns std_ext entries (tx "x=1;yz=20;") [] indent_default None (entry_at 0 (tx "x") 1 one 4 ++ entry_at 4 (tx "yz") 2 twenty 6).
Proof.
  assert (Ha : parse_returns std_ext entries (tx "x=1;") [] indent_default None (entry_at 0 (tx "x") 1 one 4)) by (exists 100; vm_compute; reflexivity).
  assert (Hb : parse_returns std_ext entries (tx "yz=20;") [] indent_default None (entry_at 0 (tx "yz") 2 twenty 6)) by (exists 100; vm_compute; reflexivity).
  split; [exact Ha|]. split; [exact Hb|].
  destruct (fine_clear _ (proj1 entries_fine)) as (Hv & Hw & Hc).
  refine (join_files std_ext std_ext_ok std_strings_end entries Hv Hw Hc _ _ _ indent_default
    [(tx "x=1;", entry_at 0 (tx "x") 1 one 4); (tx "yz=20;", entry_at 0 (tx "yz") 2 twenty 6)] [] entries_start (or_introl eq_refl) _ _).
  - apply columns_fitb_spec. vm_compute. reflexivity.
  - constructor; [exact Ha|]. constructor; [exact Hb|constructor].
Qed.

Lemma digits_refuted : exists s r id x ts y ts', valid s /\ well_formed s /\ start_rule s (RRepeat r true id) /\
  columns_fit indent_default (x ++ y) /\
  parse_returns std_ext s x [] indent_default None ts /\ parse_returns std_ext s y [] indent_default None ts' /\
  ~ parse_returns std_ext s (x ++ y) [] indent_default None (joined 0 [(x, ts); (y, ts')]).
Proof.
  exists digits. exists (RNumber false (Some (tx "n")) 1). exists 2%N.
  exists (tx "1"). exists [(Rng 0 1, MF64 (tx "n") one)]. exists (tx "20"). exists [(Rng 0 2, MF64 (tx "n") twenty)].
  split; [apply validb_spec; vm_compute; reflexivity|]. split; [apply well_formedb_spec; vm_compute; reflexivity|].
  split; [exists []; reflexivity|]. split; [apply columns_fitb_spec; vm_compute; reflexivity|].
  split; [exists 50; vm_compute; reflexivity|]. split; [exists 50; vm_compute; reflexivity|].
  intros [fuel H].
  assert (H' : exists ts, parse_returns std_ext digits (tx "120") [] indent_default None ts /\ length ts = 1)
    by (eexists; split; [exists 50; vm_compute; reflexivity|reflexivity]).
  destruct H' as (ts & H' & Hl).
  pose proof (parse_returns_unique std_ext digits indent_default (tx "120") [] None _ None _ (ex_intro _ fuel H) H') as [_ Hu].
  rewrite <- Hu in Hl. vm_compute in Hl. discriminate.
Qed.

Lemma listing_example :
  parse_returns std_ext listing (tx "1") [] indent_default None [(Rng 0 1, MF64 (tx "n") one)] /\
  parse_returns std_ext listing (tx "20") [] indent_default None [(Rng 0 2, MF64 (tx "n") twenty)] /\
  parse_returns std_ext listing (tx "1,20") [] indent_default None [(Rng 0 1, MF64 (tx "n") one); (Rng 2 2, MF64 (tx "n") twenty)].
Proof.
  assert (Ha : parse_returns std_ext listing (tx "1") [] indent_default None [(Rng 0 1, MF64 (tx "n") one)]) by (exists 100; vm_compute; reflexivity).
  assert (Hb : parse_returns std_ext listing (tx "20") [] indent_default None [(Rng 0 2, MF64 (tx "n") twenty)]) by (exists 100; vm_compute; reflexivity).
  split; [exact Ha|]. split; [exact Hb|].
  destruct (fine_clear _ (proj2 entries_fine)) as (Hv & Hw & Hc).
  refine (join_lists std_ext std_ext_ok std_strings_end listing Hv Hw Hc _ _ _ _ indent_default _ _ (tx ",") [] _ _ [] listing_start _ _ _ Ha Hb _).
  - discriminate.
  - discriminate.
  - apply columns_fitb_spec. vm_compute. reflexivity.
  - exact (at_tag std_ext (s_rules listing) (tx ",") false None 2%N 0).
Qed.
