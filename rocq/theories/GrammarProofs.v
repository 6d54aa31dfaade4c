(** Syntaxes read as context-free grammars. *)
From Coq Require Import List NArith Bool Arith Lia.
From Verif Require Import Base Ext Types ParseModel PegSpec DataSpec ApiSpec PegFacts ParseProofs TotalSpec TotalProofs
  ShapeSpec ShapeProofs GrammarSpec.
Import ListNotations.

(** ** What is read is generated *)

Lemma firstn_after {A} n m (s : list A) : firstn (n + m) s = firstn n s ++ firstn m (skipn n s).
Proof.
  revert s. induction n as [|n IH]; intros s; [reflexivity|]. destruct s as [|a s]; cbn; [rewrite !firstn_nil; reflexivity|].
  f_equal. apply IH.
Qed.

Section Sound.
  Variable E : ext.
  Hypothesis HE : ext_ok E.
  Variable syn : syntax.
  Hypothesis Hno : without_lines syn.

  Local Notation refs := (s_rules syn).
  Local Notation gen := (generates E refs).

  Definition generated (r : rule) (s : str) (v : verdict) : Prop :=
    match v with Yes n out => gen r (firstn n s) (map snd out) | No => True end.

  Lemma longest_optional (P : char -> Prop) s n optional : longest P s n -> optional = true \/ 0 < n -> optional = true \/ firstn n s <> [].
  Proof. exact (longest_some P s n optional). Qed.

  Lemma starts_firstn s text : starts_with s text -> firstn (length text) s = text.
  Proof. intros [rest ->]. rewrite firstn_app, Nat.sub_diag, firstn_O, app_nil_r. apply firstn_all. Qed.

  Lemma reads_generated :
    (forall r ind p s v ind' tr, reads E refs r ind p s v ind' tr -> occurs syn r -> generated r s v) /\
    (forall args ind p s v ind' tr, reads_seq E refs args ind p s v ind' tr -> Forall (occurs syn) args ->
       match v with Yes n out => generates_all E refs args (firstn n s) (map snd out) | No => True end) /\
    (forall args ind p s v ind' tr, reads_first E refs args ind p s v ind' tr -> Forall (occurs syn) args ->
       match v with Yes n out => exists r, In r args /\ gen r (firstn n s) (map snd out) | No => True end) /\
    (forall r ind p s k n out ind' tr, reads_many E refs r ind p s k n out ind' tr -> occurs syn r ->
       generates_times E refs r k (firstn n s) (map snd out)) /\
    (forall r by_ trail ind p s v ind' tr, reads_more E refs r by_ trail ind p s v ind' tr -> occurs syn r -> occurs syn by_ ->
       match v with Yes n out => generates_more E refs r by_ trail (firstn n s) (map snd out) | No => True end) /\
    (forall r indented id fresh nl ind p s v ind' tr, reads_lines E refs r indented id fresh nl ind p s v ind' tr -> True) /\
    (forall r indented fresh ind p s v fresh' ind' tr, reads_line E refs r indented fresh ind p s v fresh' ind' tr -> True).
  Proof.
    assert (Hargs : forall r, occurs syn r -> Forall (occurs syn) (children r)).
    { intros r Hr. apply Forall_forall. intros c Hc. eapply occurs_child; eassumption. }
    apply reads_mutind; intros; cbn [generated] in *; rewrite ?token_item, ?node_items; try exact I;
      try match goal with H : occurs _ (RLines _ _ _) |- _ => destruct (Hno _ _ _ H) end.
    - apply gen_whitespace; [apply H|eapply longest_optional; eassumption].
    - rewrite starts_firstn by assumption. apply gen_tag.
    - apply gen_not_tag.
    - apply gen_until; [apply H|eapply longest_optional; eassumption].
    - apply gen_until_ws; [apply H|eapply longest_optional; eassumption].
    - assert (Hl : n <= length s) by (destruct (x_string_bounds E HE _ _ H); lia).
      apply (gen_text E refs allow_empty property id (firstn n s) (skipn n s) val).
      + rewrite firstn_skipn, firstn_length_le by exact Hl. exact H.
      + rewrite firstn_length_le by exact Hl. assumption.
      + assumption.
    - assert (Hl : n <= length s) by (destruct (x_number_bounds E HE _ _ _ H); lia).
      apply (gen_number E refs underscore property id (firstn n s) (skipn n s) val).
      + rewrite firstn_skipn, firstn_length_le by exact Hl. exact H.
      + assumption.
    - specialize (H0 (Hargs _ H1)). destruct v; [|exact I]. apply gen_sequence. assumption.
    - specialize (H1 (Hargs _ H2)). destruct v; [|exact I]. destruct H1 as (r & Hr & Hg). eapply gen_select; eassumption.
    - specialize (Hargs _ H2). cbn in Hargs. apply Forall_app in Hargs. destruct Hargs as [_ Hargs]. inversion Hargs; subst.
      destruct v; [|exact I]. eapply gen_fast; [apply in_or_app; right; left; reflexivity|]. apply H1. assumption.
    - assert (Hr : In r args) by (eapply nth_error_In; eassumption). eapply gen_fast; [exact Hr|]. apply H3.
      eapply occurs_child; [eassumption|exact Hr].
    - specialize (Hargs _ H6). cbn in Hargs. apply Forall_app in Hargs. destruct Hargs as [_ Hargs]. inversion Hargs; subst.
      destruct v; [|exact I]. eapply gen_fast; [apply in_or_app; right; left; reflexivity|]. apply H5. assumption.
    - eapply gen_repeat; [|eassumption]. apply H0. specialize (Hargs _ H2). inversion Hargs; assumption.
    - specialize (Hargs _ H3). cbn in Hargs. inversion Hargs as [|? ? Ho1 Hl]; subst. inversion Hl as [|? ? Ho2 _]; subst.
      specialize (H0 Ho1). specialize (H2 Ho1 Ho2). destruct v as [m out'|]; [|exact I]. cbn [after generated].
      rewrite map_app, firstn_after. apply gen_separate; assumption.
    - destruct optional; cbn [generated]; [apply gen_separate_none|exact I].
    - eapply gen_node; [eassumption|]. apply H1. apply occurs_top. eapply nth_error_In. eassumption.
    - apply gen_optional. apply H0. specialize (Hargs _ H1). inversion Hargs; assumption.
    - apply gen_optional_none.
    - apply gen_not.
    - apply gen_all_nil.
    - inversion H3 as [|? ? Ho1 Ho2]; subst. specialize (H0 Ho1). specialize (H2 Ho2). destruct v as [m out'|]; [|exact I].
      cbn [after]. rewrite map_app, firstn_after. apply gen_all_cons; assumption.
    - inversion H1; subst. exists r. split; [left; reflexivity|]. apply H0. assumption.
    - inversion H3; subst. specialize (H2 ltac:(assumption)). destruct v as [m out'|]; [|exact I].
      destruct H2 as (q & Hq & Hg). exists q. split; [right; exact Hq|exact Hg].
    - apply gen_times_O.
    - rewrite map_app, firstn_after. apply gen_times_S; auto.
    - apply gen_more_stop.
    - destruct trail; [|exact I]. apply gen_more_trail. apply H0. assumption.
    - specialize (H0 H6). specialize (H2 H5). specialize (H4 H5 H6). destruct v as [k out3|]; [|exact I]. cbn [after].
      rewrite !map_app, !firstn_after. apply gen_more_item; assumption.
  Qed.
End Sound.

(** ** How generated texts begin *)

Section Begin.
  Variable E : ext.
  Hypothesis HE : ext_ok E.
  Variable refs : list rule.

  Definition begins_ok (r : rule) (x : str) : Prop :=
    (x = [] -> may_be_empty refs r) /\ (forall c y, x = c :: y -> may_begin E refs r c).

  Lemma app_first (x y : str) c z : x ++ y = c :: z -> (exists x', x = c :: x') \/ (x = [] /\ y = c :: z).
  Proof. destruct x as [|a x]; cbn; intros H; [right; auto|left]. injection H as -> _. eauto. Qed.

  Lemma generates_begin :
    (forall r x ms, generates E refs r x ms -> begins_ok r x) /\
    (forall args x ms, generates_all E refs args x ms ->
       (x = [] -> Forall (may_be_empty refs) args) /\
       (forall c y, x = c :: y -> exists before r behind, args = before ++ r :: behind /\
          Forall (may_be_empty refs) before /\ may_begin E refs r c)) /\
    (forall r k x ms, generates_times E refs r k x ms ->
       (x = [] -> k = 0 \/ may_be_empty refs r) /\ (forall c y, x = c :: y -> may_begin E refs r c)) /\
    (forall r by_ trail x ms, generates_more E refs r by_ trail x ms ->
       forall c y, x = c :: y -> may_begin E refs by_ c \/ may_begin E refs r c).
  Proof.
    apply generates_mutind; intros; unfold begins_ok in *.
    - split; [intros ->|intros c y ->].
      + destruct H0 as [->|H0]; [apply empty_whitespace|congruence].
      + inversion H; subst. apply begin_whitespace. assumption.
    - split; [intros ->; apply empty_tag|intros c y ->; apply begin_tag].
    - split; [intros _; apply empty_not_tag|discriminate].
    - split; [intros ->|intros c y ->].
      + destruct H0 as [->|H0]; [apply empty_until|congruence].
      + inversion H; subst. apply begin_until. assumption.
    - split; [intros ->|intros c y ->].
      + destruct H0 as [->|H0]; [apply empty_until_ws|congruence].
      + inversion H as [|? ? [Ha Hb] _]; subst. apply begin_until_ws; assumption.
    - destruct (x_string_bounds E HE _ _ H) as [Hb Hq]. split; [intros ->; cbn in Hb; lia|].
      intros c y ->. cbn in Hq. injection Hq as ->. apply begin_text.
    - pose proof (x_number_bounds E HE _ _ _ H) as Hb. split; [intros ->; cbn in Hb; lia|].
      intros c y ->. cbn [app] in H. eapply begin_number. exact H.
    - destruct H0 as [He Hb]. split; [intros Hx; apply empty_sequence; auto|]. intros c y Hx.
      destruct (Hb c y Hx) as (before & r & behind & -> & Hf & Hr).
      eapply begin_below; [discriminate|apply first_sequence; exact Hf|exact Hr].
    - destruct H1 as [He Hb]. split; [intros Hx; eapply empty_select; eauto|]. intros c y Hx.
      eapply begin_below; [discriminate|apply first_select; eassumption|eauto].
    - destruct H1 as [He Hb]. split; [intros Hx; eapply empty_fast; eauto|]. intros c y Hx.
      eapply begin_below; [discriminate|apply first_fast; eassumption|eauto].
    - destruct H0 as [He Hb]. split.
      + intros Hx. destruct (He Hx) as [->|Hr]; [|apply empty_repeat; exact Hr].
        destruct H1 as [->|H1]; [apply empty_repeat_optional|lia].
      + intros c y Hx. eapply begin_below; [discriminate|apply first_repeat|eauto].
    - split; [intros _; apply empty_separate_optional|discriminate].
    - destruct H0 as [He Hb]. split.
      + intros Hx. apply app_eq_nil in Hx. destruct Hx as [Hx _]. apply empty_separate. auto.
      + intros c z Hx. apply app_first in Hx. destruct Hx as [[x' ->]|[-> Hy]].
        * eapply begin_below; [discriminate|apply first_separate|eauto].
        * destruct (H2 c z Hy) as [Hc|Hc].
          -- eapply begin_below; [discriminate|apply first_separator; auto|exact Hc].
          -- eapply begin_below; [discriminate|apply first_separate|exact Hc].
    - destruct H1 as [He Hb]. split; [intros Hx; eapply empty_node; eauto|intros c y Hx; eapply begin_node; eauto].
    - split; [intros _; apply empty_optional|discriminate].
    - destruct H0 as [He Hb]. split; [intros _; apply empty_optional|]. intros c y Hx.
      eapply begin_below; [discriminate|apply first_optional|eauto].
    - split; [intros _; apply empty_not|discriminate].
    - split; [constructor|discriminate].
    - destruct H0 as [He Hb], H2 as [He' Hb']. split.
      + intros Hx. apply app_eq_nil in Hx. destruct Hx. constructor; auto.
      + intros c z Hx. apply app_first in Hx. destruct Hx as [[x' ->]|[-> Hy]].
        * exists [], r, rest. split; [reflexivity|]. split; [constructor|eauto].
        * destruct (Hb' c z Hy) as (before & q & behind & -> & Hf & Hq).
          exists (r :: before), q, behind. split; [reflexivity|]. split; [constructor; auto|exact Hq].
    - split; [auto|discriminate].
    - destruct H0 as [He Hb], H2 as [He' Hb']. split.
      + intros Hx. apply app_eq_nil in Hx. destruct Hx. right. auto.
      + intros c z Hx. apply app_first in Hx. destruct Hx as [[x' ->]|[-> Hy]]; eauto.
    - discriminate.
    - left. apply (proj2 H0) in H1. exact H1.
    - destruct H0 as [He Hb], H2 as [He' Hb']. apply app_first in H5. destruct H5 as [[x' ->]|[-> Hy]]; [left; eauto|].
      apply app_first in Hy. destruct Hy as [[x' ->]|[-> Hz]]; [right; eauto|]. eapply H4. exact Hz.
  Qed.
End Begin.

(** ** In clear syntaxes, what is generated is read *)

Lemma skipn_here {A} (x y : list A) : skipn (length x) (x ++ y) = y.
Proof. rewrite skipn_app, skipn_all, Nat.sub_diag. reflexivity. Qed.

Lemma firstn_here {A} (x y : list A) : firstn (length x) (x ++ y) = x.
Proof. rewrite firstn_app, Nat.sub_diag, firstn_O, app_nil_r. apply firstn_all. Qed.

Section Complete.
  Variable E : ext.
  Hypothesis HE : ext_ok E.
  Hypothesis Hstr : strings_end E.
  Variable syn : syntax.
  Hypothesis Hvalid : valid syn.
  Hypothesis Hwf : well_formed syn.
  Hypothesis Hclear : clear E syn.

  Local Notation refs := (s_rules syn).

  Lemma clear_no_lines : without_lines syn.
  Proof. intros r indented id Ho. exact (Hclear _ Ho). Qed.

  (** The rule fails here. *)
  Lemma fails r ind p s : occurs syn r -> ~ empties syn r -> (forall c, hd_error s = Some c -> ~ begins E syn r c) ->
    columns_fit ind s -> exists ind' tr, reads E refs r ind p s No ind' tr.
  Proof.
    intros Ho He Hb Hf.
    destruct (all_decided E HE syn Hvalid Hwf (length s) r Ho ind p s eq_refl Hf) as (v & ind' & tr & H).
    destruct v as [n out|]; [|eauto]. exfalso.
    pose proof (proj1 (reads_generated E HE syn clear_no_lines) _ _ _ _ _ _ _ H Ho) as Hg. cbn [generated] in Hg.
    destruct (proj1 (generates_begin E HE refs) _ _ _ Hg) as [Hn Hc]. destruct (firstn n s) as [|c y] eqn:Hx.
    - exact (He (Hn eq_refl)).
    - apply (Hb c); [|exact (Hc c y eq_refl)]. destruct n, s; cbn in Hx; try discriminate. injection Hx as -> _. reflexivity.
  Qed.

  Lemma first_of before r behind p s n ms :
    (forall q ind, In q before -> columns_fit ind s -> exists ind' tr, reads E refs q ind p s No ind' tr) ->
    (forall ind, columns_fit ind s -> exists out ind' tr, reads E refs r ind p s (Yes n out) ind' tr /\ map snd out = ms) ->
    forall ind, columns_fit ind s ->
    exists out ind' tr, reads_first E refs (before ++ r :: behind) ind p s (Yes n out) ind' tr /\ map snd out = ms.
  Proof.
    intros Hq Hr. induction before as [|q before IH]; intros ind Hf; cbn [app].
    - destruct (Hr ind Hf) as (out & ind' & tr & H & Hm). exists out, ind', tr. split; [apply reads_first_yes; exact H|exact Hm].
    - destruct (Hq q ind (or_introl eq_refl) Hf) as (ind1 & tr1 & H1).
      destruct (IH (fun q' i Hi => Hq q' i (or_intror Hi)) ind1) as (out & ind2 & tr2 & H2 & Hm).
      { pose proof (reads_fit E syn _ _ _ _ _ _ _ 0 H1 Hf) as H. exact H. }
      exists out, ind2, (tr1 ++ tr2). split; [eapply reads_first_next; eassumption|exact Hm].
  Qed.

  Lemma more_begins r by_ trail z ms c y : generates_more E refs r by_ trail z ms -> ~ empties syn by_ ->
    z = c :: y -> begins E syn by_ c.
  Proof.
    intros H He Hz. inversion H; subst; try discriminate;
      match goal with G : generates E refs by_ _ _ |- _ => destruct (proj1 (generates_begin E HE refs) _ _ _ G) as [Hn Hc] end.
    - eapply Hc. reflexivity.
    - match goal with G : _ ++ _ = c :: y |- _ => apply app_first in G; destruct G as [[x' ->]|[-> _]] end;
        [eapply Hc; reflexivity|destruct (He (Hn eq_refl))].
  Qed.

  Lemma longest_here (P : char -> Prop) x rest : Forall P x -> (forall c, hd_error rest = Some c -> ~ P c) -> longest P (x ++ rest) (length x).
  Proof.
    intros Hx Hr. split; [rewrite app_length; lia|]. split; [rewrite firstn_here; exact Hx|].
    intros c Hc. rewrite nth_error_app2, Nat.sub_diag in Hc by lia. apply Hr. destruct rest; exact Hc.
  Qed.

  Lemma optional_length (x : str) optional : optional = true \/ x <> [] -> optional = true \/ 0 < length x.
  Proof. intros [H|H]; [auto|right]. destruct x; [congruence|cbn; lia]. Qed.

  Lemma fits_suffix ind x rest r p v ind' tr : columns_fit ind (x ++ rest) -> reads E refs r ind p (x ++ rest) v ind' tr -> columns_fit ind' rest.
  Proof. intros Hf H. pose proof (reads_fit E syn _ _ _ _ _ _ _ (length x) H Hf) as Hs. rewrite skipn_here in Hs. exact Hs. Qed.

  Lemma fits_same ind s r p v ind' tr : columns_fit ind s -> reads E refs r ind p s v ind' tr -> columns_fit ind' s.
  Proof. intros Hf H. exact (reads_fit E syn _ _ _ _ _ _ _ 0 H Hf). Qed.

  Definition read_here (r : rule) (x : str) (ms : list metadata) : Prop :=
    occurs syn r -> forall rest ind p, goes_on E syn r (hd_error rest) -> columns_fit ind (x ++ rest) ->
    exists out ind' tr, reads E refs r ind p (x ++ rest) (Yes (length x) out) ind' tr /\ map snd out = ms.

  Lemma generated_read :
    (forall r x ms, generates E refs r x ms -> read_here r x ms) /\
    (forall args x ms, generates_all E refs args x ms -> forall done id, occurs syn (RSequence (done ++ args) id) ->
       forall rest ind p, goes_on E syn (RSequence (done ++ args) id) (hd_error rest) -> columns_fit ind (x ++ rest) ->
       exists out ind' tr, reads_seq E refs args ind p (x ++ rest) (Yes (length x) out) ind' tr /\ map snd out = ms) /\
    (forall r k x ms, generates_times E refs r k x ms -> forall optional id, occurs syn (RRepeat r optional id) ->
       forall rest ind p, goes_on E syn (RRepeat r optional id) (hd_error rest) -> columns_fit ind (x ++ rest) ->
       exists out ind' tr, reads_many E refs r ind p (x ++ rest) k (length x) out ind' tr /\ map snd out = ms) /\
    (forall r by_ trail x ms, generates_more E refs r by_ trail x ms -> forall optional id, occurs syn (RSeparateBy r by_ optional trail id) ->
       forall rest ind p, goes_on E syn (RSeparateBy r by_ optional trail id) (hd_error rest) -> columns_fit ind (x ++ rest) ->
       exists out ind' tr, reads_more E refs r by_ trail ind p (x ++ rest) (Yes (length x) out) ind' tr /\ map snd out = ms).
  Proof.
    apply generates_mutind; intros; unfold read_here in *; intros;
      try match goal with H : occurs syn (RSequence _ _) |- _ => idtac | H : occurs syn ?r |- _ => pose proof (Hclear _ H) as Hd; cbn [decided_by_next] in Hd end.
    - do 3 eexists. split; [apply reads_whitespace; [apply longest_here|apply optional_length]; try assumption|reflexivity].
      intros c Hc. apply Hd. rewrite <- Hc. assumption.
    - do 3 eexists. split; [apply reads_tag; exists rest; reflexivity|apply token_item].
    - do 3 eexists. split; [apply reads_not_tag|apply token_item]. destruct Hd as (c & t & -> & Hc). cbn [app].
      intros [u Hu]. apply Hc. rewrite Hu in H0. exact H0.
    - do 3 eexists. split; [apply reads_until; [apply longest_here|apply optional_length]; try assumption|].
      + intros c Hc Hn. apply Hn, Hd. rewrite <- Hc. assumption.
      + rewrite token_item, firstn_here. reflexivity.
    - do 3 eexists. split; [apply reads_until_ws; [apply longest_here|apply optional_length]; try assumption|].
      + intros c Hc [Hw Hn]. destruct (Hd c); [rewrite <- Hc; assumption| |]; auto.
      + rewrite token_item, firstn_here. reflexivity.
    - do 3 eexists. split; [eapply reads_text; [eapply Hstr; eassumption|assumption|]|apply token_item].
      rewrite firstn_here. assumption.
    - do 3 eexists. split; [eapply reads_number; [eapply (Hd (hd_error rest0)); [assumption|eassumption|reflexivity]|]|apply token_item].
      rewrite firstn_here. assumption.
    - destruct (H0 [] id H1 rest ind p H2 H3) as (out & ind' & tr & Hs & Hm).
      exists out, ind', tr. split; [apply reads_sequence; exact Hs|exact Hm].
    - destruct (in_split _ _ H) as (before & behind & ->).
      assert (Hor : occurs syn r) by (eapply occurs_child; eassumption).
      destruct (first_of before r behind p (x ++ rest) (length x) ms) with (ind := ind) as (out & ind' & tr & Hs & Hm); [| |assumption|].
      + intros q i Hq Hf. destruct (in_split _ _ Hq) as (b1 & b2 & ->).
        destruct (Hd b1 q b2 r behind) as [Hne Hb]; [rewrite <- app_assoc; reflexivity|].
        apply fails; [|exact Hne| |exact Hf].
        * eapply occurs_child; [exact H2|]. cbn. apply in_or_app. left. exact Hq.
        * intros c Hc Hqc. destruct (Hb c Hqc) as [Hr He]. destruct (proj1 (generates_begin E HE refs) _ _ _ H0) as [Hn Hx].
          destruct x as [|a x]; cbn in Hc.
          -- apply (He (Hn eq_refl)). rewrite <- Hc. assumption.
          -- injection Hc as ->. exact (Hr (Hx _ _ eq_refl)).
      + intros i Hf. apply H1; [exact Hor| |exact Hf]. eapply on_select; eassumption.
      + exists out, ind', tr. split; [apply reads_select; [destruct before; discriminate|exact Hs]|exact Hm].
    - destruct Hd.
    - destruct (H0 optional id H2 rest ind p H3 H4) as (out & ind' & tr & Hs & Hm).
      exists out, ind', tr. split; [eapply reads_repeat; eassumption|exact Hm].
    - destruct Hd as (Hne & _ & Hq). destruct (Hq (or_introl eq_refl)) as [_ Hq'].
      destruct (fails r ind p rest) as (ind' & tr & Hs).
      + eapply occurs_child; [eassumption|left; reflexivity].
      + exact Hne.
      + intros c Hc Hb. apply (Hq' c Hb). rewrite <- Hc. assumption.
      + assumption.
      + exists [], ind', tr. split; [|reflexivity]. exact (reads_separate_none E refs r by_ true trail id ind p rest ind' tr Hs).
    - destruct Hd as (Hne & [Hbe Hby] & _).
      assert (Hor : occurs syn r) by (eapply occurs_child; [eassumption|left; reflexivity]).
      rewrite <- app_assoc in *.
      destruct (H0 Hor (y ++ rest) ind p) as (out & ind1 & tr1 & Hs1 & Hm1); [|assumption|].
      { destruct y as [|c y]; cbn; [eapply on_separate_end; eassumption|].
        eapply on_separator; [eassumption|]. eapply more_begins; [eassumption|exact Hbe|reflexivity]. }
      destruct (H2 optional id H3 rest ind1 (p + length x) H4) as (out2 & ind2 & tr2 & Hs2 & Hm2); [eapply fits_suffix; eassumption|].
      exists (out ++ out2), ind2, (tr1 ++ tr2). split; [|etransitivity; [apply map_app|]; apply f_equal2; assumption].
      rewrite app_length. change (Yes (length x + length y) (out ++ out2)) with (after (length x) out (Yes (length y) out2)).
      eapply reads_separate; [exact Hs1|]. rewrite skipn_here. exact Hs2.
    - assert (Hor : occurs syn r) by (apply occurs_top; eapply nth_error_In; eassumption).
      destruct (H1 Hor rest ind p) as (out & ind1 & tr1 & Hs1 & Hm1); [eapply on_node; eassumption|assumption|].
      do 3 eexists. split; [eapply reads_node; eassumption|]. rewrite node_items, Hm1. reflexivity.
    - destruct Hd as [Hne Hq]. destruct (fails r ind p rest) as (ind' & tr & Hs).
      + eapply occurs_child; [eassumption|left; reflexivity].
      + exact Hne.
      + intros c Hc Hb. apply (Hq c Hb). rewrite <- Hc. assumption.
      + assumption.
      + exists [], ind', tr. split; [|reflexivity]. apply reads_optional_none. exact Hs.
    - assert (Hor : occurs syn r) by (eapply occurs_child; [eassumption|left; reflexivity]).
      destruct (H0 Hor rest ind p) as (out & ind1 & tr1 & Hs1 & Hm1); [eapply on_optional; eassumption|assumption|].
      exists out, ind1, tr1. split; [apply reads_optional; exact Hs1|exact Hm1].
    - destruct Hd as [Hne Hq]. destruct (fails r ind p rest) as (ind' & tr & Hs).
      + eapply occurs_child; [eassumption|left; reflexivity].
      + exact Hne.
      + intros c Hc Hb. apply (Hq c Hb). rewrite <- Hc. assumption.
      + assumption.
      + exists [], ind', []. split; [|reflexivity]. eapply reads_not. exact Hs.
    - exists [], ind, []. split; [apply reads_seq_nil|reflexivity].
    - assert (Hor : occurs syn r) by (eapply occurs_child; [eassumption|cbn; apply in_or_app; right; left; reflexivity]).
      rewrite <- app_assoc in *.
      destruct (H0 Hor (y ++ rest0) ind p) as (out & ind1 & tr1 & Hs1 & Hm1); [|assumption|].
      { destruct (proj1 (proj2 (generates_begin E HE refs)) _ _ _ H1) as [Hn Hc]. destruct y as [|c y]; cbn.
        - eapply on_sequence_end; eauto.
        - destruct (Hc c y eq_refl) as (before & q & behind & -> & Hf & Hq). eapply on_sequence_next; eassumption. }
      assert (Hre : done ++ r :: rest = (done ++ [r]) ++ rest) by (rewrite <- app_assoc; reflexivity).
      rewrite Hre in *.
      destruct (H2 (done ++ [r]) id H3 rest0 ind1 (p + length x) H4) as (out2 & ind2 & tr2 & Hs2 & Hm2); [eapply fits_suffix; eassumption|].
      exists (out ++ out2), ind2, (tr1 ++ tr2). split; [|etransitivity; [apply map_app|]; apply f_equal2; assumption].
      rewrite app_length. change (Yes (length x + length y) (out ++ out2)) with (after (length x) out (Yes (length y) out2)).
      eapply reads_seq_cons; [exact Hs1|]. rewrite skipn_here. exact Hs2.
    - destruct Hd as [Hne Hq]. destruct (fails r ind p rest) as (ind' & tr & Hs).
      + eapply occurs_child; [eassumption|left; reflexivity].
      + exact Hne.
      + intros c Hc Hb. apply (Hq c Hb). rewrite <- Hc. assumption.
      + assumption.
      + exists [], ind', tr. split; [|reflexivity]. apply reads_many_stop. exact Hs.
    - assert (Hor : occurs syn r) by (eapply occurs_child; [eassumption|left; reflexivity]).
      rewrite <- app_assoc in *.
      destruct (H0 Hor (y ++ rest) ind p) as (out & ind1 & tr1 & Hs1 & Hm1); [|assumption|].
      { destruct (proj1 (proj2 (proj2 (generates_begin E HE refs))) _ _ _ _ H1) as [_ Hc]. destruct y as [|c y]; cbn.
        - eapply on_repeat_end; eassumption.
        - eapply on_repeat_again; [eassumption|eapply Hc; reflexivity]. }
      destruct (H2 optional id H3 rest ind1 (p + length x) H4) as (out2 & ind2 & tr2 & Hs2 & Hm2); [eapply fits_suffix; eassumption|].
      exists (out ++ out2), ind2, (tr1 ++ tr2). split; [|etransitivity; [apply map_app|]; apply f_equal2; assumption].
      rewrite app_length. eapply reads_many_step; [exact Hs1|]. rewrite skipn_here. exact Hs2.
    - destruct Hd as (_ & [Hbe Hby] & _). destruct (fails by_ ind p rest) as (ind' & tr & Hs).
      + eapply occurs_child; [eassumption|right; left; reflexivity].
      + exact Hbe.
      + intros c Hc Hb. apply (Hby c Hb). rewrite <- Hc. assumption.
      + assumption.
      + exists [], ind', tr. split; [|reflexivity]. apply reads_more_stop. exact Hs.
    - destruct Hd as (Hne & _ & Hq). destruct (Hq (or_intror eq_refl)) as [_ Hq'].
      assert (Hor : occurs syn r) by (eapply occurs_child; [eassumption|left; reflexivity]).
      assert (Hob : occurs syn by_) by (match goal with G : occurs syn (RSeparateBy _ _ _ _ _) |- _ => eapply occurs_child; [exact G|right; left; reflexivity] end).
      destruct (H0 Hob rest ind p) as (out & ind1 & tr1 & Hs1 & Hm1); [eapply on_trail; eassumption|assumption|].
      destruct (fails r ind1 (p + length x) rest) as (ind2 & tr2 & Hs2).
      + exact Hor.
      + exact Hne.
      + intros c Hc Hb. apply (Hq' c Hb). rewrite <- Hc. assumption.
      + eapply fits_suffix; eassumption.
      + exists out, ind2, (tr1 ++ tr2). split; [|exact Hm1].
        apply (reads_more_trail E refs r by_ true ind p (x ++ rest) (length x) out ind1 tr1 ind2 tr2 Hs1). rewrite skipn_here. exact Hs2.
    - destruct Hd as (Hne & [Hbe Hby] & _).
      assert (Hor : occurs syn r) by (eapply occurs_child; [eassumption|left; reflexivity]).
      assert (Hob : occurs syn by_) by (match goal with G : occurs syn (RSeparateBy _ _ _ _ _) |- _ => eapply occurs_child; [exact G|right; left; reflexivity] end).
      rewrite <- !app_assoc in *.
      destruct (H0 Hob (y ++ z ++ rest) ind p) as (out & ind1 & tr1 & Hs1 & Hm1); [|assumption|].
      { destruct (proj1 (generates_begin E HE refs) _ _ _ H1) as [Hn Hc]. destruct y as [|c y]; [destruct (Hne (Hn eq_refl))|].
        cbn. eapply on_item; [eassumption|eapply Hc; reflexivity]. }
      pose proof (fits_suffix _ _ _ _ _ _ _ _ H7 Hs1) as Hf1.
      destruct (H2 Hor (z ++ rest) ind1 (p + length x)) as (out2 & ind2 & tr2 & Hs2 & Hm2); [|exact Hf1|].
      { destruct z as [|c z]; cbn; [eapply on_separate_end; eassumption|].
        eapply on_separator; [eassumption|]. eapply more_begins; [eassumption|exact Hbe|reflexivity]. }
      pose proof (fits_suffix _ _ _ _ _ _ _ _ Hf1 Hs2) as Hf2.
      destruct (H4 optional id H5 rest ind2 (p + length x + length y) H6 Hf2) as (out3 & ind3 & tr3 & Hs3 & Hm3).
      exists (out ++ out2 ++ out3), ind3, (tr1 ++ tr2 ++ tr3). split; [|etransitivity; [apply map_app|]; apply f_equal2; [assumption|]; etransitivity; [apply map_app|]; apply f_equal2; assumption].
      rewrite !app_length.
      change (Yes (length x + (length y + length z)) (out ++ out2 ++ out3))
        with (after (length x) out (after (length y) out2 (Yes (length z) out3))).
      eapply reads_more_item; [exact Hs1| |]; rewrite skipn_here; [exact Hs2|]. rewrite skipn_here. exact Hs3.
  Qed.
End Complete.
