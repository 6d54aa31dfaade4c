(** C89: entries and whole files. *)
From Coq Require Import Ascii String List NArith Bool Arith Lia.
From Verif Require Import Base Ext Types PegSpec PegFacts PegProofs PrimProofs Examples KeySpec KeyProofs.
Import ListNotations.
Local Open Scope string_scope.
Local Open Scope list_scope.
Local Open Scope nat_scope.

Lemma white_newline : white newline. Proof. reflexivity. Qed.

Lemma white_not_solid t : starts_solid t -> ~ Forall white t.
Proof. intros (c & r & -> & Hc) H. inversion H. contradiction. Qed.

(** White space in front of something that is not. *)
Lemma white_prefix (x y g z : str) : x ++ y = g ++ z -> Forall white g -> in_front (fun c => ~ white c) y ->
  exists x', x = g ++ x' /\ z = x' ++ y.
Proof.
  intros He Hg Hy. apply app_eq_app in He as (l & [[-> ->] | [-> ->]]).
  - exists l. auto.
  - apply Forall_app in Hg as [_ Hl]. destruct l as [|c l].
    + exists []. rewrite !app_nil_r. auto.
    + exfalso. destruct Hy as [Hy | (d & r & Hy & Hd)]; [discriminate|]. injection Hy as <- _. inversion Hl. contradiction.
Qed.

(** The last line break. *)
Lemma last_break (w : str) : In newline w -> exists a b, w = a ++ newline :: b /\ ~ In newline b.
Proof.
  induction w as [|c w IH]; intros H; [contradiction|].
  destruct (in_dec N.eq_dec newline w) as [Hi|Hi].
  - destruct (IH Hi) as (a & b & -> & Hb). exists (c :: a), b. auto.
  - destruct H as [-> | H]; [|contradiction]. exists [], w. auto.
Qed.

Lemma ends_line_solid t x : ends_solid t -> Forall white x -> (ends_line (t ++ x) <-> In newline x).
Proof.
  intros (r & c & -> & Hc) Hx. split.
  - intros (a & b & He & Hb). rewrite <- app_assoc in He. apply app_eq_app in He as (l & [[-> He] | [-> He]]).
    + (* the break is behind r *) destruct l as [|d l]; cbn in He.
      * injection He as He1 He2. exfalso. apply Hc. rewrite <- He1. exact white_newline.
      * injection He as He1 He2. exfalso. subst b. apply Forall_app in Hb as [_ Hb]. inversion Hb. contradiction.
    + destruct l as [|d l]; cbn in He.
      * injection He as He1 He2. exfalso. apply Hc. rewrite He1. exact white_newline.
      * injection He as He1 He2. subst x. apply in_app_iff. right. left. reflexivity.
  - intros H. apply in_split in H as (a & b & ->). exists ((r ++ [c]) ++ a), b. split; [rewrite <- !app_assoc; reflexivity|].
    apply Forall_app in Hx as [_ Hx]. inversion Hx. assumption.
Qed.

Lemma ends_line_none t : ~ In newline t -> ~ ends_line t.
Proof. intros H (a & b & -> & _). apply H, in_app_iff. right. left. reflexivity. Qed.

Lemma ends_line_app w t : starts_solid t -> ends_line (w ++ t) -> ends_line t.
Proof.
  intros Ht (a & b & He & Hb). apply app_eq_app in He as (l & [[-> He] | [-> ->]]).
  - destruct l as [|d l]; cbn in He.
    + exists [], b. auto.
    + injection He as _ ->. apply Forall_app in Hb as [_ Hb]. exfalso. exact (white_not_solid _ Ht Hb).
  - exists l, b. auto.
Qed.

Section Entry.
  Variable E : ext.
  Hypothesis HE : ext_ok E.
  Hypothesis HL : solid_literals E.
  Variable refs : list rule.
  Notation reads := (reads E refs).

  Lemma seq_split r rs ind p s n out ind' tr : reads_seq E refs (r :: rs) ind p s (Yes n out) ind' tr ->
    exists t1 s1 o1 ind1 tr1 n2 o2 tr2, s = t1 ++ s1 /\ n = length t1 + n2 /\ out = o1 ++ o2 /\
      reads r ind p (t1 ++ s1) (Yes (length t1) o1) ind1 tr1 /\
      reads_seq E refs rs ind1 (p + length t1) s1 (Yes n2 o2) ind' tr2.
  Proof.
    intros H. remember (r :: rs) as l eqn:Hl. remember (Yes n out) as v eqn:Hv.
    destruct H as [| |r0 rest0 ind p s n1 out1 ind1 tr1 v2 ind2 tr2 H1 H2]; try discriminate. injection Hl as -> ->.
    destruct v2 as [n2 out2|]; [|discriminate]. cbn in Hv. injection Hv as <- <-.
    pose proof (reads_le E HE refs _ _ _ _ _ _ _ _ H1) as Hle.
    assert (Hlen : length (firstn n1 s) = n1) by (rewrite firstn_length; lia).
    exists (firstn n1 s), (skipn n1 s), out1, ind1, tr1, n2, out2, tr2. rewrite Hlen, firstn_skipn. repeat split; assumption.
  Qed.

  Lemma seq_join r rs ind p t1 s1 o1 ind1 tr1 n2 o2 ind' tr2 :
    reads r ind p (t1 ++ s1) (Yes (length t1) o1) ind1 tr1 ->
    reads_seq E refs rs ind1 (p + length t1) s1 (Yes n2 o2) ind' tr2 ->
    reads_seq E refs (r :: rs) ind p (t1 ++ s1) (Yes (length t1 + n2) (o1 ++ o2)) ind' (tr1 ++ tr2).
  Proof.
    intros H1 H2. change (Yes (length t1 + n2) (o1 ++ o2)) with (after (length t1) o1 (Yes n2 o2)).
    eapply reads_seq_cons; [exact H1|]. rewrite skipn_past. exact H2.
  Qed.

  Lemma white_yes id ind p a b : Forall white a -> in_front (fun c => ~ white c) b ->
    reads (RWhitespace true id) ind p (a ++ b) (Yes (length a) []) ind [].
  Proof. intros Ha Hb. apply reads_whitespace; [apply longest_here; assumption|left; reflexivity]. Qed.

  Lemma white_back id ind p a b out ind' tr : reads (RWhitespace true id) ind p (a ++ b) (Yes (length a) out) ind' tr ->
    Forall white a /\ in_front (fun c => ~ white c) b /\ out = [] /\ ind' = ind.
  Proof. intros H. inversion H; subst. match goal with HH : longest _ _ _ |- _ => apply longest_back in HH; destruct HH end. auto. Qed.

  Lemma solid_front t rest : starts_solid t -> in_front (fun c => ~ white c) (t ++ rest).
  Proof. intros (c & r & -> & Hc). right. exists c, (r ++ rest). auto. Qed.

  Lemma entry_solid t rest m : entry E t rest m -> starts_solid t.
  Proof.
    intros [body -> _ _|key a b v m' -> Hne Hk _ _ _ _].
    - exists hash, body. split; [reflexivity|discriminate].
    - destruct key as [|c key]; [congruence|]. inversion Hk as [|? ? [Hc _]]; subst. do 2 eexists. split; [reflexivity|exact Hc].
  Qed.

  (** How far the rule reads behind the entry. *)
  Definition reach (t x y : str) : Prop :=
    (x = [] /\ ~ In newline t /\ in_front (eq newline) y) \/ (ends_solid t /\ in_front (fun c => ~ white c) y).

  Lemma white_span (s : str) : exists x y, s = x ++ y /\ Forall white x /\ in_front (fun c => ~ white c) y.
  Proof.
    induction s as [|c s (x & y & -> & Hx & Hy)]; [exists [], []; repeat split; [constructor|left; reflexivity]|].
    destruct (is_ws c) eqn:Hc.
    - exists (c :: x), y. repeat split; [constructor; assumption|exact Hy].
    - exists [], (c :: x ++ y). repeat split; [constructor|]. right. exists c, (x ++ y). split; [reflexivity|]. unfold white. congruence.
  Qed.

  Lemma entry_yes w t rest m ind p : Forall white w -> entry E t rest m ->
    exists x y out tr, rest = x ++ y /\ Forall white x /\ reach t x y /\
      reads entry_rule ind p (w ++ t ++ rest) (Yes (length (w ++ t ++ x)) out) ind tr /\ map snd out = m.
  Proof.
    intros Hw He. pose proof (entry_solid _ _ _ He) as Hsol. destruct He as [body -> Hb Hf|key a b v m' -> Hne Hk Hh Ha Hb Hv].
    - exists [], rest. do 2 eexists. split; [reflexivity|]. split; [constructor|]. split.
      { left. split; [reflexivity|]. split; [|exact Hf]. intros [H|H]; [discriminate|contradiction]. }
      split.
      + apply reads_select; [discriminate|]. apply reads_first_yes. apply reads_sequence.
        replace (length (w ++ (hash :: body) ++ [])) with (length w + (length [hash] + (length body + 0)))
          by (rewrite app_nil_r, app_length; cbn; lia).
        eapply seq_join; [apply white_yes; [exact Hw|apply solid_front; exact Hsol]|].
        change ((hash :: body) ++ rest) with ([hash] ++ body ++ rest).
        eapply seq_join; [apply (reads_tag E refs [hash] false None); exists (body ++ rest); reflexivity|].
        eapply seq_join; [|constructor]. apply (reads_until E refs [newline] true None).
        * apply longest_here.
          -- apply Forall_forall. intros c Hc [<- | []]. contradiction.
          -- destruct Hf as [-> | (c & r & -> & <-)]; [left; reflexivity|]. right. exists newline, r. split; [reflexivity|].
             intros H. apply H. left. reflexivity.
        * left. reflexivity.
      + reflexivity.
    - destruct (white_span rest) as (x & y & Hr & Hx & Hy). exists x, y.
      pose proof (value_solid E HL _ _ _ Hv) as [Hvs Hve].
      destruct (value_yes E HE refs v rest m' ind (p + length w + length key + length a + length [equals] + length b) Hv) as (out & tr & Hread & Hout).
      do 2 eexists. split; [exact Hr|]. split; [exact Hx|]. split.
      { right. split; [|exact Hy]. destruct Hve as (r & c & -> & Hc). exists (key ++ a ++ equals :: b ++ r), c.
        split; [|exact Hc]. rewrite <- !app_assoc. cbn. rewrite <- !app_assoc. reflexivity. }
      split.
      + apply reads_select; [discriminate|]. eapply reads_first_next.
        { apply reads_sequence. change No with (after (length w) [] No) at 1.
          eapply reads_seq_cons; [apply white_yes; [exact Hw|apply solid_front; exact Hsol]|].
          rewrite skipn_past. apply reads_seq_no. apply reads_tag_no. intros (r & Hr'). apply Hh.
          destruct key as [|c key]; [congruence|]. injection Hr' as -> _. exists key. reflexivity. }
        apply reads_first_yes. apply reads_sequence.
        replace (w ++ (key ++ a ++ equals :: b ++ v) ++ rest) with (w ++ key ++ a ++ [equals] ++ b ++ v ++ rest)
          by (rewrite <- !app_assoc; cbn; rewrite <- !app_assoc; reflexivity).
        replace (length (w ++ (key ++ a ++ equals :: b ++ v) ++ x))
          with (length w + (length key + (length a + (length [equals] + (length b + (length v + (length x + 0)))))))
          by (rewrite !app_length; cbn; rewrite !app_length; lia).
        eapply seq_join. { apply white_yes; [exact Hw|]. destruct key as [|c key]; [congruence|]. apply Forall_inv in Hk as [Hc _]. right. do 2 eexists. split; [reflexivity|exact Hc]. }
        eapply seq_join.
        { apply (reads_until_ws E refs [equals] false (Some (tx "key"))).
          - apply longest_here.
            + eapply Forall_impl; [|exact Hk]. intros c [H1 H2]. split; [exact H1|]. intros [<- | []]. congruence.
            + right. destruct a as [|c a].
              * exists equals, (b ++ v ++ rest). split; [reflexivity|]. intros [_ H]. apply H. left. reflexivity.
              * apply Forall_inv in Ha. exists c, (a ++ [equals] ++ b ++ v ++ rest). split; [reflexivity|]. tauto.
          - right. destruct key; [congruence|cbn; lia]. }
        eapply seq_join. { apply white_yes; [exact Ha|]. right. exists equals, (b ++ v ++ rest). split; [reflexivity|discriminate]. }
        eapply seq_join; [apply (reads_tag E refs [equals] false None); exists (b ++ v ++ rest); reflexivity|].
        eapply seq_join; [apply white_yes; [exact Hb|apply solid_front; exact Hvs]|].
        eapply seq_join; [exact Hread|]. rewrite Hr.
        eapply seq_join; [apply white_yes; [exact Hx|exact Hy]|]. constructor.
      + cbn. rewrite map_app, firstn_past. cbn. rewrite ?app_nil_r. f_equal. exact Hout.
  Qed.

  Lemma entry_back s ind p n out ind' tr : reads entry_rule ind p s (Yes n out) ind' tr ->
    exists w t x y, s = w ++ t ++ x ++ y /\ n = length (w ++ t ++ x) /\ Forall white w /\ entry E t (x ++ y) (map snd out) /\
      Forall white x /\ reach t x y /\ ind' = ind.
  Proof.
    intros H. apply select_inv in H. apply first_inv in H as [(t1 & H)|(i1 & t1 & t2 & Hno & H)].
    - assert (H' : reads_seq E refs [RWhitespace true 1; RTag [hash] false false None 2; RUntilAny [newline] true None 3] ind p s (Yes n out) ind' t1)
        by (inversion H; assumption). clear H.
      apply seq_split in H' as (w & s1 & o1 & i1 & tr1 & n1 & o1' & tr1' & -> & -> & -> & Hw & H).
      apply white_back in Hw as (Hw & _ & -> & ->).
      apply seq_split in H as (g & s2 & o2 & i2 & tr2 & n2 & o2' & tr2' & -> & -> & -> & Hg & H).
      apply tag_back in Hg as (-> & -> & ->).
      apply seq_split in H as (body & s3 & o3 & i3 & tr3 & n3 & o3' & tr3' & -> & -> & -> & Hb & H).
      inversion H; subst. clear H. inversion Hb; subst.
      match goal with HH : longest _ _ _ |- _ => apply longest_back in HH; destruct HH as [Hbody Hf] end.
      assert (Hni : ~ In newline body).
      { intros Hi. rewrite Forall_forall in Hbody. apply (Hbody _ Hi). left. reflexivity. }
      assert (Hfr : in_front (eq newline) s3).
      { destruct Hf as [-> | (c & r & -> & Hc)]; [left; reflexivity|]. right. exists c, r. split; [reflexivity|].
        destruct (N.eq_dec newline c) as [Heq|Hneq]; [exact Heq|]. exfalso. apply Hc. intros [Heq|[]]. congruence. }
      exists w, (hash :: body), [], s3. split; [reflexivity|]. split; [rewrite !app_length; cbn; lia|]. split; [exact Hw|].
      split; [apply (entry_comment E _ _ body eq_refl Hni Hfr)|]. split; [constructor|]. split; [|reflexivity].
      left. split; [reflexivity|]. split; [|exact Hfr]. intros [Hh|Hh]; [discriminate|contradiction].
    - apply first_inv in H as [(t3 & H)|(i3 & t3 & t4 & _ & H)]; [|inversion H].
      assert (H' : reads_seq E refs [RWhitespace true 5; RUntilAnyOrWs [equals] false (Some (tx "key")) 6; RWhitespace true 7;
             RTag [equals] false false None 8; RWhitespace true 9; value_rule; RWhitespace true 17] i1 p s (Yes n out) ind' t3)
        by (inversion H; assumption). clear H.
      apply seq_split in H' as (w & s1 & o1 & i2 & tr1 & n1 & o1' & tr1' & -> & -> & -> & Hw & H).
      apply white_back in Hw as (Hw & Hw' & -> & ->).
      assert (Hcom : ~ starts_with s1 [hash] /\ i1 = ind).
      { inversion Hno; subst. match goal with HH : reads_seq _ _ _ _ _ _ No _ _ |- _ => rename HH into Hs end.
        remember No as v eqn:Hv in Hs. inversion Hs as [| |? ? ? ? ? n0 ? ? ? v1 ? ? Hwh Hs2]; subst; try discriminate.
        { match goal with HH : reads (RWhitespace _ _) _ _ _ No _ _ |- _ => inversion HH end. }
        inversion Hwh; subst. match goal with HH : longest _ _ _ |- _ => rename HH into Hl end.
        assert (n0 = length w) as -> by (apply (longest_unique _ _ _ _ Hl); apply longest_here; assumption).
        rewrite skipn_past in Hs2. destruct v1; [discriminate|].
        inversion Hs2 as [|? ? ? ? ? ? ? Htg|? ? ? ? ? n4 ? ? ? v2 ? ? Htg Hs3]; subst.
        - apply tag_fails_back in Htg. exact Htg.
        - destruct v2 as [|]; [discriminate|]. inversion Hs3 as [|? ? ? ? ? ? ? Hu|? ? ? ? ? n5 ? ? ? v3 ? ? Hu Hs4]; subst.
          + inversion Hu.
          + inversion Hs4; subst. discriminate. }
      destruct Hcom as [Hcom ->].
      apply seq_split in H as (key & s2 & o2 & i3 & tr2 & n2 & o2' & tr2' & -> & -> & -> & Hk & H).
      apply seq_split in H as (a & s3 & o3 & i4 & tr3 & n3 & o3' & tr3' & -> & -> & -> & Ha & H).
      apply white_back in Ha as (Ha & _ & -> & ->).
      apply seq_split in H as (g & s4 & o4 & i5 & tr4 & n4 & o4' & tr4' & -> & -> & -> & Hg & H).
      apply tag_back in Hg as (-> & -> & ->).
      apply seq_split in H as (b & s5 & o5 & i6 & tr5 & n5 & o5' & tr5' & -> & -> & -> & Hb & H).
      apply white_back in Hb as (Hb & _ & -> & ->).
      apply seq_split in H as (v & s6 & o6 & i7 & tr6 & n6 & o6' & tr6' & -> & -> & -> & Hv & H).
      apply value_back in Hv as (m & Hv & Hm & ->).
      apply seq_split in H as (x & s7 & o7 & i8 & tr7 & n7 & o7' & tr7' & -> & -> & -> & Hx & H).
      apply white_back in Hx as (Hx & Hy & -> & ->). inversion H; subst. clear H.
      inversion Hk; subst. match goal with HH : longest _ _ _ |- _ => apply longest_back in HH; destruct HH as [Hkey _] end.
      match goal with HH : false = true \/ _ |- _ => destruct HH as [?|Hpos]; [discriminate|] end.
      exists w, (key ++ a ++ equals :: b ++ v), x, s7. split; [rewrite <- !app_assoc; cbn; rewrite <- !app_assoc; reflexivity|].
      split; [rewrite !app_length; cbn; rewrite !app_length; lia|]. split; [exact Hw|].
      split; [|split; [exact Hx|split; [|reflexivity]]].
      + cbn. rewrite app_nil_r, firstn_past. change (map snd o6) with (map snd o6). rewrite Hm.
        apply (entry_pair E _ _ key a b v m eq_refl); try assumption.
        * intros ->. cbn in Hpos. lia.
        * eapply Forall_impl; [|exact Hkey]. intros c [H1 H2]. split; [exact H1|]. intros ->. apply H2. left. reflexivity.
        * intros (r & ->). apply Hcom. eexists. reflexivity.
      + right. split; [|exact Hy]. destruct (value_solid E HL _ _ _ Hv) as [_ (r & c & -> & Hc)].
        exists (key ++ a ++ equals :: b ++ r), c. split; [|exact Hc]. rewrite <- !app_assoc. cbn. rewrite <- !app_assoc. reflexivity.
  Qed.
End Entry.
