(** C89: whole files. *)
From Coq Require Import Ascii String List NArith Bool Arith Lia.
From Verif Require Import Base Ext Types PegSpec PegFacts PegProofs PrimProofs Examples KeySpec KeyProofs KeyProofs2.
Import ListNotations.
Local Open Scope string_scope.
Local Open Scope list_scope.
Local Open Scope nat_scope.

Definition break_first (s : str) : Prop := exists a b, s = a ++ newline :: b /\ Forall white a.

Lemma entries_add E w s ms : Forall white w -> entries E s ms -> entries E (w ++ s) ms.
Proof.
  intros Hw [w0 H0|w0 t w' m H0 Ht H'|w0 t a b rest m ms' H0 Ht Ha Hb Hr].
  - apply entries_none. apply Forall_app. auto.
  - rewrite app_assoc. apply entries_last; [apply Forall_app; auto|assumption|assumption].
  - rewrite app_assoc. apply entries_more; [apply Forall_app; auto|assumption|assumption|assumption|assumption].
Qed.

Lemma entries_strip E w s ms : Forall white w -> entries E (w ++ s) ms -> entries E s ms.
Proof.
  intros Hw H. remember (w ++ s) as z eqn:Hz.
  destruct H as [w0 H0|w0 t w' m H0 Ht H'|w0 t a b rest m ms' H0 Ht Ha Hb Hr].
  - apply entries_none. subst. apply Forall_app in H0. tauto.
  - destruct (white_prefix _ _ _ _ Hz Hw (solid_front _ _ (entry_solid E _ _ _ Ht))) as (x & -> & ->).
    apply Forall_app in H0 as [_ H0]. apply entries_last; assumption.
  - destruct (white_prefix _ _ _ _ Hz Hw (solid_front _ _ (entry_solid E _ _ _ Ht))) as (x & -> & ->).
    apply Forall_app in H0 as [_ H0]. apply entries_more; assumption.
Qed.

Lemma entries_white E w ms : Forall white w -> entries E w ms -> ms = [].
Proof.
  intros Hw H. destruct H as [|w0 t w' m H0 Ht H'|w0 t a b rest m ms' H0 Ht Ha Hb Hr]; [reflexivity| |];
    exfalso; apply Forall_app in Hw as [_ Hw]; apply Forall_app in Hw as [Hw _];
    exact (white_not_solid _ (entry_solid E _ _ _ Ht) Hw).
Qed.

Lemma solid_nonempty t : starts_solid t -> 0 < length t.
Proof. intros (c & r & -> & _). cbn. lia. Qed.

(** Where the next line starts. *)
Lemma next_line nl w t : Forall white w -> starts_solid t -> nl = true \/ In newline w ->
  exists w1 w2, w = w1 ++ w2 /\ line_start nl (w ++ t) (length w1) /\ ~ In newline w2.
Proof.
  intros Hw Ht Hn. assert (Hl : longest white (w ++ t) (length w)).
  { apply longest_here; [exact Hw|]. rewrite <- (app_nil_r t). apply solid_front. exact Ht. }
  destruct (in_dec N.eq_dec newline w) as [Hi|Hi].
  - destruct (last_break w Hi) as (a & b & -> & Hb). exists (a ++ [newline]), b. split; [rewrite <- app_assoc; reflexivity|]. split; [|exact Hb].
    rewrite app_length. apply (line_start_break nl _ a b (length (a ++ newline :: b))); [exact Hl| |exact Hb]. apply firstn_past.
  - destruct Hn as [-> | Hn]; [|contradiction]. exists [], w. split; [reflexivity|]. split; [|exact Hi].
    apply line_start_here; [reflexivity|]. exists (length w). split; [exact Hl|]. rewrite firstn_past. exact Hi.
Qed.

Lemma break_white w t : starts_solid t -> break_first (w ++ t) -> In newline w.
Proof.
  intros Ht (a & b & He & Ha).
  assert (He' : w ++ t = (a ++ [newline]) ++ b) by (rewrite <- app_assoc; exact He).
  destruct (white_prefix _ _ _ _ He') as (x & -> & _).
  - apply Forall_app. split; [exact Ha|]. constructor; [reflexivity|constructor].
  - rewrite <- (app_nil_r t). apply solid_front. exact Ht.
  - rewrite <- app_assoc. apply in_app_iff. right. left. reflexivity.
Qed.

Section Lines.
  Variable E : ext.
  Hypothesis HE : ext_ok E.
  Hypothesis HL : solid_literals E.
  Variable refs : list rule.

  Lemma ends_item w t x y : starts_solid t -> Forall white x -> reach t x y -> (ends_line (w ++ t ++ x) <-> In newline x).
  Proof.
    intros Ht Hx Hr. split.
    - intros H. apply ends_line_app in H.
      2:{ destruct Ht as (c & r & -> & Hc). exists c, (r ++ x). auto. }
      destruct Hr as [(-> & Hn & _)|(Hs & _)].
      + rewrite app_nil_r in H. exfalso. exact (ends_line_none _ Hn H).
      + apply (ends_line_solid t x Hs Hx). exact H.
    - intros H. apply in_split in H as (a & b & ->). exists (w ++ t ++ a), b. split; [rewrite <- !app_assoc; reflexivity|].
      apply Forall_app in Hx as [_ Hx]. inversion Hx. assumption.
  Qed.

  (** What may follow an entry. *)
  Definition follows (rest : str) (ms : list (list metadata)) : Prop :=
    (Forall white rest /\ ms = []) \/
    (exists a b r, rest = a ++ newline :: b ++ r /\ Forall white a /\ Forall white b /\ entries E r ms).

  Lemma follows_rest t x y ms : Forall white x -> reach t x y -> follows (x ++ y) ms ->
    entries E y ms /\ (In newline x \/ Forall white y \/ break_first y).
  Proof.
    intros Hx Hr [(Hw & ->)|(a & b & r & He & Ha & Hb & Hm)].
    { apply Forall_app in Hw as [_ Hy]. split; [apply entries_none; exact Hy|right; left; exact Hy]. }
    destruct Hr as [(-> & _ & _)|(_ & Hy)].
    - cbn in He. subst y. split.
      + replace (a ++ newline :: b ++ r) with ((a ++ newline :: b) ++ r) by (rewrite <- app_assoc; reflexivity).
        apply entries_add; [|exact Hm]. apply Forall_app. split; [exact Ha|]. constructor; [reflexivity|exact Hb].
      + right. right. exists a, (b ++ r). auto.
    - replace (a ++ newline :: b ++ r) with ((a ++ newline :: b) ++ r) in He by (rewrite <- app_assoc; reflexivity).
      destruct (white_prefix _ _ _ _ He) as (x' & -> & ->); [|exact Hy|].
      { apply Forall_app. split; [exact Ha|]. constructor; [reflexivity|exact Hb]. }
      split.
      + apply (entries_strip E x'); [|exact Hm]. apply Forall_app in Hx. tauto.
      + left. rewrite <- app_assoc. apply in_app_iff. right. left. reflexivity.
  Qed.

  Lemma entries_cases s ms : entries E s ms -> (Forall white s /\ ms = []) \/
    exists w t rest m ms', s = w ++ t ++ rest /\ ms = m :: ms' /\ Forall white w /\ entry E t rest m /\ follows rest ms'.
  Proof.
    intros [w H|w t w' m H Ht H'|w t a b rest m ms' H Ht Ha Hb Hr]; [left; auto| |]; right.
    - exists w, t, w', m, []. repeat split; try assumption. left. auto.
    - exists w, t, (a ++ newline :: b ++ rest), m, ms'. repeat split; try assumption. right. exists a, b, rest. auto.
  Qed.

  Lemma cases_entries w t rest m ms : Forall white w -> entry E t rest m -> follows rest ms -> entries E (w ++ t ++ rest) (m :: ms).
  Proof.
    intros Hw Ht [(Hr & ->)|(a & b & r & -> & Ha & Hb & Hm)]; [apply entries_last; assumption|apply entries_more; assumption].
  Qed.

  Lemma lines_yes id N : forall s ms nl fresh ind p, length s < N -> entries E s ms -> nl = true \/ Forall white s \/ break_first s ->
    exists out tr, reads_lines E refs entry_rule false id fresh nl ind p s (Yes (length s) out) ind tr /\ map snd out = concat ms.
  Proof.
    induction N as [|N IH]; intros s ms nl fresh ind p HN Hs Hnl; [lia|].
    apply entries_cases in Hs as [(Hw & ->)|(w & t & rest & m & ms' & -> & -> & Hw & Ht & Hf)].
    { exists [], []. split; [apply reads_lines_end; exact Hw|reflexivity]. }
    pose proof (entry_solid E _ _ _ Ht) as Hsol.
    assert (Hsol' : starts_solid (t ++ rest)) by (destruct Hsol as (c & r & -> & Hc); exists c, (r ++ rest); auto).
    assert (Hall : ~ Forall white (w ++ t ++ rest)).
    { intros H. apply Forall_app in H as [_ H]. exact (white_not_solid _ Hsol' H). }
    assert (Hn : nl = true \/ In newline w).
    { destruct Hnl as [H|[H|H]]; [left; exact H|contradiction|right]. exact (break_white _ _ Hsol' H). }
    destruct (next_line nl w (t ++ rest) Hw Hsol' Hn) as (w1 & w2 & -> & Hls & Hno).
    assert (Hw2 : Forall white w2) by (apply Forall_app in Hw; tauto).
    destruct (entry_yes E HE HL refs w2 t rest m ind (p + length w1) Hw2 Ht) as (x & y & out & tr & -> & Hx & Hr & Hread & Hout).
    destruct (follows_rest t x y ms' Hx Hr Hf) as (Hy & Hyb).
    set (nl' := if in_dec N.eq_dec newline x then true else false).
    assert (Hnl' : nl' = true <-> In newline x) by (unfold nl'; destruct (in_dec N.eq_dec newline x); split; auto; discriminate).
    destruct (IH y ms' nl' fresh ind (p + length w1 + length (w2 ++ t ++ x))) as (out' & tr' & Hread' & Hout').
    { rewrite !app_length in HN. pose proof (solid_nonempty _ Hsol). lia. }
    { exact Hy. }
    { destruct Hyb as [H|H]; [left; apply Hnl'; exact H|right; exact H]. }
    assert (Hsk : skipn (length w1) ((w1 ++ w2) ++ t ++ x ++ y) = w2 ++ t ++ x ++ y) by (rewrite <- app_assoc; apply skipn_past).
    assert (Hre : w2 ++ t ++ x ++ y = (w2 ++ t ++ x) ++ y) by (rewrite <- !app_assoc; reflexivity).
    exists (out ++ out'), (tr ++ tr'). split.
    - replace (Yes (length ((w1 ++ w2) ++ t ++ x ++ y)) (out ++ out'))
        with (after (length w1 + length (w2 ++ t ++ x)) out (Yes (length y) out'))
        by (cbn; f_equal; rewrite !app_length; lia).
      apply (reads_lines_item E refs entry_rule false id fresh nl ind p _ (length w1) (length (w2 ++ t ++ x)) out fresh ind tr nl').
      + exact Hall.
      + exact Hls.
      + rewrite Hsk. apply reads_line_plain. exact Hread.
      + rewrite Hsk, Hre, firstn_past. rewrite Hnl'. symmetry. exact (ends_item w2 t x y Hsol Hx Hr).
      + rewrite Hsk, Hre, skipn_past. exact Hread'.
    - rewrite map_app. cbn [concat]. rewrite <- Hout'. f_equal. exact Hout.
  Qed.

  Lemma line_start_white nl s k : line_start nl s k -> k <= length s /\ Forall white (firstn k s).
  Proof.
    intros [a b w (Hl & Hw & _) Hf Hb|_ _]; [|split; [lia|constructor]].
    assert (Hk : length a + 1 <= w).
    { pose proof (f_equal (@length char) Hf) as H. rewrite firstn_length, app_length in H. cbn in H. lia. }
    split; [lia|]. replace (firstn (length a + 1) s) with (firstn (length a + 1) (firstn w s)).
    - apply Forall_forall. intros c Hc. rewrite Forall_forall in Hw. apply Hw. rewrite <- (firstn_skipn (length a + 1) (firstn w s)).
      apply in_app_iff. left. exact Hc.
    - rewrite firstn_firstn. f_equal. lia.
  Qed.

  Lemma lines_back id N : forall s nl fresh ind p out ind' tr, length s < N ->
    reads_lines E refs entry_rule false id fresh nl ind p s (Yes (length s) out) ind' tr ->
    (nl = true \/ Forall white s \/ break_first s) /\ exists ms, entries E s ms /\ map snd out = concat ms.
  Proof.
    induction N as [|N IH]; intros s nl fresh ind p out ind' tr HN H; [lia|].
    remember (Yes (length s) out) as v eqn:Hv. remember entry_rule as R eqn:HR. remember false as indented eqn:Hi in H.
    destruct H as [R indented id fresh nl ind p s Hw|R indented id fresh ind p s Hw Hl|R indented id fresh nl ind p s k fresh' ind' tr Hw Hk Hl
                  |R indented id fresh nl ind p s k n out1 fresh' ind1 tr1 nl' v' ind2 tr2 Hw Hk Hl Hnl Hrest].
    - injection Hv as <-. split; [right; left; exact Hw|]. exists []. split; [apply entries_none; exact Hw|reflexivity].
    - discriminate.
    - injection Hv as -> <-. exfalso. apply line_start_white in Hk as [_ Hk]. rewrite firstn_all in Hk. contradiction.
    - destruct v' as [n' out2|]; [|discriminate]. cbn in Hv. injection Hv as Hn <-.
      subst R indented. assert (Hl' : reads E refs entry_rule ind (p + k) (skipn k s) (Yes n out1) ind1 tr1) by (inversion Hl; assumption).
      destruct (entry_back E HE HL refs _ _ _ _ _ _ _ Hl') as (w & t & x & y & He & -> & Hww & Ht & Hx & Hr & ->).
      pose proof (entry_solid E _ _ _ Ht) as Hsol.
      destruct (line_start_white nl s k Hk) as [Hkl Hkw].
      assert (Hs : s = firstn k s ++ w ++ t ++ x ++ y) by (rewrite <- He; symmetry; apply firstn_skipn).
      assert (Hre : w ++ t ++ x ++ y = (w ++ t ++ x) ++ y) by (rewrite <- !app_assoc; reflexivity).
      rewrite He, Hre, firstn_past in Hnl. rewrite He, Hre, skipn_past in Hrest.
      assert (Hlen : length s = k + length (w ++ t ++ x) + length y).
      { rewrite Hs at 1. rewrite Hre, !app_length, firstn_length. lia. }
      assert (n' = length y) as -> by lia.
      apply IH in Hrest as (Hy & ms & Hms & Hout).
      2:{ pose proof (solid_nonempty _ Hsol). rewrite !app_length in Hlen. lia. }
      split.
      { destruct Hk as [a b w' (Hw'l & Hw' & _) Hf Hb|Hk _]; [|left; exact Hk]. right. right.
        exists a, (b ++ skipn w' s). split.
        - transitivity ((a ++ newline :: b) ++ skipn w' s); [|rewrite <- app_assoc; reflexivity]. rewrite <- Hf. symmetry. apply firstn_skipn.
        - rewrite Hf in Hw'. apply Forall_app in Hw'. tauto. }
      exists (map snd out1 :: ms). split; [|rewrite map_app; cbn [concat]; f_equal; exact Hout].
      rewrite Hs, app_assoc. apply cases_entries; [apply Forall_app; auto|exact Ht|].
      destruct Hy as [Hy|[Hy|(a & b & -> & Ha)]].
      + rewrite Hnl, (ends_item w t x y Hsol Hx Hr) in Hy. apply in_split in Hy as (x1 & x2 & ->). right.
        apply Forall_app in Hx as [Hx1 Hx2]. inversion Hx2; subst. exists x1, x2, y. rewrite <- app_assoc. auto.
      + left. split; [apply Forall_app; auto|]. exact (entries_white E y ms Hy Hms).
      + right. exists (x ++ a), [], b. split; [rewrite <- app_assoc; reflexivity|]. split; [apply Forall_app; auto|]. split; [constructor|].
        apply (entries_strip E (a ++ [newline])); [apply Forall_app; split; [exact Ha|constructor; [reflexivity|constructor]]|].
        rewrite <- app_assoc. exact Hms.
  Qed.
End Lines.
