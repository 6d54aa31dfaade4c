(** What is read does not depend on the position. *)
From Coq Require Import List NArith Bool Arith Lia.
From Verif Require Import Base Ext Types ParseModel DataSpec PegSpec RuleSpec ApiSpec ShiftSpec OptProofs PegProofs
  RuleProofs ParseProofs ParsePublic RenameProofs.
Import ListNotations.

Section Shift.
  Variable E : ext.
  Variable refs : list rule.
  Variables a b : nat.

  Lemma moved_token p q prop n mk : p + b = q + a ->
    Forall2 (moved a b) (token prop (Rng p n) mk) (token prop (Rng q n) mk).
  Proof. intros H. destruct prop; cbn; constructor; [|constructor]. split; [split; cbn; [lia|reflexivity]|reflexivity]. Qed.

  Lemma moved_one {A} p q n (x : A) : p + b = q + a -> Forall2 (moved a b) [(Rng p n, x)] [(Rng q n, x)].
  Proof. intros H. constructor; [|constructor]. split; [split; cbn; [lia|reflexivity]|reflexivity]. Qed.

  Lemma moved_one' {A} p q m n (x : A) : p + b = q + a -> Forall2 (moved a b) [(Rng (p + m) n, x)] [(Rng (q + m) n, x)].
  Proof. intros H. constructor; [|constructor]. split; [split; cbn; [lia|reflexivity]|reflexivity]. Qed.

  Lemma moved_after n out out' v v' : Forall2 (moved a b) out out' -> moved_verdict a b v v' ->
    moved_verdict a b (after n out v) (after n out' v').
  Proof.
    intros H. destruct v as [m o|], v' as [m' o'|]; cbn; try contradiction; [|auto].
    intros [-> Ho]. split; [reflexivity|]. apply Forall2_app; assumption.
  Qed.

  Ltac ih := match goal with
    | H : forall q, ?pp + b = q + a -> exists v' tr', _ |- _ =>
      match goal with Hq : ?p + b = ?q + a |- _ =>
        let go x := (let Hv := fresh "Hv" in let Ht := fresh "Ht" in let Hr := fresh "Hr" in
          destruct (H x ltac:(lia)) as (? & ? & Hv & Ht & Hr); clear H;
          repeat match type of Hv with
          | moved_verdict _ _ (Yes _ _) ?v => destruct v as [? ?|]; [destruct Hv as [<- Hv]|destruct Hv]
          | moved_verdict _ _ No ?v => destruct v as [? ?|]; [destruct Hv|clear Hv]
          end) in
        match pp with
        | p => go q
        | p + ?n => go (q + n)
        | p + ?n + ?m => go (q + n + m)
        end
      end
    end.

  Theorem reads_moved :
    (forall r ind p s v ind' tr, reads E refs r ind p s v ind' tr ->
      forall q, p + b = q + a -> exists v' tr', moved_verdict a b v v' /\ Forall2 (moved a b) tr tr' /\
        reads E refs r ind q s v' ind' tr') /\
    (forall args ind p s v ind' tr, reads_seq E refs args ind p s v ind' tr ->
      forall q, p + b = q + a -> exists v' tr', moved_verdict a b v v' /\ Forall2 (moved a b) tr tr' /\
        reads_seq E refs args ind q s v' ind' tr') /\
    (forall args ind p s v ind' tr, reads_first E refs args ind p s v ind' tr ->
      forall q, p + b = q + a -> exists v' tr', moved_verdict a b v v' /\ Forall2 (moved a b) tr tr' /\
        reads_first E refs args ind q s v' ind' tr') /\
    (forall r ind p s k n out ind' tr, reads_many E refs r ind p s k n out ind' tr ->
      forall q, p + b = q + a -> exists out' tr', Forall2 (moved a b) out out' /\ Forall2 (moved a b) tr tr' /\
        reads_many E refs r ind q s k n out' ind' tr') /\
    (forall r by_ trail ind p s v ind' tr, reads_more E refs r by_ trail ind p s v ind' tr ->
      forall q, p + b = q + a -> exists v' tr', moved_verdict a b v v' /\ Forall2 (moved a b) tr tr' /\
        reads_more E refs r by_ trail ind q s v' ind' tr') /\
    (forall r indented id fresh nl ind p s v ind' tr,
      reads_lines E refs r indented id fresh nl ind p s v ind' tr ->
      forall q, p + b = q + a -> exists v' tr', moved_verdict a b v v' /\ Forall2 (moved a b) tr tr' /\
        reads_lines E refs r indented id fresh nl ind q s v' ind' tr') /\
    (forall r indented fresh ind p s v fresh' ind' tr,
      reads_line E refs r indented fresh ind p s v fresh' ind' tr ->
      forall q, p + b = q + a -> exists v' tr', moved_verdict a b v v' /\ Forall2 (moved a b) tr tr' /\
        reads_line E refs r indented fresh ind q s v' fresh' ind' tr').
  Proof.
    apply reads_mutind; intros; repeat ih;
      try (do 2 eexists; split; [|split; [|econstructor; eauto; fail]];
        [cbn [moved_verdict]; try split; auto using moved_token, moved_after, Forall2_app
        |auto using moved_one, moved_one', Forall2_app, Forall2_nil]; fail).
    - do 2 eexists. split; [|split; [|eapply reads_separate_none; eassumption]]; [|assumption].
      destruct optional; cbn; auto.
    - do 2 eexists. split; [|split; [|eapply reads_more_trail; eassumption]]; [|apply Forall2_app; assumption].
      destruct trail; cbn; auto.
  Qed.
End Shift.

Lemma position_irrelevant E refs r ind p q s v ind' : runs E refs r ind p s v ind' ->
  exists v', moved_verdict p q v v' /\ runs E refs r ind q s v' ind'.
Proof.
  intros H. apply runs_reads in H as (tr & H).
  destruct (proj1 (reads_moved E refs p q) _ _ _ _ _ _ _ H q ltac:(lia)) as (v' & tr' & H1 & _ & H2).
  exists v'. split; [exact H1|]. apply runs_reads. eauto.
Qed.

(** ** A fixed text in front *)

Lemma moved_flip {A} p q (x y : range * A) : moved p q x y -> moved q p y x.
Proof. intros [[H1 H2] H3]. split; [split; lia|congruence]. Qed.

Lemma Forall2_flip' {A B} (P : A -> B -> Prop) (Q : B -> A -> Prop) l m : (forall x y, P x y -> Q y x) ->
  Forall2 P l m -> Forall2 Q m l.
Proof. intros H. induction 1; constructor; auto. Qed.

Lemma newest_moved p q tr tr' e : Forall2 (moved p q) tr tr' -> newest_deepest tr e ->
  exists e', moved p q e e' /\ newest_deepest tr' e'.
Proof.
  intros HF (older & newer & -> & Ho & Hn).
  apply Forall2_app_inv_l in HF as (o' & n' & H1 & H2 & ->). inversion H2 as [|x e' l m He Hm]; subst.
  exists e'. split; [exact He|]. exists o', m. split; [reflexivity|].
  assert (Hd : forall x y, @moved parse_error p q x y -> depth x + q = depth y + p).
  { intros x y [[Ha Hb] _]. unfold depth, next_offset. lia. }
  apply Hd in He as Hde. split.
  - clear - H1 Ho Hd Hde. induction H1 as [|x y l l' Hx Hl IH]; constructor; inversion Ho; subst.
    + apply Hd in Hx. lia.
    + apply IH. assumption.
  - clear - Hm Hn Hd Hde. induction Hm as [|x y l l' Hx Hl IH]; constructor; inversion Hn; subst.
    + apply Hd in Hx. lia.
    + apply IH. assumption.
Qed.

Lemma trel_eq out out' : trel eq out out' -> out = out'.
Proof. induction 1 as [|p p' r mk ->|a a' b b' _ -> _ ->]; reflexivity. Qed.

Lemma alike_self n r : refers_below n r -> alike eq (fun k k' => k = k' /\ k < n) r r.
Proof.
  induction r as [r IH] using rule_ind'. intros Hb.
  assert (Hc : forall c, In c (children r) -> alike eq (fun k k' => k = k' /\ k < n) c c).
  { intros c Hc. apply IH; [exact Hc|]. intros name p k i Ho. eapply Hb. eapply occurs_below; eassumption. }
  assert (Hargs : forall l, (forall c, In c l -> In c (children r)) -> Forall2 (alike eq (fun k k' => k = k' /\ k < n)) l l).
  { induction l as [|x l IHl]; intros Hl; constructor.
    - apply Hc, Hl. left. reflexivity.
    - apply IHl. intros c Hin. apply Hl. right. exact Hin. }
  destruct r; try (constructor; auto; fail); try (constructor; apply Hc; cbn; tauto).
  destruct index as [k|]; constructor; auto. split; [reflexivity|]. eapply Hb. apply occurs_here.
Qed.

Section Prefix.
  Variable E : ext.
  Variable T : list rule.
  Variables last last' : rule.
  Hypothesis HT : Forall (refers_below (length T)) T.

  (** The last rule does not matter to rules that do not refer to it. *)
  Lemma reads_other r ind p s v ind' tr : refers_below (length T) r ->
    reads E (T ++ [last]) r ind p s v ind' tr -> reads E (T ++ [last']) r ind p s v ind' tr.
  Proof.
    intros Hr H.
    destruct (proj1 (reads_alike E eq (fun k k' => k = k' /\ k < length T) (T ++ [last]) (T ++ [last'])
      ltac:(intros k k' [<- Hk]; rewrite !nth_error_app1 by exact Hk;
        destruct (nth_error T k) eqn:Hn; [|exact I]; apply alike_self;
        rewrite Forall_forall in HT; apply HT; eapply nth_error_In; exact Hn))
      _ _ _ _ _ _ _ H _ (alike_self _ _ Hr)) as (v' & Hv & H').
    destruct Hv; [exact H'|]. apply trel_eq in H0. subst. exact H'.
  Qed.
End Prefix.

Section Behind.
  Variable E : ext.
  Hypothesis HE : ext_ok E.
  Variable T : list rule.
  Variable r : rule.
  Variable t : str.
  Variable inv : bool.
  Variables i j : debug_id.
  Variables names names' : list str.
  Hypothesis HT : Forall (refers_below (length T)) T.
  Hypothesis Hr : refers_below (length T) r.

  Let s1 := Syn (T ++ [r]) names.
  Let s2 := Syn (T ++ [behind t inv i j r]) names'.
  Let len := length t.

  Lemma start1 x : start_rule s1 x <-> x = r.
  Proof.
    unfold start_rule. cbn. split.
    - intros (l & H). apply app_inj_tail in H as [_ H]. congruence.
    - intros ->. exists T. reflexivity.
  Qed.

  Lemma start2 x : start_rule s2 x <-> x = behind t inv i j r.
  Proof.
    unfold start_rule. cbn. split.
    - intros (l & H). apply app_inj_tail in H as [_ H]. congruence.
    - intros ->. exists T. reflexivity.
  Qed.

  Lemma behind_forth text ind v ind' tr :
    reads E (T ++ [r]) r ind 0 text v ind' tr ->
    exists v' tr', moved_verdict 0 len v v' /\ Forall2 (moved 0 len) tr tr' /\
      reads E (T ++ [behind t inv i j r]) (behind t inv i j r) ind 0 (t ++ text) (after len [] v') ind' tr'.
  Proof.
    intros H. apply (reads_other E T r (behind t inv i j r) HT _ _ _ _ _ _ _ Hr) in H.
    destruct (proj1 (reads_moved E _ 0 len) _ _ _ _ _ _ _ H len ltac:(lia)) as (v' & tr' & H1 & H2 & H3).
    exists v', tr'. split; [exact H1|]. split; [exact H2|]. apply reads_sequence.
    change tr' with ([] ++ tr').
    eapply (reads_seq_cons _ _ _ _ _ _ _ len []).
    { apply (reads_tag _ _ t inv None i ind 0 (t ++ text)). exists text. reflexivity. }
    replace (skipn len (t ++ text)) with text by (unfold len; rewrite skipn_app, skipn_all, Nat.sub_diag; reflexivity).
    cbn [plus]. destruct v' as [n' out'|].
    - replace (Yes n' out') with (after n' out' (Yes 0 [])) by (cbn; rewrite Nat.add_0_r, app_nil_r; reflexivity).
      replace tr' with (tr' ++ []) by apply app_nil_r. eapply reads_seq_cons; [exact H3|]. apply reads_seq_nil.
    - apply reads_seq_no. exact H3.
  Qed.

  Lemma behind_back text ind v ind' tr :
    reads E (T ++ [behind t inv i j r]) (behind t inv i j r) ind 0 (t ++ text) v ind' tr ->
    exists v0 v' tr', moved_verdict 0 len v0 v' /\ v = after len [] v' /\ Forall2 (moved 0 len) tr' tr /\
      reads E (T ++ [r]) r ind 0 text v0 ind' tr'.
  Proof.
    intros H.
    assert (Hm : exists v', v = after len [] v' /\ reads E (T ++ [behind t inv i j r]) r ind len text v' ind' tr).
    { inversion H as [| | | | | | | | | | | | | | | | |? ? ? ? ? ? ? ? Hs| | | | | | | | | | | | | | | | | | | |]; subst.
      inversion Hs as [|? ? ? ? ? ? ? Hn|? ? ? ? ? n out ind1 tr1 w ind2 tr2 H1 H2]; subst.
      - exfalso. inversion Hn; subst. match goal with H : ~ starts_with _ _ |- _ => apply H; exists text; reflexivity end.
      - inversion H1; subst. cbn [token app] in *. fold len in H2 |- *.
        replace (skipn len (t ++ text)) with text in H2 by (unfold len; rewrite skipn_app, skipn_all, Nat.sub_diag; reflexivity).
        cbn [plus] in H2. inversion H2 as [|? ? ? ? ? ? ? Hn|? ? ? ? ? n' out' ind1' tr1' w' ind2' tr2' H3 H4]; subst.
        + exists No. auto.
        + inversion H4; subst. exists (Yes n' out'). rewrite app_nil_r. split; [|exact H3].
          cbn. rewrite Nat.add_0_r, app_nil_r. reflexivity. }
    destruct Hm as (v' & -> & H').
    apply (reads_other E T (behind t inv i j r) r HT _ _ _ _ _ _ _ Hr) in H'.
    destruct (proj1 (reads_moved E _ len 0) _ _ _ _ _ _ _ H' 0 ltac:(lia)) as (v0 & tr0 & H1 & H2 & H3).
    exists v0, v', tr0. split; [|split; [reflexivity|split; [|exact H3]]].
    - destruct v0, v'; cbn in *; try contradiction; auto. destruct H1 as [-> H1]. split; [reflexivity|].
      eapply Forall2_flip'; [|exact H1]. intros x y. apply moved_flip.
    - eapply Forall2_flip'; [|exact H2]. intros x y. apply moved_flip.
  Qed.

  Lemma prefix_accepts ind text out' : accepts E s2 ind (t ++ text) out' <->
    exists out, accepts E s1 ind text out /\ Forall2 (moved 0 len) out out'.
  Proof.
    split.
    - intros [x o ind' tr Hx H]. apply start2 in Hx. subst x.
      apply behind_back in H as (v0 & v' & tr' & Hv & He & _ & H).
      destruct v0 as [n0 o0|], v' as [n' o'|]; cbn in *; try contradiction; try discriminate.
      destruct Hv as [<- Hv]. injection He as Hn <-. rewrite app_length in Hn. unfold len in Hn.
      exists o0. split; [|exact Hv]. replace n0 with (length text) in H by lia.
      econstructor; [apply start1; reflexivity|exact H].
    - intros (out & [x o ind' tr Hx H] & Hm). apply start1 in Hx. subst x.
      apply behind_forth in H as (v' & tr' & Hv & _ & H).
      destruct v' as [n' o'|]; cbn in *; try contradiction. destruct Hv as [<- Hv].
      assert (o' = out').
      { clear - Hv Hm. revert out' Hm. induction Hv as [|x y l m Hx Hl IH]; intros out' Hm; inversion Hm as [|x' y' l' m' Hx' Hl']; subst; [reflexivity|].
        f_equal; [|apply IH; assumption]. destruct Hx as [[H1 H2] H3], Hx' as [[H4 H5] H6].
        destruct y as [[o l1] a], y' as [[o' l2] a']. cbn in *. f_equal; [f_equal; lia|congruence]. }
      subst o'. econstructor; [apply start2; reflexivity|]. rewrite app_length. exact H.
  Qed.

  Lemma prefix_rejects_forth ind text tr : rejects E s1 ind text tr ->
    exists tr', Forall2 (moved 0 len) tr tr' /\ rejects E s2 ind (t ++ text) tr'.
  Proof.
    intros [H0|x ind' tr1 Hx H|x n out ind' tr1 Hx H Hn].
    - cbn in H0. destruct T; discriminate.
    - apply start1 in Hx. subst x. apply behind_forth in H as (v' & tr' & Hv & Ht & H).
      destruct v'; [destruct Hv|]. exists tr'. split; [exact Ht|]. eapply rejects_fail; [apply start2; reflexivity|exact H].
    - apply start1 in Hx. subst x. apply behind_forth in H as (v' & tr' & Hv & Ht & H).
      destruct v' as [n' o'|]; [|destruct Hv]. destruct Hv as [<- Hv].
      exists (tr' ++ [(Rng (len + n) 0, ExpectedEnd)]). split.
      + apply Forall2_app; [exact Ht|]. constructor; [|constructor]. split; [split; cbn; lia|reflexivity].
      + eapply rejects_early; [apply start2; reflexivity|exact H|]. rewrite app_length. unfold len. lia.
  Qed.

  Lemma prefix_rejects_back ind text tr' : rejects E s2 ind (t ++ text) tr' ->
    exists tr, Forall2 (moved 0 len) tr tr' /\ rejects E s1 ind text tr.
  Proof.
    intros [H0|x ind' tr1 Hx H|x n out ind' tr1 Hx H Hn].
    - cbn in H0. destruct T; discriminate.
    - apply start2 in Hx. subst x. apply behind_back in H as (v0 & v' & tr & Hv & He & Ht & H).
      destruct v0 as [n0 o0|], v' as [n' o'|]; cbn in *; try contradiction; try discriminate.
      exists tr. split; [exact Ht|]. eapply rejects_fail; [apply start1; reflexivity|exact H].
    - apply start2 in Hx. subst x. apply behind_back in H as (v0 & v' & tr & Hv & He & Ht & H).
      destruct v0 as [n0 o0|], v' as [n' o'|]; cbn in *; try contradiction; try discriminate.
      destruct Hv as [<- Hv]. injection He as -> <-. rewrite app_length in Hn. unfold len in Hn.
      exists (tr ++ [(Rng n0 0, ExpectedEnd)]). split.
      + apply Forall2_app; [exact Ht|]. constructor; [|constructor]. split; [split; cbn; lia|reflexivity].
      + eapply rejects_early; [apply start1; reflexivity|exact H|]. lia.
  Qed.

  Lemma prefix_parse ind text tokens :
    (forall tokens', parse_returns E s2 (t ++ text) tokens ind None tokens' <->
       exists out out', parse_returns E s1 text tokens ind None (tokens ++ out) /\
         Forall2 (moved 0 len) out out' /\ tokens' = tokens ++ out') /\
    (forall e e', moved 0 len e e' ->
       (exists tokens', parse_returns E s2 (t ++ text) tokens ind (Some e') tokens') <->
       (exists tokens', parse_returns E s1 text tokens ind (Some e) tokens')).
  Proof.
    split.
    - intros tokens'. rewrite (parse_accepts E HE). split.
      + intros (out' & Ha & ->). apply prefix_accepts in Ha as (out & Ha & Hm).
        exists out, out'. split; [|auto]. apply parse_accepts; eauto.
      + intros (out & out' & Ha & Hm & ->). apply parse_accepts in Ha as (o & Ha & Ho); [|exact HE].
        apply app_inv_head in Ho. subst o. exists out'. split; [|reflexivity]. apply prefix_accepts. eauto.
    - intros e e' He. split.
      + intros (tk & H). apply error_is_newest_deepest in H as [(tr' & Hrej) Hn].
        apply Hn in Hrej as Hn1. apply prefix_rejects_back in Hrej as (tr & Ht & Hrej).
        destruct (rejects_parse E HE s1 ind text tokens tr Hrej) as (e1 & tk1 & H1). exists tk1.
        apply error_is_newest_deepest in H1 as Hn2. destruct Hn2 as [_ Hn2]. apply Hn2 in Hrej.
        destruct (newest_moved _ _ _ _ _ Ht Hrej) as (e2 & He2 & Hn3).
        rewrite (newest_deepest_unique _ _ _ Hn3 Hn1) in He2.
        replace e with e1; [exact H1|]. destruct e as [[o l] x], e1 as [[o1 l1] x1], e' as [[o' l'] x'].
        destruct He as [[Ha Hb] Hc], He2 as [[Ha2 Hb2] Hc2]. cbn in *. f_equal; [f_equal; lia|congruence].
      + intros (tk & H). apply error_is_newest_deepest in H as [(tr & Hrej) Hn].
        apply Hn in Hrej as Hn1. apply prefix_rejects_forth in Hrej as (tr' & Ht & Hrej).
        destruct (rejects_parse E HE s2 ind (t ++ text) tokens tr' Hrej) as (e1 & tk1 & H1). exists tk1.
        apply error_is_newest_deepest in H1 as Hn2. destruct Hn2 as [_ Hn2]. apply Hn2 in Hrej.
        destruct (newest_moved _ _ _ _ _ Ht Hn1) as (e2 & He2 & Hn3).
        rewrite (newest_deepest_unique _ _ _ Hn3 Hrej) in He2.
        replace e' with e1; [exact H1|]. destruct e as [[o l] x], e1 as [[o1 l1] x1], e' as [[o' l'] x'].
        destruct He as [[Ha Hb] Hc], He2 as [[Ha2 Hb2] Hc2]. cbn in *. f_equal; [f_equal; lia|congruence].
  Qed.
End Behind.

Lemma refers_below_intro n r :
  match r with RNode _ _ (Some k) _ => k < n | _ => True end -> Forall (refers_below n) (children r) -> refers_below n r.
Proof.
  intros H1 H2 name p k i H. inversion H as [|r0 c Hc Hx]; subst; [exact H1|].
  rewrite Forall_forall in H2. exact (H2 c Hc _ _ _ _ Hx).
Qed.
