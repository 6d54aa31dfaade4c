(** What the built-in rules read is text of the meta language: comments, strings, nodes. *)
From Coq Require Import Ascii String List NArith Bool Arith Lia.
From Verif Require Import Base Ext Types DataSpec ParseModel BootstrapRules PegSpec PrimProofs
  JsonSpec WriteSpec TextSpec SurfaceSpec TextProofs TextProofs2 TextProofs3 TextProofs4 TextProofs5 TextProofs6 TextProofs7 PegFacts TextInv TextInv2.
Import ListNotations.
Local Open Scope string_scope.
Local Open Scope list_scope.
Local Open Scope nat_scope.

Lemma no_short_suffix (a b : str) : no_short_comment (a ++ b) -> no_short_comment b.
Proof. intros H (x & y & ->). apply H. exists (a ++ x), y. apply app_assoc. Qed.

Lemma hd_cons (s : str) c : hd_error s = Some c -> exists x, s = c :: x.
Proof. destruct s as [|c' s]; [discriminate|]. intros H. injection H as ->. eauto. Qed.

Section Entries.
  Variable E : ext.
  Hypothesis HE : ext_ok E.
  Hypothesis HW : whole_readers E.

  Notation takes := (takes E). Notation takes_all := (takes_all E). Notation fails := (fails E).
  Notation takes_first := (takes_first E). Notation takes_more := (takes_more E). Notation takes_many := (takes_many E).

  Ltac parts :=
    repeat match goal with
    | H : takes (RSequence _ _) _ _ |- _ => apply takes_sequence in H
    | H : takes_all (_ :: _) ?t _ |- _ =>
      let t1 := fresh "t" in let t2 := fresh "t" in let H1 := fresh "Hp" in
      apply all_cons in H; destruct H as (t1 & t2 & -> & H1 & H)
    | H : takes_all [] ?t _ |- _ => apply all_nil in H; subst t
    | H : takes (RTag _ false _ _ _) ?t _ |- _ => apply takes_tag in H; subst t
    | H : takes (RTag _ true _ _ _) ?t _ |- _ => apply takes_not_tag in H; destruct H as [-> H]
    | H : takes (RWhitespace _ _) _ _ |- _ => apply takes_white in H; destruct H as (? & ? & ?)
    | H : takes (RUntilAnyOrWs _ false _ _) _ _ |- _ => apply takes_name in H; destruct H as (? & ?)
    end.

  (** ** Comments *)

  Definition plain_char (c : char) : Prop := ~ In c [42%N; 47%N].

  Lemma longest_unique (P : char -> Prop) (a b a' b' : str) : Forall P a -> stops P b -> Forall P a' -> stops P b' ->
    a ++ b = a' ++ b' -> a = a' /\ b = b'.
  Proof.
    revert a'. induction a as [|c a IH]; intros [|c' a'] Ha Hb Ha' Hb' He; cbn in He.
    - auto.
    - subst b. inversion Ha'; subst. contradiction.
    - subst b'. inversion Ha; subst. contradiction.
    - injection He as -> He. inversion Ha; inversion Ha'; subst. destruct (IH a') as [-> ->]; auto.
  Qed.

  Lemma body_plain u b : Forall plain_char u -> comment_body b -> comment_body (u ++ b).
  Proof.
    induction 1 as [|c u Hc Hu IH]; intros Hb; [exact Hb|]. cbn [app].
    apply comment_char; [intros ->; apply Hc; left; reflexivity|intros ->; apply Hc; right; left; reflexivity|auto].
  Qed.

  Lemma many_repeat r id t rest : takes_many r t rest -> takes (RRepeat r true id) t rest.
  Proof.
    intros (ind & p & k & d & ind' & tr & H). exists ind, p, d, ind', tr. eapply reads_repeat; [exact H|auto].
  Qed.

  Definition NESTED : rule := Eval vm_compute in match PIECE with RSelect [_; r; _] _ => r | _ => PIECE end.

  (** The three kinds of pieces. *)
  Lemma piece_inv t rest : takes PIECE t rest ->
    (exists pl, t = 42%N :: pl /\ Forall plain_char pl /\ stops plain_char rest /\ ~ starts_with (t ++ rest) (s2l "*/")) \/
    (exists t1 pl, t = t1 ++ pl /\ takes MULTI t1 (pl ++ rest) /\ Forall plain_char pl /\ stops plain_char rest) \/
    (exists pl, t = 47%N :: pl /\ Forall plain_char pl /\ stops plain_char rest /\ fails NESTED (t ++ rest)).
  Proof.
    intros H. apply takes_select in H.
    apply first_cons in H. destruct H as [H|[_ H]].
    { left. parts. cbn [app] in *. rewrite app_nil_r in *.
      match goal with X : takes (RUntilAny _ _ _ _) _ _ |- _ => apply takes_until in X; destruct X as (X1 & X2 & _) end.
      eexists. split; [reflexivity|]. split; [exact X1|]. split; [exact X2|]. assumption. }
    apply first_cons in H. destruct H as [H|[Hno H]].
    { right. left. parts. rewrite app_nil_r.
      match goal with X : takes (RUntilAny _ _ _ _) _ _ |- _ => apply takes_until in X; destruct X as (X1 & X2 & _) end.
      eapply takes_node in Hp; [|reflexivity]. rewrite app_nil_r in Hp. eexists _, _. split; [reflexivity|]. split; [exact Hp|]. split; [exact X1|exact X2]. }
    apply first_cons in H. destruct H as [H|[_ H]]; [|destruct (first_nil _ _ _ H)].
    right. right. parts. cbn [app] in *. rewrite app_nil_r in *.
    match goal with X : takes (RUntilAny _ _ _ _) _ _ |- _ => apply takes_until in X; destruct X as (X1 & X2 & _) end.
    eexists. split; [reflexivity|]. split; [exact X1|]. split; [exact X2|]. exact Hno.
  Qed.

  Lemma multi_inv t rest : takes MULTI t rest ->
    exists u m, t = s2l "/*" ++ u ++ m ++ s2l "*/" /\ Forall plain_char u /\ takes_many PIECE m (s2l "*/" ++ rest) /\
      stops plain_char (m ++ s2l "*/" ++ rest).
  Proof.
    intros H. apply takes_sequence in H. parts.
    match goal with X : takes (RUntilAny _ _ _ _) _ _ |- _ => apply takes_until in X; destruct X as (X1 & X2 & _) end.
    match goal with X : takes (RRepeat _ _ _) _ _ |- _ => apply takes_repeat in X; rename X into Hm end.
    eexists _, _. split; [rewrite app_nil_r; reflexivity|]. split; [exact X1|]. split; [exact Hm|]. rewrite <- app_assoc in X2. exact X2.
  Qed.

  (** A star behind a slash would have started a nested comment. *)
  Lemma no_nested pl m rest : Forall plain_char pl -> takes_many PIECE m (s2l "*/" ++ rest) -> stops plain_char (m ++ s2l "*/" ++ rest) ->
    ~ fails NESTED (s2l "/*" ++ pl ++ m ++ s2l "*/" ++ rest).
  Proof.
    intros Hpl Hm Hst H. apply fails_sequence in H.
    apply (fails_cons E HE) in H. destruct H as [H|(u & r & He & Hu & H)].
    2:{ apply (fails_cons E HE) in H. destruct H as [H|(u' & r' & He' & Hu' & H)]; [exact (fails_until _ _ _ _ _ H)|exact (fails_nil _ _ H)]. }
    eapply fails_node in H; [|reflexivity]. apply fails_sequence in H.
    apply (fails_cons E HE) in H. destruct H as [H|(u & r & He & Hu & H)].
    { apply fails_tag in H. apply H. eexists. reflexivity. }
    apply takes_tag in Hu. subst u. apply (f_equal (skipn 2)) in He. cbn [skipn app s2l String.length list_ascii_of_string map] in He. cbn in He. subst r.
    apply (fails_cons E HE) in H. destruct H as [H|(u & r & He & Hu & H)]; [exact (fails_until _ _ _ _ _ H)|].
    apply takes_until in Hu. destruct Hu as (H1 & H2 & _).
    destruct (longest_unique plain_char u r pl (m ++ s2l "*/" ++ rest) H1 H2 Hpl Hst) as [-> ->]; [symmetry; exact He|].
    apply (fails_cons E HE) in H. destruct H as [H|(u & r & He' & Hu & H)]; [exact (fails_repeat _ _ _ _ H)|].
    apply (many_repeat _ 4%N) in Hm.
    destruct (takes_unique E (RRepeat PIECE true 4%N) _ _ _ _ eq_refl Hm Hu He') as [<- <-].
    apply (fails_cons E HE) in H. destruct H as [H|(u & r & He'' & Hu' & H)]; [|exact (fails_nil _ _ H)].
    apply fails_tag in H. apply H. eexists. reflexivity.
  Qed.

  Theorem comment_inv : forall n t rest, length t < n -> no_short_comment (t ++ rest) -> takes MULTI t rest ->
    exists b, t = s2l "/*" ++ b ++ s2l "*/" /\ comment_body b.
  Proof.
    induction n as [|n IH]; intros t rest Hn Hns H; [lia|].
    apply multi_inv in H. destruct H as (u & m & -> & Hu & Hm & _).
    exists (u ++ m). split; [rewrite <- app_assoc; reflexivity|]. apply body_plain; [exact Hu|].
    assert (Hlen : length m < n) by (rewrite !app_length in Hn; cbn in Hn; lia).
    assert (Hns' : no_short_comment (m ++ s2l "*/" ++ rest)).
    { rewrite <- !app_assoc in Hns. apply no_short_suffix in Hns. apply no_short_suffix in Hns. exact Hns. }
    clear Hn Hns Hu u. remember (length m) as k eqn:Hk. assert (Hk' : length m <= k) by lia. clear Hk. revert m Hk' Hns' Hm.
    induction k as [|k IHk]; intros m Hk Hns Hm.
    { destruct m; [constructor|cbn in Hk; lia]. }
    apply many_split in Hm. destruct Hm as [[-> _]|(t & m' & -> & Ht & Hm)]; [constructor|].
    rewrite app_length in Hk. rewrite <- app_assoc in Hns. assert (Hns' := no_short_suffix _ _ Hns).
    apply piece_inv in Ht. destruct Ht as [(pl & -> & Hpl & Hst & Hno)|[(t1 & pl & -> & Ht1 & Hpl & Hst)|(pl & -> & Hpl & Hst & Hno)]].
    - cbn [length] in Hk. cbn [app]. apply comment_star.
      + intros Hh. apply Hno. apply hd_cons in Hh. destruct Hh as (x & Hx).
        exists (x ++ s2l "*/" ++ rest). cbn [app]. rewrite app_assoc, Hx. reflexivity.
      + apply body_plain; [exact Hpl|]. apply IHk; [lia|lia|exact Hns'|exact Hm].
    - rewrite app_length in Hk. rewrite <- app_assoc in Hns.
      assert (Hm0 := multi_inv _ _ Ht1). destruct Hm0 as (u0 & m0 & Ht1' & _ & _).
      assert (Hl1 : 0 < length t1) by (rewrite Ht1', app_length; cbn; lia).
      destruct (IH t1 (pl ++ m' ++ s2l "*/" ++ rest)) as (b & -> & Hb); [lia|exact Hns|exact Ht1|].
      rewrite <- !app_assoc. apply comment_nested; [exact Hb|].
      apply body_plain; [exact Hpl|]. apply IHk; [lia|lia|exact Hns'|exact Hm].
    - cbn [length] in Hk. cbn [app]. apply comment_slash.
      + intros Hx. apply app_eq_nil in Hx. destruct Hx as [-> ->]. apply Hns. exists [], rest. reflexivity.
      + destruct pl as [|c pl]; [|inversion Hpl; subst; cbn; intros Hh; injection Hh as ->; match goal with X : plain_char _ |- _ => apply X; left; reflexivity end].
        cbn [app] in *. intros Hh. apply many_split in Hm. destruct Hm as [[-> _]|(t & m2 & -> & Ht & Hm)]; [discriminate|].
        apply piece_inv in Ht. destruct Ht as [(pl & -> & Hpl1 & Hst1 & _)|[(t1 & pl & -> & Ht1 & _)|(pl & -> & _)]].
        * cbn [app] in Hno. rewrite <- !app_assoc in Hno. exact (no_nested pl m2 rest Hpl1 Hm Hst1 Hno).
        * apply multi_inv in Ht1. destruct Ht1 as (u0 & m0 & -> & _). discriminate.
        * discriminate.
      + apply body_plain; [exact Hpl|]. apply IHk; [lia|lia|exact Hns'|exact Hm].
  Qed.

  (** ** Entries *)

  Notation entry_text := (entry_text E (literal E) any_string).
  Notation entries_text := (entries_text E (literal E) any_string).

  (** Something solid stands on the last line. *)
  Definition solid (t : str) : Prop := exists x c y, t = x ++ c :: y /\ ~ white c /\ ~ In newline y.

  Lemma solid_app a t : solid t -> solid (a ++ t).
  Proof. intros (x & c & y & -> & H). exists (a ++ x), c, y. rewrite app_assoc. auto. Qed.

  Lemma solid_last t c : ~ white c -> solid (t ++ [c]).
  Proof. intros H. exists t, c, []. auto. Qed.

  Lemma solid_not_over b t : solid t -> ~ ends_line (b ++ t).
  Proof.
    intros (x & c & y & -> & Hc & Hy) (a & w & He & Hw). rewrite app_assoc in He. apply app_eq_app in He.
    destruct He as (l & [[_ He]|[_ He]]).
    - assert (Hin : In c (newline :: w)) by (rewrite He; apply in_or_app; right; left; reflexivity).
      destruct Hin as [<-|Hin]; [apply Hc; reflexivity|]. rewrite Forall_forall in Hw. exact (Hc (Hw c Hin)).
    - destruct l as [|c' l]; cbn in He; injection He as -> ->; [apply Hc; reflexivity|].
      apply Hy, in_or_app. right. left. reflexivity.
  Qed.

  Lemma solid_name n : is_name n -> solid n.
  Proof.
    intros [Hne H]. destruct (exists_last Hne) as (x & c & ->). apply solid_last.
    apply Forall_app in H. destruct H as [_ H]. inversion H; subst. match goal with X : name_char c |- _ => exact (proj1 X) end.
  Qed.

  Lemma solid_literal v t : literal E v t -> solid t.
  Proof.
    intros (_ & H & _). destruct (whole_string E HW t [] (H [])) as [(t' & ->) _]. apply solid_last. discriminate.
  Qed.

  Lemma solid_text b v t : mtext (literal E) any_string b v t -> solid t.
  Proof. intros [v' t' H _|v' n H _]; [exact (solid_literal _ _ H)|apply solid_app, solid_name, H]. Qed.

  Lemma solid_prop x p t : mprop (literal E) any_string p t -> solid x -> solid (x ++ t).
  Proof. intros [|v t' H] Hx; [rewrite app_nil_r; exact Hx|]. apply solid_app, solid_app, (solid_text _ _ _ H). Qed.

  Lemma solid_mark b : solid (mark b).
  Proof. destruct b; (apply (solid_last []); discriminate). Qed.

  Lemma solid_rule : (forall r t, mrule (literal E) any_string r t -> solid t) /\
    (forall rs t, margs (literal E) any_string rs t -> True).
  Proof.
    assert (Hend : forall (a : str) c, ~ white c -> solid (a ++ [c])) by (intros; apply solid_last; assumption).
    apply mrule_mutind; intros; try exact I; repeat match goal with X : mtext _ _ _ _ _ |- _ => apply solid_text in X end.
    - apply solid_app, solid_mark.
    - rewrite app_assoc, app_assoc. eapply solid_prop; [eassumption|]. apply solid_app, solid_mark.
    - rewrite app_assoc, app_assoc. eapply solid_prop; [eassumption|]. apply solid_app, solid_mark.
    - repeat apply solid_app. apply (solid_last []). discriminate.
    - repeat apply solid_app. apply (solid_last []). discriminate.
    - rewrite app_assoc. eapply solid_prop; [eassumption|]. destruct u; [apply solid_app, (solid_last []); discriminate|].
      apply (solid_last (s2l ".")). discriminate.
    - rewrite app_assoc. eapply solid_prop; [eassumption|]. apply solid_app, solid_mark.
    - eapply solid_prop; [eassumption|]. match goal with X : is_rule_name _ |- _ => apply solid_name, (proj1 X) end.
    - repeat apply solid_app. apply (solid_last []). discriminate.
    - repeat apply solid_app. apply (solid_last []). discriminate.
    - repeat apply solid_app. apply (solid_last []). discriminate.
    - apply solid_app. assumption.
    - repeat apply solid_app. assumption.
    - apply solid_app. assumption.
    - apply solid_app. assumption.
  Qed.

  (** What is read for an entry. *)
  Definition core_of (e : entry) (core rest : str) : Prop :=
    solid core /\ (exists c core', core = c :: core' /\ ~ white c) /\
    ((forall w, Forall white w -> entry_text e (core ++ w)) \/
     (entry_text e core /\ (rest = [] \/ exists rest', rest = newline :: rest'))).

  Lemma comment_core t rest : no_short_comment (t ++ rest) -> takes COMMENT t rest -> core_of EComment t rest.
  Proof.
    intros Hns H. apply takes_select in H. apply first_cons in H. destruct H as [H|[_ H]].
    - eapply takes_node in H; [|reflexivity]. apply (comment_inv (S (length t))) in H; [|lia|exact Hns].
      destruct H as (b & -> & Hb). split; [|split].
      + repeat apply solid_app. apply (solid_last (s2l "*")). discriminate.
      + eexists _, _. split; [reflexivity|discriminate].
      + left. intros w Hw. rewrite <- !app_assoc. apply entry_comment; assumption.
    - apply first_cons in H. destruct H as [H|[_ H]]; [|destruct (first_nil _ _ _ H)]. parts. rewrite app_nil_r in *.
      match goal with X : takes (RUntilAny _ _ _ _) ?x _ |- _ => apply takes_until in X; destruct X as (X1 & X2 & _); rename x into cs end.
      assert (Hnl : ~ In newline cs).
      { intros Hin. rewrite Forall_forall in X1. apply (X1 _ Hin). left. reflexivity. }
      split; [|split].
      + exists (s2l "/"), 47%N, cs. split; [reflexivity|]. split; [discriminate|exact Hnl].
      + eexists _, _. split; [reflexivity|discriminate].
      + right. split; [apply entry_line_comment; exact Hnl|].
        destruct rest as [|c rest]; [auto|]. right. exists rest. cbn in X2. destruct (N.eq_dec c newline) as [->|Hc]; [reflexivity|].
        exfalso. apply X2. intros [Hx|[]]. apply Hc. symmetry. exact Hx.
  Qed.

  Definition not_node (e : entry) : Prop := match e with ENode _ _ _ => False | _ => True end.
  Definition not_string (e : entry) : Prop := match e with EString _ _ => False | _ => True end.

  Lemma strings_item t rest : no_short_comment (t ++ rest) -> takes STRINGS t rest ->
    exists b core e, t = b ++ core /\ Forall white b /\ not_node e /\ core_of e core rest.
  Proof.
    intros Hns H. apply takes_sequence in H. parts. rewrite app_nil_r in *.
    rewrite <- app_assoc in Hns. apply no_short_suffix in Hns.
    apply takes_select in Hp0. apply first_cons in Hp0. destruct Hp0 as [Hs|[_ Hc]].
    - eapply takes_node in Hs; [|reflexivity]. parts. rewrite app_nil_r in *.
      match goal with X : takes (RText _ _ _) _ _ |- _ => apply (text_literal E HE HW) in X; destruct X as (v & Hv & _) end.
      match goal with X : is_name ?n |- _ => rename n into nm; rename X into Hnm end.
      eexists _, _, (EString nm v). split; [reflexivity|]. split; [assumption|]. split; [exact I|]. split; [|split].
      + repeat apply solid_app. exact (solid_literal _ _ Hv).
      + eexists _, _. split; [reflexivity|discriminate].
      + left. intros w Hw. rewrite <- !app_assoc. apply entry_string; assumption.
    - apply first_cons in Hc. destruct Hc as [Hc|[_ Hc]]; [|destruct (first_nil _ _ _ Hc)].
      eapply takes_node in Hc; [|reflexivity]. apply comment_core in Hc; [|exact Hns].
      eexists _, _, EComment. split; [reflexivity|]. split; [assumption|]. split; [exact I|exact Hc].
  Qed.

  Lemma nodes_item t rest : no_short_comment (t ++ rest) -> takes NODES t rest ->
    exists b core e, t = b ++ core /\ Forall white b /\ not_string e /\ core_of e core rest.
  Proof.
    intros Hns H. apply takes_sequence in H. parts. rewrite app_nil_r in *.
    rewrite <- app_assoc in Hns. apply no_short_suffix in Hns.
    apply takes_select in Hp0. apply first_cons in Hp0. destruct Hp0 as [Hs|[_ Hc]].
    - eapply takes_node in Hs; [|reflexivity]. parts. cbn [app] in *. rewrite app_nil_r in *.
      rename t1 into num, t into w1, t4 into nm, t5 into w2, t7 into w3, t8 into tr.
      eapply takes_node in Hp7; [|reflexivity]. apply (takes_rule E HE HW) in Hp7. destruct Hp7 as (r & Hr).
      destruct H7 as [H7|H7]; [discriminate|].
      apply takes_number in Hp. destruct Hp as (Hnum & x & Hx).
      assert (Hnum' : forall c rest', white c -> x_number E false (num ++ c :: rest') = Some (length num)).
      { destruct w1 as [|c w1]; [contradiction|]. inversion H5; subst. intros c' rest' Hc'.
        eapply (whole_number E HW num c); [assumption|exact Hnum|exact Hc']. }
      assert (Hhd : exists c num', num = c :: num' /\ ~ white c /\ c <> 95%N /\ c <> 47%N).
      { destruct num as [|c num']; [apply (x_number_bounds E HE) in Hnum; cbn in Hnum; lia|]. exists c, num'. split; [reflexivity|].
        split; [exact H0|]. split; intros ->; cbn [app] in Hnum; rewrite (whole_number_start E HW) in Hnum by auto; discriminate. }
      assert (Hw2 : w2 <> []).
      { intros ->. cbn in H12. apply H12. split; [discriminate|]. intros Hin. vm_compute in Hin. intuition discriminate. }
      eexists t0, _, (ENode x nm r). split; [reflexivity|]. split; [assumption|]. split; [exact I|]. split; [|split].
      + apply solid_app, solid_app, solid_app, solid_app. apply (solid_app (61%N :: w3)). exact (proj1 solid_rule _ _ Hr).
      + destruct Hhd as (c & num' & -> & Hc & _). eexists _, _. split; [reflexivity|exact Hc].
      + left. intros w Hw. rewrite <- !app_assoc. cbn [app]. rewrite <- app_assoc. apply (entry_node E (literal E) any_string x num nm r w1 w2 w3 tr w); try assumption.
        * split; [exact Hhd|]. split; [exact Hnum'|exact Hx].
        * split; [assumption|]. intros Hh. apply hd_cons in Hh. destruct Hh as (y & ->). apply Hp1. eexists. reflexivity.
    - apply first_cons in Hc. destruct Hc as [Hc|[_ Hc]]; [|destruct (first_nil _ _ _ Hc)].
      eapply takes_node in Hc; [|reflexivity]. apply comment_core in Hc; [|exact Hns].
      eexists _, _, EComment. split; [reflexivity|]. split; [assumption|]. split; [exact I|exact Hc].
  Qed.

  (** ** Blocks *)

  (** From the start of a line, or from the end of an entry on. *)
  Definition tail_text (nl : bool) (es : list entry) (s : str) : Prop :=
    (nl = true /\ entries_text es s) \/ (es = [] /\ Forall white s) \/
    (exists w rest, s = w ++ newline :: rest /\ Forall white w /\ entries_text es rest).

  Lemma tail_entries nl es s : tail_text nl es s -> entries_text es s.
  Proof.
    intros [[_ H]|[[-> H]|(w & rest & -> & Hw & H)]]; [exact H|apply entries_none; exact H|].
    change (newline :: rest) with ([newline] ++ rest). rewrite app_assoc. apply entries_white; [|exact H].
    apply Forall_app. split; [exact Hw|repeat constructor].
  Qed.

  Lemma first_newline (s : str) : In newline s -> exists a b, s = a ++ newline :: b /\ ~ In newline a.
  Proof.
    induction s as [|c s IH]; [contradiction|]. intros H. destruct (N.eq_dec c newline) as [->|Hc].
    - exists [], s. auto.
    - destruct H as [->|H]; [contradiction|]. destruct (IH H) as (a & b & -> & Ha). exists (c :: a), b. split; [reflexivity|].
      intros [Hx|Hx]; [contradiction|contradiction].
  Qed.

  Lemma tail_first es s : tail_text false es s ->
    (es = [] /\ Forall white s /\ ~ In newline s) \/
    exists w rest, s = w ++ newline :: rest /\ Forall white w /\ ~ In newline w /\ entries_text es rest.
  Proof.
    assert (Hsome : forall w rest, Forall white w -> entries_text es rest ->
      exists w' rest', w ++ newline :: rest = w' ++ newline :: rest' /\ Forall white w' /\ ~ In newline w' /\ entries_text es rest').
    { intros w rest Hw He. destruct (in_dec N.eq_dec newline w) as [Hin|Hno]; [|eauto 7].
      destruct (first_newline w Hin) as (a & b & -> & Ha). apply Forall_app in Hw. destruct Hw as [Hwa Hwb]. inversion Hwb; subst.
      exists a, (b ++ newline :: rest). split; [rewrite <- app_assoc; reflexivity|]. split; [exact Hwa|]. split; [exact Ha|].
      change (newline :: rest) with ([newline] ++ rest). rewrite app_assoc. apply entries_white; [|exact He].
      apply Forall_app. split; [assumption|repeat constructor]. }
    intros [[Hf _]|[[-> H]|(w & rest & -> & Hw & H)]]; [discriminate| |right; auto].
    destruct (in_dec N.eq_dec newline s) as [Hin|Hno]; [|auto]. right.
    destruct (first_newline s Hin) as (a & b & -> & Ha). apply Forall_app in H. destruct H as [Hwa Hwb]. inversion Hwb; subst.
    exists a, b. split; [reflexivity|]. split; [exact Hwa|]. split; [exact Ha|]. apply entries_none. assumption.
  Qed.

  Lemma entry_not_nil e : ~ entry_text e [].
  Proof.
    intros H. inversion H as [n v t w1 w2 Hn Hq Hw1 Hw2 He Ht|x num n r w1 w2 w3 t w4 Hx Hn Hm Hw1 Hn1 Hw2 Hn2 Hw3 Hw4 He Ht|b w Hb Hw He Ht|c Hc He Ht]; try discriminate.
    destruct Hx as ((c & num' & -> & _) & _). discriminate.
  Qed.

  Lemma entries_nil es : entries_text es [] -> es = [].
  Proof.
    intros H. inversion H as [w Hw|w e t Hw He Hx Ht|w e t es' rest Hw He Hes Hx Ht]; [reflexivity| |].
    - apply app_eq_nil in Ht. destruct Ht as [_ ->]. destruct (entry_not_nil _ He).
    - apply app_eq_nil in Ht. destruct Ht as [_ Ht]. apply app_eq_nil in Ht. destruct Ht as [_ Ht]. discriminate.
  Qed.

  (** An entry in front. *)
  Lemma core_entries e core rest es b : core_of e core rest -> Forall white b -> tail_text false es rest ->
    entries_text (e :: es) (b ++ core ++ rest).
  Proof.
    intros (_ & _ & Hc) Hb Ht. apply tail_first in Ht. destruct Ht as [(-> & Hw & Hno)|(w & rest' & -> & Hw & Hno & He)].
    - apply entries_last; [exact Hb|]. destruct Hc as [Hc|[Hc [->|(r & ->)]]]; [apply Hc; exact Hw|rewrite app_nil_r; exact Hc|].
      exfalso. apply Hno. left. reflexivity.
    - assert (Hcw : entry_text e (core ++ w)).
      { destruct Hc as [Hc|[Hc [Hr|(r & Hr)]]]; [apply Hc; exact Hw|destruct w; discriminate|].
        destruct w as [|c w]; [rewrite app_nil_r; exact Hc|]. cbn in Hr. injection Hr as -> _. exfalso. apply Hno. left. reflexivity. }
      rewrite (app_assoc core). apply entries_more; assumption.
  Qed.

  Lemma line_start_split nl s k : line_start nl s k -> exists a s1, s = a ++ s1 /\ length a = k /\ Forall white a /\
    ((nl = true /\ a = []) \/ exists a', a = a' ++ [newline]).
  Proof.
    intros [a b w (Hlen & Hw & _) Hf Hb|Hnl _].
    - exists (a ++ [newline]), (b ++ skipn w s). split; [|split; [|split]].
      + rewrite <- !app_assoc. cbn [app]. rewrite <- (firstn_skipn w s) at 1. rewrite Hf, <- app_assoc. reflexivity.
      + rewrite app_length. reflexivity.
      + rewrite Hf in Hw. apply Forall_app in Hw. destruct Hw as [H1 H2]. apply Forall_app. split; [exact H1|]. repeat constructor.
      + right. eauto.
    - exists [], s. split; [reflexivity|]. split; [reflexivity|]. split; [constructor|auto].
  Qed.

  Lemma tail_start nl es a s1 : Forall white a -> ((nl = true /\ a = []) \/ exists a', a = a' ++ [newline]) -> entries_text es s1 ->
    tail_text nl es (a ++ s1).
  Proof.
    intros Hw [[-> ->]|(a' & ->)] H; [left; auto|]. right. right. exists a', s1. rewrite <- app_assoc. split; [reflexivity|].
    apply Forall_app in Hw. destruct Hw. auto.
  Qed.

  Theorem block_inv R (kind : entry -> Prop) id :
    (forall t rest, no_short_comment (t ++ rest) -> takes R t rest ->
       exists b core e, t = b ++ core /\ Forall white b /\ kind e /\ core_of e core rest) ->
    forall es2 k fresh nl ind p s n d ind' tr, length s < k -> no_short_comment s ->
    reads_lines E boot R false id fresh nl ind p s (Yes n d) ind' tr -> entries_text es2 (skipn n s) ->
    exists es1, Forall kind es1 /\ tail_text nl (es1 ++ es2) s.
  Proof.
    intros HR es2. induction k as [|k IH]; intros fresh nl ind p s n d ind' tr Hk Hns H He2; [lia|].
    inversion H as [? ? ? ? ? ? ? ? Hall|
                   |? ? ? ? ? ? ? ? k0 fresh' ? ? Hnw Hls Hline
                   |? ? ? ? ? ? ? ? k0 m out fresh' ind1 tr1 nl' v ? tr2 Hnw Hls Hline Hnl Hrest Ha]; subst.
    - rewrite skipn_all in He2. apply entries_nil in He2. subst es2. exists []. split; [constructor|]. right. left. auto.
    - apply line_start_split in Hls. destruct Hls as (a & s1 & -> & <- & Hw & Hcase). rewrite skipn_len in He2.
      exists []. split; [constructor|]. apply tail_start; assumption.
    - apply line_start_split in Hls. destruct Hls as (a & s1 & -> & <- & Hw & Hcase). rewrite skipn_len in *.
      inversion Hline; subst. match goal with X : reads _ _ R _ _ _ _ _ _ |- _ => rename X into Hitem end.
      assert (Hm := reads_le E HE boot _ _ _ _ _ _ _ _ Hitem).
      rewrite <- (firstn_skipn m s1) in Hitem, Hns, Hnw. rewrite <- (firstn_length_le _ Hm) in Hitem at 3.
      assert (Hl1 : length (firstn m s1) = m) by (apply firstn_length_le; exact Hm). assert (Hs1 := firstn_skipn m s1).
      set (t := firstn m s1) in *. set (rest := skipn m s1) in *. clearbody t rest. subst s1.
      apply no_short_suffix in Hns. assert (Hns2 := no_short_suffix _ _ Hns).
      destruct (HR t rest Hns) as (b & core & e & -> & Hb & Hkind & Hcore); [exists ind, (p + length a), out, ind1, tr1; exact Hitem|].
      assert (Hcore' := Hcore). destruct Hcore' as (Hsolid & (c & core' & -> & Hc) & _).
      assert (Hnl' : nl' = false).
      { destruct nl'; [|reflexivity]. exfalso. exact (solid_not_over _ _ Hsolid (proj1 Hnl eq_refl)). }
      subst nl'. destruct v as [n2 d2|]; [|discriminate]. cbn [after] in *.
      match goal with X : Yes _ _ = Yes n d |- _ => injection X as Hn Hd end.
      assert (He2' : entries_text es2 (skipn n2 rest)).
      { rewrite <- Hn in He2. rewrite skipn_app, skipn_all2, app_nil_l in He2 by lia. rewrite skipn_app, skipn_all2, app_nil_l in He2 by lia.
        replace (length a + m + n2 - length a - length (b ++ c :: core')) with n2 in He2 by lia. exact He2. }
      assert (Hlr : length rest < k) by (rewrite !app_length in Hk; cbn [length] in Hk; lia).
      destruct (IH _ _ _ _ _ _ _ _ _ Hlr Hns2 Hrest He2') as (es1 & Hk1 & Ht).
      exists (e :: es1). split; [constructor; assumption|]. apply tail_start; [exact Hw|exact Hcase|].
      rewrite <- app_assoc. apply core_entries; assumption.
  Qed.

  (** ** The whole text *)

  Lemma no_nodes es : Forall not_node es -> nodes_of es = [].
  Proof. induction 1 as [|e es He _ IH]; [reflexivity|]. destruct e; [exact IH|contradiction|exact IH]. Qed.
  Lemma no_strings es : Forall not_string es -> strings_of es = [].
  Proof. induction 1 as [|e es He _ IH]; [reflexivity|]. destruct e; [contradiction|exact IH|exact IH]. Qed.

  Lemma seq_split r rs ind p s n d ind' tr : reads_seq E boot (r :: rs) ind p s (Yes n d) ind' tr ->
    exists n1 d1 ind1 tr1 n2 d2 tr2, reads E boot r ind p s (Yes n1 d1) ind1 tr1 /\
      reads_seq E boot rs ind1 (p + n1) (skipn n1 s) (Yes n2 d2) ind' tr2 /\ n = n1 + n2.
  Proof.
    intros H. inversion H as [| |? ? ? ? ? n1 out ind1 tr1 v ? tr2 H1 H2 Ha]; subst.
    destruct v as [m out2|]; [|discriminate]. cbn [after] in *.
    match goal with X : Yes _ _ = Yes n d |- _ => injection X as Hn Hd end. eauto 12.
  Qed.

  Lemma three_parts r1 r2 r3 id id1 id2 i1 i2 ind p s n d ind' tr :
    reads E boot (RSequence [RLines r1 i1 id1; RLines r2 i2 id2; r3] id) ind p s (Yes n d) ind' tr ->
    exists n1 d1 ind1 tr1 n2 d2 ind2 tr2 n3 d3 tr3,
      reads_lines E boot r1 i1 id1 true true ind p s (Yes n1 d1) ind1 tr1 /\
      reads_lines E boot r2 i2 id2 true true ind1 (p + n1) (skipn n1 s) (Yes n2 d2) ind2 tr2 /\
      reads E boot r3 ind2 (p + n1 + n2) (skipn n2 (skipn n1 s)) (Yes n3 d3) ind' tr3 /\ n = n1 + n2 + n3.
  Proof.
    intros H. inversion H; subst. match goal with X : reads_seq _ _ _ _ _ _ _ _ _ |- _ => rename X into Hs end.
    apply seq_split in Hs. destruct Hs as (n1 & d1 & ind1 & tr1 & m1 & e1 & tr1' & H1 & Hs & ->).
    apply seq_split in Hs. destruct Hs as (n2 & d2 & ind2 & tr2 & m2 & e2 & tr2' & H2 & Hs & ->).
    apply seq_split in Hs. destruct Hs as (n3 & d3 & ind3 & tr3 & m3 & e3 & tr3' & H3 & Hs & ->).
    inversion Hs; subst. inversion H1; subst. inversion H2; subst.
    exists n1, d1, ind1, tr1, n2, d2, ind2, tr2, n3, d3, tr3. repeat (split; [assumption|]). lia.
  Qed.

  Theorem text_inv text d ind' tr : no_short_comment text ->
    reads E boot (nth 22 boot (RSelect [] 0)) indent_default 0 text (Yes (length text) d) ind' tr ->
    exists es, surface E es text.
  Proof.
    change (nth 22 boot (RSelect [] 0)) with (RSequence [RLines STRINGS false 22002; RLines NODES false 22008; RWhitespace true 22014] 22001).
    intros Hns H. apply three_parts in H.
    destruct H as (n1 & d1 & ind1 & tr1 & n2 & d2 & ind2 & tr2 & n3 & d3 & tr3 & H1 & H2 & H3 & Hn).
    assert (Hns1 : no_short_comment (skipn n1 text)).
    { apply (no_short_suffix (firstn n1 text)). rewrite firstn_skipn. exact Hns. }
    assert (Hw : Forall white (skipn n2 (skipn n1 text))).
    { inversion H3; subst. match goal with X : longest _ _ _ |- _ => rename X into Hlong end. destruct Hlong as (_ & Hlong & _).
      rewrite firstn_all2 in Hlong; [exact Hlong|]. rewrite !skipn_length. lia. }
    destruct (block_inv NODES not_string _ nodes_item [] _ _ _ _ _ _ _ _ _ _ (Nat.lt_succ_diag_r _) Hns1 H2 (entries_none E _ _ _ Hw)) as (es2 & Hk2 & Ht2).
    apply tail_entries in Ht2. rewrite app_nil_r in Ht2.
    destruct (block_inv STRINGS not_node _ strings_item es2 _ _ _ _ _ _ _ _ _ _ (Nat.lt_succ_diag_r _) Hns H1 Ht2) as (es1 & Hk1 & Ht1).
    apply tail_entries in Ht1. exists (es1 ++ es2). split; [exact Ht1|]. exists es1, es2. split; [reflexivity|].
    split; [apply no_nodes; exact Hk1|apply no_strings; exact Hk2].
  Qed.
End Entries.
