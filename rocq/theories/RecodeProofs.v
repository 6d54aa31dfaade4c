(** Reading a recoded text with recoded rules. *)
From Coq Require Import List NArith Bool Arith Lia.
From Verif Require Import Base Ext Types PegSpec PrimProofs PegFacts DataSpec RecodeSpec.
Import ListNotations.

Section Recode.
  Variable E : ext.
  Variable f : char -> char.
  Hypothesis HR : recoding E f.

  Lemma in_recode c l : In (f c) (map f l) <-> In c l.
  Proof.
    rewrite in_map_iff. split; [|eauto]. intros (d & Hd & Hin). apply (rc_different E f HR) in Hd. congruence.
  Qed.

  Lemma map_inj (a b : str) : map f a = map f b -> a = b.
  Proof.
    revert b. induction a as [|c a IH]; intros [|d b]; try discriminate; [reflexivity|].
    cbn. intros [= H1 H2]. apply (rc_different E f HR) in H1. f_equal; auto.
  Qed.

  Lemma map_app_inv (t : str) a b : map f t = a ++ b -> exists a' b', t = a' ++ b' /\ a = map f a' /\ b = map f b'.
  Proof.
    revert t. induction a as [|x a IH]; intros t H; [exists [], t; auto|].
    destruct t as [|y t]; [discriminate|]. injection H as <- H. destruct (IH t H) as (a' & b' & -> & -> & ->).
    exists (y :: a'), b'. auto.
  Qed.

  Lemma forall_recode (P Q : char -> Prop) s : (forall c, P (f c) <-> Q c) -> Forall P (map f s) <-> Forall Q s.
  Proof. intros H. rewrite Forall_map. split; apply Forall_impl; intros a; apply H. Qed.

  Lemma longest_recode (P Q : char -> Prop) s n : (forall c, P (f c) <-> Q c) ->
    longest P (map f s) n <-> longest Q s n.
  Proof.
    intros H. unfold longest. rewrite map_length, firstn_map, (forall_recode P Q _ H), nth_error_map.
    destruct (nth_error s n) as [c|]; cbn.
    - split; intros (H1 & H2 & H3); (split; [exact H1|split; [exact H2|]]); intros d [= <-] Hd.
      + apply (H3 _ eq_refl). apply H. exact Hd.
      + apply (H3 _ eq_refl). apply H. exact Hd.
    - split; intros (H1 & H2 & H3); (split; [exact H1|split; [exact H2|]]); discriminate.
  Qed.

  Lemma starts_recode s t : starts_with (map f s) (map f t) <-> starts_with s t.
  Proof.
    split; intros (rest & H).
    - apply map_app_inv in H as (a & b & -> & Ha & _). apply map_inj in Ha. subst a. exists b. reflexivity.
    - subst s. exists (map f rest). apply map_app.
  Qed.

  Lemma white_recode s n : longest white (map f s) n <-> longest white s n.
  Proof. apply longest_recode. exact (rc_white E f HR). Qed.

  Lemma newline_recode s : In newline (map f s) <-> In newline s.
  Proof. rewrite <- (in_recode newline s), (rc_newline E f HR). reflexivity. Qed.

  Lemma same_line_recode s : same_line (map f s) <-> same_line s.
  Proof.
    split; intros (w & Hw & Hn); exists w; rewrite firstn_map, newline_recode in *; rewrite white_recode in *; auto.
  Qed.

  Lemma break_recode s a b : s = a ++ newline :: b -> map f s = map f a ++ newline :: map f b.
  Proof. intros ->. rewrite map_app. cbn. rewrite (rc_newline E f HR). reflexivity. Qed.

  Lemma line_start_recode nl s k : line_start nl s k -> line_start nl (map f s) k.
  Proof.
    intros [a b w Hw Hs Hb|Hnl Hs].
    - rewrite <- (map_length f a). apply (line_start_break _ _ (map f a) (map f b) w).
      + apply white_recode. exact Hw.
      + rewrite firstn_map. apply break_recode. exact Hs.
      + rewrite newline_recode. exact Hb.
    - apply line_start_here; [exact Hnl|]. apply same_line_recode. exact Hs.
  Qed.

  Lemma ends_line_recode s : ends_line (map f s) <-> ends_line s.
  Proof.
    split.
    - intros (a & b & H & Hb). apply map_app_inv in H as (a' & b' & -> & -> & H). destruct b' as [|c b']; [discriminate|].
      injection H as Hc ->. exists a', b'. rewrite <- (rc_newline E f HR) in Hc. apply (rc_different E f HR) in Hc. subst c.
      split; [reflexivity|]. apply (forall_recode white white); [exact (rc_white E f HR)|exact Hb].
    - intros (a & b & H & Hb). exists (map f a), (map f b). split; [apply break_recode; exact H|].
      apply (forall_recode white white); [exact (rc_white E f HR)|exact Hb].
  Qed.

  Lemma indentation_recode tabs n s k : indentation tabs n s k -> indentation tabs n (map f s) k.
  Proof.
    induction 1; cbn [map]; rewrite ?(rc_space E f HR), ?(rc_tab E f HR); constructor; assumption.
  Qed.

  Lemma space_recode c : f c = space <-> c = space.
  Proof.
    split; [|intros ->; exact (rc_space E f HR)]. rewrite <- (rc_space E f HR) at 1. apply (rc_different E f HR).
  Qed.

  Lemma tab_recode c : f c = tab <-> c = tab.
  Proof.
    split; [|intros ->; exact (rc_tab E f HR)]. rewrite <- (rc_tab E f HR) at 1. apply (rc_different E f HR).
  Qed.

  Lemma indentation_back tabs n t k : indentation tabs n t k -> forall s, t = map f s -> indentation tabs n s k.
  Proof.
    induction 1 as [t|n t k Hn _ IH|n t k Hn _ IH|n t Hn]; intros s Hs; [constructor|..];
      (destruct s as [|c s]; [discriminate|]); cbn in Hs; injection Hs as Hc Hs; symmetry in Hc.
    - apply (proj1 (space_recode c)) in Hc. subst c. apply indentation_space; auto.
    - apply (proj1 (tab_recode c)) in Hc. subst c. apply indentation_tab; auto.
    - apply (proj1 (tab_recode c)) in Hc. subst c. apply indentation_tab_last; exact Hn.
  Qed.

  Lemma space_starts s : starts_with (map f s) [space] <-> starts_with s [space].
  Proof. rewrite <- (starts_recode s [space]). cbn. rewrite (rc_space E f HR). reflexivity. Qed.

  Lemma blank_recode c : blank (f c) <-> blank c.
  Proof. unfold blank. rewrite space_recode, tab_recode. reflexivity. Qed.

  Lemma width_recode tabs s : width tabs (map f s) = width tabs s.
  Proof.
    induction s as [|c s IH]; [reflexivity|]. cbn [map width]. rewrite IH.
    replace (N.eqb (f c) tab) with (N.eqb c tab); [reflexivity|].
    destruct (N.eqb_spec c tab) as [->|Hc]; [rewrite (rc_tab E f HR); reflexivity|].
    symmetry. apply N.eqb_neq. rewrite tab_recode. exact Hc.
  Qed.

  Variable syn : syntax.
  Hypothesis Hplain : no_tables syn.
  Variable text : str.

  Definition vrec (v v' : verdict) : Prop :=
    match v, v' with
    | Yes n out, Yes n' out' => n' = n /\ Forall2 (recoded_token f text) out out'
    | No, No => True
    | _, _ => False
    end.

  Lemma vrec_yes n out v' : vrec (Yes n out) v' ->
    exists out', v' = Yes n out' /\ Forall2 (recoded_token f text) out out'.
  Proof. destruct v' as [n' out'|]; [|intros []]. intros [-> H2]. eauto. Qed.

  Lemma vrec_no v' : vrec No v' -> v' = No.
  Proof. destruct v'; [intros []|reflexivity]. Qed.

  Lemma vrec_after n out out' v v' :
    Forall2 (recoded_token f text) out out' -> vrec v v' -> vrec (after n out v) (after n out' v').
  Proof.
    intros Ho Hv. destruct v as [m o|], v' as [m' o'|]; cbn in *; try tauto.
    destruct Hv as [-> H2]. split; [reflexivity|]. apply Forall2_app; assumption.
  Qed.

  Lemma token_rec property r mk mk' :
    (forall n, recoded_token f text (r, mk n) (r, mk' n)) ->
    Forall2 (recoded_token f text) (token property r mk) (token property r mk').
  Proof. intros H. destruct property; cbn; constructor; auto. Qed.

  Lemma under_rec p s n : s = skipn p text -> under text (Rng p n) = firstn n s.
  Proof. intros ->. reflexivity. Qed.

  Lemma until_rec p s n property : s = skipn p text ->
    Forall2 (recoded_token f text) (token property (Rng p n) (fun name => MString name (firstn n s)))
      (token property (Rng p n) (fun name => MString name (firstn n (map f s)))).
  Proof.
    intros Hs. apply token_rec. intros name. constructor. intros _. apply firstn_map.
  Qed.

  Let refs' := map (recode_rule f) (s_rules syn).
  Let me := recode_error f.

  Definition simr (R : indent -> nat -> str -> verdict -> indent -> list perr -> Prop)
    (ind : indent) (p : nat) (s : str) (v : verdict) (ind' : indent) (tr : list perr) : Prop :=
    s = skipn p text -> exists v', R ind p (map f s) v' ind' (map me tr) /\ vrec v v'.

  Theorem reads_recode :
    (forall r ind p s v ind' tr, reads E (s_rules syn) r ind p s v ind' tr ->
      occurs syn r -> simr (reads E refs' (recode_rule f r)) ind p s v ind' tr) /\
    (forall args ind p s v ind' tr, reads_seq E (s_rules syn) args ind p s v ind' tr ->
      Forall (occurs syn) args -> simr (reads_seq E refs' (map (recode_rule f) args)) ind p s v ind' tr) /\
    (forall args ind p s v ind' tr, reads_first E (s_rules syn) args ind p s v ind' tr ->
      Forall (occurs syn) args -> simr (reads_first E refs' (map (recode_rule f) args)) ind p s v ind' tr) /\
    (forall r ind p s k n out ind' tr, reads_many E (s_rules syn) r ind p s k n out ind' tr ->
      occurs syn r -> s = skipn p text ->
      exists out', reads_many E refs' (recode_rule f r) ind p (map f s) k n out' ind' (map me tr) /\
        Forall2 (recoded_token f text) out out') /\
    (forall r by_ trail ind p s v ind' tr,
      reads_more E (s_rules syn) r by_ trail ind p s v ind' tr ->
      occurs syn r -> occurs syn by_ ->
      simr (reads_more E refs' (recode_rule f r) (recode_rule f by_) trail) ind p s v ind' tr) /\
    (forall r indented id fresh nl ind p s v ind' tr,
      reads_lines E (s_rules syn) r indented id fresh nl ind p s v ind' tr ->
      occurs syn r -> simr (reads_lines E refs' (recode_rule f r) indented id fresh nl) ind p s v ind' tr) /\
    (forall r indented fresh ind p s v fresh' ind' tr,
      reads_line E (s_rules syn) r indented fresh ind p s v fresh' ind' tr ->
      occurs syn r ->
      simr (fun i q t w i' tr' => reads_line E refs' (recode_rule f r) indented fresh i q t w fresh' i' tr')
        ind p s v ind' tr).
  Proof.
    assert (Hsub : forall r args, occurs syn r -> children r = args -> Forall (occurs syn) args).
    { intros r args Ho <-. apply Forall_forall. intros c Hc. eapply occurs_child; eassumption. }
    assert (Hone : forall r c, occurs syn r -> In c (children r) -> occurs syn c).
    { intros r c Ho Hc. eapply occurs_child; eassumption. }
    assert (Hskip : forall p n, skipn n (skipn p text) = skipn (p + n) text).
    { intros. apply skipn_skipn_add. }
    assert (Huntil : forall any c, ~ In (f c) (map f any) <-> ~ In c any) by (intros; rewrite in_recode; reflexivity).
    assert (Hws : forall any c, (~ white (f c) /\ ~ In (f c) (map f any)) <-> (~ white c /\ ~ In c any)).
    { intros any c. rewrite in_recode, (rc_white E f HR c). reflexivity. }
    assert (Href : forall i r, nth_error (s_rules syn) i = Some r -> nth_error refs' i = Some (recode_rule f r)).
    { intros i r Hi. unfold refs'. rewrite nth_error_map, Hi. reflexivity. }
    apply reads_mutind.
    - (* white space *)
      intros optional id ind p s n Hl Hn _ Hs. exists (Yes n []).
      split; [constructor; [apply white_recode; exact Hl|exact Hn]|split; [reflexivity|constructor]].
    - intros id ind p s Hl _ Hs. exists No. split; [apply reads_whitespace_no, white_recode; exact Hl|exact I].
    - (* tag *)
      intros tg inverted property id ind p s Hst Ho Hs. cbn [recode_rule].
      eexists (Yes _ _). split; [constructor; apply starts_recode; exact Hst|].
      rewrite map_length. split; [reflexivity|]. apply token_rec. intros; constructor.
    - intros tg inverted property id ind p s Hst Ho Hs. exists No. split; [|exact I]. cbn [recode_rule map me recode_error].
      apply (reads_tag_no E refs' (map f tg)). rewrite starts_recode. exact Hst.
    - intros tg inverted property id ind p s Hst Ho Hs. eexists (Yes 0 _). cbn [recode_rule].
      split; [constructor; rewrite starts_recode; exact Hst|]. split; [reflexivity|]. apply token_rec. intros; constructor.
    - intros tg inverted property id ind p s Hst Ho Hs. exists No. split; [|exact I]. cbn [recode_rule map me recode_error].
      rewrite <- (map_length f tg). apply (reads_not_tag_no E refs' (map f tg)). rewrite starts_recode. exact Hst.
    - (* until *)
      intros any optional property id ind p s n Hl Hn Ho Hs. cbn [recode_rule].
      eexists (Yes n _). split; [constructor; [|exact Hn]|].
      + apply (longest_recode _ (fun c => ~ In c any)); [apply Huntil|exact Hl].
      + split; [reflexivity|]. apply until_rec. exact Hs.
    - intros any property id ind p s Hl Ho Hs. cbn [recode_rule]. exists No. split; [|exact I].
      apply (reads_until_no E refs'). apply (longest_recode _ (fun c => ~ In c any)); [apply Huntil|exact Hl].
    - intros any optional property id ind p s n Hl Hn Ho Hs. cbn [recode_rule].
      eexists (Yes n _). split; [constructor; [|exact Hn]|].
      + apply (longest_recode _ (fun c => ~ white c /\ ~ In c any)); [apply Hws|exact Hl].
      + split; [reflexivity|]. apply until_rec. exact Hs.
    - intros any property id ind p s Hl Ho Hs. cbn [recode_rule]. exists No. split; [|exact I].
      apply (reads_until_ws_no E refs'). apply (longest_recode _ (fun c => ~ white c /\ ~ In c any)); [apply Hws|exact Hl].
    - (* text *)
      intros allow_empty property id ind p s n val Hx Hn Hv Ho Hs. cbn [recode_rule].
      pose proof (rc_literal E f HR s n Hx) as Hlit. rewrite Hv in Hlit.
      destruct (x_parse_string E (map f (firstn n s))) as [v'|] eqn:Hv'; [|destruct Hlit].
      eexists (Yes n _). split; [econstructor; [rewrite (rc_string E f HR); exact Hx|exact Hn|rewrite firstn_map; exact Hv']|].
      split; [reflexivity|]. apply token_rec. intros name. constructor. rewrite (under_rec p s n Hs).
      intros Hb. apply Hlit. destruct Hb as [Hb|Hb]; [left; symmetry; exact Hb|right; exact Hb].
    - intros allow_empty property id ind p s Hx Ho Hs. cbn [recode_rule]. exists No. split; [|exact I].
      apply (reads_text_none E refs'). rewrite (rc_string E f HR). exact Hx.
    - intros property id ind p s Hx Ho Hs. cbn [recode_rule]. exists No. split; [|exact I].
      apply (reads_text_empty E refs'). rewrite (rc_string E f HR). exact Hx.
    - intros allow_empty property id ind p s n r e Hx Hn Hv Ho Hs. cbn [recode_rule].
      pose proof (rc_literal E f HR s n Hx) as Hlit. rewrite Hv in Hlit.
      destruct (x_parse_string E (map f (firstn n s))) as [v'|e'] eqn:Hv'; [destruct Hlit|]. subst e'.
      exists No. split; [|exact I].
      eapply (reads_text_bad E refs'); [rewrite (rc_string E f HR); exact Hx|exact Hn|rewrite firstn_map; exact Hv'].
    - (* number *)
      intros underscore property id ind p s n val Hx Hv Ho Hs. cbn [recode_rule].
      eexists (Yes n _). split; [econstructor; [rewrite (rc_number E f HR); exact Hx|]|].
      + rewrite firstn_map, (rc_value E f HR _ _ _ Hx). exact Hv.
      + split; [reflexivity|]. apply token_rec. intros; constructor.
    - intros underscore property id ind p s Hx Ho Hs. cbn [recode_rule]. exists No. split; [|exact I].
      apply (reads_number_none E refs'). rewrite (rc_number E f HR). exact Hx.
    - intros underscore property id ind p s n Hx Hv Ho Hs. cbn [recode_rule]. exists No. split; [|exact I].
      apply (reads_number_bad E refs'); [rewrite (rc_number E f HR); exact Hx|].
      rewrite firstn_map, (rc_value E f HR _ _ _ Hx). exact Hv.
    - (* sequence *)
      intros args id ind p s v ind' tr _ IH Ho Hs.
      destruct (IH (Hsub _ _ Ho eq_refl) Hs) as (v' & R & V).
      exists v'. split; [constructor; exact R|exact V].
    - intros args id ind p s v ind' tr Hne _ IH Ho Hs.
      destruct (IH (Hsub _ _ Ho eq_refl) Hs) as (v' & R & V).
      exists v'. split; [constructor; [|exact R]|exact V]. destruct args; [congruence|discriminate].
    - intros id ind p s Ho Hs. exists No. split; [apply (reads_select_empty E refs')|exact I].
    - (* fast select *)
      intros table args tail id ind p Ho. destruct (Hplain _ _ _ _ Ho).
    - intros table args id ind p c s _ Ho. destruct (Hplain _ _ _ _ Ho).
    - intros table args r id ind p c s v ind' tr _ _ _ Ho. destruct (Hplain _ _ _ _ Ho).
    - intros table args tail id ind p c s i r n out ind' tr _ _ _ _ _ Ho. destruct (Hplain _ _ _ _ Ho).
    - intros table args id ind p c s i r ind' tr _ _ _ _ _ Ho. destruct (Hplain _ _ _ _ Ho).
    - intros table args r' id ind p c s i r ind1 tr1 v ind2 tr2 _ _ _ _ _ _ _ Ho. destruct (Hplain _ _ _ _ Ho).
    - (* repeat *)
      intros r optional id ind p s k n out ind' tr _ IH Hk Ho Hs.
      destruct (IH ltac:(eapply Hone; [exact Ho|cbn; auto]) Hs) as (out' & R & V).
      exists (Yes n out'). split; [econstructor; eassumption|split; [reflexivity|exact V]].
    - intros r id ind p s ind' tr _ IH Ho Hs.
      destruct (IH ltac:(eapply Hone; [exact Ho|cbn; auto]) Hs) as (v' & R & V).
      apply vrec_no in V as ->. exists No. split; [apply (reads_repeat_no E refs'); exact R|exact I].
    - (* separate *)
      intros r by_ optional trail id ind p s n out ind1 tr1 v ind2 tr2 _ IH1 _ IH2 Ho Hs.
      assert (Or : occurs syn r) by (eapply Hone; [exact Ho|cbn; auto]).
      assert (Ob : occurs syn by_) by (eapply Hone; [exact Ho|cbn; auto]).
      destruct (IH1 Or Hs) as (v1 & R1 & V1). apply vrec_yes in V1 as (out' & -> & Hout).
      destruct (IH2 Or Ob ltac:(subst s; apply Hskip)) as (v2 & R2 & V2). rewrite <- skipn_map in R2.
      eexists _. rewrite map_app. split; [eapply (reads_separate E refs'); eassumption|]. apply vrec_after; assumption.
    - intros r by_ optional trail id ind p s ind' tr _ IH Ho Hs.
      destruct (IH ltac:(eapply Hone; [exact Ho|cbn; auto]) Hs) as (v' & R & V).
      apply vrec_no in V as ->. eexists _. split; [eapply (reads_separate_none E refs'); exact R|].
      destruct optional; [split; [reflexivity|constructor]|exact I].
    - (* lines *)
      intros r indented id ind p s v ind' tr _ IH Ho Hs.
      destruct (IH ltac:(eapply Hone; [exact Ho|cbn; auto]) Hs) as (v' & R & V).
      exists v'. split; [constructor; exact R|exact V].
    - (* node *)
      intros name property i id r ind p s n out ind' tr Hi _ IH Ho Hs.
      destruct (IH ltac:(apply occurs_top; eapply nth_error_In; exact Hi) Hs) as (v' & R & V).
      apply vrec_yes in V as (out' & -> & Hout).
      eexists (Yes n _). split; [eapply (reads_node E refs'); [apply Href; exact Hi|exact R]|]. split; [reflexivity|].
      apply Forall2_app; [apply token_rec; intros; constructor|].
      apply Forall2_app; [exact Hout|apply token_rec; intros; constructor].
    - intros name property i id r ind p s ind' tr Hi _ IH Ho Hs.
      destruct (IH ltac:(apply occurs_top; eapply nth_error_In; exact Hi) Hs) as (v' & R & V).
      apply vrec_no in V as ->. exists No. split; [eapply (reads_node_no E refs'); [apply Href; exact Hi|exact R]|exact I].
    - intros name property id ind p s Ho Hs. exists No. split; [apply (reads_node_unresolved E refs')|exact I].
    - (* optional *)
      intros r id ind p s n out ind' tr _ IH Ho Hs.
      destruct (IH ltac:(eapply Hone; [exact Ho|cbn; auto]) Hs) as (v' & R & V).
      pose proof V as V0. apply vrec_yes in V0 as (out' & -> & _).
      eexists _. split; [constructor; exact R|exact V].
    - intros r id ind p s ind' tr _ IH Ho Hs.
      destruct (IH ltac:(eapply Hone; [exact Ho|cbn; auto]) Hs) as (v' & R & V).
      apply vrec_no in V as ->. exists (Yes 0 []). split; [apply (reads_optional_none E refs'); exact R|].
      split; [reflexivity|constructor].
    - (* not *)
      intros r id ind p s ind' tr _ IH Ho Hs.
      destruct (IH ltac:(eapply Hone; [exact Ho|cbn; auto]) Hs) as (v' & R & V).
      apply vrec_no in V as ->. exists (Yes 0 []). split; [eapply (reads_not E refs'); exact R|].
      split; [reflexivity|constructor].
    - intros r id ind p s n out ind' tr _ IH Ho Hs.
      destruct (IH ltac:(eapply Hone; [exact Ho|cbn; auto]) Hs) as (v' & R & V).
      apply vrec_yes in V as (out' & -> & _). exists No. split; [|exact I].
      cbn [recode_rule map me recode_error]. rewrite <- firstn_map. eapply (reads_not_no E refs'). exact R.
    - (* seq *)
      intros ind p s Ho Hs. exists (Yes 0 []). split; [constructor|]. split; [reflexivity|constructor].
    - intros r rest ind p s ind' tr _ IH Ho Hs. inversion Ho as [|x y O1 O2]; subst x y.
      destruct (IH O1 Hs) as (v' & R & V). apply vrec_no in V as ->.
      exists No. split; [apply (reads_seq_no E refs'); exact R|exact I].
    - intros r rest ind p s n out ind1 tr1 v ind2 tr2 _ IH1 _ IH2 Ho Hs.
      inversion Ho as [|x y O1 O2]; subst x y.
      destruct (IH1 O1 Hs) as (v1 & R1 & V1). apply vrec_yes in V1 as (out' & -> & Hout).
      destruct (IH2 O2 ltac:(subst s; apply Hskip)) as (v2 & R2 & V2). rewrite <- skipn_map in R2.
      eexists _. rewrite map_app. split; [eapply (reads_seq_cons E refs'); eassumption|]. apply vrec_after; assumption.
    - (* first *)
      intros ind p s Ho Hs. exists No. split; [constructor|exact I].
    - intros r rest ind p s n out ind' tr _ IH Ho Hs. inversion Ho as [|x y O1 O2]; subst x y.
      destruct (IH O1 Hs) as (v' & R & V). pose proof V as V0. apply vrec_yes in V0 as (out' & -> & _).
      eexists _. split; [apply (reads_first_yes E refs'); exact R|exact V].
    - intros r rest ind p s ind1 tr1 v ind2 tr2 _ IH1 _ IH2 Ho Hs.
      inversion Ho as [|x y O1 O2]; subst x y.
      destruct (IH1 O1 Hs) as (v1 & R1 & V1). apply vrec_no in V1 as ->.
      destruct (IH2 O2 Hs) as (v2 & R2 & V2).
      exists v2. rewrite map_app. split; [eapply (reads_first_next E refs'); eassumption|exact V2].
    - (* many *)
      intros r ind p s ind' tr _ IH Ho Hs.
      destruct (IH Ho Hs) as (v' & R & V). apply vrec_no in V as ->.
      exists []. split; [constructor; exact R|constructor].
    - intros r ind p s n out ind1 tr1 k m out2 ind2 tr2 _ IH1 _ IH2 Ho Hs.
      destruct (IH1 Ho Hs) as (v1 & R1 & V1). apply vrec_yes in V1 as (out' & -> & Hout).
      destruct (IH2 Ho ltac:(subst s; apply Hskip)) as (out2' & R2 & V2). rewrite <- skipn_map in R2.
      eexists _. rewrite map_app. split; [eapply (reads_many_step E refs'); eassumption|].
      apply Forall2_app; assumption.
    - (* more *)
      intros r by_ trail ind p s ind' tr _ IH Or Ob Hs.
      destruct (IH Ob Hs) as (v' & R & V). apply vrec_no in V as ->.
      exists (Yes 0 []). split; [constructor; exact R|]. split; [reflexivity|constructor].
    - intros r by_ trail ind p s n out ind1 tr1 ind2 tr2 _ IH1 _ IH2 Or Ob Hs.
      destruct (IH1 Ob Hs) as (v1 & R1 & V1). apply vrec_yes in V1 as (out' & -> & Hout).
      destruct (IH2 Or ltac:(subst s; apply Hskip)) as (v2 & R2 & V2). rewrite <- skipn_map in R2.
      apply vrec_no in V2 as ->.
      eexists _. rewrite map_app. split; [eapply (reads_more_trail E refs'); eassumption|].
      destruct trail; [split; [reflexivity|exact Hout]|exact I].
    - intros r by_ trail ind p s n out ind1 tr1 m out2 ind2 tr2 v ind3 tr3 _ IH1 _ IH2 _ IH3 Or Ob Hs.
      destruct (IH1 Ob Hs) as (v1 & R1 & V1). apply vrec_yes in V1 as (out' & -> & Hout).
      destruct (IH2 Or ltac:(subst s; apply Hskip)) as (v2 & R2 & V2). rewrite <- skipn_map in R2.
      apply vrec_yes in V2 as (out2' & -> & Hout2).
      destruct (IH3 Or Ob ltac:(subst s; rewrite !Hskip; reflexivity)) as (v3 & R3 & V3). rewrite <- !skipn_map in R3.
      eexists _. rewrite !map_app. split; [eapply (reads_more_item E refs'); eassumption|].
      apply vrec_after; [exact Hout|]. apply vrec_after; assumption.
    - (* lines *)
      intros r indented id fresh nl ind p s Hw Ho Hs.
      eexists (Yes _ []). split; [constructor; apply (forall_recode white white); [exact (rc_white E f HR)|exact Hw]|].
      rewrite map_length. split; [reflexivity|constructor].
    - intros r indented id fresh ind p s Hw Hl Ho Hs. exists No. split; [|exact I].
      cbn [map me recode_error]. rewrite <- (rc_lines E f HR s). apply (reads_lines_missing E refs').
      + rewrite (forall_recode white white); [exact Hw|exact (rc_white E f HR)].
      + apply same_line_recode. exact Hl.
    - intros r indented id fresh nl ind p s k fresh' ind' tr Hw Hl _ IH Ho Hs.
      destruct (IH Ho ltac:(subst s; apply Hskip)) as (v' & R & V). rewrite <- skipn_map in R. apply vrec_no in V as ->.
      exists (Yes k []). split; [eapply (reads_lines_stop E refs'); [|apply line_start_recode; exact Hl|exact R]|].
      + rewrite (forall_recode white white); [exact Hw|exact (rc_white E f HR)].
      + split; [reflexivity|constructor].
    - intros r indented id fresh nl ind p s k n out fresh' ind1 tr1 nl' v ind2 tr2 Hw Hl _ IH1 Hnl _ IH2 Ho Hs.
      destruct (IH1 Ho ltac:(subst s; apply Hskip)) as (v1 & R1 & V1). rewrite <- skipn_map in R1.
      apply vrec_yes in V1 as (out' & -> & Hout).
      destruct (IH2 Ho ltac:(subst s; rewrite !Hskip; reflexivity)) as (v2 & R2 & V2). rewrite <- !skipn_map in R2.
      eexists _. rewrite map_app.
      split; [eapply (reads_lines_item E refs'); [|apply line_start_recode; exact Hl|exact R1| |exact R2]|].
      + rewrite (forall_recode white white); [exact Hw|exact (rc_white E f HR)].
      + rewrite skipn_map, firstn_map, ends_line_recode. exact Hnl.
      + apply vrec_after; assumption.
    - (* line *)
      intros r fresh ind p s v ind' tr _ IH Ho Hs.
      destruct (IH Ho Hs) as (v' & R & V). exists v'. split; [constructor; exact R|exact V].
    - intros r fresh ind p s Hi Ho Hs. exists No. split; [|exact I]. apply (reads_line_short E refs').
      intros k Hk. apply (Hi k). eapply indentation_back; [exact Hk|reflexivity].
    - intros r fresh ind p s k Hi Hf Hst Ho Hs. exists No. split; [|exact I].
      eapply (reads_line_deep E refs'); [apply indentation_recode; exact Hi|exact Hf|].
      rewrite skipn_map. apply space_starts. exact Hst.
    - intros r fresh ind p s k v ind' tr Hi Hf Hst Hm _ IH Ho Hs.
      destruct (IH Ho ltac:(subst s; apply Hskip)) as (v' & R & V). rewrite <- skipn_map in R.
      eexists _. split; [eapply (reads_line_exact E refs'); [apply indentation_recode; exact Hi|exact Hf| |exact Hm|exact R]|].
      + rewrite skipn_map, space_starts. exact Hst.
      + apply vrec_after; [constructor|exact V].
    - intros r ind p s k b w v ind' tr Hi Hal Hb -> Hm _ IH Ho Hs.
      destruct (IH Ho ltac:(subst s; rewrite !Hskip; reflexivity)) as (v' & R & V). rewrite <- !skipn_map in R.
      eexists _. split.
      + eapply (reads_line_align E refs'); [apply indentation_recode; exact Hi|exact Hal| | |exact Hm|exact R].
        * rewrite skipn_map. apply (longest_recode blank blank); [apply blank_recode|exact Hb].
        * rewrite skipn_map, firstn_map, width_recode. reflexivity.
      + apply vrec_after; [constructor|exact V].
  Qed.
End Recode.
