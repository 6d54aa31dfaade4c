(** Data has the shape of the grammar. *)
From Coq Require Import List NArith Bool Arith Lia.
From Verif Require Import Base Ext Types ParseModel OptimizeModel PegSpec DataSpec ApiSpec OptSpec ExtProofs PegFacts ParseProofs OptProofs OptProofs2 OptSim2
  OccursProofs ConvertTotal TreeSpec TreeProofs ShapeSpec.
Import ListNotations.

Section Reads.
  Variable E : ext.
  Variable refs : list rule.

  Definition shaped (r : rule) (v : verdict) : Prop :=
    match v with Yes _ out => shape refs r (map snd out) | No => True end.

  Lemma token_item property r mk : map snd (token property r mk) = item_of property mk.
  Proof. destruct property; reflexivity. Qed.

  Lemma node_items property a b out :
    map snd (token property a StartNode ++ out ++ token property b EndNode) = node_around property (map snd out).
  Proof. destruct property; cbn; rewrite map_app; cbn; [|rewrite app_nil_r]; reflexivity. Qed.

  Lemma longest_in (P : char -> Prop) s n c : longest P s n -> In c (firstn n s) -> P c.
  Proof. intros (_ & H & _) Hc. exact (proj1 (Forall_forall _ _) H c Hc). Qed.

  Lemma longest_some (P : char -> Prop) s n optional : longest P s n -> optional = true \/ 0 < n -> optional = true \/ firstn n s <> [].
  Proof. intros (Hn & _) [H|H]; [auto|right]. destruct n, s; cbn in *; try discriminate; lia. Qed.

  Lemma reads_shape :
    (forall r ind p s v ind' tr, reads E refs r ind p s v ind' tr -> shaped r v) /\
    (forall args ind p s v ind' tr, reads_seq E refs args ind p s v ind' tr -> forall id, shaped (RSequence args id) v) /\
    (forall args ind p s v ind' tr, reads_first E refs args ind p s v ind' tr ->
       match v with Yes _ out => exists r, In r args /\ shape refs r (map snd out) | No => True end) /\
    (forall r ind p s k n out ind' tr, reads_many E refs r ind p s k n out ind' tr ->
       (k = 0 -> out = []) /\ (0 < k -> forall o id, shape refs (RRepeat r o id) (map snd out))) /\
    (forall r by_ trail ind p s v ind' tr, reads_more E refs r by_ trail ind p s v ind' tr ->
       match v with Yes _ out => forall x o id, shape refs r x -> shape refs (RSeparateBy r by_ o trail id) (x ++ map snd out) | No => True end) /\
    (forall r indented id fresh nl ind p s v ind' tr, reads_lines E refs r indented id fresh nl ind p s v ind' tr ->
       shaped (RLines r indented id) v) /\
    (forall r indented fresh ind p s v fresh' ind' tr, reads_line E refs r indented fresh ind p s v fresh' ind' tr -> shaped r v).
  Proof.
    apply reads_mutind; intros; cbn [shaped] in *; rewrite ?token_item, ?node_items; try exact I; eauto 3 using shape.
    - apply sh_until; [intros c Hc; exact (longest_in _ _ _ _ H Hc)|exact (longest_some _ _ _ _ H H0)].
    - apply sh_until_ws; [|exact (longest_some _ _ _ _ H H0)]. intros c Hc. destruct (longest_in _ _ _ _ H Hc) as [Hw Ha].
      split; [|exact Ha]. unfold white in Hw. destruct (is_ws c); congruence.
    - destruct v as [n out|]; [|exact I]. destruct H1 as (r & Hr & Hs). eapply sh_select; eauto.
    - destruct v as [n out|]; [|exact I]. cbn [shaped] in *. eapply sh_fast; [apply in_or_app; right; left; reflexivity|assumption].
    - eapply sh_fast; [eapply nth_error_In; eassumption|assumption].
    - destruct v as [n out|]; [|exact I]. cbn [shaped] in *. eapply sh_fast; [apply in_or_app; right; left; reflexivity|assumption].
    - destruct H0 as [H0 H2]. destruct k; [|apply H2; lia]. rewrite (H0 eq_refl). destruct H1 as [->|H1]; [apply sh_repeat_none|lia].
    - destruct v as [m out'|]; [|exact I]. cbn [after shaped] in *. rewrite map_app. apply H2, H0.
    - destruct optional; cbn [shaped map]; [apply sh_separate_none|exact I].
    - destruct v as [m out'|]; [|exact I]. cbn [after shaped] in *. rewrite map_app. apply sh_sequence; auto.
    - eauto using in_eq.
    - destruct v as [m out'|]; [|exact I]. destruct H2 as (x & Hx & Hs). eauto using in_cons.
    - split; [auto|lia].
    - split; [discriminate|]. intros _ o id. rewrite map_app. destruct H2 as [H2 H3]. destruct k.
      + rewrite (H2 eq_refl). cbn. rewrite app_nil_r. apply sh_repeat_one. assumption.
      + apply sh_repeat_more; [assumption|]. apply H3. lia.
    - rewrite app_nil_r. apply sh_separate_one. assumption.
    - destruct trail; [|exact I]. intros. apply sh_separate_trail; assumption.
    - destruct v as [k out3|]; [|exact I]. cbn [after]. intros x o id Hx. rewrite !map_app.
      apply sh_separate_more; [assumption|assumption|]. apply H4. assumption.
    - destruct v as [m out'|]; [|exact I]. cbn [after shaped] in *. rewrite map_app. apply sh_lines_more; auto.
    - destruct v as [m out'|]; [|exact I]. exact H4.
    - destruct v as [m out'|]; [|exact I]. exact H5.
  Qed.
End Reads.

Theorem parse_shape E (HE : ext_ok E) s text tokens ind r : start_rule s r -> forall new,
  parse_returns E s text tokens ind None (tokens ++ new) -> shape (s_rules s) r (map snd new).
Proof.
  intros Hr new H. apply (parse_accepts E HE) in H. destruct H as (out & Ha & Ht). apply app_inv_head in Ht. subst out.
  destruct Ha as [r' out ind' tr Hr' H]. assert (r' = r).
  { destruct Hr as [a Ha], Hr' as [b Hb]. rewrite Ha in Hb. apply app_inj_tail in Hb. symmetry. apply Hb. }
  subst r'. exact (proj1 (reads_shape E (s_rules s)) _ _ _ _ _ _ _ H).
Qed.

(** ** Optimised rules *)

Inductive alternatives : rule -> list rule -> Prop :=
| alt_select : forall args id, alternatives (RSelect args id) args
| alt_fast : forall table args tail id, alternatives (RFastSelect table args tail id) args.

(** [from r r']: what comes from [r'] may come from [r]. *)
Inductive from : rule -> rule -> Prop :=
| from_same : forall r, from r r
| from_alt : forall r r' args args', alternatives r args -> alternatives r' args' ->
    Forall (fun a' => from r a' \/ exists a, In a args /\ from a a') args' -> from r r'
| from_sequence : forall args args' id id', Forall2 from args args' -> from (RSequence args id) (RSequence args' id')
| from_separate : forall r r' b b' o t id id', from r r' -> from b b' -> from (RSeparateBy r b o t id) (RSeparateBy r' b' o t id')
| from_repeat : forall r r' o id id', from r r' -> from (RRepeat r o id) (RRepeat r' o id')
| from_lines : forall r r' o id id', from r r' -> from (RLines r o id) (RLines r' o id')
| from_optional : forall r r' id id', from r r' -> from (ROptional r id) (ROptional r' id')
| from_not : forall r r' id id', from r r' -> from (RNot r id) (RNot r' id').

Lemma alt_shape refs r args a ms : alternatives r args -> In a args -> shape refs a ms -> shape refs r ms.
Proof. destruct 1; intros; [eapply sh_select|eapply sh_fast]; eassumption. Qed.

Lemma from_shape refs refs' : Forall2 from refs refs' -> forall r' ms, shape refs' r' ms -> forall r, from r r' -> shape refs r ms.
Proof.
  intros Hrefs r' ms H. induction H; intros r0 Hf.
  all: try (inversion Hf; subst; [|match goal with X : alternatives _ _ |- _ => inversion X end]; auto 3 using sh_whitespace, sh_tag, sh_until, sh_until_ws, sh_text, sh_number; fail).
  (* sequence *)
  - inversion Hf as [|? ? ? ? ? Ha| ? ? ? ? HF| | | | |]; subst; [apply sh_sequence_none|inversion Ha|]. inversion HF; subst. apply sh_sequence_none.
  - inversion Hf as [|? ? ? ? ? Ha| ? ? ? ? HF| | | | |]; subst; [|inversion Ha|].
    + apply sh_sequence; [apply IHshape1|apply IHshape2]; apply from_same.
    + inversion HF; subst. apply sh_sequence; [apply IHshape1; assumption|apply IHshape2, from_sequence; assumption].
  (* alternatives *)
  - inversion Hf as [|? ? args0 ? Hr0 Ha HF| | | | | |]; subst; [eapply sh_select; [eassumption|apply IHshape, from_same]|].
    inversion Ha; subst. rewrite Forall_forall in HF. destruct (HF _ H) as [Hr|(a & Hin & Hr)]; [auto|]. eapply alt_shape; eauto.
  - inversion Hf as [|? ? args0 ? Hr0 Ha HF| | | | | |]; subst; [eapply sh_fast; [eassumption|apply IHshape, from_same]|].
    inversion Ha; subst. rewrite Forall_forall in HF. destruct (HF _ H) as [Hr|(a & Hin & Hr)]; [auto|]. eapply alt_shape; eauto.
  (* repeat *)
  - inversion Hf as [|? ? ? ? ? Ha| | | | | |]; subst; [|inversion Ha|]; apply sh_repeat_none.
  - inversion Hf as [|? ? ? ? ? Ha| | | | | |]; subst; [|inversion Ha|]; apply sh_repeat_one, IHshape; auto using from_same.
  - inversion Hf as [|? ? ? ? ? Ha| | | | | |]; subst; [|inversion Ha|]; (apply sh_repeat_more; [apply IHshape1|apply IHshape2]); auto using from_same, from_repeat.
  (* lists *)
  - inversion Hf as [|? ? ? ? ? Ha| | | | | |]; subst; [|inversion Ha|]; apply sh_separate_none.
  - inversion Hf as [|? ? ? ? ? Ha| | | | | |]; subst; [|inversion Ha|]; apply sh_separate_one, IHshape; auto using from_same.
  - inversion Hf as [|? ? ? ? ? Ha| | | | | |]; subst; [|inversion Ha|]; (apply sh_separate_trail; [apply IHshape1|apply IHshape2]); auto using from_same.
  - inversion Hf as [|? ? ? ? ? Ha| | | | | |]; subst; [|inversion Ha|];
      (apply sh_separate_more; [apply IHshape1|apply IHshape2|apply IHshape3]); auto using from_same, from_separate.
  (* lines *)
  - inversion Hf as [|? ? ? ? ? Ha| | | | | |]; subst; [|inversion Ha|]; apply sh_lines_none.
  - inversion Hf as [|? ? ? ? ? Ha| | | | | |]; subst; [|inversion Ha|]; (apply sh_lines_more; [apply IHshape1|apply IHshape2]); auto using from_same, from_lines.
  (* references *)
  - inversion Hf as [|? ? ? ? ? Ha| | | | | |]; subst; [|inversion Ha].
    assert (Hi : exists r0, nth_error refs i = Some r0 /\ from r0 r).
    { clear - Hrefs H. revert i H. induction Hrefs as [|x y l l' Hxy Hl IH]; intros [|i] H; try discriminate; [|exact (IH i H)].
      injection H as <-. exists x. split; [reflexivity|exact Hxy]. }
    destruct Hi as (r0 & Hi & Hr). apply sh_node with (r := r0); auto.
  (* optional and not *)
  - inversion Hf as [|? ? ? ? ? Ha| | | | | |]; subst; [|inversion Ha|]; apply sh_optional_none.
  - inversion Hf as [|? ? ? ? ? Ha| | | | | |]; subst; [|inversion Ha|]; apply sh_optional, IHshape; auto using from_same.
  - inversion Hf as [|? ? ? ? ? Ha| | | | | |]; subst; [|inversion Ha|]; apply sh_not.
Qed.

Lemma optimize_from fuel refs r : forall r', optimize_rule fuel refs r = Done r' -> from r r'.
Proof.
  induction r as [r IH] using rule_ind'. intros r' H.
  assert (HF : forall l l', (forall c, In c l -> In c (children r)) -> Forall2 (fun r r' => optimize_rule fuel refs r = Done r') l l' -> Forall2 from l l').
  { intros l l' Hin Hl. induction Hl as [|x y l l' Hxy Hl IHl]; constructor; [apply IH; [apply Hin; left; reflexivity|exact Hxy]|].
    apply IHl. intros c Hc. apply Hin. right. exact Hc. }
  assert (HA : forall l l', Forall2 from l l' -> forall a', In a' l' -> exists a, In a l /\ from a a').
  { clear. induction 1 as [|x y l l' Hxy Hl IHl]; intros a' Ha; [contradiction|]. destruct Ha as [<-|Ha]; [exists x; split; [left; reflexivity|exact Hxy]|].
    destruct (IHl _ Ha) as (a & Hin & Hf). exists a. split; [right; exact Hin|exact Hf]. }
  destruct r; try (injection H as <-; apply from_same).
  - apply opt_select_cases in H as (table & up & args' & Ht & Ha & ->).
    apply HF in Ha; [|auto]. specialize (HA _ _ Ha).
    destruct (up <? 2); [|destruct (up <? length args)].
    + eapply from_alt; [constructor|constructor|]. apply Forall_forall. auto.
    + eapply from_alt; [constructor|constructor|]. apply Forall_forall. intros a' Hin. apply in_app_or in Hin. destruct Hin as [Hin|[<-|[]]].
      * right. apply HA. rewrite <- (firstn_skipn up args'). apply in_or_app. auto.
      * left. eapply from_alt; [constructor|constructor|]. apply Forall_forall. intros a' Hin. right. apply HA.
        rewrite <- (firstn_skipn up args'). apply in_or_app. auto.
    + eapply from_alt; [constructor|constructor|]. apply Forall_forall. auto.
  - cbn [optimize_rule] in H. destruct (map_o _ _) as [args'| |] eqn:Hm; try discriminate. injection H as <-. apply map_o_done in Hm.
    apply from_sequence, HF; [auto|exact Hm].
  - cbn [optimize_rule] in H. destruct (optimize_rule fuel refs r1) as [a| |] eqn:H1; try discriminate. cbn [obind] in H.
    destruct (optimize_rule fuel refs r2) as [b| |] eqn:H2; try discriminate. injection H as <-.
    apply from_separate; apply IH; simpl; auto.
  - cbn [optimize_rule] in H. destruct (optimize_rule fuel refs r) as [a| |] eqn:H1; try discriminate. injection H as <-. apply from_repeat, IH; simpl; auto.
  - cbn [optimize_rule] in H. destruct (optimize_rule fuel refs r) as [a| |] eqn:H1; try discriminate. injection H as <-. apply from_lines, IH; simpl; auto.
  - cbn [optimize_rule] in H. destruct (optimize_rule fuel refs r) as [a| |] eqn:H1; try discriminate. injection H as <-. apply from_optional, IH; simpl; auto.
  - cbn [optimize_rule] in H. destruct (optimize_rule fuel refs r) as [a| |] eqn:H1; try discriminate. injection H as <-. apply from_not, IH; simpl; auto.
Qed.

Lemma Forall2_snoc {A B} (P : A -> B -> Prop) l l' x : Forall2 P (l ++ [x]) l' -> exists m y, l' = m ++ [y] /\ P x y.
Proof.
  intros H. apply Forall2_app_inv_l in H. destruct H as (m & y & H1 & H2 & ->). inversion H2 as [|? z ? ? Hxy Hn]; subst.
  inversion Hn; subst. eauto.
Qed.

Theorem optimized_shape E (HE : ext_ok E) s s' text tokens ind r : optimize_returns s s' -> start_rule s r -> forall new,
  parse_returns E s' text tokens ind None (tokens ++ new) -> shape (s_rules s) r (map snd new).
Proof.
  intros [fuel Ho] [rules Hr] new H. apply optimize_inv in Ho as [_ Ho].
  assert (Hf : Forall2 from (s_rules s) (s_rules s')).
  { clear - Ho. revert Ho. generalize (s_rules s) at 1 as refs. intros refs Ho. induction Ho; constructor; [eapply optimize_from; eassumption|assumption]. }
  pose proof Hf as Hl. rewrite Hr in Hl. apply Forall2_snoc in Hl. destruct Hl as (rules' & r' & Hr' & Hrr).
  eapply from_shape; [exact Hf| |exact Hrr]. eapply parse_shape; [exact HE|exists rules'; exact Hr'|exact H].
Qed.

(** ** Nodes *)

Definition ends (u : list metadata) : Prop := match u with [] => True | EndNode _ :: _ => True | _ => False end.

Lemma flat_first t : good t -> match flat t with [] => False | EndNode _ :: _ => False | _ => True end.
Proof. destruct t as [[]|]; cbn; auto. Qed.

Lemma flat_inj : forall k ts ts' u u', length (flat_map flat ts) <= k -> Forall good ts -> Forall good ts' -> ends u -> ends u' ->
  flat_map flat ts ++ u = flat_map flat ts' ++ u' -> ts = ts' /\ u = u'.
Proof.
  induction k as [k IH] using lt_wf_ind. intros ts ts' u u' Hk Hg Hg' Hu Hu' H.
  destruct ts as [|t ts], ts' as [|t' ts'].
  - auto.
  - exfalso. apply Forall_cons_iff in Hg'. destruct Hg' as [Ht _]. apply flat_first in Ht. cbn in H. rewrite <- app_assoc in H.
    destruct (flat t') as [|m l]; [exact Ht|]. rewrite H in Hu. cbn in Hu. destruct m; auto.
  - exfalso. apply Forall_cons_iff in Hg. destruct Hg as [Ht _]. apply flat_first in Ht. cbn in H. rewrite <- app_assoc in H.
    destruct (flat t) as [|m l]; [exact Ht|]. rewrite <- H in Hu'. cbn in Hu'. destruct m; auto.
  - apply Forall_cons_iff in Hg. destruct Hg as [Ht Hg]. apply Forall_cons_iff in Hg'. destruct Hg' as [Ht' Hg'].
    cbn [flat_map] in *. rewrite app_length in Hk. rewrite <- !app_assoc in H.
    destruct t as [m|n ks], t' as [m'|n' ks'].
    + cbn in H. injection H as <- H. destruct (IH (k - 1) ltac:(cbn in Hk; lia) ts ts' u u' ltac:(cbn in Hk; lia) Hg Hg' Hu Hu' H) as [-> ->]. auto.
    + cbn in H. injection H as -> H. contradiction Ht.
    + cbn in H. injection H as <- H. contradiction Ht'.
    + cbn [flat] in *. cbn [app] in H. injection H as <- H. rewrite <- !app_assoc in H. cbn [length] in Hk. rewrite app_length in Hk. cbn in Hk.
      apply good_tree in Ht. apply good_tree in Ht'.
      destruct (IH (k - 1) ltac:(lia) ks ks' ([EndNode n] ++ flat_map flat ts ++ u) ([EndNode n] ++ flat_map flat ts' ++ u') ltac:(lia) Ht Ht' I I H) as [-> H2].
      apply app_inv_head in H2. destruct (IH (k - 1) ltac:(lia) ts ts' u u' ltac:(lia) Hg Hg' Hu Hu' H2) as [-> ->]. auto.
Qed.

Lemma flat_one ts ts' : Forall good ts -> Forall good ts' -> flat_map flat ts = flat_map flat ts' -> ts = ts'.
Proof.
  intros Hg Hg' H. apply (flat_inj _ ts ts' [] [] (le_n _) Hg Hg' I I). rewrite H. reflexivity.
Qed.

Lemma flat_split a b ts : nested a -> nested b -> Forall good ts -> flat_map flat ts = a ++ b ->
  exists t1 t2, ts = t1 ++ t2 /\ Forall good t1 /\ Forall good t2 /\ flat_map flat t1 = a /\ flat_map flat t2 = b.
Proof.
  intros Ha Hb Hg H. destruct (nested_trees _ Ha) as (t1 & G1 & <-). destruct (nested_trees _ Hb) as (t2 & G2 & <-).
  exists t1, t2. split; [|auto]. apply flat_one; [exact Hg|apply Forall_app; auto|]. rewrite flat_map_app. exact H.
Qed.

Lemma shape_nested refs r ms : shape refs r ms -> nested ms.
Proof.
  induction 1; auto using nested_nil, nested_app; try (destruct property; cbn; [apply nested_leaf; [exact I|constructor]|constructor]).
  destruct property; cbn; [apply nested_node with (rest := []); [assumption|constructor]|assumption].
Qed.

Lemma below_app t a b : below t (a ++ b) -> below t a \/ below t b.
Proof.
  intros H. inversion H as [? Hin|n ks ? Hin Hb]; subst; apply in_app_or in Hin; destruct Hin; [left|right|left|right]; solve [apply below_here; assumption|eapply below_in; eassumption].
Qed.

(** The rule that made a node. *)
Definition made_node (refs : list rule) (r : rule) (p : str) (ks : list tree) : Prop :=
  exists name i id r', (occurs_in (RNode name (Some p) (Some i) id) r \/ exists top, In top refs /\ occurs_in (RNode name (Some p) (Some i) id) top) /\
    nth_error refs i = Some r' /\ shape refs r' (flat_map flat ks).

Lemma made_child refs r c p ks : In c (children r) -> made_node refs c p ks -> made_node refs r p ks.
Proof.
  intros Hc (name & i & id & r' & Ho & H). exists name, i, id, r'. split; [|exact H]. destruct Ho as [Ho|Ho]; [left|right; exact Ho].
  eapply occurs_below; eassumption.
Qed.

Lemma shape_below refs r ms : shape refs r ms -> forall ts, Forall good ts -> flat_map flat ts = ms ->
  forall p ks, below (Tree p ks) ts -> made_node refs r p ks.
Proof.
  assert (Hnil : forall ts, Forall good ts -> flat_map flat ts = [] -> forall t, ~ below t ts).
  { intros ts Hg H t Hb. rewrite (flat_one ts [] Hg (Forall_nil _) H) in Hb. inversion Hb as [? Hin|? ? ? Hin]; inversion Hin. }
  assert (Hleaf : forall ts property mk, (forall n, leaf (mk n)) -> Forall good ts -> flat_map flat ts = item_of property mk -> forall p ks, ~ below (Tree p ks) ts).
  { intros ts property mk Hm Hg H p ks Hb. destruct property as [n|]; [|exact (Hnil _ Hg H _ Hb)].
    rewrite (flat_one ts [Leaf (mk n)] Hg) in Hb; [|repeat constructor; apply Hm|exact H].
    inversion Hb as [? Hin|? ? ? Hin]; destruct Hin as [Hin|[]]; discriminate. }
  assert (Hcat : forall a b, nested a -> nested b -> forall ts, Forall good ts -> flat_map flat ts = a ++ b -> forall t, below t ts ->
    exists ts', Forall good ts' /\ below t ts' /\ (flat_map flat ts' = a \/ flat_map flat ts' = b)).
  { intros a b Ha Hb ts Hg H t Ht. destruct (flat_split a b ts Ha Hb Hg H) as (t1 & t2 & -> & G1 & G2 & F1 & F2).
    apply below_app in Ht. destruct Ht; eauto. }
  intros H. induction H; intros ts Hg Ht p ks Hb.
  all: try (exfalso; eapply Hnil; eassumption).
  all: try (exfalso; eapply Hleaf; [|eassumption|eassumption|eassumption]; intros; exact I).
  - eapply Hcat in Hb; try eassumption; eauto using shape_nested. destruct Hb as (ts' & Hg' & Hb & [He|He]).
    + eapply made_child; [left; reflexivity|]. eauto.
    + destruct (IHshape2 ts' Hg' He p ks Hb) as (name & i & id' & r' & Ho & H1). exists name, i, id', r'. split; [|exact H1].
      destruct Ho as [Ho|Ho]; [left|right; exact Ho]. inversion Ho as [|? c Hc Hoc]; subst. eapply occurs_below; [|exact Hoc]. right. exact Hc.
  - eapply made_child; [|eauto]. assumption.
  - eapply made_child; [|eauto]. assumption.
  - eapply made_child; [left; reflexivity|eauto].
  - eapply Hcat in Hb; try eassumption; eauto using shape_nested. destruct Hb as (ts' & Hg' & Hb & [He|He]).
    + eapply made_child; [left; reflexivity|]. eauto.
    + eauto.
  - eapply made_child; [left; reflexivity|eauto].
  - eapply Hcat in Hb; try eassumption; eauto using shape_nested. destruct Hb as (ts' & Hg' & Hb & [He|He]).
    + eapply made_child; [left; reflexivity|]. eauto.
    + eapply made_child; [right; left; reflexivity|]. eauto.
  - eapply Hcat in Hb; try eassumption; eauto using shape_nested, nested_app. destruct Hb as (ts' & Hg' & Hb & [He|He]).
    + eapply made_child; [left; reflexivity|]. eauto.
    + eapply Hcat in Hb; try eassumption; eauto using shape_nested. destruct Hb as (ts2 & Hg2 & Hb & [He2|He2]).
      * eapply made_child; [right; left; reflexivity|]. eauto.
      * destruct (IHshape3 ts2 Hg2 He2 p ks Hb) as (name & i & id' & r' & Ho & H2). exists name, i, id', r'. split; [|exact H2].
        destruct Ho as [Ho|Ho]; [left|right; exact Ho]. inversion Ho as [|? c' Hc Hoc]; subst. eapply occurs_below; [|exact Hoc]. exact Hc.
  - eapply Hcat in Hb; try eassumption; eauto using shape_nested. destruct Hb as (ts' & Hg' & Hb & [He|He]).
    + eapply made_child; [left; reflexivity|]. eauto.
    + eauto.
  - destruct property as [n|]; cbn [node_around] in Ht.
    + destruct (nested_trees ms (shape_nested _ _ _ H0)) as (kids & Gk & Hk).
      assert (ts = [Tree n kids]).
      { apply flat_one; [exact Hg| |rewrite Ht; cbn; rewrite Hk, app_nil_r; reflexivity]. constructor; [|constructor]. apply good_tree, Gk. }
      subst ts. inversion Hb as [? Hin|n' ks' ? Hin Hb']; subst.
      * destruct Hin as [Hin|[]]. injection Hin as -> ->. exists name, i, id, r. split; [left; apply occurs_here|auto].
      * destruct Hin as [Hin|[]]. injection Hin as <- <-. destruct (IHshape kids Gk eq_refl p ks Hb') as (nm & j & id' & r' & Ho & H2).
        exists nm, j, id', r'. split; [|exact H2]. right. destruct Ho as [Ho|Ho]; [|exact Ho]. exists r. split; [eapply nth_error_In; eassumption|exact Ho].
    + destruct (IHshape ts Hg Ht p ks Hb) as (nm & j & id' & r' & Ho & H2).
      exists nm, j, id', r'. split; [|exact H2]. right. destruct Ho as [Ho|Ho]; [|exact Ho]. exists r. split; [eapply nth_error_In; eassumption|exact Ho].
  - eapply made_child; [left; reflexivity|eauto].
Qed.

Theorem parse_nodes E (HE : ext_ok E) s text tokens ind new ts : parse_returns E s text tokens ind None (tokens ++ new) ->
  Forall good ts -> map snd new = flat_map flat ts -> forall p ks, below (Tree p ks) ts ->
  exists name i id r, occurs s (RNode name (Some p) (Some i) id) /\ nth_error (s_rules s) i = Some r /\ shape (s_rules s) r (flat_map flat ks).
Proof.
  intros H Hg Hd p ks Hb. pose proof H as Ha. apply (parse_accepts E HE) in Ha. destruct Ha as (out & Ha & _). destruct Ha as [r out ind' tr Hr _].
  destruct (shape_below _ _ _ (parse_shape E HE s text tokens ind r Hr new H) ts Hg (eq_sym Hd) p ks Hb) as (name & i & id & r' & Ho & H1).
  exists name, i, id, r'. split; [|exact H1]. destruct Ho as [Ho|Ho]; [|exact Ho]. exists r. split; [|exact Ho].
  destruct Hr as [rules Hr]. rewrite Hr. apply in_or_app. right. left. reflexivity.
Qed.

Theorem parse_trees E (HE : ext_ok E) s text tokens ind new : parse_returns E s text tokens ind None (tokens ++ new) ->
  exists ts, (Forall good ts /\ map snd new = flat_map flat ts) /\
    (forall ts', Forall good ts' -> map snd new = flat_map flat ts' -> ts' = ts) /\
    (forall p ks, below (Tree p ks) ts -> exists name i id r,
       occurs s (RNode name (Some p) (Some i) id) /\ nth_error (s_rules s) i = Some r /\ shape (s_rules s) r (flat_map flat ks)).
Proof.
  intros H. pose proof H as Ha. apply (parse_accepts E HE) in Ha. destruct Ha as (out & Ha & _). destruct Ha as [r out ind' tr Hr _].
  pose proof (shape_nested _ _ _ (parse_shape E HE s text tokens ind r Hr new H)) as Hn.
  destruct (nested_trees _ Hn) as (ts & Hg & Ht). exists ts. split; [auto|]. split.
  - intros ts' Hg' Ht'. apply flat_one; [exact Hg'|exact Hg|congruence].
  - intros p ks Hb. eapply parse_nodes; eauto.
Qed.
