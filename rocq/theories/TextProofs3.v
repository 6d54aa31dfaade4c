(** Reading what is written: rules without lists. *)
From Coq Require Import Ascii String List NArith Bool Arith Lia.
From Verif Require Import Base Ext Types ParseModel BootstrapRules PegSpec PrimProofs LinesProofs JsonSpec
  ConvertSpec WriteSpec OnceProofs TextSpec TextProofs TextProofs2.
Import ListNotations.
Local Open Scope string_scope.
Local Open Scope list_scope.
Local Open Scope nat_scope.

Section Reading.
  Variable E : ext.
  Hypothesis HE : ext_ok E.
  Variable lit : str -> str -> Prop.
  Hypothesis HL : forall v t, lit v t -> literal E v t.
  Variable ss : list (str * str).

  Notation good := (good E). Notation bad := (bad E). Notation goods := (goods E). Notation bads := (bads E).

  Lemma goods_last r ok t P : good r ok t P -> goods [r] ok t P.
  Proof.
    intros H. rewrite <- (app_nil_r t). eapply goods_weaken.
    - eapply goods_cons; [exact H|apply goods_nil|intros rest Hr; exact Hr].
    - auto.
    - intros d (a & b & -> & Ha & ->). rewrite app_nil_r. exact Ha.
  Qed.

  (** The data write the rule, wherever the numbering starts. *)
  Definition writes (r : rule) (d : list tok) : Prop :=
    forall lo, ubody ss lo d (fst (number lo r)) (snd (number lo r)).

  Definition RULE : rule := Eval vm_compute in nth 21 boot (RSelect [] 0).

  Definition written_rule (p : str) (r : rule) (d : list tok) : Prop :=
    exists inner, writes r inner /\ node_of p inner d.

  Lemma written_urule p r d lo : written_rule p r d -> urule ss p lo d (fst (number lo r)) (snd (number lo r)).
  Proof. intros (inner & Hw & Hn). econstructor; [apply Hw|exact Hn]. Qed.

  Lemma good_rule_node name p id r t : good RULE follows t (writes r) ->
    good (RNode name (Some p) (Some 21) id) follows t (written_rule p r).
  Proof. intros H. eapply good_weaken; [eapply good_node; [reflexivity|exact H]|auto|auto]. Qed.

  Lemma mtext_head b v t : mtext lit (defined ss) b v t -> exists t', t = quote :: t' \/ t = 95%N :: t'.
  Proof.
    intros [v' t' Hq _|v' n _ _]; [|eexists; right; reflexivity].
    destruct (HL _ _ Hq) as ((c & ->) & _). eexists. left. reflexivity.
  Qed.

  Lemma mrule_head r t : mrule lit (defined ss) r t -> exists c t', t = c :: t' /\ ~ white c /\
    (~ positive_tag r -> c <> quote /\ c <> 95%N).
  Proof.
    assert (Hw : forall c, is_ws c = false -> ~ white c) by (intros c H1 H2; unfold white in H2; congruence).
    intros H. destruct H; cbn [s2l app N_of_ascii N_of_digits N.add N.mul];
      try (eexists _, _; split; [reflexivity|]; split; [apply Hw; reflexivity|intros _; split; discriminate]).
    - destruct H as [[Hne Hn] Hh]. destruct name as [|c name]; [contradiction|].
      inversion Hn as [|? ? [Hcw Hcs]]; subst. exists c, (name ++ tp). split; [reflexivity|]. split; [exact Hcw|].
      intros _. split; intros ->; [apply Hcs; cbn; auto 20|apply Hh; reflexivity].
    - destruct n; cbn [sign app].
      + eexists _, _. split; [reflexivity|]. split; [apply Hw; reflexivity|split; discriminate].
      + destruct (mtext_head _ _ _ H) as (t' & [-> | ->]); eexists _, _; (split; [reflexivity|]);
          (split; [apply Hw; reflexivity|intros HH; exfalso; apply HH; exact I]).
    - destruct n; cbn [sign app].
      + eexists _, _. split; [reflexivity|]. split; [apply Hw; reflexivity|split; discriminate].
      + destruct (mtext_head _ _ _ H) as (t' & [-> | ->]); eexists _, _; (split; [reflexivity|]);
          (split; [apply Hw; reflexivity|intros HH; exfalso; apply HH; exact I]).
  Qed.

  Lemma mrule_stops r t rest : mrule lit (defined ss) r t -> stops white (t ++ rest).
  Proof. intros H. destruct (mrule_head r t H) as (c & t' & -> & Hc & _). exact Hc. Qed.

  (** ** Alternatives *)

  Ltac alt := eapply bad_node; [reflexivity|]; apply bad_sequence, bads_first, bad_tag; reflexivity.
  Ltac alts := intros; repeat (apply Forall_cons; [try alt|]); [..|apply Forall_nil].

  Lemma wr_flag p b r : wr ss [Flag p b] [(r, MBool p b)].
  Proof. apply wr_one. constructor. Qed.

  Lemma read_whitespace b id : good RULE follows (s2l ".w" ++ mark b) (writes (RWhitespace b id)).
  Proof.
    refine (good_select E [] _ _ _ _ _ _ _ _); [|constructor].
    eapply good_weaken; [eapply good_node; [reflexivity|]; apply good_sequence;
      eapply goods_cons; [apply good_tag; reflexivity|apply goods_last, good_mark|intros; exact I]|intros; exact I|].
    intros d (inner & (a & c & -> & -> & q & ->) & Hn) lo. eapply u_whitespace. exact Hn.
  Qed.

  Lemma mark_stops b rest : stops name_char (mark b ++ rest).
  Proof. destruct b; apply sep_not_name; cbn; auto 20. Qed.

  Ltac fields_ok := repeat constructor; cbn [allowed In]; tauto.
  Ltac told_once := repeat (constructor; [cbn; intuition discriminate|]); constructor.

  Lemma read_until_ws any o p id t tp : mtext lit (defined ss) true any t -> mprop lit (defined ss) p tp ->
    good RULE follows (s2l ".." ++ t ++ mark o ++ tp) (writes (RUntilAnyOrWs any o p id)).
  Proof.
    intros Ht Hp. refine (good_select E [_] _ _ _ _ _ _ _ _); [|alts].
    eapply good_weaken; [eapply good_node; [reflexivity|]; apply good_sequence;
      eapply goods_cons; [apply good_tag; reflexivity| |intros; exact I];
      eapply goods_cons; [apply (good_set E HE lit HL ss 5 true); [right; auto|exact Ht]| |];
      [eapply goods_cons; [apply good_mark|apply goods_last, (good_prop E HE lit HL ss); exact Hp|intros; exact I]
      |intros rest Hr; rewrite <- app_assoc; apply mark_stops]|auto|].
    intros d (inner & (a & c & -> & -> & e & f & -> & He & g & h & -> & (q & ->) & Hh) & Hn) lo.
    cbn [app] in Hn.
    eapply (u_until_any_or_ws ss lo _ ([Text (s2l "any_characters") any; Flag (s2l "optional") o] ++ prop_fields p)) in Hn.
    - destruct p; exact Hn.
    - destruct p; told_once.
    - apply wr_fields; [|destruct p; fields_ok].
      apply (wr_app ss [Text _ _] _ e); [apply wr_one; exact He|].
      apply (wr_app ss [Flag _ _] _ [_]); [apply wr_flag|exact Hh].
    - destruct p; reflexivity.
  Qed.

  Lemma read_until any o p id t tp : mtext lit (defined ss) true any t -> mprop lit (defined ss) p tp ->
    good RULE follows (s2l "..." ++ t ++ mark o ++ tp) (writes (RUntilAny any o p id)).
  Proof.
    intros Ht Hp. refine (good_select E [_; _] _ _ _ _ _ _ _ _).
    2:{ alts. eapply bad_node; [reflexivity|]. apply bad_sequence.
        change ((s2l "..." ++ t ++ mark o ++ tp) ++ rest) with (s2l ".." ++ 46%N :: (t ++ mark o ++ tp) ++ rest).
        eapply bads_next with (ok := fun _ => True); [apply good_tag; reflexivity|exact I|].
        apply bads_first, bad_set_node; auto; discriminate. }
    eapply good_weaken; [eapply good_node; [reflexivity|]; apply good_sequence;
      eapply goods_cons; [apply good_tag; reflexivity| |intros; exact I];
      eapply goods_cons; [apply (good_set E HE lit HL ss 5 true); [right; auto|exact Ht]| |];
      [eapply goods_cons; [apply good_mark|apply goods_last, (good_prop E HE lit HL ss); exact Hp|intros; exact I]
      |intros rest Hr; rewrite <- app_assoc; apply mark_stops]|auto|].
    intros d (inner & (a & c & -> & -> & e & f & -> & He & g & h & -> & (q & ->) & Hh) & Hn) lo.
    cbn [app] in Hn.
    eapply (u_until_any ss lo _ ([Text (s2l "any_characters") any; Flag (s2l "optional") o] ++ prop_fields p)) in Hn.
    - destruct p; exact Hn.
    - destruct p; told_once.
    - apply wr_fields; [|destruct p; fields_ok].
      apply (wr_app ss [Text _ _] _ e); [apply wr_one; exact He|].
      apply (wr_app ss [Flag _ _] _ [_]); [apply wr_flag|exact Hh].
    - destruct p; reflexivity.
  Qed.

  (** An optional sign that gives a flag. *)
  Lemma good_sign b c id1 id2 (name : str) :
    good (ROptional (RTag [c] false false (Some name) id1) id2)
      (fun s => b = true \/ is_prefix [c] s = false) (sign b [c])
      (wr ss (if b then [Flag name true] else [])).
  Proof.
    destruct b; cbn [sign].
    - eapply good_weaken; [apply good_option, (good_tag_prop E); reflexivity|intros; exact I|].
      intros d (r & ->). apply wr_flag.
    - eapply good_weaken; [apply (good_option_none E) with (ok := fun s => is_prefix [c] s = false)|
        intros s [H|H]; [discriminate|exact H]|intros d ->; apply wr_nil].
      intros rest Hr. apply bad_tag. exact Hr.
  Qed.

  Lemma read_lines r i id w1 t w2 : Forall white w1 -> Forall white w2 -> mrule lit (defined ss) r t ->
    good RULE follows t (writes r) ->
    good RULE follows (s2l ".l" ++ sign i (s2l "+") ++ s2l "(" ++ w1 ++ t ++ w2 ++ s2l ")") (writes (RLines r i id)).
  Proof.
    intros Hw1 Hw2 Hm Hr. refine (good_select E [_; _; _] _ _ _ _ _ _ _ _); [|alts].
    eapply good_weaken; [eapply good_node; [reflexivity|]; apply good_sequence;
      eapply goods_cons; [apply good_tag; reflexivity| |intros; exact I];
      eapply goods_cons; [apply good_sign| |];
      [eapply goods_cons; [apply good_tag; reflexivity| |intros; exact I];
       eapply goods_cons; [apply good_white; [exact Hw1|left; reflexivity]| |intros; rewrite <- app_assoc; apply (mrule_stops r); exact Hm];
       eapply goods_cons; [apply good_rule_node; exact Hr| |];
       [eapply goods_cons; [apply good_white; [exact Hw2|left; reflexivity]|apply goods_last, good_tag; reflexivity|
          intros rest _ HH; vm_compute in HH; discriminate HH]
       |intros rest _; rewrite <- app_assoc; apply follows_white; [exact Hw2|right; left; reflexivity]]
      |intros rest _; right; reflexivity]|intros; exact I|].
    intros d (inner & (a1 & b1 & -> & -> & a2 & b2 & -> & Hf & a3 & b3 & -> & -> & a4 & b4 & -> & -> &
      a5 & b5 & -> & Hru & a6 & b6 & -> & -> & ->) & Hn) lo.
    cbn [app] in Hn. rewrite app_nil_r in Hn. apply (written_urule _ _ _ lo) in Hru.
    cbn [number]. destruct (number lo r) as [r' hi] eqn:Hnum. cbn [fst snd] in *.
    destruct i; destruct Hf as (items & -> & Hf).
    - inversion Hf as [|? ? ? ? H1 H2]; subst. inversion H2; subst. inversion H1; subst.
      eapply u_lines_indent; [exact Hru|exact Hn].
    - inversion Hf; subst. eapply u_lines; [exact Hru|exact Hn].
  Qed.

  Lemma read_repeat r o id t : good RULE follows t (writes r) ->
    good RULE follows (s2l ".r" ++ mark o ++ s2l "(" ++ t ++ s2l ")") (writes (RRepeat r o id)).
  Proof.
    intros Hr. refine (good_select E [_; _; _; _] _ _ _ _ _ _ _ _); [|alts].
    eapply good_weaken; [eapply good_node; [reflexivity|]; apply good_sequence;
      eapply goods_cons; [apply good_tag; reflexivity| |intros; exact I];
      eapply goods_cons; [apply good_mark| |intros; exact I];
      eapply goods_cons; [apply good_tag; reflexivity| |intros; exact I];
      eapply goods_cons; [apply good_rule_node; exact Hr|apply goods_last, good_tag; reflexivity|
        intros rest _; right; left; reflexivity]|intros; exact I|].
    intros d (inner & (a1 & b1 & -> & -> & a2 & b2 & -> & (q & ->) & a3 & b3 & -> & -> & a4 & b4 & -> & Hru & ->) & Hn) lo.
    cbn [app] in Hn. rewrite app_nil_r in Hn. apply (written_urule _ _ _ lo) in Hru.
    cbn [number]. destruct (number lo r) as [r' hi] eqn:Hnum. cbn [fst snd] in *.
    eapply (u_repeat ss lo _ [Flag (s2l "optional") o]) with (before := [_]); [|exact Hru|reflexivity|exact Hn].
    apply wr_fields; [apply wr_flag|fields_ok].
  Qed.

  Lemma read_number u p id tp : mprop lit (defined ss) p tp ->
    good RULE follows (s2l ".$" ++ sign u (s2l "_") ++ tp) (writes (RNumber u p id)).
  Proof.
    intros Hp. refine (good_select E [_; _; _; _; _] _ _ _ _ _ _ _ _); [|alts].
    eapply good_weaken; [eapply good_node; [reflexivity|]; apply good_sequence;
      eapply goods_cons; [apply good_tag; reflexivity| |intros; exact I];
      eapply goods_cons; [apply good_sign|apply goods_last, (good_prop E HE lit HL ss); exact Hp|]|auto|].
    - intros rest Hr. right. destruct Hp; [prefix_false|reflexivity].
    - intros d (inner & (a1 & b1 & -> & -> & a2 & b2 & -> & H2 & H3) & Hn) lo. cbn [app] in Hn.
      eapply (u_number ss lo _ ((if u then [Flag (s2l "underscore") true] else []) ++ prop_fields p)) in Hn.
      + destruct u, p; exact Hn.
      + destruct u, p; told_once.
      + apply wr_fields; [apply wr_app; assumption|destruct u, p; fields_ok].
  Qed.

  Lemma read_text b p id tp : mprop lit (defined ss) p tp ->
    good RULE follows (s2l ".t" ++ mark b ++ tp) (writes (RText b p id)).
  Proof.
    intros Hp. refine (good_select E [_; _; _; _; _; _] _ _ _ _ _ _ _ _); [|alts].
    assert (Hm : forall id1 id2 id3, good (RSelect [RTag [63%N] false false (Some (s2l "allow_empty")) id1;
      RTag [33%N] false true (Some (s2l "allow_empty")) id2] id3) (fun _ => True) (mark b)
      (fun d => exists r, d = [(r, MBool (s2l "allow_empty") b)])).
    { intros. destruct b.
      - refine (good_select E [] _ _ _ _ _ _ _ _); [apply (good_tag_prop E); reflexivity|constructor].
      - refine (good_select E [_] _ _ _ _ _ _ _ _); [apply (good_tag_prop E); reflexivity|].
        intros. constructor; [|constructor]. apply bad_tag. reflexivity. }
    eapply good_weaken; [eapply good_node; [reflexivity|]; apply good_sequence;
      eapply goods_cons; [apply good_tag; reflexivity| |intros; exact I];
      eapply goods_cons; [apply Hm|apply goods_last, (good_prop E HE lit HL ss); exact Hp|intros; exact I]|auto|].
    intros d (inner & (a1 & b1 & -> & -> & a2 & b2 & -> & (q & ->) & H3) & Hn) lo. cbn [app] in Hn.
    eapply (u_text ss lo _ ([Flag (s2l "allow_empty") b] ++ prop_fields p)) in Hn.
    + destruct p; exact Hn.
    + destruct p; told_once.
    + apply wr_fields; [apply (wr_app ss [Flag _ _] _ [_]); [apply wr_flag|exact H3]|destruct p; fields_ok].
  Qed.

  Lemma read_reference name p id tp : is_rule_name name -> mprop lit (defined ss) p tp ->
    good RULE follows (name ++ tp) (writes (RNode name p None id)).
  Proof.
    intros [[Hne Hn] Hh] Hp. assert (Hnm : is_name name) by (split; assumption).
    destruct name as [|c name]; [contradiction|]. inversion Hn as [|? ? [Hcw Hcs] _]; subst.
    assert (Hdot : c <> 46%N) by (intros ->; apply Hcs; cbn; auto 20).
    refine (good_select E [_; _; _; _; _; _; _] _ _ _ _ _ _ _ _).
    2:{ intros. repeat (apply Forall_cons; [eapply bad_node; [reflexivity|]; apply bad_sequence, bads_first, bad_tag;
          apply prefix_head; cbn; congruence|]). apply Forall_nil. }
    change ((c :: name) ++ tp) with ([] ++ [] ++ (c :: name) ++ tp).
    eapply good_weaken; [eapply good_node; [reflexivity|]; apply good_sequence;
      eapply goods_cons; [apply good_not_tag with (ok := fun s => is_prefix [95%N] s = false); auto| |];
      [eapply goods_cons; [apply good_not_tag with (ok := fun s => is_prefix [46%N] s = false); auto| |];
       [eapply goods_cons; [apply (good_name E (s2l "name") _ (c :: name) Hnm)|apply goods_last, (good_prop E HE lit HL ss); exact Hp|]
       |]|]|auto|].
    - intros rest Hr. apply (prop_stops lit ss p tp rest Hp Hr).
    - intros rest Hr. apply prefix_head. cbn. congruence.
    - intros rest Hr. apply prefix_head. cbn [app hd_error]. exact Hh.
    - intros d (inner & (a1 & b1 & -> & -> & a2 & b2 & -> & -> & a3 & b3 & -> & (q & ->) & H3) & Hnode) lo.
      cbn [app] in Hnode.
      eapply (u_reference ss lo _ ([Name (s2l "name") (c :: name)] ++ prop_fields p)) in Hnode.
      + destruct p; exact Hnode.
      + destruct p; told_once.
      + apply wr_fields; [apply (wr_app ss [Name _ _] _ [_]); [apply wr_one; constructor|exact H3]|destruct p; fields_ok].
      + destruct p; reflexivity.
  Qed.
End Reading.
