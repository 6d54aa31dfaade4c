(** Errors tell the truth. *)
From Coq Require Import List NArith Bool Arith Lia.
From Verif Require Import Base Ext Types PegSpec DataSpec ApiSpec PegProofs ParsePublic ConvertSpec TruthSpec.
Import ListNotations.

Section Truth.
  Variable E : ext.
  Variable s0 : syntax.
  Variable text : str.

  Notation refs := (s_rules s0).

  Definition good (e : perr) : Prop := exists r, used s0 r /\ explains E refs text r (fst e) (snd e).

  Lemma at_later p n s : s = skipn p text -> skipn n s = skipn (p + n) text.
  Proof. intros ->. apply skipn_add. Qed.

  Lemma good_one r e : used s0 r -> explains E refs text r (fst e) (snd e) -> Forall good [e].
  Proof. intros H1 H2. constructor; [exists r; auto|constructor]. Qed.

  Lemma all_good :
    (forall r ind p s v ind' tr, reads E refs r ind p s v ind' tr ->
       used s0 r -> s = skipn p text -> Forall good tr) /\
    (forall l ind p s v ind' tr, reads_seq E refs l ind p s v ind' tr ->
       Forall (used s0) l -> s = skipn p text -> Forall good tr) /\
    (forall l ind p s v ind' tr, reads_first E refs l ind p s v ind' tr ->
       Forall (used s0) l -> s = skipn p text -> Forall good tr) /\
    (forall r ind p s k n out ind' tr, reads_many E refs r ind p s k n out ind' tr ->
       used s0 r -> s = skipn p text -> Forall good tr) /\
    (forall r b t ind p s v ind' tr, reads_more E refs r b t ind p s v ind' tr ->
       used s0 r -> used s0 b -> s = skipn p text -> Forall good tr) /\
    (forall r i id fr nl ind p s v ind' tr, reads_lines E refs r i id fr nl ind p s v ind' tr ->
       used s0 (RLines r i id) -> s = skipn p text -> Forall good tr) /\
    (forall r i fr ind p s v fr' ind' tr, reads_line E refs r i fr ind p s v fr' ind' tr ->
       used s0 r -> s = skipn p text -> Forall good tr).
  Proof.
    assert (Hall : forall r, used s0 r -> Forall (used s0) (children r)).
    { intros r Hr. apply Forall_forall. intros c Hc. exact (used_part _ _ _ Hr Hc). }
    apply reads_mutind; intros; try (constructor; fail);
      try (eapply good_one; [eassumption|subst; constructor; assumption]);
      try (match goal with
           | IH : ?a -> _ -> Forall good ?tr |- Forall good ?tr => apply IH; [|assumption]
           end; eapply used_part; [eassumption|left; reflexivity]).
    all: repeat match goal with
      | |- Forall good (_ ++ _) => apply Forall_app; split
      | H : Forall (used s0) (_ :: _) |- _ => apply Forall_cons_iff in H; destruct H
      end.
    all: try (match goal with
      | IH : _ -> _ -> Forall good ?tr |- Forall good ?tr => apply IH
      | IH : _ -> _ -> _ -> Forall good ?tr |- Forall good ?tr => apply IH
      end); subst; try assumption; try reflexivity; try (rewrite !skipn_add; reflexivity);
      try (rewrite !skipn_add; f_equal; lia).
    all: try (match goal with H : used s0 ?r |- Forall (used s0) ?l => exact (Hall r H) end).
    all: try (eapply used_part; [eassumption|]; first [left; reflexivity|right; left; reflexivity]).
    all: try (eapply used_reference; eassumption).
    all: try (match goal with
      | H : used s0 (RFastSelect _ _ _ _) |- used s0 _ => eapply used_part; [exact H|]
      end; cbn [children];
      first [eapply nth_error_In; eassumption|apply in_or_app; right; left; reflexivity]).
    - eapply good_one; [eassumption|]. eapply says_bad_text; eassumption.
    - eapply good_one; [eassumption|]. destruct tail.
      + apply says_end. symmetry. assumption.
      + apply says_alternatives. match goal with H : [] = _ |- _ => rewrite <- H end. exact I.
    - eapply good_one; [eassumption|]. apply says_alternatives.
      match goal with H : _ :: _ = _ |- _ => rewrite <- H end. assumption.
    - eapply good_one; [eassumption|]. eapply says_not. eassumption.
  Qed.
End Truth.

(** The error of a text that is not accepted: no rules, an end that is missing, or what a rule
    that is used says about the text. *)
Theorem errors_true E s ind text tokens rng e tokens' :
  parse_returns E s text tokens ind (Some (rng, e)) tokens' ->
  (e = NoRules /\ rng = Rng 0 0 /\ s_rules s = []) \/
  (e = ExpectedEnd /\ r_len rng = 0 /\ r_off rng < length text) \/
  (exists r, used s r /\ explains E (s_rules s) text r rng e).
Proof.
  intros H. apply error_is_newest_deepest in H as [(tr & Hrej) Hn].
  specialize (Hn tr Hrej) as (older & newer & Htr & _).
  assert (Hin : In (rng, e) tr) by (rewrite Htr; apply in_or_app; right; left; reflexivity).
  clear Htr. destruct Hrej as [Hno|r ind' tr Hs Hr|r n out ind' tr Hs Hr Hlt].
  - destruct Hin as [[= <- <-]|[]]. left. auto.
  - right. right. pose proof (proj1 (all_good E s text) _ _ _ _ _ _ _ Hr (used_start _ _ Hs) eq_refl) as Hg.
    rewrite Forall_forall in Hg. exact (Hg _ Hin).
  - apply in_app_or in Hin. destruct Hin as [Hin|[[= <- <-]|[]]].
    + right. right. pose proof (proj1 (all_good E s text) _ _ _ _ _ _ _ Hr (used_start _ _ Hs) eq_refl) as Hg.
      rewrite Forall_forall in Hg. exact (Hg _ Hin).
    + right. left. cbn. auto.
Qed.

(** The debug id of an error. *)
Lemma explains_id E refs text r rng e : explains E refs text r rng e ->
  match e with
  | ExpectedWhitespace id | ExpectedNewLine id | ExpectedSomething id | ExpectedNumber id
  | ParseNumberError id | ExpectedText id | EmptyTextNotAllowed id | ParseStringError _ id
  | ExpectedTag _ id | DidNotExpectTag _ id | InvalidRule _ id => own_id r = id
  | _ => False
  end.
Proof. intros H. destruct H; reflexivity. Qed.

Theorem undefined_error E s ind text tokens rng id tokens' :
  parse_returns E s text tokens ind (Some (rng, InvalidRule NodeNotUpdated id)) tokens' ->
  exists name property, used s (RNode name property None id).
Proof.
  intros H. apply errors_true in H as [(H & _)|[(H & _)|(r & Hu & He)]]; try discriminate.
  inversion He; subst. eauto.
Qed.
