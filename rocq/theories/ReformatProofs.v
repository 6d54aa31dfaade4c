(** C98: white space may be changed. *)
From Coq Require Import Ascii String List NArith Bool Arith Lia.
From Verif Require Import Base Ext Types ParseModel OptimizeModel PegSpec DataSpec ApiSpec OptSpec ExtProofs PegFacts ParseProofs OptPublic
  ParsePublic TotalSpec TotalProofs TotalCheck ShapeSpec GrammarSpec GrammarProofs GrammarCheck GrammarPublic PlaceSpec PlaceProofs PlacePublic
  LinearProofs AheadProofs OccursProofs EditSpec EditProofs ReformatSpec AtEnd Examples.
Import ListNotations.
Local Open Scope string_scope.
Local Open Scope list_scope.
Local Open Scope nat_scope.

(** ** The data of a text lie in it *)

Definition inside (p n : nat) (t : tok) : Prop := p <= r_off (fst t) /\ r_off (fst t) + r_len (fst t) <= p + n.

Lemma inside_more p n q m ts : q <= p -> p + n <= q + m -> Forall (inside p n) ts -> Forall (inside q m) ts.
Proof. intros H1 H2. apply Forall_impl. unfold inside. intros t. lia. Qed.

Lemma inside_token property p n q l f : q <= p -> p + n <= q + l -> Forall (inside q l) (token property (Rng p n) f).
Proof. intros H1 H2. destruct property; [|constructor]. constructor; [|constructor]. unfold inside. cbn. lia. Qed.

Lemma places_inside E refs :
  (forall r p x ts, places E refs r p x ts -> Forall (inside p (length x)) ts) /\
  (forall args p x ts, places_all E refs args p x ts -> Forall (inside p (length x)) ts) /\
  (forall r k p x ts, places_times E refs r k p x ts -> Forall (inside p (length x)) ts) /\
  (forall r by_ trail p x ts, places_more E refs r by_ trail p x ts -> Forall (inside p (length x)) ts).
Proof.
  apply places_mutind; intros; rewrite ?app_length; repeat (apply Forall_app; split); try (apply inside_token; cbn; lia); try constructor; try assumption;
    (eapply inside_more; [| |eassumption]; lia).
Qed.

Section Spaces.
  Variable E : ext.
  Hypothesis HE : ext_ok E.
  Variable syn : syntax.
  Hypothesis Hno : without_lines syn.
  Hypothesis Hst : stores_text syn.
  Local Notation refs := (s_rules syn).

  Definition spaced (p : nat) (s : str) (n : nat) (out : list tok) (G : str -> list tok -> Prop) : Prop :=
    forall k l, k < n -> white_run s k l -> uncovered (p + k) out ->
    k + l <= n /\ forall w, w <> [] -> Forall white w -> exists out', Forall2 (respaced (p + k) l (length w)) out out' /\
      G (firstn k s ++ w ++ skipn (k + l) (firstn n s)) out'.

  Lemma spaced_mono p s n out (G G' : str -> list tok -> Prop) : (forall x ts, G x ts -> G' x ts) -> spaced p s n out G -> spaced p s n out G'.
  Proof.
    intros HG H k l Hk Hr Hu. destruct (H k l Hk Hr Hu) as [H1 H2]. split; [exact H1|]. intros w Hw Hww.
    destruct (H2 w Hw Hww) as (out' & H3 & H4). eauto.
  Qed.

  Lemma spaced_none p s out G : spaced p s 0 out G.
  Proof. intros k l Hk. lia. Qed.

  Lemma same_before o n m p q ts : p + q <= o -> Forall (inside p q) ts -> Forall2 (respaced o n m) ts ts.
  Proof. intros H. induction 1 as [|t ts Ht _ IH]; constructor; [|exact IH]. left. unfold inside in Ht. split; [lia|reflexivity]. Qed.

  Lemma moved_behind o n m d ts : o + n <= d -> Forall2 (respaced o n m) (moved_by d ts) (moved_by (d - n + m) ts).
  Proof.
    intros H. pose proof (adjusted_moved o n m d ts H) as Ha. induction Ha as [|t t' ts1 ts2 Ht _ IH]; constructor; [|exact IH]. right. exact Ht.
  Qed.

  Lemma uncovered_app o a b : uncovered o (a ++ b) -> uncovered o a /\ uncovered o b.
  Proof. intros H. split; intros t Ht; apply H; apply in_or_app; auto. Qed.

  Definition movable (G : nat -> str -> list tok -> Prop) (q : nat) (y : str) (ts : list tok) : Prop :=
    exists d, ts = moved_by q d /\ forall q', G q' y (moved_by q' d).

  Lemma spaced_app p s n out m out2 (G1 : str -> list tok -> Prop) (G2 : nat -> str -> list tok -> Prop) (G : str -> list tok -> Prop) :
    n <= length s -> G1 (firstn n s) out -> Forall (inside p n) out ->
    movable G2 (p + n) (firstn m (skipn n s)) out2 ->
    spaced p s n out G1 -> spaced (p + n) (skipn n s) m out2 (G2 (p + n)) ->
    (forall x u y v, G1 x u -> G2 (p + length x) y v -> G (x ++ y) (u ++ v)) -> spaced p s (n + m) (out ++ out2) G.
  Proof.
    intros Hn H1 Hin (d & -> & Hd) S1 S2 HG k l Hk Hr Hu. apply uncovered_app in Hu as [Hu1 Hu2].
    assert (Hl : length (firstn n s) = n) by (apply firstn_length_le; exact Hn).
    rewrite firstn_after, skipn_app, Hl. destruct (Nat.lt_ge_cases k n) as [Hkn|Hkn].
    - destruct (S1 k l Hkn Hr Hu1) as [A1 A2]. split; [lia|]. intros w Hw Hww. destruct (A2 w Hw Hww) as (out' & A3 & A4).
      replace (k + l - n) with 0 by lia. cbn [skipn].
      set (x' := firstn k s ++ w ++ skipn (k + l) (firstn n s)) in *.
      assert (Hx : length x' = n - l + length w).
      { unfold x'. rewrite !app_length, skipn_length, Hl, firstn_length_le by lia. lia. }
      exists (out' ++ moved_by (p + length x') d). split.
      + apply Forall2_app; [exact A3|]. rewrite Hx. replace (p + (n - l + length w)) with (p + n - l + length w) by lia. apply moved_behind. lia.
      + pose proof (HG _ _ _ _ A4 (Hd (p + length x'))) as HH. unfold x' in HH at 1. rewrite <- !app_assoc in HH. exact HH.
    - assert (Hs : skipn k s = skipn (k - n) (skipn n s)) by (rewrite skipn_skipn_add; f_equal; lia).
      assert (Hr' : white_run (skipn n s) (k - n) l) by (unfold white_run; rewrite <- Hs; exact Hr).
      assert (Hp : p + k = p + n + (k - n)) by lia. rewrite Hp in *.
      destruct (S2 (k - n) l ltac:(lia) Hr' Hu2) as [A1 A2]. split; [lia|]. intros w Hw Hww. destruct (A2 w Hw Hww) as (out' & A3 & A4).
      exists (out ++ out'). split; [apply Forall2_app; [|exact A3]; apply (same_before _ _ _ p n); [lia|exact Hin]|].
      rewrite (skipn_all2 (firstn n s)) by lia. cbn [app].
      replace (firstn k s) with (firstn n s ++ firstn (k - n) (skipn n s)) by (rewrite <- firstn_after; f_equal; lia).
      rewrite <- app_assoc. apply HG; [exact H1|]. rewrite Hl. replace (k + l - n) with (k - n + l) by lia. exact A4.
  Qed.

  Lemma places_movable r q y ts : places E refs r q y ts -> movable (places E refs r) q y ts.
  Proof.
    intros H. destruct (proj1 (places_back E refs q) _ _ _ _ H 0 ltac:(lia)) as (d & -> & Hd). exists d. split; [reflexivity|].
    intros q'. pose proof (proj1 (places_moved E refs q') _ _ _ _ Hd) as HH. rewrite Nat.add_0_r in HH. exact HH.
  Qed.
  Lemma all_movable args q y ts : places_all E refs args q y ts -> movable (places_all E refs args) q y ts.
  Proof.
    intros H. destruct (proj1 (proj2 (places_back E refs q)) _ _ _ _ H 0 ltac:(lia)) as (d & -> & Hd). exists d. split; [reflexivity|].
    intros q'. pose proof (proj1 (proj2 (places_moved E refs q')) _ _ _ _ Hd) as HH. rewrite Nat.add_0_r in HH. exact HH.
  Qed.
  Lemma times_movable r k q y ts : places_times E refs r k q y ts -> movable (places_times E refs r k) q y ts.
  Proof.
    intros H. destruct (proj1 (proj2 (proj2 (places_back E refs q))) _ _ _ _ _ H 0 ltac:(lia)) as (d & -> & Hd). exists d. split; [reflexivity|].
    intros q'. pose proof (proj1 (proj2 (proj2 (places_moved E refs q'))) _ _ _ _ _ Hd) as HH. rewrite Nat.add_0_r in HH. exact HH.
  Qed.
  Lemma more_movable r by_ trail q y ts : places_more E refs r by_ trail q y ts -> movable (places_more E refs r by_ trail) q y ts.
  Proof.
    intros H. destruct (proj2 (proj2 (proj2 (places_back E refs q))) _ _ _ _ _ _ H 0 ltac:(lia)) as (d & -> & Hd). exists d. split; [reflexivity|].
    intros q'. pose proof (proj2 (proj2 (proj2 (places_moved E refs q'))) _ _ _ _ _ _ Hd) as HH. rewrite Nat.add_0_r in HH. exact HH.
  Qed.

  (** An item and what follows it in a list. *)
  Definition item_more (r by_ : rule) (trail : bool) (q : nat) (x : str) (ts : list tok) : Prop :=
    exists y u z v, x = y ++ z /\ ts = u ++ v /\ places E refs r q y u /\ places_more E refs r by_ trail (q + length y) z v.

  Lemma item_movable r by_ trail q y u z v : places E refs r q y u -> places_more E refs r by_ trail (q + length y) z v ->
    movable (item_more r by_ trail) q (y ++ z) (u ++ v).
  Proof.
    intros H1 H2. destruct (places_movable _ _ _ _ H1) as (d & -> & Hd). destruct (more_movable _ _ _ _ _ _ H2) as (d2 & -> & Hd2).
    exists (d ++ moved_by (length y) d2). assert (Hm : forall q', moved_by q' (d ++ moved_by (length y) d2) = moved_by q' d ++ moved_by (q' + length y) d2).
    { intros q'. rewrite moved_app. f_equal. unfold moved_by. rewrite map_map. apply map_ext. intros t. cbn [fst snd r_off r_len]. f_equal. f_equal. lia. }
    rewrite Hm. split; [reflexivity|]. intros q'. rewrite Hm. exists y, (moved_by q' d), z, (moved_by (q' + length y) d2). auto.
  Qed.

  (** ** Leaves *)

  Lemma longest_nth (P : char -> Prop) s n : longest P s n -> forall i c, i < n -> nth_error s i = Some c -> P c.
  Proof.
    intros (Hn & Hf & _) i c Hi Hc. rewrite Forall_forall in Hf. apply Hf. apply nth_error_In with i. rewrite nth_error_firstn_lt by exact Hi. exact Hc.
  Qed.

  Lemma run_char s k l : white_run s k l -> exists c, nth_error s k = Some c /\ white c.
  Proof.
    intros [Hl Hr]. assert (Hk : l <= length (skipn k s)) by apply Hr. rewrite skipn_length in Hk.
    destruct (nth_error s k) as [c|] eqn:Hc; [|apply nth_error_None in Hc; lia]. exists c. split; [reflexivity|].
    apply (longest_nth _ _ _ Hr 0); [exact Hl|]. rewrite nth_skipn, Nat.add_0_r. exact Hc.
  Qed.

  Lemma run_end s n k l : longest white s n -> k < n -> white_run s k l -> k + l = n.
  Proof.
    intros Hn Hk [Hl Hr]. destruct (Nat.lt_trichotomy (k + l) n) as [H|[H|H]]; [|exact H|]; exfalso.
    - assert (Hlen : n <= length s) by apply Hn. destruct (nth_error s (k + l)) as [c|] eqn:Hc; [|apply nth_error_None in Hc; lia].
      pose proof (longest_nth _ _ _ Hn _ _ H Hc) as Hw. destruct Hr as (_ & _ & Hr). apply (Hr c); [rewrite nth_skipn; exact Hc|exact Hw].
    - assert (Hlen : l <= length (skipn k s)) by apply Hr. rewrite skipn_length in Hlen.
      destruct (nth_error s n) as [c|] eqn:Hc; [|apply nth_error_None in Hc; lia]. destruct Hn as (_ & _ & Hn). apply (Hn c Hc).
      apply (longest_nth _ _ _ Hr (n - k)); [lia|]. rewrite nth_skipn. replace (k + (n - k)) with n by lia. exact Hc.
  Qed.

  Lemma no_white p s n out G : Forall (fun c => ~ white c) (firstn n s) -> spaced p s n out G.
  Proof.
    intros H k l Hk Hr _. exfalso. destruct (run_char _ _ _ Hr) as (c & Hc & Hw). rewrite Forall_forall in H. apply (H c); [|exact Hw].
    apply nth_error_In with k. rewrite nth_error_firstn_lt by exact Hk. exact Hc.
  Qed.

  Lemma covered p s n property f G : property <> None -> (forall name, leaf (f name)) -> spaced p s n (token property (Rng p n) f) G.
  Proof.
    intros Hp Hf k l Hk _ Hu. destruct property as [name|]; [|destruct (Hp eq_refl)]. exfalso.
    apply (Hu (Rng p n, f name)); [left; reflexivity|apply Hf|]. cbn. lia.
  Qed.

  Lemma white_leaf p s n optional id : longest white s n -> spaced p s n [] (places E refs (RWhitespace optional id) p).
  Proof.
    intros Hn k l Hk Hr _. pose proof (run_end _ _ _ _ Hn Hk Hr) as He. split; [lia|]. intros w Hw Hww. exists []. split; [constructor|].
    rewrite skipn_all2 by (rewrite firstn_length; lia). rewrite app_nil_r. apply at_whitespace.
    - apply Forall_app. split; [|exact Hww]. destruct Hn as (_ & Hf & _). replace n with (k + (n - k)) in Hf by lia. rewrite firstn_after in Hf.
      apply Forall_app in Hf as [Hf _]. exact Hf.
    - right. intros H. apply app_eq_nil in H as [_ H]. exact (Hw H).
  Qed.

  Lemma node_leaf p s n out property name i id r : n <= length s -> nth_error refs i = Some r ->
    spaced p s n out (places E refs r p) ->
    spaced p s n (token property (Rng p 0) StartNode ++ out ++ token property (Rng p n) EndNode) (places E refs (RNode name property (Some i) id) p).
  Proof.
    intros Hn Hi H k l Hk Hr Hu. apply uncovered_app in Hu as [_ Hu]. apply uncovered_app in Hu as [Hu _].
    destruct (H k l Hk Hr Hu) as [A1 A2]. split; [exact A1|]. intros w Hw Hww. destruct (A2 w Hw Hww) as (out' & A3 & A4).
    eexists. split; [|eapply at_node; eassumption].
    assert (Hl : length (firstn k s ++ w ++ skipn (k + l) (firstn n s)) = n - l + length w).
    { rewrite !app_length, skipn_length, !firstn_length_le by lia. lia. }
    rewrite Hl. destruct property as [q|]; cbn [token app].
    - constructor; [left; cbn; split; [lia|reflexivity]|]. apply Forall2_app; [exact A3|]. constructor; [|constructor].
      right. split; [reflexivity|]. right. cbn [fst snd r_off r_len]. split; [lia|]. split; [lia|]. split; [eauto|reflexivity].
    - rewrite !app_nil_r. exact A3.
  Qed.

  (** ** Readings *)

  Lemma reads_spaced :
    (forall r ind p s v ind' tr, reads E refs r ind p s v ind' tr -> occurs syn r ->
       match v with Yes n out => spaced p s n out (places E refs r p) | No => True end) /\
    (forall args ind p s v ind' tr, reads_seq E refs args ind p s v ind' tr -> Forall (occurs syn) args ->
       match v with Yes n out => spaced p s n out (places_all E refs args p) | No => True end) /\
    (forall args ind p s v ind' tr, reads_first E refs args ind p s v ind' tr -> Forall (occurs syn) args ->
       match v with Yes n out => exists r, In r args /\ spaced p s n out (places E refs r p) | No => True end) /\
    (forall r ind p s k n out ind' tr, reads_many E refs r ind p s k n out ind' tr -> occurs syn r ->
       spaced p s n out (places_times E refs r k p)) /\
    (forall r by_ trail ind p s v ind' tr, reads_more E refs r by_ trail ind p s v ind' tr -> occurs syn r -> occurs syn by_ ->
       match v with Yes n out => spaced p s n out (places_more E refs r by_ trail p) | No => True end) /\
    (forall r indented id fresh nl ind p s v ind' tr, reads_lines E refs r indented id fresh nl ind p s v ind' tr -> True) /\
    (forall r indented fresh ind p s v fresh' ind' tr, reads_line E refs r indented fresh ind p s v fresh' ind' tr -> True).
  Proof.
    assert (Hargs : forall r, occurs syn r -> Forall (occurs syn) (children r)).
    { intros r Hr. apply Forall_forall. intros c Hc. eapply occurs_child; eassumption. }
    pose proof (reads_placed E HE syn Hno) as (P1 & P2 & _ & P4 & P5 & _).
    pose proof (reads_le E HE refs) as Hle.
    destruct Hst as (St1 & St2 & St3 & St4).
    assert (Hin : forall r ind p s n out ind' tr, reads E refs r ind p s (Yes n out) ind' tr -> occurs syn r ->
      n <= length s /\ places E refs r p (firstn n s) out /\ Forall (inside p n) out).
    { intros r ind p s n out ind' tr H Ho. assert (Hn : n <= length s) by (eapply reads_le; eassumption).
      pose proof (P1 _ _ _ _ _ _ _ H Ho) as Hp. cbn [placed] in Hp. split; [exact Hn|]. split; [exact Hp|].
      pose proof (proj1 (places_inside E refs) _ _ _ _ Hp) as Hi. rewrite firstn_length_le in Hi by exact Hn. exact Hi. }
    apply reads_mutind; intros; try exact I;
      try match goal with H : occurs _ (RLines _ _ _) |- _ => destruct (Hno _ _ _ H) end.
    - apply white_leaf. assumption.
    - apply no_white. rewrite starts_firstn by assumption. eapply St1. eassumption.
    - apply spaced_none.
    - apply covered; [eapply St2; eassumption|intros; exact I].
    - apply no_white. destruct H as (_ & H & _). eapply Forall_impl; [|exact H]. intros c Hc. apply Hc.
    - apply covered; [eapply St3; eassumption|intros; exact I].
    - apply covered; [eapply St4; eassumption|intros; exact I].
    - specialize (H0 (Hargs _ H1)). destruct v; [|exact I]. eapply spaced_mono; [|exact H0]. apply at_sequence.
    - specialize (H1 (Hargs _ H2)). destruct v; [|exact I]. destruct H1 as (r & Hr & Hg). eapply spaced_mono; [|exact Hg]. intros x ts. apply at_select. exact Hr.
    - specialize (Hargs _ H2). cbn in Hargs. apply Forall_app in Hargs. destruct Hargs as [_ Hargs]. inversion Hargs; subst.
      destruct v; [|exact I]. eapply spaced_mono; [|apply H1; assumption]. intros x ts. apply at_fast. apply in_or_app. right. left. reflexivity.
    - assert (Hr : In r args) by (eapply nth_error_In; eassumption). eapply spaced_mono; [|apply H3; eapply occurs_child; [eassumption|exact Hr]].
      intros x ts. apply at_fast. exact Hr.
    - specialize (Hargs _ H6). cbn in Hargs. apply Forall_app in Hargs. destruct Hargs as [_ Hargs]. inversion Hargs; subst.
      destruct v; [|exact I]. eapply spaced_mono; [|apply H5; assumption]. intros x ts. apply at_fast. apply in_or_app. right. left. reflexivity.
    - eapply spaced_mono; [|apply H0; specialize (Hargs _ H2); inversion Hargs; assumption]. intros x ts Hx. eapply at_repeat; eassumption.
    - specialize (Hargs _ H3). cbn in Hargs. inversion Hargs as [|? ? Ho1 Hl]; subst. inversion Hl as [|? ? Ho2 _]; subst.
      specialize (H0 Ho1). specialize (H2 Ho1 Ho2). pose proof (P5 _ _ _ _ _ _ _ _ _ H1 Ho1 Ho2) as Hm. destruct v as [m out'|]; [|exact I]. cbn [after].
      destruct (Hin _ _ _ _ _ _ _ _ H Ho1) as (Hn & Hp & Hi).
      eapply spaced_app; [exact Hn|exact Hp|exact Hi|apply more_movable; exact Hm|exact H0|exact H2|]. intros x u y w. apply at_separate.
    - destruct optional; [apply spaced_none|exact I].
    - assert (Ho : occurs syn r) by (apply occurs_top; eapply nth_error_In; eassumption).
      apply node_leaf with r; [apply (Hin _ _ _ _ _ _ _ _ H0 Ho)|assumption|]. apply H1. exact Ho.
    - eapply spaced_mono; [|apply H0; specialize (Hargs _ H1); inversion Hargs; assumption]. intros x ts. apply at_optional.
    - apply spaced_none.
    - apply spaced_none.
    - apply spaced_none.
    - inversion H3 as [|? ? Ho1 Ho2]; subst. specialize (H0 Ho1). specialize (H2 Ho2). pose proof (P2 _ _ _ _ _ _ _ H1 Ho2) as Hm. destruct v as [m out'|]; [|exact I].
      cbn [after]. destruct (Hin _ _ _ _ _ _ _ _ H Ho1) as (Hn & Hp & Hi).
      eapply spaced_app; [exact Hn|exact Hp|exact Hi|apply all_movable; exact Hm|exact H0|exact H2|]. intros x u y w. apply at_all_cons.
    - inversion H1; subst. exists r. split; [left; reflexivity|]. apply H0. assumption.
    - inversion H3; subst. specialize (H2 ltac:(assumption)). destruct v as [m out'|]; [|exact I].
      destruct H2 as (q & Hq & Hg). exists q. split; [right; exact Hq|exact Hg].
    - apply spaced_none.
    - rename H3 into Ho. destruct (Hin _ _ _ _ _ _ _ _ H Ho) as (Hn & Hp & Hi).
      eapply spaced_app; [exact Hn|exact Hp|exact Hi|apply times_movable; eapply P4; eassumption|apply H0; exact Ho|apply H2; exact Ho|]. intros x u y w. apply at_times_S.
    - apply spaced_none.
    - destruct trail; [|exact I]. eapply spaced_mono; [|apply H0; assumption]. intros x ts. apply at_more_trail.
    - specialize (H0 H6). specialize (H2 H5). pose proof (P5 _ _ _ _ _ _ _ _ _ H3 H5 H6) as Hm. specialize (H4 H5 H6). destruct v as [k out3|]; [|exact I]. cbn [after].
      destruct (Hin _ _ _ _ _ _ _ _ H H6) as (Hn & Hp & Hi). destruct (Hin _ _ _ _ _ _ _ _ H1 H5) as (Hn' & Hp' & Hi').
      eapply spaced_app; [exact Hn|exact Hp|exact Hi| |exact H0| |].
      + rewrite firstn_after. eapply (item_movable r by_ trail); [exact Hp'|]. rewrite firstn_length_le by exact Hn'. exact Hm.
      + eapply spaced_app; [exact Hn'|exact Hp'|exact Hi'|apply more_movable; exact Hm|exact H2|exact H4|].
        intros x u y w Hx Hy. exists x, u, y, w. auto.
      + intros x u y w Hx (y' & u' & z & v' & -> & -> & Hy & Hz). apply at_more_item; assumption.
  Qed.
End Spaces.
