(** What is left in the vector when the parser fails. *)
From Coq Require Import List NArith Bool Arith Lia.
From Verif Require Import Base Ext Types ParseModel PegSpec PrimProofs PegProofs PegFacts DataSpec
  ApiSpec ParseProofs LeftSpec.
Import ListNotations.

(** Placed items with some nodes still open. *)
Inductive unfinished : nat -> nat -> list tok -> Prop :=
| unf_placed : forall a p l, placed a p l -> unfinished a p l
| unf_open : forall a o p l inner name,
    placed a o l -> unfinished o p inner ->
    unfinished a p (l ++ (Rng o 0, StartNode name) :: inner).

Lemma unf_le a p l : unfinished a p l -> a <= p.
Proof. induction 1 as [a p l H|a o p l inner name H _ IH]; apply placed_le in H; lia. Qed.

Lemma unf_app a p q l c : unfinished a p l -> placed p q c -> unfinished a q (l ++ c).
Proof.
  intros H. revert q c. induction H; intros q c Hc.
  - apply unf_placed. eapply placed_app; eassumption.
  - rewrite <- app_assoc. cbn [app]. apply unf_open; auto.
Qed.

Lemma unf_extend a p q l : unfinished a p l -> p <= q -> unfinished a q l.
Proof.
  intros H Hq. rewrite <- (app_nil_r l). eapply unf_app; [exact H|]. constructor. exact Hq.
Qed.

Lemma unf_start a p l name :
  unfinished a p l -> unfinished a p (l ++ [(Rng p 0, StartNode name)]).
Proof.
  intros H. induction H.
  - apply unf_open; [assumption|]. apply unf_placed. constructor. lia.
  - rewrite <- app_assoc. cbn [app]. apply unf_open; auto.
Qed.

Lemma unf_close E s text a p l :
  unfinished a p l -> Forall (made_by E s text) l ->
  exists closing, Forall node_end closing /\ placed a p (l ++ closing) /\
    Forall (made_by E s text) (l ++ closing).
Proof.
  induction 1 as [a p l H|a o p l inner name H Hi IH]; intros Hm.
  - exists []. rewrite app_nil_r. auto.
  - apply Forall_app in Hm as [Hl Hm]. inversion Hm as [|x y Hs Hin]; subst.
    destruct (IH Hin) as (closing & Hc & Hp & Hm').
    pose proof (unf_le _ _ _ Hi) as Hle.
    exists (closing ++ [(Rng o (p - o), EndNode name)]). split; [|split].
    + apply Forall_app. split; [exact Hc|]. constructor; [eexists _, _; reflexivity|constructor].
    + rewrite <- app_assoc. cbn [app]. rewrite (app_assoc inner).
      eapply placed_app; [exact H|].
      apply placed_node; [lia| |constructor; lia]. replace (o + (p - o)) with p by lia. exact Hp.
    + rewrite <- app_assoc. cbn [app]. rewrite (app_assoc inner).
      apply Forall_app. split; [exact Hl|]. constructor; [exact Hs|].
      apply Forall_app. split; [exact Hm'|]. constructor; [|constructor].
      inversion Hs; subst. eapply made_by_end. eassumption.
Qed.

Section Left.
  Variable E : ext.
  Hypothesis HE : ext_ok E.
  Variable syn : syntax.
  Variable text : str.
  Variable pre : list tok.

  Definition ready (p : nat) (b : list tok) : Prop :=
    unfinished 0 p b /\ Forall (made_by E syn text) b /\ p <= length text.

  Definition whole (l : list tok) : Prop :=
    unfinished 0 (length text) l /\ Forall (made_by E syn text) l.

  Definition left_ok (toks : list tok) : Prop := exists part, toks = pre ++ part /\ whole part.

  Definition called (p : nat) (b : list tok) (res : pres) (toks' : list tok) : Prop :=
    match res with
    | POk rg st' _ => exists n out junk', rg = Rng p n /\ st' = length (pre ++ (b ++ out)) /\
        toks' = (pre ++ (b ++ out)) ++ junk' /\ ready (p + n) (b ++ out) /\
        whole ((b ++ out) ++ junk') /\
        placed p (p + n) out /\ Forall (made_by E syn text) out
    | PErr _ => exists junk', toks' = (pre ++ b) ++ junk' /\ whole (b ++ junk')
    end.

  Definition at_ (p : nat) : rt := RT (skipn p text) p.

  Definition keeps (P : parser) : Prop :=
    forall b junk p ind res toks' ind',
      ready p b -> whole (b ++ junk) ->
      P ((pre ++ b) ++ junk) (length (pre ++ b)) (at_ p) ind = Done (res, toks', ind') ->
      left_ok toks'.

  Definition keeps_all (P : parser) : Prop :=
    forall b junk p ind res toks' ind',
      ready p b -> whole (b ++ junk) ->
      P ((pre ++ b) ++ junk) (length (pre ++ b)) (at_ p) ind = Done (res, toks', ind') ->
      called p b res toks'.

  Lemma ready_whole p b : ready p b -> whole b.
  Proof. intros (H & Hm & Hp). split; [eapply unf_extend; eassumption|exact Hm]. Qed.

  Lemma ready_more p k b : ready p b -> p + k <= length text -> ready (p + k) b.
  Proof. intros (H & Hm & Hp) Hk. split; [eapply unf_extend; [exact H|lia]|auto]. Qed.

  Lemma ready_app p n b out :
    ready p b -> p + n <= length text -> placed p (p + n) out ->
    Forall (made_by E syn text) out -> ready (p + n) (b ++ out).
  Proof.
    intros (H & Hm & Hp) Hn Hpl Ho. split; [eapply unf_app; eassumption|].
    split; [|exact Hn]. apply Forall_app. auto.
  Qed.

  Lemma left_here b junk : whole (b ++ junk) -> left_ok ((pre ++ b) ++ junk).
  Proof. intros H. exists (b ++ junk). split; [symmetry; apply app_assoc|exact H]. Qed.

  Lemma called_left p b res toks' : called p b res toks' -> left_ok toks'.
  Proof.
    destruct res; cbn [called].
    - intros (n & out & junk' & _ & _ & -> & _ & H & _). apply left_here. exact H.
    - intros (junk' & -> & H). apply left_here. exact H.
  Qed.

  Lemma at_consume p n : rt_consume (at_ p) n = at_ (p + n).
  Proof. unfold at_. rewrite rt_eq, skipn_skipn_add. reflexivity. Qed.

  Lemma keeps_full r P :
    sound_for E (s_rules syn) r P -> occurs syn r -> keeps P -> keeps_all P.
  Proof.
    intros Hs Ho Hk b junk p ind res toks' ind' Hr Hw H.
    destruct (Hk _ _ _ _ _ _ _ Hr Hw H) as (part & Hpart & Hwp).
    unfold at_ in H. apply Hs in H as (v & tr & Hv & Ha).
    pose proof (reads_fits E HE (s_rules syn) _ _ _ _ _ _ _ Hv) as [Hf _].
    pose proof (proj1 (reads_made_all E syn text) _ _ _ _ _ _ _ Hv Ho eq_refl) as Hm.
    destruct v as [n out|].
    - destruct Ha as (junk' & -> & ->). destruct Hf as [Hn Hpl]. rewrite skipn_length in Hn.
      destruct Hr as (Hr & Hrm & Hrp).
      cbn [called]. exists n, out, junk'. split; [reflexivity|].
      rewrite <- (app_assoc pre b out) in *. split; [reflexivity|]. split; [reflexivity|]. split; [|split; [|split; [exact Hpl|exact Hm]]].
      + apply ready_app; [split; auto|lia|exact Hpl|exact Hm].
      + rewrite <- app_assoc in Hpart. apply app_inv_head in Hpart. rewrite Hpart. exact Hwp.
    - destruct Ha as (e & junk' & _ & -> & ->). cbn [called]. exists junk'. split; [reflexivity|].
      rewrite <- app_assoc in Hpart. apply app_inv_head in Hpart. rewrite Hpart. exact Hwp.
  Qed.

  (** ** Leaves *)

  Lemma emit_keeps property mk rg b junk toks' st' :
    whole (b ++ junk) -> whole (b ++ token property rg mk) ->
    emit property mk rg ((pre ++ b) ++ junk) (length (pre ++ b)) = (toks', st') -> left_ok toks'.
  Proof.
    intros Hw Hd H. destruct property as [name|]; cbn [emit token] in *.
    - destruct (emit_spec (Some name) mk rg (pre ++ b) junk) as (junk' & He).
      cbn [emit] in He. rewrite He in H. injection H as <- _.
      assert (junk' = []) as ->.
      { unfold read_data in He. injection He as He _.
        assert (Hl : length (if length (pre ++ b) <? length ((pre ++ b) ++ junk)
          then firstn (length (pre ++ b)) ((pre ++ b) ++ junk) else (pre ++ b) ++ junk)
          <= length (pre ++ b)).
        { destruct (Nat.ltb_spec (length (pre ++ b)) (length ((pre ++ b) ++ junk))).
          - rewrite firstn_length. lia.
          - assumption. }
        apply (f_equal (@length tok)) in He. rewrite !app_length in He. rewrite app_length in Hl.
        cbn [length token] in He. destruct junk'; [reflexivity|]. cbn [length] in He.
        rewrite !app_length in Hl. lia. }
      rewrite app_nil_r, <- app_assoc. eexists. split; [reflexivity|exact Hd].
    - injection H as <- _. apply left_here. exact Hw.
  Qed.

  (** A leaf that stores what it reads, if it reads. *)
  Lemma leaf_keeps r P :
    sound_for E (s_rules syn) r P -> occurs syn r ->
    (forall toks st t ind res toks' ind', P toks st t ind = Done (res, toks', ind') ->
       toks' = toks \/ exists rg st' property mk, res = POk rg st' None /\
         emit property mk rg toks st = (toks', st')) ->
    keeps P.
  Proof.
    intros Hs Ho Hl b junk p ind res toks' ind' Hr Hw H. pose proof H as H0.
    apply Hl in H as [->|(rg & st' & property & mk & -> & He)]; [apply left_here; exact Hw|].
    eapply emit_keeps; [exact Hw| |exact He].
    unfold at_ in H0. apply Hs in H0 as (v & tr & Hv & Ha).
    pose proof (reads_fits E HE (s_rules syn) _ _ _ _ _ _ _ Hv) as [Hf _].
    pose proof (proj1 (reads_made_all E syn text) _ _ _ _ _ _ _ Hv Ho eq_refl) as Hm.
    destruct v as [n out|].
    - destruct Ha as (junk' & Hres & ->). destruct Hf as [Hn Hpl]. rewrite skipn_length in Hn.
      injection Hres as -> Hst _.
      destruct (emit_spec property mk (Rng p n) (pre ++ b) junk) as (junk2 & He2).
      rewrite He2 in He. injection He as He Hst2.
      assert (out = token property (Rng p n) mk) as <-.
      { rewrite <- Hst2 in Hst. apply (f_equal (firstn (length ((pre ++ b) ++ out)))) in He.
        rewrite (firstn_app (length ((pre ++ b) ++ out)) ((pre ++ b) ++ out)) in He.
        rewrite Nat.sub_diag, firstn_all, <- Hst in He.
        rewrite firstn_app, Nat.sub_diag, firstn_all in He. cbn [firstn] in He.
        rewrite !app_nil_r in He. apply app_inv_head in He. symmetry. exact He. }
      eapply ready_whole. apply ready_app; [exact Hr| |exact Hpl|exact Hm].
      destruct Hr as (_ & _ & Hr). lia.
    - destruct Ha as (e & junk' & _ & Hres & _). discriminate.
  Qed.

  (** ** Loops *)

  Ltac call HP He :=
    let Hc := fresh "Hc" in
    match type of He with
    | ?P _ _ _ _ = Done (?res, _, _) =>
      eapply HP in He; [|eassumption|eassumption]; rename He into Hc;
      destruct res as [rg1 st1 err1|e1];
      [destruct Hc as (n1 & out1 & junk1 & -> & -> & -> & Hr1 & Hw1 & Hpl1 & Hm1)
      |destruct Hc as (junk1 & -> & Hw1)]
    end.

  Lemma seq_keeps P args :
    (forall r, In r args -> keeps_all (P r)) ->
    forall start b junk p ind oe res toks' ind',
      ready p b -> whole (b ++ junk) ->
      seq_loop P args start ((pre ++ b) ++ junk) (length (pre ++ b)) (at_ p) ind oe
        = Done (res, toks', ind') -> left_ok toks'.
  Proof.
    induction args as [|r rest IH]; intros HP start b junk p ind oe res toks' ind' Hr Hw H;
      cbn [seq_loop] in H.
    - injection H as _ <- _. apply left_here. exact Hw.
    - destruct (P r _ _ _ _) as [[[res1 toks1] ind1]| |] eqn:He; cbn [obind] in H; try discriminate.
      pose proof (HP r (or_introl eq_refl)) as Hk. call Hk He.
      + cbn [r_len] in H. rewrite at_consume in H.
        eapply IH; [|exact Hr1|exact Hw1|exact H]. intros; apply HP; right; assumption.
      + injection H as _ <- _. apply left_here. exact Hw1.
  Qed.

  Lemma select_keeps P args id :
    (forall r, In r args -> keeps_all (P r)) ->
    forall b junk p ind oe res toks' ind',
      ready p b -> whole (b ++ junk) ->
      select_loop P args id ((pre ++ b) ++ junk) (length (pre ++ b)) (at_ p) ind oe
        = Done (res, toks', ind') -> left_ok toks'.
  Proof.
    induction args as [|r rest IH]; intros HP b junk p ind oe res toks' ind' Hr Hw H;
      cbn [select_loop] in H.
    - destruct oe; injection H as _ <- _; apply left_here; exact Hw.
    - destruct (P r _ _ _ _) as [[[res1 toks1] ind1]| |] eqn:He; cbn [obind] in H; try discriminate.
      pose proof (HP r (or_introl eq_refl)) as Hk. call Hk He.
      + injection H as _ <- _. apply left_here. exact Hw1.
      + eapply IH; [|exact Hr|exact Hw1|exact H]. intros; apply HP; right; assumption.
  Qed.

  Lemma fast_tail_keeps P args oe :
    (forall r, In r args -> keeps_all (P r)) -> keeps (fast_tail P args oe).
  Proof.
    intros HP b junk p ind res toks' ind' Hr Hw H. unfold fast_tail in H.
    destruct args as [|a args']; [discriminate|].
    destruct (nth_error _ _) as [r|] eqn:Hn; [|discriminate]. apply nth_error_In in Hn.
    destruct (P r _ _ _ _) as [[[res1 toks1] ind1]| |] eqn:He; cbn [obind] in H; try discriminate.
    pose proof (HP r Hn) as Hk. call Hk He; injection H as _ <- _; apply left_here; exact Hw1.
  Qed.

  Lemma fast_keeps P table args tail id :
    (forall r, In r args -> keeps_all (P r)) -> keeps (parse_fast_select P table args tail id).
  Proof.
    intros HP b junk p ind res toks' ind' Hr Hw H. unfold parse_fast_select in H.
    destruct (src (at_ p)) as [|ch s]; [injection H as _ <- _; apply left_here; exact Hw|].
    destruct (nth_error table _) as [i|]; [|discriminate].
    destruct (Nat.eqb i 255).
    - destruct tail; [eapply fast_tail_keeps; eassumption|].
      injection H as _ <- _. apply left_here. exact Hw.
    - destruct (nth_error args i) as [r|] eqn:Hn; [|discriminate]. apply nth_error_In in Hn.
      destruct (P r _ _ _ _) as [[[res1 toks1] ind1]| |] eqn:He; cbn [obind] in H;
        try discriminate.
      pose proof (HP r Hn) as Hk. call Hk He.
      + injection H as _ <- _. apply left_here. exact Hw1.
      + destruct tail.
        * eapply fast_tail_keeps; [exact HP|exact Hr|exact Hw1|exact H].
        * injection H as _ <- _. apply left_here. exact Hw1.
  Qed.

  Lemma repeat_keeps P :
    keeps_all P ->
    forall fuel optional first start b junk p ind oe res toks' ind',
      ready p b -> whole (b ++ junk) ->
      repeat_loop fuel P optional start first ((pre ++ b) ++ junk) (length (pre ++ b)) (at_ p) ind oe
        = Done (res, toks', ind') -> left_ok toks'.
  Proof.
    intros HP fuel. induction fuel as [|fuel IH];
      intros optional first start b junk p ind oe res toks' ind' Hr Hw H; cbn [repeat_loop] in H;
      [discriminate|].
    destruct (P _ _ _ _) as [[[res1 toks1] ind1]| |] eqn:He; cbn [obind] in H; try discriminate.
    call HP He.
    - cbn [r_len] in H. rewrite at_consume in H. eapply IH; [exact Hr1|exact Hw1|exact H].
    - destruct (first && negb optional); injection H as _ <- _; apply left_here; exact Hw1.
  Qed.

  Lemma sep_keeps P Q :
    keeps_all P -> keeps_all Q ->
    forall fuel optional trail first start b junk p ind oe res toks' ind',
      ready p b -> whole (b ++ junk) ->
      sep_loop fuel P Q optional trail start first ((pre ++ b) ++ junk) (length (pre ++ b)) (at_ p)
        ind oe = Done (res, toks', ind') -> left_ok toks'.
  Proof.
    intros HP HQ fuel. induction fuel as [|fuel IH];
      intros optional trail first start b junk p ind oe res toks' ind' Hr Hw H;
      cbn [sep_loop] in H; [discriminate|].
    destruct (P _ _ _ _) as [[[res1 toks1] ind1]| |] eqn:He; cbn [obind] in H; try discriminate.
    call HP He.
    - cbn [r_len] in H. rewrite at_consume in H.
      destruct (Q _ _ _ _) as [[[res2 toks2] ind2]| |] eqn:He2; cbn [obind] in H; try discriminate.
      eapply HQ in He2; [|exact Hr1|exact Hw1]. destruct res2 as [rg2 st2 err2|e2].
      + destruct He2 as (n2 & out2 & junk2 & -> & -> & -> & Hr2 & Hw2 & _).
        cbn [r_len] in H. rewrite at_consume in H. eapply IH; [exact Hr2|exact Hw2|exact H].
      + destruct He2 as (junk2 & -> & Hw2). injection H as _ <- _. apply left_here. exact Hw2.
    - destruct (if first then negb optional else negb trail); injection H as _ <- _;
        apply left_here; exact Hw1.
  Qed.

  (** ** Lines *)

  Lemma skip_indent_le tb s : forall n k, skip_indent s n tb = Some k -> k <= length s.
  Proof.
    induction s as [|c s IH]; intros n k H; cbn [skip_indent length] in *;
      destruct (n =? 0)%N; try (injection H as <-; lia); try discriminate.
    destruct (N.eqb c space).
    - destruct (skip_indent s (n - 1) tb) as [k'|] eqn:Hk; [|discriminate].
      injection H as <-. apply IH in Hk. lia.
    - destruct (N.eqb c tab); [|discriminate]. destruct (n <=? tb)%N; [injection H as <-; lia|].
      destruct (skip_indent s (n - tb) tb) as [k'|] eqn:Hk; [|discriminate].
      injection H as <-. apply IH in Hk. lia.
  Qed.

  Lemma align_indent_le tb s : forall n k m, align_indent s n tb = Done (k, m) -> k <= length s.
  Proof.
    induction s as [|c s IH]; intros n k m H; cbn [align_indent length] in *;
      [injection H as <- <-; lia|].
    assert (Hstep : forall x, (do ind1 <- add_u32 n x;
      do (k, ind2) <- align_indent s ind1 tb; Done (S k, ind2)) = Done (k, m) -> k <= S (length s)).
    { clear H. intros x H. destruct (add_u32 n x) as [i| |]; cbn [obind] in H; try discriminate.
      destruct (align_indent s i tb) as [[k' m']| |] eqn:Hk; cbn [obind] in H; try discriminate.
      injection H as <- <-. apply IH in Hk. lia. }
    destruct (N.eqb c space); [eapply Hstep; exact H|].
    destruct (N.eqb c tab); [eapply Hstep; exact H|]. injection H as <- <-. lia.
  Qed.

  (** After the closure: the tokens of the state. *)
  Definition line_called (p : nat) (b : list tok) (ores : option range) (ls : lines_state) : Prop :=
    match ores with
    | Some rg => exists n out junk', rg = Rng p n /\ ls_state ls = length (pre ++ (b ++ out)) /\
        ls_toks ls = (pre ++ (b ++ out)) ++ junk' /\ ready (p + n) (b ++ out) /\
        whole ((b ++ out) ++ junk')
    | None => left_ok (ls_toks ls)
    end.

  Lemma item_keeps P p k b junk first err fr ind0 ind ores ls' :
    keeps_all P -> ready p b -> whole (b ++ junk) -> p + k <= length text ->
    lines_item_indent P p (at_ (p + k)) first
      (LS ((pre ++ b) ++ junk) (length (pre ++ b)) err fr ind0) ind = Done (ores, ls') ->
    line_called p b ores ls'.
  Proof.
    intros HP Hr Hw Hk H. unfold lines_item_indent in H. cbn [ls_toks ls_state ls_err] in H.
    destruct (add_u32 (i_indent ind) 1) as [i1| |]; cbn [obind] in H; try discriminate.
    destruct (P _ _ _ _) as [[[res1 toks1] ind1]| |] eqn:He; cbn [obind] in H; try discriminate.
    assert (Hrk : ready (p + k) b) by (apply ready_more; assumption).
    eapply HP in He; [|exact Hrk|exact Hw]. destruct res1 as [rg1 st1 err1|e1].
    - destruct He as (n1 & out1 & junk1 & -> & -> & -> & Hr1 & Hw1 & _).
      injection H as <- <-. cbn [line_called ls_state ls_toks].
      exists (k + n1), out1, junk1. split; [unfold next_offset; cbn [r_off r_len]; f_equal; lia|].
      rewrite Nat.add_assoc. auto.
    - destruct He as (junk1 & -> & Hw1). injection H as <- <-. cbn [line_called ls_toks].
      apply left_here. exact Hw1.
  Qed.

  Lemma closure_keeps P indented p b junk err fr ind0 ores ls' :
    keeps_all P -> ready p b -> whole (b ++ junk) ->
    closure indented P (at_ p) (LS ((pre ++ b) ++ junk) (length (pre ++ b)) err fr ind0)
      = Done (ores, ls') -> line_called p b ores ls'.
  Proof.
    intros HP Hr Hw H. destruct indented; cbn [closure] in H.
    - unfold lines_closure_indent in H. cbn [ls_ind ls_first] in H.
      destruct (skip_indent _ _ _) as [k|] eqn:Hk.
      2:{ injection H as <- <-. apply left_here. exact Hw. }
      apply skip_indent_le in Hk. rewrite at_consume in H. change (off (at_ p)) with p in H.
      change (src (at_ p)) with (skipn p text) in Hk. rewrite skipn_length in Hk.
      assert (Hp : p <= length text) by apply Hr.
      destruct (fr && i_align_first ind0).
      + destruct (align_indent _ _ _) as [[k2 m]| |] eqn:Ha; cbn [obind] in H; try discriminate.
        apply align_indent_le in Ha. change (src (at_ (p + k))) with (skipn (p + k) text) in Ha.
        rewrite skipn_length in Ha. rewrite at_consume, <- Nat.add_assoc in H.
        eapply item_keeps; [exact HP|exact Hr|exact Hw| |exact H]. lia.
      + destruct (rt_tag _ _).
        * injection H as <- <-. apply left_here. exact Hw.
        * eapply item_keeps; [exact HP|exact Hr|exact Hw| |exact H]. lia.
    - unfold lines_closure_plain in H. cbn [ls_toks ls_state ls_ind ls_err ls_first] in H.
      destruct (P _ _ _ _) as [[[res1 toks1] ind1]| |] eqn:He; cbn [obind] in H; try discriminate.
      call HP He.
      + injection H as <- <-. cbn [line_called ls_state ls_toks]. exists n1, out1, junk1. auto.
      + injection H as <- <-. apply left_here. exact Hw1.
  Qed.

  Lemma after_last_newline_le s k : after_last_newline s = Some k -> k <= length s.
  Proof.
    revert k. induction s as [|c s IH]; intros k H; cbn [after_last_newline length] in *;
      [discriminate|].
    destruct (after_last_newline s) as [n|].
    - injection H as <-. specialize (IH n eq_refl). lia.
    - destruct (N.eqb c newline); [injection H as <-; lia|discriminate].
  Qed.

  Lemma lines_keeps P indented :
    keeps_all P ->
    forall fuel nl p b junk err fr ind res ls',
      ready p b -> whole (b ++ junk) ->
      lines_loop E (closure indented P) fuel nl (at_ p)
        (LS ((pre ++ b) ++ junk) (length (pre ++ b)) err fr ind) = Done (res, ls') ->
      left_ok (ls_toks ls').
  Proof.
    intros HP fuel. induction fuel as [|fuel IH];
      intros nl p b junk err fr ind res ls' Hr Hw H; [discriminate|].
    cbn [lines_loop] in H. destruct (Nat.eqb _ _).
    { injection H as _ <-. apply left_here. exact Hw. }
    assert (Hgo : forall k, p + k <= length text ->
      (do (ores, ls1) <- closure indented P (at_ (p + k))
         (LS ((pre ++ b) ++ junk) (length (pre ++ b)) err fr ind);
       match ores with
       | None => Done (inl (at_ (p + k)), ls1)
       | Some rg =>
         lines_loop E (closure indented P) fuel
           (ends_with_newline (rt_raw_string (at_ (p + k)) (r_len rg)))
           (rt_consume (at_ (p + k)) (r_len rg)) ls1
       end) = Done (res, ls') -> left_ok (ls_toks ls')).
    { clear H. intros k Hk H. destruct (closure _ _ _ _) as [[ores ls1]| |] eqn:Hc;
        cbn [obind] in H; try discriminate.
      eapply closure_keeps in Hc; [|exact HP|apply ready_more; eassumption|exact Hw].
      destruct ores as [rg|]; cbn [line_called] in Hc.
      - destruct Hc as (n & out & junk' & -> & Hst & Htk & Hr1 & Hw1). cbn [r_len] in H.
        rewrite at_consume in H. destruct ls1 as [tk1 st1 er1 fr1 in1].
        cbn [ls_state ls_toks] in Hst, Htk. subst. eapply IH; eassumption.
      - injection H as _ <-. exact Hc. }
    destruct (after_last_newline _) as [k|] eqn:Hk.
    - rewrite at_consume in H. apply (Hgo k); [|exact H].
      apply after_last_newline_le in Hk. rewrite firstn_length in Hk.
      change (src (at_ p)) with (skipn p text) in Hk. rewrite skipn_length in Hk.
      destruct Hr as (_ & _ & Hp). lia.
    - destruct nl.
      + apply (Hgo 0); rewrite Nat.add_0_r; [apply Hr|exact H].
      + injection H as _ <-. apply left_here. exact Hw.
  Qed.

  (** ** All rules *)

  Theorem rule_keeps fuel : forall r, occurs syn r -> keeps (parse_rule E fuel (s_rules syn) r).
  Proof.
    induction fuel as [|fuel IH]; intros r Ho; [intros b junk p ind res toks' ind' _ _ H; discriminate|].
    assert (Hfull : forall c, occurs syn c -> keeps_all (parse_rule E fuel (s_rules syn) c)).
    { intros c Hc. eapply keeps_full; [apply parse_rule_sound|exact Hc|apply IH; exact Hc]. }
    assert (Hsub : forall c, In c (children r) -> keeps_all (parse_rule E fuel (s_rules syn) c)).
    { intros c Hc. apply Hfull. eapply occurs_child; eassumption. }
    pose proof (parse_rule_sound E (s_rules syn) (S fuel) r) as Hsound.
    destruct r; cbn [parse_rule children] in *.
    - eapply leaf_keeps; [exact Hsound|exact Ho|].
      intros toks st t ind res toks' ind' H. unfold parse_whitespace in H.
      destruct (_ && _); injection H as _ <- _; auto.
    - eapply leaf_keeps; [exact Hsound|exact Ho|].
      intros toks st t ind res toks' ind' H. unfold parse_tag in H.
      destruct (rt_tag t text0) as [rg|]; destruct not;
        try (injection H as _ <- _; auto; fail);
        (destruct (emit _ _ _ _ _) as [tk st'] eqn:He; injection H as <- <- <-;
         right; eexists _, _, _, _; split; [reflexivity|exact He]).
    - eapply leaf_keeps; [exact Hsound|exact Ho|].
      intros toks st t ind res toks' ind' H. unfold parse_until in H.
      destruct (_ && _); [injection H as _ <- _; auto|].
      destruct (emit _ _ _ _ _) as [tk st'] eqn:He; injection H as <- <- <-.
      right; eexists _, _, _, _; split; [reflexivity|exact He].
    - eapply leaf_keeps; [exact Hsound|exact Ho|].
      intros toks st t ind res toks' ind' H. unfold parse_until in H.
      destruct (_ && _); [injection H as _ <- _; auto|].
      destruct (emit _ _ _ _ _) as [tk st'] eqn:He; injection H as <- <- <-.
      right; eexists _, _, _, _; split; [reflexivity|exact He].
    - eapply leaf_keeps; [exact Hsound|exact Ho|].
      intros toks st t ind res toks' ind' H. unfold parse_text in H.
      destruct (x_string E (src t)) as [n|]; [|injection H as _ <- _; auto].
      destruct (_ && _); [injection H as _ <- _; auto|].
      destruct (x_parse_string _ _) as [val|[re e]]; [|injection H as _ <- _; auto].
      destruct (emit _ _ _ _ _) as [tk st'] eqn:He; injection H as <- <- <-.
      right; eexists _, _, _, _; split; [reflexivity|exact He].
    - eapply leaf_keeps; [exact Hsound|exact Ho|].
      intros toks st t ind res toks' ind' H. unfold parse_number in H.
      destruct (x_number E underscore (src t)) as [n|]; [|injection H as _ <- _; auto].
      destruct (x_parse_number _ _ _) as [val|]; [|injection H as _ <- _; auto].
      destruct (emit _ _ _ _ _) as [tk st'] eqn:He; injection H as <- <- <-.
      right; eexists _, _, _, _; split; [reflexivity|exact He].
    - intros b junk p ind res toks' ind' Hr Hw H. eapply select_keeps; eassumption.
    - apply fast_keeps. exact Hsub.
    - intros b junk p ind res toks' ind' Hr Hw H. eapply seq_keeps; eassumption.
    - intros b junk p ind res toks' ind' Hr Hw H.
      eapply sep_keeps; [| |exact Hr|exact Hw|exact H]; apply Hsub; simpl; auto.
    - intros b junk p ind res toks' ind' Hr Hw H.
      eapply repeat_keeps; [|exact Hr|exact Hw|exact H]; apply Hsub; simpl; auto.
    - intros b junk p ind res toks' ind' Hr Hw H. unfold parse_lines, rt_lines in H.
      fold (closure indent (parse_rule E fuel (s_rules syn) r)) in H.
      destruct (lines_loop _ _ _ _ _ _) as [[lres ls]| |] eqn:Hl; cbn [obind] in H;
        try discriminate.
      assert (toks' = ls_toks ls) as ->.
      { destruct lres; cbn [obind] in H; injection H as _ <- _; reflexivity. }
      eapply lines_keeps; [|exact Hr|exact Hw|exact Hl]. apply Hsub; simpl; auto.
    - intros b junk p ind res toks' ind' Hr Hw H. unfold parse_node in H.
      destruct index as [i|]; [|injection H as _ <- _; apply left_here; exact Hw].
      change (rt_start (at_ p)) with (Rng p 0) in H.
      set (b1 := b ++ token property (Rng p 0) StartNode).
      assert (Hr1 : ready p b1).
      { subst b1. destruct property as [nm|]; cbn [token]; [|rewrite app_nil_r; exact Hr].
        destruct Hr as (Hu & Hm & Hp). split; [apply unf_start; exact Hu|]. split; [|exact Hp].
        apply Forall_app. split; [exact Hm|]. constructor; [|constructor].
        eapply made_by_start. exact Ho. }
      destruct (emit property StartNode _ _ _) as [tk1 st1] eqn:He1.
      destruct (emit_spec property StartNode (Rng p 0) (pre ++ b) junk) as (junk1 & Hes).
      assert (Hl1 : left_ok tk1).
      { eapply emit_keeps; [exact Hw| |exact He1]. eapply ready_whole. exact Hr1. }
      rewrite Hes in He1. injection He1 as <- <-. rewrite <- (app_assoc pre b) in *.
      fold b1 in H, Hl1. destruct Hl1 as (part & Hpart & Hw1).
      rewrite <- app_assoc in Hpart. apply app_inv_head in Hpart. subst part.
      destruct (nth_error (s_rules syn) i) as [c|] eqn:Hi; [|discriminate].
      assert (Hoc : occurs syn c) by (apply occurs_top; eapply nth_error_In; exact Hi).
      destruct (parse_rule _ _ _ _ _ _ _ _) as [[[res1 toks1] ind1]| |] eqn:He;
        cbn [obind] in H; try discriminate.
      eapply (Hfull c Hoc) in He; [|exact Hr1|exact Hw1]. destruct res1 as [rg1 st1 err1|e1].
      + destruct He as (n1 & out1 & junk2 & -> & -> & -> & Hr2 & Hw2 & Hpl & Hm). cbn [r_len] in H.
        destruct (emit property EndNode _ _ _) as [tk3 st3] eqn:He3. injection H as _ <- _.
        eapply emit_keeps; [exact Hw2| |exact He3].
        pose proof Hr2 as (_ & _ & Hp2). subst b1.
        destruct property as [nm|]; cbn [token] in *;
          [|rewrite !app_nil_r in *; eapply ready_whole; exact Hr2].
        rewrite <- !app_assoc. cbn [app]. eapply ready_whole.
        apply ready_app; [exact Hr|exact Hp2| |].
        * replace (rt_subtract _ _) with (Rng p n1)
            by (unfold rt_subtract; simpl; f_equal; lia).
          apply placed_node; [lia|exact Hpl|constructor; lia].
        * constructor; [eapply made_by_start; exact Ho|]. apply Forall_app. split; [exact Hm|].
          constructor; [eapply made_by_end; exact Ho|constructor].
      + destruct He as (junk2 & -> & Hw2). injection H as _ <- _. apply left_here. exact Hw2.
    - intros b junk p ind res toks' ind' Hr Hw H. unfold parse_optional in H.
      destruct (parse_rule _ _ _ _ _ _ _ _) as [[[res1 toks1] ind1]| |] eqn:He;
        cbn [obind] in H; try discriminate.
      eapply called_left. eapply (Hsub r (or_introl eq_refl)) in He; [|exact Hr|exact Hw].
      assert (toks' = toks1) as -> by (destruct res1; injection H as _ <- _; reflexivity).
      exact He.
    - intros b junk p ind res toks' ind' Hr Hw H. unfold parse_not in H.
      destruct (parse_rule _ _ _ _ _ _ _ _) as [[[res1 toks1] ind1]| |] eqn:He;
        cbn [obind] in H; try discriminate.
      eapply called_left. eapply (Hsub r (or_introl eq_refl)) in He; [|exact Hr|exact Hw].
      assert (toks' = toks1) as -> by (destruct res1; injection H as _ <- _; reflexivity).
      exact He.
  Qed.
End Left.

Theorem parse_leaves E s text tokens ind result tokens' :
  ext_ok E -> parse_returns E s text tokens ind result tokens' ->
  exists new, tokens' = tokens ++ new /\ beginning E s text new.
Proof.
  intros HE (fuel & H). unfold parse_with_indent in H. destruct (nth_error _ _) as [r|] eqn:Hr.
  2:{ injection H as <- <-. exists []. rewrite app_nil_r. split; [reflexivity|]. exists [].
      split; [constructor|]. split; [constructor; lia|constructor]. }
  assert (Hi : occurs s r) by (apply occurs_top; eapply nth_error_In; exact Hr).
  destruct (parse_rule _ _ _ _ _ _ _ _) as [[[res toks] ind']| |] eqn:He; cbn [obind] in H;
    try discriminate.
  assert (H0 : whole E s text []) by (split; [apply unf_placed|]; constructor; lia).
  pose proof (keeps_full E HE s text tokens r _ (parse_rule_sound E (s_rules s) fuel r) Hi
    (rule_keeps E HE s text tokens fuel r Hi)) as Hk.
  specialize (Hk [] [] 0 ind res toks ind').
  rewrite !app_nil_r in Hk. specialize (Hk ltac:(split; [apply unf_placed|]; repeat constructor; lia)
    H0 He).
  assert (Hend : forall part, whole E s text part -> beginning E s text part).
  { intros part (Hu & Hm). eapply unf_close; eassumption. }
  destruct res as [rg st err|e].
  - destruct (next_offset rg <? length text).
    + injection H as _ <-. apply called_left in Hk as (part & -> & Hw). eauto.
    + destruct Hk as (n & out & junk & _ & -> & -> & Hrd & _ & _ & Hm).
      injection H as _ <-. exists out.
      rewrite firstn_app, Nat.sub_diag, firstn_all. cbn [firstn app]. rewrite app_nil_r.
      split; [reflexivity|]. apply Hend. eapply ready_whole. exact Hrd.
  - injection H as _ <-. apply called_left in Hk as (part & -> & Hw). eauto.
Qed.
