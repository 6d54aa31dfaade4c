(** How much data there is at any moment, whether or not the text is accepted. *)
From Coq Require Import List NArith Bool Arith Lia.
From Verif Require Import Base Ext Types ParseModel PegSpec PrimProofs PegProofs PegFacts DataSpec TotalSpec TotalProofs
  OptProofs SafeProofs ApiSpec ParseProofs SizeSpec SizeProofs LeftProofs.
Import ListNotations.

Section Peak.
  Variable E : ext.
  Hypothesis HE : ext_ok E.
  Variable syn : syntax.
  Hypothesis Hwf : well_formed syn.
  Variable rank : nat -> nat.
  Notation refs := (s_rules syn).
  Hypothesis Hrank : forall i r j, nth_error refs i = Some r -> leads_to refs r j -> rank j < rank i.
  Variable K : nat.
  Hypothesis HK : forall i, i < length refs -> rank i < K.
  Notation lower := (lower syn rank).
  Notation cz := (cz syn K).
  Notation cw := (cw syn K).
  Notation cr := (cr syn K).
  Notation cc := (cc syn K).
  Notation size_at := (size_at syn K).

  Lemma cc_more n : cc * S n = cc + cc * n.
  Proof. lia. Qed.

  Lemma cc_parts : cc = cr + cw + 4 * cz + 2 /\ cr = cw + 4 * cz.
  Proof. split; reflexivity. Qed.

  Lemma cc_rest n m : n <= m -> cc * (m - n) + cc * n = cc * m.
  Proof. intros H. rewrite <- Nat.mul_add_distr_l. f_equal. lia. Qed.

  Opaque SizeProofs.cz SizeProofs.cw SizeProofs.cr SizeProofs.cc.

  (** What a call gives, if it gives anything. *)
  Definition told (r : rule) (base : list tok) (s : str) (p : nat) (res : pres) (toks' : list tok) : Prop :=
    match res with
    | POk rg st' _ => exists n out junk', rg = Rng p n /\ st' = length (base ++ out) /\ toks' = (base ++ out) ++ junk' /\
        n <= length s /\ (n = 0 -> may_be_empty refs r) /\
        (n = 0 -> length out <= cz) /\ (1 <= n -> length out + 4 * cz <= cc * n) /\
        (forall k, lower k r -> 1 <= n -> length out + cr <= cc * n + weight refs cz k r)
    | PErr _ => exists junk', toks' = base ++ junk'
    end.

  (** The vector never gets longer than a bound that has room for the rule. *)
  Definition peak (r : rule) (P : parser) : Prop :=
    forall base junk s p ind res toks' ind',
      P (base ++ junk) (length base) (RT s p) ind = Done (res, toks', ind') ->
      forall k T, lower k r -> length (base ++ junk) <= T -> length base + cc * length s + weight refs cz k r <= T ->
      length toks' <= T.

  Definition full (r : rule) (P : parser) : Prop :=
    occurs syn r /\ peak r P /\
    forall base junk s p ind res toks' ind',
      P (base ++ junk) (length base) (RT s p) ind = Done (res, toks', ind') -> told r base s p res toks'.

  Lemma full_peak r P : occurs syn r -> sound_for E refs r P -> peak r P -> full r P.
  Proof.
    intros Ho Hs Hp. split; [exact Ho|]. split; [exact Hp|]. intros base junk s p ind res toks' ind' H.
    apply Hs in H as (v & tr & Hv & Ha). destruct v as [n out|].
    - destruct Ha as (junk' & -> & ->). cbn [told]. exists n, out, junk'.
      pose proof (reads_fits E HE refs _ _ _ _ _ _ _ Hv) as [[Hn _] _].
      pose proof (proj1 (reads_sizes E HE syn Hwf rank Hrank K HK) _ _ _ _ _ _ _ Hv) as Hz. cbn in Hz. specialize (Hz Ho).
      destruct (size_any syn K r _ _ Ho (Hz K (lower_all syn rank K HK r))) as [A0 A1].
      repeat split; auto.
      + intros ->. eapply reads_empty; eassumption.
      + intros k Hk Hn1. destruct (Hz k Hk) as [_ Z1]. apply Z1. exact Hn1.
    - destruct Ha as (e & junk' & _ & -> & ->). cbn [told]. eauto.
  Qed.

  (** Without following the ranks. *)
  Lemma full_any r P : full r P -> forall base junk s p ind res toks' ind',
    P (base ++ junk) (length base) (RT s p) ind = Done (res, toks', ind') ->
    forall T, length (base ++ junk) <= T -> length base + cc * length s + cw <= T -> length toks' <= T.
  Proof.
    intros (Ho & Hp & _) base junk s p ind res toks' ind' H T HT Hb. eapply Hp; [exact H|apply lower_all; exact HK|exact HT|].
    pose proof (weight_occurs syn cz K r Ho) as Hw. change (weights refs cz K refs) with cw in Hw. lia.
  Qed.

  Lemma emit_peak property mk rg base junk toks' st' T :
    emit property mk rg (base ++ junk) (length base) = (toks', st') ->
    length (base ++ junk) <= T -> length base + 1 <= T -> length toks' <= T.
  Proof.
    intros H HT Hb. destruct property as [name|]; cbn [emit] in H; [|injection H as <- _; exact HT].
    unfold read_data in H. injection H as <- _. rewrite app_length. cbn [length].
    destruct (Nat.ltb_spec (length base) (length (base ++ junk))); [rewrite firstn_length; lia|lia].
  Qed.

  (** ** Loops *)

  Ltac call Hf He :=
    let Ht := fresh "Ht" in
    pose proof (proj2 (proj2 Hf) _ _ _ _ _ _ _ _ He) as Ht;
    match type of He with
    | _ = Done (?res, _, _) =>
      destruct res as [rg1 st1 err1|e1];
      [destruct Ht as (n1 & out1 & junk1 & -> & -> & Htk & Hn1 & He1 & Hz1 & Hc1 & Hk1)
      |destruct Ht as (junk1 & Htk)]
    end.

  Lemma seq_later_peak P args :
    (forall r, In r args -> full r (P r)) ->
    forall start base junk s p ind oe res toks' ind' T,
      seq_loop P args start (base ++ junk) (length base) (RT s p) ind oe = Done (res, toks', ind') ->
      length (base ++ junk) <= T -> length base + cc * length s + length args * cz + cw <= T -> length toks' <= T.
  Proof.
    induction args as [|r rest IH]; intros HP start base junk s p ind oe res toks' ind' T H HT Hb; cbn [seq_loop] in H.
    - injection H as _ <- _. exact HT.
    - destruct (P r _ _ _ _) as [[[res1 toks1] ind1]| |] eqn:He; cbn [obind] in H; try discriminate.
      pose proof (HP r (or_introl eq_refl)) as Hf. cbn [length Nat.mul] in Hb.
      assert (H1 : length toks1 <= T) by (eapply full_any; [exact Hf|exact He|exact HT|lia]).
      call Hf He.
      + cbn [r_len] in H. rewrite rt_eq in H. subst toks1. eapply IH; [intros; apply HP; right; assumption|exact H|exact H1|].
        rewrite skipn_length, app_length. pose proof (cc_rest _ _ Hn1).
        destruct n1 as [|n1]; [specialize (Hz1 eq_refl)|specialize (Hc1 ltac:(lia))]; lia.
      + injection H as _ <- _. exact H1.
  Qed.

  Lemma seq_first_peak P args :
    (forall r, In r args -> full r (P r)) ->
    forall start base junk s p ind oe res toks' ind' k T,
      seq_loop P args start (base ++ junk) (length base) (RT s p) ind oe = Done (res, toks', ind') ->
      (forall before r behind, args = before ++ r :: behind -> Forall (may_be_empty refs) before -> lower k r) ->
      length (base ++ junk) <= T -> length base + cc * length s + weights refs cz k args <= T -> length toks' <= T.
  Proof.
    induction args as [|r rest IH]; intros HP start base junk s p ind oe res toks' ind' k T H Hl HT Hb; cbn [seq_loop] in H.
    - injection H as _ <- _. exact HT.
    - destruct (P r _ _ _ _) as [[[res1 toks1] ind1]| |] eqn:He; cbn [obind] in H; try discriminate.
      pose proof (HP r (or_introl eq_refl)) as Hf. cbn [weights] in Hb.
      assert (Hlr : lower k r) by (apply (Hl [] r rest eq_refl); constructor).
      assert (H1 : length toks1 <= T) by (eapply (proj1 (proj2 Hf)); [exact He|exact Hlr|exact HT|lia]).
      call Hf He.
      + cbn [r_len] in H. rewrite rt_eq in H. subst toks1. destruct n1 as [|n1].
        * eapply (IH (fun x Hx => HP x (or_intror Hx))); [exact H| |exact H1|].
          { intros before x behind -> Hbe. apply (Hl (r :: before) x behind eq_refl). constructor; auto. }
          rewrite skipn_length, app_length, Nat.sub_0_r. specialize (Hz1 eq_refl). lia.
        * eapply seq_later_peak; [exact (fun x Hx => HP x (or_intror Hx))|exact H|exact H1|].
          rewrite skipn_length, app_length. pose proof (cc_rest _ _ Hn1). specialize (Hk1 k Hlr ltac:(lia)).
          pose proof (proj2 cc_parts).
          assert (Hlen : length rest * cz <= weights refs cz k rest) by (clear; induction rest as [|a l IH]; cbn; [lia|]; lia).
          lia.
      + injection H as _ <- _. exact H1.
  Qed.

  Lemma select_peak P args id k T :
    (forall r, In r args -> full r (P r) /\ lower k r) ->
    forall base junk s p ind oe res toks' ind',
      select_loop P args id (base ++ junk) (length base) (RT s p) ind oe = Done (res, toks', ind') ->
      length (base ++ junk) <= T -> length base + cc * length s + weights refs cz k args <= T -> length toks' <= T.
  Proof.
    induction args as [|r rest IH]; intros HP base junk s p ind oe res toks' ind' H HT Hb; cbn [select_loop] in H.
    - destruct oe; injection H as _ <- _; exact HT.
    - destruct (P r _ _ _ _) as [[[res1 toks1] ind1]| |] eqn:He; cbn [obind] in H; try discriminate.
      destruct (HP r (or_introl eq_refl)) as [Hf Hlr]. cbn [weights] in Hb.
      assert (H1 : length toks1 <= T) by (eapply (proj1 (proj2 Hf)); [exact He|exact Hlr|exact HT|lia]).
      call Hf He.
      + injection H as _ <- _. exact H1.
      + subst toks1. eapply IH; [intros; apply HP; right; assumption|exact H|exact H1|lia].
  Qed.

  Lemma fast_tail_peak P args oe k T :
    (forall r, In r args -> full r (P r) /\ lower k r) ->
    forall base junk s p ind res toks' ind',
      fast_tail P args oe (base ++ junk) (length base) (RT s p) ind = Done (res, toks', ind') ->
      length (base ++ junk) <= T -> length base + cc * length s + weights refs cz k args <= T -> length toks' <= T.
  Proof.
    intros HP base junk s p ind res toks' ind' H HT Hb. unfold fast_tail in H.
    destruct args as [|a args']; [discriminate|]. set (args := a :: args') in *.
    destruct (nth_error _ _) as [r|] eqn:Hn; [|discriminate]. apply nth_error_In in Hn.
    destruct (P r _ _ _ _) as [[[res1 toks1] ind1]| |] eqn:He; cbn [obind] in H; try discriminate.
    destruct (HP r Hn) as [Hf Hlr]. pose proof (weights_in refs cz k _ _ Hn).
    assert (H1 : length toks1 <= T) by (eapply (proj1 (proj2 Hf)); [exact He|exact Hlr|exact HT|lia]).
    destruct res1; injection H as _ <- _; exact H1.
  Qed.

  Lemma fast_peak P table args tail id k T :
    (forall r, In r args -> full r (P r) /\ lower k r) ->
    forall base junk s p ind res toks' ind',
      parse_fast_select P table args tail id (base ++ junk) (length base) (RT s p) ind = Done (res, toks', ind') ->
      length (base ++ junk) <= T -> length base + cc * length s + weights refs cz k args <= T -> length toks' <= T.
  Proof.
    intros HP base junk s p ind res toks' ind' H HT Hb. unfold parse_fast_select in H. cbn [src] in H.
    destruct s as [|ch s]; [injection H as _ <- _; exact HT|].
    destruct (nth_error table _) as [i|]; [|discriminate].
    destruct (Nat.eqb i 255).
    - destruct tail; [eapply fast_tail_peak; eassumption|]. injection H as _ <- _. exact HT.
    - destruct (nth_error args i) as [r|] eqn:Hn; [|discriminate]. apply nth_error_In in Hn.
      destruct (P r _ _ _ _) as [[[res1 toks1] ind1]| |] eqn:He; cbn [obind] in H; try discriminate.
      destruct (HP r Hn) as [Hf Hlr]. pose proof (weights_in refs cz k _ _ Hn).
      assert (H1 : length toks1 <= T) by (eapply (proj1 (proj2 Hf)); [exact He|exact Hlr|exact HT|lia]).
      call Hf He.
      + injection H as _ <- _. exact H1.
      + destruct tail; [|injection H as _ <- _; exact H1]. subst toks1. eapply fast_tail_peak; eassumption.
  Qed.

  Lemma repeat_later_peak r P : full r P -> ~ may_be_empty refs r ->
    forall fuel optional first start base junk s p ind oe res toks' ind' T,
      repeat_loop fuel P optional start first (base ++ junk) (length base) (RT s p) ind oe = Done (res, toks', ind') ->
      length (base ++ junk) <= T -> length base + cc * length s + cw <= T -> length toks' <= T.
  Proof.
    intros Hf Hne fuel. induction fuel as [|fuel IH]; intros optional first start base junk s p ind oe res toks' ind' T H HT Hb;
      cbn [repeat_loop] in H; [discriminate|].
    destruct (P _ _ _ _) as [[[res1 toks1] ind1]| |] eqn:He; cbn [obind] in H; try discriminate.
    assert (H1 : length toks1 <= T) by (eapply full_any; [exact Hf|exact He|exact HT|lia]).
    call Hf He.
    - cbn [r_len] in H. rewrite rt_eq in H. subst toks1. eapply IH; [exact H|exact H1|].
      rewrite skipn_length, app_length. pose proof (cc_rest _ _ Hn1).
      destruct n1 as [|n1]; [destruct (Hne (He1 eq_refl))|specialize (Hc1 ltac:(lia))]. lia.
    - destruct (first && negb optional); injection H as _ <- _; exact H1.
  Qed.

  Lemma repeat_first_peak r P : full r P -> ~ may_be_empty refs r ->
    forall fuel optional first start base junk s p ind oe res toks' ind' k T,
      repeat_loop fuel P optional start first (base ++ junk) (length base) (RT s p) ind oe = Done (res, toks', ind') ->
      lower k r -> length (base ++ junk) <= T -> length base + cc * length s + weight refs cz k r <= T -> length toks' <= T.
  Proof.
    intros Hf Hne fuel optional first start base junk s p ind oe res toks' ind' k T H Hl HT Hb.
    destruct fuel as [|fuel]; cbn [repeat_loop] in H; [discriminate|].
    destruct (P _ _ _ _) as [[[res1 toks1] ind1]| |] eqn:He; cbn [obind] in H; try discriminate.
    assert (H1 : length toks1 <= T) by (eapply (proj1 (proj2 Hf)); [exact He|exact Hl|exact HT|lia]).
    call Hf He.
    - cbn [r_len] in H. rewrite rt_eq in H. subst toks1. eapply repeat_later_peak; [exact Hf|exact Hne|exact H|exact H1|].
      rewrite skipn_length, app_length. pose proof (cc_rest _ _ Hn1). pose proof (proj2 cc_parts).
      destruct n1 as [|n1]; [destruct (Hne (He1 eq_refl))|specialize (Hk1 k Hl ltac:(lia))]. lia.
    - destruct (first && negb optional); injection H as _ <- _; exact H1.
  Qed.

  Lemma sep_later_peak r by_ P Q : full r P -> full by_ Q -> ~ (may_be_empty refs r /\ may_be_empty refs by_) ->
    forall fuel optional trail first start base junk s p ind oe res toks' ind' T,
      sep_loop fuel P Q optional trail start first (base ++ junk) (length base) (RT s p) ind oe = Done (res, toks', ind') ->
      length (base ++ junk) <= T -> length base + cc * length s + cw + cz <= T -> length toks' <= T.
  Proof.
    intros Hf Hg Hne fuel. induction fuel as [|fuel IH]; intros optional trail first start base junk s p ind oe res toks' ind' T H HT Hb;
      cbn [sep_loop] in H; [discriminate|].
    destruct (P _ _ _ _) as [[[res1 toks1] ind1]| |] eqn:He; cbn [obind] in H; try discriminate.
    assert (H1 : length toks1 <= T) by (eapply full_any; [exact Hf|exact He|exact HT|lia]).
    call Hf He.
    - cbn [r_len] in H. rewrite rt_eq in H. subst toks1.
      destruct (Q _ _ _ _) as [[[res2 toks2] ind2]| |] eqn:Hq; cbn [obind] in H; try discriminate.
      assert (H2 : length toks2 <= T).
      { eapply full_any; [exact Hg|exact Hq|exact H1|]. rewrite skipn_length, app_length. pose proof (cc_rest _ _ Hn1).
        destruct n1 as [|n1]; [specialize (Hz1 eq_refl)|specialize (Hc1 ltac:(lia))]; lia. }
      pose proof (proj2 (proj2 Hg) _ _ _ _ _ _ _ _ Hq) as Ht. destruct res2 as [rg2 st2 err2|e2].
      + destruct Ht as (n2 & out2 & junk2 & -> & -> & -> & Hn2 & He2 & Hz2 & Hc2 & _). cbn [r_len] in H. rewrite rt_eq in H.
        eapply IH; [exact H|exact H2|]. rewrite !skipn_length, !app_length in *. pose proof (cc_rest _ _ Hn1). pose proof (cc_rest _ _ Hn2).
        destruct n1 as [|n1]; [specialize (Hz1 eq_refl)|specialize (Hc1 ltac:(lia))];
          (destruct n2 as [|n2]; [specialize (Hz2 eq_refl)|specialize (Hc2 ltac:(lia))]); try lia.
        destruct Hne. auto.
      + injection H as _ <- _. exact H2.
    - destruct (if first then negb optional else negb trail); injection H as _ <- _; exact H1.
  Qed.

  Lemma sep_first_peak r by_ P Q : full r P -> full by_ Q -> ~ (may_be_empty refs r /\ may_be_empty refs by_) ->
    forall fuel optional trail first start base junk s p ind oe res toks' ind' k T,
      sep_loop fuel P Q optional trail start first (base ++ junk) (length base) (RT s p) ind oe = Done (res, toks', ind') ->
      lower k r -> (may_be_empty refs r -> lower k by_) ->
      length (base ++ junk) <= T -> length base + cc * length s + 4 * cz + weight refs cz k r + weight refs cz k by_ <= T ->
      length toks' <= T.
  Proof.
    intros Hf Hg Hne fuel optional trail first start base junk s p ind oe res toks' ind' k T H Hl Hlb HT Hb.
    destruct fuel as [|fuel]; cbn [sep_loop] in H; [discriminate|].
    destruct (P _ _ _ _) as [[[res1 toks1] ind1]| |] eqn:He; cbn [obind] in H; try discriminate.
    assert (H1 : length toks1 <= T) by (eapply (proj1 (proj2 Hf)); [exact He|exact Hl|exact HT|lia]).
    pose proof (proj2 cc_parts) as Hcr. call Hf He.
    - cbn [r_len] in H. rewrite rt_eq in H. subst toks1.
      destruct (Q _ _ _ _) as [[[res2 toks2] ind2]| |] eqn:Hq; cbn [obind] in H; try discriminate.
      assert (H2 : length toks2 <= T).
      { pose proof (cc_rest _ _ Hn1). destruct n1 as [|n1].
        - eapply (proj1 (proj2 Hg)); [exact Hq|exact (Hlb (He1 eq_refl))|exact H1|]. rewrite skipn_length, app_length.
          specialize (Hz1 eq_refl). lia.
        - eapply full_any; [exact Hg|exact Hq|exact H1|]. rewrite skipn_length, app_length. specialize (Hk1 k Hl ltac:(lia)). lia. }
      pose proof (proj2 (proj2 Hg) _ _ _ _ _ _ _ _ Hq) as Ht. destruct res2 as [rg2 st2 err2|e2].
      + destruct Ht as (n2 & out2 & junk2 & -> & -> & -> & Hn2 & He2 & Hz2 & Hc2 & Hk2). cbn [r_len] in H. rewrite rt_eq in H.
        eapply sep_later_peak; [exact Hf|exact Hg|exact Hne|exact H|exact H2|]. rewrite !skipn_length, !app_length in *.
        pose proof (cc_rest _ _ Hn1). pose proof (cc_rest _ _ Hn2). destruct n1 as [|n1].
        * specialize (Hz1 eq_refl). destruct n2 as [|n2]; [destruct Hne; auto|]. specialize (Hk2 k (Hlb (He1 eq_refl)) ltac:(lia)). lia.
        * specialize (Hk1 k Hl ltac:(lia)). destruct n2 as [|n2]; [specialize (Hz2 eq_refl)|specialize (Hc2 ltac:(lia))]; lia.
      + injection H as _ <- _. exact H2.
    - destruct (if first then negb optional else negb trail); injection H as _ <- _; exact H1.
  Qed.

  (** ** Lines *)

  (** What the closure gives for a line, and what it leaves. *)
  Definition line_told (r : rule) (base : list tok) (s : str) (p : nat) (ores : option range) (ls : lines_state) : Prop :=
    match ores with
    | Some rg => told r base s p (POk rg (ls_state ls) None) (ls_toks ls)
    | None => True
    end.

  Lemma item_peak r P : full r P -> forall base junk s p j first err fr ind0 ind ores ls',
    j <= length s ->
    lines_item_indent P p (RT (skipn j s) (p + j)) first (LS (base ++ junk) (length base) err fr ind0) ind = Done (ores, ls') ->
    line_told r base s p ores ls' /\
    forall k T, lower k r -> length (base ++ junk) <= T -> length base + cc * length s + weight refs cz k r <= T -> length (ls_toks ls') <= T.
  Proof.
    intros Hf base junk s p j first err fr ind0 ind ores ls' Hj H. unfold lines_item_indent in H. cbn [ls_toks ls_state ls_err] in H.
    destruct (add_u32 (i_indent ind) 1) as [i1| |]; cbn [obind] in H; try discriminate.
    destruct (P _ _ _ _) as [[[res1 toks1] ind1]| |] eqn:He; cbn [obind] in H; try discriminate.
    pose proof cc_parts as [Hcc Hcr]. pose proof (cc_rest _ _ Hj) as Hjj.
    assert (Hpk : forall k T, lower k r -> length (base ++ junk) <= T -> length base + cc * length s + weight refs cz k r <= T -> length toks1 <= T).
    { intros k T Hl HT Hb. destruct j as [|j].
      - rewrite ?skipn_O in He. eapply (proj1 (proj2 Hf)); [exact He|exact Hl|exact HT|exact Hb].
      - eapply full_any; [exact Hf|exact He|exact HT|]. rewrite skipn_length. rewrite cc_more in Hjj. lia. }
    call Hf He; injection H as <- <-; cbn [line_told ls_toks ls_state]; (split; [|exact Hpk]); [|exact I].
    cbn [told]. exists (j + n1), out1, junk1. rewrite skipn_length in Hn1.
    split; [unfold next_offset; cbn [r_off r_len]; f_equal; lia|]. split; [reflexivity|]. split; [exact Htk|]. split; [lia|].
    split; [intros Hz; apply He1; lia|]. split; [intros Hz; apply Hz1; lia|]. rewrite Nat.mul_add_distr_l. destruct j as [|j].
    - split; [intros Hn; specialize (Hc1 ltac:(lia)); lia|]. intros k Hl Hn. specialize (Hk1 k Hl ltac:(lia)). lia.
    - rewrite cc_more. split.
      + intros _. destruct n1 as [|n1]; [specialize (Hz1 eq_refl)|specialize (Hc1 ltac:(lia))]; lia.
      + intros k Hl _. destruct n1 as [|n1]; [specialize (Hz1 eq_refl)|specialize (Hc1 ltac:(lia))]; lia.
  Qed.

  Lemma closure_peak r P indented : full r P -> forall base junk s p err fr ind0 ores ls',
    closure indented P (RT s p) (LS (base ++ junk) (length base) err fr ind0) = Done (ores, ls') ->
    line_told r base s p ores ls' /\
    forall k T, lower k r -> length (base ++ junk) <= T -> length base + cc * length s + weight refs cz k r <= T -> length (ls_toks ls') <= T.
  Proof.
    intros Hf base junk s p err fr ind0 ores ls' H. destruct indented; cbn [closure] in H.
    - unfold lines_closure_indent in H. cbn [ls_ind ls_first src off] in H.
      destruct (skip_indent _ _ _) as [j|] eqn:Hj; [|injection H as <- <-; split; [exact I|intros; assumption]].
      apply skip_indent_le in Hj. rewrite rt_eq in H. destruct (fr && i_align_first ind0).
      + destruct (align_indent _ _ _) as [[j2 m]| |] eqn:Ha; cbn [obind] in H; try discriminate.
        apply align_indent_le in Ha. cbn [src] in Ha. rewrite skipn_length in Ha. rewrite rt_eq, skipn_skipn_add, <- Nat.add_assoc in H.
        eapply item_peak; [exact Hf| |exact H]. lia.
      + destruct (rt_tag _ _); [injection H as <- <-; split; [exact I|intros; assumption]|].
        eapply item_peak; [exact Hf|exact Hj|exact H].
    - unfold lines_closure_plain in H. cbn [ls_toks ls_state ls_ind ls_err ls_first] in H.
      destruct (P _ _ _ _) as [[[res1 toks1] ind1]| |] eqn:He; cbn [obind] in H; try discriminate.
      pose proof (proj1 (proj2 Hf) _ _ _ _ _ _ _ _ He) as Hp. pose proof (proj2 (proj2 Hf) _ _ _ _ _ _ _ _ He) as Ht.
      destruct res1; injection H as <- <-; cbn [line_told ls_toks ls_state]; (split; [|exact Hp]); [exact Ht|exact I].
  Qed.

  Lemma closure_any r P indented : full r P -> forall base junk s p err fr ind0 ores ls' T,
    closure indented P (RT s p) (LS (base ++ junk) (length base) err fr ind0) = Done (ores, ls') ->
    length (base ++ junk) <= T -> length base + cc * length s + cw <= T -> length (ls_toks ls') <= T.
  Proof.
    intros Hf base junk s p err fr ind0 ores ls' T H HT Hb. destruct (closure_peak r P indented Hf _ _ _ _ _ _ _ _ _ H) as [_ Hp].
    apply (Hp K); [apply lower_all; exact HK|exact HT|].
    pose proof (weight_occurs syn cz K r (proj1 Hf)) as Hw. change (weights refs cz K refs) with cw in Hw. lia.
  Qed.

  Lemma no_line_end t : ends_with_newline (rt_raw_string t 0) = false.
  Proof. reflexivity. Qed.

  Lemma after_newline_pos s k : after_last_newline s = Some k -> 1 <= k.
  Proof.
    revert k. induction s as [|c s IH]; intros k H; cbn [after_last_newline] in H; [discriminate|].
    destruct (after_last_newline s); [injection H as <-; lia|]. destruct (N.eqb c newline); [injection H as <-; lia|discriminate].
  Qed.

  Lemma lines_later_peak r P indented : full r P ->
    forall fuel nl base junk s p err fr ind res ls' T,
      lines_loop E (closure indented P) fuel nl (RT s p) (LS (base ++ junk) (length base) err fr ind) = Done (res, ls') ->
      length (base ++ junk) <= T -> length base + cc * length s + (if nl then cw + cz else 0) <= T -> length (ls_toks ls') <= T.
  Proof.
    intros Hf fuel. induction fuel as [|fuel IH]; intros nl base junk s p err fr ind res ls' T H HT Hb; [discriminate|].
    cbn [lines_loop src] in H. destruct (Nat.eqb _ _); [injection H as _ <-; exact HT|].
    assert (Hgo : forall s1 p1, length base + cc * length s1 + cw + cz <= T ->
      (do (ores, ls1) <- closure indented P (RT s1 p1) (LS (base ++ junk) (length base) err fr ind);
       match ores with
       | None => Done (inl (RT s1 p1), ls1)
       | Some rg => lines_loop E (closure indented P) fuel (ends_with_newline (rt_raw_string (RT s1 p1) (r_len rg))) (rt_consume (RT s1 p1) (r_len rg)) ls1
       end) = Done (res, ls') -> length (ls_toks ls') <= T).
    { clear H. intros s1 p1 Hb1 H. destruct (closure _ _ _ _) as [[ores ls1]| |] eqn:Hc; cbn [obind] in H; try discriminate.
      assert (H1 : length (ls_toks ls1) <= T) by (eapply closure_any; [exact Hf|exact Hc|exact HT|lia]).
      apply (closure_peak r P indented Hf) in Hc. destruct Hc as [Ht _]. destruct ores as [rg|]; [|injection H as _ <-; exact H1].
      destruct ls1 as [tk1 st1 er1 fr1 in1]. cbn [line_told told ls_toks ls_state] in Ht, H1.
      destruct Ht as (n & out & junk' & -> & -> & -> & Hn & _ & Hz & Hc & _). cbn [r_len] in H. rewrite rt_eq in H.
      eapply IH; [exact H|exact H1|]. rewrite skipn_length, app_length. pose proof (cc_rest _ _ Hn). destruct n as [|n].
      - rewrite no_line_end. specialize (Hz eq_refl). lia.
      - specialize (Hc ltac:(lia)). destruct (ends_with_newline _); lia. }
    pose proof cc_parts as [Hcc Hcr]. destruct (after_last_newline _) as [k|] eqn:Hk.
    - rewrite rt_eq in H. eapply Hgo; [|exact H]. pose proof (after_newline_pos _ _ Hk) as Hp. apply after_last_newline_le in Hk.
      rewrite firstn_length in Hk. rewrite skipn_length. pose proof (cc_rest k (length s) ltac:(lia)) as Hr.
      destruct k as [|k]; [lia|]. rewrite cc_more in Hr. destruct nl; lia.
    - destruct nl; [|injection H as _ <-; exact HT]. eapply Hgo; [|exact H]. lia.
  Qed.

  Lemma lines_first_peak r P indented : full r P ->
    forall fuel base junk s p err fr ind res ls' k T,
      lines_loop E (closure indented P) fuel true (RT s p) (LS (base ++ junk) (length base) err fr ind) = Done (res, ls') ->
      lower k r -> length (base ++ junk) <= T -> length base + cc * length s + 2 * cz + weight refs cz k r <= T -> length (ls_toks ls') <= T.
  Proof.
    intros Hf fuel base junk s p err fr ind res ls' k T H Hl HT Hb. destruct fuel as [|fuel]; [discriminate|].
    pose proof cc_parts as [Hcc Hcr]. pose proof H as H0.
    cbn [lines_loop src] in H. destruct (Nat.eqb _ _); [injection H as _ <-; exact HT|].
    destruct (after_last_newline _) as [j|] eqn:Hj.
    - refine (lines_later_peak r P indented Hf (S fuel) false base junk s p err fr ind res ls' T _ HT ltac:(cbv iota; lia)).
      cbn [lines_loop src]. cbn [lines_loop src] in H0. rewrite Hj in *. exact H0.
    - clear H0. destruct (closure _ _ _ _) as [[ores ls1]| |] eqn:Hc; cbn [obind] in H; try discriminate.
      apply (closure_peak r P indented Hf) in Hc. destruct Hc as [Ht Hp].
      assert (H1 : length (ls_toks ls1) <= T) by (apply (Hp k T Hl HT); lia).
      destruct ores as [rg|]; [|injection H as _ <-; exact H1].
      destruct ls1 as [tk1 st1 er1 fr1 in1]. cbn [line_told told ls_toks ls_state] in Ht, H1.
      destruct Ht as (n & out & junk' & -> & -> & -> & Hn & _ & Hz & _ & Hk). cbn [r_len] in H. rewrite rt_eq in H.
      eapply lines_later_peak; [exact Hf|exact H|exact H1|]. rewrite skipn_length, app_length. pose proof (cc_rest _ _ Hn).
      destruct n as [|n].
      + rewrite no_line_end. specialize (Hz eq_refl). lia.
      + specialize (Hk k Hl ltac:(lia)). destruct (ends_with_newline _); lia.
  Qed.

  (** ** All rules *)

  Lemma leaf_peak r P : (forall z k, weight refs z k r = 2) ->
    (forall toks st t ind res toks' ind', P toks st t ind = Done (res, toks', ind') ->
       toks' = toks \/ exists rg st' property mk, emit property mk rg toks st = (toks', st')) ->
    peak r P.
  Proof.
    intros Hw HP base junk s p ind res toks' ind' H k T _ HT Hb. rewrite Hw in Hb.
    apply HP in H as [->|(rg & st' & property & mk & He)]; [exact HT|]. eapply emit_peak; [exact He|exact HT|lia].
  Qed.

  Theorem rule_peak fuel : forall r, occurs syn r -> peak r (parse_rule E fuel refs r).
  Proof.
    induction fuel as [|fuel IH]; intros r Ho; [intros base junk s p ind res toks' ind' H; discriminate|].
    assert (Hfull : forall c, occurs syn c -> full c (parse_rule E fuel refs c)).
    { intros c Hc. apply full_peak; [exact Hc|apply parse_rule_sound|apply IH; exact Hc]. }
    assert (Hsub : forall c, In c (children r) -> full c (parse_rule E fuel refs c)).
    { intros c Hc. apply Hfull. eapply occurs_child; eassumption. }
    pose proof (fun k c => lower_first syn rank k r c) as Hfirst.
    destruct r; cbn [parse_rule children] in *.
    - apply leaf_peak; [intros z [|k]; reflexivity|].
      intros toks st t ind res toks' ind' H. unfold parse_whitespace in H. destruct (_ && _); injection H as _ <- _; auto.
    - apply leaf_peak; [intros z [|k]; reflexivity|].
      intros toks st t ind res toks' ind' H. unfold parse_tag in H.
      destruct (rt_tag t text) as [rg|]; destruct not; try (injection H as _ <- _; auto; fail);
        (destruct (emit _ _ _ _ _) as [tk st'] eqn:He; injection H as <- <- <-; right; eauto).
    - apply leaf_peak; [intros z [|k]; reflexivity|].
      intros toks st t ind res toks' ind' H. unfold parse_until in H. destruct (_ && _); [injection H as _ <- _; auto|].
      destruct (emit _ _ _ _ _) as [tk st'] eqn:He; injection H as <- <- <-; right; eauto.
    - apply leaf_peak; [intros z [|k]; reflexivity|].
      intros toks st t ind res toks' ind' H. unfold parse_until in H. destruct (_ && _); [injection H as _ <- _; auto|].
      destruct (emit _ _ _ _ _) as [tk st'] eqn:He; injection H as <- <- <-; right; eauto.
    - apply leaf_peak; [intros z [|k]; reflexivity|].
      intros toks st t ind res toks' ind' H. unfold parse_text in H.
      destruct (x_string E (src t)) as [n|]; [|injection H as _ <- _; auto].
      destruct (_ && _); [injection H as _ <- _; auto|].
      destruct (x_parse_string _ _) as [val|[re e]]; [|injection H as _ <- _; auto].
      destruct (emit _ _ _ _ _) as [tk st'] eqn:He; injection H as <- <- <-; right; eauto.
    - apply leaf_peak; [intros z [|k]; reflexivity|].
      intros toks st t ind res toks' ind' H. unfold parse_number in H.
      destruct (x_number E underscore (src t)) as [n|]; [|injection H as _ <- _; auto].
      destruct (x_parse_number _ _ _) as [val|]; [|injection H as _ <- _; auto].
      destruct (emit _ _ _ _ _) as [tk st'] eqn:He; injection H as <- <- <-; right; eauto.
    - intros base junk s p ind res toks' ind' H k T Hl HT Hb. destruct (weight_args refs cz k args) as (W & _ & _). rewrite W in Hb.
      eapply select_peak; [|exact H|exact HT|exact Hb]. intros c Hc. split; [apply Hsub; exact Hc|].
      eapply Hfirst; [exact Hl|apply first_select; exact Hc].
    - intros base junk s p ind res toks' ind' H k T Hl HT Hb. destruct (weight_args refs cz k args) as (_ & W & _). rewrite W in Hb.
      eapply fast_peak; [|exact H|exact HT|exact Hb]. intros c Hc. split; [apply Hsub; exact Hc|].
      eapply Hfirst; [exact Hl|apply first_fast; exact Hc].
    - intros base junk s p ind res toks' ind' H k T Hl HT Hb. destruct (weight_args refs cz k args) as (_ & _ & W). rewrite W in Hb.
      eapply seq_first_peak; [exact Hsub|exact H| |exact HT|exact Hb].
      intros before c behind -> Hbe. eapply Hfirst; [exact Hl|apply first_sequence; exact Hbe].
    - intros base junk s p ind res toks' ind' H k T Hl HT Hb.
      eapply sep_first_peak; [apply Hsub; left; reflexivity|apply Hsub; right; left; reflexivity| |exact H| | |exact HT|].
      + exact (proj1 (proj2 Hwf) _ _ _ _ _ Ho).
      + eapply Hfirst; [exact Hl|apply first_separate].
      + intros Hbe. eapply Hfirst; [exact Hl|apply first_separator; exact Hbe].
      + match type of Hb with context [weight _ _ _ (RSeparateBy ?a ?b ?c ?d ?e)] => assert (W : weight refs cz k (RSeparateBy a b c d e) = 4 * cz + weight refs cz k a + weight refs cz k b) by (destruct k; reflexivity) end. lia.
    - intros base junk s p ind res toks' ind' H k T Hl HT Hb.
      eapply repeat_first_peak; [apply Hsub; left; reflexivity|exact (proj1 Hwf _ _ _ Ho)|exact H| |exact HT|].
      + eapply Hfirst; [exact Hl|apply first_repeat].
      + match type of Hb with context [weight _ _ _ ?x] => pose proof (weight_child refs cz k r x (or_introl eq_refl)) end. lia.
    - intros base junk s p ind res toks' ind' H k T Hl HT Hb. unfold parse_lines, rt_lines in H.
      fold (closure indent (parse_rule E fuel refs r)) in H.
      destruct (lines_loop _ _ _ _ _ _) as [[lres ls]| |] eqn:Hll; cbn [obind] in H; try discriminate.
      assert (toks' = ls_toks ls) as ->.
      { destruct lres; cbn [obind] in H; injection H as _ <- _; reflexivity. }
      eapply lines_first_peak; [apply Hsub; left; reflexivity|exact Hll| |exact HT|].
      + eapply Hfirst; [exact Hl|apply first_lines].
      + match type of Hb with context [weight _ _ _ (RLines ?a ?b ?c)] => assert (W : weight refs cz k (RLines a b c) = 2 * cz + weight refs cz k a) by (destruct k; reflexivity) end. lia.
    - intros base junk s p ind res toks' ind' H k T Hl HT Hb. unfold parse_node in H.
      destruct index as [i|]; [|injection H as _ <- _; exact HT].
      destruct (emit property StartNode _ _ _) as [tk1 st1] eqn:He1.
      destruct (nth_error refs i) as [c|] eqn:Hi; [|discriminate].
      assert (Hoc : occurs syn c) by (apply occurs_top; eapply nth_error_In; exact Hi).
      destruct (lower_node syn rank Hrank _ _ _ _ _ _ Hl Hi) as (k' & -> & Hlc). cbn [weight] in Hb. rewrite Hi in Hb.
      destruct (parse_rule _ _ _ _ _ _ _ _) as [[[res1 toks1] ind1]| |] eqn:He; cbn [obind] in H; try discriminate.
      destruct (emit_spec property StartNode (rt_start (RT s p)) base junk) as (junk1 & Hes).
      destruct property as [nm|]; cbn [emit token] in *.
      + assert (Hs1 : length tk1 = length base + 1 /\ st1 = length base + 1).
        { unfold read_data in He1. injection He1 as <- <-. rewrite app_length. cbn [length].
          destruct (Nat.ltb_spec (length base) (length (base ++ junk))) as [Hlt|Hge]; [rewrite firstn_length; lia|].
          rewrite app_length in *. lia. }
        destruct Hs1 as [Hl1 Hst1]. rewrite Hes in He1. injection He1 as Ht1 Hst. rewrite <- Ht1, <- Hst in He.
        rewrite <- Ht1 in Hl1.
        assert (H1 : length toks1 <= T - 1).
        { eapply (proj1 (proj2 (Hfull c Hoc))); [exact He|exact Hlc|lia|]. rewrite app_length. cbn [length]. lia. }
        pose proof (proj2 (proj2 (Hfull c Hoc)) _ _ _ _ _ _ _ _ He) as Ht. destruct res1 as [rg1 st2 err1|e1].
        * destruct Ht as (n1 & out1 & junk2 & -> & -> & -> & _). cbn [r_len] in H.
          destruct (read_data _ _ _) as [tk3 st3] eqn:He3. injection H as _ <- _.
          change (emit (Some nm) EndNode (rt_subtract (rt_consume (RT s p) n1) (RT s p)) ((((base ++ [(rt_start (RT s p), StartNode nm)]) ++ out1) ++ junk2))
            (length ((base ++ [(rt_start (RT s p), StartNode nm)]) ++ out1)) = (tk3, st3)) in He3.
          eapply emit_peak; [exact He3|lia|]. rewrite app_length in H1. lia.
        * injection H as _ <- _. lia.
      + injection He1 as <- <-.
        assert (H1 : length toks1 <= T).
        { eapply (proj1 (proj2 (Hfull c Hoc))); [exact He|exact Hlc|exact HT|lia]. }
        destruct res1; injection H as _ <- _; exact H1.
    - intros base junk s p ind res toks' ind' H k T Hl HT Hb. unfold parse_optional in H.
      destruct (parse_rule _ _ _ _ _ _ _ _) as [[[res1 toks1] ind1]| |] eqn:He; cbn [obind] in H; try discriminate.
      assert (toks' = toks1) as -> by (destruct res1; injection H as _ <- _; reflexivity).
      eapply (proj1 (proj2 (Hsub r (or_introl eq_refl)))); [exact He| |exact HT|].
      + eapply Hfirst; [exact Hl|apply first_optional].
      + match type of Hb with context [weight _ _ _ ?x] => pose proof (weight_child refs cz k r x (or_introl eq_refl)) end. lia.
    - intros base junk s p ind res toks' ind' H k T Hl HT Hb. unfold parse_not in H.
      destruct (parse_rule _ _ _ _ _ _ _ _) as [[[res1 toks1] ind1]| |] eqn:He; cbn [obind] in H; try discriminate.
      assert (toks' = toks1) as -> by (destruct res1; injection H as _ <- _; reflexivity).
      eapply (proj1 (proj2 (Hsub r (or_introl eq_refl)))); [exact He| |exact HT|].
      + eapply Hfirst; [exact Hl|apply first_not].
      + match type of Hb with context [weight _ _ _ ?x] => pose proof (weight_child refs cz k r x (or_introl eq_refl)) end. lia.
  Qed.

  Lemma parse_peak text tokens ind result new : parse_returns E syn text tokens ind result (tokens ++ new) ->
    length new <= cc * S (length text).
  Proof.
    intros (fuel & H). unfold parse_with_indent in H. destruct (nth_error _ _) as [r|] eqn:Hr.
    2:{ injection H as <- Ht. apply (f_equal (@length tok)) in Ht. rewrite app_length in Ht. lia. }
    assert (Ho : occurs syn r) by (apply occurs_top; eapply nth_error_In; exact Hr).
    destruct (parse_rule _ _ _ _ _ _ _ _) as [[[res toks] ind']| |] eqn:He; cbn [obind] in H; try discriminate.
    pose proof (full_peak r _ Ho (parse_rule_sound E refs fuel r) (rule_peak fuel r Ho)) as Hf.
    rewrite <- (app_nil_r tokens) in He at 1.
    pose proof (full_any r _ Hf _ _ _ _ _ _ _ _ He (length tokens + cc * length text + cw)) as Hp.
    rewrite app_nil_r in Hp. specialize (Hp ltac:(lia) ltac:(lia)). pose proof cc_parts as [Hcc _]. rewrite cc_more.
    assert (Hlen : length (tokens ++ new) <= length toks).
    { destruct res as [rg st err|e]; [destruct (next_offset rg <? length text)|]; injection H as _ <-; rewrite ?firstn_length; lia. }
    rewrite app_length in Hlen. lia.
  Qed.
End Peak.

Theorem linear_left E (HE : ext_ok E) s : well_formed s -> exists c, forall text tokens ind result new,
  parse_returns E s text tokens ind result (tokens ++ new) -> length new <= c * S (length text).
Proof.
  intros Hwf. pose proof Hwf as (H1 & H2 & rank & Hrank).
  assert (HK : exists K, forall i, i < length (s_rules s) -> rank i < K).
  { induction (length (s_rules s)) as [|n [K HK]]; [exists 0; lia|]. exists (S (K + rank n)). intros i Hi.
    destruct (Nat.eq_dec i n) as [->|Hn]; [lia|]. specialize (HK i ltac:(lia)). lia. }
  destruct HK as [K HK]. exists (cc s K). intros text tokens ind result new H.
  eapply (parse_peak E HE s Hwf rank Hrank K HK); exact H.
Qed.
