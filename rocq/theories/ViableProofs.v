(** Errors stand behind texts that can be completed. *)
From Coq Require Import List NArith Bool Arith Lia.
From Verif Require Import Base Ext Types ParseModel PegSpec DataSpec ApiSpec PegProofs PegFacts ParseProofs TotalSpec TotalProofs
  ShapeSpec ShapeProofs GrammarSpec GrammarProofs OccursProofs ViableSpec.
Import ListNotations.

Section Viable.
  Variable E : ext.
  Hypothesis HE : ext_ok E.
  Variable syn : syntax.
  Hypothesis Hno : without_lines syn.
  Hypothesis Hprod : productive E syn.

  Local Notation refs := (s_rules syn).
  Local Notation gen := (generates E refs).

  Definition viable (r : rule) (x : str) : Prop := exists y ms, Forall real_char y /\ gen r (x ++ y) ms.
  Definition viable_all (args : list rule) (x : str) : Prop := exists y ms, Forall real_char y /\ generates_all E refs args (x ++ y) ms.
  Definition viable_times (r : rule) (x : str) : Prop :=
    exists k y ms, 0 < k /\ Forall real_char y /\ generates_times E refs r k (x ++ y) ms.
  Definition viable_more (r by_ : rule) (trail : bool) (x : str) : Prop :=
    exists y ms, Forall real_char y /\ generates_more E refs r by_ trail (x ++ y) ms.

  Definition there (V : str -> Prop) (p : nat) (s : str) (e : perr) : Prop :=
    exists q, V (firstn q s) /\
    match snd e with
    | ParseStringError _ _ => p + q <= r_off (fst e) /\ exists n, x_string E (skipn q s) = Some n
    | _ => p + q = r_off (fst e)
    end.

  Lemma there_impl (V V' : str -> Prop) p s tr : (forall x, V x -> V' x) -> Forall (there V p s) tr -> Forall (there V' p s) tr.
  Proof. intros H. apply Forall_impl. intros e (q & Hv & Hq). exists q. split; [apply H; exact Hv|exact Hq]. Qed.

  Lemma there_behind (V V' : str -> Prop) p s n tr : (forall x, V x -> V' (firstn n s ++ x)) ->
    Forall (there V (p + n) (skipn n s)) tr -> Forall (there V' p s) tr.
  Proof.
    intros H. apply Forall_impl. intros e (q & Hv & Hq). exists (n + q). split; [rewrite firstn_after; apply H; exact Hv|].
    assert (Hs : skipn (n + q) s = skipn q (skipn n s)) by (rewrite skipn_skipn_add; reflexivity).
    destruct (snd e); try lia. rewrite Hs. split; [lia|apply Hq].
  Qed.

  Lemma there_here (V : str -> Prop) p s n e : V [] -> (forall a b, e <> ParseStringError a b) -> Forall (there V p s) [(Rng p n, e)].
  Proof.
    intros Hv He. constructor; [|constructor]. exists 0. split; [exact Hv|]. cbn. destruct e; try lia. destruct (He _ _ eq_refl).
  Qed.

  Lemma some_all args : Forall (occurs syn) args -> exists x ms, Forall real_char x /\ generates_all E refs args x ms.
  Proof.
    induction 1 as [|r args Hr _ (y & ms' & Hy & Hg)]; [exists [], []; split; constructor|].
    destruct (Hprod r Hr) as (x & ms & Hx & Hgx). exists (x ++ y), (ms ++ ms'). split; [apply Forall_app; auto|apply gen_all_cons; assumption].
  Qed.

  Lemma some_viable r : occurs syn r -> viable r [].
  Proof. intros H. destruct (Hprod r H) as (x & ms & Hx & Hg). exists x, ms. auto. Qed.

  Lemma there_by r by_ trail p s tr : occurs syn r -> Forall (there (viable by_) p s) tr -> Forall (there (viable_more r by_ trail) p s) tr.
  Proof.
    intros Ho. apply there_impl. intros x (y & ms & Hy & Hg). destruct (Hprod r Ho) as (z & ms' & Hz & Hgz).
    exists (y ++ z), (ms ++ ms' ++ []). split; [apply Forall_app; auto|]. rewrite app_assoc, <- (app_nil_r z), app_assoc, <- app_assoc.
    apply gen_more_item; [exact Hg|exact Hgz|apply gen_more_stop].
  Qed.

  Lemma reads_there :
    (forall r ind p s v ind' tr, reads E refs r ind p s v ind' tr -> occurs syn r -> Forall (there (viable r) p s) tr) /\
    (forall args ind p s v ind' tr, reads_seq E refs args ind p s v ind' tr -> Forall (occurs syn) args -> Forall (there (viable_all args) p s) tr) /\
    (forall args ind p s v ind' tr, reads_first E refs args ind p s v ind' tr -> Forall (occurs syn) args ->
       Forall (there (fun x => exists r, In r args /\ viable r x) p s) tr) /\
    (forall r ind p s k n out ind' tr, reads_many E refs r ind p s k n out ind' tr -> occurs syn r -> Forall (there (viable_times r) p s) tr) /\
    (forall r by_ trail ind p s v ind' tr, reads_more E refs r by_ trail ind p s v ind' tr -> occurs syn r -> occurs syn by_ ->
       Forall (there (viable_more r by_ trail) p s) tr) /\
    (forall r indented id fresh nl ind p s v ind' tr, reads_lines E refs r indented id fresh nl ind p s v ind' tr -> True) /\
    (forall r indented fresh ind p s v fresh' ind' tr, reads_line E refs r indented fresh ind p s v fresh' ind' tr -> True).
  Proof.
    assert (Hargs : forall r, occurs syn r -> Forall (occurs syn) (children r)).
    { intros r Hr. apply Forall_forall. intros c Hc. eapply occurs_child; eassumption. }
    apply reads_mutind; intros; try exact I;
      try match goal with H : occurs _ (RLines _ _ _) |- _ => destruct (Hno _ _ _ H) end;
      try (constructor; fail);
      try (apply there_here; [apply some_viable; assumption|discriminate]).
    all: try match goal with H : occurs syn ?r |- Forall (there (viable ?r) _ _) _ => pose proof (Hargs _ H) as Hc; cbn [children] in Hc end.
    - constructor; [|constructor]. exists 0. split; [apply some_viable; assumption|]. cbn. split; [lia|]. exists n. assumption.
    - eapply there_impl; [|match goal with IH : _ -> Forall _ tr |- _ => exact (IH Hc) end].
      intros x (y & ms & Hy & Hg). exists y, ms. split; [exact Hy|apply gen_sequence; exact Hg].
    - eapply there_impl; [|match goal with IH : _ -> Forall _ tr |- _ => exact (IH Hc) end].
      intros x (r & Hr & y & ms & Hy & Hg). exists y, ms. split; [exact Hy|eapply gen_select; eassumption].
    - apply Forall_app in Hc as [_ Hc]. inversion Hc; subst.
      eapply there_impl; [|match goal with IH : _ -> Forall _ tr |- _ => apply IH; assumption end].
      intros x (y & ms & Hy & Hg). exists y, ms. split; [exact Hy|eapply gen_fast; [apply in_or_app; right; left; reflexivity|exact Hg]].
    - assert (Hin : In r args) by (eapply nth_error_In; eassumption).
      eapply there_impl; [|match goal with IH : _ -> Forall _ tr |- _ => apply IH; eapply Forall_forall; [exact Hc|exact Hin] end].
      intros x (y & ms & Hy & Hg). exists y, ms. split; [exact Hy|eapply gen_fast; eassumption].
    - assert (Hin : In r args) by (eapply nth_error_In; eassumption).
      eapply there_impl; [|match goal with IH : _ -> Forall _ tr |- _ => apply IH; eapply Forall_forall; [exact Hc|exact Hin] end].
      intros x (y & ms & Hy & Hg). exists y, ms. split; [exact Hy|eapply gen_fast; eassumption].
    - assert (Hin : In r (args ++ [r'])) by (eapply nth_error_In; eassumption).
      assert (Hin' : In r' (args ++ [r'])) by (apply in_or_app; right; left; reflexivity).
      pose proof (proj1 (Forall_forall _ _) Hc) as Ho. apply Forall_app. split.
      + eapply there_impl; [|match goal with IH : _ -> Forall _ tr1 |- _ => exact (IH (Ho _ Hin)) end].
        intros x (y & ms & Hy & Hg). exists y, ms. split; [exact Hy|eapply gen_fast; [exact Hin|exact Hg]].
      + eapply there_impl; [|match goal with IH : _ -> Forall _ tr2 |- _ => exact (IH (Ho _ Hin')) end].
        intros x (y & ms & Hy & Hg). exists y, ms. split; [exact Hy|eapply gen_fast; [exact Hin'|exact Hg]].
    - inversion Hc; subst. eapply there_impl; [|match goal with IH : _ -> Forall _ tr |- _ => apply IH; assumption end].
      intros x (j & y & ms & Hj & Hy & Hg). exists y, ms. split; [exact Hy|eapply gen_repeat; [exact Hg|right; exact Hj]].
    - inversion Hc; subst. eapply there_impl; [|match goal with IH : _ -> Forall _ tr |- _ => apply IH; assumption end].
      intros x (y & ms & Hy & Hg). exists y, (ms ++ []). split; [exact Hy|]. rewrite <- (app_nil_r (x ++ y)).
      eapply gen_repeat with (k := 1); [|right; lia]. apply gen_times_S; [exact Hg|apply gen_times_O].
    - inversion Hc as [|? ? Ho1 Hl]; subst. inversion Hl as [|? ? Ho2 _]; subst. apply Forall_app. split.
      + eapply there_impl; [|match goal with IH : _ -> Forall _ tr1 |- _ => exact (IH Ho1) end].
        intros x (y & ms & Hy & Hg). exists y, (ms ++ []). split; [exact Hy|]. rewrite <- (app_nil_r (x ++ y)).
        apply gen_separate; [exact Hg|apply gen_more_stop].
      + match goal with H : reads _ _ r _ _ _ (Yes n out) _ _ |- _ => pose proof (proj1 (reads_generated E HE syn Hno) _ _ _ _ _ _ _ H Ho1) as Hr end.
        eapply there_behind; [|match goal with IH : _ -> _ -> Forall _ tr2 |- _ => exact (IH Ho1 Ho2) end].
        intros x (y & ms & Hy & Hg). do 2 eexists. split; [exact Hy|]. rewrite <- app_assoc. apply gen_separate; [exact Hr|exact Hg].
    - inversion Hc as [|? ? Ho1 Hl]; subst. eapply there_impl; [|match goal with IH : _ -> Forall _ tr |- _ => exact (IH Ho1) end].
      intros x (y & ms & Hy & Hg). exists y, (ms ++ []). split; [exact Hy|]. rewrite <- (app_nil_r (x ++ y)).
      apply gen_separate; [exact Hg|apply gen_more_stop].
    - assert (Ho : occurs syn r) by (apply occurs_top; eapply nth_error_In; eassumption).
      eapply there_impl; [|match goal with IH : _ -> Forall _ tr |- _ => exact (IH Ho) end].
      intros x (y & ms & Hy & Hg). do 2 eexists. split; [exact Hy|eapply gen_node; eassumption].
    - assert (Ho : occurs syn r) by (apply occurs_top; eapply nth_error_In; eassumption).
      eapply there_impl; [|match goal with IH : _ -> Forall _ tr |- _ => exact (IH Ho) end].
      intros x (y & ms & Hy & Hg). do 2 eexists. split; [exact Hy|eapply gen_node; eassumption].
    - inversion Hc; subst. eapply there_impl; [|match goal with IH : _ -> Forall _ tr |- _ => apply IH; assumption end].
      intros x (y & ms & Hy & Hg). do 2 eexists. split; [exact Hy|eapply gen_optional; eassumption].
    - inversion Hc; subst. eapply there_impl; [|match goal with IH : _ -> Forall _ tr |- _ => apply IH; assumption end].
      intros x (y & ms & Hy & Hg). do 2 eexists. split; [exact Hy|eapply gen_optional; eassumption].
    - match goal with H : Forall _ (r :: rest) |- _ => inversion H as [|? ? Ho1 Ho2]; subst end.
      eapply there_impl; [|match goal with IH : _ -> Forall _ tr |- _ => exact (IH Ho1) end].
      intros x (y & ms & Hy & Hg). destruct (some_all _ Ho2) as (z & ms' & Hz & Hgz). exists (y ++ z), (ms ++ ms').
      split; [apply Forall_app; auto|]. rewrite app_assoc. apply gen_all_cons; assumption.
    - match goal with H : Forall _ (r :: rest) |- _ => inversion H as [|? ? Ho1 Ho2]; subst end. apply Forall_app. split.
      + eapply there_impl; [|match goal with IH : _ -> Forall _ tr1 |- _ => exact (IH Ho1) end].
        intros x (y & ms & Hy & Hg). destruct (some_all _ Ho2) as (z & ms' & Hz & Hgz). exists (y ++ z), (ms ++ ms').
        split; [apply Forall_app; auto|]. rewrite app_assoc. apply gen_all_cons; assumption.
      + match goal with H : reads _ _ r _ _ _ (Yes n out) _ _ |- _ => pose proof (proj1 (reads_generated E HE syn Hno) _ _ _ _ _ _ _ H Ho1) as Hr end.
        eapply there_behind; [|match goal with IH : _ -> Forall _ tr2 |- _ => exact (IH Ho2) end].
        intros x (y & ms & Hy & Hg). do 2 eexists. split; [exact Hy|]. rewrite <- app_assoc. apply gen_all_cons; [exact Hr|exact Hg].
    - match goal with H : Forall _ (r :: rest) |- _ => inversion H as [|? ? Ho1 Ho2]; subst end.
      eapply there_impl; [|match goal with IH : _ -> Forall _ tr |- _ => exact (IH Ho1) end].
      intros x Hx. exists r. split; [left; reflexivity|exact Hx].
    - match goal with H : Forall _ (r :: rest) |- _ => inversion H as [|? ? Ho1 Ho2]; subst end. apply Forall_app. split.
      + eapply there_impl; [|match goal with IH : _ -> Forall _ tr1 |- _ => exact (IH Ho1) end].
        intros x Hx. exists r. split; [left; reflexivity|exact Hx].
      + eapply there_impl; [|match goal with IH : _ -> Forall _ tr2 |- _ => exact (IH Ho2) end].
        intros x (q & Hq & Hx). exists q. split; [right; exact Hq|exact Hx].
    - match goal with H : occurs syn r |- _ => rename H into Ho1 end.
      eapply there_impl; [|match goal with IH : _ -> Forall _ tr |- _ => exact (IH Ho1) end].
      intros x (y & ms & Hy & Hg). exists 1, y, (ms ++ []). split; [lia|]. split; [exact Hy|]. rewrite <- (app_nil_r (x ++ y)).
      apply gen_times_S; [exact Hg|apply gen_times_O].
    - match goal with H : occurs syn r |- _ => rename H into Ho1 end. apply Forall_app. split.
      + eapply there_impl; [|match goal with IH : _ -> Forall _ tr1 |- _ => exact (IH Ho1) end].
        intros x (y & ms & Hy & Hg). exists 1, y, (ms ++ []). split; [lia|]. split; [exact Hy|]. rewrite <- (app_nil_r (x ++ y)).
        apply gen_times_S; [exact Hg|apply gen_times_O].
      + match goal with H : reads _ _ r _ _ _ (Yes n out) _ _ |- _ => pose proof (proj1 (reads_generated E HE syn Hno) _ _ _ _ _ _ _ H Ho1) as Hr end.
        eapply there_behind; [|match goal with IH : _ -> Forall _ tr2 |- _ => exact (IH Ho1) end].
        intros x (j & y & ms & Hj & Hy & Hg). exists (S j). do 2 eexists. split; [lia|]. split; [exact Hy|]. rewrite <- app_assoc.
        apply gen_times_S; [exact Hr|exact Hg].
    - match goal with H : occurs syn r, H' : occurs syn by_ |- _ => rename H into Ho1; rename H' into Ho2 end.
      apply there_by; [exact Ho1|]. match goal with IH : _ -> Forall _ tr |- _ => exact (IH Ho2) end.
    - match goal with H : occurs syn r, H' : occurs syn by_ |- _ => rename H into Ho1; rename H' into Ho2 end.
      match goal with H : reads _ _ by_ _ _ _ (Yes n out) _ _ |- _ => pose proof (proj1 (reads_generated E HE syn Hno) _ _ _ _ _ _ _ H Ho2) as Hb end.
      apply Forall_app. split; [apply there_by; [exact Ho1|]; match goal with IH : _ -> Forall _ tr1 |- _ => exact (IH Ho2) end|].
      eapply there_behind; [|match goal with IH : _ -> Forall _ tr2 |- _ => exact (IH Ho1) end].
      intros x (y & ms & Hy & Hg). do 2 eexists. split; [exact Hy|]. rewrite <- app_assoc, <- (app_nil_r (x ++ y)).
      apply gen_more_item; [exact Hb|exact Hg|apply gen_more_stop].
    - match goal with H : occurs syn r, H' : occurs syn by_ |- _ => rename H into Ho1; rename H' into Ho2 end.
      match goal with H : reads _ _ by_ _ _ _ (Yes n out) _ _ |- _ => pose proof (proj1 (reads_generated E HE syn Hno) _ _ _ _ _ _ _ H Ho2) as Hb end.
      match goal with H : reads _ _ r _ _ _ (Yes m out') _ _ |- _ => pose proof (proj1 (reads_generated E HE syn Hno) _ _ _ _ _ _ _ H Ho1) as Hr end.
      apply Forall_app. split; [apply there_by; [exact Ho1|]; match goal with IH : _ -> Forall _ tr1 |- _ => exact (IH Ho2) end|].
      apply Forall_app. split.
      + eapply there_behind; [|match goal with IH : _ -> Forall _ tr2 |- _ => exact (IH Ho1) end].
        intros x (y & ms & Hy & Hg). do 2 eexists. split; [exact Hy|]. rewrite <- app_assoc, <- (app_nil_r (x ++ y)).
        apply gen_more_item; [exact Hb|exact Hg|apply gen_more_stop].
      + eapply there_behind with (V := fun x => viable_more r by_ trail (firstn n s ++ x)); [intros x Hx; exact Hx|].
        eapply there_behind; [|match goal with IH : _ -> _ -> Forall _ tr3 |- _ => exact (IH Ho1 Ho2) end].
        intros x (y & ms & Hy & Hg). do 2 eexists. split; [exact Hy|]. rewrite <- !app_assoc. apply gen_more_item; [exact Hb|exact Hr|exact Hg].
  Qed.

  Theorem errors_there text ind tr r : start_rule syn r -> rejects E syn ind text tr ->
    Forall (fun e => exists q, stopped_at E text e q /\ viable r (firstn q text)) tr.
  Proof.
    intros Hr H.
    assert (Ho : occurs syn r) by (destruct Hr as [a Ha]; apply occurs_top; rewrite Ha; apply in_or_app; right; left; reflexivity).
    assert (Hone : forall r', start_rule syn r' -> r' = r).
    { intros r' [b Hb]. destruct Hr as [a Ha]. rewrite Ha in Hb. apply app_inj_tail in Hb. symmetry. apply Hb. }
    assert (Hgo : forall v ind' tr, reads E refs r ind 0 text v ind' tr -> Forall (fun e => exists q, stopped_at E text e q /\ viable r (firstn q text)) tr).
    { intros v ind' tr' Hv. eapply Forall_impl; [|exact (proj1 reads_there _ _ _ _ _ _ _ Hv Ho)].
      intros e (q & Hq & Hp). exists q. split; [|exact Hq]. unfold stopped_at. cbn in Hp. exact Hp. }
    destruct H as [He|r' ind' tr Hr' Hv|r' n out ind' tr Hr' Hv Hn].
    - destruct Hr as [a Ha]. rewrite He in Ha. destruct a; discriminate.
    - rewrite (Hone _ Hr') in Hv. eapply Hgo; exact Hv.
    - rewrite (Hone _ Hr') in Hv. apply Forall_app. split; [eapply Hgo; exact Hv|]. constructor; [|constructor].
      exists n. split; [reflexivity|]. exists [], (map snd out). split; [constructor|]. rewrite app_nil_r.
      exact (proj1 (reads_generated E HE syn Hno) _ _ _ _ _ _ _ Hv Ho).
  Qed.
End Viable.
