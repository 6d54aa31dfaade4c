(** Errors say what could stand at their place. *)
From Coq Require Import List NArith Bool Arith Lia.
From Verif Require Import Base Ext Types ParseModel PegSpec DataSpec ApiSpec PegProofs PegFacts ParseProofs TotalSpec TotalProofs
  ShapeSpec ShapeProofs GrammarSpec GrammarProofs OccursProofs ViableSpec ExpectSpec.
Import ListNotations.

Section Expect.
  Variable E : ext.
  Hypothesis HE : ext_ok E.
  Variable syn : syntax.
  Hypothesis Hno : without_lines syn.
  Hypothesis Hprod : productive E syn.
  Hypothesis Hfast : fast_reads_something E syn.

  Local Notation refs := (s_rules syn).
  Local Notation gen := (generates E refs).

  Definition viable (r : rule) (x : str) : Prop := exists y ms, Forall real_char y /\ gen r (x ++ y) ms.
  Definition viable_all (args : list rule) (x : str) : Prop := exists y ms, Forall real_char y /\ generates_all E refs args (x ++ y) ms.
  Definition viable_times (r : rule) (x : str) : Prop :=
    exists k y ms, 0 < k /\ Forall real_char y /\ generates_times E refs r k (x ++ y) ms.
  Definition viable_more (r by_ : rule) (trail : bool) (x : str) : Prop :=
    exists y ms, Forall real_char y /\ generates_more E refs r by_ trail (x ++ y) ms.

  Definition there (V : str -> Prop) (p : nat) (s : str) (e : perr) : Prop :=
    exists q z, V (firstn q s ++ z) /\ demands E (snd e) (skipn q s) z /\
    match snd e with
    | ParseStringError _ _ => p + q <= r_off (fst e)
    | _ => p + q = r_off (fst e)
    end.

  Lemma there_impl (V V' : str -> Prop) p s tr : (forall x, V x -> V' x) -> Forall (there V p s) tr -> Forall (there V' p s) tr.
  Proof. intros H. apply Forall_impl. intros e (q & z & Hv & Hq). exists q, z. split; [apply H; exact Hv|exact Hq]. Qed.

  Lemma there_behind (V V' : str -> Prop) p s n tr : (forall x, V x -> V' (firstn n s ++ x)) ->
    Forall (there V (p + n) (skipn n s)) tr -> Forall (there V' p s) tr.
  Proof.
    intros H. apply Forall_impl. intros e (q & z & Hv & Hd & Hq). exists (n + q), z.
    split; [rewrite firstn_after, <- app_assoc; apply H; exact Hv|].
    rewrite <- skipn_skipn_add. split; [exact Hd|]. destruct (snd e); lia.
  Qed.

  Lemma there_here (V : str -> Prop) p s n e : (exists z, V z /\ demands E e s z) -> Forall (there V p s) [(Rng p n, e)].
  Proof.
    intros (z & Hv & Hd). constructor; [|constructor]. exists 0, z. split; [exact Hv|]. split; [exact Hd|]. cbn. destruct e; lia.
  Qed.

  Lemma some_all args : Forall (occurs syn) args -> exists x ms, Forall real_char x /\ generates_all E refs args x ms.
  Proof.
    induction 1 as [|r args Hr _ (y & ms' & Hy & Hg)]; [exists [], []; split; constructor|].
    destruct (Hprod r Hr) as (x & ms & Hx & Hgx). exists (x ++ y), (ms ++ ms'). split; [apply Forall_app; auto|apply gen_all_cons; assumption].
  Qed.

  Lemma generated_empty :
    (forall r x ms, gen r x ms -> x = [] -> may_be_empty refs r) /\
    (forall args x ms, generates_all E refs args x ms -> x = [] -> Forall (may_be_empty refs) args) /\
    (forall r k x ms, generates_times E refs r k x ms -> x = [] -> 0 < k -> may_be_empty refs r) /\
    (forall r by_ trail x ms, generates_more E refs r by_ trail x ms -> True).
  Proof.
    apply generates_mutind; intros; subst; try exact I; try (constructor; fail).
    all: try match goal with H : _ ++ _ = [] |- _ => apply app_eq_nil in H as [? ?]; subst end.
    all: try match goal with H : ?o = true \/ [] <> [] |- _ => destruct H as [-> |[]]; [constructor|reflexivity] end.
    - match goal with H : x_string _ _ = _ |- _ => apply (x_string_bounds E HE) in H; cbn in H; lia end.
    - match goal with H : x_number _ _ _ = _ |- _ => apply (x_number_bounds E HE) in H; cbn in H; lia end.
    - constructor. auto.
    - eapply empty_select; eauto.
    - eapply empty_fast; eauto.
    - match goal with H : _ \/ 0 < _ |- _ => destruct H as [-> |Hk]; [constructor|] end. apply empty_repeat. auto.
    - apply empty_separate. auto.
    - eapply empty_node; eauto.
    - constructor; auto.
    - lia.
    - auto.
  Qed.

  (** A text of a rule may stand for what the rule demands. *)
  Lemma demanded r e s : occurs syn r -> (forall x ms, Forall real_char x -> gen r x ms -> exists z y, x = z ++ y /\ demands E e s z) ->
    exists z, viable r z /\ demands E e s z.
  Proof.
    intros Ho H. destruct (Hprod r Ho) as (x & ms & Hx & Hg). destruct (H x ms Hx Hg) as (z & y & -> & Hd). exists z. split; [|exact Hd].
    exists y, ms. split; [apply Forall_app in Hx; apply Hx|exact Hg].
  Qed.

  Lemma there_by r by_ trail p s tr : occurs syn r -> Forall (there (viable by_) p s) tr -> Forall (there (viable_more r by_ trail) p s) tr.
  Proof.
    intros Ho. apply there_impl. intros x (y & ms & Hy & Hg). destruct (Hprod r Ho) as (z & ms' & Hz & Hgz).
    exists (y ++ z), (ms ++ ms' ++ []). split; [apply Forall_app; auto|]. rewrite app_assoc, <- (app_nil_r z), app_assoc, <- app_assoc.
    apply gen_more_item; [exact Hg|exact Hgz|apply gen_more_stop].
  Qed.

  Lemma reads_there :
    (forall r ind p s v ind' tr, reads E refs r ind p s v ind' tr -> occurs syn r -> Forall (there (viable r) p s) tr) /\
    (forall args ind p s v ind' tr, reads_seq E refs args ind p s v ind' tr -> Forall (occurs syn) args -> Forall (there (viable_all args) p s) tr) /\
    (forall args ind p s v ind' tr, reads_first E refs args ind p s v ind' tr -> Forall (occurs syn) args ->
       Forall (there (fun x => exists r, In r args /\ viable r x) p s) tr) /\
    (forall r ind p s k n out ind' tr, reads_many E refs r ind p s k n out ind' tr -> occurs syn r -> Forall (there (viable_times r) p s) tr) /\
    (forall r by_ trail ind p s v ind' tr, reads_more E refs r by_ trail ind p s v ind' tr -> occurs syn r -> occurs syn by_ ->
       Forall (there (viable_more r by_ trail) p s) tr) /\
    (forall r indented id fresh nl ind p s v ind' tr, reads_lines E refs r indented id fresh nl ind p s v ind' tr -> True) /\
    (forall r indented fresh ind p s v fresh' ind' tr, reads_line E refs r indented fresh ind p s v fresh' ind' tr -> True).
  Proof.
    assert (Hargs : forall r, occurs syn r -> Forall (occurs syn) (children r)).
    { intros r Hr. apply Forall_forall. intros c Hc. eapply occurs_child; eassumption. }
    apply reads_mutind; intros; try exact I;
      try match goal with H : occurs _ (RLines _ _ _) |- _ => destruct (Hno _ _ _ H) end;
      try (constructor; fail);
      try match goal with H : occurs _ (RFastSelect ?table ?args ?tail ?id) |- Forall _ [(_, ExpectedSomething _)] =>
        destruct (Hfast _ _ _ _ H) as (z & ms & Hz & Hx & Hg); apply there_here; exists z; split;
          [exists [], ms; split; [constructor|rewrite app_nil_r; exact Hg]|exact Hz] end;
      try (apply there_here; apply demanded; [assumption|]).
    all: try (intros x ms Hx Hg; exists x, []; rewrite app_nil_r; split; [reflexivity|]; inversion Hg; subst; cbn [demands]).
    all: try match goal with H : false = true \/ _ |- _ => destruct H as [H|?]; [discriminate|] end.
    all: try (split; [assumption|]; try reflexivity).
    all: try assumption.
    all: try match goal with H : occurs syn ?r |- Forall (there (viable ?r) _ _) _ => pose proof (Hargs _ H) as Hc; cbn [children] in Hc end.
    - split; assumption.
    - do 2 eexists. split; eassumption.
    - split; [do 2 eexists; split; eassumption|assumption].
    - constructor; [|constructor]. destruct (Hprod _ ltac:(eassumption)) as (x & ms & Hx & Hg). exists 0, x. split.
      { exists [], ms. split; [constructor|]. rewrite app_nil_r. exact Hg. }
      cbn. split; [|lia]. split; [exists n; eauto|]. inversion Hg; subst. do 2 eexists. split; eassumption.
    - exists underscore. split; [assumption|]. do 2 eexists. split; eassumption.
    - exists underscore, n. split; [assumption|]. split; [assumption|]. do 2 eexists. split; eassumption.
    - eapply there_impl; [|match goal with IH : _ -> Forall _ tr |- _ => exact (IH Hc) end].
      intros x (y & ms & Hy & Hg). exists y, ms. split; [exact Hy|apply gen_sequence; exact Hg].
    - eapply there_impl; [|match goal with IH : _ -> Forall _ tr |- _ => exact (IH Hc) end].
      intros x (r & Hr & y & ms & Hy & Hg). exists y, ms. split; [exact Hy|eapply gen_select; eassumption].
    - apply Forall_app in Hc as [_ Hc]. inversion Hc; subst.
      eapply there_impl; [|match goal with IH : _ -> Forall _ tr |- _ => apply IH; assumption end].
      intros x (y & ms & Hy & Hg). exists y, ms. split; [exact Hy|eapply gen_fast; [apply in_or_app; right; left; reflexivity|exact Hg]].
    - assert (Hin : In r args) by (eapply nth_error_In; eassumption).
      eapply there_impl; [|match goal with IH : _ -> Forall _ tr |- _ => apply IH; eapply Forall_forall; [exact Hc|exact Hin] end].
      intros x (y & ms & Hy & Hg). exists y, ms. split; [exact Hy|eapply gen_fast; eassumption].
    - assert (Hin : In r args) by (eapply nth_error_In; eassumption).
      eapply there_impl; [|match goal with IH : _ -> Forall _ tr |- _ => apply IH; eapply Forall_forall; [exact Hc|exact Hin] end].
      intros x (y & ms & Hy & Hg). exists y, ms. split; [exact Hy|eapply gen_fast; eassumption].
    - assert (Hin : In r (args ++ [r'])) by (eapply nth_error_In; eassumption).
      assert (Hin' : In r' (args ++ [r'])) by (apply in_or_app; right; left; reflexivity).
      pose proof (proj1 (Forall_forall _ _) Hc) as Ho. apply Forall_app. split.
      + eapply there_impl; [|match goal with IH : _ -> Forall _ tr1 |- _ => exact (IH (Ho _ Hin)) end].
        intros x (y & ms & Hy & Hg). exists y, ms. split; [exact Hy|eapply gen_fast; [exact Hin|exact Hg]].
      + eapply there_impl; [|match goal with IH : _ -> Forall _ tr2 |- _ => exact (IH (Ho _ Hin')) end].
        intros x (y & ms & Hy & Hg). exists y, ms. split; [exact Hy|eapply gen_fast; [exact Hin'|exact Hg]].
    - inversion Hc; subst. eapply there_impl; [|match goal with IH : _ -> Forall _ tr |- _ => apply IH; assumption end].
      intros x (j & y & ms & Hj & Hy & Hg). exists y, ms. split; [exact Hy|eapply gen_repeat; [exact Hg|right; exact Hj]].
    - inversion Hc; subst. eapply there_impl; [|match goal with IH : _ -> Forall _ tr |- _ => apply IH; assumption end].
      intros x (y & ms & Hy & Hg). exists y, (ms ++ []). split; [exact Hy|]. rewrite <- (app_nil_r (x ++ y)).
      eapply gen_repeat with (k := 1); [|right; lia]. apply gen_times_S; [exact Hg|apply gen_times_O].
    - inversion Hc as [|? ? Ho1 Hl]; subst. inversion Hl as [|? ? Ho2 _]; subst. apply Forall_app. split.
      + eapply there_impl; [|match goal with IH : _ -> Forall _ tr1 |- _ => exact (IH Ho1) end].
        intros x (y & ms & Hy & Hg). exists y, (ms ++ []). split; [exact Hy|]. rewrite <- (app_nil_r (x ++ y)).
        apply gen_separate; [exact Hg|apply gen_more_stop].
      + match goal with H : reads _ _ r _ _ _ (Yes n out) _ _ |- _ => pose proof (proj1 (reads_generated E HE syn Hno) _ _ _ _ _ _ _ H Ho1) as Hr end.
        eapply there_behind; [|match goal with IH : _ -> _ -> Forall _ tr2 |- _ => exact (IH Ho1 Ho2) end].
        intros x (y & ms & Hy & Hg). do 2 eexists. split; [exact Hy|]. rewrite <- app_assoc. apply gen_separate; [exact Hr|exact Hg].
    - inversion Hc as [|? ? Ho1 Hl]; subst. eapply there_impl; [|match goal with IH : _ -> Forall _ tr |- _ => exact (IH Ho1) end].
      intros x (y & ms & Hy & Hg). exists y, (ms ++ []). split; [exact Hy|]. rewrite <- (app_nil_r (x ++ y)).
      apply gen_separate; [exact Hg|apply gen_more_stop].
    - assert (Ho : occurs syn r) by (apply occurs_top; eapply nth_error_In; eassumption).
      eapply there_impl; [|match goal with IH : _ -> Forall _ tr |- _ => exact (IH Ho) end].
      intros x (y & ms & Hy & Hg). do 2 eexists. split; [exact Hy|eapply gen_node; eassumption].
    - assert (Ho : occurs syn r) by (apply occurs_top; eapply nth_error_In; eassumption).
      eapply there_impl; [|match goal with IH : _ -> Forall _ tr |- _ => exact (IH Ho) end].
      intros x (y & ms & Hy & Hg). do 2 eexists. split; [exact Hy|eapply gen_node; eassumption].
    - inversion Hc; subst. eapply there_impl; [|match goal with IH : _ -> Forall _ tr |- _ => apply IH; assumption end].
      intros x (y & ms & Hy & Hg). do 2 eexists. split; [exact Hy|eapply gen_optional; eassumption].
    - inversion Hc; subst. eapply there_impl; [|match goal with IH : _ -> Forall _ tr |- _ => apply IH; assumption end].
      intros x (y & ms & Hy & Hg). do 2 eexists. split; [exact Hy|eapply gen_optional; eassumption].
    - split; [|reflexivity]. exists (skipn n s). symmetry. apply firstn_skipn.
    - match goal with H : Forall _ (r :: rest) |- _ => inversion H as [|? ? Ho1 Ho2]; subst end.
      eapply there_impl; [|match goal with IH : _ -> Forall _ tr |- _ => exact (IH Ho1) end].
      intros x (y & ms & Hy & Hg). destruct (some_all _ Ho2) as (z & ms' & Hz & Hgz). exists (y ++ z), (ms ++ ms').
      split; [apply Forall_app; auto|]. rewrite app_assoc. apply gen_all_cons; assumption.
    - match goal with H : Forall _ (r :: rest) |- _ => inversion H as [|? ? Ho1 Ho2]; subst end. apply Forall_app. split.
      + eapply there_impl; [|match goal with IH : _ -> Forall _ tr1 |- _ => exact (IH Ho1) end].
        intros x (y & ms & Hy & Hg). destruct (some_all _ Ho2) as (z & ms' & Hz & Hgz). exists (y ++ z), (ms ++ ms').
        split; [apply Forall_app; auto|]. rewrite app_assoc. apply gen_all_cons; assumption.
      + match goal with H : reads _ _ r _ _ _ (Yes n out) _ _ |- _ => pose proof (proj1 (reads_generated E HE syn Hno) _ _ _ _ _ _ _ H Ho1) as Hr end.
        eapply there_behind; [|match goal with IH : _ -> Forall _ tr2 |- _ => exact (IH Ho2) end].
        intros x (y & ms & Hy & Hg). do 2 eexists. split; [exact Hy|]. rewrite <- app_assoc. apply gen_all_cons; [exact Hr|exact Hg].
    - match goal with H : Forall _ (r :: rest) |- _ => inversion H as [|? ? Ho1 Ho2]; subst end.
      eapply there_impl; [|match goal with IH : _ -> Forall _ tr |- _ => exact (IH Ho1) end].
      intros x Hx. exists r. split; [left; reflexivity|exact Hx].
    - match goal with H : Forall _ (r :: rest) |- _ => inversion H as [|? ? Ho1 Ho2]; subst end. apply Forall_app. split.
      + eapply there_impl; [|match goal with IH : _ -> Forall _ tr1 |- _ => exact (IH Ho1) end].
        intros x Hx. exists r. split; [left; reflexivity|exact Hx].
      + eapply there_impl; [|match goal with IH : _ -> Forall _ tr2 |- _ => exact (IH Ho2) end].
        intros x (q & Hq & Hx). exists q. split; [right; exact Hq|exact Hx].
    - match goal with H : occurs syn r |- _ => rename H into Ho1 end.
      eapply there_impl; [|match goal with IH : _ -> Forall _ tr |- _ => exact (IH Ho1) end].
      intros x (y & ms & Hy & Hg). exists 1, y, (ms ++ []). split; [lia|]. split; [exact Hy|]. rewrite <- (app_nil_r (x ++ y)).
      apply gen_times_S; [exact Hg|apply gen_times_O].
    - match goal with H : occurs syn r |- _ => rename H into Ho1 end. apply Forall_app. split.
      + eapply there_impl; [|match goal with IH : _ -> Forall _ tr1 |- _ => exact (IH Ho1) end].
        intros x (y & ms & Hy & Hg). exists 1, y, (ms ++ []). split; [lia|]. split; [exact Hy|]. rewrite <- (app_nil_r (x ++ y)).
        apply gen_times_S; [exact Hg|apply gen_times_O].
      + match goal with H : reads _ _ r _ _ _ (Yes n out) _ _ |- _ => pose proof (proj1 (reads_generated E HE syn Hno) _ _ _ _ _ _ _ H Ho1) as Hr end.
        eapply there_behind; [|match goal with IH : _ -> Forall _ tr2 |- _ => exact (IH Ho1) end].
        intros x (j & y & ms & Hj & Hy & Hg). exists (S j). do 2 eexists. split; [lia|]. split; [exact Hy|]. rewrite <- app_assoc.
        apply gen_times_S; [exact Hr|exact Hg].
    - match goal with H : occurs syn r, H' : occurs syn by_ |- _ => rename H into Ho1; rename H' into Ho2 end.
      apply there_by; [exact Ho1|]. match goal with IH : _ -> Forall _ tr |- _ => exact (IH Ho2) end.
    - match goal with H : occurs syn r, H' : occurs syn by_ |- _ => rename H into Ho1; rename H' into Ho2 end.
      match goal with H : reads _ _ by_ _ _ _ (Yes n out) _ _ |- _ => pose proof (proj1 (reads_generated E HE syn Hno) _ _ _ _ _ _ _ H Ho2) as Hb end.
      apply Forall_app. split; [apply there_by; [exact Ho1|]; match goal with IH : _ -> Forall _ tr1 |- _ => exact (IH Ho2) end|].
      eapply there_behind; [|match goal with IH : _ -> Forall _ tr2 |- _ => exact (IH Ho1) end].
      intros x (y & ms & Hy & Hg). do 2 eexists. split; [exact Hy|]. rewrite <- app_assoc, <- (app_nil_r (x ++ y)).
      apply gen_more_item; [exact Hb|exact Hg|apply gen_more_stop].
    - match goal with H : occurs syn r, H' : occurs syn by_ |- _ => rename H into Ho1; rename H' into Ho2 end.
      match goal with H : reads _ _ by_ _ _ _ (Yes n out) _ _ |- _ => pose proof (proj1 (reads_generated E HE syn Hno) _ _ _ _ _ _ _ H Ho2) as Hb end.
      match goal with H : reads _ _ r _ _ _ (Yes m out') _ _ |- _ => pose proof (proj1 (reads_generated E HE syn Hno) _ _ _ _ _ _ _ H Ho1) as Hr end.
      apply Forall_app. split; [apply there_by; [exact Ho1|]; match goal with IH : _ -> Forall _ tr1 |- _ => exact (IH Ho2) end|].
      apply Forall_app. split.
      + eapply there_behind; [|match goal with IH : _ -> Forall _ tr2 |- _ => exact (IH Ho1) end].
        intros x (y & ms & Hy & Hg). do 2 eexists. split; [exact Hy|]. rewrite <- app_assoc, <- (app_nil_r (x ++ y)).
        apply gen_more_item; [exact Hb|exact Hg|apply gen_more_stop].
      + eapply there_behind with (V := fun x => viable_more r by_ trail (firstn n s ++ x)); [intros x Hx; exact Hx|].
        eapply there_behind; [|match goal with IH : _ -> _ -> Forall _ tr3 |- _ => exact (IH Ho1 Ho2) end].
        intros x (y & ms & Hy & Hg). do 2 eexists. split; [exact Hy|]. rewrite <- !app_assoc. apply gen_more_item; [exact Hb|exact Hr|exact Hg].
  Qed.

  (** Behind the first [q] characters the error is right, and what it demands may stand there. *)
  Definition truthful (r : rule) (text : str) (e : perr) : Prop :=
    exists q z y ms, stopped_at E text e q /\ demands E (snd e) (skipn q text) z /\ Forall real_char y /\
    gen r (firstn q text ++ z ++ y) ms /\ (snd e = ExpectedEnd -> y = []).

  Lemma no_end : (forall r ind p s v ind' tr, reads E refs r ind p s v ind' tr -> Forall (fun e => snd e <> ExpectedEnd) tr) /\
    (forall args ind p s v ind' tr, reads_seq E refs args ind p s v ind' tr -> Forall (fun e => snd e <> ExpectedEnd) tr) /\
    (forall args ind p s v ind' tr, reads_first E refs args ind p s v ind' tr -> Forall (fun e => snd e <> ExpectedEnd) tr) /\
    (forall r ind p s k n out ind' tr, reads_many E refs r ind p s k n out ind' tr -> Forall (fun e => snd e <> ExpectedEnd) tr) /\
    (forall r by_ trail ind p s v ind' tr, reads_more E refs r by_ trail ind p s v ind' tr -> Forall (fun e => snd e <> ExpectedEnd) tr) /\
    (forall r indented id fresh nl ind p s v ind' tr, reads_lines E refs r indented id fresh nl ind p s v ind' tr ->
       Forall (fun e => snd e <> ExpectedEnd) tr) /\
    (forall r indented fresh ind p s v fresh' ind' tr, reads_line E refs r indented fresh ind p s v fresh' ind' tr ->
       Forall (fun e => snd e <> ExpectedEnd) tr).
  Proof.
    apply reads_mutind; intros; repeat rewrite Forall_app; repeat split;
      try assumption; try (constructor; fail); try (constructor; [discriminate|constructor]).
  Qed.

  Theorem errors_truthful text ind tr r : start_rule syn r -> rejects E syn ind text tr -> Forall (truthful r text) tr.
  Proof.
    intros Hr H.
    assert (Ho : occurs syn r) by (destruct Hr as [a Ha]; apply occurs_top; rewrite Ha; apply in_or_app; right; left; reflexivity).
    assert (Hone : forall r', start_rule syn r' -> r' = r).
    { intros r' [b Hb]. destruct Hr as [a Ha]. rewrite Ha in Hb. apply app_inj_tail in Hb. symmetry. apply Hb. }
    assert (Hgo : forall v ind' tr, reads E refs r ind 0 text v ind' tr -> Forall (truthful r text) tr).
    { intros v ind' tr' Hv. pose proof (proj1 no_end _ _ _ _ _ _ _ Hv) as Hn. rewrite Forall_forall in Hn. apply Forall_forall. intros e He.
      destruct (proj1 (Forall_forall _ _) (proj1 reads_there _ _ _ _ _ _ _ Hv Ho) e He) as (q & z & (y & ms & Hy & Hg) & Hd & Hp).
      exists q, z, y, ms. split.
      { unfold stopped_at. destruct (snd e); try exact Hp. split; [exact Hp|]. cbn in Hd. destruct Hd as [(n & bad & Hs & _) _]. exists n. exact Hs. }
      split; [exact Hd|]. split; [exact Hy|]. split; [rewrite app_assoc; exact Hg|]. intros Hend. destruct (Hn _ He Hend). }
    destruct H as [He|r' ind' tr Hr' Hv|r' n out ind' tr Hr' Hv Hn].
    - destruct Hr as [a Ha]. rewrite He in Ha. destruct a; discriminate.
    - rewrite (Hone _ Hr') in Hv. eapply Hgo; exact Hv.
    - rewrite (Hone _ Hr') in Hv. apply Forall_app. split; [eapply Hgo; exact Hv|]. constructor; [|constructor].
      exists n, [], [], (map snd out). split; [reflexivity|]. split.
      { split; [|reflexivity]. intros He. cbn [snd fst] in He. apply (f_equal (@length _)) in He. rewrite skipn_length in He. cbn in He. lia. }
      split; [constructor|]. split; [|reflexivity]. cbn. rewrite app_nil_r. exact (proj1 (reads_generated E HE syn Hno) _ _ _ _ _ _ _ Hv Ho).
  Qed.
End Expect.
