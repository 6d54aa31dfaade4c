(** Two parses that differ in debug ids, or in indent settings that are not used. *)
From Coq Require Import List NArith Bool Arith Lia.
From Verif Require Import Base Ext Types ParseModel DataSpec IdSpec ApiSpec.
Import ListNotations.

Lemma Forall2_len {A B} (P : A -> B -> Prop) l l' : Forall2 P l l' -> length l = length l'.
Proof. induction 1; simpl; congruence. Qed.

Section Sim.
  Variable E : ext.
  Variable R : debug_id -> debug_id -> Prop.
  (** Indented lines are allowed; then the indent settings are the same. *)
  Variable blocks : bool.

  Definition rind (a b : indent) : Prop := if blocks then a = b else True.

  Definition allowed (r : rule) : Prop :=
    blocks = true \/ forall r' id, ~ occurs_in (RLines r' true id) r.

  Lemma allowed_child r c : allowed r -> In c (children r) -> allowed c.
  Proof.
    intros [H|H] Hc; [left; exact H|right]. intros r' id Ho. apply (H r' id).
    eapply occurs_below; eassumption.
  Qed.

  Definition ok2 (r r' : rule) : Prop := like_rule R r r' /\ allowed r.

  Lemma rind_refl i : rind i i.
  Proof. unfold rind. destruct blocks; auto. Qed.

  Lemma like_err_update a b c d :
    like_result R a b -> like_result R c d -> like_result R (err_update a c) (err_update b d).
  Proof.
    destruct a as [[ra ea]|], b as [[rb eb]|], c as [[rc ec]|], d as [[rd ed]|]; simpl;
      try tauto.
    intros [H1 H2] [H3 H4]. simpl in *. subst.
    destruct (next_offset rd <=? next_offset rb); split; auto.
  Qed.

  Lemma like_ret_err a b c d :
    like_perr R a b -> like_result R c d -> like_perr R (ret_err a c) (ret_err b d).
  Proof.
    destruct a as [ra ea], b as [rb eb], c as [[rc ec]|], d as [[rd ed]|]; simpl; try tauto.
    intros [H1 H2] [H3 H4]. simpl in *. subst.
    destruct (next_offset rb <? next_offset rd); split; auto.
  Qed.

  Definition like_pres (a b : pres) : Prop :=
    match a, b with
    | POk r st e, POk r' st' e' => r = r' /\ st = st' /\ like_result R e e'
    | PErr e, PErr e' => like_perr R e e'
    | _, _ => False
    end.

  Definition rel_o {A B} (P : A -> B -> Prop) (a : outcome A) (b : outcome B) : Prop :=
    match a, b with
    | Done x, Done y => P x y
    | Panic, Panic => True
    | OutOfFuel, OutOfFuel => True
    | _, _ => False
    end.

  Lemma rel_o_bind {A B A' B'} (P : A -> B -> Prop) (Q : A' -> B' -> Prop) a b f g :
    rel_o P a b -> (forall x y, P x y -> rel_o Q (f x) (g y)) ->
    rel_o Q (obind a f) (obind b g).
  Proof. destruct a, b; simpl; try tauto. auto. Qed.

  Definition res (a b : pres * list tok * indent) : Prop :=
    like_pres (fst (fst a)) (fst (fst b)) /\ snd (fst a) = snd (fst b) /\ rind (snd a) (snd b).

  Definition rel_p (P Q : parser) : Prop :=
    forall toks st t i j, rind i j -> rel_o res (P toks st t i) (Q toks st t j).

  (** The leaf rules. *)
  Ltac leaf := intros; repeat match goal with
    | |- context [emit ?a ?b ?c ?d ?e] => destruct (emit a b c d e)
    end; simpl; unfold res; simpl; repeat split; auto; try (constructor; assumption).

  Lemma sim_until o p i j g : R i j ->
    forall toks st t a b, rind a b ->
    rel_o res (parse_until g o p i toks st t a) (parse_until g o p j toks st t b).
  Proof. intros H toks st t a b Hab. unfold parse_until. destruct (_ && _); leaf. Qed.

  Lemma sim_select P Q args args' i j :
    R i j -> Forall2 (fun r r' => rel_p (P r) (Q r')) args args' ->
    forall toks st t a b oe oe', rind a b -> like_result R oe oe' ->
    rel_o res (select_loop P args i toks st t a oe) (select_loop Q args' j toks st t b oe').
  Proof.
    intros Hij H. induction H as [|r r' rest rest' H _ IH]; intros toks st t a b oe oe' Hab Hoe.
    - simpl. destruct oe as [e|], oe' as [e'|]; simpl in Hoe; try contradiction;
        simpl; unfold res; simpl; repeat split; auto; try apply Hoe.
      constructor. exact Hij.
    - simpl. eapply rel_o_bind; [apply H; exact Hab|].
      intros [[[rg st1 err|e] toks1] a1] [[[rg' st1' err'|e'] toks1'] b1] (H1 & H2 & H3);
        simpl in *; try contradiction; subst.
      + destruct H1 as (-> & -> & H1). unfold res. simpl. repeat split; auto.
        apply like_err_update; assumption.
      + apply IH; [exact H3|]. apply like_err_update; assumption.
  Qed.

  Lemma Forall2_nth {A B} (P : A -> B -> Prop) l l' k : Forall2 P l l' ->
    match nth_error l k, nth_error l' k with
    | Some x, Some y => P x y
    | None, None => True
    | _, _ => False
    end.
  Proof. intros H. revert k. induction H; intros [|k]; simpl; auto. apply IHForall2. Qed.

  Lemma sim_fast_tail P Q args args' :
    Forall2 (fun r r' => rel_p (P r) (Q r')) args args' ->
    forall toks st t a b oe oe', rind a b -> like_result R oe oe' ->
    rel_o res (fast_tail P args oe toks st t a) (fast_tail Q args' oe' toks st t b).
  Proof.
    intros H toks st t a b oe oe' Hab Hoe. unfold fast_tail.
    rewrite <- (Forall2_len _ _ _ H).
    pose proof (Forall2_nth _ _ _ (length args - 1) H) as Hk.
    destruct H as [|r r' rest rest' H H']; [exact I|].
    destruct (nth_error (r :: rest) _) as [x|], (nth_error (r' :: rest') _) as [x'|];
      try contradiction; [|exact I].
    eapply rel_o_bind; [apply Hk; exact Hab|].
    intros [[[rg st1 err|e] toks1] a1] [[[rg' st1' err'|e'] toks1'] b1] (H1 & H2 & H3);
      simpl in *; try contradiction; subst; unfold res; simpl.
    - destruct H1 as (-> & -> & H1). repeat split; auto. apply like_err_update; assumption.
    - repeat split; auto; apply like_ret_err; assumption.
  Qed.

  Lemma sim_fast P Q table args args' tail i j :
    R i j -> Forall2 (fun r r' => rel_p (P r) (Q r')) args args' ->
    rel_p (parse_fast_select P table args tail i) (parse_fast_select Q table args' tail j).
  Proof.
    intros Hij H toks st t a b Hab. unfold parse_fast_select.
    destruct (src t) as [|c s]; [leaf|].
    destruct (nth_error table _) as [k|]; [|exact I].
    destruct (Nat.eqb k 255).
    - destruct tail; [apply sim_fast_tail; simpl; auto|leaf].
    - pose proof (Forall2_nth _ _ _ k H) as Hk.
      destruct (nth_error args k) as [r|], (nth_error args' k) as [r'|]; try contradiction;
        [|exact I].
      eapply rel_o_bind; [apply Hk; exact Hab|].
      intros [[[rg st1 err|e] toks1] a1] [[[rg' st1' err'|e'] toks1'] b1] (H1 & H2 & H3);
        simpl in *; try contradiction; subst.
      + destruct H1 as (-> & -> & H1). unfold res. simpl. auto.
      + destruct tail; [apply sim_fast_tail; simpl; auto|]. unfold res. simpl. auto.
  Qed.

  Lemma sim_seq P Q args args' :
    Forall2 (fun r r' => rel_p (P r) (Q r')) args args' ->
    forall start toks st t a b oe oe', rind a b -> like_result R oe oe' ->
    rel_o res (seq_loop P args start toks st t a oe) (seq_loop Q args' start toks st t b oe').
  Proof.
    intros H start. induction H as [|r r' rest rest' H _ IH];
      intros toks st t a b oe oe' Hab Hoe.
    - simpl. unfold res. simpl. auto.
    - simpl. eapply rel_o_bind; [apply H; exact Hab|].
      intros [[[rg st1 err|e] toks1] a1] [[[rg' st1' err'|e'] toks1'] b1] (H1 & H2 & H3);
        simpl in *; try contradiction; subst.
      + destruct H1 as (-> & -> & H1). apply IH; [exact H3|]. apply like_err_update; assumption.
      + unfold res. simpl. repeat split; auto; apply like_ret_err; assumption.
  Qed.

  Lemma sim_sep P Q P' Q' : rel_p P Q -> rel_p P' Q' ->
    forall f o tr start first toks st t a b oe oe', rind a b -> like_result R oe oe' ->
    rel_o res (sep_loop f P P' o tr start first toks st t a oe)
              (sep_loop f Q Q' o tr start first toks st t b oe').
  Proof.
    intros HP HQ f. induction f as [|f IH]; intros o tr start first toks st t a b oe oe' Hab Hoe;
      [exact I|].
    cbn [sep_loop]. eapply rel_o_bind; [apply HP; exact Hab|].
    intros [[[rg st1 err|e] toks1] a1] [[[rg' st1' err'|e'] toks1'] b1] (H1 & H2 & H3);
      simpl in H1, H2, H3; try contradiction; subst.
    - destruct H1 as (-> & -> & H1). eapply rel_o_bind; [apply HQ; exact H3|].
      intros [[[rg2 st2 err2|e2] toks2] a2] [[[rg2' st2' err2'|e2'] toks2'] b2] (K1 & K2 & K3);
        simpl in K1, K2, K3; try contradiction; subst.
      + destruct K1 as (-> & -> & K1). apply IH; [exact K3|].
        apply like_err_update; [exact K1|]. apply like_err_update; assumption.
      + unfold res. cbn [rel_o fst snd like_pres]. repeat split; auto.
        apply like_err_update; [exact K1|]. apply like_err_update; assumption.
    - destruct (if first then _ else _); unfold res; cbn [rel_o fst snd like_pres].
      + repeat split; auto; apply like_ret_err; assumption.
      + repeat split; auto. apply like_err_update; assumption.
  Qed.

  Lemma sim_repeat P Q : rel_p P Q ->
    forall f o start first toks st t a b oe oe', rind a b -> like_result R oe oe' ->
    rel_o res (repeat_loop f P o start first toks st t a oe)
              (repeat_loop f Q o start first toks st t b oe').
  Proof.
    intros HP f. induction f as [|f IH]; intros o start first toks st t a b oe oe' Hab Hoe;
      [exact I|].
    cbn [repeat_loop]. eapply rel_o_bind; [apply HP; exact Hab|].
    intros [[[rg st1 err|e] toks1] a1] [[[rg' st1' err'|e'] toks1'] b1] (H1 & H2 & H3);
      simpl in H1, H2, H3; try contradiction; subst.
    - destruct H1 as (-> & -> & H1). apply IH; [exact H3|]. apply like_err_update; assumption.
    - destruct (first && negb o); unfold res; cbn [rel_o fst snd like_pres].
      + repeat split; auto; apply like_ret_err; assumption.
      + repeat split; auto. apply like_err_update; assumption.
  Qed.

  (** Lines. *)
  Definition like_ls (a b : lines_state) : Prop :=
    ls_toks a = ls_toks b /\ ls_state a = ls_state b /\ like_result R (ls_err a) (ls_err b) /\
    ls_first a = ls_first b /\ rind (ls_ind a) (ls_ind b).

  Definition cl_res (a b : option range * lines_state) : Prop :=
    fst a = fst b /\ like_ls (snd a) (snd b).

  Lemma sim_lines_item P Q : blocks = true -> rel_p P Q ->
    forall o t first ls ls' i, like_ls ls ls' ->
    rel_o cl_res (lines_item_indent P o t first ls i) (lines_item_indent Q o t first ls' i).
  Proof.
    intros Hb HP o t first ls ls' i (H1 & H2 & H3 & H4 & H5). unfold lines_item_indent.
    destruct (add_u32 _ _) as [n| |]; simpl; auto. rewrite H1, H2.
    eapply rel_o_bind; [apply HP; apply rind_refl|].
    intros [[[rg st1 err|e] toks1] a1] [[[rg' st1' err'|e'] toks1'] b1] (K1 & K2 & K3);
      simpl in K1, K2, K3; try contradiction; subst; unfold rind in K3; rewrite Hb in K3; subst.
    - destruct K1 as (-> & -> & K1). unfold cl_res, like_ls. simpl. repeat split; auto.
      + apply like_err_update; assumption.
      + apply rind_refl.
    - unfold cl_res, like_ls. simpl. repeat split; auto.
      + apply like_err_update; assumption.
      + apply rind_refl.
  Qed.

  Lemma sim_closure_indent P Q : blocks = true -> rel_p P Q ->
    forall t ls ls', like_ls ls ls' ->
    rel_o cl_res (lines_closure_indent P t ls) (lines_closure_indent Q t ls').
  Proof.
    intros Hb HP t ls ls' H. pose proof H as (H1 & H2 & H3 & H4 & H5).
    unfold lines_closure_indent.
    assert (Hi : ls_ind ls = ls_ind ls') by (unfold rind in H5; rewrite Hb in H5; exact H5).
    rewrite Hi, H4. destruct (skip_indent _ _ _) as [k|]; [|simpl; split; auto].
    destruct (ls_first ls' && _).
    - destruct (align_indent _ _ _) as [[k2 n]| |]; simpl; auto.
      apply sim_lines_item; assumption.
    - destruct (rt_tag _ _); [simpl; split; auto|]. apply sim_lines_item; assumption.
  Qed.

  Lemma sim_closure_plain P Q : rel_p P Q ->
    forall t ls ls', like_ls ls ls' ->
    rel_o cl_res (lines_closure_plain P t ls) (lines_closure_plain Q t ls').
  Proof.
    intros HP t ls ls' (H1 & H2 & H3 & H4 & H5). unfold lines_closure_plain.
    rewrite H1, H2. eapply rel_o_bind; [apply HP; exact H5|].
    intros [[[rg st1 err|e] toks1] a1] [[[rg' st1' err'|e'] toks1'] b1] (K1 & K2 & K3);
      simpl in K1, K2, K3; try contradiction; subst.
    - destruct K1 as (-> & -> & K1). unfold cl_res, like_ls. simpl. repeat split; auto.
      apply like_err_update; assumption.
    - unfold cl_res, like_ls. simpl. repeat split; auto. apply like_err_update; assumption.
  Qed.

  Lemma sim_lines_loop c d :
    (forall t ls ls', like_ls ls ls' -> rel_o cl_res (c t ls) (d t ls')) ->
    forall f nl t ls ls', like_ls ls ls' ->
    rel_o (fun a b => fst a = fst b /\ like_ls (snd a) (snd b))
      (lines_loop E c f nl t ls) (lines_loop E d f nl t ls').
  Proof.
    intros H f. induction f as [|f IH]; intros nl t ls ls' Hls; [exact I|].
    cbn [lines_loop]. destruct (Nat.eqb _ _); [simpl; auto|].
    assert (Hgo : forall t1, rel_o (fun a b => fst a = fst b /\ like_ls (snd a) (snd b))
      (do (res, st1) <- c t1 ls;
       match res with
       | None => Done (inl t1, st1)
       | Some r => lines_loop E c f (ends_with_newline (rt_raw_string t1 (r_len r)))
                     (rt_consume t1 (r_len r)) st1
       end)
      (do (res, st1) <- d t1 ls';
       match res with
       | None => Done (inl t1, st1)
       | Some r => lines_loop E d f (ends_with_newline (rt_raw_string t1 (r_len r)))
                     (rt_consume t1 (r_len r)) st1
       end)).
    { intros t1. eapply rel_o_bind; [apply H; exact Hls|].
      intros [x l1] [y l2] (K1 & K2). simpl in K1, K2. subst y.
      destruct x as [r|]; [apply IH; exact K2|simpl; auto]. }
    destruct (after_last_newline _); [apply Hgo|]. destruct nl; [apply Hgo|simpl; auto].
  Qed.

  Lemma sim_lines P Q f indented i j : indented = false \/ blocks = true -> R i j ->
    rel_p P Q -> rel_p (parse_lines E f P indented i) (parse_lines E f Q indented j).
  Proof.
    intros Hd Hij HP toks st t a b Hab. unfold parse_lines, rt_lines.
    eapply (rel_o_bind (fun a b => fst a = fst b /\ like_ls (snd a) (snd b))).
    - eapply rel_o_bind.
      + apply sim_lines_loop with (ls' := LS toks st None true b).
        * intros t1 ls ls' Hls. destruct indented.
          -- destruct Hd as [Hd|Hd]; [discriminate|]. apply sim_closure_indent with (1 := Hd);
               [exact HP|exact Hls].
          -- apply sim_closure_plain with (1 := HP). exact Hls.
        * unfold like_ls. simpl. auto.
      + intros [x l1] [y l2] (K1 & K2). simpl in K1, K2. subst y.
        destruct x; simpl; auto.
    - intros [x l1] [y l2] (K1 & K2). simpl in K1, K2. subst y.
      destruct K2 as (H1 & H2 & H3 & H4 & H5).
      destruct x as [r|r]; simpl; unfold res; simpl; rewrite H1.
      + repeat split; auto.
      + repeat split; auto; apply like_ret_err; auto; split; try reflexivity;
          constructor; exact Hij.
  Qed.

  Lemma ok2_args r args args' :
    children r = args -> Forall2 (like_rule R) args args' -> allowed r -> Forall2 ok2 args args'.
  Proof.
    intros Hc HF Ha. assert (Hin : forall c, In c args -> allowed c)
      by (intros c Hc'; eapply allowed_child; [exact Ha|rewrite Hc; exact Hc']).
    clear Hc. induction HF as [|x y l l' H _ IH]; constructor.
    - split; [exact H|]. apply Hin. left. reflexivity.
    - apply IH. intros c Hc. apply Hin. right. exact Hc.
  Qed.

  Theorem sim_rule refs refs' : Forall2 ok2 refs refs' ->
    forall f r r', ok2 r r' -> rel_p (parse_rule E f refs r) (parse_rule E f refs' r').
  Proof.
    intros Hrefs f. induction f as [|f IH]; intros r r' (Hl & Ha); [intros ? ? ? ? ? ?; exact I|].
    assert (HFs : forall args args', Forall2 ok2 args args' ->
      Forall2 (fun r r' => rel_p (parse_rule E f refs r) (parse_rule E f refs' r')) args args').
    { intros args args' H. induction H; constructor; auto. }
    assert (Hone : forall c c', In c (children r) -> like_rule R c c' ->
      rel_p (parse_rule E f refs c) (parse_rule E f refs' c')).
    { intros c c' Hc Hl'. apply IH. split; [exact Hl'|]. eapply allowed_child; eassumption. }
    intros toks st tx i0 j0 Hij. destruct Hl; cbn [parse_rule].
    - unfold parse_whitespace. destruct (_ && _); leaf.
    - unfold parse_tag. destruct (rt_tag tx t), n; leaf.
    - apply sim_until; assumption.
    - apply sim_until; assumption.
    - unfold parse_text. destruct (x_string _ _); [|leaf]. destruct (_ && _); [leaf|].
      destruct (x_parse_string _ _) as [v|[re e']]; leaf.
    - unfold parse_number. destruct (x_number _ _ _); [|leaf].
      destruct (x_parse_number _ _ _); leaf.
    - apply sim_select; auto; [|exact I]. apply HFs. eapply ok2_args; eauto. reflexivity.
    - apply sim_fast; auto. apply HFs. eapply ok2_args; eauto. reflexivity.
    - apply sim_seq; auto; [|exact I]. apply HFs. eapply ok2_args; eauto. reflexivity.
    - apply sim_sep; auto; try exact I; apply Hone; simpl; auto.
    - apply sim_repeat; auto; try exact I; apply Hone; simpl; auto.
    - apply sim_lines; auto; [|apply Hone; simpl; auto].
      destruct d; [right|left; reflexivity].
      destruct Ha as [Ha|Ha]; [exact Ha|]. exfalso. apply (Ha a i). constructor.
    - unfold parse_node. destruct k as [k|]; [|leaf].
      destruct (emit p StartNode _ _ _) as [toks1 st1].
      pose proof (Forall2_nth _ _ _ k Hrefs) as Hk.
      destruct (nth_error refs k) as [r|], (nth_error refs' k) as [r'|]; try contradiction;
        [|exact I].
      eapply rel_o_bind; [apply (IH _ _ Hk); exact Hij|].
      intros [[[rg st2 err|e] toks2] a1] [[[rg' st2' err'|e'] toks2'] b1] (H1 & H2 & H3);
        simpl in H1, H2, H3; try contradiction; subst.
      + destruct H1 as (-> & -> & H1).
        destruct (emit p EndNode _ _ _) as [toks3 st3]. unfold res. simpl. repeat split; auto.
      + unfold res. simpl. auto.
    - unfold parse_optional. eapply rel_o_bind; [apply (Hone a b); simpl; auto|].
      intros [[[rg st2 err|e] toks2] a1] [[[rg' st2' err'|e'] toks2'] b1] (H1 & H2 & H3);
        simpl in H1, H2, H3; try contradiction; subst.
      + destruct H1 as (-> & -> & H1). unfold res. simpl. auto.
      + unfold res. simpl. auto.
    - unfold parse_not. eapply rel_o_bind; [apply (Hone a b); simpl; auto|].
      intros [[[rg st2 err|e] toks2] a1] [[[rg' st2' err'|e'] toks2'] b1] (H1 & H2 & H3);
        simpl in H1, H2, H3; try contradiction; subst.
      + destruct H1 as (-> & -> & H1). unfold res. simpl. repeat split; auto.
        constructor. assumption.
      + unfold res. simpl. auto.
  Qed.

  Lemma sim_parse f s s' text tokens i j :
    Forall2 ok2 (s_rules s) (s_rules s') -> rind i j ->
    rel_o (fun a b => like_result R (fst a) (fst b) /\ snd a = snd b)
      (parse_with_indent E f s text tokens i) (parse_with_indent E f s' text tokens j).
  Proof.
    intros H Hij. unfold parse_with_indent.
    rewrite <- (Forall2_len _ _ _ H).
    pose proof (Forall2_nth _ _ _ (length (s_rules s) - 1) H) as Hk.
    destruct (nth_error (s_rules s) _) as [r|], (nth_error (s_rules s') _) as [r'|];
      try contradiction.
    - eapply rel_o_bind; [apply (sim_rule _ _ H f _ _ Hk); exact Hij|].
      intros [[[rg st2 err|e] toks2] a1] [[[rg' st2' err'|e'] toks2'] b1] (H1 & H2 & H3);
        simpl in H1, H2, H3; try contradiction; subst.
      + destruct H1 as (-> & -> & H1). destruct (_ <? _); simpl; auto.
        split; [|reflexivity]. apply like_ret_err; [|exact H1]. split; [reflexivity|constructor].
      + simpl. auto.
    - simpl. split; [|reflexivity]. split; [reflexivity|constructor].
  Qed.
End Sim.

(** ** Public forms *)

Lemma like_rule_ind' (R : debug_id -> debug_id -> Prop) (HR : forall i, R i i) :
  forall r, like_rule R r r.
Proof.
  fix IH 1. intros r.
  destruct r; constructor; auto;
    match goal with |- Forall2 _ ?l ?l => induction l; constructor; auto end.
Qed.

Lemma like_error_eq e e' : like_error eq e e' -> e = e'.
Proof. intros H. destruct H; congruence. Qed.

Lemma like_result_eq a b : like_result eq a b -> a = b.
Proof.
  destruct a as [[r e]|], b as [[r' e']|]; simpl; try tauto.
  intros [H1 H2]. simpl in *. apply like_error_eq in H2. congruence.
Qed.

Lemma ok2_refl s : no_indented_lines s -> Forall2 (ok2 eq false) (s_rules s) (s_rules s).
Proof.
  intros H. assert (Hin : forall r, In r (s_rules s) -> ok2 eq false r r).
  { intros r Hr. split; [apply like_rule_ind'; reflexivity|]. right. intros r' id Ho.
    apply (H r' id). exists r. auto. }
  induction (s_rules s) as [|x l IH]; constructor.
  - apply Hin. left. reflexivity.
  - apply IH. intros r Hr. apply Hin. right. exact Hr.
Qed.

Theorem indent_irrelevant E s text tokens i j :
  no_indented_lines s -> forall fuel,
  parse_with_indent E fuel s text tokens i = parse_with_indent E fuel s text tokens j.
Proof.
  intros H fuel.
  pose proof (sim_parse E eq false fuel s s text tokens i j (ok2_refl s H) I) as Hs.
  destruct (parse_with_indent E fuel s text tokens i) as [[r t]| |],
    (parse_with_indent E fuel s text tokens j) as [[r' t']| |]; simpl in Hs; try contradiction;
    try reflexivity.
  destruct Hs as [H1 ->]. apply like_result_eq in H1. congruence.
Qed.

Theorem ids_irrelevant E s s' text tokens ind :
  Forall2 (like_rule any_ids) (s_rules s) (s_rules s') -> forall result tokens',
  parse_returns E s text tokens ind result tokens' ->
  exists result', parse_returns E s' text tokens ind result' tokens' /\
    like_result any_ids result result'.
Proof.
  intros H result tokens' (fuel & Hf).
  assert (H2 : Forall2 (ok2 any_ids true) (s_rules s) (s_rules s')).
  { clear Hf. induction H; constructor; auto. split; [assumption|left; reflexivity]. }
  pose proof (sim_parse E any_ids true fuel s s' text tokens ind ind H2 eq_refl) as Hs.
  rewrite Hf in Hs.
  destruct (parse_with_indent E fuel s' text tokens ind) as [[r' t']| |] eqn:He; simpl in Hs;
    try contradiction.
  destruct Hs as [H1 <-]. exists r'. split; [exists fuel; exact He|exact H1].
Qed.

Theorem ids_irrelevant_panics E s s' text tokens ind :
  Forall2 (like_rule any_ids) (s_rules s) (s_rules s') ->
  (parse_panics E s text tokens ind -> parse_panics E s' text tokens ind) /\
  (parse_diverges E s text tokens ind -> parse_diverges E s' text tokens ind).
Proof.
  intros H.
  assert (H2 : Forall2 (ok2 any_ids true) (s_rules s) (s_rules s')).
  { induction H; constructor; auto. split; [assumption|left; reflexivity]. }
  split.
  - intros (fuel & Hf). exists fuel.
    pose proof (sim_parse E any_ids true fuel s s' text tokens ind ind H2 eq_refl) as Hs.
    rewrite Hf in Hs.
    destruct (parse_with_indent E fuel s' text tokens ind); simpl in Hs; try contradiction.
    reflexivity.
  - intros Hd fuel. specialize (Hd fuel).
    pose proof (sim_parse E any_ids true fuel s s' text tokens ind ind H2 eq_refl) as Hs.
    rewrite Hd in Hs.
    destruct (parse_with_indent E fuel s' text tokens ind); simpl in Hs; try contradiction.
    reflexivity.
Qed.
