(** Completeness of the parser of the model with respect to [reads], and consequences:
    determinism. *)
From Coq Require Import List NArith Bool Arith Lia.
From Verif Require Import Base Ext Types ParseModel PegSpec PrimProofs PegProofs.
Import ListNotations.

Section Complete.
  Variable E : ext.
  Variable refs : list rule.

  Definition ok_rule (r : rule) (ind : indent) (p : nat) (s : str) (v : verdict)
    (ind' : indent) (tr : list perr) : Prop :=
    exists N, forall fuel, N <= fuel -> forall base junk, exists res toks',
      parse_rule E fuel refs r (base ++ junk) (length base) (RT s p) ind
        = Done (res, toks', ind') /\ agree p base v tr res toks'.

  Definition ok_seq (args : list rule) (ind : indent) (p : nat) (s : str) (v : verdict)
    (ind' : indent) (tr : list perr) : Prop :=
    exists N, forall fuel, N <= fuel -> forall base junk p0 n0 s0 tr0, p = p0 + n0 ->
      exists res toks',
      seq_loop (parse_rule E fuel refs) args (RT s0 p0) (base ++ junk) (length base) (RT s p)
        ind (best tr0) = Done (res, toks', ind') /\
      agree p0 base (after n0 [] v) (tr0 ++ tr) res toks'.

  Definition ok_first (args : list rule) (ind : indent) (p : nat) (s : str) (v : verdict)
    (ind' : indent) (tr : list perr) : Prop :=
    exists N, forall fuel, N <= fuel -> forall id base junk tr0, (args = [] -> tr0 <> []) ->
      exists res toks',
      select_loop (parse_rule E fuel refs) args id (base ++ junk) (length base) (RT s p)
        ind (best tr0) = Done (res, toks', ind') /\
      agree p base v (tr0 ++ tr) res toks'.

  Definition ok_many (r : rule) (ind : indent) (p : nat) (s : str) (k n : nat)
    (out : list tok) (ind' : indent) (tr : list perr) : Prop :=
    exists N, forall fuel F, N <= fuel -> N <= F ->
      forall optional first base junk p0 n0 s0 tr0, p = p0 + n0 ->
      0 < k \/ first = false \/ optional = true ->
      exists res toks',
      repeat_loop F (parse_rule E fuel refs r) optional (RT s0 p0) first (base ++ junk)
        (length base) (RT s p) ind (best tr0) = Done (res, toks', ind') /\
      agree p0 base (Yes (n0 + n) out) (tr0 ++ tr) res toks'.

  (** The second half of the loop of [sep_loop]. *)
  Definition sep_rest (F : nat) (P Q : parser) (optional trail : bool) (start : rt)
    (toks1 : list tok) (st1 : nat) (t1 : rt) (ind1 : indent) (oe1 : option perr) :=
    do (res2, toks2, ind2) <- Q toks1 st1 t1 ind1;
    match res2 with
    | PErr e => Done (POk (rt_subtract t1 start) st1 (err_update (Some e) oe1), toks2, ind2)
    | POk rg2 st2 err2 =>
      sep_loop F P Q optional trail start false
        toks2 st2 (rt_consume t1 (r_len rg2)) ind2 (err_update err2 oe1)
    end.

  Definition ok_more (r by_ : rule) (trail : bool) (ind : indent) (p : nat) (s : str)
    (v : verdict) (ind' : indent) (tr : list perr) : Prop :=
    exists N, forall fuel F, N <= fuel -> N <= F ->
      forall optional base junk p0 n0 s0 tr0, p = p0 + n0 ->
      exists res toks',
      sep_rest F (parse_rule E fuel refs r) (parse_rule E fuel refs by_) optional trail
        (RT s0 p0) (base ++ junk) (length base) (RT s p) ind (best tr0)
        = Done (res, toks', ind') /\
      agree p0 base (after n0 [] v) (tr0 ++ tr) res toks'.

  Definition ok_lines (r : rule) (indented : bool) (id : debug_id) (fresh nl : bool)
    (ind : indent) (p : nat) (s : str) (v : verdict) (ind' : indent) (tr : list perr) : Prop :=
    exists N, forall fuel F, N <= fuel -> N <= F ->
      forall base tr0 ls, ls_rep base tr0 fresh ind ls ->
      exists lres ls',
      lines_loop E (closure indented (parse_rule E fuel refs r)) F nl (RT s p) ls
        = Done (lres, ls') /\
      match v with
      | Yes n out => exists fresh',
        lres = inl (RT (skipn n s) (p + n)) /\ ls_rep (base ++ out) (tr0 ++ tr) fresh' ind' ls'
      | No =>
        exists rg tr1 junk, lres = inr rg /\ tr = tr1 ++ [(rg, ExpectedNewLine id)] /\
          ls_toks ls' = base ++ junk /\ ls_err ls' = best (tr0 ++ tr1) /\ ls_ind ls' = ind'
      end.

  Definition ok_line (r : rule) (indented fresh : bool)
    (ind : indent) (p : nat) (s : str) (v : verdict) (fresh' : bool) (ind' : indent)
    (tr : list perr) : Prop :=
    exists N, forall fuel, N <= fuel ->
      forall base tr0 ls, ls_rep base tr0 fresh ind ls ->
      exists ores ls',
      closure indented (parse_rule E fuel refs r) (RT s p) ls = Done (ores, ls') /\
      match v with
      | Yes n out => ores = Some (Rng p n) /\ ls_rep (base ++ out) (tr0 ++ tr) fresh' ind' ls'
      | No => ores = None /\ ls_rep base (tr0 ++ tr) fresh' ind' ls'
      end.


  Ltac go N := exists N; intros fuel Hf base junk; destruct fuel as [|fuel]; [lia|];
    cbn [parse_rule].
  Ltac use H := let res := fresh "res" in let toks := fresh "toks" in
    let He := fresh "He" in let Ha := fresh "Ha" in
    edestruct H as (res & toks & He & Ha); [..|rewrite He; clear He; cbn [obind]].

  (** An item of a line read by the sub rule after [k] characters. *)
  Lemma item_ok fuel r ind wid p s k v ind' tr base junk tr0 fresh1 :
    (wid + 1 <= u32_max)%N -> i_indent ind = wid ->
    (forall base junk, exists res toks',
      parse_rule E fuel refs r (base ++ junk) (length base) (RT (skipn k s) (p + k))
        (set_indent ind (wid + 1)) = Done (res, toks', ind') /\ agree (p + k) base v tr res toks') ->
    exists ores ls',
    lines_item_indent (parse_rule E fuel refs r) p (RT (skipn k s) (p + k)) fresh1
      (LS (base ++ junk) (length base) (best tr0) fresh1 ind) ind = Done (ores, ls') /\
    match after k [] v with
    | Yes n out => ores = Some (Rng p n) /\
                   ls_rep (base ++ out) (tr0 ++ tr) fresh1 (set_indent ind' wid) ls'
    | No => ores = None /\ ls_rep base (tr0 ++ tr) fresh1 (set_indent ind' wid) ls'
    end.
  Proof.
    intros Hw Hi H. unfold lines_item_indent. rewrite Hi. unfold add_u32.
    destruct (N.leb_spec (wid + 1) u32_max); [|lia]. cbn [obind ls_toks ls_state ls_err].
    destruct (H base junk) as (res & toks & He & Ha). rewrite He. cbn [obind].
    destruct v as [n out|].
    - destruct Ha as (junk1 & -> & ->). do 2 eexists. split; [reflexivity|]. cbn [after]. split.
      + f_equal. f_equal. unfold next_offset. simpl. lia.
      + exists junk1. rewrite best_app. reflexivity.
    - destruct Ha as (e & junk1 & Hb & -> & ->). do 2 eexists. split; [reflexivity|].
      cbn [after]. split; [reflexivity|]. exists junk1. rewrite best_app, Hb. reflexivity.
  Qed.

  Lemma item_first_irrelevant P o t f f' toks st err ind ind0 :
    lines_item_indent P o t f (LS toks st err f' ind0) ind
    = lines_item_indent P o t f (LS toks st err f ind) ind.
  Proof. reflexivity. Qed.

  Ltac emits := match goal with
    | |- context [emit ?pr ?mk ?rg (?base ++ ?junk) (length ?base)] =>
      let j := fresh "junk" in let He := fresh "He" in
      destruct (emit_spec pr mk rg base junk) as (j & He); rewrite He; clear He
    end.

  Theorem reads_complete :
    (forall r ind p s v ind' tr,
      reads E refs r ind p s v ind' tr -> ok_rule r ind p s v ind' tr) /\
    (forall args ind p s v ind' tr,
      reads_seq E refs args ind p s v ind' tr -> ok_seq args ind p s v ind' tr) /\
    (forall args ind p s v ind' tr,
      reads_first E refs args ind p s v ind' tr -> ok_first args ind p s v ind' tr) /\
    (forall r ind p s k n out ind' tr,
      reads_many E refs r ind p s k n out ind' tr -> ok_many r ind p s k n out ind' tr) /\
    (forall r by_ trail ind p s v ind' tr,
      reads_more E refs r by_ trail ind p s v ind' tr ->
      ok_more r by_ trail ind p s v ind' tr) /\
    (forall r indented id fresh nl ind p s v ind' tr,
      reads_lines E refs r indented id fresh nl ind p s v ind' tr ->
      ok_lines r indented id fresh nl ind p s v ind' tr) /\
    (forall r indented fresh ind p s v fresh' ind' tr,
      reads_line E refs r indented fresh ind p s v fresh' ind' tr ->
      ok_line r indented fresh ind p s v fresh' ind' tr).
  Proof.
    apply reads_mutind.
    - (* whitespace *)
      intros optional id ind p s n Hl Hn. go 1.
      unfold parse_whitespace, rt_whitespace. cbn [src off r_len].
      rewrite <- (longest_span_eq _ _ _ _ white_spec Hl).
      assert (Hc : Nat.eqb n 0 && negb optional = false).
      { destruct Hn as [->|Hn]; [apply andb_false_r|]. destruct n; [lia|reflexivity]. }
      rewrite Hc. do 2 eexists. split; [reflexivity|].
      eapply agree_yes with (junk := junk); rewrite app_nil_r; reflexivity.
    - intros id ind p s Hl. go 1. unfold parse_whitespace, rt_whitespace. cbn [src off r_len].
      rewrite <- (longest_span_eq _ _ _ _ white_spec Hl). cbn. do 2 eexists.
      split; [reflexivity|]. eapply agree_no; reflexivity.
    - (* tag *)
      intros text inverted property id ind p s Hs. go 1. unfold parse_tag, rt_tag.
      cbn [src off]. apply is_prefix_spec in Hs. rewrite Hs. emits. do 2 eexists.
      split; [reflexivity|]. eapply agree_yes; reflexivity.
    - intros text inverted property id ind p s Hs. go 1. unfold parse_tag, rt_tag.
      cbn [src off]. apply is_prefix_false in Hs. rewrite Hs. do 2 eexists.
      split; [reflexivity|]. eapply agree_no; reflexivity.
    - intros text inverted property id ind p s Hs. go 1. unfold parse_tag, rt_tag.
      cbn [src off]. apply is_prefix_false in Hs. rewrite Hs. emits. do 2 eexists.
      split; [reflexivity|]. eapply agree_yes; reflexivity.
    - intros text inverted property id ind p s Hs. go 1. unfold parse_tag, rt_tag.
      cbn [src off]. apply is_prefix_spec in Hs. rewrite Hs. do 2 eexists.
      split; [reflexivity|]. eapply agree_no; reflexivity.
    - (* until *)
      intros any optional property id ind p s n Hl Hn. go 1.
      unfold parse_until, rt_until_any. cbn [src off r_len].
      rewrite <- (longest_span_eq _ _ _ _ (until_spec any) Hl).
      assert (Hc : Nat.eqb n 0 && negb optional = false).
      { destruct Hn as [->|Hn]; [apply andb_false_r|]. destruct n; [lia|reflexivity]. }
      rewrite Hc. emits. do 2 eexists. split; [reflexivity|]. eapply agree_yes; reflexivity.
    - intros any property id ind p s Hl. go 1.
      unfold parse_until, rt_until_any. cbn [src off r_len].
      rewrite <- (longest_span_eq _ _ _ _ (until_spec any) Hl).
      do 2 eexists. split; [reflexivity|]. eapply agree_no; reflexivity.
    - intros any optional property id ind p s n Hl Hn. go 1.
      unfold parse_until, rt_until_any_or_ws. cbn [src off r_len].
      rewrite <- (longest_span_eq _ _ _ _ (until_ws_spec any) Hl).
      assert (Hc : Nat.eqb n 0 && negb optional = false).
      { destruct Hn as [->|Hn]; [apply andb_false_r|]. destruct n; [lia|reflexivity]. }
      rewrite Hc. emits. do 2 eexists. split; [reflexivity|]. eapply agree_yes; reflexivity.
    - intros any property id ind p s Hl. go 1.
      unfold parse_until, rt_until_any_or_ws. cbn [src off r_len].
      rewrite <- (longest_span_eq _ _ _ _ (until_ws_spec any) Hl).
      do 2 eexists. split; [reflexivity|]. eapply agree_no; reflexivity.
    - (* text *)
      intros allow_empty property id ind p s n val Hs Hn Hv. go 1.
      unfold parse_text, rt_raw_string. cbn [src off]. rewrite Hs.
      assert (Hc : negb allow_empty && Nat.eqb n 2 = false).
      { destruct Hn as [->|Hn]; [reflexivity|]. apply Nat.eqb_neq in Hn. rewrite Hn.
        apply andb_false_r. }
      rewrite Hc, Hv. emits. do 2 eexists. split; [reflexivity|]. eapply agree_yes; reflexivity.
    - intros allow_empty property id ind p s Hs. go 1.
      unfold parse_text. cbn [src off]. rewrite Hs. do 2 eexists. split; [reflexivity|].
      eapply agree_no; reflexivity.
    - intros property id ind p s Hs. go 1.
      unfold parse_text. cbn [src off]. rewrite Hs. do 2 eexists. split; [reflexivity|].
      eapply agree_no; reflexivity.
    - intros allow_empty property id ind p s n r e Hs Hn Hv. go 1.
      unfold parse_text, rt_raw_string. cbn [src off]. rewrite Hs.
      assert (Hc : negb allow_empty && Nat.eqb n 2 = false).
      { destruct Hn as [->|Hn]; [reflexivity|]. apply Nat.eqb_neq in Hn. rewrite Hn.
        apply andb_false_r. }
      rewrite Hc, Hv. do 2 eexists. split; [reflexivity|]. eapply agree_no; reflexivity.
    - (* number *)
      intros underscore property id ind p s n val Hs Hv. go 1.
      unfold parse_number, rt_raw_string. cbn [src off]. rewrite Hs, Hv. emits.
      do 2 eexists. split; [reflexivity|]. eapply agree_yes; reflexivity.
    - intros underscore property id ind p s Hs. go 1.
      unfold parse_number. cbn [src off]. rewrite Hs.
      do 2 eexists. split; [reflexivity|]. eapply agree_no; reflexivity.
    - intros underscore property id ind p s n Hs Hv. go 1.
      unfold parse_number, rt_raw_string. cbn [src off]. rewrite Hs, Hv.
      do 2 eexists. split; [reflexivity|]. eapply agree_no; reflexivity.
    - (* sequence *)
      intros args id ind p s v ind' tr _ (N & IH). go (S N). unfold parse_sequence.
      change None with (best []).
      destruct (IH fuel ltac:(lia) base junk p 0 s []) as (res & toks & He & Ha); [lia|].
      rewrite after_0 in Ha. eauto.
    - (* select *)
      intros args id ind p s v ind' tr Hne _ (N & IH). go (S N). unfold parse_select.
      change None with (best []).
      destruct (IH fuel ltac:(lia) id base junk []) as (res & toks & He & Ha); [congruence|].
      eauto.
    - intros id ind p s. go 1. do 2 eexists. split; [reflexivity|]. eapply agree_no; reflexivity.
    - (* fast select *)
      intros table args tail id ind p. go 1. do 2 eexists. split; [reflexivity|].
      eapply agree_no; reflexivity.
    - intros table args id ind p c s Ht. go 1. unfold parse_fast_select. cbn [src]. rewrite Ht.
      do 2 eexists. split; [reflexivity|]. eapply agree_no; reflexivity.
    - intros table args r id ind p c s v ind' tr Ht _ (N & IH). go (S N).
      unfold parse_fast_select. cbn [src]. rewrite Ht. cbn [Nat.eqb]. unfold fast_tail.
      assert (Hn : nth_error (args ++ [r]) (length (args ++ [r]) - 1) = Some r).
      { rewrite app_length. simpl. rewrite Nat.add_sub, nth_error_app2 by lia.
        rewrite Nat.sub_diag. reflexivity. }
      destruct (args ++ [r]) eqn:Ha; [discriminate|]. rewrite <- Ha in *. rewrite Hn.
      destruct (IH fuel ltac:(lia) base junk) as (res & toks & He & Hg). rewrite He.
      cbn [obind]. destruct v as [n out|].
      + destruct Hg as (junk' & -> & ->). do 2 eexists. split; [reflexivity|].
        eapply agree_yes; reflexivity.
      + destruct Hg as (e & junk' & Hb & -> & ->). do 2 eexists. split; [reflexivity|].
        eapply agree_no; eauto.
    - intros table args tail id ind p c s i r n out ind' tr Ht Hi Hr _ (N & IH). go (S N).
      unfold parse_fast_select. cbn [src]. rewrite Ht. apply Nat.eqb_neq in Hi.
      rewrite Hi, Hr. destruct (IH fuel ltac:(lia) base junk) as (res & toks & He & Hg).
      rewrite He. cbn [obind]. destruct Hg as (junk' & -> & ->). do 2 eexists.
      split; [reflexivity|]. eapply agree_yes; reflexivity.
    - intros table args id ind p c s i r ind' tr Ht Hi Hr _ (N & IH). go (S N).
      unfold parse_fast_select. cbn [src]. rewrite Ht. apply Nat.eqb_neq in Hi.
      rewrite Hi, Hr. destruct (IH fuel ltac:(lia) base junk) as (res & toks & He & Hg).
      rewrite He. cbn [obind]. destruct Hg as (e & junk' & Hb & -> & ->). do 2 eexists.
      split; [reflexivity|]. eapply agree_no; eauto.
    - intros table args r' id ind p c s i r ind1 tr1 v ind2 tr2 Ht Hi Hr _ (N1 & IH1)
        _ (N2 & IH2). go (S (N1 + N2)).
      unfold parse_fast_select. cbn [src]. rewrite Ht. apply Nat.eqb_neq in Hi.
      rewrite Hi, Hr. destruct (IH1 fuel ltac:(lia) base junk) as (res & toks & He & Hg).
      rewrite He. cbn [obind]. destruct Hg as (e & junk' & Hb & -> & ->). unfold fast_tail.
      assert (Hn : nth_error (args ++ [r']) (length (args ++ [r']) - 1) = Some r').
      { rewrite app_length. simpl. rewrite Nat.add_sub, nth_error_app2 by lia.
        rewrite Nat.sub_diag. reflexivity. }
      destruct (args ++ [r']) eqn:Ha; [destruct args; discriminate|].
      rewrite <- Ha in *. rewrite Hn.
      destruct (IH2 fuel ltac:(lia) base junk') as (res & toks & He2 & Hg). rewrite He2.
      cbn [obind]. destruct v as [n out|].
      + destruct Hg as (junk2 & -> & ->). do 2 eexists. split; [reflexivity|].
        eapply agree_yes; [|reflexivity]. rewrite best_app, Hb. reflexivity.
      + destruct Hg as (e2 & junk2 & Hb2 & -> & ->). do 2 eexists. split; [reflexivity|].
        eapply agree_no; [|reflexivity|reflexivity].
        rewrite best_app, Hb, Hb2, ret_err_update. reflexivity.
    - (* repeat *)
      intros r optional id ind p s k n out ind' tr _ (N & IH) Hk. go (S N).
      unfold parse_repeat. change None with (best []).
      destruct (IH fuel fuel ltac:(lia) ltac:(lia) optional true base junk p 0 s [])
        as (res & toks & He & Ha); [lia|destruct Hk; auto|]. eauto.
    - intros r id ind p s ind' tr _ (N & IH). go (S (S N)). destruct fuel as [|f]; [lia|].
      unfold parse_repeat. cbn [repeat_loop].
      destruct (IH (S f) ltac:(lia) base junk) as (res & toks & He & Ha). rewrite He.
      cbn [obind]. destruct Ha as (e & junk1 & Hb & -> & ->). do 2 eexists.
      split; [reflexivity|]. eapply agree_no; eauto.
    - (* separate *)
      intros r by_ optional trail id ind p s n out ind1 tr1 v ind2 tr2 _ (N1 & IH1)
        _ (N2 & IH2). go (S (S (N1 + N2))). destruct fuel as [|f]; [lia|].
      unfold parse_separate_by. cbn [sep_loop].
      destruct (IH1 (S f) ltac:(lia) base junk) as (res & toks & He & Ha). rewrite He.
      cbn [obind]. destruct Ha as (junk1 & -> & ->). rewrite err_update_none_r.
      rewrite rt_eq. cbn [r_len].
      destruct (IH2 (S f) f ltac:(lia) ltac:(lia) optional (base ++ out) junk1 p n s tr1
                  eq_refl) as (res & toks & He2 & Ha).
      unfold sep_rest in He2. do 2 eexists. split; [exact He2|].
      apply agree_push. exact Ha.
    - intros r by_ optional trail id ind p s ind' tr _ (N & IH). go (S (S N)).
      destruct fuel as [|f]; [lia|]. unfold parse_separate_by. cbn [sep_loop].
      destruct (IH (S f) ltac:(lia) base junk) as (res & toks & He & Ha). rewrite He.
      cbn [obind]. destruct Ha as (e & junk1 & Hb & -> & ->).
      destruct optional; cbn [negb]; do 2 eexists; (split; [reflexivity|]).
      + eapply agree_yes with (junk := junk1); rewrite app_nil_r; [|reflexivity].
        rewrite Hb. unfold rt_subtract. simpl. rewrite Nat.sub_diag. reflexivity.
      + eapply agree_no; eauto.
    - (* lines *)
      intros r indented id ind p s v ind' tr _ (N & IH). go (S N).
      unfold parse_lines, rt_lines. fold (closure indented (parse_rule E fuel refs r)).
      destruct (IH fuel fuel ltac:(lia) ltac:(lia) base []
                  (LS (base ++ junk) (length base) None true ind)) as (lres & ls & He & Ha);
        [exists junk; reflexivity|].
      rewrite He. cbn [obind]. destruct v as [n out|].
      + destruct Ha as (fresh' & -> & (junk' & ->)). cbn. do 2 eexists. split; [reflexivity|].
        eapply agree_yes; [|reflexivity]. unfold rt_subtract. simpl. do 2 f_equal. lia.
      + destruct Ha as (rg & tr1 & junk' & -> & -> & Ht & Hb & Hi). cbn [obind].
        rewrite Hi. do 2 eexists. split; [reflexivity|].
        eapply agree_no; [|reflexivity|exact Ht].
        rewrite best_app, best_one, ret_err_update, Hb. reflexivity.
    - (* node *)
      intros name property i id r ind p s n out ind' tr Hi _ (N & IH). go (S N).
      unfold parse_node. emits. rewrite Hi.
      edestruct (IH fuel ltac:(lia)) as (res & toks & He & Ha). rewrite He. cbn [obind].
      destruct Ha as (junk1 & -> & ->). cbn [r_len].
      assert (Hn : rt_subtract (rt_consume (RT s p) n) (RT s p) = Rng p n)
        by (unfold rt_subtract; simpl; f_equal; lia).
      rewrite Hn. emits. do 2 eexists. split; [reflexivity|].
      eapply agree_yes with (junk := junk2); rewrite <- !app_assoc; reflexivity.
    - intros name property i id r ind p s ind' tr Hi _ (N & IH). go (S N).
      unfold parse_node. emits. rewrite Hi.
      edestruct (IH fuel ltac:(lia)) as (res & toks & He & Ha). rewrite He. cbn [obind].
      destruct Ha as (e & junk1 & Hb & -> & ->). do 2 eexists. split; [reflexivity|].
      eapply agree_no; [exact Hb|reflexivity|]. rewrite <- app_assoc. reflexivity.
    - intros name property id ind p s. go 1. do 2 eexists. split; [reflexivity|].
      eapply agree_no; reflexivity.
    - (* optional *)
      intros r id ind p s n out ind' tr _ (N & IH). go (S N). unfold parse_optional.
      destruct (IH fuel ltac:(lia) base junk) as (res & toks & He & Ha). rewrite He.
      cbn [obind]. destruct Ha as (junk1 & -> & ->). do 2 eexists. split; [reflexivity|].
      eapply agree_yes; [|reflexivity]. unfold rt_subtract. simpl. do 2 f_equal. lia.
    - intros r id ind p s ind' tr _ (N & IH). go (S N). unfold parse_optional.
      destruct (IH fuel ltac:(lia) base junk) as (res & toks & He & Ha). rewrite He.
      cbn [obind]. destruct Ha as (e & junk1 & Hb & -> & ->). do 2 eexists.
      split; [reflexivity|]. eapply agree_yes with (junk := junk1); rewrite app_nil_r;
      [|reflexivity]. rewrite Hb. reflexivity.
    - (* not *)
      intros r id ind p s ind' tr _ (N & IH). go (S N). unfold parse_not.
      destruct (IH fuel ltac:(lia) base junk) as (res & toks & He & Ha). rewrite He.
      cbn [obind]. destruct Ha as (e & junk1 & Hb & -> & ->). do 2 eexists.
      split; [reflexivity|]. eapply agree_yes with (junk := junk1); rewrite app_nil_r;
      reflexivity.
    - intros r id ind p s n out ind' tr _ (N & IH). go (S N). unfold parse_not.
      destruct (IH fuel ltac:(lia) base junk) as (res & toks & He & Ha). rewrite He.
      cbn [obind]. destruct Ha as (junk1 & -> & ->). do 2 eexists. split; [reflexivity|].
      eapply agree_no; [reflexivity|reflexivity|]. rewrite <- app_assoc. reflexivity.
    - (* seq *)
      intros ind p s. exists 0. intros fuel _ base junk p0 n0 s0 tr0 ->. cbn [seq_loop].
      do 2 eexists. split; [reflexivity|]. cbn [after].
      eapply agree_yes with (junk := junk); rewrite ?app_nil_r; [|reflexivity].
      unfold rt_subtract. simpl. do 2 f_equal. lia.
    - intros r rest ind p s ind' tr _ (N & IH). exists N.
      intros fuel Hf base junk p0 n0 s0 tr0 ->. cbn [seq_loop].
      destruct (IH fuel ltac:(lia) base junk) as (res & toks & He & Ha). rewrite He.
      cbn [obind]. destruct Ha as (e & junk1 & Hb & -> & ->). do 2 eexists.
      split; [reflexivity|]. cbn [after]. eapply agree_no; [|reflexivity|reflexivity].
      rewrite best_app, Hb, ret_err_update. reflexivity.
    - intros r rest ind p s n out ind1 tr1 v ind2 tr2 _ (N1 & IH1) _ (N2 & IH2).
      exists (N1 + N2). intros fuel Hf base junk p0 n0 s0 tr0 ->. cbn [seq_loop].
      destruct (IH1 fuel ltac:(lia) base junk) as (res & toks & He & Ha). rewrite He.
      cbn [obind]. destruct Ha as (junk1 & -> & ->). rewrite rt_eq, <- best_app. cbn [r_len].
      destruct (IH2 fuel ltac:(lia) (base ++ out) junk1 p0 (n0 + n) s0 (tr0 ++ tr1))
        as (res & toks & He2 & Ha); [lia|].
      do 2 eexists. split; [exact He2|]. rewrite after_after, app_nil_l. apply agree_push.
      rewrite app_assoc. exact Ha.
    - (* first *)
      intros ind p s. exists 0. intros fuel _ id base junk tr0 Hne. cbn [select_loop].
      destruct (best tr0) as [e|] eqn:Hb.
      + do 2 eexists. split; [reflexivity|]. eapply agree_no; [|reflexivity|reflexivity].
        rewrite app_nil_r. exact Hb.
      + exfalso. specialize (Hne eq_refl). destruct tr0 as [|x tr0 _] using rev_ind; [congruence|].
        rewrite best_app in Hb. simpl in Hb. destruct (best tr0); simpl in Hb; [|discriminate].
        destruct (_ <=? _); discriminate.
    - intros r rest ind p s n out ind' tr _ (N & IH). exists N.
      intros fuel Hf id base junk tr0 _. cbn [select_loop].
      destruct (IH fuel ltac:(lia) base junk) as (res & toks & He & Ha). rewrite He.
      cbn [obind]. destruct Ha as (junk1 & -> & ->). do 2 eexists. split; [reflexivity|].
      eapply agree_yes; [|reflexivity]. rewrite best_app. reflexivity.
    - intros r rest ind p s ind1 tr1 v ind2 tr2 _ (N1 & IH1) _ (N2 & IH2). exists (N1 + N2).
      intros fuel Hf id base junk tr0 _. cbn [select_loop].
      destruct (IH1 fuel ltac:(lia) base junk) as (res & toks & He & Ha). rewrite He.
      cbn [obind]. destruct Ha as (e & junk1 & Hb & -> & ->). rewrite <- Hb, <- best_app.
      destruct (IH2 fuel ltac:(lia) id base junk1 (tr0 ++ tr1)) as (res & toks & He2 & Ha).
      { intros _ H0. apply app_eq_nil in H0 as [_ ->]. discriminate. }
      do 2 eexists. split; [exact He2|]. rewrite app_assoc. exact Ha.
    - (* many *)
      intros r ind p s ind' tr _ (N & IH). exists (S N).
      intros fuel F Hf HF optional first base junk p0 n0 s0 tr0 -> Hk.
      destruct F as [|F]; [lia|]. cbn [repeat_loop].
      destruct (IH fuel ltac:(lia) base junk) as (res & toks & He & Ha). rewrite He.
      cbn [obind]. destruct Ha as (e & junk1 & Hb & -> & ->).
      assert (Hc : first && negb optional = false).
      { destruct Hk as [Hk|[->| ->]]; [lia|reflexivity|apply andb_false_r]. }
      rewrite Hc. do 2 eexists. split; [reflexivity|].
      eapply agree_yes with (junk := junk1); rewrite app_nil_r; [|reflexivity].
      rewrite best_app, Hb. unfold rt_subtract. simpl. do 2 f_equal. lia.
    - intros r ind p s n out ind1 tr1 k m out' ind2 tr2 _ (N1 & IH1) _ (N2 & IH2).
      exists (S (N1 + N2)). intros fuel F Hf HF optional first base junk p0 n0 s0 tr0 -> _.
      destruct F as [|F]; [lia|]. cbn [repeat_loop].
      destruct (IH1 fuel ltac:(lia) base junk) as (res & toks & He & Ha). rewrite He.
      cbn [obind]. destruct Ha as (junk1 & -> & ->). rewrite rt_eq, <- best_app. cbn [r_len].
      destruct (IH2 fuel F ltac:(lia) ltac:(lia) optional false (base ++ out) junk1 p0 (n0 + n)
                  s0 (tr0 ++ tr1)) as (res & toks & He2 & Ha); [lia|auto|].
      do 2 eexists. split; [exact He2|]. rewrite (app_assoc tr0).
      unfold agree in *. rewrite Nat.add_assoc, (app_assoc base). exact Ha.
    - (* more *)
      intros r by_ trail ind p s ind' tr _ (N & IH). exists N.
      intros fuel F Hf HF optional base junk p0 n0 s0 tr0 ->. unfold sep_rest.
      destruct (IH fuel ltac:(lia) base junk) as (res & toks & He & Ha). rewrite He.
      cbn [obind]. destruct Ha as (e & junk1 & Hb & -> & ->). do 2 eexists.
      split; [reflexivity|]. cbn [after]. rewrite Nat.add_0_r.
      eapply agree_yes with (junk := junk1); rewrite app_nil_r; [|reflexivity].
      rewrite best_app, Hb. unfold rt_subtract. simpl. do 2 f_equal. lia.
    - intros r by_ trail ind p s n out ind1 tr1 ind2 tr2 _ (N1 & IH1) _ (N2 & IH2).
      exists (S (N1 + N2)). intros fuel F Hf HF optional base junk p0 n0 s0 tr0 ->.
      unfold sep_rest. destruct F as [|F]; [lia|].
      destruct (IH1 fuel ltac:(lia) base junk) as (res & toks & He & Ha). rewrite He.
      cbn [obind]. destruct Ha as (junk1 & -> & ->). rewrite rt_eq, <- best_app.
      cbn [r_len sep_loop].
      destruct (IH2 fuel ltac:(lia) (base ++ out) junk1) as (res & toks & He2 & Ha). rewrite He2.
      cbn [obind]. destruct Ha as (e & junk2 & Hb & -> & ->). destruct trail; cbn [negb];
      do 2 eexists; (split; [reflexivity|]); cbn [after].
      + eapply agree_yes with (junk := junk2); [|reflexivity].
        rewrite (app_assoc tr0), (best_app (tr0 ++ tr1)), Hb. unfold rt_subtract. simpl.
        do 2 f_equal. lia.
      + eapply agree_no; [|reflexivity|rewrite <- app_assoc; reflexivity].
        rewrite (app_assoc tr0), (best_app (tr0 ++ tr1)), Hb, ret_err_update. reflexivity.
    - intros r by_ trail ind p s n out ind1 tr1 m out' ind2 tr2 v ind3 tr3 _ (N1 & IH1)
        _ (N2 & IH2) _ (N3 & IH3).
      exists (S (N1 + N2 + N3)). intros fuel F Hf HF optional base junk p0 n0 s0 tr0 ->.
      unfold sep_rest. destruct F as [|F]; [lia|].
      destruct (IH1 fuel ltac:(lia) base junk) as (res & toks & He & Ha). rewrite He.
      cbn [obind]. destruct Ha as (junk1 & -> & ->). rewrite rt_eq, <- best_app.
      cbn [r_len sep_loop].
      destruct (IH2 fuel ltac:(lia) (base ++ out) junk1) as (res & toks & He2 & Ha). rewrite He2.
      cbn [obind]. destruct Ha as (junk2 & -> & ->). rewrite rt_eq, <- best_app. cbn [r_len].
      destruct (IH3 fuel F ltac:(lia) ltac:(lia) optional ((base ++ out) ++ out') junk2
                  p0 (n0 + n + m) s0 ((tr0 ++ tr1) ++ tr2))
        as (res & toks & He3 & Ha); [lia|].
      unfold sep_rest in He3. do 2 eexists. split; [exact He3|].
      rewrite !after_after, app_nil_l. apply agree_push.
      rewrite <- !app_assoc in *. exact Ha.
    - (* lines *)
      intros r indented id fresh nl ind p s Hw. exists 1. intros fuel F _ HF base tr0 ls Hls.
      destruct F as [|F]; [lia|]. cbn [lines_loop src].
      apply all_white in Hw. rewrite Hw, Nat.eqb_refl. do 2 eexists. split; [reflexivity|].
      exists fresh. rewrite !app_nil_r. split; [reflexivity|exact Hls].
    - intros r indented id fresh ind p s Hw Hs. exists 1. intros fuel F _ HF base tr0 ls Hls.
      destruct F as [|F]; [lia|]. cbn [lines_loop src].
      destruct (Nat.eqb_spec (span_len is_ws s) (length s)) as [H|_];
        [exfalso; apply Hw; apply all_white; exact H|].
      pose proof (line_start_model false s) as Hm.
      destruct (after_last_newline _) as [k|];
        [exfalso; eapply line_start_same_line; eassumption|].
      do 2 eexists. split; [reflexivity|]. destruct Hls as (junk & ->).
      eexists _, [], junk. rewrite app_nil_r. auto.
    - intros r indented id fresh nl ind p s k fresh' ind' tr Hw Hk _ (N & IH).
      exists (S N). intros fuel F Hf HF base tr0 ls Hls.
      destruct F as [|F]; [lia|]. cbn [lines_loop src].
      destruct (Nat.eqb_spec (span_len is_ws s) (length s)) as [H|_];
        [exfalso; apply Hw; apply all_white; exact H|].
      pose proof (line_start_model nl s) as Hm.
      destruct (IH fuel ltac:(lia) base tr0 ls Hls) as (ores & ls' & He & -> & Hls').
      destruct (after_last_newline _) as [k'|].
      + assert (k' = k) by (eapply line_start_unique; eassumption). subst k'.
        rewrite rt_eq, He. cbn [obind]. do 2 eexists. split; [reflexivity|].
        exists fresh'. rewrite app_nil_r. auto.
      + destruct nl; [|exfalso; eapply line_start_same_line; eassumption].
        assert (k = 0).
        { eapply line_start_unique; [exact Hk|]. constructor; [reflexivity|exact Hm]. }
        subst k. rewrite Nat.add_0_r in He. simpl in He. rewrite He. cbn [obind].
        do 2 eexists. split; [reflexivity|].
        exists fresh'. rewrite app_nil_r, Nat.add_0_r. auto.
    - intros r indented id fresh nl ind p s k n out fresh' ind1 tr1 nl' v ind2 tr2
        Hw Hk _ (N1 & IH1) Hnl _ (N2 & IH2).
      exists (S (N1 + N2)). intros fuel F Hf HF base tr0 ls Hls.
      destruct F as [|F]; [lia|]. cbn [lines_loop src].
      destruct (Nat.eqb_spec (span_len is_ws s) (length s)) as [H|_];
        [exfalso; apply Hw; apply all_white; exact H|].
      pose proof (line_start_model nl s) as Hm.
      destruct (IH1 fuel ltac:(lia) base tr0 ls Hls) as (ores & ls1 & He & -> & Hls1).
      destruct (IH2 fuel F ltac:(lia) ltac:(lia) (base ++ out) (tr0 ++ tr1) ls1 Hls1)
        as (lres & ls2 & He2 & Ha).
      assert (Hnl2 : ends_with_newline (firstn n (skipn k s)) = nl').
      { apply eq_true_iff_eq. rewrite ends_with_newline_spec. symmetry. exact Hnl. }
      assert (Hgo : exists lres0 ls',
        (do (res, st1) <- closure indented (parse_rule E fuel refs r) (rt_consume (RT s p) k) ls;
         match res with
         | None => Done (inl (rt_consume (RT s p) k), st1)
         | Some rg =>
           lines_loop E (closure indented (parse_rule E fuel refs r)) F
             (ends_with_newline (rt_raw_string (rt_consume (RT s p) k) (r_len rg)))
             (rt_consume (rt_consume (RT s p) k) (r_len rg)) st1
         end) = Done (lres0, ls') /\
        match after (k + n) out v with
        | Yes n out => exists fresh',
          lres0 = inl (RT (skipn n s) (p + n)) /\
          ls_rep (base ++ out) (tr0 ++ tr1 ++ tr2) fresh' ind2 ls'
        | No =>
          exists rg tr junk, lres0 = inr rg /\ tr1 ++ tr2 = tr ++ [(rg, ExpectedNewLine id)] /\
            ls_toks ls' = base ++ junk /\ ls_err ls' = best (tr0 ++ tr) /\ ls_ind ls' = ind2
        end).
      { rewrite rt_eq, He. cbn [obind r_len]. unfold rt_raw_string. cbn [src].
        rewrite Hnl2, rt_eq, He2. do 2 eexists. split; [reflexivity|].
        destruct v as [m out2|]; cbn [after].
        - destruct Ha as (f2 & -> & Hls2). exists f2. rewrite !skipn_add.
          rewrite <- !app_assoc in Hls2. split; [|exact Hls2].
          f_equal. f_equal; try (f_equal; lia); lia.
        - destruct Ha as (rg & tr & junk & -> & -> & Ht & Hb & Hi).
          exists rg, (tr1 ++ tr), (out ++ junk). rewrite !app_assoc in *. auto. }
      destruct (after_last_newline _) as [k'|].
      + assert (k' = k) by (eapply line_start_unique; eassumption). subst k'. exact Hgo.
      + destruct nl; [|exfalso; eapply line_start_same_line; eassumption].
        assert (k = 0).
        { eapply line_start_unique; [exact Hk|]. constructor; [reflexivity|exact Hm]. }
        subst k. rewrite rt_consume_0 in Hgo. exact Hgo.
    - (* line *)
      intros r fresh ind p s v ind' tr _ (N & IH). exists N.
      intros fuel Hf base tr0 ls (junk & ->). cbn [closure]. unfold lines_closure_plain.
      cbn [ls_toks ls_state ls_ind ls_err ls_first].
      destruct (IH fuel Hf base junk) as (res & toks & He & Ha). rewrite He. cbn [obind].
      destruct v as [n out|].
      + destruct Ha as (junk1 & -> & ->). do 2 eexists. split; [reflexivity|].
        split; [reflexivity|]. exists junk1. rewrite best_app. reflexivity.
      + destruct Ha as (e & junk1 & Hb & -> & ->). do 2 eexists. split; [reflexivity|].
        split; [reflexivity|]. exists junk1. rewrite best_app, Hb. reflexivity.
    - intros r fresh ind p s Hs. exists 0. intros fuel Hf base tr0 ls (junk & ->).
      cbn [closure]. unfold lines_closure_indent. cbn [ls_ind ls_first src].
      apply skip_indent_none in Hs. rewrite Hs. do 2 eexists. split; [reflexivity|].
      split; [reflexivity|]. exists junk. rewrite app_nil_r. reflexivity.
    - intros r fresh ind p s k Hk Hfa Hs. exists 0. intros fuel Hf base tr0 ls (junk & ->).
      cbn [closure]. unfold lines_closure_indent. cbn [ls_ind ls_first src].
      apply skip_indent_spec in Hk. rewrite Hk, Hfa, rt_eq. unfold rt_tag. cbn [src].
      apply is_prefix_spec in Hs. rewrite Hs. do 2 eexists. split; [reflexivity|].
      split; [reflexivity|]. exists junk. rewrite app_nil_r. reflexivity.
    - intros r fresh ind p s k v ind' tr Hk Hfa Hs Hw _ (N & IH). exists N.
      intros fuel Hf base tr0 ls (junk & ->).
      cbn [closure]. unfold lines_closure_indent. cbn [ls_ind ls_first src].
      apply skip_indent_spec in Hk. rewrite Hk, Hfa, rt_eq. unfold rt_tag. cbn [src off].
      apply is_prefix_false in Hs. rewrite Hs.
      apply item_ok; [exact Hw|reflexivity|]. intros. apply IH. exact Hf.
    - intros r ind p s k b w v ind' tr Hk Hal Hb Hw Hmax _ (N & IH). exists N.
      intros fuel Hf base tr0 ls (junk & ->).
      cbn [closure]. unfold lines_closure_indent. cbn [ls_ind ls_first src].
      apply skip_indent_spec in Hk. rewrite Hk, Hal, rt_eq. cbn [andb src off].
      pose proof (longest_span_eq _ _ _ _ blank_spec Hb) as Hb'.
      destruct (align_indent_cases (i_tab_spaces ind) (skipn k s) (i_indent ind)) as [Hd|[_ Hd]].
      2:{ rewrite <- Hb', <- Hw in Hd. unfold u32_max in *. lia. }
      rewrite Hd, <- Hb', <- Hw. cbn [obind]. rewrite rt_eq, skipn_add, <- Nat.add_assoc.
      rewrite item_first_irrelevant.
      apply item_ok; [exact Hmax|reflexivity|]. intros.
      rewrite <- skipn_add, Nat.add_assoc. apply IH. exact Hf.
  Qed.

  Theorem parse_rule_complete r ind p s v ind' tr :
    reads E refs r ind p s v ind' tr -> ok_rule r ind p s v ind' tr.
  Proof. apply reads_complete. Qed.

  (** The verdict is unique, and so is what is remembered of the failures. *)
  Theorem reads_deterministic r ind p s v1 ind1 tr1 v2 ind2 tr2 :
    reads E refs r ind p s v1 ind1 tr1 -> reads E refs r ind p s v2 ind2 tr2 ->
    v1 = v2 /\ ind1 = ind2 /\ best tr1 = best tr2.
  Proof.
    intros H1 H2. apply parse_rule_complete in H1 as (N1 & H1).
    apply parse_rule_complete in H2 as (N2 & H2).
    destruct (H1 (N1 + N2) ltac:(lia) [] []) as (res1 & toks1 & He1 & Ha1).
    destruct (H2 (N1 + N2) ltac:(lia) [] []) as (res2 & toks2 & He2 & Ha2).
    rewrite He1 in He2. injection He2 as <- <- <-.
    destruct v1 as [n1 out1|], v2 as [n2 out2|].
    - destruct Ha1 as (junk1 & -> & ->). destruct Ha2 as (junk2 & Hr & Ht).
      injection Hr as -> Hl Hb. simpl in *. split; [|auto]. f_equal.
      apply (f_equal (firstn (length out1))) in Ht.
      rewrite firstn_app, firstn_all, Nat.sub_diag in Ht. rewrite Hl in Ht.
      rewrite firstn_app, firstn_all, Nat.sub_diag in Ht. simpl in Ht.
      rewrite !app_nil_r in Ht. exact Ht.
    - destruct Ha1 as (junk1 & -> & ->). destruct Ha2 as (e & junk2 & _ & Hr & _). discriminate.
    - destruct Ha1 as (e & junk1 & _ & -> & _). destruct Ha2 as (junk2 & Hr & _). discriminate.
    - destruct Ha1 as (e & junk1 & Hb & -> & _). destruct Ha2 as (e' & junk2 & Hb' & [= ->] & _).
      split; [reflexivity|]. split; [reflexivity|]. congruence.
  Qed.
End Complete.
