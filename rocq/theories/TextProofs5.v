(** Reading what is written: comments and entries. *)
From Coq Require Import Ascii String List NArith Bool Arith Lia.
From Verif Require Import Base Ext Types ParseModel BootstrapRules PegSpec PrimProofs LinesProofs JsonSpec
  ConvertSpec WriteSpec OnceProofs TextSpec TextProofs TextProofs2 TextProofs3 TextProofs4.
Import ListNotations.
Local Open Scope string_scope.
Local Open Scope list_scope.
Local Open Scope nat_scope.

Section Reading.
  Variable E : ext.
  Hypothesis HE : ext_ok E.
  Variable lit : str -> str -> Prop.
  Hypothesis HL : forall v t, lit v t -> literal E v t.
  Variable ss : list (str * str).

  Notation good := (good E). Notation bad := (bad E). Notation goods := (goods E). Notation bads := (bads E).

  (** ** Comments *)

  Definition MULTI : rule := Eval vm_compute in nth 0 boot (RSelect [] 0).
  Definition COMMENT : rule := Eval vm_compute in nth 1 boot (RSelect [] 0).
  Definition PIECE : rule := Eval vm_compute in
    match nth 0 boot (RSelect [] 0) with
    | RSequence [_; _; RRepeat r _ _; _] _ => r
    | _ => RSelect [] 0
    end.

  Definition plain (c : char) : Prop := ~ In c (s2l "*/").

  Definition closes (s : str) : Prop := exists rest, s = s2l "*/" ++ rest.

  (** The pieces behind the plain text in front. *)
  Definition pieces (b : str) : Prop :=
    forall p rest, closes rest -> exists k tr,
      reads_many E boot PIECE indent_default p (b ++ rest) k (length b) [] indent_default tr.

  Definition special (b : str) : Prop := match b with [] => True | c :: _ => ~ plain c end.

  Lemma special_stops b rest : special b -> closes rest -> stops plain (b ++ rest).
  Proof.
    intros Hb (r & ->). destruct b as [|c b]; [|exact Hb]. cbn. intros H. apply H. left. reflexivity.
  Qed.

  Lemma piece_stop rest : closes rest -> bad PIECE rest.
  Proof.
    intros (r & ->). apply bad_select; [discriminate|]. repeat apply Forall_cons; [| | |apply Forall_nil].
    - apply bad_sequence, bads_first, bad_not_tag. reflexivity.
    - apply bad_sequence, bads_first. eapply bad_node; [reflexivity|].
      apply bad_sequence, bads_first, bad_tag. reflexivity.
    - apply bad_sequence, bads_first, bad_tag. reflexivity.
  Qed.

  Lemma pieces_nil : pieces [].
  Proof.
    intros p rest Hr. destruct (piece_stop rest Hr p) as (tr & R). exists 0, tr. apply reads_many_stop. exact R.
  Qed.

  Lemma pieces_cons a pl b : special b ->
    (forall rest, closes rest -> exists ok : str -> Prop, ok (b ++ rest) /\ good PIECE ok (a ++ pl) none) ->
    pieces b -> pieces (a ++ pl ++ b).
  Proof.
    intros Hb H1 H2 p rest Hr. destruct (H1 rest Hr) as (ok & Hok & Hg).
    destruct Hg as (m0 & Hg). destruct (Hg p (b ++ rest) Hok) as (o & (tr1 & R1) & -> & _).
    destruct (H2 (p + length (a ++ pl)) rest Hr) as (k & tr2 & R2).
    exists (S k), (tr1 ++ tr2).
    replace (length (a ++ pl ++ b)) with (length (a ++ pl) + length b) by (rewrite !app_length; lia).
    change (@nil tok) with (@nil tok ++ []). replace ((a ++ pl ++ b) ++ rest) with ((a ++ pl) ++ b ++ rest) by (rewrite <- !app_assoc; reflexivity).
    econstructor; [exact R1|]. rewrite skipn_len. exact R2.
  Qed.

  Definition body_read (b : str) : Prop :=
    exists pl b', b = pl ++ b' /\ Forall plain pl /\ special b' /\ pieces b'.

  Lemma good_multi b : body_read b -> good MULTI (fun _ => True) (s2l "/*" ++ b ++ s2l "*/") none.
  Proof.
    intros (pl & b' & -> & Hpl & Hsp & Hpc). rewrite <- app_assoc.
    eapply good_weaken; [apply good_sequence;
      eapply goods_cons; [apply good_tag; reflexivity| |intros; exact I];
      eapply goods_cons; [apply good_until; exact Hpl| |];
      [eapply goods_cons with (ok1 := closes) (P1 := none);
        [|apply goods_last, good_tag; reflexivity|intros rest _; exists rest; reflexivity]|]|intros; exact I|].
    - exists []. intros p rest Hr. destruct (Hpc p rest Hr) as (k & tr & R). exists []. split; [|split; reflexivity].
      exists tr. econstructor; [exact R|left; reflexivity].
    - intros rest _. rewrite <- app_assoc. apply special_stops; [exact Hsp|]. exists rest. reflexivity.
    - intros d (a1 & b1 & -> & -> & a2 & b2 & -> & -> & a3 & b3 & -> & -> & ->). reflexivity.
  Qed.

  Lemma good_star pl : Forall plain pl ->
    good PIECE (fun s => stops plain s /\ not_before 47%N (pl ++ s)) ([42%N] ++ pl) none.
  Proof.
    intros Hpl. refine (good_select E [] _ _ _ _ _ _ _ _); [|constructor].
    change ([42%N] ++ pl) with ([] ++ [42%N] ++ pl).
    eapply good_weaken; [apply good_sequence;
      eapply goods_cons with (ok := fun s => stops plain s /\ not_before 47%N (pl ++ s));
      [apply (good_not_tag E) with (ok := fun s => is_prefix (s2l "*/") s = false); auto| |];
      [eapply goods_weaken; [eapply goods_cons; [apply good_tag; reflexivity|apply goods_last, good_until; exact Hpl|intros; exact I]
         |intros s Hs; exact (proj1 Hs)|intros d Hd; exact Hd]|]|auto|].
    - intros rest [_ Hr]. rewrite <- app_assoc. change (is_prefix [47%N] (pl ++ rest) = false). apply prefix_head. exact Hr.
    - intros d (a1 & b1 & -> & -> & a2 & b2 & -> & -> & ->). reflexivity.
  Qed.

  Lemma bad_star s : bad (RSequence [RTag (s2l "*/") true false None 7; RTag (s2l "*") false false None 8;
    RUntilAny (s2l "*/") true None 9] 6) (47%N :: s).
  Proof.
    apply bad_sequence. change (47%N :: s) with ([] ++ 47%N :: s).
    eapply bads_next; [apply (good_not_tag E) with (ok := fun s => is_prefix (s2l "*/") s = false); auto|reflexivity|].
    apply bads_first, bad_tag. reflexivity.
  Qed.

  Lemma good_slash pl : Forall plain pl ->
    good PIECE (fun s => stops plain s /\ not_before 42%N (pl ++ s)) ([47%N] ++ pl) none.
  Proof.
    intros Hpl. refine (good_select E [_; _] _ _ _ _ _ _ _ _).
    - eapply good_weaken; [apply good_sequence; eapply goods_cons; [apply good_tag; reflexivity|apply goods_last, good_until; exact Hpl|intros; exact I]
        |intros s Hs; exact (proj1 Hs)|].
      intros d (a1 & b1 & -> & -> & ->). reflexivity.
    - intros rest [_ Hr]. repeat apply Forall_cons; [| |apply Forall_nil].
      + apply bad_star.
      + apply bad_sequence, bads_first. eapply bad_node; [reflexivity|]. apply bad_sequence, bads_first, bad_tag.
        rewrite <- app_assoc. change (is_prefix [42%N] (pl ++ rest) = false). apply prefix_head. exact Hr.
  Qed.

  Lemma good_nested a pl : body_read a -> Forall plain pl ->
    good PIECE (stops plain) ((s2l "/*" ++ a ++ s2l "*/") ++ pl) none.
  Proof.
    intros Ha Hpl. refine (good_select E [_] _ _ _ _ _ _ _ _).
    - eapply good_weaken; [apply good_sequence; eapply goods_cons;
        [eapply good_ref; [reflexivity|apply good_multi; exact Ha]|apply goods_last, good_until; exact Hpl|intros; exact I]|auto|].
      intros d (a1 & b1 & -> & -> & ->). reflexivity.
    - intros rest _. repeat apply Forall_cons; [|apply Forall_nil]. apply bad_star.
  Qed.

  Lemma body_reads b : comment_body b -> body_read b.
  Proof.
    induction 1 as [|c b H1 H2 _ IH|b Hb _ IH|b Hne Hb _ IH|a b _ IHa _ IHb].
    - exists [], []. repeat split; [constructor|apply pieces_nil].
    - destruct IH as (pl & b' & -> & Hpl & Hsp & Hpc). exists (c :: pl), b'. split; [reflexivity|].
      split; [constructor; [|exact Hpl]|split; assumption]. intros [H|[H|[]]]; [apply H1|apply H2]; symmetry; exact H.
    - destruct IH as (pl & b' & -> & Hpl & Hsp & Hpc). exists [], (42%N :: pl ++ b'). split; [reflexivity|].
      split; [constructor|]. split; [intros H; apply H; left; reflexivity|].
      apply (pieces_cons [42%N]); [exact Hsp| |exact Hpc].
      intros rest Hr. eexists. split; [|apply good_star; exact Hpl]. split; [apply special_stops; assumption|].
      destruct Hr as (r & ->). rewrite app_assoc. destruct (pl ++ b'); [discriminate|exact Hb].
    - destruct IH as (pl & b' & -> & Hpl & Hsp & Hpc). exists [], (47%N :: pl ++ b'). split; [reflexivity|].
      split; [constructor|]. split; [intros H; apply H; right; left; reflexivity|].
      apply (pieces_cons [47%N]); [exact Hsp| |exact Hpc].
      intros rest Hr. eexists. split; [|apply good_slash; exact Hpl]. split; [apply special_stops; assumption|].
      rewrite app_assoc. destruct (pl ++ b'); [contradiction|exact Hb].
    - destruct IHb as (pl & b' & -> & Hpl & Hsp & Hpc). exists [], (s2l "/*" ++ a ++ s2l "*/" ++ pl ++ b').
      split; [reflexivity|]. split; [constructor|]. split; [intros H; apply H; right; left; reflexivity|].
      replace (s2l "/*" ++ a ++ s2l "*/" ++ pl ++ b') with ((s2l "/*" ++ a ++ s2l "*/") ++ pl ++ b')
        by (rewrite <- !app_assoc; reflexivity).
      apply pieces_cons; [exact Hsp| |exact Hpc].
      intros rest Hr. eexists. split; [|apply good_nested; eassumption]. apply special_stops; assumption.
  Qed.

  (** ** Items of a block *)

  Definition STRINGS : rule := Eval vm_compute in
    match nth 22 boot (RSelect [] 0) with RSequence [RLines r _ _; _; _] _ => r | _ => RSelect [] 0 end.
  Definition NODES : rule := Eval vm_compute in
    match nth 22 boot (RSelect [] 0) with RSequence [_; RLines r _ _; _] _ => r | _ => RSelect [] 0 end.

  (** The entry is over: the text ends, or the line does. *)
  Definition over (s : str) : Prop := match s with [] => True | c :: _ => c = newline end.

  Lemma over_follows w s : Forall white w -> over s -> follows (w ++ s).
  Proof.
    intros Hw Hs. apply follows_white; [exact Hw|]. destruct s as [|c s]; [exact I|]. cbn in Hs. subst c. left. reflexivity.
  Qed.

  Lemma good_comment t : (exists b, t = s2l "/*" ++ b ++ s2l "*/" /\ comment_body b) \/
      (exists c, t = s2l "//" ++ c /\ ~ In newline c) ->
    good COMMENT (fun s => (exists b, t = s2l "/*" ++ b ++ s2l "*/") \/ over s) t none.
  Proof.
    intros [(b & -> & Hb)|(c & -> & Hc)].
    - refine (good_select E [] _ _ _ _ _ _ _ _); [|constructor].
      eapply good_weaken; [eapply good_ref; [reflexivity|]; apply good_multi, body_reads; exact Hb|intros; exact I|auto].
    - refine (good_select E [_] _ _ _ _ _ _ _ _).
      + assert (Hc' : Forall (fun x => ~ In x [newline]) c).
        { apply Forall_forall. intros x Hx [<-|[]]. contradiction. }
        eapply good_weaken; [apply good_sequence; eapply goods_cons; [apply good_tag; reflexivity|
          apply goods_last, good_until; exact Hc'|intros; exact I]| |].
        * intros s [(b & Hb)|Hs]; [discriminate Hb|]. destruct s; [exact I|]. cbn in Hs |- *. subst. tauto.
        * intros d (a1 & b1 & -> & -> & ->). reflexivity.
      + intros. repeat apply Forall_cons; [|apply Forall_nil]. eapply bad_node; [reflexivity|].
        apply bad_sequence, bads_first, bad_tag. reflexivity.
  Qed.

  Lemma bad_comment_node s : hd_error s <> Some 47%N -> forall name p id, bad (RNode name p (Some 1) id) s.
  Proof.
    intros H name p id. eapply bad_node; [reflexivity|]. apply bad_select; [discriminate|].
    repeat apply Forall_cons; [| |apply Forall_nil].
    - eapply bad_node; [reflexivity|]. apply bad_sequence, bads_first, bad_tag. apply prefix_head. exact H.
    - apply bad_sequence, bads_first, bad_tag. apply prefix_head. exact H.
  Qed.

  Lemma good_number num x id prop : numeral E x num ->
    good (RNumber false (Some prop) id) (fun s => match s with c :: _ => white c | [] => False end) num
      (fun d => exists r, d = [(r, MF64 prop x)]).
  Proof.
    intros (_ & Hd & Hx). exists [MF64 prop x]. intros p rest Hr. destruct rest as [|c rest]; [contradiction|].
    exists [(Rng p (length num), MF64 prop x)]. split; [|split; [eexists|]; reflexivity]. eexists.
    apply (reads_number E boot false (Some prop) id indent_default p).
    - apply Hd. exact Hr.
    - rewrite firstn_len. exact Hx.
  Qed.

  (** The number that the debug ids of a node start with. *)
  Definition numbered (node : str * f64 * rule) : rule :=
    let '(_, x, r) := node in fst (number (f64_as_usize x * 1000) r).

  Lemma good_string_entry n v t w1 : is_name n -> lit v t -> Forall white w1 ->
    forall name id, good (RNode name (Some (s2l "string")) (Some 2) id) (fun _ => True) (s2l "_" ++ n ++ s2l ":" ++ w1 ++ t)
      (fun d => wstring d (n, v)).
  Proof.
    intros Hn Hq Hw name id.
    eapply good_weaken; [eapply good_node; [reflexivity|]; apply good_sequence;
      eapply goods_cons; [apply good_tag; reflexivity| |intros; exact I];
      eapply goods_cons; [apply (good_name E (s2l "name") _ n Hn)| |intros; apply sep_not_name; cbn; auto 20];
      eapply goods_cons; [apply good_tag; reflexivity| |intros; exact I];
      eapply goods_cons; [apply good_white; [exact Hw|left; reflexivity]|
        apply goods_last, (good_text E true (s2l "text") _ v t (HL _ _ Hq)); left; reflexivity|]|intros; exact I|].
    - intros rest _. destruct (HL _ _ Hq) as ((c & ->) & _). intros HH. vm_compute in HH. discriminate HH.
    - intros d (inner & (a1 & b1 & -> & -> & a2 & b2 & -> & (q & ->) & a3 & b3 & -> & -> & a4 & b4 & -> & -> & q' & ->) & Hd).
      cbn [app] in Hd. eapply (w_string _ [Name (s2l "name") n; Name (s2l "text") v]); [| | |exact Hd]; try reflexivity.
      apply wr_fields; [apply (wr_app [] [Name _ _] [Name _ _] [_] [_]); apply wr_one; constructor|].
      repeat (apply Forall_cons; [first [left; reflexivity|right; left; reflexivity]|]). apply Forall_nil.
  Qed.

  Lemma rule_name_stops n rest : is_rule_name n -> stops white (n ++ rest).
  Proof. intros [[Hne Hn] _]. destruct n; [contradiction|]. inversion Hn as [|? ? [H _]]; subst. exact H. Qed.

  Lemma good_node_entry x num n r w1 w2 w3 t :
    numeral E x num -> is_rule_name n -> mrule lit (defined ss) r t ->
    Forall white w1 -> w1 <> [] -> Forall white w2 -> w2 <> [] -> Forall white w3 ->
    forall name id, good (RNode name (Some (s2l "node")) (Some 3) id) follows (num ++ w1 ++ n ++ w2 ++ s2l "=" ++ w3 ++ t)
      (fun d => unode ss d n (numbered (n, x, r))).
  Proof.
    intros Hx Hn Hm Hw1 Hn1 Hw2 Hn2 Hw3 name id.
    assert (H4 : good RULE follows t (writes ss r)) by (apply (read_rule E HE lit HL ss); exact Hm).
    assert (Hhd : hd_error n <> Some 46%N).
    { destruct Hn as [[Hne Hc] _]. destruct n as [|c n]; [contradiction|]. inversion Hc as [|? ? [_ H]]; subst.
      intros HH. inversion HH; subst. apply H. cbn. auto 20. }
    assert (Hsp : n ++ w2 ++ s2l "=" ++ w3 ++ t = [] ++ [] ++ n ++ w2 ++ s2l "=" ++ w3 ++ t) by reflexivity.
    rewrite Hsp. clear Hsp.
    eapply good_weaken; [eapply good_node; [reflexivity|]; apply good_sequence;
      eapply goods_cons; [apply good_number; exact Hx| |
        intros; destruct w1 as [|c w1]; [contradiction|inversion Hw1; assumption]];
      eapply goods_cons; [apply good_white; [exact Hw1|right; exact Hn1]| |
        intros; cbn [app]; rewrite <- app_assoc; apply rule_name_stops; exact Hn];
      eapply goods_cons; [apply (good_not_tag E) with (ok := fun s => is_prefix [95%N] s = false); auto| |];
      [eapply goods_cons; [apply (good_not_tag E) with (ok := fun s => is_prefix [46%N] s = false); auto| |];
       [eapply goods_cons; [apply (good_name E (s2l "name") _ n (proj1 Hn))| |];
        [eapply goods_cons; [apply good_white; [exact Hw2|left; reflexivity]| |
           intros rest _ HH; vm_compute in HH; discriminate HH];
         eapply goods_cons; [apply good_tag; reflexivity| |intros; exact I];
         eapply goods_cons; [apply good_white; [exact Hw3|left; reflexivity]|
           apply goods_last, good_rule_node; exact H4|
           intros rest _; apply (mrule_stops E lit HL ss r); exact Hm]
        |intros rest _; rewrite <- app_assoc; destruct w2 as [|c w2]; [contradiction|inversion Hw2; subst; intros [HH _]; contradiction]]
       |]|]|auto|].
    - intros rest _. apply prefix_head. destruct Hn as [[Hne Hc] _]. destruct n as [|c n]; [contradiction|exact Hhd].
    - intros rest _. apply prefix_head. destruct Hn as [[Hne Hc] Hu]. destruct n as [|c n]; [contradiction|exact Hu].
    - intros d (inner & (a1 & b1 & -> & (q1 & ->) & a2 & b2 & -> & -> & a3 & b3 & -> & -> & a4 & b4 & -> & -> &
        a5 & b5 & -> & (q5 & ->) & a6 & b6 & -> & -> & a7 & b7 & -> & -> & a8 & b8 & -> & -> & H8) & Hd).
      cbn [app] in Hd. apply (written_urule ss _ _ _ (f64_as_usize x * 1000)%N) in H8.
      eapply (u_node ss d [Num (s2l "id") x; Name (s2l "name") n]) with (before := [_; _]).
      + apply wr_fields; [apply (wr_app ss [Num _ _] [Name _ _] [_] [_]); apply wr_one; constructor|].
        repeat (apply Forall_cons; [left; reflexivity|]). apply Forall_nil.
      + exact H8.
      + reflexivity.
      + reflexivity.
      + exact Hd.
  Qed.
End Reading.
