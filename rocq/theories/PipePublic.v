(** From the text of a syntax and the text of a document to the data; whole examples. *)
From Coq Require Import Ascii String List NArith Bool Arith Lia.
From Verif Require Import Base Ext Types ParseModel OptimizeModel HandlerModel LibModel LoadModel PegSpec DataSpec RuleSpec ApiSpec OptSpec
  IdSpec SyntaxSpec LoadSpec TotalSpec ShapeSpec GrammarSpec SurfaceSpec MeaningSpec ExtProofs PegFacts ParseProofs ParsePublic OptProofs OptTotal
  TotalProofs TotalCheck GrammarCheck GrammarPublic AtEnd FasterPublic MeaningProofs MeaningExamples SurfaceExamples Examples PipeProofs.
Import ListNotations.
Local Open Scope string_scope.
Local Open Scope list_scope.
Local Open Scope nat_scope.

Lemma like_refl r : like_rule any_ids r r.
Proof.
  induction r as [r IH] using rule_ind'.
  assert (HF : forall l, (forall c, In c l -> In c (children r)) -> Forall2 (like_rule any_ids) l l).
  { induction l as [|x l IHl]; intros Hin; constructor; [apply IH, Hin; left; reflexivity|].
    apply IHl. intros c Hc. apply Hin. right. exact Hc. }
  destruct r; constructor; try exact I; try (apply HF; auto); apply IH; cbn; auto.
Qed.

Lemma like_all_refl l : Forall2 (like_rule any_ids) l l.
Proof. induction l; constructor; auto using like_refl. Qed.

(** ** The rules that were read *)

Theorem pipe_read E : ext_ok E -> forall text s o, rules_read E text (inl s) -> optimize_returns s o -> tails_fail_at_end E s ->
  forall data, Forall real_char data -> forall tokens,
  loads E (Some text) (Some data) (Returned tokens) <-> accepts E s indent_default data tokens.
Proof.
  intros HE text s o Hs Ho Ht data Hr tokens.
  exact (pipe_returned E HE text s o o Ho (like_all_refl _) (read_optimized _ _ _ _ Hs Ho) Ht data Hr tokens).
Qed.

(** ** The rules that were meant *)

Lemma meant_read E : ext_ok E -> whole_readers E -> forall strings nodes text rules rules', means E strings nodes text ->
  Forall real_char text -> Forall (fun n => MeaningSpec.within text (snd (fst n))) nodes ->
  let names := map (fun n => fst (fst n)) nodes in
  map snd nodes = map Some rules -> Forall2 (resolved names) rules rules' -> forall o, optimize_returns (Syn rules' names) o ->
  exists o', syntax_returns E text (inl o') /\ Forall2 (like_rule any_ids) (s_rules o) (s_rules o').
Proof.
  intros HE HW strings nodes text rules rules' Hm Hreal Hin names Hn Hres o Ho.
  destruct (proj1 (meaning_read E HE HW strings nodes text Hm Hreal Hin) rules Hn) as (s & Hs & Hnames & HF & _).
  assert (Hl : Forall2 (like_rule any_ids) rules' (s_rules s)).
  { clear -HF Hres. revert rules' Hres. induction HF as [|r q l m (r1 & Hl & Hr) _ IH]; intros l' H; inversion H; subst; constructor; auto.
    eapply like_resolved; eassumption. }
  destruct (like_optimized (Syn rules' names) s o Hl Ho) as (o' & Ho' & HL).
  exists o'. split; [eapply read_optimized; eassumption|exact HL].
Qed.

Section Meant.
  Variable E : ext.
  Hypothesis HE : ext_ok E.
  Hypothesis HW : whole_readers E.
  Variables (strings : list (str * str)) (nodes : list (str * f64 * option rule)) (text : str) (rules rules' : list rule).
  Hypothesis Hmeans : means E strings nodes text.
  Hypothesis Hreal : Forall real_char text.
  Hypothesis Hids : Forall (fun n => MeaningSpec.within text (snd (fst n))) nodes.
  Hypothesis Hrules : map snd nodes = map Some rules.
  Let names := map (fun n => fst (fst n)) nodes.
  Hypothesis Hres : Forall2 (resolved names) rules rules'.
  Let s := Syn rules' names.

  Theorem pipe_meant o : optimize_returns s o -> tails_fail_at_end E s -> forall data, Forall real_char data ->
    (forall tokens, loads E (Some text) (Some data) (Returned tokens) <-> accepts E s indent_default data tokens) /\
    (forall w, loads E (Some text) (Some data) (Aborted w) -> exists e e' tokens, error_report E data e = Done w /\
       parse_returns E s data [] indent_default (Some e') tokens /\ next_offset (fst e) = next_offset (fst e')) /\
    (forall e' tokens, parse_returns E s data [] indent_default (Some e') tokens -> exists e w, error_report E data e = Done w /\
       next_offset (fst e) = next_offset (fst e') /\ loads E (Some text) (Some data) (Aborted w)).
  Proof.
    intros Ho Ht data Hd. destruct (meant_read E HE HW _ _ _ _ _ Hmeans Hreal Hids Hrules Hres o Ho) as (o' & Hs & HL).
    split; [|split].
    - intros tokens. exact (pipe_returned E HE text s o o' Ho HL Hs Ht data Hd tokens).
    - intros w. exact (pipe_aborted E HE text s o o' Ho HL Hs Ht data Hd w).
    - intros e' tokens. exact (pipe_reported E HE text s o o' Ho HL Hs Ht data Hd e' tokens).
  Qed.

  (** There is always an answer, and it is what the grammar says. *)
  Theorem pipe_grammar : strings_end E -> valid s -> tags_real s -> well_formed s -> clear E s -> tails_fail_at_end E s ->
    forall r, start_rule s r -> forall data, columns_fit indent_default data ->
    (forall ms, (exists tokens, loads E (Some text) (Some data) (Returned tokens) /\ map snd tokens = ms) <->
       generates E (s_rules s) r data ms) /\
    ((forall ms, ~ generates E (s_rules s) r data ms) <-> exists w, loads E (Some text) (Some data) (Aborted w)).
  Proof.
    intros Hstr Hv Htags Hw Hc Ht r Hr data Hfit.
    destruct (optimizes s Hv Htags (proj2 (proj2 Hw))) as (o & Ho).
    destruct (pipe_meant o Ho Ht data (proj1 Hfit)) as (H1 & H2 & H3).
    assert (Hg : forall ms, (exists tokens, loads E (Some text) (Some data) (Returned tokens) /\ map snd tokens = ms) <->
       generates E (s_rules s) r data ms).
    { intros ms. rewrite <- (clear_parse E HE Hstr s Hv Hw Hc r Hr data indent_default Hfit [] ms).
      split; intros (tokens & H & Hm); exists tokens; (split; [|exact Hm]).
      - apply H1 in H. apply (parse_accepts E HE). exists tokens. auto.
      - apply (parse_accepts E HE) in H as (out & H & Hout). cbn [app] in Hout. subst out. apply H1. exact H. }
    split; [exact Hg|]. split.
    - intros Hno. destruct (parse_decided E HE s Hv Hw data [] indent_default Hfit) as (res & t & Hp). destruct res as [e|].
      + destruct (H3 e t Hp) as (_ & w & _ & _ & Hl). eauto.
      + exfalso. apply (Hno (map snd t)). apply Hg. exists t. split; [|reflexivity]. apply H1.
        apply (parse_accepts E HE) in Hp as (out & H & ->). exact H.
    - intros (w & Hl) ms Hms. apply Hg in Hms as (t & Ht' & _). apply H1 in Ht'.
      destruct (H2 w Hl) as (e & e' & t' & _ & Hp & _).
      assert (Hp' : parse_returns E s data [] indent_default None t) by (apply (parse_accepts E HE); exists t; auto).
      pose proof (parse_returns_unique _ _ _ _ _ _ _ _ _ Hp Hp'). intuition discriminate.
  Qed.
End Meant.

(** ** examples/hello_world.rs *)

Definition hello_text : str := tx "
        1 say_hi = [""hi"" .w? {""James"":""james"" ""Peter"":""peter""} ""!""]
        2 document = say_hi
    ".

Definition hello_syntax : syntax :=
  Syn [RSequence [RTag (tx "hi") false false None 1001; RWhitespace true 1002;
         RSelect [RTag (tx "James") false false (Some (tx "james")) 1003; RTag (tx "Peter") false false (Some (tx "peter")) 1004] 1005;
         RTag (tx "!") false false None 1006] 1007;
       RNode (tx "say_hi") None (Some 0) 2001] [tx "say_hi"; tx "document"].

Lemma hello_read : rules_read std_ext hello_text (inl hello_syntax).
Proof. exists 400. vm_compute. reflexivity. Qed.

Lemma hello_optimizes : exists o, optimize_returns hello_syntax o.
Proof. eexists. exists 50. vm_compute. reflexivity. Qed.

Lemma hello_tails : tails_fail_at_end std_ext hello_syntax.
Proof. apply (good_tails_check _ 50); [exact std_ext_ok|]. vm_compute. reflexivity. Qed.

Lemma hello_clear : valid hello_syntax /\ well_formed hello_syntax /\ clear std_ext hello_syntax.
Proof.
  split; [apply validb_spec; vm_compute; reflexivity|]. split; [apply well_formedb_spec; vm_compute; reflexivity|].
  apply (clearb_spec std_ext number_chars 40 _ std_numbers). vm_compute. reflexivity.
Qed.

Lemma tag_inv E refs t i p id x ms : generates E refs (RTag t false i p id) x ms -> x = t /\ ms = item_of p (fun n => MBool n (negb i)).
Proof. intros H. inversion H; subst. auto. Qed.

Lemma all_inv E refs r rest x ms : generates_all E refs (r :: rest) x ms -> exists a m b m', x = a ++ b /\ ms = m ++ m' /\
  generates E refs r a m /\ generates_all E refs rest b m'.
Proof. intros H. inversion H; subst. do 4 eexists. repeat split; eauto. Qed.

Lemma hello_generates data ms : generates std_ext (s_rules hello_syntax) (RNode (tx "say_hi") None (Some 0) 2001) data ms <->
  exists w, Forall white w /\
    (data = tx "hi" ++ w ++ tx "James!" /\ ms = [MBool (tx "james") true] \/
     data = tx "hi" ++ w ++ tx "Peter!" /\ ms = [MBool (tx "peter") true]).
Proof.
  split.
  - intros H. inversion H as [| | | | | | | | | | | | |? ? ? ? r x m Hn Hg| | |]; subst. injection Hn as <-.
    inversion Hg as [| | | | | | |? ? ? ? Ha| | | | | | | | |]; subst.
    apply all_inv in Ha as (a & m1 & b & m' & -> & -> & Ha & Hb). apply tag_inv in Ha as [-> ->].
    apply all_inv in Hb as (w & m1 & c & m'' & -> & -> & Hw & Hb).
    apply all_inv in Hb as (n & m2 & e & m3 & -> & -> & Hs & Hb).
    apply all_inv in Hb as (x & m4 & y & m5 & -> & -> & Hx & Hb). apply tag_inv in Hx as [-> ->]. inversion Hb; subst.
    inversion Hw; subst. exists w. split; [assumption|].
    inversion Hs as [| | | | | | | |? ? q ? ? Hin Hq| | | | | | | |]; subst.
    destruct Hin as [<-|[<-|[]]]; apply tag_inv in Hq as [-> ->]; [left|right]; split; reflexivity.
  - intros (w & Hw & Hd).
    assert (Hgo : forall t p id, In (RTag t false false (Some p) id) [RTag (tx "James") false false (Some (tx "james")) 1003; RTag (tx "Peter") false false (Some (tx "peter")) 1004] ->
      generates std_ext (s_rules hello_syntax) (RNode (tx "say_hi") None (Some 0) 2001) (tx "hi" ++ w ++ t ++ tx "!" ++ []) [MBool p true]).
    { intros t p id Hin.
      apply (gen_node std_ext (s_rules hello_syntax) (tx "say_hi") None 0 2001 (hd (RSequence [] 0) (s_rules hello_syntax)) (tx "hi" ++ w ++ t ++ tx "!" ++ [])
        ([] ++ [] ++ [MBool p true] ++ [] ++ []) eq_refl). apply gen_sequence.
      apply gen_all_cons; [apply gen_tag|]. apply gen_all_cons; [apply gen_whitespace; [exact Hw|left; reflexivity]|].
      apply gen_all_cons; [eapply gen_select; [exact Hin|apply (gen_tag _ _ t false (Some p))]|].
      apply gen_all_cons; [apply gen_tag|apply gen_all_nil]. }
    destruct Hd as [[-> ->]|[-> ->]].
    + apply (Hgo (tx "James") (tx "james") 1003%N). left. reflexivity.
    + apply (Hgo (tx "Peter") (tx "peter") 1004%N). right. left. reflexivity.
Qed.

Theorem hello_world data ms : columns_fit indent_default data ->
  (exists tokens, loads std_ext (Some hello_text) (Some data) (Returned tokens) /\ map snd tokens = ms) <->
  exists w, Forall white w /\
    (data = tx "hi" ++ w ++ tx "James!" /\ ms = [MBool (tx "james") true] \/
     data = tx "hi" ++ w ++ tx "Peter!" /\ ms = [MBool (tx "peter") true]).
Proof.
  intros Hfit. destruct hello_optimizes as (o & Ho). destruct hello_clear as (Hv & Hw & Hc).
  assert (Hr : start_rule hello_syntax (RNode (tx "say_hi") None (Some 0) 2001)) by (eexists [_]; reflexivity).
  rewrite <- hello_generates, <- (clear_parse std_ext std_ext_ok std_strings_end hello_syntax Hv Hw Hc _ Hr data indent_default Hfit [] ms).
  split; intros (tokens & H & Hm); exists tokens; (split; [|exact Hm]).
  - apply (pipe_read std_ext std_ext_ok hello_text hello_syntax o hello_read Ho hello_tails data (proj1 Hfit)) in H.
    apply (parse_accepts std_ext std_ext_ok). exists tokens. auto.
  - apply (pipe_read std_ext std_ext_ok hello_text hello_syntax o hello_read Ho hello_tails data (proj1 Hfit)).
    apply (parse_accepts std_ext std_ext_ok) in H as (out & H & Hout). cbn [app] in Hout. subst out. exact H.
Qed.

(** ** examples/neg_match.rs *)

Definition negative_text : str := tx "
        1 document = [!""hi"":""hi_did_not_occured"" ...""""?]
    ".

Definition negative_rule : rule :=
  RSequence [RTag (tx "hi") true false (Some (tx "hi_did_not_occured")) 1001; RUntilAny [] true None 1002] 1003.

Definition negative_syntax : syntax := Syn [negative_rule] [tx "document"].

Lemma negative_read : rules_read std_ext negative_text (inl negative_syntax).
Proof. exists 400. vm_compute. reflexivity. Qed.

Lemma negative_optimizes : exists o, optimize_returns negative_syntax o.
Proof. eexists. exists 50. vm_compute. reflexivity. Qed.

Lemma negative_tails : tails_fail_at_end std_ext negative_syntax.
Proof. apply (good_tails_check _ 50); [exact std_ext_ok|]. vm_compute. reflexivity. Qed.

Lemma seq_inv E refs r rest ind p s n out ind' tr : reads_seq E refs (r :: rest) ind p s (Yes n out) ind' tr ->
  exists n1 out1 n2 out2 ind1 tr1 tr2, n = n1 + n2 /\ out = out1 ++ out2 /\ reads E refs r ind p s (Yes n1 out1) ind1 tr1 /\
  reads_seq E refs rest ind1 (p + n1) (skipn n1 s) (Yes n2 out2) ind' tr2.
Proof.
  intros H. remember (r :: rest) as l eqn:Hl. remember (Yes n out) as v eqn:Hv.
  destruct H as [| |r0 rest0 ind p s n1 out1 ind1 tr1 v2 ind2 tr2 H1 H2]; try discriminate. injection Hl as -> ->.
  destruct v2 as [n2 out2|]; [|discriminate]. cbn in Hv. injection Hv as <- <-. do 7 eexists. repeat split; eassumption.
Qed.

Lemma negative_accepts data tokens : accepts std_ext negative_syntax indent_default data tokens <->
  ~ starts_with data (tx "hi") /\ tokens = [(Rng 0 0, MBool (tx "hi_did_not_occured") true)].
Proof.
  split.
  - intros [r out ind' tr Hr H].
    assert (r = negative_rule) as -> by (apply (one_start negative_syntax); [exists []; reflexivity|exact Hr]).
    assert (Hs : reads_seq std_ext (s_rules negative_syntax) [RTag (tx "hi") true false (Some (tx "hi_did_not_occured")) 1001; RUntilAny [] true None 1002]
      indent_default 0 data (Yes (length data) out) ind' tr) by (inversion H; assumption).
    apply seq_inv in Hs as (n & o & n' & o' & i1 & t1 & t2 & Hn & -> & H1 & Hs).
    apply seq_inv in Hs as (m & q & m' & q' & i2 & t3 & t4 & Hm & -> & H2 & Hs).
    assert (~ starts_with data (tx "hi") /\ o = [(Rng 0 0, MBool (tx "hi_did_not_occured") true)]) as [Hno ->]
      by (inversion H1; subst; split; [assumption|reflexivity]).
    assert (q = []) as -> by (inversion H2; subst; reflexivity).
    assert (q' = []) as -> by (inversion Hs; subst; reflexivity).
    split; [exact Hno|reflexivity].
  - intros [Hno ->]. apply (accepts_all _ _ _ _ negative_rule _ indent_default ([] ++ [] ++ [])); [exists []; reflexivity|].
    apply reads_sequence.
    replace (Yes (length data) [(Rng 0 0, MBool (tx "hi_did_not_occured") true)])
      with (after 0 [(Rng 0 0, MBool (tx "hi_did_not_occured") true)] (after (length data) [] (Yes 0 []))) by (cbn; rewrite Nat.add_0_r; reflexivity).
    eapply reads_seq_cons; [apply (reads_not_tag std_ext _ (tx "hi") false (Some (tx "hi_did_not_occured"))); exact Hno|].
    eapply reads_seq_cons; [|apply reads_seq_nil].
    apply (reads_until std_ext _ [] true None). 2:{ left. reflexivity. }
    cbn [skipn]. split; [lia|]. split; [apply Forall_forall; intros c _ []|].
    intros c Hc. rewrite (proj2 (nth_error_None data (length data)) (Nat.le_refl _)) in Hc. discriminate.
Qed.

Theorem negative_match data tokens : Forall real_char data ->
  loads std_ext (Some negative_text) (Some data) (Returned tokens) <->
  ~ starts_with data (tx "hi") /\ tokens = [(Rng 0 0, MBool (tx "hi_did_not_occured") true)].
Proof.
  intros Hd. destruct negative_optimizes as (o & Ho).
  rewrite (pipe_read std_ext std_ext_ok negative_text negative_syntax o negative_read Ho negative_tails data Hd tokens).
  apply negative_accepts.
Qed.

(** ** A text whose meaning is known *)

Definition meant_syntax : syntax := Syn [C56_rule] [tx "n"].

Lemma meant_fine : map snd [(tx "n", seven, Some C56_rule)] = map Some [C56_rule] /\ Forall2 (resolved [tx "n"]) [C56_rule] [C56_rule] /\
  valid meant_syntax /\ tags_real meant_syntax /\ well_formed meant_syntax /\ clear std_ext meant_syntax /\
  tails_fail_at_end std_ext meant_syntax /\ start_rule meant_syntax C56_rule /\ columns_fit indent_default (tx "yx") /\
  generates std_ext (s_rules meant_syntax) C56_rule (tx "yx") [] /\ (exists o, optimize_returns meant_syntax o).
Proof.
  split; [reflexivity|]. split; [constructor; [exact (update_refs_resolved [tx "n"] C56_rule)|constructor]|].
  split; [apply validb_spec; reflexivity|]. split; [apply tags_realb_spec; reflexivity|].
  split; [apply well_formedb_spec; reflexivity|].
  split; [apply (clearb_spec std_ext number_chars 40 _ std_numbers); vm_compute; reflexivity|].
  split; [apply (good_tails_check _ 50); [exact std_ext_ok|vm_compute; reflexivity]|].
  split; [exists []; reflexivity|]. split; [apply columns_fitb_spec; reflexivity|]. split.
  - apply gen_sequence. apply (gen_all_cons _ _ _ _ (tx "y") [] (tx "x") []); [apply (gen_tag _ _ (tx "y") false None)|].
    apply (gen_all_cons _ _ _ _ (tx "x") [] [] []); [apply (gen_tag _ _ (tx "x") false None)|apply gen_all_nil].
  - eexists. exists 50. vm_compute. reflexivity.
Qed.
