(** Proofs about the numbers of errors. *)
From Coq Require Import Ascii String List NArith Bool Arith Lia.
From Verif Require Import Base Ext Types ParseModel OptimizeModel HandlerModel LibModel LoadModel PegSpec DataSpec ApiSpec OptSpec IdSpec
  JsonSpec ConvertSpec WriteSpec SyntaxSpec LoadSpec TextSpec TruthSpec WhereSpec PrimProofs RuleProofs OptProofs OptProofs2 SyntaxProofs
  TextProofs2 TextProofs5 TextProofs7 TruthProofs LoadProofs.
Import ListNotations.
Local Open Scope string_scope.
Local Open Scope list_scope.
Local Open Scope nat_scope.

Lemma Forall2_len_eq {A B} (R : A -> B -> Prop) l l' : Forall2 R l l' -> length l = length l'.
Proof. induction 1; cbn [length]; congruence. Qed.

(** ** What a rule of the optimised syntax says is said by a rule before optimisation *)

Inductive says : rule -> parse_error -> Prop :=
| says_rule : forall x e, complains [] x e -> error_number e = Some (own_id x) -> says x e
| says_fast : forall table args tl id, says (RFastSelect table args tl id) (ExpectedSomething id)
| says_none : forall id, says (RSelect [] id) (InvalidRule SelectEmpty id).

Lemma explains_says E refs text x rng e : explains E refs text x rng e -> says x e.
Proof.
  intros H. destruct H; try (apply says_fast); try (apply says_none); apply says_rule; try reflexivity; constructor; auto.
Qed.

Ltac same_says H := inversion H as [? ? Hcm Hen|? ? ? ?|?]; subst; inversion Hcm; subst;
  (apply says_rule; [constructor; assumption|exact Hen]).

Lemma opt_says f refs r : forall r', optimize_rule f refs r = Done r' ->
  forall x' e, occurs_in x' r' -> says x' e -> exists x, occurs_in x r /\ says x e.
Proof.
  induction r as [r IH] using rule_ind'. intros r' Ho x' e Hx Hs.
  assert (Hc : forall c c', In c (children r) -> optimize_rule f refs c = Done c' -> occurs_in x' c' -> exists x, occurs_in x r /\ says x e).
  { intros c c' Hc Hopt Hin. destruct (IH c Hc c' Hopt x' e Hin Hs) as (x & H1 & H2). exists x. split; [|exact H2].
    eapply occurs_below; eassumption. }
  assert (Hargs : forall args, (forall c, In c args -> In c (children r)) -> forall args',
    Forall2 (fun r r' => optimize_rule f refs r = Done r') args args' -> forall c, In c args' -> occurs_in x' c ->
    exists x, occurs_in x r /\ says x e).
  { intros args Hin args' HF. induction HF as [|a a' l l' Ha _ IHl]; intros c Hx' Hoc; [destruct Hx'|]. destruct Hx' as [<-|Hx'].
    - eapply Hc; [|exact Ha|exact Hoc]. apply Hin. left. reflexivity.
    - eapply IHl; [|exact Hx'|exact Hoc]. intros d Hd. apply Hin. right. exact Hd. }
  destruct r;
    try (cbn [optimize_rule] in Ho; injection Ho as <-; exists x'; split; assumption);
    try (cbn [optimize_rule] in Ho;
      match type of Ho with obind (optimize_rule f refs ?y) _ = _ => destruct (optimize_rule f refs y) as [y'| |] eqn:Hy; try discriminate end;
      injection Ho as <-; inversion Hx as [Hz|q c Hin Hoc]; subst;
      [eexists; split; [apply occurs_here|same_says Hs]|destruct Hin as [<-|[]]; eapply Hc; [|exact Hy|exact Hoc]; simpl; auto]; fail).
  - apply opt_select_cases in Ho as (table & up & args' & _ & Ha & ->). pose proof (Hargs args (fun c Hc => Hc) _ Ha) as Hall.
    destruct (up <? 2); [|destruct (up <? length args) eqn:Hup].
    + inversion Hx as [Hz|q c Hin Hoc]; subst; [|eapply Hall; eassumption]. eexists. split; [apply occurs_here|].
      inversion Hs as [? ? Hcm Hen|? ? ? ?|? Heq]; subst.
      * inversion Hcm; subst. apply says_rule; [constructor|exact Hen].
      * inversion Ha; subst. apply says_none.
    + apply Nat.ltb_lt in Hup. inversion Hx as [Hz|q c Hin Hoc]; subst.
      * eexists. split; [apply occurs_here|]. inversion Hs as [? ? Hcm Hen|? ? ? ?|? Heq]; subst; [inversion Hcm|].
        apply says_rule; [constructor|reflexivity].
      * cbn [children] in Hin. apply in_app_iff in Hin as [Hin|[<-|[]]].
        { eapply Hall; [|exact Hoc]. rewrite <- (firstn_skipn up args'). apply in_app_iff. left. exact Hin. }
        inversion Hoc as [Hz|q c Hin Hoc']; subst.
        { eexists. split; [apply occurs_here|]. inversion Hs as [? ? Hcm Hen|? ? ? ?|? Heq]; subst.
          - inversion Hcm; subst. apply says_rule; [constructor|exact Hen].
          - exfalso. apply Forall2_len_eq in Ha. assert (Hl := skipn_length up args').
            match goal with He : _ = skipn up args' |- _ => rewrite <- He in Hl | He : skipn up args' = _ |- _ => rewrite He in Hl end.
            cbn [length] in Hl. lia. }
        eapply Hall; [|exact Hoc']. rewrite <- (firstn_skipn up args'). apply in_app_iff. right. exact Hin.
    + inversion Hx as [Hz|q c Hin Hoc]; subst; [|eapply Hall; eassumption]. eexists. split; [apply occurs_here|].
      inversion Hs as [? ? Hcm Hen|? ? ? ?|? Heq]; subst; [inversion Hcm|]. apply says_rule; [constructor|reflexivity].
  - cbn [optimize_rule] in Ho. destruct (map_o _ args) as [args'| |] eqn:Ha; try discriminate. injection Ho as <-. apply map_o_done in Ha.
    inversion Hx as [Hz|q c Hin Hoc]; subst; [eexists; split; [apply occurs_here|same_says Hs]|].
    exact (Hargs args (fun c Hc => Hc) _ Ha c Hin Hoc).
  - cbn [optimize_rule] in Ho. destruct (optimize_rule f refs r1) as [x1| |] eqn:H1; try discriminate. cbn [obind] in Ho.
    destruct (optimize_rule f refs r2) as [x2| |] eqn:H2; try discriminate. injection Ho as <-.
    inversion Hx as [Hz|q c Hin Hoc]; subst; [eexists; split; [apply occurs_here|same_says Hs]|].
    destruct Hin as [<-|[<-|[]]]; [eapply (Hc r1)|eapply (Hc r2)]; try eassumption; simpl; auto.
Qed.

Lemma used_occurs s x : used s x -> occurs s x.
Proof.
  induction 1 as [r (front & Hr)|a b _ (top & Ht & Ho) Hb|name property i id r _ _ Hi].
  - exists r. split; [rewrite Hr; apply in_app_iff; right; left; reflexivity|apply occurs_here].
  - exists top. split; [exact Ht|]. clear Ht. induction Ho as [|r' c Hc _ IH].
    + eapply occurs_below; [exact Hb|apply occurs_here].
    + eapply occurs_below; [exact Hc|exact IH].
  - exists r. split; [eapply nth_error_In; exact Hi|apply occurs_here].
Qed.

(** ** The order of the rules *)

(** Rules as they are written. *)
Definition plain_one (x : rule) : Prop :=
  match x with
  | RFastSelect _ _ _ _ | RSelect [] _ | RNode _ _ (Some _) _ => False
  | _ => True
  end.

Definition plain (r : rule) : Prop := forall x, occurs_in x r -> plain_one x.

Lemma plain_child r c : plain r -> In c (children r) -> plain c.
Proof. intros H Hc x Hx. apply H. eapply occurs_below; eassumption. Qed.

Lemma plain_all r : plain_one r -> Forall plain (children r) -> plain r.
Proof.
  intros Hr Hc x Hx. inversion Hx as [Hz|q c Hin Hoc]; subst; [exact Hr|]. rewrite Forall_forall in Hc. exact (Hc c Hin x Hoc).
Qed.

Lemma written_plain lit def :
  (forall r t, mrule lit def r t -> plain r) /\ (forall l t, margs lit def l t -> l <> [] /\ Forall plain l).
Proof.
  apply mrule_mutind; intros; try (apply plain_all; [exact I|repeat constructor; assumption]).
  - apply plain_all; [exact I|]. cbn [children]. tauto.
  - destruct H1 as [Hne Hl]. apply plain_all; [|exact Hl]. destruct args; [congruence|exact I].
  - split; [discriminate|repeat constructor; assumption].
  - split; [discriminate|constructor; tauto].
Qed.

Lemma in_order r : forall x, occurs_in x r <-> In x (rules_in_order r).
Proof.
  induction r as [r IH] using rule_ind'. intros x.
  assert (Hc : forall c, In c (children r) -> (occurs_in x c <-> In x (rules_in_order c))).
  { intros c Hc. apply IH. exact Hc. }
  assert (Hd : occurs_in x r <-> x = r \/ exists c, In c (children r) /\ In x (rules_in_order c)).
  { split.
    - intros H. inversion H as [Hz|q c Hin Hoc]; subst; [left; reflexivity|]. right. exists c. split; [exact Hin|]. apply Hc; assumption.
    - intros [->|(c & H1 & H2)]; [apply occurs_here|]. eapply occurs_below; [exact H1|]. apply Hc; assumption. }
  rewrite Hd. clear Hd Hc.
  destruct r; cbn [children rules_in_order];
    rewrite ?in_app_iff, ?in_flat_map; cbn [In]; split.
  all: try (intros [->|(c & [] & _)]; auto; fail).
  all: try (intros [<-|[]]; auto; fail).
  all: try (intros [->|(c & [<-|[]] & Hin)]; auto; fail).
  all: try (intros [Hin|[<-|[]]]; [right; eauto|left; reflexivity]; fail).
  all: try (intros [->|Hin]; [right; left; reflexivity|left; exact Hin]; fail).
  - intros [->|(c & [<-|[<-|[]]] & Hin)]; auto.
  - intros [Hin|[Hin|[<-|[]]]]; [right; eauto|right; eauto|left; reflexivity].
Qed.

Definition ids (lo : N) (n : nat) : list N := map (fun k => (lo + 1 + N.of_nat k)%N) (seq 0 n).

Lemma ids_app lo a b : ids lo (a + b) = ids lo a ++ ids (lo + N.of_nat a) b.
Proof.
  unfold ids. rewrite seq_app, map_app. f_equal. cbn [plus]. rewrite <- (Nat.add_0_r a) at 1.
  generalize 0 as z. induction b as [|b IH]; intros z; [reflexivity|]. cbn [seq map]. f_equal; [lia|]. rewrite <- IH. f_equal. f_equal. lia.
Qed.

Lemma ids_one lo : ids lo 1 = [(lo + 1)%N].
Proof. cbn. f_equal. lia. Qed.

Lemma rule_ids_count r : length (rule_ids r) = length (rules_in_order r).
Proof.
  induction r as [r IH] using rule_ind'.
  assert (Hargs : forall args, incl args (children r) -> length (flat_map rule_ids args) = length (flat_map rules_in_order args)).
  { induction args as [|a args IHa]; intros Hi; [reflexivity|]. cbn [flat_map]. rewrite !app_length.
    rewrite (IH a (Hi a (or_introl eq_refl))), IHa; [reflexivity|]. intros x Hx. apply Hi. right. exact Hx. }
  destruct r; cbn [rule_ids rules_in_order]; try reflexivity; rewrite ?app_length;
    try (rewrite (Hargs args (fun x Hx => Hx)); reflexivity); rewrite ?(IH r) by (simpl; auto); try reflexivity.
  rewrite (IH r1), (IH r2) by (simpl; auto). cbn [length]. lia.
Qed.

(** Numbering gives the rules their place in the order. *)
Lemma number_order r : plain r -> forall lo,
  map own_id (rules_in_order (fst (number lo r))) = ids lo (length (rules_in_order r)) /\
  snd (number lo r) = (lo + N.of_nat (length (rules_in_order r)))%N.
Proof.
  induction r as [r IH] using rule_ind'. intros Hp lo.
  assert (Hc : forall c, In c (children r) -> forall lo, map own_id (rules_in_order (fst (number lo c))) = ids lo (length (rules_in_order c)) /\
    snd (number lo c) = (lo + N.of_nat (length (rules_in_order c)))%N).
  { intros c Hc. apply IH; [exact Hc|]. eapply plain_child; eassumption. }
  assert (Hargs : forall args, incl args (children r) -> forall lo,
    map own_id (flat_map rules_in_order (fst (number_args lo args))) = ids lo (length (flat_map rules_in_order args)) /\
    snd (number_args lo args) = (lo + N.of_nat (length (flat_map rules_in_order args)))%N).
  { induction args as [|a args IHa]; intros Hi lo'; [cbn; split; [reflexivity|lia]|]. cbn [number_args flat_map].
    destruct (Hc a (Hi a (or_introl eq_refl)) lo') as [H1 H2]. destruct (number lo' a) as [a' mid]. cbn [fst snd] in H1, H2. subst mid.
    destruct (IHa (fun x Hx => Hi x (or_intror Hx)) (lo' + N.of_nat (length (rules_in_order a)))%N) as [H3 H4].
    destruct (number_args _ args) as [l' hi]. cbn [fst snd flat_map] in *. rewrite map_app, H1, H3, app_length, ids_app.
    split; [reflexivity|]. rewrite H4. lia. }
  specialize (Hp r (occurs_here r)).
  destruct r; cbn [plain_one] in Hp; try contradiction; try (cbn; split; [f_equal; lia|reflexivity]; fail).
  1, 2: rewrite ?number_select, ?number_sequence; destruct (Hargs args (fun x Hx => Hx) lo) as [H1 H2];
    destruct (number_args lo args) as [l' hi]; cbn [fst snd] in *; cbn [rules_in_order]; rewrite map_app, H1, !app_length, ids_app;
    cbn [map own_id length]; rewrite ids_one, H2; split; [reflexivity|lia].
  - cbn [number]. destruct (Hc r2 (or_intror (or_introl eq_refl)) lo) as [H1 H2]. destruct (number lo r2) as [b' mid].
    destruct (Hc r1 (or_introl eq_refl) mid) as [H3 H4]. destruct (number mid r1) as [a' hi]. cbn [fst snd] in *. subst mid hi.
    cbn [rules_in_order]. rewrite !map_app, H1, H3, !app_length, !ids_app. cbn [map own_id length]. rewrite ids_one.
    split; [reflexivity|lia].
  - cbn [number]. destruct (Hc r (or_introl eq_refl) lo) as [H1 H2]. destruct (number lo r) as [b' mid]. cbn [fst snd] in *. subst mid.
    cbn [rules_in_order]. rewrite !map_app, H1, !app_length, !ids_app. cbn [map own_id length]. rewrite ids_one. split; [reflexivity|lia].
  - cbn [number]. destruct (Hc r (or_introl eq_refl) lo) as [H1 H2]. destruct (number lo r) as [b' mid]. cbn [fst snd] in *. subst mid.
    cbn [rules_in_order]. rewrite !map_app, H1, !app_length, !ids_app. cbn [map own_id length]. rewrite ids_one. split; [reflexivity|lia].
  - cbn [number]. destruct (Hc r (or_introl eq_refl) lo) as [H1 H2]. destruct (number lo r) as [b' mid]. cbn [fst snd] in *. subst mid.
    cbn [rules_in_order]. rewrite !map_app, H1, !app_length, !ids_app. cbn [map own_id length]. rewrite ids_one. split; [reflexivity|lia].
  - cbn [number]. destruct (Hc r (or_introl eq_refl) lo) as [H1 H2]. destruct (number lo r) as [b' mid]. cbn [fst snd] in *. subst mid.
    cbn [rules_in_order]. rewrite !map_app, H1, !app_length, !ids_app. cbn [map own_id length]. rewrite ids_one. split; [reflexivity|lia].
Qed.

Lemma like_order r : forall r1, like_rule any_ids r r1 -> Forall2 (like_rule any_ids) (rules_in_order r) (rules_in_order r1).
Proof.
  induction r as [r IH] using rule_ind'. intros r1 Hl.
  assert (Hargs : forall args, incl args (children r) -> forall args', Forall2 (like_rule any_ids) args args' ->
    Forall2 (like_rule any_ids) (flat_map rules_in_order args) (flat_map rules_in_order args')).
  { intros args Hi args' HF. induction HF as [|a a' l l' Ha _ IHl]; [constructor|]. cbn [flat_map]. apply Forall2_app.
    - apply IH; [apply Hi; left; reflexivity|exact Ha].
    - apply IHl. intros x Hx. apply Hi. right. exact Hx. }
  assert (Hl' := Hl).
  inversion Hl; subst; cbn [rules_in_order]; repeat apply Forall2_app; try (constructor; [exact Hl'|constructor]);
    try (eapply Hargs; [intros x Hx; exact Hx|assumption]); apply IH; try assumption; simpl; auto.
Qed.

Lemma like_plain r : forall r1, like_rule any_ids r r1 -> plain r -> plain r1.
Proof.
  induction r as [r IH] using rule_ind'. intros r1 Hl Hp.
  assert (Hc : forall c c', In c (children r) -> like_rule any_ids c c' -> plain c').
  { intros c c' Hc Hcl. apply (IH c Hc c' Hcl). eapply plain_child; eassumption. }
  assert (Hargs : forall args, incl args (children r) -> forall args', Forall2 (like_rule any_ids) args args' -> Forall plain args').
  { intros args Hi args' HF. induction HF as [|a a' l l' Ha _ IHl]; [constructor|]. constructor.
    - eapply Hc; [|exact Ha]. apply Hi. left. reflexivity.
    - apply IHl. intros x Hx. apply Hi. right. exact Hx. }
  assert (H1 := Hp r (occurs_here r)).
  inversion Hl; subst; cbn [plain_one] in H1; try contradiction; apply plain_all; cbn [plain_one children]; try exact I;
    try exact H1; try (eapply Hargs; [intros x Hx; exact Hx|assumption]); repeat constructor; try (eapply Hc; [|eassumption]; simpl; auto; fail).
  match goal with Hf : Forall2 _ ?a ?b |- _ => inversion Hf; subst; [exact H1|exact I] end.
Qed.

Lemma refs_order names r : plain r -> rules_in_order (rule_update_refs names r) = map (rule_update_refs names) (rules_in_order r).
Proof.
  induction r as [r IH] using rule_ind'. intros Hp.
  assert (Hc : forall c, In c (children r) -> rules_in_order (rule_update_refs names c) = map (rule_update_refs names) (rules_in_order c)).
  { intros c Hc. apply IH; [exact Hc|]. eapply plain_child; eassumption. }
  assert (Hargs : forall args, incl args (children r) ->
    flat_map rules_in_order (map (rule_update_refs names) args) = map (rule_update_refs names) (flat_map rules_in_order args)).
  { induction args as [|a args IHa]; intros Hi; [reflexivity|]. cbn [map flat_map]. rewrite map_app, (Hc a (Hi a (or_introl eq_refl))).
    f_equal. apply IHa. intros x Hx. apply Hi. right. exact Hx. }
  assert (H1 := Hp r (occurs_here r)).
  destruct r; cbn [plain_one] in H1; try contradiction; cbn [rules_in_order rule_update_refs]; rewrite ?map_app; try reflexivity;
    try (rewrite (Hargs args (fun x Hx => Hx)); reflexivity); try (rewrite (Hc r) by (simpl; auto); reflexivity).
  - rewrite (Hc r1), (Hc r2) by (simpl; auto). reflexivity.
  - destruct index; reflexivity.
Qed.

Lemma find_none name names : forall k, find_name name names k = None -> ~ In name names.
Proof.
  intros k H. assert (Hf := find_name_spec name names k). rewrite H in Hf. exact Hf.
Qed.

Lemma says_written names x e : plain_one x -> says (rule_update_refs names x) e ->
  complains names x e /\ error_number e = Some (own_id x).
Proof.
  intros Hp Hs. destruct x; cbn [plain_one] in Hp; try contradiction; cbn [rule_update_refs] in Hs.
  all: try (inversion Hs as [? ? Hcm Hen|? ? ? ?|?]; subst; inversion Hcm; subst; (split; [constructor|exact Hen]); fail).
  - destruct args; [contradiction|]. cbn [map] in Hs. inversion Hs as [? ? Hcm Hen|? ? ? ?|?]; subst. inversion Hcm; subst. split; [constructor|exact Hen].
  - destruct index; [contradiction|]. inversion Hs as [? ? Hcm Hen|? ? ? ?|?]; subst. inversion Hcm; subst. split; [constructor|exact Hen].
    eapply find_none. symmetry. eassumption.
Qed.

Lemma like_complains names x y e : like_rule any_ids x y -> complains names y e -> complains names x e.
Proof. intros Hl Hc. inversion Hc; subst; inversion Hl; subst; constructor; assumption. Qed.

(** ** From the number to the rule *)

Section Public.
  Variable E : ext.
  Hypothesis HE : ext_ok E.
  Hypothesis HS : string_literals_ok E.
  Hypothesis HN : no_slash_number E.
  Variable strings : list (str * str).
  Variable nodes : list (str * f64 * rule).
  Variable text : str.
  Hypothesis Hdoc : document E strings nodes text.
  Hypothesis Hreal : Forall real_char text.
  Let names := map (fun n : str * f64 * rule => fst (fst n)) nodes.
  Let lo (n : str * f64 * rule) := (f64_as_usize (snd (fst n)) * 1000)%N.
  Let count (n : str * f64 * rule) := length (rules_in_order (snd n)).
  Hypothesis Hsmall : Forall (fun n => (lo n + N.of_nat (count n) <= usize_max)%N) nodes.

  Lemma says_place n x e : In n nodes -> occurs_in x (rule_update_refs names (numbered n)) -> says x e ->
    exists k y, error_number e = Some (lo n + 1 + N.of_nat k)%N /\ nth_error (rules_in_order (snd n)) k = Some y /\ complains names y e.
  Proof.
    intros Hn Hx Hs. assert (Hrules := document_rules E strings nodes text Hdoc). rewrite Forall_forall in Hrules.
    destruct (Hrules n Hn) as (t & Hm). destruct n as [[nm x0] r]. cbn [snd fst] in *.
    assert (Hp := proj1 (written_plain _ _) _ _ Hm). set (l := lo (nm, x0, r)). cbn [numbered] in Hx.
    change (f64_as_usize x0 * 1000)%N with l in Hx. assert (Hl := like_number r l).
    assert (Hp1 := like_plain _ _ Hl Hp). destruct (number_order r Hp l) as [Hids _].
    apply in_order in Hx. rewrite (refs_order names _ Hp1) in Hx. apply in_map_iff in Hx as (z & <- & Hz).
    apply In_nth_error in Hz as (k & Hk). exists k.
    destruct (says_written names z e) as [Hcm Hen]; [|exact Hs|].
    { apply Hp1, in_order. eapply nth_error_In. exact Hk. }
    assert (Hid : own_id z = (l + 1 + N.of_nat k)%N).
    { assert (Hm1 := map_nth_error own_id _ _ Hk). rewrite Hids in Hm1.
      change (nth_error (map (fun k => (l + 1 + N.of_nat k)%N) (seq 0 (length (rules_in_order r)))) k = Some (own_id z : N)) in Hm1.
      assert (Hlt : k < length (rules_in_order r)).
      { assert (Hsome : nth_error (map (fun k => (l + 1 + N.of_nat k)%N) (seq 0 (length (rules_in_order r)))) k <> None) by (rewrite Hm1; discriminate).
        apply nth_error_Some in Hsome. rewrite map_length, seq_length in Hsome. exact Hsome. }
      rewrite (map_nth_error (fun k => (l + 1 + N.of_nat k)%N) k (seq 0 (length (rules_in_order r))) (d := k)) in Hm1; [injection Hm1 as Hm1; symmetry; exact Hm1|].
      rewrite (nth_error_nth' _ 0) by (rewrite seq_length; exact Hlt). rewrite seq_nth by exact Hlt. reflexivity. }
    assert (Hord := like_order _ _ Hl). destruct (nth_error (rules_in_order r) k) as [y|] eqn:Hy.
    - exists y. split; [rewrite Hen, Hid; reflexivity|]. split; [reflexivity|]. eapply like_complains; [|exact Hcm].
      clear -Hord Hy Hk. revert k Hy Hk. induction Hord as [|a b la lb Hab _ IH]; intros [|k] Hy Hk; try discriminate.
      + cbn in Hy, Hk. congruence.
      + eapply IH; eassumption.
    - exfalso. apply nth_error_None in Hy. apply Forall2_len_eq in Hord. assert (k < length (rules_in_order (fst (number l r)))) by (apply nth_error_Some; congruence). lia.
  Qed.

  Theorem error_place s ind data tokens rng e tokens' : syntax_returns E text (inl s) ->
    parse_returns E s data tokens ind (Some (rng, e)) tokens' ->
    (e = NoRules /\ nodes = []) \/ e = ExpectedEnd \/
    exists n k x, In n nodes /\ error_number e = Some (lo n + 1 + N.of_nat k)%N /\
      nth_error (rules_in_order (snd n)) k = Some x /\ complains names x e.
  Proof.
    intros Hs Hpar.
    assert (Hread : rules_read E text (inl (read_syntax nodes))).
    { apply (document_syntax E HE HS HN strings nodes text Hdoc Hreal). apply Forall_forall. rewrite Forall_forall in Hsmall.
      intros n Hn. specialize (Hsmall n Hn). unfold node_hi, node_lo. rewrite rule_ids_count. exact Hsmall. }
    assert (Hopt := proj1 (proj1 (rules_then_syntax E text _ Hread) s) Hs). destruct Hopt as (f & Hf). unfold optimize in Hf.
    destruct (map_o _ _) as [rules| |] eqn:Hrules; try discriminate. injection Hf as <-. apply map_o_done in Hrules.
    apply errors_true in Hpar as [(-> & _ & He)|[(-> & _)|(x & Hu & Hex)]].
    - left. split; [reflexivity|]. cbn [s_rules] in He. subst rules. destruct nodes; [reflexivity|]. inversion Hrules.
    - right. left. reflexivity.
    - right. right. apply used_occurs in Hu as (top & Htop & Hocc). cbn [s_rules] in Htop. apply explains_says in Hex.
      assert (Hin : exists r, In r (s_rules (read_syntax nodes)) /\ optimize_rule f (s_rules (read_syntax nodes)) r = Done top).
      { revert Htop. generalize (optimize_rule f (s_rules (read_syntax nodes))) Hrules. generalize (s_rules (read_syntax nodes)). clear.
        intros l g HF. induction HF as [|a b l l' Hab _ IH]; intros Hin; [destruct Hin|]. destruct Hin as [<-|Hin]; [exists a; simpl; auto|].
        destruct (IH Hin) as (r & H1 & H2). exists r. simpl. auto. }
      destruct Hin as (r & Hr & Hro). destruct (opt_says _ _ _ _ Hro x e Hocc Hex) as (y & Hy & Hsy).
      unfold read_syntax in Hr. cbn [s_rules] in Hr. apply in_map_iff in Hr as (n & <- & Hn).
      destruct (says_place n y e Hn Hy Hsy) as (k & z & H1 & H2 & H3). exists n, k, z. auto.
  Qed.

  (** Nodes with less than thousand rules and different numbers. *)
  Theorem error_node s ind data tokens rng e tokens' d : syntax_returns E text (inl s) ->
    parse_returns E s data tokens ind (Some (rng, e)) tokens' -> error_number e = Some d ->
    Forall (fun n => count n < 1000) nodes -> NoDup (map (fun n => f64_as_usize (snd (fst n))) nodes) ->
    exists n x, In n nodes /\ (forall n', In n' nodes -> (f64_as_usize (snd (fst n')) = d / 1000)%N <-> n' = n) /\
      (0 < d mod 1000)%N /\ nth_error (rules_in_order (snd n)) (N.to_nat (d mod 1000) - 1) = Some x /\ complains names x e.
  Proof.
    intros Hs Hpar Hd Hfew Hdup.
    destruct (error_place _ _ _ _ _ _ _ Hs Hpar) as [(-> & _)|[->|(n & k & x & Hn & Hen & Hx & Hc)]]; try discriminate.
    rewrite Hd in Hen. injection Hen as ->. rewrite Forall_forall in Hfew. specialize (Hfew n Hn).
    assert (Hk : k < count n) by (apply nth_error_Some; congruence).
    assert (Hdiv : ((lo n + 1 + N.of_nat k) / 1000 = f64_as_usize (snd (fst n)))%N).
    { symmetry. apply (N.div_unique _ _ _ (1 + N.of_nat k)%N); unfold lo; lia. }
    assert (Hmod : ((lo n + 1 + N.of_nat k) mod 1000 = 1 + N.of_nat k)%N).
    { symmetry. apply (N.mod_unique _ _ (f64_as_usize (snd (fst n)))); unfold lo; lia. }
    exists n, x. split; [exact Hn|]. split; [|split; [lia|split; [|exact Hc]]].
    - rewrite Hdiv. intros n' Hn'. split; [|intros ->; reflexivity]. intros Heq.
      clear -Hn Hn' Heq Hdup. revert Hn Hn' Hdup. generalize nodes as l. induction l as [|a l IH]; intros Hn Hn' Hdup; [destruct Hn|].
      cbn [map] in Hdup. inversion Hdup as [|? ? Hnot Hdup']; subst. destruct Hn as [->|Hn], Hn' as [->|Hn']; auto; exfalso; apply Hnot.
      + apply in_map_iff. exists n'. auto.
      + apply in_map_iff. exists n. auto.
    - rewrite Hmod. replace (N.to_nat (1 + N.of_nat k) - 1) with k by lia. exact Hx.
  Qed.

  (** What loading writes. *)
  Theorem error_printed data w : loads E (Some text) (Some data) (Aborted w) ->
    starts_with w (s2l "Error No rules are specified") \/ starts_with w (s2l "Error Expected end") \/
    exists n k x e, In n nodes /\ starts_with w (s2l "Error #" ++ fmt_N (lo n + 1 + N.of_nat k) ++ s2l ", ") /\
      nth_error (rules_in_order (snd n)) k = Some x /\ complains names x e /\ starts_with w (s2l "Error " ++ fmt_error E e).
  Proof.
    intros H. apply load_aborted in H as [(H & _)|[(s & e & Hs & Hr & _)|[(s & r & _ & _ & H & _)|(s & d & r & e & tk & Hs & Hd & Hr & Hp & Hw)]]];
      try discriminate.
    - exfalso. injection Hs as <-.
      assert (Hread : rules_read E text (inl (read_syntax nodes))).
      { apply (document_syntax E HE HS HN strings nodes text Hdoc Hreal). apply Forall_forall. rewrite Forall_forall in Hsmall.
        intros n Hn. specialize (Hsmall n Hn). unfold node_hi, node_lo. rewrite rule_ids_count. exact Hsmall. }
      exact (proj1 (proj2 (rules_then_syntax E text _ Hread)) e Hr).
    - injection Hs as <-. injection Hd as <-. destruct e as [rng e]. destruct (ReportProofs.report_returns E data (rng, e)) as (more & Hm).
      rewrite Hw in Hm. injection Hm as ->. cbn [snd].
      destruct (error_place _ _ _ _ _ _ _ Hr Hp) as [(-> & _)|[->|(n & k & x & Hn & Hen & Hx & Hc)]].
      + left. exists ([newline] ++ more). reflexivity.
      + right. left. exists ([newline] ++ more). reflexivity.
      + right. right. exists n, k, x, e. split; [exact Hn|]. split; [|split; [exact Hx|split; [exact Hc|]]].
        * assert (Hf : exists m, fmt_error E e = (s2l "#" ++ fmt_N (lo n + 1 + N.of_nat k) ++ s2l ", ") ++ m).
          { destruct e; try discriminate Hen; injection Hen as ->; eexists; cbn [fmt_error]; rewrite <- ?app_assoc; reflexivity. }
          destruct Hf as (m & ->). exists (m ++ [newline] ++ more).
          change (s2l "Error #") with (s2l "Error " ++ s2l "#"). rewrite <- !app_assoc. reflexivity.
        * exists ([newline] ++ more). rewrite <- !app_assoc. reflexivity.
  Qed.
End Public.
