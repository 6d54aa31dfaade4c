(** Which references of a syntax that was read are undefined. *)
From Coq Require Import Ascii String List NArith Bool Arith Lia.
From Verif Require Import Base Ext Types DataSpec ParseModel ApiSpec OptimizeModel OptSpec ConvertModel
  LibModel ConvertSpec OptProofs SyntaxSpec OptProofs2 OptTotal ConvertSound ConvertValid UndefSpec.
Import ListNotations.
Local Open Scope string_scope.
Local Open Scope list_scope.
Local Open Scope nat_scope.

Lemma resolve_names names r : unresolved r ->
  forall x, occurs_in x (rule_update_refs names r) -> refers_by_name names x.
Proof.
  induction r as [r IH] using rule_ind'. intros Hu x Hx.
  assert (Hn : no_index r) by (apply Hu, occurs_here).
  assert (Hc : forall c, In c (children r) -> unresolved c).
  { intros c Hc y Hy. apply Hu. eapply occurs_below; eassumption. }
  assert (Hmap : forall args, (forall c, In c args -> In c (children r)) ->
    forall y c, In c (map (rule_update_refs names) args) -> occurs_in y c -> refers_by_name names y).
  { intros args Hargs y c Hin Hy. apply in_map_iff in Hin as (c0 & <- & Hin).
    exact (IH c0 (Hargs _ Hin) (Hc c0 (Hargs _ Hin)) y Hy). }
  destruct r; cbn [rule_update_refs] in Hx; try contradiction;
    try (inversion Hx as [|? ? Hy Hz]; subst; [exact I|cbn in Hy; contradiction]).
  - inversion Hx as [|? c Hy Hz]; subst; [exact I|]. eapply (Hmap args); [auto|exact Hy|exact Hz].
  - inversion Hx as [|? c Hy Hz]; subst; [exact I|]. eapply (Hmap args); [auto|exact Hy|exact Hz].
  - inversion Hx as [|? c Hy Hz]; subst; [exact I|]. cbn [children] in *.
    destruct Hy as [<-|[<-|[]]]; refine (IH _ _ _ _ Hz); simpl; auto; apply Hc; simpl; auto.
  - inversion Hx as [|? c Hy Hz]; subst; [exact I|]. destruct Hy as [<-|[]].
    refine (IH _ _ _ _ Hz); simpl; auto; apply Hc; simpl; auto.
  - inversion Hx as [|? c Hy Hz]; subst; [exact I|]. destruct Hy as [<-|[]].
    refine (IH _ _ _ _ Hz); simpl; auto; apply Hc; simpl; auto.
  - cbn in Hn. destruct index; [contradiction|].
    inversion Hx as [|? c Hy Hz]; subst; [|contradiction].
    pose proof (find_name_spec name names 0) as Hf.
    cbn [refers_by_name]. destruct (find_name name names 0); [|exact Hf].
    rewrite Nat.sub_0_r in Hf. apply Hf.
  - inversion Hx as [|? c Hy Hz]; subst; [exact I|]. destruct Hy as [<-|[]].
    refine (IH _ _ _ _ Hz); simpl; auto; apply Hc; simpl; auto.
  - inversion Hx as [|? c Hy Hz]; subst; [exact I|]. destruct Hy as [<-|[]].
    refine (IH _ _ _ _ Hz); simpl; auto; apply Hc; simpl; auto.
Qed.

(** Optimisation adds no references. *)
Lemma optimized_names fuel refs names r : forall r', optimize_rule fuel refs r = Done r' ->
  (forall c, occurs_in c r -> refers_by_name names c) -> forall c, occurs_in c r' -> refers_by_name names c.
Proof.
  induction r as [r IH] using rule_ind'. intros r' Hopt Hin.
  assert (Hargs : forall args args', Forall2 (fun r r' => optimize_rule fuel refs r = Done r') args args' ->
    (forall c, In c args -> In c (children r)) ->
    forall c c', In c' args' -> occurs_in c c' -> refers_by_name names c).
  { intros args args' HF. induction HF as [|a a' l l' Ha _ IHl]; intros Hc c c' Hin'; [destruct Hin'|].
    destruct Hin' as [<-|Hin'].
    - apply (IH a (Hc _ (or_introl eq_refl)) a' Ha). intros d Hd. apply Hin.
      eapply occurs_below; [|exact Hd]. apply Hc. left. reflexivity.
    - apply IHl; [|exact Hin']. intros d Hd. apply Hc. right. exact Hd. }
  assert (Hone : forall a a', optimize_rule fuel refs a = Done a' -> In a (children r) ->
    forall c, occurs_in c a' -> refers_by_name names c).
  { intros a a' Ha Hc c Ho. eapply (Hargs [a] [a']); [constructor; [exact Ha|constructor]| |left; reflexivity|exact Ho].
    intros d [<-|[]]. exact Hc. }
  assert (Hhere : forall q, (forall d, In d (children q) -> forall c, occurs_in c d -> refers_by_name names c) ->
    refers_by_name names q -> forall c, occurs_in c q -> refers_by_name names c).
  { intros q Hd Hq c Ho. destruct Ho as [|q d Hc Ho]; [exact Hq|]. eapply Hd; eassumption. }
  destruct r; cbn [optimize_rule] in Hopt; cbn [children] in *;
    try (injection Hopt as <-; exact Hin).
  - fold (optimize_rule fuel refs (RSelect args id)) in Hopt.
    apply (opt_select_cases fuel refs) in Hopt as (table & up & args' & Ht & Ha & ->).
    assert (Hall : forall d, In d args' -> forall c, occurs_in c d -> refers_by_name names c).
    { intros d Hd c Ho. eapply Hargs; [exact Ha|auto|exact Hd|exact Ho]. }
    destruct (up <? 2); [apply Hhere; [exact Hall|exact I]|].
    destruct (Nat.ltb_spec up (length args)) as [Hlt|Hge].
    + apply Hhere; [|exact I]. intros d Hd. cbn [children] in Hd. apply in_app_or in Hd as [Hd|[<-|[]]].
      * apply Hall. eapply firstn_In. exact Hd.
      * apply Hhere; [|exact I]. intros e He. apply Hall. eapply skipn_In. exact He.
    + apply Hhere; [exact Hall|exact I].
  - destruct (map_o _ args) as [args'| |] eqn:Ha; try discriminate. injection Hopt as <-.
    apply map_o_done in Ha. apply Hhere; [|exact I]. intros d Hd c Ho.
    eapply Hargs; [exact Ha|auto|exact Hd|exact Ho].
  - destruct (optimize_rule fuel refs r1) as [a1| |] eqn:H1; try discriminate.
    destruct (optimize_rule fuel refs r2) as [a2| |] eqn:H2; try discriminate. injection Hopt as <-.
    apply Hhere; [|exact I]. intros d [<-|[<-|[]]].
    + apply (Hone _ _ H1). left. reflexivity.
    + apply (Hone _ _ H2). right. left. reflexivity.
  - destruct (optimize_rule fuel refs r) as [a| |] eqn:H1; try discriminate. injection Hopt as <-.
    apply Hhere; [|exact I]. intros d [<-|[]]. apply (Hone _ _ H1). left. reflexivity.
  - destruct (optimize_rule fuel refs r) as [a| |] eqn:H1; try discriminate. injection Hopt as <-.
    apply Hhere; [|exact I]. intros d [<-|[]]. apply (Hone _ _ H1). left. reflexivity.
  - destruct (optimize_rule fuel refs r) as [a| |] eqn:H1; try discriminate. injection Hopt as <-.
    apply Hhere; [|exact I]. intros d [<-|[]]. apply (Hone _ _ H1). left. reflexivity.
  - destruct (optimize_rule fuel refs r) as [a| |] eqn:H1; try discriminate. injection Hopt as <-.
    apply Hhere; [|exact I]. intros d [<-|[]]. apply (Hone _ _ H1). left. reflexivity.
Qed.

Lemma Forall2_back {A B} (P : A -> B -> Prop) l l' : Forall2 P l l' ->
  forall y, In y l' -> exists x, In x l /\ P x y.
Proof.
  induction 1 as [|a b l l' Hab _ IH]; [intros y []|]. intros y [<-|Hy].
  - exists a. split; [left; reflexivity|exact Hab].
  - destruct (IH y Hy) as (x & Hx & Hp). exists x. split; [right; exact Hx|exact Hp].
Qed.

Theorem syntax_names E text s : syntax_returns E text (inl s) ->
  forall r, occurs s r -> refers_by_name (s_names s) r.
Proof.
  intros (fuel & H). unfold lib_syntax in H. inv1 H. destruct x as [s0|e]; [|discriminate].
  inv1 H. injection H as <-.
  assert (H0 : forall r, occurs s0 r -> refers_by_name (s_names s0) r).
  { unfold syntax_unoptimized in Hx. inv1 Hx. inv1 Hx. destruct x1 as [[e|] toks]; [discriminate|].
    inv1 Hx. destruct x1 as [[s1|] ig]; [|discriminate]. injection Hx as <-.
    match goal with Hc : convert _ _ _ = Done _ |- _ =>
      destruct (convert_unresolved _ _ _ _ (ex_intro _ _ Hc)) as (s2 & [_ Hu] & ->) end.
    intros r (top & Ht & Ho). cbn [s_rules s_names update_refs] in *.
    apply in_map_iff in Ht as (r0 & <- & Hin). eapply resolve_names; [|exact Ho].
    exact (proj1 (Forall_forall _ _) Hu _ Hin). }
  unfold optimize in Hx0. inv1 Hx0. injection Hx0 as <-. cbn [s_names]. intros rr (top & Ht & Ho). cbn [s_rules] in Ht.
  match goal with Hm : map_o _ _ = Done _ |- _ => apply map_o_done in Hm; rename Hm into HF end.
  assert (Hex : exists r, In r (s_rules s0) /\ optimize_rule fuel (s_rules s0) r = Done top) by (exact (Forall2_back _ _ _ HF _ Ht)).
  destruct Hex as (q & Hq & Hopt). eapply optimized_names; [exact Hopt| |exact Ho].
  intros c Hc. apply H0. exists q. split; assumption.
Qed.
