(** Every text of the meta language is read as what it means. *)
From Coq Require Import Ascii String List NArith Bool Arith Lia.
From Verif Require Import Base Ext Types ParseModel OptimizeModel ConvertModel BootstrapRules LibModel PegSpec DataSpec ApiSpec
  OptSpec IdSpec PrimProofs JsonSpec ConvertSpec WriteSpec SyntaxSpec TextSpec SurfaceSpec MeaningSpec RuleProofs OptProofs OptProofs2
  ParseProofs ParsePublic OptPublic FuelProofs ConvertFuel ConvertNodes WriteProofs WriteProofs3 SyntaxProofs TextProofs TextProofs2 TextProofs3
  TextProofs4 TextProofs5 TextProofs6 TextProofs7 SimProofs OnceProofs LostProofs SurfaceProofs ConvertSound ConvertTotal JsonProofs.
Import ListNotations.
Local Open Scope string_scope.
Local Open Scope list_scope.
Local Open Scope nat_scope.

(** ** Names *)

Lemma find_found n ss v : find_string n ss = Some v -> defined ss n v.
Proof.
  induction ss as [|[m t] ss IH]; cbn [find_string]; [discriminate|]. destruct (str_eqb m n) eqn:He.
  - intros [= <-]. apply str_eqb_eq in He. subst m. exists [], ss. auto.
  - intros H. destruct (IH H) as (b & a & -> & Hb). exists ((m, t) :: b), a. split; [reflexivity|].
    cbn [map fst In]. intros [->|Hin]; [rewrite str_eqb_refl in He; discriminate|contradiction].
Qed.

Lemma find_missing n ss : find_string n ss = None <-> ~ In n (map fst ss).
Proof.
  induction ss as [|[m t] ss IH]; cbn [find_string map fst In]; [tauto|]. destruct (str_eqb m n) eqn:He.
  - apply str_eqb_eq in He. subst m. split; [discriminate|]. intros H. contradiction H. auto.
  - rewrite IH. assert (m <> n) by (intros ->; rewrite str_eqb_refl in He; discriminate). tauto.
Qed.

Lemma find_app n a b : find_string n (a ++ b) = match find_string n a with Some v => Some v | None => find_string n b end.
Proof. induction a as [|[m t] a IH]; cbn [app find_string]; [reflexivity|]. destruct (str_eqb m n); [reflexivity|exact IH]. Qed.

Lemma stands_somehow ss n : exists o, stands_for ss n o.
Proof.
  exists (find_string n ss). unfold stands_for. destruct (find_string n ss) as [v|] eqn:H; [apply find_found; exact H|].
  apply find_missing. exact H.
Qed.

Lemma fresh_text (B : list str) : exists u, ~ In u B.
Proof.
  assert (H : exists u : str, forall x, In x B -> length x < length u).
  { induction B as [|b B (u & Hu)]; [exists []; intros x []|].
    exists (0%N :: b ++ u). intros x [<-|Hx]; cbn [length]; rewrite app_length; [lia|]. specialize (Hu x Hx). lia. }
  destruct H as (u & Hu). exists u. intros Hin. specialize (Hu u Hin). lia.
Qed.

(** All names are defined: those that were not stand for the marker. *)
Record fits (ss ss' : list (str * str)) (u : str) (L B : list str) : Prop := {
  fits_defined : forall n v, defined ss n v -> defined ss' n v;
  fits_marker : forall n, In n L -> ~ In n (map fst ss) -> defined ss' n u;
  fits_fresh : ~ In u B;
  fits_strings : ~ In u (map snd ss)
}.

Lemma fits_app ss ss' u L1 L2 B1 B2 : fits ss ss' u (L1 ++ L2) (B1 ++ B2) -> fits ss ss' u L1 B1 /\ fits ss ss' u L2 B2.
Proof.
  intros [H1 H2 H3 H4]. split; split; try assumption.
  - intros n Hn. apply H2. apply in_or_app. auto.
  - intros Hu. apply H3. apply in_or_app. auto.
  - intros n Hn. apply H2. apply in_or_app. auto.
  - intros Hu. apply H3. apply in_or_app. auto.
Qed.

Definition marked (ss : list (str * str)) (u : str) (L : list str) : list (str * str) := ss ++ map (fun n => (n, u)) L.

Lemma find_marker n u L : find_string n (map (fun n => (n, u)) L) = if in_dec (list_eq_dec N.eq_dec) n L then Some u else None.
Proof.
  induction L as [|m L IH]; [reflexivity|]. cbn [map find_string]. destruct (str_eqb m n) eqn:He.
  - apply str_eqb_eq in He. subst m. destruct (in_dec (list_eq_dec N.eq_dec) n (n :: L)) as [|H]; [reflexivity|contradiction H; left; reflexivity].
  - rewrite IH. assert (m <> n) by (intros ->; rewrite str_eqb_refl in He; discriminate).
    destruct (in_dec (list_eq_dec N.eq_dec) n L) as [Hi|Hi]; destruct (in_dec (list_eq_dec N.eq_dec) n (m :: L)) as [Hj|Hj]; try reflexivity.
    + contradiction Hj. right. exact Hi.
    + destruct Hj; contradiction.
Qed.

Lemma marked_fits ss u L B : ~ In u B -> ~ In u (map snd ss) -> fits ss (marked ss u L) u L B.
Proof.
  intros Hb Hs. split; try assumption; unfold marked.
  - intros n v H. apply find_found. rewrite find_app, (find_defined _ _ _ H). reflexivity.
  - intros n Hn Hno. apply find_found. rewrite find_app, (proj2 (find_missing _ _) Hno), find_marker.
    destruct (in_dec (list_eq_dec N.eq_dec) n L); [reflexivity|contradiction].
Qed.

Lemma marked_find ss u L n v : ~ In u (map snd ss) -> defined (marked ss u L) n v ->
  find_string n ss = if str_eqb v u then None else Some v.
Proof.
  intros Hs H. apply find_defined in H. unfold marked in H. rewrite find_app in H.
  destruct (find_string n ss) as [w|] eqn:Hw.
  - injection H as ->. destruct (str_eqb v u) eqn:He; [|reflexivity]. apply str_eqb_eq in He. subst v. contradiction Hs.
    apply find_found in Hw. destruct Hw as (b & a & -> & _). rewrite map_app. apply in_or_app. right. left. reflexivity.
  - rewrite find_marker in H. destruct (in_dec (list_eq_dec N.eq_dec) n L); [|discriminate]. injection H as <-. rewrite str_eqb_refl. reflexivity.
Qed.

(** ** Debug ids *)

Lemma like_zero r : forall r', like_rule any_ids r r' -> zero_ids r = zero_ids r'.
Proof.
  induction r as [r IH] using rule_ind'. intros r' H.
  assert (Hargs : forall a b, incl a (children r) -> Forall2 (like_rule any_ids) a b -> map zero_ids a = map zero_ids b).
  { intros a b Hi Hf. revert Hi. induction Hf as [|x y a b Hxy Hf IHf]; intros Hi; [reflexivity|]. cbn [map]. f_equal.
    - apply IH; [apply Hi; left; reflexivity|exact Hxy].
    - apply IHf. intros z Hz. apply Hi. right. exact Hz. }
  destruct H; cbn [zero_ids children] in *; try reflexivity;
    try (f_equal; apply Hargs; [intros x Hx; exact Hx|assumption]);
    try (f_equal; apply IH; [cbn; auto|assumption]).
  rewrite (IH a (or_introl eq_refl) b H0), (IH a' (or_intror (or_introl eq_refl)) b' H1). reflexivity.
Qed.

Lemma like_sym a b : like_rule any_ids a b -> like_rule any_ids b a.
Proof. intros H. apply zero_like. symmetry. apply like_zero, H. Qed.

Lemma like_trans a b c : like_rule any_ids a b -> like_rule any_ids b c -> like_rule any_ids a c.
Proof. intros H1 H2. apply zero_like. rewrite (like_zero _ _ H1). apply like_zero, H2. Qed.

Lemma meaning_sym a b : like_meaning a b -> like_meaning b a.
Proof. destruct a, b; cbn; auto. apply like_sym. Qed.

Lemma meaning_trans a b c : like_meaning a b -> like_meaning b c -> like_meaning a c.
Proof. destruct a, b, c; cbn; try tauto. apply like_trans. Qed.

Lemma prune_like u r : forall r', like_rule any_ids r r' -> like_meaning (prune u r) (prune u r').
Proof.
  induction r as [r IH] using rule_ind'. intros r' H.
  assert (Hargs : forall a b, incl a (children r) -> Forall2 (like_rule any_ids) a b -> Forall2 (like_rule any_ids) (prunes u a) (prunes u b)).
  { intros a b Hi Hf. revert Hi. induction Hf as [|x y a b Hxy Hf IHf]; intros Hi; [constructor|].
    cbn [prunes flat_map]. fold (prunes u a). fold (prunes u b). apply Forall2_app.
    - assert (Hx := IH x (Hi x (or_introl eq_refl)) y Hxy). unfold like_meaning in Hx.
      destruct (prune u x), (prune u y); try contradiction; repeat constructor. exact Hx.
    - apply IHf. intros z Hz. apply Hi. right. exact Hz. }
  destruct H; cbn [prune children] in *;
    try (destruct (str_eqb _ u); cbn; [exact I|]);
    try (cbn [like_meaning]; constructor; exact I); try exact I;
    try (cbn [like_meaning]; constructor; [exact I|apply Hargs; [intros x Hx; exact Hx|assumption]]).
  - assert (H2 := IH a (or_introl eq_refl) b H0). assert (H3 := IH a' (or_intror (or_introl eq_refl)) b' H1).
    unfold like_meaning in *. destruct (prune u a), (prune u b), (prune u a'), (prune u b'); try contradiction; try exact I.
    constructor; [exact I|assumption|assumption].
  - assert (H2 := IH a (or_introl eq_refl) b H0). unfold like_meaning in *. destruct (prune u a), (prune u b); try contradiction; try exact I.
    constructor; [exact I|assumption].
  - assert (H2 := IH a (or_introl eq_refl) b H0). unfold like_meaning in *. destruct (prune u a), (prune u b); try contradiction; try exact I.
    constructor; [exact I|assumption].
  - assert (H2 := IH a (or_introl eq_refl) b H0). unfold like_meaning in *. destruct (prune u a), (prune u b); try contradiction; try exact I.
    constructor; [exact I|assumption].
  - assert (H2 := IH a (or_introl eq_refl) b H0). unfold like_meaning in *. destruct (prune u a), (prune u b); try contradiction; try exact I.
    constructor; [exact I|assumption].
Qed.

(** ** A text with all names defined, for what a text means *)

Section Marked.
  Variable E : ext.
  Variable ss : list (str * str).

  Notation tmean := (text_means E ss). Notation pmean := (prop_means E ss).
  Notation lit := (literal E).

  Lemma mark_text b o t : tmean b o t -> exists L B, forall ss' u, fits ss ss' u L B ->
    exists v, mtext lit (defined ss') b v t /\ (if str_eqb v u then None else Some v) = o.
  Proof.
    intros [v t' H1 H2|o' n Hn Ho].
    - exists [], [v]. intros ss' u Hf. exists v. split; [apply mtext_quoted; assumption|].
      destruct (str_eqb v u) eqn:He; [|reflexivity]. apply str_eqb_eq in He. contradiction (fits_fresh _ _ _ _ _ Hf). left. exact He.
    - exists [n], []. intros ss' u Hf. destruct o' as [v|]; cbn in Ho.
      + exists v. split; [apply mtext_name; [exact Hn|apply (fits_defined _ _ _ _ _ Hf), Ho]|].
        destruct (str_eqb v u) eqn:He; [|reflexivity]. apply str_eqb_eq in He. subst v. contradiction (fits_strings _ _ _ _ _ Hf).
        destruct Ho as (b' & a & -> & _). rewrite map_app. apply in_or_app. right. left. reflexivity.
      + exists u. rewrite str_eqb_refl. split; [|reflexivity]. apply mtext_name; [exact Hn|]. apply (fits_marker _ _ _ _ _ Hf); [left; reflexivity|exact Ho].
  Qed.

  Lemma mark_prop o t : pmean o t -> exists L B, forall ss' u, fits ss ss' u L B ->
    exists p, mprop lit (defined ss') p t /\ prune_text u p = o.
  Proof.
    intros [|o' t' H].
    - exists [], []. intros ss' u _. exists None. split; [apply mprop_none|reflexivity].
    - destruct (mark_text _ _ _ H) as (L & B & HL). exists L, B. intros ss' u Hf. destruct (HL ss' u Hf) as (v & Hv & Ho).
      exists (Some v). split; [apply mprop_some, Hv|exact Ho].
  Qed.

  Lemma prune_positive u r r' : prune u r = Some r' -> positive_tag r -> positive_tag r'.
  Proof.
    destruct r; try contradiction. cbn [prune positive_tag]. destruct (str_eqb _ u); [discriminate|]. intros [= <-]. auto.
  Qed.

  Lemma negated def u r t : mrule lit def r t -> positive_tag r -> prune u r = None ->
    exists r', mrule lit def r' (s2l "!" ++ t) /\ prune u r' = None.
  Proof.
    intros H Hp Hn. destruct H; try contradiction; destruct n; try contradiction; cbn [sign app].
    - exists (RTag v true false None id). split; [apply (m_tag _ _ v true id t); assumption|cbn [prune] in *; destruct (str_eqb v u); [reflexivity|discriminate]].
    - exists (RTag v true i (Some p) id). split; [apply (m_tag_prop _ _ v true i p id t tp); assumption|cbn [prune] in *; destruct (str_eqb v u); [reflexivity|discriminate]].
  Qed.

  Lemma positive_dec r : positive_tag r \/ ~ positive_tag r.
  Proof. destruct r; try (right; intros []). destruct not; [right; intros []|left; exact I]. Qed.

  Lemma kept_prunes u r rs : kept (prune u r) ++ prunes u rs = prunes u (r :: rs).
  Proof. reflexivity. Qed.

  Lemma mark_rule :
    (forall o t, rule_means E ss o t -> exists L B, forall ss' u, fits ss ss' u L B ->
       exists r, mrule lit (defined ss') r t /\ prune u r = o) /\
    (forall rs t, rules_mean E ss rs t -> exists L B, forall ss' u, fits ss ss' u L B ->
       exists rs', margs lit (defined ss') rs' t /\ prunes u rs' = rs).
  Proof.
    apply means_mutind; intros;
      repeat match goal with
      | X : tmean _ _ _ |- _ => apply mark_text in X
      | X : pmean _ _ |- _ => apply mark_prop in X
      | X : exists L, _ |- _ => let L := fresh "L" in let B := fresh "B" in destruct X as (L & B & X)
      end;
      match goal with
      | X : forall ss' u, fits _ _ _ ?L1 ?B1 -> _, Y : forall ss' u, fits _ _ _ ?L2 ?B2 -> _ |- _ => exists (L1 ++ L2), (B1 ++ B2)
      | X : forall ss' u, fits _ _ _ ?L1 ?B1 -> _ |- _ => exists L1, B1
      | |- _ => exists [], []
      end; intros ss' mk Hs; try (apply fits_app in Hs; destruct Hs as [Hs1 Hs2]);
      repeat match goal with
      | X : forall ss' u, fits _ _ _ ?L ?B -> _, Y : fits _ _ _ ?L ?B |- _ =>
        specialize (X _ _ Y); let r := fresh "x" in destruct X as (r & X)
      end; repeat match goal with X : _ /\ _ |- _ => destruct X end; subst.
    - eexists. split; [apply (m_whitespace _ _ b id)|reflexivity].
    - eexists. split; [eapply (m_until_any_or_ws _ _ _ o _ id); eassumption|]. cbn [prune]. destruct (str_eqb _ mk); reflexivity.
    - eexists. split; [eapply (m_until_any _ _ _ o _ id); eassumption|]. cbn [prune]. destruct (str_eqb _ mk); reflexivity.
    - eexists. split; [eapply (m_lines _ _ _ i id); eassumption|]. cbn [prune]. destruct (prune mk x); reflexivity.
    - eexists. split; [eapply (m_repeat _ _ _ o id); eassumption|]. cbn [prune]. destruct (prune mk x); reflexivity.
    - eexists. split; [eapply (m_number _ _ u _ id); eassumption|]. reflexivity.
    - eexists. split; [eapply (m_text _ _ b _ id); eassumption|]. reflexivity.
    - eexists. split; [eapply (m_reference _ _ name _ id); eassumption|]. reflexivity.
    - eexists. split; [eapply (m_sequence _ _ _ id); eassumption|]. reflexivity.
    - eexists. split; [eapply (m_select _ _ _ id); eassumption|]. reflexivity.
    - eexists. split; [eapply (m_separate_by _ _ _ _ o dot id); eassumption|]. reflexivity.
    - eexists. split; [eapply (m_tag _ _ _ n id); eassumption|]. cbn [prune]. destruct (str_eqb _ mk); reflexivity.
    - eexists. split; [eapply (m_tag_prop _ _ _ n i _ id); eassumption|]. cbn [prune prune_text].
      repeat match goal with |- context [str_eqb ?a mk] => destruct (str_eqb a mk) end; reflexivity.
    - eexists. split; [eapply (m_optional _ _ _ id); eassumption|]. cbn [prune]. destruct (prune mk x); reflexivity.
    - destruct (positive_dec x) as [Hp|Hp].
      + destruct (prune mk x) as [r'|] eqn:Hx.
        * exfalso. eapply H1; [reflexivity|]. eapply prune_positive; eassumption.
        * destruct (negated _ mk x t ltac:(eassumption) Hp Hx) as (r' & Hr & Hn). exists r'. split; [exact Hr|]. rewrite Hn. reflexivity.
      + eexists. split; [eapply (m_not _ _ _ id); eassumption|]. cbn [prune]. destruct (prune mk x); reflexivity.
    - eexists. split; [eapply m_last; eassumption|]. rewrite <- kept_prunes. cbn [prunes flat_map]. apply app_nil_r.
    - eexists. split; [eapply m_more; eassumption|]. symmetry. apply kept_prunes.
  Qed.

  (** The nodes of the text with all names defined, and what they mean. *)
  Definition as_meant (u : str) (a : str * f64 * rule) (b : str * f64 * option rule) : Prop :=
    fst a = fst b /\ prune u (snd a) = snd b.

  Lemma mark_entry s n t : entry_means E ss s n t -> exists L B, forall ss' u, fits ss ss' u L B ->
    exists e, entry_text E lit (defined ss') e t /\ strings_of [e] = s /\ Forall2 (as_meant u) (nodes_of [e]) n.
  Proof.
    intros [n' v t' w1 w2 Hn Hq Hw1 Hw2|x num n' r w1 w2 w3 t' w4 Hx Hn Hm Hw1 Hn1 Hw2 Hn2 Hw3 Hw4|t' Hc].
    - exists [], []. intros ss' u _. exists (EString n' v). split; [apply entry_string; assumption|]. cbn. auto.
    - destruct (proj1 mark_rule _ _ Hm) as (L & B & HL). exists L, B. intros ss' u Hf. destruct (HL ss' u Hf) as (r' & Hr & Hp).
      exists (ENode x n' r'). split; [apply entry_node; assumption|]. cbn. split; [reflexivity|]. constructor; [|constructor].
      split; [reflexivity|exact Hp].
    - exists [], []. intros ss' u _. exists EComment. split; [|cbn; auto].
      inversion Hc; subst; [apply entry_comment; assumption|apply entry_line_comment; assumption].
  Qed.

  Lemma strings_cons e es : strings_of (e :: es) = strings_of [e] ++ strings_of es.
  Proof. unfold strings_of. cbn [flat_map]. rewrite app_nil_r. reflexivity. Qed.

  Lemma nodes_cons e es : nodes_of (e :: es) = nodes_of [e] ++ nodes_of es.
  Proof. unfold nodes_of. cbn [flat_map]. rewrite app_nil_r. reflexivity. Qed.

  Lemma order_cons e es : in_order es -> nodes_of [e] = [] \/ strings_of es = [] -> in_order (e :: es).
  Proof.
    intros (a & b & -> & Ha & Hb) [Hn|Hs].
    - exists (e :: a), b. split; [reflexivity|]. split; [|exact Hb]. rewrite nodes_cons, Hn. exact Ha.
    - destruct (list_eq_dec (fun a b : str * str => ltac:(repeat decide equality)) (strings_of [e]) []) as [He|He].
      + exists [], (e :: a ++ b). split; [reflexivity|]. split; [reflexivity|]. rewrite strings_cons, He. exact Hs.
      + exists (e :: a), b. split; [reflexivity|]. split; [|exact Hb]. destruct e; cbn in He |- *; try (contradiction He; reflexivity). exact Ha.
  Qed.

  Lemma mark_entries s n text : entries_mean E ss s n text -> exists L B, forall ss' u, fits ss ss' u L B ->
    exists es, entries_text E lit (defined ss') es text /\ strings_of es = s /\ Forall2 (as_meant u) (nodes_of es) n /\ in_order es.
  Proof.
    induction 1 as [w Hw|w s n t Hw He|w s n t s' n' rest Hw He Hes IH Ho].
    - exists [], []. intros ss' u _. exists []. split; [apply entries_none; exact Hw|]. split; [reflexivity|]. split; [constructor|].
      exists [], []. auto.
    - destruct (mark_entry _ _ _ He) as (L & B & HL). exists L, B. intros ss' u Hf. destruct (HL ss' u Hf) as (e & He' & Hs & Hn).
      exists [e]. split; [apply entries_last; assumption|]. split; [exact Hs|]. split; [exact Hn|].
      apply order_cons; [exists [], []; auto|right; reflexivity].
    - destruct (mark_entry _ _ _ He) as (L & B & HL). destruct IH as (L2 & B2 & HL2). exists (L ++ L2), (B ++ B2).
      intros ss' u Hf. apply fits_app in Hf. destruct Hf as [Hf1 Hf2].
      destruct (HL ss' u Hf1) as (e & He' & Hs & Hn). destruct (HL2 ss' u Hf2) as (es & Hes' & Hs2 & Hn2 & Ho2).
      exists (e :: es). split; [apply entries_more; assumption|]. rewrite strings_cons, nodes_cons, Hs, Hs2.
      split; [reflexivity|]. split; [apply Forall2_app; assumption|].
      apply order_cons; [exact Ho2|]. destruct Ho as [->| ->]; [left; destruct (nodes_of [e]); [reflexivity|inversion Hn]|right; exact Hs2].
  Qed.
End Marked.

(** ** Sizes *)

Lemma literal_long E v t : literal E v t -> 1 <= length t.
Proof. intros ((t' & ->) & _). cbn [length]. lia. Qed.

Lemma ids_short E def :
  (forall r t, mrule (literal E) def r t -> length (rule_ids r) <= length t) /\
  (forall rs t, margs (literal E) def rs t -> length (flat_map rule_ids rs) <= length t).
Proof.
  assert (Ht : forall b v t, mtext (literal E) def b v t -> 1 <= length t).
  { intros b v t [v' t' H _|v' n _ _]; [eapply literal_long; exact H|cbn; lia]. }
  apply mrule_mutind; intros;
    repeat match goal with X : mtext _ _ _ _ _ |- _ => apply Ht in X end;
    cbn [rule_ids own_id flat_map]; rewrite ?app_nil_r, ?app_length in *; cbn [length s2l] in *;
    try (cbn [s2l length List.map list_ascii_of_string] in *; lia).
  destruct H as [[Hn _] _]. destruct name; [contradiction Hn; reflexivity|cbn [length]; lia].
Qed.

Lemma nodes_written E def es text : entries_text E (literal E) def es text ->
  Forall (fun n => exists t, mrule (literal E) def (snd n) t /\ length t <= length text) (nodes_of es).
Proof.
  assert (He : forall e t, entry_text E (literal E) def e t ->
    Forall (fun n => exists t', mrule (literal E) def (snd n) t' /\ length t' <= length t) (nodes_of [e])).
  { intros e t [n v t' w1 w2 Hn Hq Hw1 Hw2|x num n r w1 w2 w3 t' w4 Hx Hn Hm Hw1 Hn1 Hw2 Hn2 Hw3 Hw4|b w Hb Hw|c Hc]; cbn [nodes_of flat_map app]; try constructor; [|constructor].
    exists t'. split; [exact Hm|]. rewrite !app_length. lia. }
  induction 1 as [w Hw|w e t Hw Ht|w e t es rest Hw Ht Hes IH]; [constructor| |].
  - eapply Forall_impl; [|exact (He _ _ Ht)]. intros n (t' & Hm & Hl). exists t'. split; [exact Hm|]. rewrite app_length. lia.
  - rewrite nodes_cons. apply Forall_app. split.
    + eapply Forall_impl; [|exact (He _ _ Ht)]. intros n (t' & Hm & Hl). exists t'. split; [exact Hm|]. rewrite !app_length. lia.
    + eapply Forall_impl; [|exact IH]. intros n (t' & Hm & Hl). exists t'. split; [exact Hm|]. rewrite !app_length. cbn [length]. lia.
Qed.

(** ** Reading *)

Section Reading.
  Variable E : ext.
  Hypothesis HE : ext_ok E.
  Hypothesis HW : whole_readers E.

  Notation lit := (literal E).

  Lemma marked_data ss es text : entries_text E lit (defined ss) es text -> in_order es ->
    exists data sds nds, accepts E bootstrap_rules indent_default text data /\ data = concat sds ++ concat nds /\
      Forall2 wstring sds (strings_of es) /\
      Forall2 (fun d n => unode ss d (fst (fst n)) (numbered n)) nds (nodes_of es).
  Proof.
    intros He Ho. destruct (entries_items E HE lit (fun v t X => X) (no_slash E HW) ss es text He) as (its & Hits & Hi).
    assert (Ho' := Ho). rewrite <- Hits in Ho'. apply order_split in Ho'. destruct Ho' as (i1 & i2 & -> & H1 & H2).
    destruct (items_read E ss text i1 i2 H1 H2 Hi) as (data & tr & sds & nds & R & _ & Hd & Hs & Hn).
    exists data, sds, nds. split; [apply boot_accepts; eauto|]. split; [exact Hd|].
    assert (Hst : strings_of es = istrings i1).
    { change (istrings i1) with ([] ++ istrings i1) || idtac. rewrite <- Hits. fold (istrings (i1 ++ i2)). rewrite istrings_app, H2, app_nil_r. reflexivity. }
    assert (Hnd : nodes_of es = inodes i2).
    { rewrite <- Hits. fold (inodes (i1 ++ i2)). rewrite inodes_app, H1. reflexivity. }
    rewrite Hst, Hnd. auto.
  Qed.

  Lemma number_written ss r t n x : mrule lit (defined ss) r t ->
    own_id (numbered (n, x, r)) = (f64_as_usize x * 1000 + N.of_nat (length (rule_ids r)))%N.
  Proof.
    intros Hm. destruct (read_rule E HE lit (fun v t X => X) ss r t Hm) as (m & Hrd).
    destruct (Hrd 0 [] I) as (out & _ & Hw & _). specialize (Hw (f64_as_usize x * 1000)%N). apply (proj1 (once_write ss)) in Hw.
    destruct (proj1 (wids ss) _ _ _ _ Hw) as [Hown _]. destruct (proj1 (wexact ss) _ _ _ _ Hw) as [Hhi _].
    rewrite (like_ids_length _ _ (like_number r (f64_as_usize x * 1000)%N)) in Hhi. cbn [numbered]. rewrite Hown. exact Hhi.
  Qed.

  Lemma nodes_small ss es text : entries_text E lit (defined ss) es text ->
    Forall (fun n => within text (snd (fst n))) (nodes_of es) ->
    Forall (fun n => (own_id (numbered n) <= usize_max)%N) (nodes_of es).
  Proof.
    intros He Hs. apply nodes_written in He. rewrite Forall_forall in *. intros n Hn.
    destruct (He n Hn) as (t & Hm & Hl). specialize (Hs n Hn). destruct n as [[n x] r]. cbn [fst snd] in *.
    rewrite (number_written _ _ _ n x Hm). pose proof (proj1 (ids_short E (defined ss)) _ _ Hm). unfold within in Hs. lia.
  Qed.

  Lemma data_then_read text data result ig : accepts E bootstrap_rules indent_default text data -> Forall real_char text ->
    convert_returns data [] result ig ->
    rules_read E text (match result with Some s => inl s | None => inr conversion_error end).
  Proof.
    intros Hacc Hreal Hc.
    assert (Hp : parse_returns E bootstrap_rules text [] indent_default None data).
    { apply parse_accepts; [exact HE|]. exists data. auto. }
    destruct (bootstrap_optimized E HE) as (bo & Hbo & Hsame).
    apply (proj1 (Hsame text [] indent_default Hreal)) in Hp.
    destruct Hbo as (f1 & Hf1), Hp as (f2 & Hf2), Hc as (f3 & Hf3).
    exists (f1 + f2 + f3). unfold syntax_unoptimized.
    assert (G1 : optimize (f1 + f2 + f3) bootstrap_rules = Done bo).
    { destruct (optimize_mono f1 (f1 + f2 + f3) bootstrap_rules ltac:(lia)) as [H|H]; congruence. }
    assert (G2 : parse E (f1 + f2 + f3) bo text [] = Done (None, data)).
    { unfold parse. destruct (parse_with_indent_mono E f2 (f1 + f2 + f3) bo text [] indent_default ltac:(lia)) as [H|H]; congruence. }
    assert (G3 : convert (f1 + f2 + f3) data [] = Done (result, ig)).
    { destruct (convert_mono f3 (f1 + f2 + f3) data [] ltac:(lia)) as [H|H]; congruence. }
    rewrite G1. cbn [obind]. rewrite G2. cbn [obind]. rewrite G3. cbn [obind]. destruct result; reflexivity.
  Qed.

  Lemma error_then_syntax text e : rules_read E text (inr e) -> syntax_returns E text (inr e).
  Proof. intros (f & Hf). exists f. unfold lib_syntax. rewrite Hf. reflexivity. Qed.

  (** The texts in the data. *)
  Definition values (d : list tok) : list str := flat_map (fun t : tok => match snd t with MString _ v => [v] | _ => [] end) d.

  Lemma values_clean u d : ~ In u (values d) -> clean u d.
  Proof.
    intros H. apply Forall_forall. intros [r m] Hin Heq. cbn [snd] in Heq. subst m. apply H.
    unfold values. apply in_flat_map. exists (r, MString (s2l "value") u). split; [exact Hin|left; reflexivity].
  Qed.

  (** One marker for both, which is not in the data. *)
  Lemma marked_both s1 n1 s2 n2 text : means E s1 n1 text -> means E s2 n2 text ->
    exists data u L, accepts E bootstrap_rules indent_default text data /\ ~ In u (values data) /\
      ~ In u (map snd s1) /\ ~ In u (map snd s2) /\
      (exists es, entries_text E lit (defined (marked s1 u L)) es text /\ strings_of es = s1 /\
         Forall2 (as_meant u) (nodes_of es) n1 /\ in_order es) /\
      (exists es, entries_text E lit (defined (marked s2 u L)) es text /\ strings_of es = s2 /\
         Forall2 (as_meant u) (nodes_of es) n2 /\ in_order es).
  Proof.
    intros H1 H2. destruct (mark_entries _ _ _ _ _ H1) as (L1 & B1 & HL1). destruct (mark_entries _ _ _ _ _ H2) as (L2 & B2 & HL2).
    assert (Hfit : forall u, ~ In u (B1 ++ B2 ++ map snd s1 ++ map snd s2) ->
      fits s1 (marked s1 u (L1 ++ L2)) u L1 B1 /\ fits s2 (marked s2 u (L1 ++ L2)) u L2 B2).
    { intros u Hu. rewrite !in_app_iff in Hu.
      assert (F1 : fits s1 (marked s1 u (L1 ++ L2)) u (L1 ++ L2) (B1 ++ B2)) by (apply marked_fits; rewrite ?in_app_iff; tauto).
      assert (F2 : fits s2 (marked s2 u (L1 ++ L2)) u (L1 ++ L2) (B1 ++ B2)) by (apply marked_fits; rewrite ?in_app_iff; tauto).
      apply fits_app in F1. apply fits_app in F2. tauto. }
    destruct (fresh_text (B1 ++ B2 ++ map snd s1 ++ map snd s2)) as (u0 & Hu0).
    destruct (HL1 _ u0 (proj1 (Hfit u0 Hu0))) as (es & He & _ & _ & Ho).
    destruct (marked_data _ _ _ He Ho) as (data & _ & _ & Hacc & _). clear es He Ho u0 Hu0.
    destruct (fresh_text ((B1 ++ B2 ++ map snd s1 ++ map snd s2) ++ values data)) as (u & Hu). rewrite in_app_iff in Hu.
    destruct (Hfit u ltac:(tauto)) as [F1 F2]. exists data, u, (L1 ++ L2). split; [exact Hacc|]. split; [tauto|].
    split; [exact (fits_strings _ _ _ _ _ F1)|]. split; [exact (fits_strings _ _ _ _ _ F2)|].
    split; [exact (HL1 _ u F1)|exact (HL2 _ u F2)].
  Qed.

  Lemma meant_map {A} (f : str * f64 -> A) u l n : Forall2 (as_meant u) l n -> map (fun x => f (fst x)) l = map (fun x => f (fst x)) n.
  Proof. induction 1 as [|a b l n [H _] _ IH]; cbn [map]; [reflexivity|]. rewrite H, IH. reflexivity. Qed.

  Lemma meant_prune u l n : Forall2 (as_meant u) l n -> Forall2 like_meaning (map snd n) (map (fun x => prune u (numbered x)) l).
  Proof.
    induction 1 as [|[[a x] r] b l n [_ H] _ IH]; cbn [map]; constructor; [|exact IH]. cbn [snd] in H. rewrite <- H.
    apply prune_like. apply like_number.
  Qed.

  Lemma clean_rest u a b : clean u (a ++ b) -> clean u b.
  Proof. intros H. apply clean_app in H. exact (proj2 H). Qed.

  Theorem meaning_read strings nodes text : means E strings nodes text -> Forall real_char text ->
    Forall (fun n => within text (snd (fst n))) nodes ->
    let names := map (fun n => fst (fst n)) nodes in
    (forall rules, map snd nodes = map Some rules -> exists s, rules_read E text (inl s) /\ s_names s = names /\
       Forall2 (fun r r' => exists r1, like_rule any_ids r r1 /\ resolved names r1 r') rules (s_rules s) /\
       forall s', optimize_returns s s' -> syntax_returns E text (inl s')) /\
    (In None (map snd nodes) -> rules_read E text (inr conversion_error) /\ syntax_returns E text (inr conversion_error)).
  Proof.
    intros Hm Hreal Hsmall names.
    destruct (marked_both _ _ _ _ _ Hm Hm) as (data & u & L & Hacc & Hfresh & Hus & _ & (es & He & Hs & Hn & Ho) & _).
    destruct (marked_data _ _ _ He Ho) as (data' & sds & nds & Hacc' & Hd & Hsds & Hnds).
    rewrite (accepts_unique _ _ _ _ _ _ Hacc' Hacc) in Hd.
    assert (Hsm : Forall (fun n => (own_id (numbered n) <= usize_max)%N) (nodes_of es)).
    { apply (nodes_small _ _ _ He). clear -Hn Hsmall. induction Hn as [|a b l n [H _] _ IH]; inversion Hsmall; subst; constructor; auto.
      rewrite H. assumption. }
    set (pairs := map (fun n : str * f64 * rule => (fst (fst n), numbered n)) (nodes_of es)).
    assert (Hnames : map fst pairs = names).
    { unfold pairs, names. rewrite map_map. cbn [fst]. exact (meant_map fst _ _ _ Hn). }
    assert (Hrules : Forall2 like_meaning (map snd nodes) (map (fun nr : str * rule => prune u (snd nr)) pairs)).
    { unfold pairs. rewrite map_map. cbn [snd]. exact (meant_prune _ _ _ Hn). }
    rewrite Hs in Hsds.
    destruct (convert_lost u strings (marked strings u L) (fun n v => marked_find strings u L n v Hus) sds nds pairs [] Hsds) as (ig & Hconv).
    { unfold pairs. clear -Hnds. induction Hnds; cbn [map]; constructor; auto. }
    { apply (clean_rest u (concat sds)). rewrite <- Hd. apply values_clean. exact Hfresh. }
    { unfold pairs. apply Forall_map. exact Hsm. }
    rewrite <- Hd in Hconv. rewrite Hnames in Hconv. split.
    - intros rules Hr. destruct Hconv as [(ps & s & Hps & Hc & Hsn & Hsr)|(Hin & _)].
      + exists s. assert (Hread := data_then_read _ _ _ _ Hacc Hreal Hc). cbn in Hread. split; [exact Hread|]. split; [exact Hsn|].
        split; [|intros s' Hs'; apply (proj1 (rules_then_syntax E text _ Hread)); exact Hs'].
        rewrite Hr, Hps in Hrules. clear -Hrules Hsr. revert rules Hrules.
        induction Hsr as [|p r ps rs (r1 & H1 & H2) _ IH]; intros rules Hrules; (destruct rules as [|q rules]; [|]);
          cbn [map] in Hrules; inversion Hrules; subst; constructor.
        * exists r1. split; [eapply like_trans; [|exact H1]; assumption|exact H2].
        * apply IH. assumption.
      + exfalso. rewrite Hr in Hrules. clear -Hrules Hin. revert Hrules. generalize dependent (map (fun nr : str * rule => prune u (snd nr)) pairs).
        intros l Hin Hl. revert rules Hl. induction l as [|o l IH]; intros rules Hl; [destruct Hin|].
        destruct rules; cbn [map] in Hl; inversion Hl; subst. destruct Hin as [->|Hin]; [contradiction|eapply IH; eassumption].
    - intros Hin. destruct Hconv as [(ps & s & Hps & _)|(_ & Hc)].
      + exfalso. rewrite Hps in Hrules. clear -Hrules Hin. revert ps Hrules. induction (map snd nodes) as [|o l IH]; intros ps Hl; [destruct Hin|].
        destruct ps; cbn [map] in Hl; inversion Hl; subst. destruct Hin as [->|Hin]; [contradiction|eapply IH; eassumption].
      + assert (Hread := data_then_read _ _ _ _ Hacc Hreal Hc). cbn in Hread. split; [exact Hread|apply error_then_syntax; exact Hread].
  Qed.

  (** ** One meaning *)

  Lemma pairs_loop ss nds (nodes : list (str * f64 * rule)) : Forall2 (fun d n => unode ss d (fst (fst n)) (numbered n)) nds nodes ->
    Forall (fun n => (own_id (numbered n) <= usize_max)%N) nodes ->
    forall fuel o, length (concat nds) < fuel -> nodes_loop fuel ss (Cv (concat nds) o) (Syn [] []) [] =
      Done (Some (Syn (map numbered nodes) (map (fun n => fst (fst n)) nodes)), []).
  Proof.
    intros H Hs fuel o Hl.
    rewrite (nodes_loop_back ss nds (map (fun n => fst (fst n)) nodes) (map numbered nodes)); auto.
    - rewrite !map_length. reflexivity.
    - clear -H. induction H; cbn [map combine]; constructor; [apply once_node; cbn [fst snd]; assumption|assumption].
    - apply Forall_map. exact Hs.
  Qed.

  Lemma no_string_start ss nds nodes : Forall2 (fun d n => unode ss d (fst (fst n)) (numbered n)) nds nodes ->
    forall o, c_start_node (Cv (concat nds) o) (s2l "string") = None.
  Proof.
    intros H o. destruct H as [|d nr nds' l Hd Hds]; [reflexivity|].
    inversion Hd as [d' fs before inner name r hi k H1 H2 H3 H4 (a & b & Hab)]. subst. reflexivity.
  Qed.

  Theorem one_meaning s1 n1 s2 n2 text : means E s1 n1 text -> means E s2 n2 text ->
    Forall (fun n => within text (snd (fst n))) n1 -> Forall (fun n => within text (snd (fst n))) n2 ->
    s1 = s2 /\ map (fun n => fst (fst n)) n1 = map (fun n => fst (fst n)) n2 /\ Forall2 like_meaning (map snd n1) (map snd n2).
  Proof.
    intros Hm1 Hm2 Hsm1 Hsm2.
    destruct (marked_both _ _ _ _ _ Hm1 Hm2) as (data & u & L & Hacc & _ & Hu1 & Hu2 & (es1 & He1 & Hs1 & Hn1 & Ho1) & (es2 & He2 & Hs2 & Hn2 & Ho2)).
    destruct (marked_data _ _ _ He1 Ho1) as (data1 & sds1 & nds1 & Hacc1 & Hd1 & Hsds1 & Hnds1).
    destruct (marked_data _ _ _ He2 Ho2) as (data2 & sds2 & nds2 & Hacc2 & Hd2 & Hsds2 & Hnds2).
    rewrite (accepts_unique _ _ _ _ _ _ Hacc1 Hacc) in Hd1. rewrite (accepts_unique _ _ _ _ _ _ Hacc2 Hacc) in Hd2.
    assert (G1 : Forall (fun n => (own_id (numbered n) <= usize_max)%N) (nodes_of es1)).
    { apply (nodes_small _ _ _ He1). clear -Hn1 Hsm1. induction Hn1 as [|a b l n [H _] _ IH]; inversion Hsm1; subst; constructor; auto.
      rewrite H. assumption. }
    assert (G2 : Forall (fun n => (own_id (numbered n) <= usize_max)%N) (nodes_of es2)).
    { apply (nodes_small _ _ _ He2). clear -Hn2 Hsm2. induction Hn2 as [|a b l n [H _] _ IH]; inversion Hsm2; subst; constructor; auto.
      rewrite H. assumption. }
    assert (S1 := strings_loop_back (concat nds1) sds1 _ Hsds1 (no_string_start _ _ _ Hnds1) (S (length data)) 0 []).
    assert (S2 := strings_loop_back (concat nds2) sds2 _ Hsds2 (no_string_start _ _ _ Hnds2) (S (length data)) 0 []).
    rewrite <- Hd1 in S1. rewrite <- Hd2 in S2.
    rewrite S1 in S2 by (rewrite Hd1, app_length; lia).
    specialize (S2 ltac:(rewrite Hd2, app_length; lia)). cbn [app] in S2. injection S2 as Hrest _ Hss. rewrite Hs1, Hs2 in Hss. subst s2.
    rewrite Hss in *. clear S1.
    assert (P1 := pairs_loop _ _ _ Hnds1 G1 (S (length data)) 0 ltac:(rewrite Hd1, app_length; lia)).
    assert (P2 := pairs_loop _ _ _ Hnds2 G2 (S (length data)) 0 ltac:(rewrite Hd2, app_length; lia)).
    rewrite Hrest, P2 in P1. injection P1 as Hr Hnm.
    split; [reflexivity|]. split.
    - rewrite <- (meant_map fst _ _ _ Hn1), <- (meant_map fst _ _ _ Hn2). symmetry. exact Hnm.
    - apply meant_prune in Hn1. apply meant_prune in Hn2.
      rewrite <- (map_map numbered (prune u)) in Hn1. rewrite <- (map_map numbered (prune u)) in Hn2. rewrite <- Hr in Hn1.
      revert Hn1 Hn2. generalize (map (prune u) (map numbered (nodes_of es2))). generalize (map snd n1) (map snd n2). clear.
      intros a b l H1. revert b. induction H1 as [|x y a l Hx _ IH]; intros b H2; inversion H2; subst; constructor.
      + eapply meaning_trans; [exact Hx|]. apply meaning_sym. assumption.
      + apply IH. assumption.
  Qed.

  (** ** Every accepted text has a meaning *)

  Section Total.
    Variable ss : list (str * str).

    Lemma some_text b v t : mtext lit any_string b v t -> exists o, text_means E ss b o t.
    Proof.
      intros [v' t' H1 H2|v' n H _]; [exists (Some v'); apply means_quoted; assumption|].
      destruct (stands_somehow ss n) as (o & Ho). exists o. apply means_name; assumption.
    Qed.

    Lemma some_prop p t : mprop lit any_string p t -> exists o, prop_means E ss o t.
    Proof.
      intros [|v t' H]; [exists None; apply means_no_prop|]. destruct (some_text _ _ _ H) as (o & Ho). exists o. apply means_prop, Ho.
    Qed.

    Local Ltac none := let r := fresh in let H := fresh in intros r H;
      first [discriminate H | match type of H with option_map _ ?o = _ => destruct o end; cbn in H; [|discriminate H]; injection H as <-; tauto
            | injection H as <-; tauto].

    Lemma some_rule :
      (forall r t, mrule lit any_string r t -> exists o, rule_means E ss o t /\ forall r', o = Some r' -> positive_tag r' -> positive_tag r) /\
      (forall rs t, margs lit any_string rs t -> exists l, rules_mean E ss l t).
    Proof.
      apply mrule_mutind; intros;
        repeat match goal with
        | X : mtext _ _ _ _ _ |- _ => apply some_text in X; destruct X as (?o & X)
        | X : mprop _ _ _ _ |- _ => apply some_prop in X; destruct X as (?o & X)
        | X : exists o, _ |- _ => destruct X as (?o & X)
        end; repeat match goal with X : _ /\ _ |- _ => destruct X end.
      - eexists. split; [apply (means_whitespace _ _ b 0%N)|intros r' [= <-] []].
      - eexists. split; [eapply (means_until_ws _ _ _ o _ 0%N); eassumption|none].
      - eexists. split; [eapply (means_until _ _ _ o _ 0%N); eassumption|none].
      - eexists. split; [eapply (means_lines _ _ _ i 0%N); eassumption|none].
      - eexists. split; [eapply (means_repeat _ _ _ o 0%N); eassumption|none].
      - eexists. split; [eapply (means_number _ _ u _ 0%N); eassumption|intros r' [= <-] []].
      - eexists. split; [eapply (means_text _ _ b _ 0%N); eassumption|intros r' [= <-] []].
      - eexists. split; [eapply (means_reference _ _ name _ 0%N); eassumption|intros r' [= <-] []].
      - eexists. split; [eapply (means_sequence _ _ _ 0%N); eassumption|intros r' [= <-] []].
      - eexists. split; [eapply (means_select _ _ _ 0%N); eassumption|intros r' [= <-] []].
      - eexists. split; [eapply (means_separate_by _ _ _ _ o dot 0%N); eassumption|].
        repeat match goal with |- context [match ?o with Some _ => _ | None => _ end] => destruct o end; none.
      - eexists. split; [eapply (means_tag _ _ _ n 0%N); eassumption|]. destruct n; none.
      - eexists. split; [eapply (means_tag_prop _ _ _ n i _ 0%N); eassumption|]. destruct n; none.
      - eexists. split; [eapply (means_optional _ _ _ 0%N); eassumption|none].
      - eexists. split; [eapply (means_not _ _ _ 0%N); [eassumption|intros r' Hr' Hp; eauto]|none].
      - eexists. eapply means_last; eassumption.
      - eexists. eapply means_more; eassumption.
    Qed.

    Lemma some_entry e t : entry_text E lit any_string e t ->
      exists n, entry_means E ss (strings_of [e]) n t /\ (nodes_of [e] = [] -> n = []).
    Proof.
      intros H. inversion H as [n v t' w1 w2 Hn Hq Hw1 Hw2|x num n r w1 w2 w3 t' w4 Hx Hn Hm Hw1 Hn1 Hw2 Hn2 Hw3 Hw4|b w Hb Hw|c Hc]; subst;
        cbn [strings_of nodes_of flat_map app].
      - exists []. split; [apply means_string; assumption|reflexivity].
      - destruct (proj1 some_rule _ _ Hm) as (o & Ho & _). exists [(n, x, o)]. split; [apply means_node; assumption|discriminate].
      - exists []. split; [apply means_comment; exact H|reflexivity].
      - exists []. split; [apply means_comment; exact H|reflexivity].
    Qed.

    Lemma order_tail e es : in_order (e :: es) -> in_order es /\ (nodes_of [e] = [] \/ strings_of es = []).
    Proof.
      intros (a & b & He & Ha & Hb). destruct a as [|e' a]; cbn [app] in He.
      - subst b. rewrite strings_cons in Hb. apply app_eq_nil in Hb. split; [exists [], es; tauto|right; tauto].
      - injection He as <- ->. rewrite nodes_cons in Ha. apply app_eq_nil in Ha. split; [exists a, b; tauto|left; tauto].
    Qed.

    Lemma some_entries es text : entries_text E lit any_string es text -> in_order es ->
      exists n, entries_mean E ss (strings_of es) n text.
    Proof.
      induction 1 as [w Hw|w e t Hw He|w e t es rest Hw He Hes IH]; intros Ho.
      - exists []. apply means_none. exact Hw.
      - destruct (some_entry _ _ He) as (n & Hn & _). exists n. apply means_last_entry; assumption.
      - apply order_tail in Ho. destruct Ho as [Ho Hor]. destruct (some_entry _ _ He) as (n & Hn & Hz). destruct (IH Ho) as (n' & Hn').
        exists (n ++ n'). rewrite strings_cons. apply means_more_entries; try assumption. destruct Hor; auto.
    Qed.
  End Total.

  Theorem meaning_accepted text : Forall real_char text -> no_short_comment text ->
    (accepted E text <-> exists strings nodes, means E strings nodes text).
  Proof.
    intros Hr Hn. split.
    - intros Ha. apply (accepted_form E HE HW text Hr Hn) in Ha. destruct Ha as (es & He & Ho).
      destruct (some_entries (strings_of es) es text He Ho) as (n & H). exists (strings_of es), n. exact H.
    - intros (s & n & H). destruct (marked_both _ _ _ _ _ H H) as (data & _ & _ & Hacc & _). exists data. apply text_data_accepts; assumption.
  Qed.
End Reading.
