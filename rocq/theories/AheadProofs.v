(** C95: an error cannot be repaired behind it. *)
From Coq Require Import Ascii String List NArith Bool Arith Lia.
From Verif Require Import Base Ext Types ParseModel PegSpec DataSpec ApiSpec RuleSpec AheadSpec
  PrimProofs PegProofs PegFacts OccursProofs ParseProofs ParsePublic LawProofs PegComplete ExtProofs Examples.
Import ListNotations.
Local Open Scope string_scope.
Local Open Scope list_scope.
Local Open Scope nat_scope.

(** ** Texts with the same beginning *)

Lemma firstn_less {A} (a b : nat) (s t : list A) : firstn b s = firstn b t -> a <= b -> firstn a s = firstn a t.
Proof. intros H Hab. rewrite <- (Nat.min_l a b Hab), <- !firstn_firstn, H. reflexivity. Qed.

Lemma firstn_skipn_less {A} (p a b : nat) (s t : list A) : firstn b s = firstn b t -> p + a <= b ->
  firstn a (skipn p s) = firstn a (skipn p t).
Proof.
  intros H Hp. rewrite !firstn_skipn_comm. f_equal. eapply firstn_less; [exact H|exact Hp].
Qed.

Lemma starts_agree a (s t : str) x : firstn a t = firstn a s -> length x <= a -> starts_with s x -> starts_with t x.
Proof.
  intros H Hx (u & ->). exists (skipn (length x) t). rewrite <- (firstn_skipn (length x) t) at 1. f_equal.
  rewrite (firstn_less (length x) a t (x ++ u) H Hx). rewrite firstn_app, Nat.sub_diag, firstn_all. cbn. apply app_nil_r.
Qed.

Lemma longest_agree P : forall n (s t : str), firstn (n + 1) t = firstn (n + 1) s -> longest P s n -> longest P t n.
Proof.
  induction n as [|n IH]; intros s t H Hl.
  - destruct s as [|c s], t as [|c' t]; cbn in H; try discriminate.
    + exact Hl.
    + injection H as ->. apply longest_0. apply longest_0 in Hl. exact Hl.
  - destruct s as [|c s]; [apply longest_nil in Hl; discriminate|]. destruct t as [|c' t]; [discriminate|]. cbn in H. injection H as -> H.
    apply longest_S in Hl as [Hc Hl]. apply longest_S. split; [exact Hc|]. eapply IH; eassumption.
Qed.

Lemma nth_agree {A} : forall i a (s t : list A), firstn a t = firstn a s -> i < a -> nth_error t i = nth_error s i.
Proof.
  induction i as [|i IH]; intros a s t H Hi; (destruct a as [|a]; [lia|]); destruct s as [|c s], t as [|c' t]; cbn in H; try discriminate; try reflexivity.
  - injection H as -> _. reflexivity.
  - injection H as -> H. cbn. eapply IH; [exact H|lia].
Qed.

Lemma nth_error_skipn_add {A} : forall p i (s : list A), nth_error (skipn p s) i = nth_error s (p + i).
Proof. induction p as [|p IH]; intros i s; [reflexivity|]. destruct s as [|c s]; [destruct i; reflexivity|]. apply IH. Qed.

Lemma nth_error_firstn_lt {A} : forall i a (s : list A), i < a -> nth_error (firstn a s) i = nth_error s i.
Proof. induction i as [|i IH]; intros [|a] [|c s] H; try lia; try reflexivity. cbn. apply IH. lia. Qed.

(** ** Rules that look at few characters *)

Scheme looks_ind' := Minimality for looks Sort Prop
with looks_all_ind' := Minimality for looks_all Sort Prop.
Combined Scheme looks_mutind from looks_ind', looks_all_ind'.

Section Looks.
  Variable E : ext.
  Variable refs : list rule.

  Definition short (k : nat) (v : verdict) : Prop := match v with Yes n _ => n <= k | No => True end.

  Lemma looks_local :
    (forall r k, looks refs r k -> forall ind p s v ind' tr, reads E refs r ind p s v ind' tr ->
      short k v /\ forall t, firstn k t = firstn k s -> reads E refs r ind p t v ind' tr) /\
    (forall args k, looks_all refs args k -> forall ind p s v ind' tr, reads_seq E refs args ind p s v ind' tr ->
      short k v /\ forall t, firstn k t = firstn k s -> reads_seq E refs args ind p t v ind' tr).
  Proof.
    apply looks_mutind; intros.
    - inversion H0; subst; (split; [cbn [short]; lia|]); intros u Hu.
      + constructor. eapply starts_agree; eassumption.
      + constructor. intros Hs. match goal with HH : ~ _ |- _ => apply HH end. eapply starts_agree; [symmetry; exact Hu|assumption|exact Hs].
      + constructor. intros Hs. match goal with HH : ~ _ |- _ => apply HH end. eapply starts_agree; [symmetry; exact Hu|assumption|exact Hs].
      + constructor. eapply starts_agree; eassumption.
    - inversion H1; subst. edestruct H0 as [Ha Hb]; [eassumption|]. split; [exact Ha|]. intros t Ht. constructor. auto.
    - inversion H1; subst.
      + match goal with HH : reads_first _ _ _ _ _ _ _ _ _ |- _ => rename HH into Hf end.
        assert (Hx : short k v /\ forall t, firstn k t = firstn k s -> reads_first E refs args ind p t v ind' tr).
        { repeat (match goal with HH : args <> [] |- _ => clear HH end). clear H H1. induction Hf.
          - split; [exact I|]. intros t Ht. constructor.
          - destruct (H0 r (or_introl eq_refl) _ _ _ _ _ _ H) as [Ha Hb]. split; [exact Ha|]. intros t Ht. constructor. auto.
          - destruct (H0 r (or_introl eq_refl) _ _ _ _ _ _ H) as [_ Hb]. destruct IHHf as [Ha Hc]; [intros; eapply H0; [right; eassumption|eassumption]|].
            split; [exact Ha|]. intros t Ht. eapply reads_first_next; eauto. }
        destruct Hx as [Ha Hb]. split; [exact Ha|]. intros t Ht. constructor; auto.
      + split; [exact I|]. intros t Ht. apply reads_select_empty.
    - inversion H1; subst; (edestruct H0 as [Ha Hb]; [eassumption|]); (split; [first [exact Ha|cbn; lia]|]); intros t Ht;
        [apply reads_optional|eapply reads_optional_none]; auto.
    - inversion H1; subst; (edestruct H0 as [Ha Hb]; [eassumption|]); (split; [first [exact I|cbn; lia]|]); intros t Ht.
      + eapply reads_not; eauto.
      + cbn [short] in Ha. rewrite <- (firstn_less n k t s Ht Ha). eapply reads_not_no; eauto.
    - inversion H2; subst; match goal with HA : nth_error refs i = Some r, HB : nth_error refs i = Some ?r2 |- _ => rewrite HA in HB; injection HB as <- end;
        (edestruct H1 as [Ha Hb]; [eassumption|]); (split; [exact Ha|]); intros t Ht; [eapply reads_node|eapply reads_node_no]; eauto.
    - inversion H; subst. split; [cbn; lia|]. intros t Ht. constructor.
    - inversion H3; subst.
      + edestruct H0 as [Ha Hb]; [eassumption|]. split; [exact I|]. intros t Ht. apply reads_seq_no. apply Hb. eapply firstn_less; [exact Ht|lia].
      + edestruct H0 as [Ha Hb]; [eassumption|]. edestruct H2 as [Hc Hd]; [eassumption|]. cbn [short] in Ha. split.
        * destruct v0; cbn in *; [lia|exact I].
        * intros t Ht. eapply reads_seq_cons; [apply Hb; eapply firstn_less; [exact Ht|lia]|]. apply Hd.
          eapply firstn_skipn_less; [exact Ht|lia].
  Qed.

  (** A rule that fails gives an error. *)
  Lemma some_error :
    (forall r ind p s v ind' tr, reads E refs r ind p s v ind' tr -> v = No -> tr <> []) /\
    (forall args ind p s v ind' tr, reads_seq E refs args ind p s v ind' tr -> v = No -> tr <> []) /\
    (forall args ind p s v ind' tr, reads_first E refs args ind p s v ind' tr -> v = No -> args <> [] -> tr <> []) /\
    (forall r ind p s k n out ind' tr, reads_many E refs r ind p s k n out ind' tr -> True) /\
    (forall r by_ trail ind p s v ind' tr, reads_more E refs r by_ trail ind p s v ind' tr -> v = No -> tr <> []) /\
    (forall r indented id fresh nl ind p s v ind' tr, reads_lines E refs r indented id fresh nl ind p s v ind' tr -> v = No -> tr <> []) /\
    (forall r indented fresh ind p s v fresh' ind' tr, reads_line E refs r indented fresh ind p s v fresh' ind' tr -> True).
  Proof.
    assert (Ha : forall (a b : list perr), a <> [] -> a ++ b <> []) by (intros [|x a] b Hx Hy; [contradiction|discriminate]).
    assert (Hb : forall (a b : list perr), b <> [] -> a ++ b <> []) by (intros [|x a] b Hx Hy; [contradiction|discriminate]).
    assert (Hv : forall n out v, after n out v = No -> v = No) by (intros n out [m o|]; [discriminate|reflexivity]).
    apply reads_mutind; intros; try exact I; try discriminate; auto; try (repeat (match goal with HH : after _ _ _ = No |- _ => apply Hv in HH end); auto; fail).
  Qed.
End Looks.

Section Ahead.
  Variable E : ext.
  Hypothesis HE : ext_ok E.
  Variable syn : syntax.
  Notation refs := (s_rules syn).
  Variables (k q : nat) (T T' : str).
  Hypothesis Hk : looks_ahead E syn k.
  Hypothesis Hsame : same_up_to E syn k q T T'.

  Lemma near p a : p + a <= q + k -> firstn a (skipn p T') = firstn a (skipn p T).
  Proof. intros H. eapply firstn_skipn_less; [apply (su_front _ _ _ _ _ _ Hsame)|exact H]. Qed.

  Definition inside (p : nat) (v : verdict) : Prop := match v with Yes n _ => p + n <= q | No => True end.
  Definition low (tr : list perr) : Prop := Forall (fun e => depth e <= q) tr.

  Lemma fails_inside r ind p s ind' tr : reads E refs r ind p s No ind' tr -> low tr -> p <= q.
  Proof.
    intros H Hl. pose proof (proj1 (some_error E refs) _ _ _ _ _ _ _ H eq_refl) as Hn.
    destruct (reads_fits E HE refs _ _ _ _ _ _ _ H) as [_ Hf]. destruct tr as [|e tr]; [contradiction|].
    inversion Hf; subst. inversion Hl; subst. unfold depth, within, next_offset in *. destruct e as [[o n] e]; cbn in *. lia.
  Qed.

  Lemma white_near r indented id p w : occurs syn (RLines r indented id) -> p <= q -> longest white (skipn p T) w ->
    firstn (w + 1) (skipn p T') = firstn (w + 1) (skipn p T) /\ ~ Forall white (skipn p T) /\ ~ Forall white (skipn p T').
  Proof.
    intros Ho Hp Hl. destruct (su_lines _ _ _ _ _ _ Hsame _ _ _ Ho) as (j & c & Hj & Hn & Hc & Hf).
    assert (Hn' : nth_error (skipn p T) (j - p) = Some c) by (rewrite nth_error_skipn_add; replace (p + (j - p)) with j by lia; exact Hn).
    assert (Hw : w <= j - p).
    { apply longest_firstn in Hl. destruct (le_lt_dec w (j - p)) as [|Hx]; [assumption|exfalso].
      apply Hc. rewrite Forall_forall in Hl. apply Hl. eapply nth_error_In with (n := j - p). rewrite nth_error_firstn_lt; [exact Hn'|exact Hx]. }
    split.
    - eapply firstn_skipn_less; [exact Hf|lia].
    - assert (Hn2 : nth_error (skipn p T') (j - p) = Some c).
      { rewrite nth_error_skipn_add. replace (p + (j - p)) with j by lia. rewrite <- Hn. eapply nth_agree; [exact Hf|lia]. }
      split; intros Hall; rewrite Forall_forall in Hall; apply Hc, Hall; eapply nth_error_In; eassumption.
  Qed.

  Lemma low_app a b : low (a ++ b) <-> low a /\ low b.
  Proof. apply Forall_app. Qed.

  Lemma errors_inside p s v tr : fits p s v tr -> tr <> [] -> low tr -> p <= q.
  Proof.
    intros [_ Hf] Hn Hl. destruct tr as [|e tr]; [contradiction|].
    inversion Hf; subst. inversion Hl; subst. unfold depth, within, next_offset in *. destruct e as [[o n] e]; cbn in *. lia.
  Qed.

  (** ** Lines *)

  Lemma white_max s w m : longest white s w -> Forall white (firstn m s) -> m <= length s -> m <= w.
  Proof.
    intros (Hw & _ & Hn) Hf Hm. destruct (le_lt_dec m w) as [|Hx]; [assumption|exfalso].
    assert (exists c, nth_error s w = Some c) as [c Hc].
    { destruct (nth_error s w) as [c|] eqn:Hc; [eauto|apply nth_error_None in Hc; lia]. }
    rewrite Forall_forall in Hf. apply (Hn c Hc), Hf. eapply nth_error_In with (n := w). rewrite nth_error_firstn_lt; [exact Hc|exact Hx].
  Qed.

  Lemma indentation_near tabs n s i : indentation tabs n s i -> forall w t, longest white s w -> firstn (w + 1) t = firstn (w + 1) s ->
    indentation tabs n t i /\ i <= w.
  Proof.
    assert (Hsp : white space) by reflexivity. assert (Htb : white tab) by reflexivity.
    induction 1; intros w t Hw Ht.
    - split; [constructor|lia].
    - destruct w as [|w]; [apply longest_0 in Hw; contradiction|]. apply longest_S in Hw as [_ Hw].
      destruct t as [|c t]; [discriminate|]. cbn in Ht. injection Ht as -> Ht. destruct (IHindentation w t Hw Ht) as [Ha Hb].
      split; [constructor; assumption|lia].
    - destruct w as [|w]; [apply longest_0 in Hw; contradiction|]. apply longest_S in Hw as [_ Hw].
      destruct t as [|c t]; [discriminate|]. cbn in Ht. injection Ht as -> Ht. destruct (IHindentation w t Hw Ht) as [Ha Hb].
      split; [apply indentation_tab; assumption|lia].
    - destruct w as [|w]; [apply longest_0 in Hw; contradiction|].
      destruct t as [|c t]; [discriminate|]. cbn in Ht. injection Ht as -> Ht. split; [apply indentation_tab_last; assumption|lia].
  Qed.

  Lemma some_white s : exists w, longest white s w.
  Proof.
    induction s as [|c s [w IH]]; [exists 0; apply longest_nil; reflexivity|]. destruct (is_ws c) eqn:Ec.
    - exists (S w). apply longest_S. split; [exact Ec|exact IH].
    - exists 0. apply longest_0. unfold white. congruence.
  Qed.

  Lemma line_start_near r indented id p nl i : occurs syn (RLines r indented id) -> p <= q ->
    line_start nl (skipn p T) i -> line_start nl (skipn p T') i.
  Proof.
    intros Ho Hp H. inversion H; subst.
    - match goal with HH : longest white _ _ |- _ => destruct (white_near _ _ _ _ _ Ho Hp HH) as [Hf _]; pose proof (longest_agree _ _ _ _ Hf HH) as Hw end.
      eapply line_start_break; [exact Hw| |eassumption]. rewrite (firstn_less w (w + 1) _ _ Hf) by lia. eassumption.
    - match goal with HH : same_line _ |- _ => destruct HH as (w & Hw & Hin) end.
      destruct (white_near _ _ _ _ _ Ho Hp Hw) as [Hf _]. apply line_start_here; [reflexivity|].
      exists w. split; [eapply longest_agree; eassumption|]. rewrite (firstn_less w (w + 1) _ _ Hf) by lia. exact Hin.
  Qed.

  Lemma kid r c : occurs syn r -> In c (children r) -> occurs syn c.
  Proof. intros; eapply occurs_child; eassumption. Qed.

  Lemma kids r : occurs syn r -> Forall (occurs syn) (children r).
  Proof. intros Ho. apply Forall_forall. intros c. apply kid, Ho. Qed.

  Lemma front p : p <= q -> firstn k (skipn p T') = firstn k (skipn p T).
  Proof. intros H. apply near. lia. Qed.

  Lemma starts_near p t : p <= q -> length t <= k -> starts_with (skipn p T) t <-> starts_with (skipn p T') t.
  Proof.
    intros Hp Ht. split; intros H; (eapply starts_agree; [|exact Ht|exact H]); [apply front, Hp|symmetry; apply front, Hp].
  Qed.

  Lemma longest_near P p n : p + n <= q -> longest P (skipn p T) n -> longest P (skipn p T') n.
  Proof. intros Hp H. eapply longest_agree; [|exact H]. apply near. pose proof (la_some _ _ _ Hk). lia. Qed.

  Lemma same_near p n : p + n <= q -> firstn n (skipn p T') = firstn n (skipn p T).
  Proof. intros H. apply near. lia. Qed.

  Lemma head_near p c s : p <= q -> c :: s = skipn p T -> exists s', skipn p T' = c :: s'.
  Proof.
    intros Hp Hs. pose proof (near p 1) as H. rewrite <- Hs in H. pose proof (la_some _ _ _ Hk).
    destruct (skipn p T') as [|c' s']; [discriminate H; lia|]. cbn in H. injection (H ltac:(lia)) as ->. eauto.
  Qed.

  Lemma nil_near p : p <= q -> [] = skipn p T -> skipn p T' = [].
  Proof.
    intros Hp Hs. pose proof (near p 1) as H. rewrite <- Hs in H. pose proof (la_some _ _ _ Hk).
    destruct (skipn p T') as [|c' s']; [reflexivity|]. discriminate H. lia.
  Qed.

  Lemma inside_after p n out v : inside p (after n out v) -> inside (p + n) v.
  Proof. destruct v as [m o|]; cbn; [lia|trivial]. Qed.

  (** What is read up to the place is read from the other text, too. *)
  Lemma ahead_all :
    (forall r ind p s v ind' tr, reads E refs r ind p s v ind' tr -> occurs syn r -> s = skipn p T -> p <= q -> low tr -> inside p v ->
      reads E refs r ind p (skipn p T') v ind' tr) /\
    (forall args ind p s v ind' tr, reads_seq E refs args ind p s v ind' tr -> Forall (occurs syn) args -> s = skipn p T -> p <= q -> low tr -> inside p v ->
      reads_seq E refs args ind p (skipn p T') v ind' tr) /\
    (forall args ind p s v ind' tr, reads_first E refs args ind p s v ind' tr -> Forall (occurs syn) args -> s = skipn p T -> p <= q -> low tr -> inside p v ->
      reads_first E refs args ind p (skipn p T') v ind' tr) /\
    (forall r ind p s c n out ind' tr, reads_many E refs r ind p s c n out ind' tr -> occurs syn r -> s = skipn p T -> p <= q -> low tr -> p + n <= q ->
      reads_many E refs r ind p (skipn p T') c n out ind' tr) /\
    (forall r by_ trail ind p s v ind' tr, reads_more E refs r by_ trail ind p s v ind' tr -> occurs syn r -> occurs syn by_ -> s = skipn p T -> p <= q -> low tr -> inside p v ->
      reads_more E refs r by_ trail ind p (skipn p T') v ind' tr) /\
    (forall r indented id fresh nl ind p s v ind' tr, reads_lines E refs r indented id fresh nl ind p s v ind' tr ->
      occurs syn r -> occurs syn (RLines r indented id) -> s = skipn p T -> p <= q -> low tr -> inside p v ->
      reads_lines E refs r indented id fresh nl ind p (skipn p T') v ind' tr) /\
    (forall r indented fresh ind p s v fresh' ind' tr, reads_line E refs r indented fresh ind p s v fresh' ind' tr ->
      occurs syn r -> (exists id, occurs syn (RLines r indented id)) -> s = skipn p T -> p <= q -> low tr -> inside p v ->
      reads_line E refs r indented fresh ind p (skipn p T') v fresh' ind' tr).
  Proof.
    pose proof (la_some _ _ _ Hk) as Hk1.
    apply reads_mutind; intros; subst.
    all: try (cbn [inside] in *).
    - constructor; [apply longest_near; assumption|assumption].
    - constructor. apply longest_near; [lia|assumption].
    - constructor. apply starts_near; [assumption|eapply (la_tags _ _ _ Hk); eassumption|assumption].
    - constructor. rewrite <- starts_near; [assumption|assumption|eapply (la_tags _ _ _ Hk); eassumption].
    - constructor. rewrite <- starts_near; [assumption|assumption|eapply (la_tags _ _ _ Hk); eassumption].
    - constructor. apply starts_near; [assumption|eapply (la_tags _ _ _ Hk); eassumption|assumption].
    - rewrite <- same_near by assumption. constructor; [apply longest_near; assumption|assumption].
    - constructor. apply longest_near; [lia|assumption].
    - rewrite <- same_near by assumption. constructor; [apply longest_near; assumption|assumption].
    - constructor. apply longest_near; [lia|assumption].
    - (* texts *) match goal with HH : occurs syn _ |- _ => destruct (su_texts _ _ _ _ _ _ Hsame _ _ _ HH p ltac:(assumption)) as [Ha Hb] end.
      eapply reads_text; [rewrite Ha; eassumption|assumption|rewrite Hb by assumption; assumption].
    - match goal with HH : occurs syn _ |- _ => destruct (su_texts _ _ _ _ _ _ Hsame _ _ _ HH p ltac:(assumption)) as [Ha Hb] end.
      eapply reads_text_none. rewrite Ha. assumption.
    - match goal with HH : occurs syn _ |- _ => destruct (su_texts _ _ _ _ _ _ Hsame _ _ _ HH p ltac:(assumption)) as [Ha Hb] end.
      eapply reads_text_empty. rewrite Ha. assumption.
    - match goal with HH : occurs syn _ |- _ => destruct (su_texts _ _ _ _ _ _ Hsame _ _ _ HH p ltac:(assumption)) as [Ha Hb] end.
      eapply reads_text_bad; [rewrite Ha; eassumption|assumption|rewrite Hb by assumption; assumption].
    - (* numbers *) match goal with HH : occurs syn _ |- _ => pose proof (la_numbers _ _ _ Hk _ _ _ HH underscore (skipn p T) (skipn p T')) as Hn end.
      match goal with HH : x_number _ _ _ = Some _ |- _ => rewrite HH in Hn end. eapply reads_number; [apply Hn, near; lia|].
      rewrite same_near by assumption. assumption.
    - match goal with HH : occurs syn _ |- _ => pose proof (la_numbers _ _ _ Hk _ _ _ HH underscore (skipn p T) (skipn p T')) as Hn end.
      match goal with HH : x_number _ _ _ = None |- _ => rewrite HH in Hn end. eapply reads_number_none. apply Hn, front. assumption.
    - match goal with HH : occurs syn _ |- _ => pose proof (la_numbers _ _ _ Hk _ _ _ HH underscore (skipn p T) (skipn p T')) as Hn end.
      match goal with HH : x_number _ _ _ = Some _ |- _ => rewrite HH in Hn end.
      match goal with HH : low _ |- _ => inversion HH; subst end. unfold depth, next_offset in *. cbn in *.
      eapply reads_number_bad; [apply Hn, near; lia|].
      rewrite same_near by assumption. assumption.
    - (* sequence *) constructor. match goal with IH : Forall _ _ -> _ |- _ => apply IH end; try assumption; try reflexivity.
      match goal with HH : occurs syn _ |- _ => exact (kids _ HH) end.
    - constructor; [assumption|]. match goal with IH : Forall _ _ -> _ |- _ => apply IH end; try assumption; try reflexivity.
      match goal with HH : occurs syn _ |- _ => exact (kids _ HH) end.
    - apply reads_select_empty.
    - (* fast *) rewrite nil_near; [constructor|assumption|assumption].
    - match goal with HH : _ :: _ = skipn p T |- _ => destruct (head_near p _ _ ltac:(assumption) HH) as (s' & Es) end. rewrite Es. constructor. assumption.
    - match goal with HH : _ :: _ = skipn p T |- _ => destruct (head_near p _ _ ltac:(assumption) HH) as (s' & Es) end.
      match goal with IH : occurs syn _ -> _ |- _ => rewrite Es in *; eapply reads_fast_tail; [eassumption|apply IH] end; try assumption.
      eapply kid; [eassumption|apply in_elt].
    - match goal with HH : _ :: _ = skipn p T |- _ => destruct (head_near p _ _ ltac:(assumption) HH) as (s' & Es) end.
      match goal with IH : occurs syn _ -> _ |- _ => rewrite Es in *; eapply reads_fast; [eassumption|assumption|eassumption|apply IH] end; try assumption.
      eapply kid; [eassumption|]. eapply nth_error_In. eassumption.
    - match goal with HH : _ :: _ = skipn p T |- _ => destruct (head_near p _ _ ltac:(assumption) HH) as (s' & Es) end.
      match goal with IH : occurs syn _ -> _ |- _ => rewrite Es in *; eapply reads_fast_no; [eassumption|assumption|eassumption|apply IH] end; try assumption.
      eapply kid; [eassumption|]. eapply nth_error_In. eassumption.
    - match goal with HH : _ :: _ = skipn p T |- _ => destruct (head_near p _ _ ltac:(assumption) HH) as (s' & Es) end.
      match goal with HH : low (_ ++ _) |- _ => apply low_app in HH as [Hl1 Hl2] end.
      rewrite Es in *. eapply reads_fast_then_tail; [eassumption|assumption|eassumption| |].
      + match goal with IH : occurs syn r -> _ |- _ => apply IH end; try assumption; try exact I.
        eapply kid; [eassumption|]. eapply nth_error_In. eassumption.
      + match goal with IH : occurs syn r' -> _ |- _ => apply IH end; try assumption.
        eapply kid; [eassumption|]. apply in_elt.
    - (* repeat *) econstructor; [|eassumption]. match goal with IH : occurs syn r -> _ |- _ => apply IH end; try assumption; try reflexivity.
      eapply kid; [eassumption|left; reflexivity].
    - constructor. match goal with IH : occurs syn r -> _ |- _ => apply IH end; try assumption; try reflexivity.
      eapply kid; [eassumption|left; reflexivity].
    - (* separate *) 
      match goal with HH : low (_ ++ _) |- _ => apply low_app in HH as [Hl1 Hl2] end.
      assert (Hr : occurs syn r) by (match goal with HH : occurs syn (RSeparateBy _ _ _ _ _) |- _ => apply (kid _ _ HH); cbn; auto end).
      assert (Hb : occurs syn by_) by (match goal with HH : occurs syn (RSeparateBy _ _ _ _ _) |- _ => apply (kid _ _ HH); cbn; auto end).
      match goal with HH : inside _ (after _ _ _) |- _ => apply inside_after in HH as Hi end.
      assert (Hn : p + n <= q).
      { destruct v as [m o|]; [cbn in Hi; lia|].
        match goal with HH : reads_more _ _ _ _ _ _ _ _ _ _ _ |- _ =>
          apply (errors_inside _ _ _ _ (proj1 (proj2 (proj2 (proj2 (proj2 (reads_fits_all E HE refs))))) _ _ _ _ _ _ _ _ _ HH));
          [exact (proj1 (proj2 (proj2 (proj2 (proj2 (some_error E refs))))) _ _ _ _ _ _ _ _ _ HH eq_refl)|exact Hl2] end. }
      econstructor.
      + match goal with IH : occurs syn r -> _ |- _ => apply IH end; try assumption; reflexivity.
      + rewrite skipn_skipn_add. match goal with IH : occurs syn r -> occurs syn by_ -> _ |- _ => apply IH end; try assumption. apply skipn_skipn_add.
    - apply reads_separate_none. match goal with IH : occurs syn r -> _ |- _ => apply IH end; try assumption; try reflexivity; try exact I.
      eapply kid; [eassumption|left; reflexivity].
    - (* lines *) constructor. match goal with IH : occurs syn r -> _ |- _ => apply IH end; try assumption; try reflexivity.
      eapply kid; [eassumption|left; reflexivity].
    - (* nodes *) econstructor; [eassumption|]. match goal with IH : occurs syn r -> _ |- _ => apply IH end; try assumption; try reflexivity.
      apply occurs_top. eapply nth_error_In; eassumption.
    - eapply reads_node_no; [eassumption|]. match goal with IH : occurs syn r -> _ |- _ => apply IH end; try assumption; try reflexivity.
      apply occurs_top. eapply nth_error_In; eassumption.
    - constructor.
    - (* optional *) constructor. match goal with IH : occurs syn r -> _ |- _ => apply IH end; try assumption; try reflexivity.
      eapply kid; [eassumption|left; reflexivity].
    - eapply reads_optional_none. match goal with IH : occurs syn r -> _ |- _ => apply IH end; try assumption; try reflexivity; try exact I.
      eapply kid; [eassumption|left; reflexivity].
    - (* not *) match goal with HH : occurs syn (RNot _ _) |- _ => pose proof (la_not _ _ _ Hk _ _ HH) as Hloo end.
      match goal with HH : reads _ _ _ _ _ _ _ _ _ |- _ => destruct (proj1 (looks_local E refs) _ _ Hloo _ _ _ _ _ _ HH) as [_ Hx] end.
      econstructor. apply Hx, front. assumption.
    - match goal with HH : occurs syn (RNot _ _) |- _ => pose proof (la_not _ _ _ Hk _ _ HH) as Hloo end.
      match goal with HH : reads _ _ _ _ _ _ _ _ _ |- _ => destruct (proj1 (looks_local E refs) _ _ Hloo _ _ _ _ _ _ HH) as [_ Hx] end.
      match goal with HH : low _ |- _ => inversion HH; subst end. unfold depth, next_offset in *. cbn in *.
      rewrite <- same_near by assumption. econstructor. apply Hx, front. assumption.
    - (* seq *) constructor.
    - match goal with HH : Forall _ (_ :: _) |- _ => inversion HH; subst end.
      constructor. match goal with IH : occurs syn r -> _ |- _ => apply IH end; try assumption; reflexivity.
    - match goal with HH : Forall _ (_ :: _) |- _ => inversion HH; subst end.
      match goal with HH : low (_ ++ _) |- _ => apply low_app in HH as [Hl1 Hl2] end.
      match goal with HH : inside _ (after _ _ _) |- _ => apply inside_after in HH as Hi end.
      assert (Hn : p + n <= q).
      { destruct v as [m o|]; [cbn in Hi; lia|].
        match goal with HH : reads_seq _ _ _ _ _ _ _ _ _ |- _ =>
          apply (errors_inside _ _ _ _ (proj1 (proj2 (reads_fits_all E HE refs)) _ _ _ _ _ _ _ HH));
          [exact (proj1 (proj2 (some_error E refs)) _ _ _ _ _ _ _ HH eq_refl)|exact Hl2] end. }
      econstructor.
      + match goal with IH : occurs syn r -> _ |- _ => apply IH end; try assumption; reflexivity.
      + rewrite skipn_skipn_add. match goal with IH : Forall _ _ -> _ |- _ => apply IH end; try assumption. apply skipn_skipn_add.
    - (* first *) constructor.
    - match goal with HH : Forall _ (_ :: _) |- _ => inversion HH; subst end.
      constructor. match goal with IH : occurs syn r -> _ |- _ => apply IH end; try assumption; reflexivity.
    - match goal with HH : Forall _ (_ :: _) |- _ => inversion HH; subst end.
      match goal with HH : low (_ ++ _) |- _ => apply low_app in HH as [Hl1 Hl2] end.
      econstructor.
      + match goal with IH : occurs syn r -> _ |- _ => apply IH end; try assumption; try reflexivity; try exact I.
      + match goal with IH : Forall _ _ -> _ |- _ => apply IH end; try assumption. reflexivity.
    - (* many *) constructor. match goal with IH : occurs syn r -> _ |- _ => apply IH end; try assumption; try reflexivity; try exact I.
    - match goal with HH : low (_ ++ _) |- _ => apply low_app in HH as [Hl1 Hl2] end.
      econstructor.
      + match goal with IH : occurs syn r -> _ -> _ -> _ -> inside _ _ -> _ |- _ => apply IH | IH : occurs syn r -> skipn p T = _ -> _ |- _ => apply IH end; try assumption; try reflexivity. cbn. lia.
      + rewrite skipn_skipn_add. match goal with IH : occurs syn r -> skipn n (skipn p T) = _ -> _ |- _ => apply IH end; try assumption; try lia. apply skipn_skipn_add.
    - (* more *) constructor. match goal with IH : occurs syn by_ -> _ |- _ => apply IH end; try assumption; try reflexivity; try exact I.
    - match goal with HH : low (_ ++ _) |- _ => apply low_app in HH as [Hl1 Hl2] end.
      assert (Hn : p + n <= q) by (eapply fails_inside; eassumption).
      econstructor.
      + match goal with IH : occurs syn by_ -> _ |- _ => apply IH end; try assumption; try reflexivity.
      + rewrite skipn_skipn_add. match goal with IH : occurs syn r -> skipn n (skipn p T) = _ -> _ |- _ => apply IH end; try assumption; try exact I. apply skipn_skipn_add.
    - match goal with HH : low (_ ++ _ ++ _) |- _ => apply low_app in HH as [Hl1 HH]; apply low_app in HH as [Hl2 Hl3] end.
      match goal with HH : inside _ (after _ _ _) |- _ => apply inside_after, inside_after in HH as Hi end.
      assert (Hn : p + n + m <= q).
      { destruct v as [m' o|]; [cbn in Hi; lia|].
        match goal with HH : reads_more _ _ _ _ _ _ _ _ _ _ _ |- _ =>
          apply (errors_inside _ _ _ _ (proj1 (proj2 (proj2 (proj2 (proj2 (reads_fits_all E HE refs))))) _ _ _ _ _ _ _ _ _ HH));
          [exact (proj1 (proj2 (proj2 (proj2 (proj2 (some_error E refs))))) _ _ _ _ _ _ _ _ _ HH eq_refl)|exact Hl3] end. }
      econstructor.
      + match goal with IH : occurs syn by_ -> _ |- _ => apply IH end; try assumption; try reflexivity. cbn; lia.
      + rewrite skipn_skipn_add. match goal with IH : occurs syn r -> skipn n (skipn p T) = _ -> _ |- _ => apply IH end; try assumption; try lia. apply skipn_skipn_add.
      + rewrite !skipn_skipn_add, Nat.add_assoc. match goal with IH : occurs syn r -> occurs syn by_ -> _ |- _ => apply IH end; try assumption. rewrite !skipn_skipn_add, Nat.add_assoc. reflexivity.
    - (* lines *) exfalso. destruct (some_white (skipn p T)) as [w Hw].
      match goal with HH : occurs syn (RLines _ _ _) |- _ => destruct (white_near _ _ _ p _ HH ltac:(assumption) Hw) as (_ & Hx & _) end.
      contradiction.
    - destruct (some_white (skipn p T)) as [w Hw].
      match goal with HH : occurs syn (RLines _ _ _) |- _ => destruct (white_near _ _ _ p _ HH ltac:(assumption) Hw) as (Hf & Hx & Hy);
        rewrite <- (la_lines _ _ _ Hk _ _ _ HH _ _ _ Hw Hf) end.
      constructor; [exact Hy|]. match goal with HH : same_line _ |- _ => destruct HH as (w' & Hw' & Hin) end.
      assert (w' = w) as -> by (eapply longest_unique; eassumption).
      exists w. split; [eapply longest_agree; eassumption|]. rewrite (firstn_less w (w + 1) _ _ Hf) by lia. exact Hin.
    - destruct (some_white (skipn p T)) as [w Hw].
      match goal with HH : occurs syn (RLines _ _ _), HL : line_start _ _ _ |- _ => destruct (white_near _ _ _ p _ HH ltac:(assumption) Hw) as (_ & _ & Hy);
        pose proof (line_start_near _ _ _ p _ _ HH ltac:(assumption) HL) as Hls end.
      eapply reads_lines_stop; [exact Hy|exact Hls|]. rewrite skipn_skipn_add.
      match goal with IH : occurs syn r -> _ |- _ => apply IH end; try assumption; try exact I; [eauto|apply skipn_skipn_add].
    - destruct (some_white (skipn p T)) as [w Hw].
      match goal with HH : low (_ ++ _) |- _ => apply low_app in HH as [Hl1 Hl2] end.
      match goal with HH : occurs syn (RLines _ _ _), HL : line_start _ _ _ |- _ => destruct (white_near _ _ _ p _ HH ltac:(assumption) Hw) as (_ & _ & Hy);
        pose proof (line_start_near _ _ _ p _ _ HH ltac:(assumption) HL) as Hls end.
      match goal with HH : inside _ (after _ _ _) |- _ => apply inside_after in HH as Hi end.
      assert (Hn : p + (k0 + n) <= q).
      { destruct v as [m' o|]; [cbn in Hi; lia|]. rewrite Nat.add_assoc.
        match goal with HH : reads_lines _ _ _ _ _ _ _ _ _ _ _ _ _ |- _ =>
          apply (errors_inside _ _ _ _ (proj1 (proj2 (proj2 (proj2 (proj2 (proj2 (reads_fits_all E HE refs)))))) _ _ _ _ _ _ _ _ _ _ _ HH));
          [exact (proj1 (proj2 (proj2 (proj2 (proj2 (proj2 (some_error E refs)))))) _ _ _ _ _ _ _ _ _ _ _ HH eq_refl)|exact Hl2] end. }
      eapply reads_lines_item; [exact Hy|exact Hls| | |].
      + rewrite skipn_skipn_add. match goal with IH : occurs syn r -> (exists _, _) -> _ |- _ => apply IH end; try assumption; try (cbn; lia); first [apply skipn_skipn_add|eauto].
      + rewrite skipn_skipn_add, same_near by lia. rewrite <- skipn_skipn_add. eassumption.
      + rewrite !skipn_skipn_add, Nat.add_assoc.
        match goal with IH : occurs syn r -> occurs syn (RLines _ _ _) -> _ |- _ => apply IH end; try assumption; first [lia|rewrite !skipn_skipn_add, Nat.add_assoc; reflexivity|rewrite <- Nat.add_assoc; exact Hi].
    - (* line *) constructor. match goal with IH : occurs syn r -> _ |- _ => apply IH end; try assumption; reflexivity.
    - match goal with HH : exists _, _ |- _ => destruct HH as [id Ho] end. destruct (some_white (skipn p T)) as [w Hw].
      destruct (white_near _ _ _ p _ Ho ltac:(assumption) Hw) as (Hf & _ & _).
      constructor. intros i Hi. pose proof (longest_agree _ _ _ _ Hf Hw) as Hw'.
      destruct (indentation_near _ _ _ _ Hi _ _ Hw' (eq_sym Hf)) as [Hi' _].
      match goal with HH : forall _, ~ _ |- _ => exact (HH _ Hi') end.
    - match goal with HH : exists _, _ |- _ => destruct HH as [id Ho] end. destruct (some_white (skipn p T)) as [w Hw].
      destruct (white_near _ _ _ p _ Ho ltac:(assumption) Hw) as (Hf & _ & _).
      match goal with HH : indentation _ _ _ _ |- _ => destruct (indentation_near _ _ _ _ HH _ _ Hw Hf) as [Hi Hle] end.
      eapply reads_line_deep; [exact Hi|assumption|]. eapply starts_agree; [|apply Nat.le_refl|eassumption].
      eapply firstn_skipn_less; [exact Hf|cbn; lia].
    - match goal with HH : exists _, _ |- _ => destruct HH as [id Ho] end. destruct (some_white (skipn p T)) as [w Hw].
      destruct (white_near _ _ _ p _ Ho ltac:(assumption) Hw) as (Hf & _ & _).
      match goal with HH : indentation _ _ _ _ |- _ => destruct (indentation_near _ _ _ _ HH _ _ Hw Hf) as [Hi Hle] end.
      match goal with HH : inside _ (after _ _ _) |- _ => apply inside_after in HH as Hin end.
      assert (Hn : p + k0 <= q) by (destruct v as [m' o|]; [cbn in Hin; lia|eapply fails_inside; eassumption]).
      eapply reads_line_exact; [exact Hi|assumption| |assumption|].
      + intros Hs. match goal with HH : ~ starts_with _ _ |- _ => apply HH end. eapply starts_agree; [|apply Nat.le_refl|exact Hs].
        eapply firstn_skipn_less; [symmetry; exact Hf|cbn; lia].
      + rewrite skipn_skipn_add. match goal with IH : occurs syn r -> _ |- _ => apply IH end; try assumption. apply skipn_skipn_add.
    - match goal with HH : exists _, _ |- _ => destruct HH as [id Ho] end. destruct (some_white (skipn p T)) as [w Hw].
      destruct (white_near _ _ _ p _ Ho ltac:(assumption) Hw) as (Hf & _ & _).
      match goal with HH : indentation _ _ _ _ |- _ => destruct (indentation_near _ _ _ _ HH _ _ Hw Hf) as [Hi Hle] end.
      match goal with HH : inside _ (after _ _ _) |- _ => apply inside_after in HH as Hin end.
      assert (Hn : p + k0 + b <= q) by (destruct v as [m' o|]; [cbn in Hin; lia|eapply fails_inside; eassumption]).
      eapply reads_line_align; [exact Hi|assumption| | |assumption|].
      + rewrite skipn_skipn_add. apply longest_near; [lia|]. rewrite <- skipn_skipn_add. assumption.
      + rewrite (skipn_skipn_add p k0 T'), same_near by lia. rewrite <- skipn_skipn_add. reflexivity.
      + rewrite (skipn_skipn_add p k0 T'), (skipn_skipn_add (p + k0) b T'). match goal with IH : occurs syn r -> _ |- _ => apply IH end; try assumption;
          first [lia|rewrite !skipn_skipn_add, Nat.add_assoc; reflexivity|rewrite <- Nat.add_assoc; exact Hin].
  Qed.
End Ahead.

Lemma start_occurs s r : start_rule s r -> occurs s r.
Proof. intros [rules H]. apply occurs_top. rewrite H. apply in_elt. Qed.

Lemma ahead_rejects E s k q text text' ind tr : ext_ok E -> looks_ahead E s k -> same_up_to E s k q text text' ->
  low q tr -> rejects E s ind text tr -> rejects E s ind text' tr.
Proof.
  intros HE Hk Hs Hl H. inversion H; subst.
  - constructor. assumption.
  - match goal with HH : start_rule _ _ |- _ => pose proof HH as Hst; apply start_occurs in HH end.
    eapply rejects_fail; [exact Hst|]. change text' with (skipn 0 text').
    eapply (proj1 (ahead_all E HE s k q text text' Hk Hs)); try eassumption; [reflexivity|lia|exact I].
  - apply low_app in Hl as [Hl1 Hl2]. inversion Hl2; subst. unfold depth, next_offset in *. cbn in *.
    match goal with HH : start_rule _ _ |- _ => pose proof HH as Hst; apply start_occurs in HH end.
    eapply rejects_early; [exact Hst| |].
    + change text' with (skipn 0 text'). eapply (proj1 (ahead_all E HE s k q text text' Hk Hs)); try eassumption; [reflexivity|lia|cbn; lia].
    + pose proof (near _ _ _ _ _ _ Hs n 1) as Hn. pose proof (la_some _ _ _ Hk). specialize (Hn ltac:(lia)).
      apply (f_equal (@length _)) in Hn. rewrite !firstn_length, !skipn_length in Hn. lia.
Qed.

Lemma ahead_parse E s k text text' tokens ind e tk : ext_ok E -> looks_ahead E s k -> same_up_to E s k (depth e) text text' ->
  parse_returns E s text tokens ind (Some e) tk -> exists tk', parse_returns E s text' tokens ind (Some e) tk'.
Proof.
  intros HE Hk Hs H. apply error_is_newest_deepest in H as [(tr & Hrej) Hn]. pose proof (Hn _ Hrej) as Hnd.
  assert (Hl : low (depth e) tr).
  { destruct Hnd as (old & new & -> & Ha & Hb). apply Forall_app. split; [exact Ha|]. constructor; [lia|].
    eapply Forall_impl; [|exact Hb]. cbn. intros; lia. }
  pose proof (ahead_rejects _ _ _ _ _ _ _ _ HE Hk Hs Hl Hrej) as Hr'.
  destruct (rejects_parse E HE s ind text' tokens tr Hr') as (e1 & tk1 & H1).
  exists tk1. apply error_is_newest_deepest in H1 as Hn1. destruct Hn1 as [_ Hn1]. apply Hn1 in Hr'.
  rewrite (newest_deepest_unique _ _ _ Hnd Hr'). exact H1.
Qed.

(** ** Numbers, with the reader in use *)

Lemma std_number_same : forall s underscore sign digit dot expo esign n m,
  std_number_go underscore s sign digit dot expo esign n = Some m ->
  exists j, m = n + j /\ forall t, firstn (j + 1) t = firstn (j + 1) s -> std_number_go underscore t sign digit dot expo esign n = Some m.
Proof.
  induction s as [|c s IH]; intros underscore sign digit dot expo esign n m H.
  - cbn in H. destruct digit; [injection H as <-|discriminate]. exists 0. split; [lia|]. intros [|c t] Ht; [reflexivity|discriminate].
  - assert (Hstop : (if digit then Some n else None) = Some m -> (forall t, std_number_go underscore (c :: t) sign digit dot expo esign n = Some m) ->
      exists j, m = n + j /\ forall t, firstn (j + 1) t = firstn (j + 1) (c :: s) -> std_number_go underscore t sign digit dot expo esign n = Some m).
    { intros Hm Hall. destruct digit; [injection Hm as <-|discriminate]. exists 0. split; [lia|].
      intros [|c' t] Ht; [discriminate|]. cbn in Ht. injection Ht as ->. apply Hall. }
    assert (Hstep : forall sg dg dt ex es, std_number_go underscore s sg dg dt ex es (S n) = Some m ->
      (forall t, std_number_go underscore (c :: t) sign digit dot expo esign n = std_number_go underscore t sg dg dt ex es (S n)) ->
      exists j, m = n + j /\ forall t, firstn (j + 1) t = firstn (j + 1) (c :: s) -> std_number_go underscore t sign digit dot expo esign n = Some m).
    { intros sg dg dt ex es Hm Hall. destruct (IH _ _ _ _ _ _ _ _ Hm) as (j & -> & Hj). exists (S j). split; [lia|].
      intros [|c' t] Ht; [discriminate|]. cbn in Ht. injection Ht as -> Ht. rewrite Hall. apply Hj, Ht. }
    cbn [std_number_go] in H.
    destruct (is_digit c) eqn:E1; [eapply Hstep; [exact H|]; intros t; cbn [std_number_go]; rewrite E1; reflexivity|].
    destruct (sign && ((c =? 43) || (c =? 45))%N) eqn:E2; [eapply Hstep; [exact H|]; intros t; cbn [std_number_go]; rewrite E1, E2; reflexivity|].
    destruct (esign && ((c =? 43) || (c =? 45))%N) eqn:E3; [eapply Hstep; [exact H|]; intros t; cbn [std_number_go]; rewrite E1, E2, E3; reflexivity|].
    destruct (underscore && digit && (c =? 95)%N) eqn:E4; [eapply Hstep; [exact H|]; intros t; cbn [std_number_go]; rewrite E1, E2, E3, E4; reflexivity|].
    destruct (negb dot && negb expo && (c =? 46)%N) eqn:E5; [eapply Hstep; [exact H|]; intros t; cbn [std_number_go]; rewrite E1, E2, E3, E4, E5; reflexivity|].
    destruct (digit && negb expo && ((c =? 101) || (c =? 69))%N) eqn:E6; [eapply Hstep; [exact H|]; intros t; cbn [std_number_go]; rewrite E1, E2, E3, E4, E5, E6; reflexivity|].
    apply Hstop; [exact H|]. intros t. cbn [std_number_go]. rewrite E1, E2, E3, E4, E5, E6. exact H.
Qed.

(** The characters still to be seen before it is known that there is no number. *)
Definition doubt (sign dot : bool) : nat := (if sign then 1 else 0) + (if dot then 0 else 1) + 1.

Lemma std_number_digit : forall s underscore sign dot expo esign n, std_number_go underscore s sign true dot expo esign n <> None.
Proof.
  induction s as [|c s IH]; intros; [discriminate|]. cbn [std_number_go].
  repeat match goal with |- context [if ?b then _ else _] => destruct b; try apply IH end; discriminate.
Qed.

Lemma std_number_none : forall s underscore sign dot n t, std_number_go underscore s sign false dot false false n = None ->
  firstn (doubt sign dot) t = firstn (doubt sign dot) s -> std_number_go underscore t sign false dot false false n = None.
Proof.
  induction s as [|c s IH]; intros underscore sign dot n t H Ht.
  - destruct t as [|c t]; [reflexivity|]. destruct sign, dot; discriminate.
  - assert (exists t', t = c :: t' /\ firstn (doubt sign dot - 1) t' = firstn (doubt sign dot - 1) s) as (t' & -> & Ht').
    { destruct sign, dot; (destruct t as [|c' t]; [discriminate|]); cbn in Ht |- *; injection Ht; intros; subst c'; exists t; (split; [reflexivity|first [assumption|reflexivity]]). }
    clear Ht. cbn [std_number_go] in *. destruct (is_digit c); [exfalso; eapply std_number_digit; exact H|].
    rewrite !andb_false_r, !andb_false_l in *. cbn [andb negb] in *.
    destruct (sign && ((c =? 43) || (c =? 45))%N) eqn:E2.
    + apply andb_true_iff in E2 as [-> _]. apply IH; [exact H|]. destruct dot; exact Ht'.
    + destruct (negb dot && true && (c =? 46)%N) eqn:E5; [|reflexivity].
      apply andb_true_iff in E5 as [E5 _]. destruct dot; [discriminate|]. apply IH; [exact H|].
      eapply firstn_less; [exact Ht'|]. destruct sign; cbn; lia.
Qed.

Lemma std_numbers_within : numbers_within std_ext 3.
Proof.
  intros underscore s t. cbn [x_number std_ext]. unfold std_number. destruct (std_number_go underscore s true false false false false 0) as [m|] eqn:H.
  - intros Ht. destruct (std_number_same _ _ _ _ _ _ _ _ _ H) as (j & -> & Hj). apply Hj, Ht.
  - intros Ht. eapply std_number_none; [exact H|exact Ht].
Qed.

Lemma std_breaks_within : breaks_within std_ext.
Proof. intros s s' w _ _. reflexivity. Qed.

Lemma ahead_front E s k text text' tokens ind e tk : ext_ok E -> looks_ahead E s k ->
  (forall r indented id, ~ occurs s (RLines r indented id)) -> (forall empty property id, ~ occurs s (RText empty property id)) ->
  firstn (depth e + k) text' = firstn (depth e + k) text ->
  parse_returns E s text tokens ind (Some e) tk -> exists tk', parse_returns E s text' tokens ind (Some e) tk'.
Proof.
  intros HE Hk Hl Ht Hf. apply (ahead_parse E s k text text'); [exact HE|exact Hk|].
  constructor; [exact Hf| |]; intros; exfalso; [eapply Hl|eapply Ht]; eassumption.
Qed.

(** An edit causes no error far in front of it. *)
Lemma ahead_edit E s k text text' m tokens ind e tk tk' : ext_ok E -> looks_ahead E s k ->
  (forall r indented id, ~ occurs s (RLines r indented id)) -> (forall empty property id, ~ occurs s (RText empty property id)) ->
  firstn m text' = firstn m text ->
  parse_returns E s text tokens ind None tk -> parse_returns E s text' tokens ind (Some e) tk' -> m < depth e + k.
Proof.
  intros HE Hk Hl Ht Hm H H'. destruct (Nat.lt_ge_cases m (depth e + k)) as [Hlt|Hge]; [exact Hlt|]. exfalso.
  destruct (ahead_front E s k text' text tokens ind e tk' HE Hk Hl Ht (eq_sym (firstn_less _ _ _ _ Hm Hge)) H') as (tk2 & H2).
  destruct (parse_returns_unique _ _ _ _ _ _ _ _ _ H H2) as [Hq _]. discriminate.
Qed.

(** ** How far a syntax looks, computed for rules without negation *)

Definition short_rule (k : nat) (r : rule) : bool :=
  match r with
  | RTag t _ _ _ _ => Nat.leb (length t) k
  | RNot _ _ => false
  | RNumber _ _ _ => Nat.leb 3 k
  | _ => true
  end.

Lemma looks_ahead_check s k : forallb (all_sub (short_rule k)) (s_rules s) = true -> 1 <= k -> looks_ahead std_ext s k.
Proof.
  intros H Hk. assert (Ho : forall c, occurs s c -> short_rule k c = true) by (exact (all_rules_spec _ _ H)).
  constructor; [lia| | | |].
  - intros t no inverted property id Hc. apply Ho in Hc. apply Nat.leb_le, Hc.
  - intros r id Hc. apply Ho in Hc. discriminate.
  - intros underscore property id Hc underscore' s' t. apply Ho in Hc. apply Nat.leb_le in Hc. pose proof (std_numbers_within underscore' s' t) as Hn.
    destruct (x_number std_ext underscore' s'); [exact Hn|]. intros Ht. apply Hn. eapply firstn_less; [exact Ht|exact Hc].
  - intros r indented id _. exact std_breaks_within.
Qed.

Definition plain_rule (r : rule) : bool :=
  match r with RLines _ _ _ | RText _ _ _ => false | _ => true end.

Lemma plain_check s : forallb (all_sub plain_rule) (s_rules s) = true ->
  (forall r indented id, ~ occurs s (RLines r indented id)) /\ (forall empty property id, ~ occurs s (RText empty property id)).
Proof.
  intros H. assert (Ho : forall c, occurs s c -> plain_rule c = true) by (exact (all_rules_spec _ _ H)).
  split; intros; intros Hc; apply Ho in Hc; discriminate.
Qed.

Lemma fails_with E s text tokens ind tr e : ext_ok E -> rejects E s ind text tr -> newest_deepest tr e ->
  exists tk, parse_returns E s text tokens ind (Some e) tk.
Proof.
  intros HE Hr Hn. destruct (rejects_parse E HE s ind text tokens tr Hr) as (e1 & tk1 & H1).
  exists tk1. apply error_is_newest_deepest in H1 as Hn1. destruct Hn1 as [_ Hn1]. apply Hn1 in Hr.
  rewrite (newest_deepest_unique _ _ _ Hn Hr). exact H1.
Qed.

Lemma only_error tr e : tr = [e] -> newest_deepest tr e.
Proof. intros ->. exists [], []. repeat split; constructor. Qed.

(** ** String literals may be closed later *)

Definition text_syntax : syntax := Syn [RText true None 1%N] [[116%N]].

Lemma open_string : forall k n, std_string_go (repeat 97%N k) false n = None.
Proof. induction k as [|k IH]; intros n; [reflexivity|]. exact (IH (S n)). Qed.

Lemma closed_string : forall k n, std_string_go (repeat 97%N k ++ [quote]) false n = Some (n + k + 1).
Proof.
  induction k as [|k IH]; intros n; cbn; [f_equal; lia|]. rewrite IH. f_equal. lia.
Qed.

Lemma closed_value : forall k n acc, exists v, std_unescape (repeat 97%N k ++ [quote]) n acc = inl v.
Proof.
  induction k as [|k IH]; intros n acc; [cbn; eauto|]. destruct (IH (n + 1) (97%N :: acc)) as [v Hv]. exists v. destruct k as [|k]; exact Hv.
Qed.

Lemma text_open k : 1 <= k -> exists s text text' e tk tk', looks_ahead std_ext s k /\
  (forall r indented id, ~ occurs s (RLines r indented id)) /\
  firstn (depth e + k) text' = firstn (depth e + k) text /\
  parse_returns std_ext s text [] indent_default (Some e) tk /\ parse_returns std_ext s text' [] indent_default None tk'.
Proof.
  intros Hk. exists text_syntax, (quote :: repeat 97%N k), (quote :: repeat 97%N k ++ [quote]), (Rng 0 0, ExpectedText 1%N).
  destruct (fails_with std_ext text_syntax (quote :: repeat 97%N k) [] indent_default [(Rng 0 0, ExpectedText 1%N)] (Rng 0 0, ExpectedText 1%N)) as [tk Htk].
  - exact std_ext_ok.
  - eapply rejects_fail; [exists []; reflexivity|]. apply reads_text_none. cbn. apply open_string.
  - apply only_error. reflexivity.
  - exists tk. destruct (closed_value k 1 []) as [v Hv].
    eexists. split; [apply looks_ahead_check; [reflexivity|exact Hk]|]. split.
    { assert (Ho : forall c, occurs text_syntax c -> (match c with RLines _ _ _ => false | _ => true end) = true) by (apply all_rules_spec; reflexivity).
      intros r indented id Hc. apply Ho in Hc. discriminate. }
    split; [|split; [exact Htk|]].
    + change (depth (Rng 0 0, ExpectedText 1%N) + k) with k. destruct k as [|k]; [reflexivity|]. rewrite !firstn_cons. f_equal.
      rewrite firstn_app, repeat_length. replace (k - S k) with 0 by lia. apply app_nil_r.
    + apply parse_accepts; [exact std_ext_ok|]. eexists. split; [|reflexivity].
      econstructor; [exists []; reflexivity|].
      assert (Hn : length (quote :: repeat 97%N k ++ [quote]) = 1 + k + 1) by (cbn; rewrite app_length, repeat_length; cbn; lia).
      rewrite Hn. eapply reads_text; [cbn [x_string std_ext std_string]; apply closed_string|left; reflexivity|].
      rewrite <- Hn, firstn_all. exact Hv.
Qed.

(** ** A line break may come later *)

Definition break_syntax : syntax := Syn [RLines (RTag [97%N] false false None 2%N) false 1%N] [[108%N]].

Lemma spaces_longest k c s : ~ white c -> longest white (repeat space k ++ c :: s) k.
Proof.
  intros Hc. induction k as [|k IH]; [apply longest_0; exact Hc|]. apply longest_S. split; [reflexivity|exact IH].
Qed.

Lemma spaces_all k s : Forall white s -> Forall white (repeat space k ++ s).
Proof. intros H. apply Forall_app. split; [|exact H]. apply Forall_forall. intros c Hc. apply repeat_spec in Hc as ->. reflexivity. Qed.

Lemma break_later k : 1 <= k -> exists s text text' e tk tk', looks_ahead std_ext s k /\
  (forall empty property id, ~ occurs s (RText empty property id)) /\
  firstn (depth e + k) text' = firstn (depth e + k) text /\
  parse_returns std_ext s text [] indent_default (Some e) tk /\ parse_returns std_ext s text' [] indent_default None tk'.
Proof.
  intros Hk. set (t := 97%N :: repeat space k ++ [97%N]). set (t' := 97%N :: repeat space k ++ [newline]).
  exists break_syntax, t, t', (Rng 1 0, ExpectedNewLine 1%N).
  assert (Ha : ~ white 97%N) by discriminate.
  destruct (fails_with std_ext break_syntax t [] indent_default [(Rng 1 0, ExpectedNewLine 1%N)] (Rng 1 0, ExpectedNewLine 1%N)) as [tk Htk].
  - exact std_ext_ok.
  - eapply rejects_fail; [exists []; reflexivity|]. constructor.
    change [(Rng 1 0, ExpectedNewLine 1%N)] with (@nil perr ++ [(Rng (1 + r_off (x_lines_err std_ext (repeat space k ++ [97%N]))) (r_len (x_lines_err std_ext (repeat space k ++ [97%N]))), ExpectedNewLine 1%N)]).
    change No with (after (0 + 1) (@nil tok) No).
    eapply (reads_lines_item std_ext _ _ false 1%N true true indent_default 0 t 0 1 [] true indent_default [] false).
    + intros Hall. apply Ha. inversion Hall; subst. assumption.
    + apply line_start_here; [reflexivity|]. exists 0. split; [apply longest_0; exact Ha|]. intros [].
    + constructor. apply reads_tag. exists (repeat space k ++ [97%N]). reflexivity.
    + split; [discriminate|]. intros (x & y & Hxy & _). cbn in Hxy. destruct x as [|c x]; [discriminate|]. destruct x; discriminate.
    + cbn [t skipn Nat.add]. apply reads_lines_missing.
      * intros Hall. apply Forall_app in Hall as [_ Hall]. inversion Hall; subst. contradiction.
      * exists k. split; [apply spaces_longest; exact Ha|]. rewrite firstn_app, repeat_length, Nat.sub_diag, app_nil_r, firstn_all2 by (rewrite repeat_length; lia).
        intros Hin. apply repeat_spec in Hin. discriminate.
  - apply only_error. reflexivity.
  - exists tk, (@nil tok). split; [apply looks_ahead_check; [|exact Hk]|].
    { cbn. destruct k; [lia|reflexivity]. }
    split.
    { assert (Ho : forall c, occurs break_syntax c -> (match c with RText _ _ _ => false | _ => true end) = true) by (apply all_rules_spec; reflexivity).
      intros r indented id Hc. apply Ho in Hc. discriminate. }
    split; [|split; [exact Htk|]].
    + unfold t, t'. change (depth (Rng 1 0, ExpectedNewLine 1%N) + k) with (S k). rewrite !firstn_cons. f_equal.
      rewrite !firstn_app, repeat_length, Nat.sub_diag. reflexivity.
    + apply parse_accepts; [exact std_ext_ok|]. exists (@nil tok). split; [|reflexivity].
      econstructor; [exists []; reflexivity|]. constructor.
      match goal with |- reads_lines _ _ _ _ _ _ _ _ _ _ ?v _ _ => change v with (after (0 + 1) (@nil tok) (Yes (length (repeat space k ++ [newline])) [])) end.
      eapply (reads_lines_item std_ext _ _ false 1%N true true indent_default 0 t' 0 1 [] true indent_default [] false).
      * intros Hall. apply Ha. inversion Hall; subst. assumption.
      * apply line_start_here; [reflexivity|]. exists 0. split; [apply longest_0; exact Ha|]. intros [].
      * constructor. apply reads_tag. exists (repeat space k ++ [newline]). reflexivity.
      * split; [discriminate|]. intros (x & y & Hxy & _). cbn in Hxy. destruct x as [|c x]; [discriminate|]. destruct x; discriminate.
      * cbn [t' skipn Nat.add]. apply reads_lines_end. apply spaces_all. repeat constructor.
Qed.

(** ** Negated rules that read far *)

Definition far_syntax : syntax := Syn
  [RSequence [RNot (RNot (RSequence [RRepeat (RTag [97%N] false false None 5%N) true 4%N; RTag [98%N] false false None 6%N] 3%N) 2%N) 1%N;
              RUntilAny [] true None 7%N] 0%N] [[102%N]].

Lemma many_a : forall k p s ind, exists tr, ~ starts_with s [97%N] ->
  reads_many std_ext (s_rules far_syntax) (RTag [97%N] false false None 5%N) ind p (repeat 97%N k ++ s) k k [] ind tr.
Proof.
  induction k as [|k IH]; intros p s ind.
  - eexists. intros Hs. apply reads_many_stop, reads_tag_no, Hs.
  - destruct (IH (p + 1) s ind) as [tr Htr]. eexists. intros Hs. change (S k) with (1 + k) at 3. change (@nil tok) with (@nil tok ++ @nil tok).
    eapply reads_many_step; [apply reads_tag; exists (repeat 97%N k ++ s); reflexivity|]. exact (Htr Hs).
Qed.

Lemma not_far k : 1 <= k -> exists s text text' e tk tk',
  (forall t no inverted property id, occurs s (RTag t no inverted property id) -> length t <= 1) /\
  (forall r indented id, ~ occurs s (RLines r indented id)) /\ (forall empty property id, ~ occurs s (RText empty property id)) /\
  firstn (depth e + k) text' = firstn (depth e + k) text /\
  parse_returns std_ext s text [] indent_default (Some e) tk /\ parse_returns std_ext s text' [] indent_default None tk'.
Proof.
  intros Hk. set (t := repeat 97%N k ++ [99%N]). set (t' := repeat 97%N k ++ [98%N]).
  exists far_syntax, t, t', (Rng 0 0, DidNotExpectTag [] 1%N).
  destruct (many_a k 0 [99%N] indent_default) as [tr Htr].
  destruct (many_a k 0 [98%N] indent_default) as [tr' Htr'].
  assert (Hs : ~ starts_with [99%N] [97%N]) by (intros [x Hx]; discriminate).
  assert (Hs' : ~ starts_with [98%N] [97%N]) by (intros [x Hx]; discriminate).
  assert (Hn : skipn k t = [99%N]) by (unfold t; rewrite skipn_app, repeat_length, Nat.sub_diag, skipn_all2 by (rewrite repeat_length; lia); reflexivity).
  assert (Hn' : skipn k t' = [98%N]) by (unfold t'; rewrite skipn_app, repeat_length, Nat.sub_diag, skipn_all2 by (rewrite repeat_length; lia); reflexivity).
  destruct (fails_with std_ext far_syntax t [] indent_default [(Rng 0 0, DidNotExpectTag [] 1%N)] (Rng 0 0, DidNotExpectTag [] 1%N)) as [tk Htk].
  - exact std_ext_ok.
  - eapply rejects_fail; [exists []; reflexivity|]. constructor. apply reads_seq_no.
    change (@nil char) with (firstn 0 t). eapply reads_not_no. eapply reads_not. constructor.
    change No with (after k (@nil tok) No). eapply reads_seq_cons.
    + eapply reads_repeat; [exact (Htr Hs)|left; reflexivity].
    + apply reads_seq_no. apply reads_tag_no. intros [x Hx]. pose proof (eq_trans (eq_sym Hn) Hx) as Hx'. discriminate.
  - apply only_error. reflexivity.
  - exists tk, (@nil tok). split; [|split; [|split]].
    { assert (Ho : forall c, occurs far_syntax c -> (match c with RTag x _ _ _ _ => Nat.leb (length x) 1 | _ => true end) = true) by (apply all_rules_spec; reflexivity).
      intros x no inverted property id Hc. apply Ho in Hc. apply Nat.leb_le, Hc. }
    1, 2: apply (plain_check far_syntax); reflexivity.
    split; [|split; [exact Htk|]].
    + unfold t, t'. change (depth (Rng 0 0, DidNotExpectTag [] 1%N) + k) with k.
      rewrite !firstn_app, repeat_length, Nat.sub_diag. reflexivity.
    + apply parse_accepts; [exact std_ext_ok|]. exists (@nil tok). split; [|reflexivity].
      econstructor; [exists []; reflexivity|]. constructor.
      change (Yes (length t') []) with (after 0 (@nil tok) (Yes (length t') [])).
      eapply reads_seq_cons.
      * assert (Hin : exists tr1, reads_seq std_ext (s_rules far_syntax) [RRepeat (RTag [97%N] false false None 5%N) true 4%N; RTag [98%N] false false None 6%N]
          indent_default 0 t' (after k [] (after 1 [] (Yes 0 []))) indent_default tr1).
        { eexists. eapply reads_seq_cons; [eapply reads_repeat; [exact (Htr' Hs')|left; reflexivity]|].
          eapply reads_seq_cons; [apply reads_tag; exists []; exact Hn'|]. constructor. }
        destruct Hin as [tr1 Hin]. eapply reads_not. eapply reads_not_no. constructor. exact Hin.
      * cbn [skipn]. replace (Yes (length t') []) with (after (length t') (@nil tok) (Yes 0 [])) by (unfold after; rewrite Nat.add_0_r; reflexivity).
        eapply reads_seq_cons; [|constructor].
        apply reads_until; [|left; reflexivity]. split; [apply Nat.le_refl|]. split; [apply Forall_forall; intros c _ []|].
        intros c Hc. exfalso. assert (Hx : nth_error t' (length t') <> None) by (intros Hx; pose proof (eq_trans (eq_sym Hx) Hc); discriminate).
        apply nth_error_Some in Hx. exact (Nat.lt_irrefl _ Hx).
Qed.

(** ** Examples *)

(** A list of numbers in brackets. *)
Definition numbers_syntax : syntax := Syn
  [RSequence [RTag [91%N] false false None 1%N;
              RSeparateBy (RNumber false (Some [110%N]) 2%N) (RTag [44%N] false false None 3%N) true false 4%N;
              RTag [93%N] false false None 5%N] 0%N] [[110%N]].

Lemma numbers_error : exists tk, parse_returns std_ext numbers_syntax (s2l "[1,x] ") [] indent_default (Some (Rng 3 0, ExpectedNumber 2%N)) tk.
Proof. eexists. exists 20. vm_compute. reflexivity. Qed.

Lemma numbers_unrepaired rest :
  exists tk, parse_returns std_ext numbers_syntax (s2l "[1,x] " ++ rest) [] indent_default (Some (Rng 3 0, ExpectedNumber 2%N)) tk.
Proof.
  destruct numbers_error as [tk H]. destruct (plain_check numbers_syntax eq_refl) as [Ha Hb].
  eapply (ahead_front std_ext numbers_syntax 3); [exact std_ext_ok|apply looks_ahead_check; [reflexivity|lia]|exact Ha|exact Hb| |exact H].
  reflexivity.
Qed.

Lemma lines_error : exists tk, parse_returns std_ext break_syntax (s2l "a" ++ newline :: s2l "b") [] indent_default (Some (Rng 2 0, ExpectedEnd)) tk.
Proof. eexists. exists 20. vm_compute. reflexivity. Qed.

Lemma lines_unrepaired rest :
  exists tk, parse_returns std_ext break_syntax (s2l "a" ++ newline :: s2l "b" ++ rest) [] indent_default (Some (Rng 2 0, ExpectedEnd)) tk.
Proof.
  destruct lines_error as [tk H].
  eapply (ahead_parse std_ext break_syntax 1); [exact std_ext_ok|apply looks_ahead_check; [reflexivity|lia]| |exact H].
  constructor.
  - reflexivity.
  - intros _ _ _ _. exists 2, 98%N. split; [cbn; lia|]. split; [reflexivity|]. split; [discriminate|reflexivity].
  - intros empty property id Ho. exfalso.
    assert (Hx : forall c, occurs break_syntax c -> (match c with RText _ _ _ => false | _ => true end) = true) by (apply all_rules_spec; reflexivity).
    apply Hx in Ho. discriminate.
Qed.
