(** C61: what counts in front of a line of an indented block. *)
From Coq Require Import List NArith Bool Arith Lia.
From Verif Require Import Base Ext Types PegSpec PrimProofs RuleSpec RuleProofs LinesProofs TabSpec.
Import ListNotations.

Lemma blank_width T c : (width T [c] = if N.eqb c tab then T else 1)%N.
Proof. cbn. lia. Qed.

Lemma width_app T a b : (width T (a ++ b) = width T a + width T b)%N.
Proof. induction a as [|c a IH]; cbn [width app]; lia. Qed.

Lemma reaches_nil T c : reaches T c [] <-> c = 0%N.
Proof.
  split.
  - intros (_ & H & _). cbn in H. lia.
  - intros ->. repeat split; [constructor|cbn; lia|].
    intros a' b' H Hb. symmetry in H. apply app_eq_nil in H as [_ ->]. contradiction.
Qed.

Lemma reaches_cons T c x a : reaches T c (x :: a) <->
  blank x /\ (0 < c)%N /\ reaches T (c - width T [x]) a.
Proof.
  change (x :: a) with ([x] ++ a). split.
  - intros (Hb & Hw & Hp). rewrite width_app in Hw. cbn [app] in Hb. inversion Hb as [|? ? Hx Ha]; subst.
    split; [exact Hx|]. split; [pose proof (Hp [] (x :: a) eq_refl ltac:(discriminate)); cbn in *; lia|].
    split; [exact Ha|]. split; [lia|]. intros a' b' -> Hn.
    specialize (Hp ([x] ++ a') b' eq_refl Hn). rewrite width_app in Hp. 
    destruct a' as [|y a']; [|lia]. cbn [width] in *. lia.
  - intros (Hx & Hc & Ha & Hw & Hp). split; [constructor; assumption|]. rewrite width_app. split; [lia|].
    intros [|y a'] b' He Hn; [cbn; lia|]. injection He as <- ->. specialize (Hp a' b' eq_refl Hn).
    change (x :: a') with ([x] ++ a'). rewrite width_app. lia.
Qed.

Lemma indentation_reaches T n s k : indentation T n s k <->
  exists a y, s = a ++ y /\ length a = k /\ reaches T n a.
Proof.
  split.
  - induction 1 as [s|n s k Hn H IH|n s k Hn H IH|n s Hn].
    + exists [], s. repeat split; [constructor|cbn; lia|].
      intros a' b' H Hb. symmetry in H. apply app_eq_nil in H as [_ ->]. contradiction.
    + destruct IH as (a & y & -> & <- & Ha). exists (space :: a), y. split; [reflexivity|]. split; [reflexivity|].
      apply reaches_cons. split; [left; reflexivity|]. split; [exact Hn|]. exact Ha.
    + destruct IH as (a & y & -> & <- & Ha). exists (tab :: a), y. split; [reflexivity|]. split; [reflexivity|].
      apply reaches_cons. split; [right; reflexivity|]. split; [lia|].
      rewrite blank_width. exact Ha.
    + exists [tab], s. split; [reflexivity|]. split; [reflexivity|].
      apply reaches_cons. split; [right; reflexivity|]. split; [lia|]. apply reaches_nil.
      rewrite blank_width. change (N.eqb tab tab) with true. cbn iota. lia.
  - intros (a & y & -> & <- & Ha). revert n Ha. induction a as [|c a IH]; intros n Ha.
    + apply reaches_nil in Ha. subst n. constructor.
    + apply reaches_cons in Ha as (Hb & Hn & Ha). rewrite blank_width in Ha. cbn [app length].
      destruct Hb as [-> | ->].
      * change (N.eqb space tab) with false in Ha. cbn iota in Ha. apply indentation_space; auto.
      * change (N.eqb tab tab) with true in Ha. cbn iota in Ha.
        destruct (N.lt_ge_cases T n) as [Ht|Ht].
        -- apply indentation_tab; auto.
        -- replace (n - T)%N with 0%N in Ha by lia. destruct a as [|c a].
           ++ apply indentation_tab_last. lia.
           ++ apply reaches_cons in Ha as (_ & H0 & _). lia.
Qed.

(** The blanks that reach a column are unique. *)
Lemma reaches_unique T c s : forall a y b z, s = a ++ y -> s = b ++ z ->
  reaches T c a -> reaches T c b -> a = b.
Proof.
  revert c. induction s as [|x s IH]; intros c a y b z Ha Hb Hra Hrb.
  - symmetry in Ha, Hb. apply app_eq_nil in Ha as [-> _]. apply app_eq_nil in Hb as [-> _]. reflexivity.
  - destruct a as [|x1 a], b as [|x2 b]; [reflexivity| | |].
    + apply reaches_nil in Hra. apply reaches_cons in Hrb as (_ & H & _). lia.
    + apply reaches_nil in Hrb. apply reaches_cons in Hra as (_ & H & _). lia.
    + injection Ha as <- Ha. injection Hb as <- Hb. f_equal.
      apply reaches_cons in Hra as (_ & _ & Hra). apply reaches_cons in Hrb as (_ & _ & Hrb).
      eapply IH; eassumption.
Qed.

(** Blanks that are wide enough begin with blanks that reach the column. *)
Lemma reaches_exists T a : Forall blank a -> forall c, (c <= width T a)%N ->
  exists a1 a2, a = a1 ++ a2 /\ reaches T c a1.
Proof.
  induction 1 as [|x a Hx Ha IH]; intros c Hc.
  - exists [], []. split; [reflexivity|]. apply reaches_nil. cbn in Hc. lia.
  - destruct (N.eq_dec c 0) as [->|Hn].
    + exists [], (x :: a). split; [reflexivity|]. apply reaches_nil. reflexivity.
    + change (x :: a) with ([x] ++ a) in Hc. rewrite width_app in Hc.
      destruct (IH (c - width T [x])%N ltac:(lia)) as (a1 & a2 & -> & H).
      exists (x :: a1), a2. split; [reflexivity|]. apply reaches_cons. repeat split; try assumption; [lia|apply H..].
Qed.

(** Blanks in front of something else. *)
Lemma blanks_split a x b y : Forall blank a -> no_blank_ahead x -> a ++ x = b ++ y -> Forall blank b ->
  exists b', a = b ++ b' /\ y = b' ++ x.
Proof.
  intros Ha Hx. revert b y. induction Ha as [|c a Hc Ha IH]; intros b y He Hb.
  - destruct b as [|d b]; [exists []; auto|]. exfalso. cbn in He. rewrite He in Hx.
    inversion Hb as [|? ? Hd Hb']; subst. exact (Hx d eq_refl Hd).
  - destruct b as [|d b]; [exists (c :: a); cbn in *; auto|].
    injection He as <- He. inversion Hb as [|? ? Hd Hb']; subst.
    destruct (IH b y He Hb') as (b' & -> & ->). exists b'. auto.
Qed.

Lemma no_space_app b x : no_blank_ahead x -> (no_space_ahead (b ++ x) <-> no_space_ahead b).
Proof.
  intros Hx. unfold no_space_ahead. destruct b as [|c b]; [|reflexivity]. cbn [app].
  split; [discriminate|]. intros _ H. apply (Hx _ H). left. reflexivity.
Qed.

Lemma space_ahead x : starts_with x [space] <-> ~ no_space_ahead x.
Proof.
  unfold no_space_ahead. split.
  - intros (rest & ->). intros H. apply H. reflexivity.
  - intros H. destruct x as [|c x]; [exfalso; apply H; discriminate|].
    destruct (N.eq_dec c space) as [->|Hn]; [exists x; reflexivity|]. exfalso. apply H. cbn. congruence.
Qed.

Lemma skipn_past {A} (a b : list A) : skipn (length a) (a ++ b) = b.
Proof. rewrite skipn_app, skipn_all, Nat.sub_diag. reflexivity. Qed.

Lemma firstn_length_app {A} (a b : list A) : firstn (length a) (a ++ b) = a.
Proof. rewrite firstn_app, firstn_all, Nat.sub_diag, app_nil_r. reflexivity. Qed.

Section Line.
  Variable one : indent -> nat -> str -> verdict -> indent -> Prop.

  (** A line once the column is settled. *)
  Theorem settled_line_iff ind fresh p a x v st' :
    fresh && i_align_first ind = false -> (i_indent ind < u32_max)%N ->
    Forall blank a -> no_blank_ahead x ->
    (indented_line one (ind, fresh) p (a ++ x) v st' <->
     ((width (i_tab_spaces ind) a < i_indent ind)%N /\ v = No /\ st' = (ind, fresh)) \/
     exists a1 a2, a = a1 ++ a2 /\ reaches (i_tab_spaces ind) (i_indent ind) a1 /\
       ((hd_error a2 = Some space /\ v = No /\ st' = (ind, fresh)) \/
        (hd_error a2 <> Some space /\ exists v0 ind',
           one (set_indent ind (i_indent ind + 1)) (p + length a1) (a2 ++ x) v0 ind' /\
           v = after (length a1) [] v0 /\ st' = (set_indent ind' (i_indent ind), fresh)))).
  Proof.
    intros Hf Hu Ha Hx. set (T := i_tab_spaces ind). set (c := i_indent ind).
    assert (Hsp : forall a1 a2, a = a1 ++ a2 -> forall k, k = length a1 -> skipn k (a ++ x) = a2 ++ x).
    { intros a1 a2 -> k ->. rewrite <- app_assoc. apply skipn_past. }
    split.
    - intros H. inversion H as [i0 f0 q0 s0 Hsh|i0 f0 q0 s0 k Hfa Hi Hs|i0 f0 q0 s0 k v0 ind' Hfa Hi Hs Hu' Ho|i0 q0 s0 k b0 col v0 ind' Hal Hi Hb Hcol Hu' Ho]; subst.
      + left. split; [|split; reflexivity]. destruct (N.lt_ge_cases (width T a) c) as [Hw|Hw]; [exact Hw|].
        exfalso. destruct (reaches_exists T a Ha c Hw) as (a1 & a2 & He & Hr).
        apply (Hsh (length a1)). apply indentation_reaches. exists a1, (a2 ++ x).
        rewrite He, <- app_assoc. auto.
      + right. apply indentation_reaches in Hi as (a1 & y & He & Hk & Hr).
        destruct (blanks_split a x a1 y Ha Hx He (proj1 Hr)) as (a2 & Hq & ->).
        exists a1, a2. split; [exact Hq|]. split; [exact Hr|]. left.
        rewrite (Hsp a1 a2 Hq _ (eq_sym Hk)) in Hs. split; [|split; reflexivity].
        destruct Hs as (rest & Hs). destruct a2 as [|d a2]; cbn in Hs.
        * exfalso. apply (Hx space); [rewrite Hs; reflexivity|left; reflexivity].
        * injection Hs as -> _. reflexivity.
      + right. apply indentation_reaches in Hi as (a1 & y & He & Hk & Hr).
        destruct (blanks_split a x a1 y Ha Hx He (proj1 Hr)) as (a2 & Hq & ->).
        exists a1, a2. split; [exact Hq|]. split; [exact Hr|]. right.
        rewrite (Hsp a1 a2 Hq _ (eq_sym Hk)) in *. split.
        * intros Hd. apply Hs. destruct a2 as [|d a2]; [discriminate|]. injection Hd as ->. exists (a2 ++ x). reflexivity.
        * exists v0, ind'. subst k. auto.
      + rewrite Hal in Hf. discriminate.
    - intros [(Hw & -> & ->)|(a1 & a2 & Hq & Hr & [(Hs & -> & ->)|(Hs & v0 & ind' & Ho & -> & ->)])].
      + apply indented_short. intros k Hk. apply indentation_reaches in Hk as (a1 & y & He & _ & Hr).
        destruct (blanks_split a x a1 y Ha Hx He (proj1 Hr)) as (a2 & -> & _).
        destruct Hr as (_ & Hr & _). rewrite width_app in Hw. fold T c in Hr. lia.
      + apply indented_deep with (k := length a1); [exact Hf| |].
        * apply indentation_reaches. exists a1, (a2 ++ x). rewrite Hq, <- app_assoc. auto.
        * rewrite (Hsp a1 a2 Hq _ eq_refl). destruct a2 as [|d a2]; [discriminate|].
          injection Hs as ->. exists (a2 ++ x). reflexivity.
      + apply indented_exact with (k := length a1); try assumption.
        * apply indentation_reaches. exists a1, (a2 ++ x). rewrite Hq, <- app_assoc. auto.
        * rewrite (Hsp a1 a2 Hq _ eq_refl). intros H. apply space_ahead in H. apply H.
          apply (no_space_app a2 x Hx). exact Hs.
        * rewrite (Hsp a1 a2 Hq _ eq_refl). exact Ho.
  Qed.

  (** The first line of a block that aligns. *)
  Theorem first_line_iff ind p a x v st' :
    i_align_first ind = true -> (i_indent ind + width (i_tab_spaces ind) a < u32_max)%N ->
    Forall blank a -> no_blank_ahead x ->
    (indented_line one (ind, true) p (a ++ x) v st' <->
     ((width (i_tab_spaces ind) a < i_indent ind)%N /\ v = No /\ st' = (ind, true)) \/
     exists a1 a2 column v0 ind', a = a1 ++ a2 /\ reaches (i_tab_spaces ind) (i_indent ind) a1 /\
       column = (i_indent ind + width (i_tab_spaces ind) a2)%N /\
       one (set_indent ind (column + 1)) (p + length a) x v0 ind' /\
       v = after (length a) [] v0 /\ st' = (set_indent ind' column, false)).
  Proof.
    intros Hal Hu Ha Hx. set (T := i_tab_spaces ind) in *. set (c := i_indent ind) in *.
    assert (Hsp : forall a1 a2, a = a1 ++ a2 -> forall k, k = length a1 -> skipn k (a ++ x) = a2 ++ x).
    { intros a1 a2 -> k ->. rewrite <- app_assoc. apply skipn_past. }
    assert (Hbl : forall a2, Forall blank a2 -> forall b, longest blank (a2 ++ x) b <-> b = length a2).
    { induction 1 as [|d a2 Hd Ha2 IH]; intros b.
      - cbn [app length]. destruct x as [|d x]; [apply longest_nil|].
        split; [|intros ->; apply longest_0; apply Hx; reflexivity].
        destruct b as [|b]; [reflexivity|]. intros H. apply longest_S in H as [H _]. destruct (Hx d eq_refl H).
      - cbn [app length]. destruct b as [|b].
        + split; [|discriminate]. intros H. apply longest_0 in H. contradiction.
        + rewrite longest_S, IH. split; [intros [_ ->]; reflexivity|intros [= ->]; auto]. }
    split.
    - intros H. inversion H as [i0 f0 q0 s0 Hsh|i0 f0 q0 s0 k Hfa Hi Hs|i0 f0 q0 s0 k v0 ind' Hfa Hi Hs Hu' Ho|i0 q0 s0 k b0 col v0 ind' Hal' Hi Hb Hcol Hu' Ho]; subst.
      + left. split; [|split; reflexivity]. destruct (N.lt_ge_cases (width T a) c) as [Hw|Hw]; [exact Hw|].
        exfalso. destruct (reaches_exists T a Ha c Hw) as (a1 & a2 & He & Hr).
        apply (Hsh (length a1)). apply indentation_reaches. exists a1, (a2 ++ x).
        rewrite He, <- app_assoc. auto.
      + rewrite Hal in Hfa. discriminate.
      + rewrite Hal in Hfa. discriminate.
      + right. apply indentation_reaches in Hi as (a1 & y & He & Hk & Hr).
        destruct (blanks_split a x a1 y Ha Hx He (proj1 Hr)) as (a2 & Hq & ->).
        rewrite (Hsp a1 a2 Hq _ (eq_sym Hk)) in *.
        assert (Ha2 : Forall blank a2) by (rewrite Hq in Ha; apply Forall_app in Ha; apply Ha).
        apply (Hbl a2 Ha2) in Hb. subst b0 k. rewrite firstn_length_app in *.
        assert (Hlen : length a1 + length a2 = length a) by (rewrite Hq, app_length; reflexivity).
        rewrite <- Nat.add_assoc, Hlen, skipn_past in Ho. rewrite Hlen.
        exists a1, a2, (c + width T a2)%N, v0, ind'.
        split; [exact Hq|]. split; [exact Hr|]. split; [reflexivity|]. split; [exact Ho|]. split; reflexivity.
    - intros [(Hw & -> & ->)|(a1 & a2 & column & v0 & ind' & Hq & Hr & Hc & Ho & -> & ->)].
      + apply indented_short. intros k Hk. apply indentation_reaches in Hk as (a1 & y & He & _ & Hr).
        destruct (blanks_split a x a1 y Ha Hx He (proj1 Hr)) as (a2 & -> & _).
        destruct Hr as (_ & Hr & _). rewrite width_app in Hw. fold T c in Hr. lia.
      + assert (Ha2 : Forall blank a2) by (rewrite Hq in Ha; apply Forall_app in Ha; apply Ha).
        assert (Hlen : length a1 + length a2 = length a) by (rewrite Hq, app_length; reflexivity).
        rewrite <- Hlen. apply (indented_first one ind p (a ++ x) (length a1) (length a2) column v0 ind'); try assumption.
        * apply indentation_reaches. exists a1, (a2 ++ x). rewrite Hq, <- app_assoc. auto.
        * rewrite (Hsp a1 a2 Hq _ eq_refl). apply (Hbl a2 Ha2). reflexivity.
        * rewrite (Hsp a1 a2 Hq _ eq_refl), firstn_length_app. exact Hc.
        * rewrite Hq, width_app in Hu. lia.
        * rewrite <- Nat.add_assoc, Hlen, skipn_past. exact Ho.
  Qed.
End Line.

(** ** The same indentation again *)

Lemma width_tabs T a : Forall (fun c => c = tab) a -> width T a = (N.of_nat (length a) * T)%N.
Proof.
  induction 1 as [|c a -> Ha IH]; [reflexivity|]. cbn [width length]. rewrite IH.
  change (N.eqb tab tab) with true. cbn iota. lia.
Qed.

Lemma width_all_spaces T a : Forall (fun c => c = space) a -> width T a = N.of_nat (length a).
Proof.
  induction 1 as [|c a -> Ha IH]; [reflexivity|]. cbn [width length]. rewrite IH.
  change (N.eqb space tab) with false. cbn iota. lia.
Qed.

Lemma width_blanks T a : (0 < T)%N -> (N.of_nat (length a) <= width T a)%N.
Proof.
  intros HT. induction a as [|c a IH]; [cbn; lia|]. cbn [width length]. destruct (N.eqb c tab); lia.
Qed.

Lemma reaches_width T a : (0 < T)%N -> Forall blank a -> reaches T (width T a) a.
Proof.
  intros HT Ha. split; [exact Ha|]. split; [lia|]. intros a' b' -> Hb. rewrite width_app.
  pose proof (width_blanks T b' HT). destruct b'; [contradiction|]. cbn [length] in *. lia.
Qed.

Lemma reaches_exact T outer a1 a2 a' b' : (0 < T)%N -> reaches T outer a1 -> a1 ++ a2 = a' ++ b' ->
  width T a' = outer -> width T a1 = outer.
Proof.
  intros HT (Hb & Hw & Hp) He Hq. apply app_eq_app in He as (d & [[Ha Hd]|[Ha Hd]]).
  - destruct d as [|x d]; [rewrite app_nil_r in Ha; subst; lia|].
    pose proof (Hp _ _ Ha ltac:(discriminate)). lia.
  - rewrite Ha, width_app in Hq. lia.
Qed.

Lemma clean_reaches T outer a1 a2 : (0 < T)%N -> Forall blank (a1 ++ a2) -> reaches T outer a1 ->
  clean T outer (a1 ++ a2) -> reaches T (outer + width T a2) (a1 ++ a2).
Proof.
  intros HT Hb Hr Hc.
  assert (Hex : width T a1 = outer -> reaches T (outer + width T a2) (a1 ++ a2)).
  { intros <-. rewrite <- width_app. apply reaches_width; assumption. }
  destruct Hc as [(a' & b' & He & Hq)|[Ht|Hs]].
  - apply Hex. eapply reaches_exact; eassumption.
  - split; [exact Hb|]. rewrite width_app. destruct Hr as (_ & Hw & Hp). split; [lia|].
    intros a' b' He Hn.
    assert (Ht' : Forall (fun c => c = tab) a') by (rewrite He in Ht; apply Forall_app in Ht; apply Ht).
    assert (Hb' : Forall (fun c => c = tab) b') by (rewrite He in Ht; apply Forall_app in Ht; apply Ht).
    apply Forall_app in Ht as [Ht1 Ht2].
    apply (f_equal (@length _)) in He. rewrite !app_length in He.
    rewrite (width_tabs T a' Ht'), (width_tabs T a2 Ht2).
    destruct (rev a1) as [|d r] eqn:Hrev.
    + assert (a1 = []) as -> by (rewrite <- (rev_involutive a1), Hrev; reflexivity).
      cbn in *. assert (length a' < length a2) by (destruct b'; [contradiction|cbn in He; lia]).
      assert (outer = 0)%N as -> by lia. nia.
    + assert (Ha1 : a1 = rev r ++ [d]) by (rewrite <- (rev_involutive a1), Hrev; reflexivity).
      specialize (Hp _ _ Ha1 ltac:(discriminate)).
      assert (Ht3 : Forall (fun c => c = tab) (rev r)) by (rewrite Ha1 in Ht1; apply Forall_app in Ht1; apply Ht1).
      rewrite (width_tabs T _ Ht3) in Hp. rewrite Ha1, app_length in He. cbn [length] in He.
      assert (length a' <= length (rev r) + length a2) by (destruct b'; [contradiction|cbn in He; lia]). nia.
  - apply Hex. apply Forall_app in Hs as [Hs1 Hs2]. destruct Hr as (_ & Hw & Hp).
    rewrite (width_all_spaces T a1 Hs1) in *. destruct (rev a1) as [|d r] eqn:Hrev.
    + assert (a1 = []) as -> by (rewrite <- (rev_involutive a1), Hrev; reflexivity). cbn in *. lia.
    + assert (Ha1 : a1 = rev r ++ [d]) by (rewrite <- (rev_involutive a1), Hrev; reflexivity).
      specialize (Hp _ _ Ha1 ltac:(discriminate)).
      assert (Hs3 : Forall (fun c => c = space) (rev r)) by (rewrite Ha1 in Hs1; apply Forall_app in Hs1; apply Hs1).
      rewrite (width_all_spaces T _ Hs3) in Hp. rewrite Ha1, app_length in *. cbn [length] in *. lia.
Qed.

Section Blocks.
  Variables (E : ext) (refs : list rule) (r : rule).

  (** A later line that is indented as the first one belongs to the block. *)
  Theorem same_indentation ind p a x v ind1 :
    (0 < i_tab_spaces ind)%N -> i_align_first ind = true ->
    (i_indent ind + width (i_tab_spaces ind) a < u32_max)%N ->
    Forall blank a -> no_blank_ahead x -> clean (i_tab_spaces ind) (i_indent ind) a ->
    indented_line (runs E refs r) (ind, true) p (a ++ x) v (ind1, false) ->
    forall p' y v' st', no_blank_ahead y ->
    (indented_line (runs E refs r) (ind1, false) p' (a ++ y) v' st' <->
     exists v0 ind2, runs E refs r (set_indent ind1 (i_indent ind1 + 1)) (p' + length a) y v0 ind2 /\
       v' = after (length a) [] v0 /\ st' = (set_indent ind2 (i_indent ind1), false)).
  Proof.
    intros HT Hal Hu Ha Hx Hc H p' y v' st' Hy.
    apply (first_line_iff _ ind p a x v (ind1, false) Hal Hu Ha Hx) in H as [(_ & _ & H)|H]; [discriminate|].
    destruct H as (a1 & a2 & column & v0 & ind' & Hq & Hr & Hcol & Ho & _ & [= ->]).
    pose proof (runs_mode _ _ _ _ _ _ _ _ Ho) as [Hm1 Hm2]. cbn [set_indent i_tab_spaces i_align_first] in Hm1, Hm2.
    rewrite Hq in Ha, Hc. pose proof (clean_reaches _ _ _ _ HT Ha Hr Hc) as Hre. rewrite <- Hcol, <- Hq in Hre.
    rewrite <- Hq in Ha. set (ind1 := set_indent ind' column).
    assert (Hci : i_indent ind1 = column) by reflexivity.
    assert (Hti : i_tab_spaces ind1 = i_tab_spaces ind) by exact Hm1.
    assert (Hlt : (i_indent ind1 < u32_max)%N).
    { rewrite Hci, Hcol. rewrite Hq, width_app in Hu. lia. }
    rewrite (settled_line_iff _ ind1 false p' a y v' st' eq_refl Hlt Ha Hy). rewrite Hti, Hci. split.
    - intros [(Hw & _)|(b1 & b2 & Hb & Hrb & Hcase)].
      + destruct Hre as (_ & Hre & _). lia.
      + assert (b1 = a).
        { eapply (reaches_unique _ column a b1 b2 a []); [exact Hb|rewrite app_nil_r; reflexivity|exact Hrb|exact Hre]. }
        subst b1. assert (b2 = []) as -> by (apply (app_inv_head a); rewrite app_nil_r; symmetry; exact Hb).
        destruct Hcase as [(Hs & _)|(_ & v1 & ind2 & H1 & H2 & H3)]; [discriminate|]. eauto.
    - intros (v1 & ind2 & H1 & H2 & H3). right. exists a, []. split; [rewrite app_nil_r; reflexivity|].
      split; [exact Hre|]. right. split; [discriminate|]. eauto.
  Qed.

  (** *** Columns of the lines of a block *)

  Lemma reaches_no_space a1 y T c : reaches T c a1 -> no_space_ahead y -> line_at T c (a1 ++ y).
  Proof. intros. exists a1, y. auto. Qed.

  Lemma settled_at ind fresh p s v st' :
    fresh && i_align_first ind = false ->
    indented_line (runs E refs r) (ind, fresh) p s v st' ->
    (same_mode ind (fst st') /\ i_indent (fst st') = i_indent ind /\ snd st' = fresh) /\
    forall n out, v = Yes n out -> line_at (i_tab_spaces ind) (i_indent ind) (firstn n s).
  Proof.
    intros Hf H.
    inversion H as [i0 f0 q0 s0 Hsh|i0 f0 q0 s0 k Hfa Hi Hs|i0 f0 q0 s0 k v0 ind' Hfa Hi Hs Hu' Ho|i0 q0 s0 k b0 col v0 ind' Hal Hi Hb Hcol Hu' Ho]; subst.
    - repeat split. discriminate.
    - repeat split. discriminate.
    - apply runs_mode in Ho as [Hm1 Hm2]. split; [split; [split; assumption|split; reflexivity]|].
      intros n out Hv. destruct v0 as [m o|]; [|discriminate]. injection Hv as <- _.
      apply indentation_reaches in Hi as (a & y & -> & <- & Hr). rewrite skipn_past in *.
      exists a, (firstn m y). rewrite firstn_app, firstn_all2 by lia.
      replace (length a + m - length a) with m by lia. split; [reflexivity|]. split; [exact Hr|].
      intros Hd. apply hd_firstn in Hd. apply Hs. apply space_ahead. intros Hn. exact (Hn Hd).
    - rewrite Hal in Hf. discriminate.
  Qed.

  Lemma first_at ind p s v st' : i_align_first ind = true ->
    indented_line (runs E refs r) (ind, true) p s v st' ->
    (v = No /\ st' = (ind, true)) \/
    exists c, same_mode ind (fst st') /\ i_indent (fst st') = c /\ snd st' = false /\ (i_indent ind <= c)%N /\
      forall n out, v = Yes n out -> first_line_at (i_tab_spaces ind) (i_indent ind) c (firstn n s).
  Proof.
    intros Hal H.
    inversion H as [i0 f0 q0 s0 Hsh|i0 f0 q0 s0 k Hfa Hi Hs|i0 f0 q0 s0 k v0 ind' Hfa Hi Hs Hu' Ho|i0 q0 s0 k b0 col v0 ind' Hal' Hi Hb Hcol Hu' Ho]; subst.
    - left. auto.
    - rewrite Hal in Hfa. discriminate.
    - rewrite Hal in Hfa. discriminate.
    - right. eexists. cbn [fst snd set_indent i_indent]. apply runs_mode in Ho as [Hm1 Hm2].
      split; [split; assumption|]. split; [reflexivity|]. split; [reflexivity|]. split; [lia|].
      intros n out Hv. destruct v0 as [m o|]; [|discriminate]. injection Hv as <- _.
      apply indentation_reaches in Hi as (a & y & -> & <- & Hr). rewrite skipn_past in *.
      exists a, (firstn b0 y), (firstn m (skipn b0 y)).
      assert (Hbl : b0 <= length y) by apply Hb.
      split.
      { rewrite firstn_app, firstn_all2 by lia. f_equal. replace (length a + b0 + m - length a) with (b0 + m) by lia.
        rewrite <- (firstn_skipn b0 y) at 1. rewrite firstn_app, firstn_all2 by (rewrite firstn_length; lia).
        f_equal. rewrite firstn_length. f_equal. lia. }
      split; [exact Hr|]. split; [apply Hb|]. split; [|reflexivity].
      intros d Hd. apply hd_firstn in Hd. destruct Hb as (_ & _ & Hb). apply Hb.
      rewrite <- (firstn_skipn b0 y). rewrite nth_error_app2 by (rewrite firstn_length; lia).
      rewrite firstn_length. replace (b0 - Init.Nat.min b0 (length y)) with 0 by lia.
      destruct (skipn b0 y); [discriminate|exact Hd].
  Qed.

  Lemma settled_block ind fresh prev p s items v st' :
    fresh && i_align_first ind = false ->
    block (indented_line (runs E refs r)) prev (ind, fresh) p s items v st' ->
    i_indent (fst st') = i_indent ind /\
    Forall (line_at (i_tab_spaces ind) (i_indent ind)) (map snd items).
  Proof.
    intros Hf H. remember (ind, fresh) as st eqn:Hst. revert ind fresh Hf Hst.
    induction H as [prev st p s Hw|prev st p gap rest st' Hg Hl|x st p s Hx Hs Hn|
      prev st p gap item rest out st1 items v st2 Hg Hl Hb IH]; intros ind fresh Hf ->.
    - split; [reflexivity|constructor].
    - apply (settled_at _ _ _ _ _ _ Hf) in Hl as [(_ & Hi & _) _]. split; [exact Hi|constructor].
    - split; [reflexivity|constructor].
    - apply (settled_at _ _ _ _ _ _ Hf) in Hl as [((Hm1 & Hm2) & Hi & Hfr) Hat].
      destruct st1 as [ind1 fresh1]. cbn [fst snd] in *.
      destruct (IH ind1 fresh1) as [Hi2 Hall]; [subst; rewrite Hm2; exact Hf|reflexivity|].
      rewrite Hi, Hm1 in *. split; [exact Hi2|]. cbn [map snd]. constructor; [|exact Hall].
      specialize (Hat _ _ eq_refl). rewrite firstn_app, firstn_all2 in Hat by lia.
      rewrite Nat.sub_diag, app_nil_r in Hat. exact Hat.
  Qed.

  Theorem block_tab_columns ind p s items v st' :
    block (indented_line (runs E refs r)) None (ind, true) p s items v st' ->
    if i_align_first ind
    then items = [] \/
      exists c gap item rest, items = (gap, item) :: rest /\
        i_indent (fst st') = c /\
        first_line_at (i_tab_spaces ind) (i_indent ind) c item /\
        Forall (line_at (i_tab_spaces ind) c) (map snd rest)
    else i_indent (fst st') = i_indent ind /\
      Forall (line_at (i_tab_spaces ind) (i_indent ind)) (map snd items).
  Proof.
    destruct (i_align_first ind) eqn:Hal; intros H.
    - inversion H as [prev st p0 s0 Hw|prev st p0 gap rest st0 Hg Hl|x st p0 s0 Hx Hs Hn|
        prev st p0 gap item rest out st1 items0 v0 st2 Hg Hl Hb]; subst; auto.
      right. apply (first_at _ _ _ _ _ Hal) in Hl as [(Hl & _)|(c & (Hm1 & Hm2) & Hi & Hfr & Hle & Hat)]; [discriminate|].
      destruct st1 as [ind1 fresh1]. cbn [fst snd] in *. subst fresh1.
      destruct (settled_block ind1 false _ _ _ _ _ _ eq_refl Hb) as [Hi2 Hall]. rewrite Hi, Hm1 in *.
      exists c, gap, item, items0. split; [reflexivity|]. split; [exact Hi2|]. split; [|exact Hall].
      specialize (Hat _ _ eq_refl). rewrite firstn_app, firstn_all2 in Hat by lia.
      rewrite Nat.sub_diag, app_nil_r in Hat. exact Hat.
    - apply (settled_block ind true _ _ _ _ _ _ Hal H).
  Qed.
End Blocks.

(** ** Inner blocks *)

(** If the blanks of the first line can be cut at the column outside, its column is their width. *)
Theorem exact_column T outer c a x : (0 < T)%N -> Forall blank a -> no_blank_ahead x ->
  (exists a' b', a = a' ++ b' /\ width T a' = outer) ->
  first_line_at T outer c (a ++ x) -> c = width T a.
Proof.
  intros HT Ha Hx (a' & b' & Hq & Hw) (a1 & a2 & y & He & Hr & Hb & Hy & ->).
  assert (Hab : Forall blank (a1 ++ a2)) by (apply Forall_app; split; [apply Hr|exact Hb]).
  rewrite app_assoc in He. destruct (blanks_split a x (a1 ++ a2) y Ha Hx He Hab) as (d & Hd & Hyd).
  destruct d as [|e d].
  - rewrite app_nil_r in Hd. rewrite Hd, width_app. f_equal. symmetry.
    rewrite Hd in Hq. eapply reaches_exact; eassumption.
  - exfalso. rewrite Hyd in Hy. apply (Hy e eq_refl).
    rewrite Hd in Ha. apply Forall_app in Ha as [_ Ha]. inversion Ha; assumption.
Qed.

(** A line that is no wider than the column of a block is not taken by blocks inside. *)
Theorem not_swallowed one ind fresh p a y v st' c :
  (c < i_indent ind)%N -> Forall blank a -> no_blank_ahead y -> (width (i_tab_spaces ind) a <= c)%N ->
  indented_line one (ind, fresh) p (a ++ y) v st' -> v = No /\ st' = (ind, fresh).
Proof.
  intros Hc Ha Hy Hw H.
  assert (Hno : forall k, ~ indentation (i_tab_spaces ind) (i_indent ind) (a ++ y) k).
  { intros k Hk. apply indentation_reaches in Hk as (a1 & z & He & _ & Hr).
    destruct (blanks_split a y a1 z Ha Hy He (proj1 Hr)) as (a2 & -> & _).
    destruct Hr as (_ & Hr & _). rewrite width_app in Hw. lia. }
  inversion H as [i0 f0 q0 s0 Hsh|i0 f0 q0 s0 k Hfa Hi Hs|i0 f0 q0 s0 k v0 ind' Hfa Hi Hs Hu' Ho|i0 q0 s0 k b0 col v0 ind' Hal Hi Hb Hcol Hu' Ho]; subst;
    [auto|destruct (Hno _ Hi)..].
Qed.
