(** C102: the items of a list may be put in any order. *)
From Coq Require Import Ascii String List NArith Bool Arith Lia Permutation.
From Verif Require Import Base Ext Types ParseModel OptimizeModel PegSpec DataSpec ApiSpec OptSpec ExtProofs PegFacts ParseProofs OptPublic
  ParsePublic TotalSpec TotalProofs TotalCheck ShapeSpec GrammarSpec GrammarProofs GrammarCheck GrammarPublic PlaceSpec PlaceProofs PlacePublic
  OccursProofs EditSpec EditProofs ExchangeSpec ExchangeProofs SortSpec JsonSpec JsonProofs3 LeftProofs2 DataCheck AtEnd Examples.
Import ListNotations.
Local Open Scope string_scope.
Local Open Scope list_scope.
Local Open Scope nat_scope.

Lemma kept_refl lo hi ts : Forall2 (kept lo hi) ts ts.
Proof. induction ts; constructor; [split; [reflexivity|intros _; reflexivity]|assumption]. Qed.

Lemma same_data_refl ms : Forall2 same_data ms ms.
Proof. induction ms; constructor; [reflexivity|assumption]. Qed.

Lemma kept_data lo hi ts us : Forall2 (kept lo hi) ts us -> same_data ts us.
Proof. intros K. unfold same_data. induction K as [|t u ts us [K0 _] K2 IH]; cbn; [reflexivity|]. rewrite K0, IH. reflexivity. Qed.

Lemma adjusted_data o n m ts us : Forall2 (adjusted o n m) ts us -> same_data ts us.
Proof. intros K. unfold same_data. induction K as [|t u ts us [K0 _] K2 IH]; cbn; [reflexivity|]. rewrite K0, IH. reflexivity. Qed.

Lemma forall2_trans {A} (R : A -> A -> Prop) : (forall a b c, R a b -> R b c -> R a c) ->
  forall l1 l2 l3, Forall2 R l1 l2 -> Forall2 R l2 l3 -> Forall2 R l1 l3.
Proof.
  intros HR l1 l2 l3 H. revert l3. induction H; intros l3 H3; inversion H3; subst; [constructor|]. constructor; [eapply HR; eassumption|apply IHForall2; assumption].
Qed.

Lemma kept_trans lo hi a b c : kept lo hi a b -> kept lo hi b c -> kept lo hi a c.
Proof.
  intros [H1 H2] [H3 H4]. split; [congruence|]. intros H. specialize (H2 H). subst b. apply H4. exact H.
Qed.

Lemma moved_data k ts : map snd (moved_by k ts) = map snd ts.
Proof. unfold moved_by. rewrite map_map. reflexivity. Qed.

Lemma moved_inj k ts us : moved_by k ts = moved_by k us -> ts = us.
Proof.
  revert us. induction ts as [|[[o n] d] ts IH]; intros [|[[o' n'] d'] us] H; try discriminate; [reflexivity|].
  cbn in H. injection H as H1 H2 H3 H4. f_equal; [|apply IH; exact H4]. subst. do 2 f_equal. lia.
Qed.

Lemma moved_from k ts : Forall (fun t => k <= r_off (fst t)) (moved_by k ts).
Proof. unfold moved_by. apply Forall_map. apply Forall_forall. intros t _. cbn. lia. Qed.

Lemma node_from name o k ts n : k <= o -> Forall (fun t => k <= r_off (fst t)) (node name o (moved_by o ts) n).
Proof.
  intros H. unfold node. constructor; [exact H|]. apply Forall_app. split; [|constructor; [exact H|constructor]].
  eapply Forall_impl; [|apply moved_from]. cbn. lia.
Qed.

(** Both adjustments of an exchange together. *)
Lemma twice_kept o1 n1 o2 n2 t t' t'' : 0 < n1 -> 0 < n2 -> o1 + n1 <= o2 -> adjusted o2 n2 n1 t t' -> adjusted o1 n1 n2 t' t'' ->
  kept o1 (o2 + n2) t t''.
Proof.
  intros P1 P2 H [A1 A2] [B1 B2]. split; [congruence|]. intros Hk.
  destruct t as [[o n] d], t' as [[o' n'] d'], t'' as [[o'' n''] d'']. cbn [fst snd r_off r_len] in *. subst d' d''.
  destruct A2 as [[A2 A3]|(A2 & A3 & _ & A4)].
  - injection A3 as -> ->. destruct B2 as [[B2 B3]|(B2 & B3 & _ & B4)]; [injection B3 as -> ->; do 2 f_equal; lia|lia].
  - injection A4 as -> ->. destruct B2 as [[B2 B3]|(B2 & B3 & _ & B4)]; [injection B3 as -> ->; do 2 f_equal; lia|injection B4 as -> ->; do 2 f_equal; lia].
Qed.

Lemma all_twice_kept o1 n1 o2 n2 ts ts' ts'' : 0 < n1 -> 0 < n2 -> o1 + n1 <= o2 ->
  Forall2 (adjusted o2 n2 n1) ts ts' -> Forall2 (adjusted o1 n1 n2) ts' ts'' -> Forall2 (kept o1 (o2 + n2)) ts ts''.
Proof.
  intros P1 P2 H H1. revert ts''. induction H1; intros ts'' H2; inversion H2; subst; [constructor|]. constructor; [eapply (twice_kept o1 n1 o2 n2); eassumption|apply IHForall2; assumption].
Qed.

Lemma kept_same lo hi ts us : Forall (fun t => hi <= r_off (fst t)) ts -> Forall2 (kept lo hi) ts us -> us = ts.
Proof. intros H K. induction K as [|t u ts us [_ K1] K2 IH]; [reflexivity|]. inversion H; subst. f_equal; [apply K1; right; assumption|apply IH; assumption]. Qed.

Lemma kept_weaken lo hi lo' hi' ts us : lo' <= lo -> hi <= hi' -> Forall2 (kept lo hi) ts us -> Forall2 (kept lo' hi') ts us.
Proof. intros H1 H2 K. induction K as [|t u ts us [K0 K1] K2 IH]; constructor; [split; [exact K0|intros H; apply K1; lia]|exact IH]. Qed.

(** The data behind an exchange. *)
Lemma row_kept name lo hi : forall items p gaps mids out, hi <= p ->
  Forall2 (kept lo hi) (row_data name p gaps mids items) out -> length gaps = length items -> length mids = length items ->
  exists mids', Forall2 same_data mids mids' /\ out = row_data name p gaps mids' items.
Proof.
  induction items as [|[x ts] items IH]; intros p gaps mids out Hp H Hg Hm.
  - destruct gaps; [|discriminate]. destruct mids; [|discriminate]. inversion H. exists []. split; [constructor|reflexivity].
  - destruct gaps as [|g gaps]; [discriminate|]. destruct mids as [|m mids]; [discriminate|]. cbn [row_data] in H.
    apply Forall2_app_inv_l in H as (m' & out1 & H1 & H2 & ->). apply Forall2_app_inv_l in H2 as (nd & out2 & H2 & H3 & ->).
    apply kept_same in H2; [|apply node_from; lia]. subst nd.
    destruct (IH (p + length g + length x) gaps mids out2 ltac:(lia) H3 ltac:(cbn in Hg; lia) ltac:(cbn in Hm; lia)) as (mids' & K1 & ->).
    exists (m' :: mids'). split; [constructor; [eapply kept_data; eassumption|assumption]|]. reflexivity.
Qed.

(** Two parts of a text exchanged. *)
Lemma exchanged_parts (a x g y z : str) :
  exchanged (length a) (length x) (length a + length x + length g) (length y) (a ++ x ++ g ++ y ++ z) = a ++ y ++ g ++ x ++ z.
Proof.
  destruct (edit_parts a x (g ++ y ++ z)) as (A1 & A2 & A3).
  destruct (edit_parts (a ++ x ++ g) y z) as (B1 & B2 & B3).
  repeat (rewrite <- ?app_assoc in B1; rewrite <- ?app_assoc in B2; rewrite <- ?app_assoc in B3).
  rewrite !app_length, Nat.add_assoc in B2, B3.
  unfold exchanged. rewrite A1, A2, A3, B2, B3. replace (length a + length x + length g - (length a + length x)) with (length g) by lia.
  rewrite firstn_app, Nat.sub_diag, firstn_all, firstn_O, app_nil_r. reflexivity.
Qed.

Section Sort.
  Variable E : ext.
  Variable s : syntax.
  Variable r : rule.
  Hypothesis Hr : occurs s r.
  Variable name : str.
  Variable i : nat.
  Hypothesis Hname : names_rule s name i.
  Variable ind : indent.
  Variables lo hi : nat.

  Lemma row_permuted items items' : Permutation items items' -> forall P B gaps mids R A,
    length gaps = length items -> length mids = length items -> Forall item_ok items ->
    lo <= length P + length (hd [] gaps) -> length P + length (row_text gaps items) <= hi ->
    columns_fit ind (P ++ row_text gaps items ++ R) ->
    places E (s_rules s) r 0 (P ++ row_text gaps items ++ R) (B ++ row_data name (length P) gaps mids items ++ A) ->
    exists mids' A', Forall2 same_data mids mids' /\ hd [] mids' = hd [] mids /\ Forall2 (kept lo hi) A A' /\
      length (row_text gaps items') = length (row_text gaps items) /\
      columns_fit ind (P ++ row_text gaps items' ++ R) /\
      places E (s_rules s) r 0 (P ++ row_text gaps items' ++ R) (B ++ row_data name (length P) gaps mids' items' ++ A').
  Proof.
    induction 1 as [|[x ts] l l' Hp IH|[x ts] [y us] l|l l' l'' H1 IH1 H2 IH2]; intros P B gaps mids R A Hg Hm Hok Hlo Hhi Hf H.
    - destruct gaps; [|discriminate]. destruct mids; [|discriminate]. exists [], A. split; [constructor|]. split; [reflexivity|]. split; [apply kept_refl|]. split; [reflexivity|]. split; assumption.
    - destruct gaps as [|g gaps]; [discriminate|]. destruct mids as [|m mids]; [discriminate|]. inversion Hok as [|? ? _ Hok']; subst.
      cbn [row_text row_data hd length] in *. rewrite !app_length in Hhi.
      assert (Ht : forall l0, P ++ (g ++ x ++ row_text gaps l0) ++ R = (P ++ g ++ x) ++ row_text gaps l0 ++ R) by (intros; rewrite <- !app_assoc; reflexivity).
      assert (Hd : forall ms l0 A0, B ++ (m ++ node name (length P + length g) (moved_by (length P + length g) ts) (length x) ++ row_data name (length P + length g + length x) gaps ms l0) ++ A0 =
        (B ++ m ++ node name (length P + length g) (moved_by (length P + length g) ts) (length x)) ++ row_data name (length (P ++ g ++ x)) gaps ms l0 ++ A0).
      { intros. rewrite !app_length, Nat.add_assoc, <- !app_assoc. reflexivity. }
      rewrite Ht in H, Hf. rewrite Hd in H.
      destruct (IH (P ++ g ++ x) _ gaps mids R A ltac:(lia) ltac:(lia) Hok' ltac:(rewrite !app_length; lia) ltac:(rewrite !app_length; lia) Hf H)
        as (mids' & A' & K1 & _ & K2 & K3 & K4 & K5).
      exists (m :: mids'), A'. split; [constructor; [reflexivity|exact K1]|]. split; [reflexivity|]. split; [exact K2|].
      split; [rewrite !app_length; lia|]. rewrite Ht. split; [exact K4|]. rewrite Hd. exact K5.
    - destruct gaps as [|g1 [|g2 gaps]]; [discriminate|discriminate|]. destruct mids as [|m1 [|m2 mids]]; [discriminate|discriminate|].
      inversion Hok as [|? ? [Hy Ny] Hok1]; subst. inversion Hok1 as [|? ? [Hx Nx] Hok2]; subst. cbn [fst snd] in *.
      cbn [row_text row_data hd length] in *. rewrite !app_length in Hhi.
      assert (Ly : 0 < length y) by (destruct y; [contradiction|cbn; lia]). assert (Lx : 0 < length x) by (destruct x; [contradiction|cbn; lia]).
      set (o1 := length P + length g1) in *. set (T := row_text gaps l) in *.
      set (a := P ++ g1). assert (La : length a = o1) by (unfold a; rewrite app_length; reflexivity).
      assert (Ht : forall u v, P ++ (g1 ++ u ++ g2 ++ v ++ T) ++ R = a ++ u ++ g2 ++ v ++ T ++ R) by (intros; unfold a; rewrite <- !app_assoc; reflexivity).
      rewrite Ht in *.
      destruct (exchange_places E s r Hr name i Hname _ _ (B ++ m1) o1 (moved_by o1 us) (length y) m2
        (o1 + length y + length g2) (moved_by (o1 + length y + length g2) ts) (length x)
        (row_data name (o1 + length y + length g2 + length x) gaps mids l ++ A) H) as (E1 & E2 & d1 & d2 & m2' & aft & aft' & K1 & K2 & K3 & K4 & K5 & K6).
      { rewrite <- !app_assoc. reflexivity. }
      { rewrite moved_data. exact Ny. }
      { rewrite moved_data. exact Nx. }
      { lia. }
      apply moved_inj in K1, K2. subst d1 d2. rewrite <- La in K6 at 1 2. rewrite exchanged_parts in K6.
      pose proof (all_twice_kept _ _ _ _ _ _ _ Ly Lx E1 K4 K5) as K7. apply Forall2_app_inv_l in K7 as (X & A' & K7 & K8 & ->).
      destruct (row_kept name _ _ l _ gaps mids X (Nat.le_refl _) K7 (eq_add_S _ _ (eq_add_S _ _ Hg)) (eq_add_S _ _ (eq_add_S _ _ Hm))) as (mids' & K9 & ->).
      assert (Hlo' : lo <= o1) by lia. assert (Hhi' : o1 + length y + length g2 + length x <= hi) by lia.
      exists (m1 :: m2' :: mids'), A'. split; [|split; [reflexivity|split; [|split; [|split]]]].
      + constructor; [reflexivity|]. constructor; [eapply adjusted_data; eassumption|exact K9].
      + eapply kept_weaken; [exact Hlo'|exact Hhi'|exact K8].
      + rewrite !app_length. lia.
      + assert (Hx' : exchanged (length a) (length y) (length a + length y + length g2) (length x) (a ++ y ++ g2 ++ x ++ T ++ R) = a ++ x ++ g2 ++ y ++ T ++ R)
          by apply exchanged_parts.
        rewrite <- Hx'. apply exchanged_fit; [lia|rewrite !app_length; lia|exact Hf].
      + replace (o1 + length y + length g2 - length y + length x) with (o1 + length x + length g2) in K6 by lia.
        replace (o1 + length x + length g2 + length y) with (o1 + length y + length g2 + length x) by lia.
        repeat (cbn [app] in K6; rewrite <- ?app_assoc in K6). repeat (cbn [app]; rewrite <- ?app_assoc). exact K6.
    - assert (Hl : length l = length l') by (apply Permutation_length; exact H1).
      destruct (IH1 P B gaps mids R A Hg Hm Hok Hlo Hhi Hf H) as (mids1 & A1 & K1 & K0 & K2 & K3 & K4 & K5).
      assert (Hm1 : length mids1 = length mids) by (symmetry; clear - K1; induction K1; cbn; congruence).
      destruct (IH2 P B gaps mids1 R A1 ltac:(lia) ltac:(lia) (Permutation_Forall H1 Hok) Hlo ltac:(lia) K4 K5) as (mids2 & A2 & L1 & L0 & L2 & L3 & L4 & L5).
      exists mids2, A2. split; [|split; [congruence|split; [|split; [|split]]]].
      + eapply forall2_trans; [|exact K1|exact L1]. unfold same_data. congruence.
      + eapply forall2_trans; [apply kept_trans|exact K2|exact L2].
      + lia.
      + exact L4.
      + exact L5.
  Qed.
End Sort.

Theorem items_sorted E : ext_ok E -> strings_end E -> forall s, valid s -> well_formed s -> clear E s ->
  forall name i, names_rule s name i ->
  forall tokens ind gaps mids items rest after, columns_fit ind (row_text gaps items ++ rest) ->
  length gaps = length items -> length mids = length items -> Forall item_ok items ->
  parse_returns E s (row_text gaps items ++ rest) tokens ind None (tokens ++ row_data name 0 gaps mids items ++ after) ->
  forall items', Permutation items items' ->
  exists mids' after', Forall2 same_data mids mids' /\ hd [] mids' = hd [] mids /\
    Forall2 (kept (length (hd [] gaps)) (length (row_text gaps items))) after after' /\
    parse_returns E s (row_text gaps items' ++ rest) tokens ind None (tokens ++ row_data name 0 gaps mids' items' ++ after').
Proof.
  intros HE Hs s Hv Hw Hc name i Hname tokens ind gaps mids items rest after Hf Hg Hm Hok H items' Hp.
  destruct (has_start E s _ _ _ _ HE H) as (start & Hr).
  pose proof (parse_placed E HE s (clear_no_lines E s Hc) start Hr _ tokens ind _ H) as Hpl.
  destruct (row_permuted E s start (start_occurs _ _ Hr) name i Hname ind (length (hd [] gaps)) (length (row_text gaps items)) items items' Hp
    [] [] gaps mids rest after Hg Hm Hok (Nat.le_refl _) (Nat.le_refl _) Hf Hpl) as (mids' & A' & K1 & K0 & K2 & _ & K4 & K5).
  exists mids', A'. split; [exact K1|]. split; [exact K0|]. split; [exact K2|].
  apply (clear_placed E HE Hs s Hv Hw Hc start Hr _ ind K4). exact K5.
Qed.

Theorem sorted_optimized E : ext_ok E -> strings_end E -> forall s s', valid s -> well_formed s -> clear E s ->
  optimize_returns s s' -> tails_fail_at_end E s -> forall name i, names_rule s name i ->
  forall tokens ind gaps mids items rest after, columns_fit ind (row_text gaps items ++ rest) ->
  length gaps = length items -> length mids = length items -> Forall item_ok items ->
  parse_returns E s' (row_text gaps items ++ rest) tokens ind None (tokens ++ row_data name 0 gaps mids items ++ after) ->
  forall items', Permutation items items' ->
  exists mids' after', Forall2 same_data mids mids' /\ hd [] mids' = hd [] mids /\
    Forall2 (kept (length (hd [] gaps)) (length (row_text gaps items))) after after' /\
    parse_returns E s' (row_text gaps items' ++ rest) tokens ind None (tokens ++ row_data name 0 gaps mids' items' ++ after').
Proof.
  intros HE Hs s s' Hv Hw Hc Ho Ht name i Hname tokens ind gaps mids items rest after Hf Hg Hm Hok H items' Hp.
  apply (optimize_accepts E HE s s' Ho Ht _ tokens ind (proj1 Hf)) in H.
  destruct (has_start E s _ _ _ _ HE H) as (start & Hr).
  pose proof (parse_placed E HE s (clear_no_lines E s Hc) start Hr _ tokens ind _ H) as Hpl.
  destruct (row_permuted E s start (start_occurs _ _ Hr) name i Hname ind (length (hd [] gaps)) (length (row_text gaps items)) items items' Hp
    [] [] gaps mids rest after Hg Hm Hok (Nat.le_refl _) (Nat.le_refl _) Hf Hpl) as (mids' & A' & K1 & K0 & K2 & _ & K4 & K5).
  exists mids', A'. split; [exact K1|]. split; [exact K0|]. split; [exact K2|].
  apply (optimize_accepts E HE s s' Ho Ht _ tokens ind (proj1 K4)).
  apply (clear_placed E HE Hs s Hv Hw Hc start Hr _ ind K4). exact K5.
Qed.

(** [abba!] is read, but not [abab!]. *)
Lemma unclear_order : exists s name i gaps mids items items' rest after e left_,
  valid s /\ well_formed s /\ without_lines s /\ names_rule s name i /\ columns_fit indent_default (row_text gaps items ++ rest) /\
  length gaps = length items /\ length mids = length items /\ Forall item_ok items /\
  parse_returns std_ext s (row_text gaps items ++ rest) [] indent_default None (row_data name 0 gaps mids items ++ after) /\
  Permutation items items' /\
  parse_returns std_ext s (row_text gaps items' ++ rest) [] indent_default (Some e) left_.
Proof.
  exists eager, (tx "w"), 0, [[]; tx "b"], [[]; []], [(tx "ab", []); (tx "a", [])], [(tx "a", []); (tx "ab", [])], (tx "!"), []. eexists. eexists.
  split; [apply validb_spec; vm_compute; reflexivity|]. split; [apply well_formedb_spec; vm_compute; reflexivity|].
  split; [intros r indented id (top & Hin & Ho); cbn in Hin; destruct Hin as [<-|[<-|[]]]; apply (all_sub_spec (fun q => match q with RLines _ _ _ => false | _ => true end)) in Ho; try reflexivity; discriminate|].
  split; [apply names_ruleb_spec; vm_compute; reflexivity|]. split; [apply columns_fitb_spec; vm_compute; reflexivity|].
  do 2 (split; [reflexivity|]). split; [repeat constructor; discriminate|].
  split; [exists 50; vm_compute; reflexivity|]. split; [apply perm_swap|].
  exists 50. vm_compute. reflexivity.
Qed.

(** [[1],[],[[]]] in the order [[[]],[1],[]]. *)
Definition sort_gaps : list str := [tx "["; tx ","; tx ","].
Definition sort_items (one : f64) : list (str * list tok) :=
  [(tx "[1]", [(Rng 1 1, MF64 (tx "num") one)]); (tx "[]", []); (tx "[[]]", [arr 1; rra 1 2])].
Definition sorted_items (one : f64) : list (str * list tok) :=
  [(tx "[[]]", [arr 1; rra 1 2]); (tx "[1]", [(Rng 1 1, MF64 (tx "num") one)]); (tx "[]", [])].

Lemma sort_order one : Permutation (sort_items one) (sorted_items one).
Proof.
  apply Permutation_sym. exact (Permutation_cons_append [(tx "[1]", [(Rng 1 1, MF64 (tx "num") one)]); (tx "[]", [])] (tx "[[]]", [arr 1; rra 1 2])).
Qed.

Lemma json_sorted : exists one,
  columns_fit indent_default (tx "[[1],[],[[]]]") /\ row_text sort_gaps (sort_items one) ++ tx "]" = tx "[[1],[],[[]]]" /\
  Forall item_ok (sort_items one) /\ Permutation (sort_items one) (sorted_items one) /\
  parse_returns std_ext json_syntax (tx "[[1],[],[[]]]") [] indent_default None
    (row_data (tx "array") 0 sort_gaps [[arr 0]; []; []] (sort_items one) ++ [rra 0 13]) /\
  row_text sort_gaps (sorted_items one) ++ tx "]" = tx "[[[]],[1],[]]" /\
  parse_returns std_ext json_syntax (tx "[[[]],[1],[]]") [] indent_default None
    (row_data (tx "array") 0 sort_gaps [[arr 0]; []; []] (sorted_items one) ++ [rra 0 13]).
Proof.
  eexists. split; [apply columns_fitb_spec; vm_compute; reflexivity|]. split; [reflexivity|].
  split; [repeat (constructor; [split; [discriminate|apply nestedb_spec; reflexivity]|]); constructor|].
  split; [apply sort_order|].
  split; [exists 200; vm_compute; reflexivity|]. split; [reflexivity|]. exists 200. vm_compute. reflexivity.
Qed.
