(** C100: items of lists may be added and taken out. *)
From Coq Require Import Ascii String List NArith Bool Arith Lia.
From Verif Require Import Base Ext Types ParseModel OptimizeModel PegSpec DataSpec ApiSpec OptSpec ExtProofs PegFacts ParseProofs OptPublic
  ParsePublic TotalSpec TotalProofs TotalCheck ShapeSpec GrammarSpec GrammarProofs GrammarCheck GrammarPublic PlaceSpec PlaceProofs PlacePublic
  JsonSpec JsonProofs3 LeftProofs2 EditSpec EditProofs OccursProofs ItemsSpec.
Import ListNotations.

(** ** Lists behind lists *)

Lemma times_app E refs r k1 k2 : forall p x ts y ts', places_times E refs r k1 p x ts -> places_times E refs r k2 (p + length x) y ts' ->
  places_times E refs r (k1 + k2) p (x ++ y) (ts ++ ts').
Proof.
  induction k1 as [|k1 IH]; intros p x ts y ts' H H'; inversion H; subst; clear H.
  - cbn in H'. rewrite Nat.add_0_r in H'. exact H'.
  - cbn [Nat.add]. rewrite <- !app_assoc. apply at_times_S; [assumption|]. apply IH; [assumption|].
    rewrite app_length, Nat.add_assoc in H'. exact H'.
Qed.

Lemma more_app E refs r by_ trail' (Hf : trail' = false) p x ts : places_more E refs r by_ trail' p x ts -> forall trail y ts',
  places_more E refs r by_ trail (p + length x) y ts' -> places_more E refs r by_ trail p (x ++ y) (ts ++ ts').
Proof.
  revert Hf p x ts. 
  enough (G : (forall r p x ts, places E refs r p x ts -> True) /\ (forall args p x ts, places_all E refs args p x ts -> True) /\
    (forall r k p x ts, places_times E refs r k p x ts -> True) /\
    (forall r by_ trail' p x ts, places_more E refs r by_ trail' p x ts -> trail' = false -> forall trail y ts',
      places_more E refs r by_ trail (p + length x) y ts' -> places_more E refs r by_ trail p (x ++ y) (ts ++ ts'))).
  { intros Hf p x ts H. exact (proj2 (proj2 (proj2 G)) _ _ _ _ _ _ H Hf). }
  apply places_mutind; intros; try exact I.
  - cbn in H0. rewrite Nat.add_0_r in H0. exact H0.
  - discriminate.
  - rewrite <- !app_assoc. apply at_more_item; [assumption|assumption|]. apply H4; [assumption|].
    rewrite !app_length in H6. rewrite <- !Nat.add_assoc in *. exact H6.
Qed.

Lemma separate_app E refs r by_ id optional trail id' p x ts y ts' : places E refs (RSeparateBy r by_ false false id) p x ts ->
  places_more E refs r by_ trail (p + length x) y ts' -> places E refs (RSeparateBy r by_ optional trail id') p (x ++ y) (ts ++ ts').
Proof.
  intros H H'. inversion H; subst; clear H. rewrite <- !app_assoc. apply at_separate; [assumption|].
  eapply more_app; [reflexivity|eassumption|]. rewrite app_length, Nat.add_assoc in H'. exact H'.
Qed.

Section Items.
  Variable E : ext.
  Variable syn : syntax.
  Notation refs := (s_rules syn).
  Variable name : str.
  Hypothesis Honly : only_items syn name.

  (** A node [name] of the data [ts] of the text [x] at [p] may be replaced by a list. *)
  Definition swap_ok (p : nat) (x : str) (ts : list tok) (G : str -> list tok -> Prop) : Prop :=
    forall before o inner n after, node_at ts before name o inner n after ->
    exists r c l a mid z, (occurs syn r /\ list_of r c l /\ gives_node name c) /\ x = a ++ mid ++ z /\ o = p + length a /\ n = length mid /\
      places E refs c o mid ((Rng o 0, StartNode name) :: inner ++ [(Rng o n, EndNode name)]) /\
      forall w us, places E refs l o w us -> exists after', Forall2 (adjusted o n (length w)) after after' /\
        G (a ++ w ++ z) (before ++ us ++ after').

  Lemma swap_mono p x ts (G G' : str -> list tok -> Prop) : (forall x' ts', G x' ts' -> G' x' ts') -> swap_ok p x ts G -> swap_ok p x ts G'.
  Proof.
    intros HG H before o inner n after Hn. destruct (H _ _ _ _ _ Hn) as (r & c & l & a & mid & z & H1 & H2 & H3 & H4 & H5 & H6).
    exists r, c, l, a, mid, z. do 5 (split; [assumption|]). intros w us Hw. destruct (H6 w us Hw) as (after' & H8 & H9). eauto.
  Qed.

  Lemma swap_leaf p x ts G : (forall r nm, ~ In (r, StartNode nm) ts) -> swap_ok p x ts G.
  Proof. intros H before o inner n after [-> _]. destruct (H (Rng o 0) name). apply in_or_app. right. left. reflexivity. Qed.

  Lemma swap_app p x ts y ts0 (G1 : str -> list tok -> Prop) (G2 : nat -> str -> list tok -> Prop) (G : str -> list tok -> Prop) :
    nested (map snd ts) -> G1 x ts -> (forall q, G2 q y (moved_by q ts0)) ->
    swap_ok p x ts G1 -> swap_ok (p + length x) y (moved_by (p + length x) ts0) (G2 (p + length x)) ->
    (forall x' u y' u', G1 x' u -> G2 (p + length x') y' u' -> G (x' ++ y') (u ++ u')) ->
    swap_ok p (x ++ y) (ts ++ moved_by (p + length x) ts0) G.
  Proof.
    intros Hne H1 H2 E1 E2 HG before o inner n after Hn.
    apply node_split in Hn as [(after1 & Hn & ->)|(before2 & -> & Hn)]; [| |exact Hne].
    - destruct (E1 _ _ _ _ _ Hn) as (r & c & l & a & mid & z & K1 & K2 & K3 & K4 & K5 & K6).
      exists r, c, l, a, mid, (z ++ y). split; [exact K1|]. split; [rewrite K2, <- !app_assoc; reflexivity|].
      do 3 (split; [assumption|]). intros w us Hw. destruct (K6 w us Hw) as (after' & K8 & K9).
      assert (Hl : p + length (a ++ w ++ z) = p + length x - n + length w) by (rewrite K2, K4, !app_length; lia).
      exists (after' ++ moved_by (p + length (a ++ w ++ z)) ts0). split.
      + apply Forall2_app; [exact K8|]. rewrite Hl. apply adjusted_moved. rewrite K2, !app_length. lia.
      + pose proof (HG _ _ _ _ K9 (H2 (p + length (a ++ w ++ z)))) as HH. rewrite <- !app_assoc in HH. exact HH.
    - destruct (E2 _ _ _ _ _ Hn) as (r & c & l & a & mid & z & K1 & K2 & K3 & K4 & K5 & K6).
      exists r, c, l, (x ++ a), mid, z. split; [exact K1|]. split; [rewrite K2, <- !app_assoc; reflexivity|].
      split; [rewrite app_length; lia|]. do 2 (split; [assumption|]). intros w us Hw. destruct (K6 w us Hw) as (after' & K8 & K9).
      exists after'. split; [exact K8|]. rewrite <- !app_assoc. apply HG; assumption.
  Qed.

  (** The node is all of the text, or is in a list of it. *)
  Definition self_or_swap (r : rule) (p : nat) (x : str) (ts : list tok) : Prop :=
    forall before o inner n after, node_at ts before name o inner n after ->
    (gives_node name r /\ before = [] /\ after = [] /\ o = p /\ n = length x) \/
    (exists q c l a mid z, (occurs syn q /\ list_of q c l /\ gives_node name c) /\ x = a ++ mid ++ z /\ o = p + length a /\ n = length mid /\
      places E refs c o mid ((Rng o 0, StartNode name) :: inner ++ [(Rng o n, EndNode name)]) /\
      forall w us, places E refs l o w us -> exists after', Forall2 (adjusted o n (length w)) after after' /\
        places E refs r p (a ++ w ++ z) (before ++ us ++ after')).

  Lemma not_self r p x ts : ~ gives_node name r -> self_or_swap r p x ts -> swap_ok p x ts (places E refs r p).
  Proof. intros Hr H before o inner n after Hn. destruct (H _ _ _ _ _ Hn) as [[Hg _]|H']; [contradiction|exact H']. Qed.

  Lemma swap_self r p x ts : swap_ok p x ts (places E refs r p) -> self_or_swap r p x ts.
  Proof. intros H before o inner n after Hn. right. exact (H _ _ _ _ _ Hn). Qed.

  Lemma one_item q r l p x ts : list_of q r l -> places E refs r p x ts -> places E refs l p x ts.
  Proof.
    intros Hl H. rewrite <- (app_nil_r x), <- (app_nil_r ts). destruct Hl.
    - eapply at_repeat; [eapply at_times_S; [exact H|constructor]|right; lia].
    - apply at_separate; [exact H|constructor].
    - rewrite !app_nil_r. apply at_optional. exact H.
    - rewrite !app_nil_r. eapply at_select; eassumption.
    - rewrite !app_nil_r. eapply at_fast; eassumption.
  Qed.

  (** An item of a list. *)
  Lemma item_swap q r l p x ts : occurs syn q -> list_of q r l -> places E refs r p x ts -> self_or_swap r p x ts ->
    swap_ok p x ts (places E refs l p).
  Proof.
    intros Ho Hl Hp H before o inner n after Hn. destruct (H _ _ _ _ _ Hn) as [(Hg & -> & -> & -> & ->)|H'].
    - exists q, r, l, [], x, []. rewrite app_nil_r. split; [auto|]. split; [reflexivity|]. split; [cbn; lia|]. split; [reflexivity|].
      destruct Hn as [-> _]. split; [exact Hp|]. intros w us Hw. exists []. split; [constructor|]. rewrite !app_nil_r. exact Hw.
    - destruct H' as (q' & c & l' & a & mid & z & K1 & K2 & K3 & K4 & K5 & K6). exists q', c, l', a, mid, z. do 5 (split; [assumption|]).
      intros w us Hw. destruct (K6 w us Hw) as (after' & K7 & K8). exists after'. split; [exact K7|]. eapply one_item; eassumption.
  Qed.

  Lemma not_item q r : occurs syn q -> In r (children q) -> (forall l, ~ list_of q r l) -> ~ gives_node name r.
  Proof. intros Ho Hc Hl Hg. destruct (proj2 (proj2 Honly) _ _ Ho Hc Hg) as (l & Hlist). exact (Hl l Hlist). Qed.

  (** A node and what is in it. *)
  Lemma swap_node p x ts nm reference i id r : nth_error refs i = Some r ->
    places E refs r p x ts -> swap_ok p x ts (places E refs r p) ->
    self_or_swap (RNode reference (Some nm) (Some i) id) p x ((Rng p 0, StartNode nm) :: ts ++ [(Rng p (length x), EndNode nm)]).
  Proof.
    intros Hi Hp IH before o inner n after [H Hin]. pose proof (proj1 (places_nested E refs) _ _ _ _ Hp) as Hne.
    assert (Hmk : forall y u, places E refs r p y u -> places E refs (RNode reference (Some nm) (Some i) id) p y
      ((Rng p 0, StartNode nm) :: u ++ [(Rng p (length y), EndNode nm)])).
    { intros y u Hy. exact (at_node E refs reference (Some nm) i id r p y u Hi Hy). }
    destruct before as [|t before]; cbn [app] in H.
    - injection H as <- <- H.
      assert (Hx : inner = ts /\ n = length x /\ after = []).
      { apply app_split in H as [(m & -> & H)|(m & -> & H)].
        - destruct m as [|t m]; [injection H as <- <-; rewrite app_nil_r; auto|]. destruct m; discriminate.
        - destruct m as [|t m]; [injection H as -> ->; rewrite app_nil_r; auto|]. injection H as <- H. exfalso.
          rewrite map_app in Hne. cbn [map snd] in Hne.
          assert (Hne' : nested ((map snd inner ++ [EndNode nm]) ++ map snd m)) by (rewrite <- app_assoc; exact Hne).
          pose proof (nested_prefix _ Hne' _ _ eq_refl) as Hq. pose proof (nested_balanced _ Hin) as Hb.
          rewrite opened_app', closed_app' in Hq. cbn [opened closed] in Hq. lia. }
      destruct Hx as (-> & -> & ->). left. split; [eexists _, _, _; reflexivity|]. auto.
    - injection H as <- H. right.
      destruct (node_split ts [(Rng p (length x), EndNode nm)] before name o inner n after Hne (conj H Hin)) as [(after1 & Hn & ->)|(b2 & _ & Hn & _)].
      + destruct (IH _ _ _ _ _ Hn) as (q & c & l & a & mid & z & K1 & K2 & K3 & K4 & K5 & K6).
        exists q, c, l, a, mid, z. do 5 (split; [assumption|]). intros w us Hw. destruct (K6 w us Hw) as (after' & K8 & K9).
        exists (after' ++ [(Rng p (length (a ++ w ++ z)), EndNode nm)]). split.
        * apply Forall2_app; [exact K8|]. constructor; [|constructor]. split; [reflexivity|]. right. cbn [fst snd r_off r_len].
          rewrite K2, K4, !app_length. split; [lia|]. split; [lia|]. split; [eexists; reflexivity|]. f_equal. lia.
        * apply Hmk in K9. rewrite <- !app_assoc in K9. cbn [app] in K9 |- *. exact K9.
      + destruct b2 as [|t [|t2 b2]]; discriminate.
  Qed.

  Lemma places_swap :
    (forall r p x ts, places E refs r p x ts -> occurs syn r -> self_or_swap r p x ts) /\
    (forall args p x ts, places_all E refs args p x ts -> Forall (fun r => occurs syn r /\ ~ gives_node name r) args ->
       swap_ok p x ts (places_all E refs args p)) /\
    (forall r k p x ts, places_times E refs r k p x ts -> forall optional id, occurs syn (RRepeat r optional id) ->
       swap_ok p x ts (fun x' ts' => exists k', (optional = true \/ 0 < k') /\ places_times E refs r k' p x' ts')) /\
    (forall r by_ trail p x ts, places_more E refs r by_ trail p x ts -> forall optional trail' id, occurs syn (RSeparateBy r by_ optional trail' id) ->
       swap_ok p x ts (places_more E refs r by_ trail p)).
  Proof.
    destruct (places_nested E refs) as (N1 & N2 & N3 & N4).
    assert (B : forall (d : nat), _) by (intros d; exact (places_back E refs d)).
    assert (M : forall (d : nat), _) by (intros d; exact (places_moved E refs d)).
    assert (B1 : forall r p x ts, places E refs r p x ts -> exists ts0, ts = moved_by p ts0 /\ forall q, places E refs r q x (moved_by q ts0)).
    { intros r p x ts H. destruct (proj1 (B p) _ _ _ _ H 0 ltac:(lia)) as (ts0 & -> & H0). exists ts0. split; [reflexivity|].
      intros q. pose proof (proj1 (M q) _ _ _ _ H0) as H1. rewrite Nat.add_0_r in H1. exact H1. }
    assert (B2 : forall args p x ts, places_all E refs args p x ts -> exists ts0, ts = moved_by p ts0 /\ forall q, places_all E refs args q x (moved_by q ts0)).
    { intros r p x ts H. destruct (proj1 (proj2 (B p)) _ _ _ _ H 0 ltac:(lia)) as (ts0 & -> & H0). exists ts0. split; [reflexivity|].
      intros q. pose proof (proj1 (proj2 (M q)) _ _ _ _ H0) as H1. rewrite Nat.add_0_r in H1. exact H1. }
    assert (B3 : forall r k p x ts, places_times E refs r k p x ts -> exists ts0, ts = moved_by p ts0 /\ forall q, places_times E refs r k q x (moved_by q ts0)).
    { intros r k p x ts H. destruct (proj1 (proj2 (proj2 (B p))) _ _ _ _ _ H 0 ltac:(lia)) as (ts0 & -> & H0). exists ts0. split; [reflexivity|].
      intros q. pose proof (proj1 (proj2 (proj2 (M q))) _ _ _ _ _ H0) as H1. rewrite Nat.add_0_r in H1. exact H1. }
    assert (B4 : forall r by_ trail p x ts, places_more E refs r by_ trail p x ts -> exists ts0, ts = moved_by p ts0 /\ forall q, places_more E refs r by_ trail q x (moved_by q ts0)).
    { intros r by_ trail p x ts H. destruct (proj2 (proj2 (proj2 (B p))) _ _ _ _ _ _ H 0 ltac:(lia)) as (ts0 & -> & H0). exists ts0. split; [reflexivity|].
      intros q. pose proof (proj2 (proj2 (proj2 (M q))) _ _ _ _ _ _ H0) as H1. rewrite Nat.add_0_r in H1. exact H1. }
    clear B M. destruct Honly as (Htop & Hby & _).
    apply places_mutind; intros.
    all: try (apply swap_self, swap_leaf; first [intros ? ? []|apply token_leaf; intros; exact I]; fail).
    all: try (apply swap_leaf; intros ? ? []; fail).
    - (* sequence *) apply swap_self. eapply swap_mono; [intros; apply at_sequence; eassumption|]. apply H0. apply Forall_forall. intros q Hq.
      split; [eapply occurs_child; [eassumption|exact Hq]|]. eapply not_item; [eassumption|exact Hq|]. intros l Hl. inversion Hl.
    - apply swap_self. eapply item_swap; [eassumption|apply list_select; exact H|assumption|]. apply H1. eapply occurs_child; [eassumption|exact H].
    - apply swap_self. eapply item_swap; [eassumption|apply list_fast; exact H|assumption|]. apply H1. eapply occurs_child; [eassumption|exact H].
    - (* repeat *) apply swap_self. eapply swap_mono; [|eapply H0; eassumption]. intros x' ts' (k' & Hk & Ht). eapply at_repeat; eassumption.
    - (* list *) apply swap_self. destruct (B4 _ _ _ _ _ _ H1) as (ts0 & -> & Hm).
      eapply (swap_app p x ts y ts0 (places E refs (RSeparateBy r by_ false false id) p) (places_more E refs r by_ trail));
        [eapply N1; eassumption| |exact Hm| | |].
      + eapply one_item; [apply (list_separate r by_ optional trail id)|assumption].
      + eapply item_swap; [eassumption|apply list_separate|assumption|]. apply H0. eapply occurs_child; [eassumption|left; reflexivity].
      + eapply H2. eassumption.
      + intros. eapply separate_app; eassumption.
    - (* node *) pose proof (nth_error_In _ _ H) as Hin. assert (Ho : occurs syn r) by (exists r; split; [exact Hin|apply occurs_here]).
      assert (Hs : swap_ok p x ts (places E refs r p)) by (apply not_self; [apply Htop; exact Hin|apply H1; exact Ho]).
      destruct property as [nm|]; cbn [token app]; [eapply swap_node; eassumption|].
      rewrite app_nil_r. apply swap_self. eapply swap_mono; [|exact Hs]. intros x' u Hu.
      pose proof (at_node E refs name0 None i id r p x' u H Hu) as Hx. cbn [token app] in Hx. rewrite app_nil_r in Hx. exact Hx.
    - apply swap_self. eapply item_swap; [eassumption|apply list_optional|assumption|]. apply H0. eapply occurs_child; [eassumption|left; reflexivity].
    - (* all *) match goal with G : Forall _ (_ :: _) |- _ => inversion G as [|? ? [Ho Hg] Hr]; subst; clear G end. destruct (B2 _ _ _ _ H1) as (ts0 & -> & Hm).
      eapply (swap_app p x ts y ts0 (places E refs r p) (places_all E refs rest)); [eapply N1; eassumption|assumption|exact Hm|apply not_self; auto|auto|].
      intros. apply at_all_cons; assumption.
    - (* times *) destruct (B3 _ _ _ _ _ H1) as (ts0 & -> & Hm). rename H3 into Ho.
      eapply (swap_app p x ts y ts0 (places E refs (RRepeat r optional id) p) (fun q x' ts' => exists k', places_times E refs r k' q x' ts'));
        [eapply N1; eassumption| |intros q; exists k; apply Hm| | |].
      + eapply one_item; [apply (list_repeat r optional id)|assumption].
      + eapply item_swap; [exact Ho|apply list_repeat|assumption|]. apply H0. eapply occurs_child; [exact Ho|left; reflexivity].
      + eapply swap_mono; [|eapply H2; exact Ho]. intros x' ts' (k' & _ & Ht). eauto.
      + intros x' u y' u' Hx (k' & Ht). inversion Hx; subst. eexists. split; [|eapply times_app; eassumption]. 
        match goal with G : optional = true \/ _ |- _ => destruct G; [left; assumption|right; lia] end.
    - (* more *) eapply swap_mono; [intros; apply at_more_trail; eassumption|]. apply not_self; [eapply Hby; eassumption|].
      apply H0. eapply occurs_child; [eassumption|right; left; reflexivity].
    - rename H5 into Ho. set (l := RSeparateBy r by_ false false id).
      set (G2 := fun q yz us => exists y z u u', yz = y ++ z /\ us = u ++ u' /\ places E refs l q y u /\ places_more E refs r by_ trail (q + length y) z u').
      destruct (B1 _ _ _ _ H1) as (t1 & -> & Hm1). destruct (B4 _ _ _ _ _ _ H3) as (t2 & -> & Hm2).
      assert (Hone : forall q y u, places E refs r q y u -> places E refs l q y u) by (intros; eapply one_item; [apply (list_separate r by_ optional trail' id)|assumption]).
      assert (Hmv : forall d, moved_by d t1 ++ moved_by (d + length y) t2 = moved_by d (t1 ++ moved_by (length y) t2)).
      { intros d. rewrite moved_app. f_equal. unfold moved_by. rewrite map_map. apply map_ext. intros t0. cbn [fst snd r_off r_len]. rewrite Nat.add_assoc. reflexivity. }
      assert (Hmm : forall q, G2 q (y ++ z) (moved_by q (t1 ++ moved_by (length y) t2))).
      { intros q. exists y, z, (moved_by q t1), (moved_by (q + length y) t2). split; [reflexivity|]. split; [symmetry; apply Hmv|]. split; [apply Hone, Hm1|apply Hm2]. }
      rewrite Hmv.
      eapply (swap_app p x ts (y ++ z) _ (places E refs by_ p) G2); [eapply N1; eassumption|assumption|exact Hmm| | |].
      + apply not_self; [eapply Hby; eassumption|]. apply H0. eapply occurs_child; [exact Ho|right; left; reflexivity].
      + rewrite <- Hmv.
        eapply (swap_app (p + length x) y (moved_by (p + length x) t1) z t2 (places E refs l (p + length x)) (places_more E refs r by_ trail));
          [eapply N1; eassumption|apply Hone; assumption|exact Hm2| |eapply H4; exact Ho|].
        * eapply item_swap; [exact Ho|apply list_separate|assumption|]. apply H2. eapply occurs_child; [exact Ho|left; reflexivity].
        * intros x' u y' u' Hx Hy. exists x', y', u, u'. auto.
      + intros x' u y' u' Hx (y1 & z1 & u1 & u2 & -> & -> & Hy & Hz). unfold l in Hy. inversion Hy; subst; clear Hy.
        rewrite <- !app_assoc. apply at_more_item; [assumption|assumption|]. eapply more_app; [reflexivity|eassumption|].
        rewrite app_length in Hz. rewrite <- !Nat.add_assoc in *. exact Hz.
  Qed.
End Items.
