(** Renaming and optimisation; definitions. *)
From Coq Require Import List NArith Bool Arith Lia.
From Verif Require Import Base Ext Types ParseModel OptimizeModel DataSpec PegSpec ApiSpec OptSpec
  OptProofs OptProofs2 PegProofs ParseProofs ParsePublic RenameSpec RenameProofs.
Import ListNotations.

(** ** Optimisation *)

Definition orel {A B} (P : A -> B -> Prop) (a : outcome A) (b : outcome B) : Prop :=
  match a, b with
  | Done x, Done y => P x y
  | Panic, Panic | OutOfFuel, OutOfFuel => True
  | _, _ => False
  end.

Lemma orel_bind {A B C D} (P : A -> B -> Prop) (Q : C -> D -> Prop) a b (f : A -> outcome C) (g : B -> outcome D) :
  orel P a b -> (forall x y, P x y -> orel Q (f x) (g y)) -> orel Q (obind a f) (obind b g).
Proof. intros H Hf. destruct a, b; cbn in *; auto; contradiction. Qed.

Lemma orel_map {A B C D} (P : A -> B -> Prop) (Q : C -> D -> Prop) (f : A -> outcome C) (g : B -> outcome D) l m :
  Forall2 P l m -> (forall x y, In x l -> P x y -> orel Q (f x) (g y)) -> orel (Forall2 Q) (map_o f l) (map_o g m).
Proof.
  induction 1 as [|x y l m Hx Hl IH]; intros Hf; cbn; [constructor|].
  eapply orel_bind; [apply Hf; [left; reflexivity|exact Hx]|]. intros u v Hu.
  eapply orel_bind; [apply IH; intros; apply Hf; [right|]; assumption|]. intros us vs Hus. constructor; assumption.
Qed.

Lemma Forall2_len {A B} (P : A -> B -> Prop) l m : Forall2 P l m -> length l = length m.
Proof. induction 1; cbn; congruence. Qed.

Lemma Forall2_firstn {A B} (P : A -> B -> Prop) l m : Forall2 P l m -> forall n, Forall2 P (firstn n l) (firstn n m).
Proof. induction 1 as [|x y l m Hx Hl IH]; intros [|n]; cbn; constructor; auto. Qed.

Lemma Forall2_skipn {A B} (P : A -> B -> Prop) l m : Forall2 P l m -> forall n, Forall2 P (skipn n l) (skipn n m).
Proof. induction 1 as [|x y l m Hx Hl IH]; intros [|n]; cbn; auto. Qed.

Section Opt.
  Variable R : option str -> option str -> Prop.
  Variable G : nat -> nat -> Prop.
  Variables refs refs' : list rule.
  Hypothesis Hrefs : forall k k', G k k' -> match nth_error refs k, nth_error refs' k' with
    | Some r, Some r' => alike R G r r' | None, None => True | _, _ => False end.

  Lemma unique_byte_alike fuel : forall r r', alike R G r r' -> unique_byte fuel refs r = unique_byte fuel refs' r'.
  Proof.
    induction fuel as [|fuel IH]; [reflexivity|]. intros r r' H. inversion H; subst; cbn [unique_byte]; auto.
    - inversion H0 as [|x y l m Hx Hl]; subst; [reflexivity|]. inversion Hl; subst; auto.
    - inversion H0; subst; auto.
    - destruct o; auto.
    - destruct o; auto.
    - specialize (Hrefs _ _ H1). destruct (nth_error refs k), (nth_error refs' k'); try contradiction; auto.
    - inversion H0; subst; auto.
  Qed.

  Lemma unique_loop_alike fuel a b : Forall2 (alike R G) a b -> forall i data up,
    unique_loop fuel refs a i data up = unique_loop fuel refs' b i data up.
  Proof.
    induction 1 as [|x y a b Hx Hl IH]; intros i data up; cbn [unique_loop]; [reflexivity|].
    rewrite (unique_byte_alike fuel _ _ Hx). destruct (255 <=? i); [reflexivity|].
    destruct (unique_byte fuel refs' y) as [[c|]| |]; cbn [obind]; try reflexivity.
    destruct (nth_error data (N.to_nat c)) as [z|]; [|reflexivity].
    destruct (Nat.eqb z 255); [apply IH|reflexivity].
  Qed.

  Lemma optimize_rule_alike fuel r : forall r', alike R G r r' ->
    orel (alike R G) (optimize_rule fuel refs r) (optimize_rule fuel refs' r').
  Proof.
    induction r as [r IH] using rule_ind'. intros r' H.
    assert (Hargs : forall a b, (forall c, In c a -> In c (children r)) -> Forall2 (alike R G) a b ->
      orel (Forall2 (alike R G)) (map_o (optimize_rule fuel refs) a) (map_o (optimize_rule fuel refs') b)).
    { intros a b Ha HF. eapply orel_map; [exact HF|]. intros x y Hx Hxy. apply IH; auto. }
    inversion H; subst; cbn [optimize_rule];
      try (cbn [orel]; constructor; assumption);
      try (eapply orel_bind; [apply IH; [cbn; tauto|eassumption]|]; intros u v Hu; cbn [orel]; constructor; assumption).
    - (* select *)
      unfold unique_table_from_select. rewrite (unique_loop_alike fuel _ _ H0).
      destruct (unique_loop fuel refs' b 0 (repeat 255 256) 0) as [[table up]| |]; cbn [obind]; try exact I.
      eapply orel_bind; [apply Hargs; [cbn; auto|exact H0]|]. intros u v Hu.
      rewrite (Forall2_len _ _ _ H0). destruct (up <? 2); [cbn [orel]; constructor; exact Hu|].
      destruct (up <? length b); cbn [orel]; constructor; [|exact Hu].
      apply Forall2_app; [apply Forall2_firstn; exact Hu|]. repeat constructor. apply Forall2_skipn. exact Hu.
    - eapply orel_bind; [apply Hargs; [cbn; auto|exact H0]|]. intros u v Hu. cbn [orel]. constructor; exact Hu.
    - eapply orel_bind; [apply IH; [cbn; tauto|eassumption]|]. intros u v Hu.
      eapply orel_bind; [apply IH; [cbn; tauto|eassumption]|]. intros u' v' Hu'. cbn [orel]. constructor; assumption.
  Qed.
End Opt.

Lemma start_map P s s' : Forall2 P (s_rules s) (s_rules s') -> forall r, start_rule s r ->
  exists r', start_rule s' r' /\ P r r'.
Proof.
  intros HF r (l & Hl). rewrite Hl in HF. apply Forall2_app_one in HF as (m & y & Hm & _ & Hy).
  exists y. split; [exists m; exact Hm|exact Hy].
Qed.

Lemma optimize_both s o s' o' : optimize_returns s o -> optimize_returns s' o' ->
  exists fuel, optimize fuel s = Done o /\ optimize fuel s' = Done o'.
Proof.
  intros (f & Hf) (g & Hg). exists (f + g). split.
  - destruct (optimize_mono f (f + g) s ltac:(lia)) as [H|H]; congruence.
  - destruct (optimize_mono g (f + g) s' ltac:(lia)) as [H|H]; congruence.
Qed.

Lemma optimize_rules fuel s o : optimize fuel s = Done o ->
  Forall2 (fun x y => optimize_rule fuel (s_rules s) x = Done y) (s_rules s) (s_rules o).
Proof.
  unfold optimize. destruct (map_o _ (s_rules s)) as [l| |] eqn:Hl; try discriminate.
  intros [= <-]. apply map_o_done. exact Hl.
Qed.

Lemma optimize_renamed f G s s' o o' : renamed_syntax f G s s' ->
  optimize_returns s o -> optimize_returns s' o' -> renamed_syntax f G o o'.
Proof.
  intros Hs H1 H2. destruct (optimize_both _ _ _ _ H1 H2) as (fuel & Ho & Ho').
  apply optimize_rules in Ho, Ho'. pose proof (refs_alike f G s s' Hs) as Hrefs.
  assert (Hone : forall r r' x x', renamed f G r r' -> optimize_rule fuel (s_rules s) r = Done x ->
    optimize_rule fuel (s_rules s') r' = Done x' -> renamed f G x x').
  { intros r r' x x' Hr Hx Hx'.
    pose proof (optimize_rule_alike _ _ _ _ Hrefs fuel r r' (renamed_alike _ _ _ _ Hr)) as H.
    rewrite Hx, Hx' in H. apply alike_renamed. exact H. }
  destruct Hs as [Hk Hstart]. split.
  - intros k k' HG. specialize (Hk k k' HG).
    destruct (nth_error (s_rules s) k) as [r|] eqn:Hr, (nth_error (s_rules s') k') as [r'|] eqn:Hr'; try contradiction.
    + destruct (Forall2_nth_l _ _ _ Ho _ _ Hr) as (x & -> & Hx).
      destruct (Forall2_nth_l _ _ _ Ho' _ _ Hr') as (x' & -> & Hx'). eapply Hone; eassumption.
    + apply nth_error_None in Hr, Hr'. rewrite (Forall2_len _ _ _ Ho) in Hr. rewrite (Forall2_len _ _ _ Ho') in Hr'.
      apply nth_error_None in Hr, Hr'. rewrite Hr, Hr'. exact I.
  - destruct Hstart as [[H3 H4]|(r & r' & Hr & Hr' & Hrr)].
    + left. rewrite H3 in Ho. rewrite H4 in Ho'. inversion Ho; inversion Ho'. auto.
    + right. destruct (start_map _ _ _ Ho _ Hr) as (x & Hx & Hxo).
      destruct (start_map _ _ _ Ho' _ Hr') as (x' & Hx' & Hxo').
      exists x, x'. split; [exact Hx|]. split; [exact Hx'|]. eapply Hone; eassumption.
Qed.

(** Changing the properties commutes with optimisation. *)
Lemma with_properties_optimize f s o : optimize_returns s o ->
  exists o', optimize_returns (syntax_with_properties f s) o'.
Proof.
  intros (fuel & Ho). pose proof (refs_alike f eq s _ (syntax_with_properties_renamed f s)) as Hrefs.
  assert (Hall : Forall2 (alike (fun p p' => p' = new_property f p) eq) (s_rules s) (s_rules (syntax_with_properties f s))).
  { apply Forall2_map_r. intros r _. apply renamed_alike, with_properties_renamed. }
  unfold optimize in Ho.
  assert (H : orel (Forall2 (alike (fun p p' => p' = new_property f p) eq))
    (map_o (optimize_rule fuel (s_rules s)) (s_rules s))
    (map_o (optimize_rule fuel (s_rules (syntax_with_properties f s))) (s_rules (syntax_with_properties f s)))).
  { eapply orel_map; [exact Hall|]. intros x y _ Hxy. apply optimize_rule_alike; assumption. }
  destruct (map_o (optimize_rule fuel (s_rules s)) (s_rules s)) as [l| |]; try discriminate.
  destruct (map_o (optimize_rule fuel (s_rules (syntax_with_properties f s))) _) as [l'| |] eqn:Hl'; try contradiction.
  exists (Syn l' (s_names (syntax_with_properties f s))). exists fuel. unfold optimize. rewrite Hl'. reflexivity.
Qed.

(** ** Definitions *)

Lemma built_rules defs : s_rules (built defs) = map (rule_update_refs (map fst defs)) (map snd defs) /\
  s_names (built defs) = map fst defs.
Proof.
  unfold built, update_refs. cbn [s_rules s_names].
  assert (H : forall s, s_rules (fold_left (fun s d => syntax_push s (fst d) (snd d)) defs s) = s_rules s ++ map snd defs /\
    s_names (fold_left (fun s d => syntax_push s (fst d) (snd d)) defs s) = s_names s ++ map fst defs).
  { induction defs as [|[n r] defs IH]; intros s; cbn [fold_left map fst snd]; [rewrite !app_nil_r; auto|].
    destruct (IH (syntax_push s n r)) as [-> ->]. unfold syntax_push. cbn [s_rules s_names].
    rewrite <- !app_assoc. auto. }
  destruct (H syntax_new) as [-> ->]. cbn [syntax_new s_rules s_names app]. auto.
Qed.

Lemma find_defined defs name k : find_name name (map fst defs) 0 = Some k ->
  exists r, defined defs name r /\ nth_error (map snd defs) k = Some r.
Proof.
  intros H. pose proof (find_name_spec name (map fst defs) 0) as Hf. rewrite H in Hf.
  destruct Hf as (_ & H1 & H2). rewrite Nat.sub_0_r in *.
  rewrite nth_error_map in H1. destruct (nth_error defs k) as [[n r]|] eqn:Hk; [|discriminate].
  injection H1 as ->. exists r. rewrite nth_error_map, Hk. split; [|reflexivity].
  apply nth_error_split in Hk as (b & a & -> & <-). exists b, a. split; [reflexivity|].
  intros Hin. apply In_nth_error in Hin as (j & Hj).
  assert (Hlt : j < length b). { rewrite <- (map_length fst b). apply nth_error_Some. congruence. }
  apply (H2 j Hlt). rewrite map_app, nth_error_app1; [exact Hj|]. rewrite map_length. exact Hlt.
Qed.

Lemma find_undefined defs name : find_name name (map fst defs) 0 = None -> forall r, ~ defined defs name r.
Proof.
  intros H r (b & a & -> & _). pose proof (find_name_spec name (map fst (b ++ (name, r) :: a)) 0) as Hf.
  rewrite H in Hf. apply Hf. rewrite map_app. apply in_or_app. right. left. reflexivity.
Qed.

Lemma defined_unique defs name r r' : defined defs name r -> defined defs name r' -> r = r'.
Proof.
  intros (b & a & Hd & Hn) (b' & a' & Hd' & Hn'). rewrite Hd in Hd'.
  revert b' Hd' Hn'. clear Hd. induction b as [|[n x] b IH]; intros [|[n' x'] b'] Hd' Hn'; cbn in *.
  - congruence.
  - exfalso. injection Hd' as <- _. apply Hn'. left. reflexivity.
  - exfalso. injection Hd' as -> _. apply Hn. left. reflexivity.
  - injection Hd' as -> -> Hd'. eapply IH; [tauto|eassumption|tauto].
Qed.

Section Definitions.
  Variables defs defs' : list (str * rule).
  Variable main : rule.
  Hypothesis Hsame : forall name, needs defs main name -> forall r, defined defs name r <-> defined defs' name r.
  Hypothesis Hmain : by_name main.
  Hypothesis Hnames : forall name r, needs defs main name -> defined defs name r -> by_name r.

  (** Corresponding numbers. *)
  Definition same_name (k k' : nat) : Prop := exists name, needs defs main name /\
    find_name name (map fst defs) 0 = Some k /\ find_name name (map fst defs') 0 = Some k'.

  Lemma resolve_same r : by_name r -> (forall name, refers r name -> needs defs main name) ->
    renamed Some same_name (rule_update_refs (map fst defs) r) (rule_update_refs (map fst defs') r).
  Proof.
    induction r as [r IH] using rule_ind'. intros Hb Hn.
    assert (Hc : forall c, In c (children r) ->
      renamed Some same_name (rule_update_refs (map fst defs) c) (rule_update_refs (map fst defs') c)).
    { intros c Hc. apply IH; [exact Hc| |].
      - intros x Hx. apply Hb. eapply occurs_below; eassumption.
      - intros name (p & i & Hx). apply Hn. exists p, i. eapply occurs_below; eassumption. }
    assert (Hargs : forall args, (forall c, In c args -> In c (children r)) ->
      Forall2 (renamed Some same_name) (map (rule_update_refs (map fst defs)) args) (map (rule_update_refs (map fst defs')) args)).
    { intros args Ha. induction args as [|x l IHl]; cbn [map]; constructor.
      - apply Hc, Ha. left. reflexivity.
      - apply IHl. intros c Hin. apply Ha. right. exact Hin. }
    assert (Hp : forall p, p = new_property Some p) by (intros [p|]; reflexivity).
    destruct r; cbn [rule_update_refs];
      try (constructor; apply Hc; cbn; tauto);
      try (constructor; apply Hargs; cbn; tauto);
      try (apply alike_renamed; constructor; apply Hp).
    - exfalso. apply (Hb _ (occurs_here _)).
    - destruct index as [k|]; [exfalso; apply (Hb _ (occurs_here _))|].
      assert (Hneed : needs defs main name). { apply Hn. exists property, id. apply occurs_here. }
      destruct (find_name name (map fst defs) 0) as [k|] eqn:Hk, (find_name name (map fst defs') 0) as [k'|] eqn:Hk';
        apply alike_renamed.
      + constructor; [apply Hp|]. exists name. auto.
      + exfalso. destruct (find_defined _ _ _ Hk) as (r & Hr & _). apply Hsame in Hr; [|exact Hneed].
        eapply find_undefined; eassumption.
      + exfalso. destruct (find_defined _ _ _ Hk') as (r & Hr & _). apply Hsame in Hr; [|exact Hneed].
        eapply find_undefined; eassumption.
      + constructor. apply Hp.
  Qed.

  Lemma definitions_renamed l l' name name' : defs = l ++ [(name, main)] -> defs' = l' ++ [(name', main)] ->
    renamed_syntax Some same_name (built defs) (built defs').
  Proof.
    intros Hl Hl'. destruct (built_rules defs) as [Hr _]. destruct (built_rules defs') as [Hr' _].
    split.
    - intros k k' (n & Hn & Hk & Hk'). rewrite Hr, Hr', !nth_error_map.
      destruct (find_defined _ _ _ Hk) as (r & Hd & Hnth). destruct (find_defined _ _ _ Hk') as (r' & Hd' & Hnth').
      rewrite nth_error_map in Hnth, Hnth'.
      destruct (nth_error defs k) as [[m x]|]; [|discriminate]. destruct (nth_error defs' k') as [[m' x']|]; [|discriminate].
      cbn in *. injection Hnth as ->. injection Hnth' as ->.
      assert (r' = r). { apply Hsame in Hd; [|exact Hn]. eapply defined_unique; eassumption. } subst r'.
      apply resolve_same; [eapply Hnames; eassumption|].
      intros m1 Hm1. eapply needs_more; eassumption.
    - right. rewrite Hl, Hl' in *.
      exists (rule_update_refs (map fst defs) main), (rule_update_refs (map fst defs') main).
      split; [exists (map (rule_update_refs (map fst defs)) (map snd l)); rewrite Hr, Hl, !map_app; reflexivity|].
      split; [exists (map (rule_update_refs (map fst defs')) (map snd l')); rewrite Hr', Hl', !map_app; reflexivity|].
      rewrite Hl, Hl'. rewrite <- Hl, <- Hl' in *. apply resolve_same; [exact Hmain|].
      intros m Hm. apply needs_direct. exact Hm.
  Qed.
End Definitions.

Lemma new_tokens_same out : new_tokens Some out = out.
Proof.
  unfold new_tokens. induction out as [|[r m] out IH]; [reflexivity|]. cbn [flat_map]. rewrite IH.
  destruct m; reflexivity.
Qed.

Lemma parse_same E G s s' : ext_ok E -> renamed_syntax Some G s s' -> forall text tokens ind,
  (forall tokens', parse_returns E s' text tokens ind None tokens' <-> parse_returns E s text tokens ind None tokens') /\
  (forall e, (exists tokens', parse_returns E s' text tokens ind (Some e) tokens') <->
     (exists tokens', parse_returns E s text tokens ind (Some e) tokens')).
Proof.
  intros HE Hs text tokens ind. destruct (parse_renamed E Some G s s' HE Hs text tokens ind) as [H1 H2].
  split; [|exact H2]. intros tokens'. rewrite H1. split.
  - intros (out & H & ->). rewrite new_tokens_same. exact H.
  - intros H. apply parse_accepts in H as H'; [|exact HE]. destruct H' as (out & _ & ->).
    exists out. rewrite new_tokens_same. auto.
Qed.
