(** Reading what is written: rules. *)
From Coq Require Import Ascii String List NArith Bool Arith Lia.
From Verif Require Import Base Ext Types ParseModel BootstrapRules PegSpec PrimProofs LinesProofs JsonSpec
  ConvertSpec WriteSpec TextSpec TextProofs.
Import ListNotations.
Local Open Scope string_scope.
Local Open Scope list_scope.
Local Open Scope nat_scope.

(** ** Debug ids in the order of completion *)

Fixpoint number (lo : N) (r : rule) : rule * N :=
  let id := (lo + 1)%N in
  let args := fix args (lo : N) (l : list rule) : list rule * N :=
    match l with
    | [] => ([], lo)
    | a :: l' =>
      let (a', mid) := number lo a in
      let (l'', hi) := args mid l' in
      (a' :: l'', hi)
    end in
  match r with
  | RWhitespace o _ => (RWhitespace o id, id)
  | RTag t n v p _ => (RTag t n v p id, id)
  | RUntilAny a o p _ => (RUntilAny a o p id, id)
  | RUntilAnyOrWs a o p _ => (RUntilAnyOrWs a o p id, id)
  | RText e p _ => (RText e p id, id)
  | RNumber u p _ => (RNumber u p id, id)
  | RSelect l _ => let (l', hi) := args lo l in (RSelect l' (hi + 1)%N, (hi + 1)%N)
  | RFastSelect _ _ _ _ => (r, lo)
  | RSequence l _ => let (l', hi) := args lo l in (RSequence l' (hi + 1)%N, (hi + 1)%N)
  | RSeparateBy a b o t _ =>
    let (b', mid) := number lo b in
    let (a', hi) := number mid a in
    (RSeparateBy a' b' o t (hi + 1)%N, (hi + 1)%N)
  | RRepeat a o _ => let (a', hi) := number lo a in (RRepeat a' o (hi + 1)%N, (hi + 1)%N)
  | RLines a i _ => let (a', hi) := number lo a in (RLines a' i (hi + 1)%N, (hi + 1)%N)
  | RNode n p i _ => (RNode n p i id, id)
  | ROptional a _ => let (a', hi) := number lo a in (ROptional a' (hi + 1)%N, (hi + 1)%N)
  | RNot a _ => let (a', hi) := number lo a in (RNot a' (hi + 1)%N, (hi + 1)%N)
  end.

Fixpoint number_args (lo : N) (l : list rule) : list rule * N :=
  match l with
  | [] => ([], lo)
  | a :: l' =>
    let (a', mid) := number lo a in
    let (l'', hi) := number_args mid l' in
    (a' :: l'', hi)
  end.

Lemma number_sequence lo l id :
  number lo (RSequence l id) = let (l', hi) := number_args lo l in (RSequence l' (hi + 1)%N, (hi + 1)%N).
Proof. reflexivity. Qed.

Lemma number_select lo l id :
  number lo (RSelect l id) = let (l', hi) := number_args lo l in (RSelect l' (hi + 1)%N, (hi + 1)%N).
Proof. reflexivity. Qed.

(** ** What follows a rule *)

Definition follows (s : str) : Prop :=
  match s with [] => True | c :: _ => white c \/ In c (s2l ")]}") end.

Lemma sep_not_name c s : In c separators -> stops name_char (c :: s).
Proof. intros H [_ Hn]. contradiction. Qed.

Lemma follows_name s : follows s -> stops name_char s.
Proof.
  destruct s as [|c s]; [intros; exact I|]. intros [H|H] [Hw Hn]; [contradiction|].
  apply Hn. cbn in H |- *. intuition auto.
Qed.

Lemma follows_prefix a p s : follows s -> ~ white a -> ~ In a (s2l ")]}") -> is_prefix (a :: p) s = false.
Proof.
  destruct s as [|c s]; [reflexivity|]. cbn [follows is_prefix]. intros Hf Hw Hn.
  destruct (N.eqb_spec a c) as [->|]; [|reflexivity]. destruct Hf; contradiction.
Qed.

Lemma follows_white w s : Forall white w -> follows s -> follows (w ++ s).
Proof. intros Hw Hs. destruct Hw; [exact Hs|left; assumption]. Qed.

Lemma prefix_head a p s : hd_error s <> Some a -> is_prefix (a :: p) s = false.
Proof.
  destruct s as [|c s]; [reflexivity|]. cbn [hd_error is_prefix]. intros H.
  destruct (N.eqb_spec a c) as [->|]; [contradiction H; reflexivity|reflexivity].
Qed.

Ltac prefix_false := first
  [ reflexivity
  | apply follows_prefix; [assumption|intros HH; vm_compute in HH; discriminate HH|cbn; intuition discriminate] ].

Section Reading.
  Variable E : ext.
  Hypothesis HE : ext_ok E.
  Variable lit : str -> str -> Prop.
  Hypothesis HL : forall v t, lit v t -> literal E v t.
  Variable ss : list (str * str).

  Notation good := (good E). Notation bad := (bad E). Notation goods := (goods E). Notation bads := (bads E).

  (** ** Texts *)

  Lemma bad_set i s : i = 4 \/ i = 5 -> hd_error s <> Some quote -> hd_error s <> Some 95%N ->
    exists r, nth_error boot i = Some r /\ bad r s.
  Proof.
    intros Hi Hq Hu. assert (Hp : is_prefix [95%N] s = false) by (apply prefix_head; exact Hu).
    destruct Hi as [-> | ->]; eexists; (split; [reflexivity|]); (apply bad_select; [discriminate|]);
      repeat constructor; try (apply bad_text; assumption); apply bad_sequence, bads_first, bad_tag; exact Hp.
  Qed.

  Lemma bad_set_node i p id s : i = 4 \/ i = 5 -> hd_error s <> Some quote -> hd_error s <> Some 95%N ->
    forall name, bad (RNode name p (Some i) id) s.
  Proof. intros Hi Hq Hu name. destruct (bad_set i s Hi Hq Hu) as (r & Hr & Hb). eapply bad_node; eassumption. Qed.

  Lemma good_set i b id p v t name : (i = 4 /\ b = false) \/ (i = 5 /\ b = true) -> mtext lit (defined ss) b v t ->
    good (RNode name (Some p) (Some i) id) (stops name_char) t (written ss (Text p v)).
  Proof.
    intros Hi Ht.
    assert (H : exists r, nth_error boot i = Some r /\ good r (stops name_char) t
      (fun d => (exists q, d = [(q, MString (s2l "value") v)]) \/
        exists q n, d = [(q, MString (s2l "ref") n)] /\ defined ss n v)).
    { destruct Ht as [v t Hq Hb|v n Hn Hd].
      - destruct Hi as [[-> ->]|[-> ->]]; (eexists; split; [reflexivity|]);
          refine (good_select E [] _ _ _ _ _ _ _ _); try (intros; constructor);
          (eapply good_weaken; [apply (good_text E _ _ _ v t (HL _ _ Hq) Hb)|intros; exact I|left; assumption]).
      - assert (Hbt : forall b pr id rest, bad (RText b pr id) ((s2l "_" ++ n) ++ rest)).
        { intros. apply bad_text; [exact HE|]. cbn. discriminate. }
        assert (Hg : forall id1 id2 id3, good (RSequence [RTag [95%N] false false None id1;
            RUntilAnyOrWs separators false (Some (s2l "ref")) id2] id3) (stops name_char) (s2l "_" ++ n)
          (fun d => (exists q, d = [(q, MString (s2l "value") v)]) \/
            exists q n, d = [(q, MString (s2l "ref") n)] /\ defined ss n v)).
        { intros. apply good_sequence. rewrite <- (app_nil_r n). eapply goods_weaken.
          - eapply goods_cons; [apply good_tag; reflexivity| |intros; exact I].
            eapply goods_cons; [apply (good_name E (s2l "ref") _ n Hn)|apply goods_nil|intros rest Hr; exact Hr].
          - intros s Hs; exact Hs.
          - intros d (a & c & -> & -> & e & f & -> & (q & ->) & ->). right. exists q, n. split; [reflexivity|exact Hd]. }
        destruct Hi as [[-> ->]|[-> ->]]; (eexists; split; [reflexivity|]);
          (refine (good_select E [_] _ _ _ _ _ _ _ _); [apply Hg|intros; constructor; [apply Hbt|constructor]]).
    }
    destruct H as (r & Hr & Hg). eapply good_weaken; [eapply good_node; [exact Hr|exact Hg]|auto|].
    intros d (inner & [(q & ->)|(q & n & -> & Hd)] & Hn); [eapply written_value; exact Hn|eapply written_ref; eassumption].
  Qed.

  (** ** Marks and properties *)

  Lemma good_mark b id name : good (RNode name None (Some 6) id) (fun _ => True) (mark b)
    (fun d => exists r, d = [(r, MBool (s2l "optional") b)]).
  Proof.
    eapply good_ref; [reflexivity|]. destruct b.
    - refine (good_select E [] _ _ _ _ _ _ _ _); [apply (good_tag_prop E); reflexivity|constructor].
    - refine (good_select E [_] _ _ _ _ _ _ _ _); [apply (good_tag_prop E); reflexivity|].
      intros. constructor; [|constructor]. apply bad_tag. reflexivity.
  Qed.

  Definition prop_fields (p : option str) : list field :=
    match p with Some v => [Text (s2l "property") v] | None => [] end.

  Definition wr (fs : list field) (d : list tok) : Prop :=
    exists items, d = concat items /\ Forall2 (written ss) fs items.

  Lemma wr_nil : wr [] [].
  Proof. exists []. split; [reflexivity|constructor]. Qed.

  Lemma wr_one f d : written ss f d -> wr [f] d.
  Proof. intros H. exists [d]. split; [cbn; rewrite app_nil_r; reflexivity|repeat constructor; exact H]. Qed.

  Lemma wr_app fs gs a b : wr fs a -> wr gs b -> wr (fs ++ gs) (a ++ b).
  Proof.
    intros (x & -> & Hx) (y & -> & Hy). exists (x ++ y). split; [symmetry; apply concat_app|].
    apply Forall2_app; assumption.
  Qed.

  Lemma wr_fields a b c d fs t : wr fs t -> Forall (allowed a b c d) fs -> fields ss a b c d fs t.
  Proof. intros H Ha. split; assumption. Qed.

  (** An optional property behind a colon. *)
  Lemma good_prop p tp id1 id2 id3 id4 name : mprop lit (defined ss) p tp ->
    good (ROptional (RSequence [RTag [58%N] false false None id1;
            RNode name (Some (s2l "property")) (Some 4) id2] id3) id4) follows tp (wr (prop_fields p)).
  Proof.
    intros H. destruct H as [|v t Ht].
    - eapply good_weaken; [apply good_option_none with (ok := follows)|auto|intros d ->; apply wr_nil].
      intros rest Hr. apply bad_sequence, bads_first, bad_tag. prefix_false.
    - apply good_option, good_sequence. rewrite <- (app_nil_r t). eapply goods_weaken.
      + eapply goods_cons; [apply good_tag; reflexivity| |intros; exact I].
        eapply goods_cons; [apply good_set with (b := false); [left; auto|exact Ht]|apply goods_nil|].
        intros rest Hr. exact Hr.
      + intros s Hs. apply follows_name. exact Hs.
      + intros d (a & b & -> & -> & e & f & -> & Hw & ->). cbn [app]. rewrite app_nil_r. apply wr_one. exact Hw.
  Qed.

  Lemma prop_stops p tp rest : mprop lit (defined ss) p tp -> follows rest -> stops name_char (tp ++ rest).
  Proof.
    intros H Hf. destruct H; [apply follows_name; exact Hf|]. apply sep_not_name. cbn. auto 20.
  Qed.

  (** ** Alternatives that do not match *)

  Lemma bad_reference s : hd_error s = Some 95%N \/ hd_error s = Some 46%N \/ stops name_char s ->
    forall name p id, bad (RNode name p (Some 9) id) s.
  Proof.
    intros H name p id. eapply bad_node; [reflexivity|]. apply bad_sequence.
    destruct (is_prefix [95%N] s) eqn:H1; [apply bads_first, bad_not_tag; exact H1|].
    change s with ([] ++ s).
    eapply bads_next with (ok := fun s => is_prefix [95%N] s = false); [apply good_not_tag; auto|exact H1|].
    destruct (is_prefix [46%N] s) eqn:H2; [apply bads_first, bad_not_tag; exact H2|].
    change s with ([] ++ s).
    eapply bads_next with (ok := fun s => is_prefix [46%N] s = false); [apply good_not_tag; auto|exact H2|].
    apply bads_first. apply bad_name. destruct H as [H|[H|H]]; [| |exact H].
    - destruct s as [|c s]; [exact I|]. inversion H; subst. discriminate H1.
    - destruct s as [|c s]; [exact I|]. inversion H; subst. discriminate H2.
  Qed.

  Lemma bad_tag_rule s : hd_error s <> Some quote -> hd_error s <> Some 95%N -> hd_error s <> Some 33%N ->
    forall name p id, bad (RNode name p (Some 13) id) s.
  Proof.
    intros H1 H2 H3 name p id. eapply bad_node; [reflexivity|]. apply bad_sequence.
    change s with ([] ++ s).
    eapply bads_next with (ok := fun s => is_prefix [33%N] s = false).
    - apply good_option_none. intros rest Hr. apply bad_tag. exact Hr.
    - apply prefix_head. exact H3.
    - apply bads_first, bad_set_node; auto.
  Qed.

  Lemma bad_tag_rule_not s : hd_error s <> Some quote -> hd_error s <> Some 95%N ->
    forall name p id, bad (RNode name p (Some 13) id) (33%N :: s).
  Proof.
    intros H1 H2 name p id. eapply bad_node; [reflexivity|]. apply bad_sequence.
    change (33%N :: s) with ([33%N] ++ s).
    eapply bads_next with (ok := fun _ => True); [apply good_option, (good_tag_prop E); reflexivity|exact I|].
    apply bads_first, bad_set_node; auto.
  Qed.

  Ltac alt := eapply bad_node; [reflexivity|]; apply bad_sequence, bads_first, bad_tag; reflexivity.
  Ltac alts := intros; repeat (apply Forall_cons; [try alt|]); [..|apply Forall_nil].

  (** No rule starts with a closing bracket. *)
  Lemma bad_rule c s : In c (s2l "]}") -> forall name p id, bad (RNode name p (Some 21) id) (c :: s).
  Proof.
    intros Hc name p id. eapply bad_node; [reflexivity|]. apply bad_select; [discriminate|].
    cbn in Hc. destruct Hc as [<-|[<-|[]]]; alts;
      first [apply bad_reference; right; right; apply sep_not_name; cbn; auto 20
            |apply bad_tag_rule; discriminate].
  Qed.
End Reading.
