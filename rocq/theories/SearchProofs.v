(** Searching. *)
From Coq Require Import List NArith Bool Arith ZArith SpecFloat.
From Verif Require Import Base Ext Types SearchModel SearchSpec OptProofs.
Import ListNotations.

Lemma same_number_spec a b : f64_eqb a b = true <-> same_number a b.
Proof.
  unfold f64_eqb, same_number, SFeqb, SFcompare.
  destruct a as [[]|[]| |[] m e], b as [[]|[]| |[] n f]; cbv beta iota.
  all: try (split; [intros H; discriminate H|intros [[H H']|(u & w & H & H')]; congruence]).
  all: try (split; [intros _; (left; split; congruence) ||
                    (right; do 2 eexists; split; reflexivity)|reflexivity]).
  all: (split;
    [intros H; left; split; [|discriminate];
     destruct (Z.compare e f) eqn:He; try discriminate; apply Z.compare_eq in He; subst f;
     change (Pos.compare_cont Eq m n) with (Pos.compare m n) in H;
     destruct (Pos.compare m n) eqn:Hm; try discriminate; apply Pos.compare_eq in Hm; congruence
    |intros [[H _]|(u & w & H & _)]; [|congruence]; injection H as -> ->;
     rewrite Z.compare_refl; change (Pos.compare_cont Eq n n) with (Pos.compare n n);
     rewrite Pos.compare_refl; reflexivity]).
Qed.

Lemma for_loop_first {T} (f : search -> T + range) p err data :
  (forall before r d rest, data = before ++ (r, d) :: rest ->
     Forall (fun x => p (snd x) = false) before -> p d = true ->
     for_loop f p err data = f (Sr (Some r) rest)) /\
  (Forall (fun x => p (snd x) = false) data -> for_loop f p err data = inr err).
Proof.
  split.
  - intros before. revert data. induction before as [|b before IH]; intros data r d rest -> Hb Hd; simpl.
    + rewrite Hd. reflexivity.
    + inversion Hb; subst. rewrite H1. eapply IH; eauto.
  - induction 1 as [|b data Hb _ IH]; simpl; [reflexivity|]. rewrite Hb. exact IH.
Qed.

Definition test (w : wanted) (d : metadata) : bool :=
  match w, d with
  | WString name val, MString n v => str_eqb n name && str_eqb v val
  | WF64 name val, MF64 n v => str_eqb n name && f64_eqb v val
  | WBool name val, MBool n v => str_eqb n name && Bool.eqb v val
  | WNode name, StartNode n => str_eqb n name
  | WEnd name, EndNode n => str_eqb n name
  | _, _ => false
  end.

Lemma test_spec w d : test w d = true <-> is_wanted w d.
Proof.
  split.
  - destruct w, d; simpl; try discriminate; rewrite ?andb_true_iff, ?str_eqb_eq.
    + intros [-> ->]. constructor.
    + intros [-> H]. constructor. apply same_number_spec. exact H.
    + intros [-> H]. apply Bool.eqb_prop in H as ->. constructor.
    + intros ->. constructor.
    + intros ->. constructor.
  - intros H. destruct H; simpl; rewrite ?andb_true_iff, ?str_eqb_eq; auto.
    + split; [reflexivity|]. apply same_number_spec. assumption.
    + split; [reflexivity|]. apply Bool.eqb_reflx.
Qed.

Lemma test_false w d : test w d = false <-> ~ is_wanted w d.
Proof. rewrite <- test_spec. destruct (test w d); intuition congruence. Qed.

Lemma for_loop_ext {T} (f : search -> T + range) p q err data :
  (forall d, p d = q d) -> for_loop f p err data = for_loop f q err data.
Proof. intros H. induction data as [|b data IH]; simpl; [reflexivity|]. rewrite H, IH. reflexivity. Qed.

Lemma search_for_loop {T} w (f : search -> T + range) s :
  search_for w f s = for_loop f (test w) (stands_at s) (sr_data s).
Proof. destruct w; simpl; apply for_loop_ext; intros []; reflexivity. Qed.

Theorem search_first {T} w (f : search -> T + range) s before r d rest :
  sr_data s = before ++ (r, d) :: rest ->
  Forall (fun x => ~ is_wanted w (snd x)) before -> is_wanted w d ->
  search_for w f s = f (Sr (Some r) rest).
Proof.
  intros Hs Hb Hd. rewrite search_for_loop. eapply for_loop_first; [exact Hs| |apply test_spec; exact Hd].
  eapply Forall_impl; [|exact Hb]. intros x. apply test_false.
Qed.

Theorem search_none {T} w (f : search -> T + range) s :
  Forall (fun x => ~ is_wanted w (snd x)) (sr_data s) ->
  search_for w f s = inr (stands_at s).
Proof.
  intros H. rewrite search_for_loop. apply for_loop_first.
  eapply Forall_impl; [|exact H]. intros x. apply test_false.
Qed.

Lemma read_next_spec {A} s (p : metadata -> option A) (m : metadata -> A -> Prop) :
  (forall d a, p d = Some a <-> m d a) -> next_item m s (read_next s p).
Proof.
  intros H. unfold read_next. destruct (sr_data s) as [|[r d] rest] eqn:Hs.
  - apply next_end. exact Hs.
  - simpl. destruct (p d) as [a|] eqn:Hp.
    + eapply next_found; [exact Hs|]. apply H. exact Hp.
    + eapply next_other; [exact Hs|]. intros a Ha. apply H in Ha. congruence.
Qed.

Lemma next_item_unique {A} (m : metadata -> A -> Prop) s x y :
  (forall d a b, m d a -> m d b -> a = b) ->
  next_item m s x -> next_item m s y -> x = y.
Proof.
  intros Hf Hx Hy. destruct Hx as [r d rest a Hs Hm|r d rest Hs Hm|Hs];
    destruct Hy as [r' d' rest' a' Hs' Hm'|r' d' rest' Hs' Hm'|Hs']; rewrite Hs in Hs';
    try discriminate; try (injection Hs' as <- <- <-); try reflexivity.
  - rewrite (Hf _ _ _ Hm Hm'). reflexivity.
  - destruct (Hm' _ Hm).
  - destruct (Hm _ Hm').
Qed.

Ltac reader := intros; apply read_next_spec; intros d a; destruct d; try (split; congruence);
  match goal with |- (if str_eqb ?n ?m then _ else _) = _ <-> _ =>
    let He := fresh in
    destruct (str_eqb n m) eqn:He;
    [apply str_eqb_eq in He; subst; split; congruence
    |split; [discriminate|]; let H := fresh in intros H; injection H as -> _;
     rewrite (proj2 (str_eqb_eq m m) eq_refl) in He; discriminate] end.

Theorem reader_bool s name : next_item (fun d v => d = MBool name v) s (search_bool s name).
Proof. unfold search_bool. reader. Qed.
Theorem reader_f64 s name : next_item (fun d v => d = MF64 name v) s (search_f64 s name).
Proof. unfold search_f64. reader. Qed.
Theorem reader_string s name : next_item (fun d v => d = MString name v) s (search_string s name).
Proof. unfold search_string. reader. Qed.
Theorem reader_node s name :
  next_item (fun d (v : unit) => d = StartNode name) s (search_node s name).
Proof.
  unfold search_node. apply read_next_spec; intros d []; destruct d; try (split; congruence).
  destruct (str_eqb name0 name) eqn:He.
  - apply str_eqb_eq in He as ->. tauto.
  - split; [discriminate|]. intros [= ->]. rewrite (proj2 (str_eqb_eq name name) eq_refl) in He. discriminate.
Qed.
Theorem reader_end s name :
  next_item (fun d (v : unit) => d = EndNode name) s (search_end_node s name).
Proof.
  unfold search_end_node. apply read_next_spec; intros d []; destruct d; try (split; congruence).
  destruct (str_eqb name0 name) eqn:He.
  - apply str_eqb_eq in He as ->. tauto.
  - split; [discriminate|]. intros [= ->]. rewrite (proj2 (str_eqb_eq name name) eq_refl) in He. discriminate.
Qed.
