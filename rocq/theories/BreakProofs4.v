(** Line breaks: texts of the meta language. *)
From Coq Require Import Ascii String List NArith Bool Arith Lia.
From Verif Require Import Base Ext Types ParseModel BootstrapRules OptimizeModel LibModel PegSpec DataSpec ApiSpec OptSpec IdSpec SyntaxSpec
  SurfaceSpec TotalCheck OccursProofs SurfaceProofs TextProofs TextSame BreakSpec BreakProofs BreakProofs2 BreakProofs3.
Import ListNotations.
Local Open Scope list_scope.
Local Open Scope nat_scope.

Definition has (c : char) (s : str) : bool := existsb (N.eqb c) s.

Lemma has_spec c s : has c s = true <-> In c s.
Proof.
  unfold has. rewrite existsb_exists. split.
  - intros (x & Hx & He). apply N.eqb_eq in He. subst x. exact Hx.
  - intros H. exists c. split; [exact H|apply N.eqb_refl].
Qed.

Lemma has_not c s : has c s = false <-> ~ In c s.
Proof. rewrite <- has_spec. destruct (has c s); split; congruence. Qed.

Definition break_safeb (r : rule) : bool :=
  match r with
  | RTag text _ _ _ _ => negb (has newline text) && negb (has carriage text)
  | RUntilAny any optional property _ =>
    Bool.eqb (has carriage any) (has newline any) ||
    (has newline any && optional && match property with None => true | _ => false end)
  | RFastSelect table _ _ _ => match nth_error table 10, nth_error table 13 with
    | Some a, Some b => Nat.eqb a b | None, None => true | _, _ => false end
  | _ => true
  end.

Lemma break_safeb_spec r : break_safeb r = true -> break_safe r.
Proof.
  destruct r; cbn [break_safeb break_safe]; intros H; try exact I.
  - apply andb_true_iff in H as [H1 H2]. apply negb_true_iff in H1, H2. rewrite <- !has_not. auto.
  - apply orb_true_iff in H as [H|H].
    + left. apply eqb_prop in H. rewrite <- !has_spec, H. reflexivity.
    + right. apply andb_true_iff in H as [H H3]. apply andb_true_iff in H as [H1 H2].
      split; [apply has_spec; exact H1|]. split; [exact H2|]. destruct property; [discriminate|reflexivity].
  - destruct (nth_error table 10), (nth_error table 13); try discriminate; [|reflexivity].
    apply Nat.eqb_eq in H. congruence.
Qed.

Lemma breaks_check s : forallb (all_sub break_safeb) (s_rules s) = true -> breaks_safe s.
Proof.
  intros H r (top & Htop & Hr). rewrite forallb_forall in H. apply break_safeb_spec.
  apply H in Htop. clear H. induction Hr as [|r' c Hc _ IH]; [apply all_sub_here; exact Htop|].
  apply IH. eapply all_sub_below; eassumption.
Qed.

Lemma bootstrap_breaks : breaks_safe bootstrap_rules.
Proof. apply breaks_check. vm_compute. reflexivity. Qed.

Lemma real_breaks text text' : same_breaks text text' -> Forall real_char text -> Forall real_char text'.
Proof.
  induction 1 as [|c s s' _ IH|s s' _ IH|s s' _ IH]; intros H; [constructor|..]; inversion H; subst.
  - constructor; auto.
  - constructor; [reflexivity|]. constructor; [reflexivity|auto].
  - match goal with H : Forall real_char (_ :: s) |- _ => inversion H; subst end. constructor; [reflexivity|auto].
Qed.

(** No string of the text contains a line break. *)
Definition one_lineb (text : str) (data : list tok) : bool :=
  forallb (fun t => match t with (r, MString _ _) => negb (has newline (under text r)) | _ => true end) data.

Lemma one_line_check text data : one_lineb text data = true ->
  forall r n v, In (r, MString n v) data -> ~ In newline (under text r).
Proof.
  unfold one_lineb. rewrite forallb_forall. intros H r n v Hin. apply H in Hin. cbn in Hin.
  apply negb_true_iff in Hin. apply has_not. exact Hin.
Qed.

Section Meta.
  Variable E : ext.
  Hypothesis HE : ext_ok E.
  Hypothesis HB : breaks_ok E.

  Theorem meta_breaks text text' data : same_breaks text text' -> Forall real_char text ->
    text_data E text data -> (forall r n v, In (r, MString n v) data -> ~ In newline (under text r)) ->
    read_alike E text text'.
  Proof.
    intros H Hr Hd Hn. pose proof (real_breaks _ _ H Hr) as Hr'. apply text_data_accepts in Hd; [|exact HE|exact Hr].
    destruct (accepts_breaks E HE HB _ bootstrap_breaks _ _ _ _ H Hd) as (data' & Ha' & Hs).
    apply (same_data E HE text text' data data' Hd Ha'); [|exact Hr|exact Hr'].
    symmetry. exact (tokens_same _ _ _ Hs Hn).
  Qed.
End Meta.

(** The text with the line breaks of Windows. *)
Definition windows (text : str) : str :=
  flat_map (fun c => if N.eqb c newline then [carriage; newline] else [c]) text.

Lemma windows_breaks text : same_breaks text (windows text).
Proof.
  induction text as [|c text IH]; [constructor|]. cbn [windows flat_map]. destruct (N.eqb c newline) eqn:Hc.
  - apply N.eqb_eq in Hc. subst c. apply sb_add. exact IH.
  - apply sb_char. exact IH.
Qed.
