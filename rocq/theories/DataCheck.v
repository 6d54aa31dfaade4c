(** Deciding whether meta data is nested, for examples. *)
From Coq Require Import List NArith Bool Arith.
From Verif Require Import Base Ext Types DataSpec OptProofs.
Import ListNotations.

Fixpoint nested_below (open : list str) (ms : list metadata) : bool :=
  match ms, open with
  | [], [] => true
  | [], _ :: _ => false
  | StartNode n :: ms', _ => nested_below (n :: open) ms'
  | EndNode n :: ms', m :: open' => str_eqb n m && nested_below open' ms'
  | EndNode _ :: _, [] => false
  | _ :: ms', _ => nested_below open ms'
  end.

Definition nestedb (ms : list metadata) : bool := nested_below [] ms.

Inductive closing : list str -> list metadata -> Prop :=
| closing_all : forall ms, nested ms -> closing [] ms
| closing_one : forall n open inner rest,
    nested inner -> closing open rest -> closing (n :: open) (inner ++ EndNode n :: rest).

Lemma closing_leaf m open ms : leaf m -> closing open ms -> closing open (m :: ms).
Proof.
  intros Hm H. destruct H as [ms H|n open inner rest Hi Hr].
  - constructor. constructor; assumption.
  - apply (closing_one n open (m :: inner)); [constructor|]; assumption.
Qed.

Lemma nested_below_spec ms : forall open, nested_below open ms = true -> closing open ms.
Proof.
  induction ms as [|m ms IH]; intros open H.
  - destruct open; [|discriminate]. constructor. constructor.
  - destruct m; cbn [nested_below] in H; try (apply closing_leaf; [exact I|apply IH; destruct open; exact H]).
    + assert (Hc : closing (name :: open) ms) by (apply IH; destruct open; exact H).
      inversion Hc as [|n o inner rest Hi Hr]; subst.
      inversion Hr as [ms' Hn|n' open' inner' rest' Hi' Hr']; subst.
      * constructor. constructor; assumption.
      * apply (closing_one n' open' (StartNode name :: inner ++ EndNode name :: inner')) in Hr'.
        -- cbn [app] in Hr'. rewrite <- app_assoc in Hr'. exact Hr'.
        -- constructor; assumption.
    + destruct open as [|m open]; [discriminate|]. apply andb_prop in H as [H1 H2].
      apply str_eqb_eq in H1. subst. apply (closing_one m open []); [constructor|apply IH; exact H2].
Qed.

Lemma nestedb_spec ms : nestedb ms = true -> nested ms.
Proof. intros H. apply nested_below_spec in H. inversion H; assumption. Qed.
