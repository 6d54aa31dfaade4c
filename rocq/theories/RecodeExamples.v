(** Recoding: an example. *)
From Coq Require Import Ascii String List NArith Bool Arith Lia.
From Verif Require Import Base Ext Types PegSpec DataSpec OccursProofs RecodeSpec RecodeProofs2.
Import ListNotations.
Local Open Scope string_scope.
Local Open Scope list_scope.
Local Open Scope nat_scope.

(** Exchanges a Latin and a Cyrillic letter. *)
Definition exchange (c : char) : char :=
  if N.eqb c 229 then 1078%N else if N.eqb c 1078 then 229%N else c.

Lemma exchange_cases c : (c = 229%N /\ exchange c = 1078%N) \/ (c = 1078%N /\ exchange c = 229%N) \/
  (c <> 229%N /\ c <> 1078%N /\ exchange c = c).
Proof.
  unfold exchange. destruct (N.eqb_spec c 229) as [H|H]; [auto|].
  destruct (N.eqb_spec c 1078) as [H'|H']; auto.
Qed.

Lemma exchange_recoding : recoding std_ext exchange.
Proof.
  apply std_recoding.
  - intros c d H.
    destruct (exchange_cases c) as [[-> Hc]|[[-> Hc]|(Hc1 & Hc2 & Hc)]], (exchange_cases d) as [[-> Hd]|[[-> Hd]|(Hd1 & Hd2 & Hd)]];
      rewrite ?Hc, ?Hd in H; congruence.
  - intros c Hc. destruct (exchange_cases c) as [[-> _]|[[-> _]|(_ & _ & H)]]; [discriminate Hc|discriminate Hc|exact H].
  - intros c. destruct (exchange_cases c) as [[-> ->]|[[-> ->]|(_ & _ & ->)]]; reflexivity.
Qed.

Definition no_tableb (r : rule) : bool := match r with RFastSelect _ _ _ _ => false | _ => true end.

Lemma no_tables_check s : forallb (all_sub no_tableb) (s_rules s) = true -> no_tables s.
Proof.
  intros H table args tail id (top & Htop & Hin). rewrite forallb_forall in H.
  discriminate (all_sub_spec _ _ (H top Htop) _ Hin).
Qed.
