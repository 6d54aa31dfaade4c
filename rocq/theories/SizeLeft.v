(** How much data a parse leaves, whether or not it fails. *)
From Coq Require Import List NArith Bool Arith Lia.
From Verif Require Import Base Ext Types ParseModel PegSpec DataSpec ApiSpec SizeSpec SizeProofs LeftSpec LeftProofs LeftProofs2.
Import ListNotations.

Theorem characters_left E : ext_ok E -> forall s text tokens ind result new,
  parse_returns E s text tokens ind result (tokens ++ new) -> characters new <= length text.
Proof.
  intros HE s text tokens ind [e|] new H; [|eapply characters_once; eassumption].
  apply (failure_leaves E s text tokens ind e _ HE) in H. destruct H as (new' & He & closing & _ & Hp & _).
  apply app_inv_head in He. subst new'. apply placed_characters in Hp. rewrite characters_app in Hp. lia.
Qed.
