(** The rules of the meta language 1.0, computed from its text, against those of today. *)
From Coq Require Import Ascii String List NArith Bool Arith Lia.
From Verif Require Import Base Ext Types ParseModel ConvertModel OptimizeModel LibModel BootstrapRules Assets10 OldAssets
  PegSpec PegProofs DataSpec ApiSpec OptSpec IdSpec OptProofs OptPublic OccursProofs ParsePublic ParseProofs ConvertSpec SyntaxSpec SyntaxProofs SyntaxProofs2
  TextProofs SurfaceProofs MeaningProofs TextProofs8 TextSpec CompatSpec CompatProofs CompatProofs2 CompatProofs3.
Import ListNotations.
Local Open Scope string_scope.
Local Open Scope list_scope.
Local Open Scope nat_scope.

Definition syn10 : syntax := Syn boot10 (s_names bootstrap_rules).

Definition DOC : rule := nth 22 boot (RSelect [] 0).

Lemma accepts10 E (HE : ext_ok E) text data : accepts E syn10 indent_default text data <-> rdt E false DOC 0 text (Yes (length text) data).
Proof.
  split.
  - intros [r out ind' tr (l & Hl) R]. assert (r = DOC).
    { cbn [s_rules syn10] in Hl. change boot10 with (firstn 22 boot10 ++ [DOC]) in Hl. apply app_inj_tail in Hl. symmetry. exact (proj2 Hl). }
    subst r. assert (ind' = indent_default) by (eapply (level_ind E false); [|exact R]; reflexivity). subst ind'. eexists. exact R.
  - intros (tr & R). eapply accepts_all; [|exact R]. exists (firstn 22 boot10). reflexivity.
Qed.

Lemma accepts11 E (HE : ext_ok E) text data :
  accepts E bootstrap_rules indent_default text data <-> rdt E true DOC 0 text (Yes (length text) data).
Proof.
  rewrite boot_accepts. split.
  - intros (ind' & tr & R). assert (ind' = indent_default) by (eapply (level_ind E true); [|exact R]; reflexivity). subst ind'. eexists. exact R.
  - intros (tr & R). eauto.
Qed.

(** The rules of 1.0 never say that lines are indented. *)
Lemma without_indent E (HE : ext_ok E) text data : accepts E syn10 indent_default text data -> without_flag (s2l "indent") data.
Proof.
  intros H r v Hin.
  assert (Hp : parse_returns E syn10 text [] indent_default None data) by (apply parse_accepts; [exact HE|exists data; auto]).
  apply (success_made E HE) in Hp. destruct Hp as (new & -> & Hm). cbn [app] in Hin. rewrite Forall_forall in Hm. apply Hm in Hin.
  assert (Hc : forall x, occurs syn10 x -> match x with RTag _ _ _ (Some n) _ => negb (str_eqb n (s2l "indent")) | _ => true end = true).
  { apply all_rules_spec. vm_compute. reflexivity. }
  inversion Hin as [tag inverted n id p Ho|tag inverted n id p Ho| | | | | |]; subst; apply Hc in Ho; cbn in Ho; discriminate Ho.
Qed.

Lemma compat E (HE : ext_ok E) (HN : no_slash_number E) text data :
  accepts E syn10 indent_default text data <->
  accepts E bootstrap_rules indent_default text data /\ without_flag (s2l "indent") data.
Proof.
  split.
  - intros H. split; [|eapply without_indent; eassumption]. apply accepts11, (document_kept E HE false true HN); [exact HE|left; reflexivity|].
    apply accepts10; assumption.
  - intros [H1 H2]. apply accepts10, (document_kept E HE true false HN); [exact HE|right; exact H2|].
    apply accepts11; assumption.
Qed.

(** ** From the texts *)

Definition computed10 : syntax := Eval vm_compute in the_rules (syntax_unoptimized std_ext 1000 self_syntax_10_text).

Lemma read10 : syntax_unoptimized std_ext 1000 self_syntax_10_text = Done (inl computed10).
Proof. vm_compute. reflexivity. Qed.

Definition optimized10 : syntax := Eval vm_compute in the_syntax (optimize 1000 computed10).

Lemma optimize10 : optimize 1000 computed10 = Done optimized10.
Proof. vm_compute. reflexivity. Qed.

Lemma returns10 : syntax_returns std_ext self_syntax_10_text (inl optimized10).
Proof. exists 1000. unfold lib_syntax. rewrite read10. cbn [obind]. rewrite optimize10. reflexivity. Qed.

Definition computed_new : syntax := Eval vm_compute in the_rules (syntax_unoptimized std_ext 1000 new_self_syntax_text).

Lemma read_new : syntax_unoptimized std_ext 1000 new_self_syntax_text = Done (inl computed_new).
Proof. vm_compute. reflexivity. Qed.

Lemma alike10 : parse_alike computed10 syn10.
Proof. apply like_alike. vm_compute. reflexivity. Qed.

Lemma alike_new : parse_alike computed_new syn10.
Proof. apply like_alike. vm_compute. reflexivity. Qed.

Lemma tails10 E : tails_fail_at_end E computed10.
Proof. apply (no_tails_check E 100). vm_compute. reflexivity. Qed.

(** What is read with any rules that parse like those of 1.0. *)
Lemma compat_rules E s (HE : ext_ok E) (HN : no_slash_number E) text data tokens : parse_alike s syn10 -> 
  parse_returns E s text tokens indent_default None (tokens ++ data) <->
  parse_returns E bootstrap_rules text tokens indent_default None (tokens ++ data) /\ without_flag (s2l "indent") data.
Proof.
  intros Hs. assert (H : parse_returns E s text tokens indent_default None (tokens ++ data) <->
    parse_returns E syn10 text tokens indent_default None (tokens ++ data)).
  { destruct (Hs E text tokens indent_default) as (H1 & H2 & _).
    split; intros H; [apply H1 in H|apply H2 in H]; destruct H as ([e|] & H & Hl); try exact H; destruct Hl. }
  rewrite H.
  rewrite !(parse_accepts E HE). split.
  - intros (out & Ha & Heq). apply app_inv_head in Heq. subst out. apply compat in Ha; [|exact HE|exact HN]. destruct Ha as [Ha Hf]. eauto.
  - intros [(out & Ha & Heq) Hf]. apply app_inv_head in Heq. subst out. exists data. split; [|reflexivity]. apply compat; auto.
Qed.
Theorem compat_text : exists s, rules_read std_ext self_syntax_10_text (inl s) /\
  forall E, ext_ok E -> no_slash_number E -> forall text tokens data,
  parse_returns E s text tokens indent_default None (tokens ++ data) <->
  parse_returns E bootstrap_rules text tokens indent_default None (tokens ++ data) /\ without_flag (s2l "indent") data.
Proof.
  exists computed10. split; [exists 1000; exact read10|]. intros E HE HN text tokens data. apply compat_rules; auto using alike10.
Qed.

Theorem compat_new : exists s, rules_read std_ext new_self_syntax_text (inl s) /\
  forall E, ext_ok E -> no_slash_number E -> forall text tokens data,
  parse_returns E s text tokens indent_default None (tokens ++ data) <->
  parse_returns E bootstrap_rules text tokens indent_default None (tokens ++ data) /\ without_flag (s2l "indent") data.
Proof.
  exists computed_new. split; [exists 1000; exact read_new|]. intros E HE HN text tokens data. apply compat_rules; auto using alike_new.
Qed.

Theorem compat_syntax : exists s, syntax_returns std_ext self_syntax_10_text (inl s) /\
  forall E, ext_ok E -> no_slash_number E -> forall text, Forall real_char text -> forall data,
  parse_returns E s text [] indent_default None data <-> text_data E text data /\ without_flag (s2l "indent") data.
Proof.
  exists optimized10. split; [exact returns10|]. intros E HE HN text Hreal data.
  rewrite (text_data_accepts E HE text data Hreal).
  rewrite <- (optimize_accepts E HE computed10 optimized10 (ex_intro _ 1000 optimize10) (tails10 E) text [] indent_default Hreal).
  rewrite (compat_rules E computed10 HE HN text data [] alike10), (parse_accepts E HE). split.
  - intros [(out & Ha & Heq) Hf]. cbn in Heq. subst out. auto.
  - intros [Ha Hf]. split; [exists data; auto|exact Hf].
Qed.
