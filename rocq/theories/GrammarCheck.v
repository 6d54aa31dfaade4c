(** Checking by computation that a syntax is clear. *)
From Coq Require Import Ascii String List NArith Bool Arith Lia.
From Verif Require Import Base Ext Types PegSpec DataSpec PegFacts TotalSpec EqModel OptProofs OccursProofs IdSpec GrammarSpec.
Import ListNotations.
Local Open Scope list_scope.
Local Open Scope nat_scope.

(** ** Sets of characters *)

(** From a character up to another, or without end. *)
Definition cset := list (N * option N).

Definition within (c : char) (i : N * option N) : Prop :=
  (fst i <= c)%N /\ match snd i with Some hi => (c <= hi)%N | None => True end.

Definition member (c : char) (a : cset) : Prop := exists i, In i a /\ within c i.

Definition one (c : char) : cset := [(c, Some c)].

Definition before_ (hi : option N) (lo : N) : bool := match hi with Some h => (h <? lo)%N | None => false end.

Definition disjoint (a b : cset) : bool :=
  forallb (fun i => forallb (fun j => before_ (snd i) (fst j) || before_ (snd j) (fst i)) b) a.

Definition includes (j i : N * option N) : bool :=
  (fst j <=? fst i)%N &&
  match snd j, snd i with None, _ => true | Some h, Some k => (k <=? h)%N | Some _, None => false end.

Definition subset (a b : cset) : bool := forallb (fun i => existsb (fun j => includes j i) b) a.

(** Without the characters from [lo] to [hi]. *)
Definition cut (lo hi : N) (i : N * option N) : cset :=
  (if (fst i <? lo)%N
   then [(fst i, Some (match snd i with Some h => N.min h (lo - 1) | None => lo - 1 end)%N)] else []) ++
  (if before_ (snd i) (hi + 1)%N then [] else [(N.max (fst i) (hi + 1)%N, snd i)]).

Definition without (a : cset) (lo hi : N) : cset := flat_map (cut lo hi) a.

Definition all_chars : cset := [(0%N, None)].

Definition all_but (any : str) : cset := fold_left (fun a c => without a c c) any all_chars.

Definition white_set : list (N * N) :=
  [(9, 13); (32, 32); (133, 133); (160, 160); (5760, 5760); (8192, 8202); (8232, 8233); (8239, 8239); (8287, 8287); (12288, 12288)]%N.

Definition whites : cset := map (fun i => (fst i, Some (snd i))) white_set.

Definition no_whites (a : cset) : cset := fold_left (fun a i => without a (fst i) (snd i)) white_set a.

(** ** Tables *)

(** For each rule: whether it may be empty, how its texts begin, how the text goes on. *)
Record info := Info { f_empty : bool; f_first : cset; f_next : cset }.

Section Check.
  Variable numbers : cset.
  Variable refs : list rule.
  Variable T : rule -> info.

  Definition emp (r : rule) : bool := f_empty (T r).
  Definition fst_ (r : rule) : cset := f_first (T r).
  Definition nxt (r : rule) : cset := f_next (T r).

  Definition empty_step (r : rule) : bool :=
    match r with
    | RWhitespace optional _ => optional
    | RTag text not _ _ _ => not || match text with [] => true | _ => false end
    | RUntilAny _ optional _ _ | RUntilAnyOrWs _ optional _ _ => optional
    | RText _ _ _ | RNumber _ _ _ => false
    | RSequence args _ => forallb emp args
    | RSelect args _ | RFastSelect _ args _ _ => existsb emp args
    | RRepeat r optional _ => optional || emp r
    | RSeparateBy r _ optional _ _ => optional || emp r
    | RLines _ _ _ | ROptional _ _ | RNot _ _ => true
    | RNode _ _ (Some i) _ => match nth_error refs i with Some r => emp r | None => false end
    | RNode _ _ None _ => false
    end.

  Fixpoint first_of_all (args : list rule) : cset :=
    match args with
    | [] => []
    | r :: rest => fst_ r ++ (if emp r then first_of_all rest else [])
    end.

  Definition first_step (r : rule) : cset :=
    match r with
    | RWhitespace _ _ => whites
    | RTag (c :: _) false _ _ _ => one c
    | RTag _ _ _ _ _ => []
    | RUntilAny any _ _ _ => all_but any
    | RUntilAnyOrWs any _ _ _ => no_whites (all_but any)
    | RText _ _ _ => one quote
    | RNumber _ _ _ => numbers
    | RSequence args _ => first_of_all args
    | RSelect args _ | RFastSelect _ args _ _ => flat_map fst_ args
    | RRepeat r _ _ | RLines r _ _ | ROptional r _ => fst_ r
    | RSeparateBy r by_ _ _ _ => fst_ r ++ (if emp r then fst_ by_ else [])
    | RNot _ _ => []
    | RNode _ _ (Some i) _ => match nth_error refs i with Some r => fst_ r | None => [] end
    | RNode _ _ None _ => []
    end.

  (** What the rule says about how the text goes on behind its parts. *)
  Fixpoint next_of_all (args : list rule) (next : cset) : list (rule * cset) :=
    match args with
    | [] => []
    | r :: rest => (r, first_of_all rest ++ (if forallb emp rest then next else [])) :: next_of_all rest next
    end.

  Definition next_step (r : rule) : list (rule * cset) :=
    match r with
    | RSequence args _ => next_of_all args (nxt r)
    | RSelect args _ => map (fun q => (q, nxt r)) args
    | RRepeat q _ _ => [(q, fst_ q ++ nxt r)]
    | RSeparateBy q by_ _ trail _ => [(q, fst_ by_ ++ nxt r); (by_, fst_ q ++ (if trail then nxt r else []))]
    | ROptional q _ => [(q, nxt r)]
    | RNode _ _ (Some i) _ => match nth_error refs i with Some q => [(q, nxt r)] | None => [] end
    | _ => []
    end.

  Definition closed_at (r : rule) : bool :=
    implb (empty_step r) (emp r) && subset (first_step r) (fst_ r) &&
    forallb (fun x => subset (snd x) (nxt (fst x))) (next_step r).

  Definition apartb (q r : rule) : bool := negb (emp q) && disjoint (fst_ q) (nxt r).

  Fixpoint select_ok (args : list rule) (next : cset) : bool :=
    match args with
    | [] => true
    | q :: rest =>
      match rest with
      | [] => true
      | _ => negb (emp q) &&
             forallb (fun q' => disjoint (fst_ q) (fst_ q') && (negb (emp q') || disjoint (fst_ q) next)) rest
      end && select_ok rest next
    end.

  Definition decides (r : rule) : bool :=
    match r with
    | RWhitespace _ _ => disjoint whites (nxt r)
    | RTag text true _ _ _ => match text with c :: _ => disjoint (one c) (nxt r) | [] => false end
    | RTag _ false _ _ _ => true
    | RUntilAny any _ _ _ => disjoint (all_but any) (nxt r)
    | RUntilAnyOrWs any _ _ _ => disjoint (no_whites (all_but any)) (nxt r)
    | RText _ _ _ => true
    | RNumber _ _ _ => disjoint numbers (nxt r)
    | RSequence _ _ => true
    | RSelect args _ => select_ok args (nxt r)
    | RFastSelect _ _ _ _ => false
    | RRepeat q _ _ => apartb q r
    | RSeparateBy q by_ optional trail _ =>
      negb (emp q) && apartb by_ r && (negb (optional || trail) || apartb q r)
    | RLines _ _ _ => false
    | RNode _ _ _ _ => true
    | ROptional q _ => apartb q r
    | RNot q _ => apartb q r
    end.
End Check.

Definition checked (numbers : cset) (T : rule -> info) (s : syntax) : bool :=
  forallb (all_sub (fun r => closed_at numbers (s_rules s) T r && decides numbers T r)) (s_rules s).

(** ** Computing the tables *)

Definition table := list (rule * info).
Definition no_info : info := Info false [] [].

Fixpoint find_info (t : table) (r : rule) : info :=
  match t with
  | [] => no_info
  | (q, i) :: rest => if rule_eqb q r then i else find_info rest r
  end.

(** What is new in [a]. *)
Fixpoint add_new (a b : cset) : cset :=
  match a with
  | [] => b
  | i :: rest => if existsb (fun j => includes j i) b then add_new rest b else add_new rest (b ++ [i])
  end.

Fixpoint with_sub (fuel : nat) (r : rule) : list rule :=
  match fuel with
  | O => []
  | S fuel' => r :: flat_map (with_sub fuel') (children r)
  end.

Definition step (numbers : cset) (refs : list rule) (t : table) : table :=
  let T := find_info t in
  let pushed := flat_map (fun x => next_step refs T (fst x)) t in
  map (fun x =>
    let r := fst x in
    (r, Info (f_empty (snd x) || empty_step refs T r) (add_new (first_step numbers refs T r) (f_first (snd x)))
             (fold_left (fun a y => if rule_eqb (fst y) r then add_new (snd y) a else a) pushed (f_next (snd x))))) t.

Definition info_size (t : table) : nat :=
  fold_left (fun n x => n + (if f_empty (snd x) then 1 else 0) + length (f_first (snd x)) + length (f_next (snd x))) t 0.

(** Until nothing is added. *)
Fixpoint settle (fuel : nat) (numbers : cset) (refs : list rule) (t : table) : table :=
  match fuel with
  | O => t
  | S fuel' =>
    let t' := step numbers refs t in
    if Nat.eqb (info_size t') (info_size t) then t else settle fuel' numbers refs t'
  end.

Definition tables (fuel : nat) (numbers : cset) (s : syntax) : rule -> info :=
  find_info (settle fuel numbers (s_rules s) (map (fun r => (r, no_info)) (flat_map (with_sub fuel) (s_rules s)))).

Definition clearb (fuel : nat) (numbers : cset) (s : syntax) : bool := checked numbers (tables fuel numbers s) s.

(** ** Soundness *)

(** Number literals begin with characters of the set, and end in front of any other. *)
Definition number_set (E : ext) (numbers : cset) : Prop :=
  (forall underscore c s n, x_number E underscore (c :: s) = Some n -> member c numbers) /\
  (forall underscore o, (forall c, o = Some c -> ~ member c numbers) -> number_stops E underscore o).

Lemma disjoint_spec a b c : disjoint a b = true -> member c a -> member c b -> False.
Proof.
  intros H (i & Hi & Ha) (j & Hj & Hb). unfold disjoint in H. rewrite forallb_forall in H. specialize (H i Hi).
  rewrite forallb_forall in H. specialize (H j Hj). unfold within, before_ in *. destruct Ha, Hb.
  apply orb_true_iff in H. destruct H as [H|H];
    [destruct (snd i); [|discriminate]|destruct (snd j); [|discriminate]]; apply N.ltb_lt in H; lia.
Qed.

Lemma subset_spec a b c : subset a b = true -> member c a -> member c b.
Proof.
  intros H (i & Hi & Ha). unfold subset in H. rewrite forallb_forall in H. specialize (H i Hi).
  apply existsb_exists in H. destruct H as (j & Hj & H). exists j. split; [exact Hj|].
  unfold includes, within in *. apply andb_true_iff in H. destruct H as [H1 H2]. apply N.leb_le in H1. destruct Ha as [Hl Hh].
  split; [lia|]. destruct (snd j); [|exact I]. destruct (snd i); [|discriminate]. apply N.leb_le in H2. lia.
Qed.

Lemma member_app c a b : member c (a ++ b) <-> member c a \/ member c b.
Proof.
  unfold member. split.
  - intros (i & Hi & H). apply in_app_or in Hi. destruct Hi; [left|right]; eauto.
  - intros [(i & Hi & H)|(i & Hi & H)]; exists i; (split; [apply in_or_app; auto|exact H]).
Qed.

Lemma member_flat {A} c (f : A -> cset) x l : In x l -> member c (f x) -> member c (flat_map f l).
Proof. intros Hx (i & Hi & H). exists i. split; [apply in_flat_map; eauto|exact H]. Qed.

Lemma member_one c : member c (one c).
Proof. exists (c, Some c). split; [left; reflexivity|]. split; cbn; lia. Qed.

Lemma cut_spec lo hi c i : within c i -> ~ (lo <= c <= hi)%N -> member c (cut lo hi i).
Proof.
  intros [Hl Hh] Hn. unfold cut. apply member_app. destruct (N.lt_ge_cases c lo) as [Hc|Hc].
  - left. assert (Hf : (fst i <? lo)%N = true) by (apply N.ltb_lt; lia). rewrite Hf.
    eexists. split; [left; reflexivity|]. split; cbn [fst snd]; [exact Hl|]. destruct (snd i); lia.
  - right. assert (Hc' : (hi < c)%N) by lia.
    assert (Hb : before_ (snd i) (hi + 1)%N = false).
    { unfold before_. destruct (snd i); [|reflexivity]. apply N.ltb_ge. lia. }
    rewrite Hb. eexists. split; [left; reflexivity|]. split; cbn [fst snd]; [lia|exact Hh].
Qed.

Lemma without_spec a lo hi c : member c a -> ~ (lo <= c <= hi)%N -> member c (without a lo hi).
Proof. intros (i & Hi & H) Hn. apply (member_flat c (cut lo hi) i); [exact Hi|]. apply cut_spec; assumption. Qed.

Lemma all_but_spec any c : ~ In c any -> member c (all_but any).
Proof.
  unfold all_but. assert (H : member c all_chars) by (exists (0%N, None); split; [left; reflexivity|]; split; cbn; [lia|exact I]).
  revert H. generalize all_chars. induction any as [|a any IH]; intros cs H Hn; [exact H|]. cbn [fold_left].
  apply IH; [|intros Hi; apply Hn; right; exact Hi]. apply without_spec; [exact H|]. intros Hc. apply Hn. left. lia.
Qed.

Lemma white_set_spec c : white c <-> Exists (fun i => fst i <= c <= snd i)%N white_set.
Proof.
  unfold white, is_ws, white_set. rewrite !Exists_cons, Exists_nil. cbn [fst snd].
  rewrite ?orb_true_iff, ?andb_true_iff, ?N.leb_le, ?N.eqb_eq. lia.
Qed.

Lemma whites_spec c : white c -> member c whites.
Proof.
  intros H. apply white_set_spec in H. apply Exists_exists in H. destruct H as (i & Hi & H).
  exists (fst i, Some (snd i)). split; [apply (in_map (fun i => (fst i, Some (snd i)))); exact Hi|]. exact H.
Qed.

Lemma no_whites_spec a c : member c a -> ~ white c -> member c (no_whites a).
Proof.
  intros H Hw. assert (Hn : ~ Exists (fun i => fst i <= c <= snd i)%N white_set) by (intros Hx; apply Hw, white_set_spec, Hx).
  clear Hw. unfold no_whites. revert a H Hn. generalize white_set. intros l. induction l as [|i l IH]; intros a H Hn; [exact H|].
  cbn [fold_left]. apply IH; [apply without_spec; [exact H|]|]; intros Hx; apply Hn; [left|right]; exact Hx.
Qed.

Section Sound.
  Variable E : ext.
  Hypothesis HE : ext_ok E.
  Variable numbers : cset.
  Hypothesis Hnum : number_set E numbers.
  Variable syn : syntax.
  Variable T : rule -> info.
  Local Notation refs := (s_rules syn).
  Hypothesis Hcheck : checked numbers T syn = true.

  Lemma checked_at r : occurs syn r -> closed_at numbers refs T r = true /\ decides numbers T r = true.
  Proof.
    intros Ho. unfold checked in Hcheck. pose proof (all_rules_spec _ _ Hcheck r Ho) as H. apply andb_true_iff in H. exact H.
  Qed.

  Lemma empty_at r : occurs syn r -> empty_step refs T r = true -> emp T r = true.
  Proof.
    intros Ho H. destruct (checked_at r Ho) as [Hc _]. unfold closed_at in Hc. rewrite H in Hc. cbn [implb] in Hc.
    destruct (emp T r); [reflexivity|discriminate].
  Qed.

  Lemma first_at r c : occurs syn r -> member c (first_step numbers refs T r) -> member c (fst_ T r).
  Proof.
    intros Ho H. destruct (checked_at r Ho) as [Hc _]. unfold closed_at in Hc.
    rewrite !andb_true_iff in Hc. destruct Hc as [[_ Hc] _]. eapply subset_spec; eassumption.
  Qed.

  Lemma next_at r q a c : occurs syn r -> In (q, a) (next_step refs T r) -> member c a -> member c (nxt T q).
  Proof.
    intros Ho Hi H. destruct (checked_at r Ho) as [Hc _]. unfold closed_at in Hc.
    rewrite !andb_true_iff in Hc. destruct Hc as [_ Hc]. rewrite forallb_forall in Hc. specialize (Hc _ Hi).
    eapply subset_spec; eassumption.
  Qed.

  Lemma node_occurs i r : nth_error refs i = Some r -> occurs syn r.
  Proof. intros H. apply occurs_top. eapply nth_error_In. exact H. Qed.

  Fixpoint empty_sound (r : rule) (H : may_be_empty refs r) {struct H} : occurs syn r -> emp T r = true.
  Proof.
    intros Ho. apply (empty_at r Ho).
    destruct H as [id|text inverted property id|nt inverted property id|any property id|any property id|args id Hf|
      args id q Hi Hq|tb args tail id q Hi Hq|q id|q optional id Hq|q by_ trail id|q by_ optional trail id Hq|q ind id|
      name property i id q Hi Hq|q id|q id]; cbn [empty_step]; try reflexivity.
    - apply orb_true_r.
    - assert (Hall : forall q, In q args -> occurs syn q) by (intros q Hq; eapply occurs_child; eassumption).
      clear Ho. induction Hf as [|q args Hq Hf IH]; [reflexivity|]. cbn [forallb].
      rewrite (empty_sound q Hq (Hall q (or_introl eq_refl))). apply IH. intros q' Hq'. apply Hall. right. exact Hq'.
    - apply existsb_exists. exists q. split; [exact Hi|]. apply (empty_sound q Hq). eapply occurs_child; eassumption.
    - apply existsb_exists. exists q. split; [exact Hi|]. apply (empty_sound q Hq). eapply occurs_child; eassumption.
    - rewrite (empty_sound q Hq), orb_true_r; [reflexivity|]. eapply occurs_child; [eassumption|left; reflexivity].
    - rewrite (empty_sound q Hq), orb_true_r; [reflexivity|]. eapply occurs_child; [eassumption|left; reflexivity].
    - rewrite Hi. apply (empty_sound q Hq). eapply node_occurs. exact Hi.
  Qed.

  Lemma first_in_all args c before r behind : args = before ++ r :: behind -> (forall q, In q before -> emp T q = true) ->
    member c (fst_ T r) -> member c (first_of_all T args).
  Proof.
    intros ->. induction before as [|q before IH]; intros He Hm; cbn [app first_of_all]; apply member_app; [left; exact Hm|right].
    rewrite (He q (or_introl eq_refl)). apply IH; [|exact Hm]. intros q' Hq'. apply He. right. exact Hq'.
  Qed.

  Lemma first_sound r c : may_begin E refs r c -> occurs syn r -> member c (fst_ T r).
  Proof.
    induction 1 as [optional id c Hw|c text inverted property id|any optional property id c Ha|any optional property id c Hw Ha|
      allow_empty property id|underscore property id c s n Hn|name property i id r c Hi Hb IH|r r' c Hnot Ht Hb IH];
      intros Ho; apply (first_at _ _ Ho); cbn [first_step].
    - apply whites_spec. exact Hw.
    - apply member_one.
    - apply all_but_spec. exact Ha.
    - apply no_whites_spec; [apply all_but_spec; exact Ha|exact Hw].
    - apply member_one.
    - eapply (proj1 Hnum). exact Hn.
    - rewrite Hi. apply IH. eapply node_occurs. exact Hi.
    - destruct Ht as [before q behind id Hf|args id q Hi|tb args tail id q Hi|q optional id|q by_ optional trail id|
        q by_ optional trail id He|q ind id|q id|q id]; cbn [first_step].
      + eapply first_in_all; [reflexivity| |].
        * intros q' Hq'. apply empty_sound; [exact (proj1 (Forall_forall _ _) Hf q' Hq')|].
          eapply occurs_child; [exact Ho|]. cbn. apply in_or_app. left. exact Hq'.
        * apply IH. eapply occurs_child; [exact Ho|]. cbn. apply in_or_app. right. left. reflexivity.
      + apply (member_flat c (fst_ T) q); [exact Hi|]. apply IH. eapply occurs_child; eassumption.
      + apply (member_flat c (fst_ T) q); [exact Hi|]. apply IH. eapply occurs_child; eassumption.
      + apply IH. eapply occurs_child; [exact Ho|left; reflexivity].
      + apply member_app. left. apply IH. eapply occurs_child; [exact Ho|left; reflexivity].
      + apply member_app. right. rewrite (empty_sound q He); [|eapply occurs_child; [exact Ho|left; reflexivity]].
        apply IH. eapply occurs_child; [exact Ho|right; left; reflexivity].
      + apply IH. eapply occurs_child; [exact Ho|left; reflexivity].
      + apply IH. eapply occurs_child; [exact Ho|left; reflexivity].
      + destruct (Hnot q id eq_refl).
  Qed.

  Lemma next_in_all before r behind next : In (r, first_of_all T behind ++ (if forallb (emp T) behind then next else []))
    (next_of_all T (before ++ r :: behind) next).
  Proof. induction before as [|q before IH]; cbn; [left; reflexivity|right; exact IH]. Qed.

  Lemma next_sound r o : goes_on E syn r o -> forall c, o = Some c -> member c (nxt T r).
  Proof.
    induction 1 as [r Hr|name property i id r o Ho Hi H IH|before r between r' behind id c' Ho Hf Hb|before r behind id o Ho Hf H IH|
      args id r o Ho Hi H IH|r optional id c' Ho Hb|r optional id o Ho H IH|r by_ optional trail id c' Ho Hb|
      r by_ optional trail id o Ho H IH|r by_ optional trail id c' Ho Hb|r by_ optional id o Ho H IH|r id o Ho H IH];
      intros c Hc; try discriminate.
    - eapply (next_at _ r _ c Ho); [cbn [next_step]; rewrite Hi; left; reflexivity|]. apply IH, Hc.
    - injection Hc as ->. eapply (next_at _ r _ c Ho); [cbn [next_step]; apply next_in_all|]. apply member_app. left.
      eapply first_in_all; [reflexivity| |].
      + intros q Hq. apply empty_sound; [exact (proj1 (Forall_forall _ _) Hf q Hq)|]. eapply occurs_child; [exact Ho|].
        cbn. apply in_or_app. right. right. apply in_or_app. left. exact Hq.
      + apply first_sound; [exact Hb|]. eapply occurs_child; [exact Ho|].
        cbn. apply in_or_app. right. right. apply in_or_app. right. left. reflexivity.
    - eapply (next_at _ r _ c Ho); [cbn [next_step]; apply next_in_all|]. apply member_app. right.
      assert (Hall : forallb (emp T) behind = true).
      { apply forallb_forall. intros q Hq. apply empty_sound; [exact (proj1 (Forall_forall _ _) Hf q Hq)|].
        eapply occurs_child; [exact Ho|]. cbn. apply in_or_app. right. right. exact Hq. }
      rewrite Hall. apply IH, Hc.
    - eapply (next_at _ r _ c Ho); [cbn [next_step]; apply (in_map (fun q => (q, nxt T (RSelect args id)))); exact Hi|]. apply IH, Hc.
    - injection Hc as ->. eapply (next_at _ r _ c Ho); [left; reflexivity|]. apply member_app. left. apply first_sound; [exact Hb|].
      eapply occurs_child; [exact Ho|left; reflexivity].
    - eapply (next_at _ r _ c Ho); [left; reflexivity|]. apply member_app. right. apply IH, Hc.
    - injection Hc as ->. eapply (next_at _ r _ c Ho); [left; reflexivity|]. apply member_app. left. apply first_sound; [exact Hb|].
      eapply occurs_child; [exact Ho|right; left; reflexivity].
    - eapply (next_at _ r _ c Ho); [left; reflexivity|]. apply member_app. right. apply IH, Hc.
    - injection Hc as ->. eapply (next_at _ by_ _ c Ho); [right; left; reflexivity|]. apply member_app. left. apply first_sound; [exact Hb|].
      eapply occurs_child; [exact Ho|left; reflexivity].
    - eapply (next_at _ by_ _ c Ho); [right; left; reflexivity|]. apply member_app. right. apply IH, Hc.
    - eapply (next_at _ r _ c Ho); [left; reflexivity|]. apply IH, Hc.
  Qed.

  Lemma not_empty q : occurs syn q -> emp T q = false -> ~ empties syn q.
  Proof. intros Ho H He. rewrite (empty_sound q He Ho) in H. discriminate. Qed.

  Lemma apart_sound q r : occurs syn q -> apartb T q r = true -> apart E syn q r.
  Proof.
    intros Ho H. apply andb_true_iff in H. destruct H as [He Hd]. apply negb_true_iff in He. split; [apply not_empty; assumption|].
    intros c Hb Hg. eapply (disjoint_spec _ _ c Hd); [apply first_sound; assumption|]. eapply next_sound; [exact Hg|reflexivity].
  Qed.

  Lemma select_sound args next : select_ok T args next = true -> (forall q, In q args -> occurs syn q) ->
    forall before q between q' behind, args = before ++ q :: between ++ q' :: behind ->
    ~ empties syn q /\ forall c, begins E syn q c -> ~ begins E syn q' c /\ (empties syn q' -> ~ member c next).
  Proof.
    revert args. intros args H Ho before. revert args H Ho. induction before as [|b before IH]; intros args H Ho q between q' behind ->.
    - cbn [app select_ok] in H. apply andb_true_iff in H. destruct H as [H _]. destruct (between ++ q' :: behind) as [|x l] eqn:Hl; [destruct between; discriminate|].
      rewrite <- Hl in H. apply andb_true_iff in H. destruct H as [He H]. apply negb_true_iff in He.
      assert (Hq' : In q' (between ++ q' :: behind)) by (apply in_or_app; right; left; reflexivity).
      assert (Hoq : occurs syn q) by (apply Ho; left; reflexivity).
      assert (Hoq' : occurs syn q') by (apply Ho; right; rewrite <- Hl; exact Hq').
      rewrite forallb_forall in H. specialize (H q' Hq'). apply andb_true_iff in H. destruct H as [Hd Hn].
      split; [apply not_empty; assumption|]. intros c Hb. split.
      + intros Hb'. eapply (disjoint_spec _ _ c Hd); apply first_sound; assumption.
      + intros He' Hm. rewrite (empty_sound q' He' Hoq') in Hn. cbn in Hn. eapply (disjoint_spec _ _ c Hn); [apply first_sound; assumption|exact Hm].
    - eapply IH; [|intros q0 Hq0; apply Ho; right; exact Hq0|reflexivity].
      cbn [app select_ok] in H. apply andb_true_iff in H. exact (proj2 H).
  Qed.

  Theorem checked_clear : clear E syn.
  Proof.
    intros r Ho. destruct (checked_at r Ho) as [_ Hd].
    assert (Hchild : forall q, In q (children r) -> occurs syn q) by (intros q Hq; eapply occurs_child; eassumption).
    assert (Hnext : forall c, goes_on E syn r (Some c) -> member c (nxt T r)) by (intros c Hc; eapply next_sound; [exact Hc|reflexivity]).
    destruct r as [optional id|text nt inverted property id|any optional property id|any optional property id|allow_empty property id|
      underscore property id|args id|tb args tail id|args id|q by_ optional trail id|q optional id|q ind id|name property i id|q id|q id];
      cbn [decided_by_next decides children] in *; try exact I; try discriminate.
    - intros c Hc Hw. eapply (disjoint_spec _ _ c Hd); [apply whites_spec; exact Hw|apply Hnext; exact Hc].
    - destruct nt; [|exact I]. destruct text as [|c text]; [discriminate|]. exists c, text. split; [reflexivity|].
      intros Hc. eapply (disjoint_spec _ _ c Hd); [apply member_one|apply Hnext; exact Hc].
    - intros c Hc. destruct (in_dec N.eq_dec c any) as [Hi|Hi]; [exact Hi|]. exfalso.
      eapply (disjoint_spec _ _ c Hd); [apply all_but_spec; exact Hi|apply Hnext; exact Hc].
    - intros c Hc. destruct (in_dec N.eq_dec c any) as [Hi|Hi]; [right; exact Hi|]. left. destruct (is_ws c) eqn:Hw; [exact Hw|]. exfalso.
      eapply (disjoint_spec _ _ c Hd); [|apply Hnext; exact Hc]. apply no_whites_spec; [apply all_but_spec; exact Hi|].
      unfold white. rewrite Hw. discriminate.
    - intros o Hc. apply (proj2 Hnum). intros c -> Hm. eapply (disjoint_spec _ _ c Hd); [exact Hm|apply Hnext; exact Hc].
    - intros before q between q' behind Ha. destruct (select_sound args _ Hd Hchild _ _ _ _ _ Ha) as [He Hb].
      split; [exact He|]. intros c Hc. destruct (Hb c Hc) as [H1 H2]. split; [exact H1|]. intros He' Hg. exact (H2 He' (Hnext c Hg)).
    - apply andb_true_iff in Hd. destruct Hd as [Hd Hq]. apply andb_true_iff in Hd. destruct Hd as [He Hby]. apply negb_true_iff in He.
      split; [apply not_empty; [apply Hchild; left; reflexivity|exact He]|].
      split; [apply apart_sound; [apply Hchild; right; left; reflexivity|exact Hby]|].
      intros Hot. apply apart_sound; [apply Hchild; left; reflexivity|].
      destruct Hot as [->| ->]; [|rewrite orb_true_r in Hq]; exact Hq.
    - apply apart_sound; [apply Hchild; left; reflexivity|exact Hd].
    - apply apart_sound; [apply Hchild; left; reflexivity|exact Hd].
    - apply apart_sound; [apply Hchild; left; reflexivity|exact Hd].
  Qed.
End Sound.

Theorem clearb_spec E numbers fuel s : number_set E numbers -> clearb fuel numbers s = true -> clear E s.
Proof. intros Hn H. exact (checked_clear E numbers Hn s _ H). Qed.
