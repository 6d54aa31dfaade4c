(** C71: what conversion passes over. *)
From Coq Require Import Ascii String List NArith Bool Arith Lia.
From Verif Require Import Base Ext Types DataSpec ConvertModel ConvertSpec TreeSpec TreeProofs ShapeSpec IgnoreSpec IgnoreProofs2 IgnorePublic Examples.
Import ListNotations.
Local Open Scope string_scope.
Local Open Scope list_scope.
Local Open Scope nat_scope.

(** The ranges that are reported are exactly those of the items that are not used, in this order. *)
Theorem C71_exact : forall data ts ig result ig', Forall good ts -> map snd data = flat_map flat ts ->
  convert_returns data ig result ig' -> ig' = ig ++ passed_data [] 0 ts.
Proof. exact convert_passes. Qed.
Print Assumptions C71_exact.

(** Each is one whole item of the data: a leaf, or a node from its start to its end. *)
Theorem C71_items : forall data ig result ig' r, nested (map snd data) -> convert_returns data ig result ig' -> In r ig' ->
  In r ig \/ exists pre it post, data = pre ++ it ++ post /\ item it /\ r = Rng (length pre) (length it).
Proof. exact passes_items. Qed.
Print Assumptions C71_items.

(** If there is a result and nothing is reported, every string that is referred to is defined. *)
Theorem C71_undefined : forall data ts ig s, Forall good ts -> map snd data = flat_map flat ts -> convert_returns data ig (Some s) ig ->
  forall n ks v, below (Tree n (ks ++ [Leaf (MString (s2l "ref") v)])) ts -> In v (map fst (strings_of ts)).
Proof. exact passes_undefined. Qed.
Print Assumptions C71_undefined.

Definition C71_doc (property : tree) (more : list tree) : list tree :=
  [ Tree (tx "string") [Leaf (MString (tx "name") (tx "a")); Leaf (MString (tx "text") (tx "hi"))];
    Tree (tx "node")
      ([ Leaf (MString (tx "name") (tx "doc"));
         Tree (tx "rule")
           [ Tree (tx "sequence")
               [ Tree (tx "rule") [Tree (tx "tag") [Tree (tx "text") [Leaf (MString (tx "ref") (tx "a"))]; property]];
                 Tree (tx "rule") [Tree (tx "text") [Leaf (MBool (tx "other") true); property]; Leaf (MBool (tx "x") true)] ] ] ] ++ more) ].

Definition C71_data (ts : list tree) : list tok := map (fun m => (Rng 7 1, m)) (flat_map flat ts).

(** A property that is not defined: the tag loses it, and the second rule of the sequence is left out,
    after two items inside of it. *)
Definition C71_lost : list tree := C71_doc (Tree (tx "property") [Leaf (MString (tx "ref") (tx "b"))]) [Leaf (MBool (tx "id") false)].

(** Everything is used. *)
Definition C71_used : list tree :=
  firstn 1 C71_lost ++
  [ Tree (tx "node") [ Leaf (MString (tx "name") (tx "doc"));
      Tree (tx "rule") [Tree (tx "tag") [Tree (tx "text") [Leaf (MString (tx "ref") (tx "a"))]]] ] ].

Example C71_example :
  Forall good C71_lost /\ map snd (C71_data C71_lost) = flat_map flat C71_lost /\ nested (map snd (C71_data C71_lost)) /\
  passed_data [] 0 C71_lost = [Rng 13 3; Rng 20 1; Rng 21 3; Rng 18 9; Rng 29 1] /\
  convert_returns (C71_data C71_lost) [Rng 0 0]
    (Some (Syn [RSequence [RTag (tx "hi") false false None 1%N] 3%N] [tx "doc"])) ([Rng 0 0] ++ [Rng 13 3; Rng 20 1; Rng 21 3; Rng 18 9; Rng 29 1]) /\
  Forall good C71_used /\ map snd (C71_data C71_used) = flat_map flat C71_used /\
  convert_returns (C71_data C71_used) [] (Some (Syn [RTag (tx "hi") false false None 1%N] [tx "doc"])) [] /\
  below (Tree (tx "text") ([] ++ [Leaf (MString (tx "ref") (tx "a"))])) C71_used.
Proof.
  split; [repeat constructor|]. split; [vm_compute; reflexivity|].
  split; [replace (map snd (C71_data C71_lost)) with (flat_map flat C71_lost) by (vm_compute; reflexivity); apply flat_all_nested; repeat constructor|].
  split; [vm_compute; reflexivity|]. split; [exists 40; vm_compute; reflexivity|].
  split; [repeat constructor|]. split; [vm_compute; reflexivity|]. split; [exists 40; vm_compute; reflexivity|].
  unfold C71_used, C71_lost, C71_doc. eapply below_in; [right; left; reflexivity|]. eapply below_in; [right; left; reflexivity|].
  eapply below_in; [left; reflexivity|]. apply below_here. left. reflexivity.
Qed.
