(** A concrete, non-trivial history meeting the hypotheses of the theorems of ThmStore.v, ThmStore2.v and
    ThmRefute.v: two versions in one commit, an overwrite, a deletion with proof, a version without effect,
    a purge, and an insertion after the purge.  H is any hash function. *)
From Verif Require Import Base Spec NodeType ProofDef TreeCache Tree Mock Driver ThmProof ThmStore ThmStore2.
Section demo.
Context (H : list byte -> bytes32).
Definition va : value := [x01].
Definition vb : value := [x02; x03].
Definition vc : value := [].
Definition demo : list op :=
  [ Commit [ [(K00, Some va); (K80, Some vb)]; [(K00, Some vb); (KC0, Some vc)] ];
    CommitP [ [(K80, None)] ];
    Commit [ [] ];
    Purge 2;
    Commit [ [(K80, Some va)] ] ].
Example demo_runs : exists st xs, run H demo = Ok (st, xs).
Proof. apply C20_run_never_fails. Qed.
Example demo_versions : num_versions demo = 5%N /\ floor demo = 2%N.
Proof. split; reflexivity. Qed.
Example demo_readable : readable demo 2 /\ readable demo 3 /\ readable demo 4 /\ ~ readable demo 1.
Proof. unfold readable. rewrite (proj1 demo_versions), (proj2 demo_versions). lia. Qed.
Example demo_contents :
  contents_at (history demo) 0 = {[ K00 := va; K80 := vb ]} /\ contents_at (history demo) 1 = {[ K00 := vb; K80 := vb; KC0 := vc ]} /\
  contents_at (history demo) 2 = {[ K00 := vb; KC0 := vc ]} /\ contents_at (history demo) 3 = contents_at (history demo) 2 /\
  contents_at (history demo) 4 = {[ K00 := vb; K80 := va; KC0 := vc ]}.
Proof. split_and!; apply (bool_decide_unpack _); vm_compute; exact I. Qed.
(** the theorems applied: reads after the purge *)
Example demo_get st xs : run H demo = Ok (st, xs) -> get (store_reader st) K80 4 = Ok (Some va) /\ get (store_reader st) K80 3 = Ok None.
Proof. intros R. rewrite !(C01_get H demo st xs) by done. split; vm_compute; reflexivity. Qed.
Example demo_root st xs : run H demo = Ok (st, xs) -> get_root_hash H (store_reader st) 3 = Ok (smt_root H {[ K00 := vb; KC0 := vc ]}).
Proof.
  intros R. pose proof demo_contents as (_ & _ & E2 & E3 & _). rewrite <- E2, <- E3. apply (C03_root_hash H demo st xs 3 R). apply demo_readable.
Qed.
End demo.
