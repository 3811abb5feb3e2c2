(** A concrete hash function (not of the code: SimpleHasher is a parameter of it), used only to run the model on concrete
    inputs and to show that the hypotheses and the second alternatives of the theorems are met: it has no collision on the
    inputs of the example trees. *)
From Coq Require Import Strings.String.
From Verif Require Import Base Spec NodeType ProofDef TreeCache Tree Mock Driver ThmProof Demo.
Local Open Scope N_scope.

Fixpoint n_bytes (n : nat) (x : N) : list byte :=
  match n with O => [] | S n' => n_bytes n' (N.shiftr x 8) ++ [byte_of_N (N.land x 255)] end.
Definition toy_N (l : list byte) : N := fold_left (fun a b => N.land (a * 1000003 + Byte.to_N b + 1) (2 ^ 64 - 1)) l 12345.
Definition toy (l : list byte) : bytes32 := default K00 (to_bytes32 (n_bytes 32 (toy_N l))).
Fixpoint distinct_b {A} `{EqDecision A} (l : list (list byte * A)) : bool :=
  match l with [] => true | (x, h) :: l' => forallb (fun yh => bool_decide (x = yh.1) || negb (bool_decide (h = yh.2))) l' && distinct_b l' end.
Definition sound_b (H : list byte -> bytes32) (qs : list (list byte)) : bool :=
  let l := map (fun x => (x, H x)) qs in distinct_b l && forallb (fun xh => negb (bool_decide (xh.2 = SPARSE_MERKLE_PLACEHOLDER_HASH))) l.
Lemma distinct_b_spec (H : list byte -> bytes32) qs : distinct_b (map (fun x => (x, H x)) qs) = true -> forall x y, x ∈ qs -> y ∈ qs -> H x = H y -> x = y.
Proof.
  induction qs as [|a qs IH]; cbn; [intros _ x y X; by apply elem_of_nil in X|]. rewrite andb_true_iff, forallb_forall. intros [F D]. specialize (IH D).
  assert (G : forall y, y ∈ qs -> H a = H y -> a = y).
  { intros y Hy E. specialize (F (y, H y)). cbn in F. rewrite orb_true_iff, negb_true_iff in F. destruct F as [F|F].
    - apply in_map_iff. exists y. split; [done|by apply elem_of_list_In].
    - by apply bool_decide_eq_true in F.
    - by apply bool_decide_eq_false in F. }
  intros x y Hx Hy E. apply elem_of_cons in Hx as [->|Hx], Hy as [->|Hy]; [done|by apply G|symmetry; by apply G|by apply IH].
Qed.
Lemma sound_b_spec H qs : sound_b H qs = true -> ~ hash_broken H qs.
Proof.
  unfold sound_b. rewrite andb_true_iff, forallb_forall. intros [D F] [(x & y & Hx & Hy & N & E)|(x & Hx & E)]; [by apply N, (distinct_b_spec H qs)|].
  specialize (F (x, H x)). cbn in F. rewrite negb_true_iff in F. assert (X : bool_decide (H x = SPARSE_MERKLE_PLACEHOLDER_HASH) = false) by (apply F, in_map_iff; exists x; split; [done|by apply elem_of_list_In]).
  by apply bool_decide_eq_false in X.
Qed.
Definition demo_map : gmap key value := {[ K00 := vb; K80 := va; KC0 := vc ]}.
Example toy_demo : ~ hash_broken toy (root_inputs toy demo_map).
Proof. apply sound_b_spec. vm_compute. reflexivity. Qed.
(** the model computes: the root of the demo history *)
Definition computed_root (ops : list op) (v : version) : option bytes32 :=
  match run toy ops with Ok (st, _) => match get_root_hash toy (store_reader st) v with Ok r => Some r | _ => None end | _ => None end.
Example toy_demo_run : bool_decide (computed_root demo 4 = Some (smt_root toy demo_map)) = true.
Proof. vm_compute. reflexivity. Qed.
