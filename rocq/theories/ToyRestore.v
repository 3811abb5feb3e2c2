(** C33 - C36 on concrete inputs, by computation, with the hash function of Toy.v. *)
From Coq Require Import Strings.String.
From Verif Require Import Base Spec SpecOrder NodeType ProofDef TreeCache Tree Mock Driver Restore ThmProof Demo RestoreDriver Toy.

Definition toy_root : bytes32 := smt_root toy demo_map.
Definition root_of (s : store) (v : version) : option bytes32 := match get_root_hash toy (store_reader s) v with Ok r => Some r | _ => None end.
(** deliver the demo tree, finish: the root of the store, or None if something failed *)
Definition finished (evs : list event) : option bytes32 :=
  match run toy demo with
  | Ok (st, _) =>
      match deliver_all toy true (store_reader st) 4 demo_map 9 toy_root evs with
      | Ok (rs, _) => match finish toy rs with Ok s => root_of s 9 | _ => None end
      | _ => None
      end
  | _ => None
  end.
Example restored_in_chunks : bool_decide (finished [Deliver 0; Deliver 1] = Some toy_root) = true.
Proof. vm_compute. reflexivity. Qed.
Example restored_with_crashes : bool_decide (finished [Deliver 0; Crash; Deliver 1; Crash; Crash; Deliver 0; Deliver 7] = Some toy_root) = true.
Proof. vm_compute. reflexivity. Qed.
(** C36: finished early *)
Example finished_early : bool_decide (finished [Deliver 1] = Some (smt_root toy {[ K00 := vb; K80 := va ]})) = true /\ bool_decide (finished [Deliver 1] = Some toy_root) = false.
Proof. split; vm_compute; reflexivity. Qed.
(** C36: a chunk of two entries that are not in the tree is rejected; the object keeps them, and [finish] writes them. *)
Definition wrong : list (key * value) := [(K00, va); (K80, va)].
Definition polluted : option (bool * option bytes32) :=
  match restore_new toy store_empty 9 toy_root with
  | Ok rs =>
      match add_chunk toy true rs wrong (RangeProof []) with
      | Ok (rs', e) => match finish toy rs' with Ok s => Some (bool_decide (e = None), root_of s 9) | _ => None end
      | _ => None
      end
  | _ => None
  end.
Example rejected_then_finished : bool_decide (polluted = Some (false, Some (smt_root toy {[ K00 := va; K80 := va ]}))) = true.
Proof. vm_compute. reflexivity. Qed.
(** the empty restore cannot be finished: no tree is written for an empty map *)
Example finish_nothing : match restore_new toy store_empty 9 toy_root with Ok rs => finish toy rs | _ => Err (EOther "") end = Panic.
Proof. vm_compute. reflexivity. Qed.
(** an object reopened after a crash panics on a first chunk with a key it does not expect: not even an error. *)
Definition K81 : key := key_of_first x81.
Definition K8F : key := key_of_first x8f.
Definition K90 : key := key_of_first x90.
Definition deep : gmap key value := {[ K80 := va; K81 := vb; K8F := va; K90 := vc ]}.
Definition panic_after_crash (k : key) : bool :=
  match run toy [Commit [ [(K80, Some va); (K81, Some vb); (K8F, Some va); (K90, Some vc)] ] ] with
  | Ok (st, _) =>
      match deliver_all toy true (store_reader st) 0 deep 9 (smt_root toy deep) [Deliver 1; Crash] with
      | Ok (rs, _) => match add_chunk toy true rs [(k, va)] (RangeProof []) with Panic => true | _ => false end
      | _ => false
      end
  | _ => false
  end.
Example panics_after_crash : panic_after_crash K90 = true /\ panic_after_crash K81 = false.
Proof. split; vm_compute; reflexivity. Qed.
