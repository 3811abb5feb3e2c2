(** get_with_ics23_proof as a program that asks its store one request at a time, as the queries of Requests.v, with the requests of HasPreimage (reader.rs:45-48) besides. *)
From Coq Require Import Strings.String.
From Verif Require Export Requests Ics23.
Local Open Scope N_scope.

(** A program that asks for nodes, values (Requests.v) and preimages of key hashes (reader.rs:47); the answer is Ok of an option, or an error. *)
Inductive iprog (A : Type) : Type :=
| IDone (o : outcome A)
| INode (nk : nodekey) (kont : outcome (option node) -> iprog A)
| IValue (w : version) (k : key) (kont : outcome (option value) -> iprog A)
| IPre (k : key) (kont : outcome (option (list byte)) -> iprog A).
Arguments IDone {A} o.
Arguments INode {A} nk kont.
Arguments IValue {A} w k kont.
Arguments IPre {A} k kont.
Fixpoint ibind {A B} (f : A -> iprog B) (p : iprog A) : iprog B :=
  match p with
  | IDone (Ok a) => f a
  | IDone (Err e) => IDone (Err e)
  | IDone Panic => IDone Panic
  | INode nk k => INode nk (fun r => ibind f (k r))
  | IValue w x k => IValue w x (fun r => ibind f (k r))
  | IPre x k => IPre x (fun r => ibind f (k r))
  end.
Global Instance iprog_bind : MBind iprog := @ibind.
(** a program of Requests.v *)
Fixpoint lift {A} (p : prog A) : iprog A :=
  match p with
  | Done o => IDone o
  | AskNode nk k => INode nk (fun r => lift (k r))
  | AskValue w x k => IValue w x (fun r => lift (k r))
  end.
(** all requests answered by one reader *)
Fixpoint runi (rd : reader) (pre : key -> option (list byte)) {A} (p : iprog A) : outcome A :=
  match p with
  | IDone o => o
  | INode nk k => runi rd pre (k (Ok (rd_node rd nk)))
  | IValue w x k => runi rd pre (k (Ok (rd_value rd w x)))
  | IPre x k => runi rd pre (k (Ok (pre x)))
  end.
(** the outcomes possible when each request may get any answer allowed for it, whatever was answered before *)
Inductive mayi (an : nodekey -> outcome (option node) -> Prop) (av : version -> key -> outcome (option value) -> Prop) (ap : key -> outcome (option (list byte)) -> Prop)
    {A} : iprog A -> outcome A -> Prop :=
| mayi_done o : mayi an av ap (IDone o) o
| mayi_node nk k r o : an nk r -> mayi an av ap (k r) o -> mayi an av ap (INode nk k) o
| mayi_value w x k r o : av w x r -> mayi an av ap (k r) o -> mayi an av ap (IValue w x k) o
| mayi_pre x k r o : ap x r -> mayi an av ap (k r) o -> mayi an av ap (IPre x k) o.

Section ics.
Context (H : list byte -> bytes32).
(** ics23_impl.rs:97-100, 132-135, 150-153, 175-178: [self.reader.preimage(key_hash)?.ok_or(..)?] *)
Definition req_preimage (k : key) : iprog (list byte) :=
  IPre k (fun r => IDone (match r with Ok (Some x) => Ok x | Ok None => Err (EOther "missing preimage for key hash") | Err e => Err e | Panic => Panic end)).
(** 102-104, 128-130, 146-149, 171-174: [self.get(key_hash, version)?.ok_or(..)?] *)
Definition req_neighbour_value (k : key) (v : version) : iprog value :=
  o ← lift (get_p k v); IDone (ok_or (EOther "missing value for key hash") o).
(** ics23_impl.rs:92-111, 123-140, 142-158, 167-183: one neighbour.  The first asks for the preimage first ([pf]), the others for the value. *)
Definition neighbour_p (ovf pf : bool) (v : version) (p : sm_proof) : iprog exist_proof :=
  l ← IDone (unwrap (p_leaf p));
  if pf then
    k ← req_preimage (ln_key l);
    x ← req_neighbour_value (ln_key l) v;
    IDone (to_ics23 H ovf k x p)
  else
    x ← req_neighbour_value (ln_key l) v;
    k ← req_preimage (ln_key l);
    IDone (to_ics23 H ovf k x p).
(** ics23_impl.rs:81-187 exclusion_proof_to_ics23_nonexistence_proof *)
Definition exclusion_to_ics23_p (ovf : bool) (k : list byte) (v : version) (e : exclusion_proof) : iprog nonexist_proof :=
  match e with
  | EPLeftmost r => r ← neighbour_p ovf true v r; IDone (Ok (NonexistProof k None (Some r)))
  | EPMiddle r l => r ← neighbour_p ovf false v r; l ← neighbour_p ovf false v l; IDone (Ok (NonexistProof k (Some l) (Some r)))
  | EPRightmost l => l ← neighbour_p ovf false v l; IDone (Ok (NonexistProof k (Some l) None))
  end.
(** ics23_impl.rs:192-227 get_with_ics23_proof *)
Definition get_with_ics23_proof_p (ovf : bool) (k : list byte) (v : version) : iprog (option value * commitment_proof) :=
  r ← lift (get_with_exclusion_proof_p H (H k) v);
  match r with
  | inl (x, p) => e ← IDone (to_ics23 H ovf k x p); IDone (Ok (Some x, CPExist e))
  | inr e => n ← exclusion_to_ics23_p ovf k v e; IDone (Ok (None, CPNonexist n))
  end.
End ics.
