(** C97: the JSON form. *)
From Coq Require Import Strings.String Decimal DecimalN DecimalFacts.
From Verif Require Import Base NodeType ProofDef NibblePath ChildrenArr Codec Borsh Json.
From Coq Require Import Lia.
Local Open Scope N_scope.

(** ** Text *)
Definition plain (s : list byte) : Prop := Forall (fun b => 32 <= Byte.to_N b /\ b <> x22 /\ b <> x5c) s.
Fixpoint fine (j : json) : Prop :=
  match j with
  | JStr s => plain s
  | JArr l => (fix go l := match l with [] => True | x :: l' => fine x /\ go l' end) l
  | JObj l => (fix go l := match l with [] => True | (k, x) :: l' => plain k /\ fine x /\ go l' end) l
  | JOther => False
  | _ => True
  end.
Lemma fine_arr l : fine (JArr l) <-> Forall fine l.
Proof. cbn. induction l as [|x l IH]; [by split|]. rewrite Forall_cons. by rewrite <- IH. Qed.
Lemma fine_obj l : fine (JObj l) <-> Forall (fun kx => plain kx.1 /\ fine kx.2) l.
Proof. cbn. induction l as [|[k x] l IH]; [by split|]. rewrite Forall_cons. cbn [fst snd]. rewrite <- IH. tauto. Qed.
Fixpoint items_text (l : list json) : list byte := match l with [] => [] | [x] => json_text x | x :: l' => json_text x ++ x2c :: items_text l' end.
Fixpoint members_text (l : list (list byte * json)) : list byte :=
  match l with [] => [] | [(k, x)] => quoted k ++ x3a :: json_text x | (k, x) :: l' => quoted k ++ x3a :: json_text x ++ x2c :: members_text l' end.
Lemma arr_text l : json_text (JArr l) = x5b :: items_text l ++ [x5d].
Proof. reflexivity. Qed.
Lemma obj_text l : json_text (JObj l) = x7b :: members_text l ++ [x7d].
Proof. reflexivity. Qed.
Definition ends (l : list byte) : Prop := match l with [] => True | b :: _ => digit_of b = None /\ is x2e b = false /\ is x65 b = false /\ is x45 b = false end.
Lemma is_eq c b : is c b = true <-> b = c.
Proof. unfold is. split; [apply Byte.byte_dec_bl|apply Byte.byte_dec_lb]. Qed.
Lemma is_ne c b : b <> c -> is c b = false.
Proof. intros N. destruct (is c b) eqn:E; [|done]. by apply is_eq in E. Qed.
Lemma read_digits_ok d rest : (match rest with [] => True | b :: _ => digit_of b = None end) -> read_digits (uint_bytes d ++ rest) = (d, rest).
Proof. intros E. induction d as [|d IH|d IH|d IH|d IH|d IH|d IH|d IH|d IH|d IH|d IH]; cbn [uint_bytes app read_digits digit_of]; [|by rewrite IH..]. destruct rest as [|b r]; [done|]. cbn. by rewrite E. Qed.
Lemma int_part_ok n : int_part (N.to_uint n) = true.
Proof.
  pose proof (DecimalN.Unsigned.to_of (N.to_uint n)) as E. rewrite DecimalN.Unsigned.of_to in E. destruct (N.to_uint n) as [|d|d|d|d|d|d|d|d|d|d] eqn:Ed; cbn [int_part]; try done.
  unfold unorm in E. destruct d as [|d|d|d|d|d|d|d|d|d|d]; try done; exfalso; cbn [nzhead] in E;
    match type of E with _ = match ?x with _ => _ end => destruct x eqn:Ez; first [discriminate E|idtac] end.
  all: try (apply (DecimalFacts.nzhead_nonzero _ _ Ez)).
  all: discriminate E.
Qed.
Lemma digit_head n : exists b r, uint_bytes (N.to_uint n) = b :: r /\ digit_of b <> None.
Proof. pose proof (int_part_ok n) as E. destruct (N.to_uint n); [discriminate E|..]; cbn [uint_bytes]; do 2 eexists; (split; [reflexivity|discriminate]). Qed.
Lemma digit_not b c : digit_of b <> None -> digit_of c = None -> is c b = false.
Proof. intros D E. apply is_ne. intros ->. done. Qed.
Lemma digit_ws b : digit_of b <> None -> is_ws b = false.
Proof. destruct b; cbn; done. Qed.
Lemma read_num_ok n rest : ends rest -> read_num (uint_bytes (N.to_uint n) ++ rest) = Some (JNum n, rest).
Proof.
  intros E. unfold read_num. destruct (digit_head n) as (b & r & Eb & D). assert (En : eat x2d (uint_bytes (N.to_uint n) ++ rest) = None) by (rewrite Eb; cbn [eat app]; by rewrite (digit_not b x2d)).
  rewrite En, read_digits_ok by (destruct rest; [done|]; apply E). rewrite int_part_ok. cbn [negb].
  destruct rest as [|c rest]; cbn [eat]; [cbn; by rewrite DecimalN.Unsigned.of_to|]. destruct E as (E1 & E2 & E3 & E4). rewrite E2. cbn [mbind option_bind eat]. rewrite E3. cbn match. rewrite E4. cbn. by rewrite DecimalN.Unsigned.of_to.
Qed.
Lemma read_str_ok s rest : plain s -> read_str (s ++ x22 :: rest) = Some (s, rest).
Proof.
  induction 1 as [|b s (L & N1 & N2) _ IH]; [reflexivity|]. cbn [app read_str]. rewrite (is_ne x22 b), (is_ne x5c b) by done. rewrite IH. destruct (N.ltb_spec (Byte.to_N b) 32) as [L'|L']; [lia|]. reflexivity.
Qed.
Lemma read_word_ok w j rest : read_word w j (txt w ++ rest) = Some (j, rest).
Proof. unfold read_word. rewrite take_app, drop_app. by rewrite bool_decide_eq_true_2. Qed.
(** a text begins with a character that is not white space, nor a closing bracket *)
Lemma json_head j : fine j -> exists b r, json_text j = b :: r /\ is_ws b = false /\ is x5d b = false /\ is x7d b = false.
Proof.
  intros F. destruct j as [|[|]|n| |s|l|l]; try done; try (do 2 eexists; split; [reflexivity|]; split_and!; reflexivity).
  destruct (digit_head n) as (b & r & E & D). exists b, r. split; [exact E|]. split; [by apply digit_ws|]. split; by apply digit_not.
Qed.
Lemma skip_json j rest : fine j -> skip_ws (json_text j ++ rest) = json_text j ++ rest.
Proof. intros F. destruct (json_head j F) as (b & r & -> & E & _). cbn. by rewrite E. Qed.
Lemma json_nonempty j : fine j -> (0 < length (json_text j))%nat.
Proof. intros F. destruct (json_head j F) as (b & r & -> & _). cbn. lia. Qed.
Lemma read_all : forall f,
  (forall j rest, fine j -> (length (json_text j) <= f)%nat -> ends rest -> read_value f (json_text j ++ rest) = Some (j, rest)) /\
  (forall l rest, l <> [] -> Forall fine l -> (length (items_text l) < f)%nat -> read_items f (items_text l ++ x5d :: rest) = Some (l, rest)) /\
  (forall l rest, l <> [] -> Forall (fun kx => plain kx.1 /\ fine kx.2) l -> (length (members_text l) < f)%nat -> read_members f (members_text l ++ x7d :: rest) = Some (l, rest)).
Proof.
  induction f as [|f (IHv & IHi & IHm)]; split_and!.
  - intros j rest F L _. pose proof (json_nonempty j F). lia.
  - intros; lia.
  - intros; lia.
  - intros j rest F L E. cbn [read_value]. rewrite (skip_json j rest F). destruct j as [|[|]|n| |s|l|l].
    + reflexivity.
    + reflexivity.
    + reflexivity.
    + change (json_text (JNum n)) with (uint_bytes (N.to_uint n)) in *. pose proof (read_num_ok n rest E) as Q. destruct (digit_head n) as (b & r & Eb & D). rewrite Eb in Q |- *. cbn [app] in *.
      rewrite !(digit_not b) by (done || exact D). exact Q.
    + done.
    + cbn [json_text quoted app]. rewrite <- app_assoc. cbn [app]. change (is x6e x22) with false. change (is x74 x22) with false. change (is x66 x22) with false. change (is x22 x22) with true. cbn [app]. rewrite read_str_ok by done. reflexivity.
    + rewrite arr_text in *. cbn [app]. rewrite <- app_assoc. cbn [app]. change (is x6e x5b) with false. change (is x74 x5b) with false. change (is x66 x5b) with false. change (is x22 x5b) with false. change (is x5b x5b) with true. cbn match. apply fine_arr in F.
      destruct l as [|x l]; [reflexivity|]. assert (Fx : fine x) by (by apply Forall_cons in F as [? _]).
      assert (Eh : eat x5d (skip_ws (items_text (x :: l) ++ x5d :: rest)) = None).
      { assert (Q : exists t, items_text (x :: l) ++ x5d :: rest = json_text x ++ t) by (destruct l; cbn [items_text]; [eexists; reflexivity|rewrite <- app_assoc; eexists; reflexivity]).
        destruct Q as (t & ->). rewrite skip_json by done. destruct (json_head x Fx) as (b & r & -> & _ & Eb & _). cbn [app eat]. by rewrite Eb. }
      rewrite Eh. rewrite IHi; [reflexivity|done|done|]. cbn [length] in L. rewrite app_length in L. cbn [length] in L. lia.
    + rewrite obj_text in *. cbn [app]. rewrite <- app_assoc. cbn [app]. change (is x6e x7b) with false. change (is x74 x7b) with false. change (is x66 x7b) with false. change (is x22 x7b) with false. change (is x5b x7b) with false. change (is x7b x7b) with true. cbn match. apply fine_obj in F.
      destruct l as [|[k x] l]; [reflexivity|].
      assert (Eh : eat x7d (skip_ws (members_text ((k, x) :: l) ++ x7d :: rest)) = None).
      { assert (Q : exists t, members_text ((k, x) :: l) ++ x7d :: rest = x22 :: t) by (destruct l; cbn [members_text quoted app]; eexists; reflexivity). destruct Q as (t & ->). reflexivity. }
      rewrite Eh. rewrite IHm; [reflexivity|done|done|]. cbn [length] in L. rewrite app_length in L. cbn [length] in L. lia.
  - intros l rest Ne F L. cbn [read_items]. destruct l as [|x l]; [done|]. apply Forall_cons in F as [Fx F]. pose proof (json_nonempty x Fx) as Px. destruct l as [|y l].
    + cbn [items_text] in *. rewrite IHv; [|done|lia|by split_and!]. cbn [mbind option_bind]. change (skip_ws (x5d :: rest)) with (x5d :: rest). reflexivity.
    + change (items_text (x :: y :: l)) with (json_text x ++ x2c :: items_text (y :: l)) in *. rewrite app_length in L. cbn [length] in L. rewrite <- app_assoc. cbn [app]. rewrite IHv; [|done|lia|by split_and!].
      cbn [mbind option_bind]. change (skip_ws (x2c :: items_text (y :: l) ++ x5d :: rest)) with (x2c :: items_text (y :: l) ++ x5d :: rest). cbn [eat]. change (is x2c x2c) with true. cbn match. rewrite IHi; [reflexivity|done|done|lia].
  - intros l rest Ne F L. cbn [read_members]. destruct l as [|[k x] l]; [done|]. apply Forall_cons in F as [[Fk Fx] F]. cbn [fst snd] in Fk, Fx. pose proof (json_nonempty x Fx) as Px. destruct l as [|y l].
    + cbn [members_text quoted app length] in *. rewrite !app_length in L. cbn [length] in L. rewrite <- !app_assoc. cbn [app]. change (skip_ws (x22 :: ?t)) with (x22 :: t). cbn [eat]. change (is x22 x22) with true. cbn match. cbn [mbind option_bind].
      rewrite read_str_ok by done. cbn [mbind option_bind]. change (skip_ws (x3a :: ?t)) with (x3a :: t). cbn [eat]. change (is x3a x3a) with true. cbn match. cbn [mbind option_bind].
      rewrite IHv; [|done|lia|by split_and!]. cbn [mbind option_bind]. change (skip_ws (x7d :: rest)) with (x7d :: rest). reflexivity.
    + change (members_text ((k, x) :: y :: l)) with (quoted k ++ x3a :: json_text x ++ x2c :: members_text (y :: l)) in *. cbn [quoted app length] in *. rewrite !app_length in L. cbn [length] in L. rewrite app_length in L. cbn [length] in L.
      rewrite <- !app_assoc. cbn [app]. change (skip_ws (x22 :: ?t)) with (x22 :: t). cbn [eat]. change (is x22 x22) with true. cbn match. cbn [mbind option_bind].
      rewrite read_str_ok by done. cbn [mbind option_bind]. change (skip_ws (x3a :: ?t)) with (x3a :: t). cbn [eat]. change (is x3a x3a) with true. cbn match. cbn [mbind option_bind]. rewrite <- app_assoc. cbn [app].
      rewrite IHv; [|done|lia|by split_and!]. cbn [mbind option_bind]. change (skip_ws (x2c :: ?t)) with (x2c :: t). cbn [eat]. change (is x2c x2c) with true. cbn match. rewrite IHm; [reflexivity|done|done|lia].
Qed.
Lemma read_text_ok j : fine j -> read_text (json_text j) = Some j.
Proof. intros F. unfold read_text. destruct (read_all (S (length (json_text j)))) as (Q & _). specialize (Q j [] F ltac:(lia) I). rewrite app_nil_r in Q. rewrite Q. reflexivity. Qed.

(** ** Values *)
Definition good {A} (c : jcodec A) (P : A -> Prop) : Prop := forall x, P x -> fine (j_to c x) /\ j_of c (j_to c x) = Some x.
Lemma good_text {A} (c : jcodec A) P x : good c P -> P x -> of_text c (to_text c x) = Some x.
Proof. intros G Px. destruct (G x Px) as [F E]. unfold of_text, to_text. rewrite read_text_ok by done. exact E. Qed.
Lemma uint_good b : good (j_uint b) (fun n => n < b).
Proof. intros n L. split; [done|]. cbn. by destruct (N.ltb_spec n b); [|lia]. Qed.
Definition usize_ok (n : nat) : Prop := N.of_nat n < 2 ^ 64.
Lemma usize_good : good j_usize usize_ok.
Proof. intros n L. split; [done|]. change (j_of j_usize (j_to j_usize n)) with (n ← j_of (j_uint (2 ^ 64)) (j_to (j_uint (2 ^ 64)) (N.of_nat n)); Some (N.to_nat n)). rewrite (proj2 (uint_good (2 ^ 64) (N.of_nat n) L)). cbn [mbind option_bind]. by rewrite Nat2N.id. Qed.
Lemma u8_good : good j_u8 (fun _ => True).
Proof. intros b _. split; [done|]. change (j_of j_u8 (j_to j_u8 b)) with (n ← j_of (j_uint 256) (j_to (j_uint 256) (Byte.to_N b)); Some (byte_of_N n)). assert (L : Byte.to_N b < 256) by (pose proof (Byte.to_N_bounded b); lia). rewrite (proj2 (uint_good 256 (Byte.to_N b) L)). cbn [mbind option_bind]. by rewrite byte_of_to_N. Qed.
Lemma mapM_good {A} (c : jcodec A) P l : good c P -> Forall P l -> Forall fine (map (j_to c) l) /\ mapM (j_of c) (map (j_to c) l) = Some l.
Proof.
  intros G. induction 1 as [|x l Px _ [IH1 IH2]]; [split; [constructor|reflexivity]|]. destruct (G x Px) as [F E]. cbn [map mapM]. split; [by constructor|]. cbn [mapM]. rewrite E. cbn [mbind option_bind]. rewrite IH2. reflexivity.
Qed.
Lemma vec_good {A} (c : jcodec A) P : good c P -> good (j_vec c) (Forall P).
Proof. intros G l Pl. destruct (mapM_good c P l G Pl) as [F E]. split; [by apply fine_arr|exact E]. Qed.
Lemma array_good {A} n (c : jcodec A) P : good c P -> good (j_array n c) (fun l => Forall P l /\ length l = n).
Proof. intros G l [Pl Ln]. destruct (mapM_good c P l G Pl) as [F E]. split; [by apply fine_arr|]. cbn [j_array j_vec j_to j_of]. rewrite map_length, Ln, Nat.eqb_refl. exact E. Qed.
Lemma option_good {A} (c : jcodec A) P : good c P -> (forall x, j_to c x <> JNull) -> good (j_option c) (fun o => match o with Some x => P x | None => True end).
Proof. intros G N [x|] Px; [|done]. destruct (G x Px) as [F E]. split; [exact F|]. cbn [j_option j_to j_of]. specialize (N x). destruct (j_to c x); try done; rewrite E; reflexivity. Qed.
Lemma phantom_good : good j_phantom (fun _ => True).
Proof. intros [] _. done. Qed.
Definition namesb (names : list string) : bool := bool_decide (NoDup (map txt names)) && forallb (fun s => forallb (fun b => (32 <=? Byte.to_N b) && bool_decide (b <> x22) && bool_decide (b <> x5c)) (txt s)) names.
Lemma plainb s : forallb (fun b => (32 <=? Byte.to_N b) && bool_decide (b <> x22) && bool_decide (b <> x5c)) s = true -> plain s.
Proof. intros E. apply Forall_forall. intros b Hb. pose proof (proj1 (forallb_forall _ _) E b (proj1 (elem_of_list_In _ _) Hb)) as Q. apply andb_prop in Q as [Q Q3]. apply andb_prop in Q as [Q1 Q2]. apply N.leb_le in Q1. apply bool_decide_eq_true_1 in Q2, Q3. done. Qed.
Lemma fine_objs l : namesb (map fst l) = true -> Forall fine (map snd l) -> fine (obj l).
Proof.
  intros N F. apply andb_prop in N as [_ N]. apply fine_obj. unfold obj. induction l as [|[k x] l IH]; [constructor|]. cbn [map fst snd] in *. apply Forall_cons in F as [Fx F]. cbn [forallb] in N. apply andb_prop in N as [Nk N].
  constructor; [split; [by apply plainb|exact Fx]|by apply IH].
Qed.
Lemma member_none n l : txt n ∉ map (fun kx => txt kx.1) l -> member n (map (fun kx : string * json => (txt kx.1, kx.2)) l) = Some None.
Proof.
  intros N. unfold member. replace (filter _ _) with (@nil (list byte * json)); [done|]. symmetry. induction l as [|[k x] l IH]; [done|]. cbn [map fst snd] in *. rewrite filter_cons_False; [apply IH; set_solver|cbn; set_solver].
Qed.
Lemma member_some n x l : txt n ∉ map (fun kx => txt kx.1) l -> member n ((txt n, x) :: map (fun kx : string * json => (txt kx.1, kx.2)) l) = Some (Some x).
Proof. intros N. pose proof (member_none n l N) as Q. unfold member in *. rewrite filter_cons_True by done. destruct (filter _ (map _ l)) as [|a [|b t]]; [done|discriminate Q|discriminate Q]. Qed.
Lemma member_skip n k x (l : list (list byte * json)) : txt n <> txt k -> member n ((txt k, x) :: l) = member n l.
Proof. intros N. unfold member. rewrite filter_cons_False; [done|]. cbn. congruence. Qed.
Lemma fields_ok l : namesb (map fst l) = true -> j_fields (map fst l) (obj l) = Some (map (fun kx => Some kx.2) l).
Proof.
  intros N. apply andb_prop in N as [N _]. apply bool_decide_eq_true_1 in N. unfold j_fields, obj. rewrite map_map in N.
  assert (G : forall pre l, NoDup (map (fun kx => txt kx.1) (pre ++ l)) -> mapM (fun n => member n (map (fun kx : string * json => (txt kx.1, kx.2)) (pre ++ l))) (map fst l) = Some (map (fun kx => Some kx.2) l)).
  { clear. intros pre l. revert pre. induction l as [|[k x] l IH]; intros pre N; [done|]. cbn [map mapM fst snd].
    assert (E : member k (map (fun kx : string * json => (txt kx.1, kx.2)) (pre ++ (k, x) :: l)) = Some (Some x)).
    { clear IH. induction pre as [|[k' x'] pre IHp]; cbn [app map fst snd] in *; apply NoDup_cons in N as [N1 N2].
      - by apply member_some.
      - rewrite member_skip; [by apply IHp|]. intros E. apply N1. rewrite <- E, map_app. cbn. set_solver. }
    rewrite E. cbn [mbind option_bind]. specialize (IH (pre ++ [(k, x)])). rewrite <- app_assoc in IH. cbn [app] in IH. by rewrite IH. }
  exact (G [] l N).
Qed.
Lemma required_ok {A} (c : jcodec A) P x : good c P -> P x -> required c (Some (j_to c x)) = Some x.
Proof. intros G Px. cbn. by apply G. Qed.
Lemma struct2_good {A B} a b (ca : jcodec A) (cb : jcodec B) (P : A -> Prop) (Q : B -> Prop) : namesb [a; b] = true -> good ca P -> good cb Q -> good (j_struct2 a b ca cb) (fun x => P x.1 /\ Q x.2).
Proof.
  intros N Ga Gb [x y] [Px Qy]. cbn [fst snd] in *. cbn [j_struct2 j_to j_of fst snd]. split.
  - apply fine_objs; [exact N|]. cbn [map snd]. constructor; [by apply Ga|]. constructor; [by apply Gb|constructor].
  - pose proof (fields_ok [(a, j_to ca x); (b, j_to cb y)] N) as E. cbn [map fst snd] in E. rewrite E. cbn [mbind option_bind]. rewrite (required_ok ca P), (required_ok cb Q) by done. reflexivity.
Qed.
Lemma conv_good {A B} (f : A -> option B) (g : B -> A) (c : jcodec A) (P : A -> Prop) (Q : B -> Prop) : good c P -> (forall y, Q y -> P (g y) /\ f (g y) = Some y) -> good (j_conv f g c) Q.
Proof. intros G E y Qy. destruct (E y Qy) as [Py Ey]. destruct (G _ Py) as [F Eo]. split; [exact F|]. cbn [j_conv j_to j_of]. rewrite Eo. exact Ey. Qed.

Lemma good_weaken {A} (c : jcodec A) (P Q : A -> Prop) : good c P -> (forall x, Q x -> P x) -> good c Q.
Proof. intros G W x Qx. apply G. by apply W. Qed.
Ltac names := vm_compute; reflexivity.
Lemma b32_good : good j_b32 (fun _ => True).
Proof.
  apply (conv_good to_bytes32 b32 (j_array 32 j_u8) _ _ (array_good 32 j_u8 _ u8_good)). intros y _. split; [|apply to_bytes32_b32]. split; [by apply Forall_true|]. apply b32_length.
Qed.
Lemma leaf_good : good j_leaf (fun _ => True).
Proof. unfold j_leaf. eapply conv_good; [apply struct2_good; [names|exact b32_good|exact b32_good]|]. intros [k v] _. done. Qed.
Lemma sminternal_good : good j_sminternal (fun _ => True).
Proof. unfold j_sminternal. eapply good_weaken; [apply struct2_good; [names|exact b32_good|exact b32_good]|]. done. Qed.
(** the two forms of an enum *)
Lemma plain_name s : namesb [s] = true -> plain (txt s).
Proof. intros E. apply andb_prop in E as [_ E]. cbn [forallb] in E. apply andb_prop in E as [E _]. by apply plainb. Qed.
Lemma fine_variant s j : namesb [s] = true -> fine j -> fine (obj [(s, j)]).
Proof. intros N F. apply fine_objs; [exact N|]. constructor; [exact F|constructor]. Qed.
Lemma smnode_good : good j_smnode (fun _ => True).
Proof.
  intros [|l r|l] _.
  - split; [apply (plain_name "Null"); names|reflexivity].
  - destruct (sminternal_good (l, r) I) as [F E]. split; [apply fine_variant; [names|exact F]|]. unfold j_smnode at 1. cbn [j_of]. cbn [j_to j_smnode obj map fst snd j_variant mbind option_bind].
    rewrite bool_decide_eq_false_2 by (vm_compute; discriminate). rewrite bool_decide_eq_true_2 by reflexivity. cbn [required mbind option_bind]. rewrite E. reflexivity.
  - destruct (leaf_good l I) as [F E]. split; [apply fine_variant; [names|exact F]|]. unfold j_smnode at 1. cbn [j_of]. cbn [j_to j_smnode obj map fst snd j_variant mbind option_bind].
    rewrite bool_decide_eq_false_2 by (vm_compute; discriminate). rewrite bool_decide_eq_false_2 by (vm_compute; discriminate). rewrite bool_decide_eq_true_2 by reflexivity. cbn [required mbind option_bind]. rewrite E. reflexivity.
Qed.
Lemma leaf_not_null l : j_to j_leaf l <> JNull. Proof. discriminate. Qed.
Lemma proof_good : good j_proof (fun _ => True).
Proof.
  intros [lf sibs] _. assert (Gl : good (j_option j_leaf) (fun _ => True)) by (eapply good_weaken; [apply (option_good _ _ leaf_good leaf_not_null)|]; by intros [x|] _).
  assert (Gs : good (j_vec j_smnode) (fun _ => True)) by (eapply good_weaken; [apply (vec_good _ _ smnode_good)|]; intros; by apply Forall_true).
  destruct (Gl lf I) as [Fl El]. destruct (Gs sibs I) as [Fs Es]. split.
  - cbn [j_proof j_to p_leaf p_siblings]. apply fine_objs; [names|]. cbn [map snd]. constructor; [exact Fl|]. constructor; [exact Fs|]. constructor; [exact I|constructor].
  - unfold j_proof at 1. cbn [j_of]. cbn [j_proof j_to p_leaf p_siblings].
    pose proof (fields_ok [("leaf"%string, j_to (j_option j_leaf) lf); ("siblings"%string, j_to (j_vec j_smnode) sibs); ("phantom_hasher"%string, j_to j_phantom ())] ltac:(names)) as E.
    cbn [map fst snd] in E. rewrite E. cbn [mbind option_bind]. change (optional j_leaf (Some ?j)) with (j_of (j_option j_leaf) j). rewrite El. cbn [mbind option_bind]. change (required (j_vec j_smnode) (Some ?j)) with (j_of (j_vec j_smnode) j). rewrite Es. reflexivity.
Qed.
Lemma update_good : good j_update_proof (fun _ => True).
Proof. eapply good_weaken; [apply (vec_good _ _ proof_good)|]. intros; by apply Forall_true. Qed.
Lemma range_good : good j_range_proof (fun _ => True).
Proof.
  unfold j_range_proof. eapply conv_good; [apply struct2_good; [names|apply (vec_good _ _ smnode_good)|exact phantom_good]|]. intros [s] _. split; [|done]. split; [by apply Forall_true|done].
Qed.
Definition npath_ok (p : npath) : Prop := usize_ok (np_num p).
Lemma jpath_good : good j_npath npath_ok.
Proof.
  unfold j_npath. eapply conv_good; [apply struct2_good; [names|exact usize_good|apply (vec_good _ _ u8_good)]|]. intros [n b] L. split; [|done]. split; [exact L|by apply Forall_true].
Qed.
Definition jkey_ok (nk : N * npath) : Prop := nk.1 < 2 ^ 64 /\ npath_ok nk.2.
Lemma jkey_good : good j_nodekey jkey_ok.
Proof. exact (struct2_good "version" "nibble_path" j_u64 j_npath _ _ ltac:(names) (uint_good _) jpath_good). Qed.
Definition jtype_ok (t : node_type) : Prop := match t with NTLeaf => True | NTInternal n => usize_ok n end.
Lemma jtype_good : good j_node_type jtype_ok.
Proof.
  intros [|n] P.
  - split; [apply (plain_name "Leaf"); names|reflexivity].
  - destruct (usize_good n P) as [F E]. split.
    + apply fine_variant; [names|]. apply fine_variant; [names|exact F].
    + unfold j_node_type at 1. cbn [j_of]. cbn [j_to j_node_type obj map fst snd j_variant mbind option_bind]. rewrite bool_decide_eq_false_2 by (vm_compute; discriminate). rewrite bool_decide_eq_true_2 by reflexivity.
      pose proof (fields_ok [("leaf_count"%string, j_to j_usize n)] ltac:(names)) as Q. cbn [map fst snd obj] in Q. rewrite Q. cbn [mbind option_bind]. change (required j_usize (Some ?j)) with (j_of j_usize j). rewrite E. reflexivity.
Qed.
Definition jchild_ok (c : child) : Prop := c_version c < 2 ^ 64 /\ jtype_ok (c_type c).
Lemma jchild_good : good j_child jchild_ok.
Proof.
  intros [h v t] [Pv Pt]. cbn [c_version c_type] in *. destruct (b32_good h I) as [Fh Eh]. destruct (uint_good (2 ^ 64) v Pv) as [Fv Ev]. destruct (jtype_good t Pt) as [Ft Et]. split.
  - cbn [j_child j_to c_hash c_version c_type]. apply fine_objs; [names|]. cbn [map snd]. constructor; [exact Fh|]. constructor; [exact Fv|]. constructor; [exact Ft|constructor].
  - unfold j_child at 1. cbn [j_of]. cbn [j_child j_to c_hash c_version c_type].
    pose proof (fields_ok [("hash"%string, j_to j_b32 h); ("version"%string, j_to j_u64 v); ("node_type"%string, j_to j_node_type t)] ltac:(names)) as E.
    cbn [map fst snd] in E. rewrite E. cbn [mbind option_bind]. change (required j_b32 (Some ?j)) with (j_of j_b32 j). rewrite Eh. cbn [mbind option_bind]. change (required j_u64 (Some ?j)) with (j_of (j_uint (2 ^ 64)) j). unfold j_u64. rewrite Ev. cbn [mbind option_bind].
    change (required j_node_type (Some ?j)) with (j_of j_node_type j). rewrite Et. reflexivity.
Qed.
Lemma child_not_null c : j_to j_child c <> JNull. Proof. discriminate. Qed.
Definition jslot_ok (o : option child) : Prop := match o with Some c => jchild_ok c | None => True end.
Definition jchildren_ok (a : carr) : Prop := length (ca_slots a) = 16%nat /\ Forall jslot_ok (ca_slots a) /\ usize_ok (ca_num a).
Lemma jchildren_good : good j_children jchildren_ok.
Proof.
  unfold j_children. eapply conv_good; [apply struct2_good; [names|apply array_good, (option_good _ _ jchild_good child_not_null)|exact usize_good]|]. intros [s n] (L & F & U). cbn [ca_slots ca_num] in *. split; [|done]. done.
Qed.
Definition jinternal_ok (x : carr * nat) : Prop := jchildren_ok x.1 /\ usize_ok x.2.
Lemma jinternal_good : good j_internal jinternal_ok.
Proof. exact (struct2_good "children" "leaf_count" j_children j_usize _ _ ltac:(names) jchildren_good usize_good). Qed.
Definition jnode_ok (n : raw_node) : Prop := match n with RInternal a c => jinternal_ok (a, c) | _ => True end.
Lemma jnode_good : good j_node jnode_ok.
Proof.
  intros [|a c|l] P.
  - split; [apply (plain_name "Null"); names|reflexivity].
  - destruct (jinternal_good (a, c) P) as [F E]. split; [apply fine_variant; [names|exact F]|]. unfold j_node at 1. cbn [j_of]. cbn [j_to j_node obj map fst snd j_variant mbind option_bind].
    rewrite bool_decide_eq_false_2 by (vm_compute; discriminate). rewrite bool_decide_eq_true_2 by reflexivity. cbn [required mbind option_bind]. rewrite E. reflexivity.
  - destruct (leaf_good l I) as [F E]. split; [apply fine_variant; [names|exact F]|]. unfold j_node at 1. cbn [j_of]. cbn [j_to j_node obj map fst snd j_variant mbind option_bind].
    rewrite bool_decide_eq_false_2 by (vm_compute; discriminate). rewrite bool_decide_eq_false_2 by (vm_compute; discriminate). rewrite bool_decide_eq_true_2 by reflexivity. cbn [required mbind option_bind]. rewrite E. reflexivity.
Qed.

(** ** What the readers accept satisfies the bounds of the types *)
Definition sound {A} (c : jcodec A) (P : A -> Prop) : Prop := forall j x, j_of c j = Some x -> P x.
Lemma uint_sound b : sound (j_uint b) (fun n => n < b).
Proof. intros [ | | n | | | | ] x E; try discriminate E. cbn in E. destruct (N.ltb_spec n b); [|discriminate E]. by injection E as <-. Qed.
Lemma usize_sound : sound j_usize usize_ok.
Proof.
  intros j x E. change (j_of j_usize j) with (n ← j_of (j_uint (2 ^ 64)) j; Some (N.to_nat n)) in E. destruct (j_of (j_uint (2 ^ 64)) j) as [n|] eqn:En; [|discriminate E]. apply uint_sound in En.
  cbn [mbind option_bind] in E. injection E as <-. unfold usize_ok. by rewrite N2Nat.id.
Qed.
Lemma mapM_sound {A} (c : jcodec A) (P : A -> Prop) l l' : sound c P -> mapM (j_of c) l = Some l' -> Forall P l' /\ length l' = length l.
Proof. intros S E. apply mapM_Some_1 in E. split; [|symmetry; by eapply Forall2_length]. induction E as [|j x l l' E _ IH]; [constructor|]. constructor; [by eapply S|exact IH]. Qed.
Lemma array_sound {A} n (c : jcodec A) (P : A -> Prop) : sound c P -> sound (j_array n c) (fun l => Forall P l /\ length l = n).
Proof. intros S [ | | | | | l | ] x E; try discriminate E. cbn [j_array j_of] in E. destruct (Nat.eqb_spec (length l) n); [|discriminate E]. destruct (mapM_sound c P l x S E) as [F L]. split; [exact F|congruence]. Qed.
Lemma option_sound {A} (c : jcodec A) (P : A -> Prop) : sound c P -> sound (j_option c) (fun o => match o with Some x => P x | None => True end).
Proof.
  intros S j [x|] E; [|done]. apply (S j). destruct j; try discriminate E; cbn [j_option j_of] in E;
    match type of E with (?a ≫= _) = _ => destruct a as [y|] eqn:Ey; [|discriminate E]; cbn [mbind option_bind] in E; by injection E as <- end.
Qed.
Lemma required_sound {A} (c : jcodec A) (P : A -> Prop) o x : sound c P -> required c o = Some x -> P x.
Proof. intros S E. destruct o as [j|]; [|discriminate E]. by apply (S j). Qed.
Lemma struct2_sound {A B} a b (ca : jcodec A) (cb : jcodec B) (P : A -> Prop) (Q : B -> Prop) : sound ca P -> sound cb Q -> sound (j_struct2 a b ca cb) (fun x => P x.1 /\ Q x.2).
Proof.
  intros Sa Sb j x E. cbn [j_struct2 j_of] in E. destruct (j_fields [a; b] j) as [[|ja [|jb [|]]]|]; try discriminate E. cbn [mbind option_bind] in E.
  destruct (required ca ja) as [u|] eqn:Eu; [|discriminate E]. cbn [mbind option_bind] in E. destruct (required cb jb) as [v|] eqn:Ev; [|discriminate E]. cbn [mbind option_bind] in E. injection E as <-.
  split; [exact (required_sound _ _ _ _ Sa Eu)|exact (required_sound _ _ _ _ Sb Ev)].
Qed.
Lemma conv_sound {A B} (f : A -> option B) (g : B -> A) (c : jcodec A) (P : A -> Prop) (Q : B -> Prop) : sound c P -> (forall x y, P x -> f x = Some y -> Q y) -> sound (j_conv f g c) Q.
Proof. intros S W j y E. cbn [j_conv j_of] in E. destruct (j_of c j) as [x|] eqn:Ex; [|discriminate E]. cbn [mbind option_bind] in E. eapply W; [by eapply S|exact E]. Qed.
Lemma jpath_sound : sound j_npath npath_ok.
Proof. unfold j_npath. eapply conv_sound; [apply (struct2_sound _ _ _ _ _ (fun _ => True) usize_sound); by intros ? ?|]. intros [n b] y [L _] [= <-]. exact L. Qed.
Lemma jkey_sound : sound j_nodekey jkey_ok.
Proof. apply (struct2_sound _ _ _ _ _ _ (uint_sound _) jpath_sound). Qed.
Lemma jtype_sound : sound j_node_type jtype_ok.
Proof.
  intros j t E. cbn [j_node_type j_of] in E. destruct (j_variant j) as [[k p]|]; [|discriminate E]. cbn [mbind option_bind] in E. case_bool_decide; [destruct (unit_payload p); [|discriminate E]; by injection E as <-|].
  case_bool_decide; [|discriminate E]. destruct p as [x|]; [|discriminate E]. cbn [mbind option_bind] in E. destruct (j_fields _ x) as [[|jn [|]]|]; try discriminate E. cbn [mbind option_bind] in E.
  destruct (required j_usize jn) as [n|] eqn:En; [|discriminate E]. cbn [mbind option_bind] in E. injection E as <-. exact (required_sound _ _ _ _ usize_sound En).
Qed.
Lemma jchild_sound : sound j_child jchild_ok.
Proof.
  intros j c E. cbn [j_child j_of] in E. destruct (j_fields _ j) as [[|jh [|jv [|jt [|]]]]|]; try discriminate E. cbn [mbind option_bind] in E.
  destruct (required j_b32 jh) as [h|]; [|discriminate E]. cbn [mbind option_bind] in E. destruct (required j_u64 jv) as [v|] eqn:Ev; [|discriminate E]. cbn [mbind option_bind] in E.
  destruct (required j_node_type jt) as [t|] eqn:Et; [|discriminate E]. cbn [mbind option_bind] in E. injection E as <-. split; [exact (required_sound _ _ _ _ (uint_sound _) Ev)|exact (required_sound _ _ _ _ jtype_sound Et)].
Qed.
Lemma jchildren_sound : sound j_children jchildren_ok.
Proof.
  unfold j_children. eapply conv_sound; [apply struct2_sound; [apply array_sound, option_sound, jchild_sound|exact usize_sound]|]. intros [s n] y [[F L] U] [= <-]. cbn [fst snd] in *. split; [exact L|]. split; [|exact U]. exact F.
Qed.
Lemma jinternal_sound : sound j_internal jinternal_ok.
Proof. apply (struct2_sound _ _ _ _ _ _ jchildren_sound usize_sound). Qed.
Lemma jnode_sound : sound j_node jnode_ok.
Proof.
  intros j t E. cbn [j_node j_of] in E. destruct (j_variant j) as [[k p]|]; [|discriminate E]. cbn [mbind option_bind] in E. case_bool_decide; [destruct (unit_payload p); [|discriminate E]; by injection E as <-|].
  case_bool_decide.
  - destruct (required j_internal p) as [x|] eqn:Ex; [|discriminate E]. cbn [mbind option_bind] in E. injection E as <-. destruct x as [a c]. exact (required_sound _ _ _ _ jinternal_sound Ex).
  - case_bool_decide; [|discriminate E]. destruct (required j_leaf p) as [x|] eqn:Ex; [|discriminate E]. cbn [mbind option_bind] in E. by injection E as <-.
Qed.

(** ** C97 *)
(** [c] is the JSON form of a type whose values are the [x] with [P x]: reading what was written gives the value, different values are written differently, and whatever text is read,
    the value obtained is a value of the type, so that it is written and read back unchanged. *)
Definition json_form {A} (c : jcodec A) (P : A -> Prop) : Prop :=
  (forall x, P x -> of_text c (to_text c x) = Some x) /\
  (forall x y, P x -> P y -> to_text c x = to_text c y -> x = y) /\
  (forall t x, of_text c t = Some x -> P x /\ of_text c (to_text c x) = Some x).
Lemma json_form_ok {A} (c : jcodec A) P : good c P -> sound c P -> json_form c P.
Proof.
  intros G S. split; [intros; by eapply good_text|]. split.
  - intros x y Px Py E. pose proof (good_text c P x G Px) as Ex. rewrite E in Ex. rewrite (good_text c P y G Py) in Ex. by injection Ex.
  - intros t x E. unfold of_text in E. destruct (read_text t) as [j|]; [|discriminate E]. cbn [mbind option_bind] in E. apply S in E. split; [exact E|by eapply good_text].
Qed.
Lemma all_sound {A} (c : jcodec A) : sound c (fun _ => True). Proof. by intros ? ?. Qed.
(** hashes; proofs: no conditions *)
Theorem C97_hash : json_form j_b32 (fun _ => True). Proof. apply json_form_ok; [apply b32_good|apply all_sound]. Qed.
Theorem C97_nibble : json_form j_nibble (fun _ => True). Proof. apply json_form_ok; [apply u8_good|apply all_sound]. Qed.
Theorem C97_leaf : json_form j_leaf (fun _ => True). Proof. apply json_form_ok; [apply leaf_good|apply all_sound]. Qed.
Theorem C97_proof_node : json_form j_smnode (fun _ => True). Proof. apply json_form_ok; [apply smnode_good|apply all_sound]. Qed.
Theorem C97_proof : json_form j_proof (fun _ => True). Proof. apply json_form_ok; [apply proof_good|apply all_sound]. Qed.
Theorem C97_update_proof : json_form j_update_proof (fun _ => True). Proof. apply json_form_ok; [apply update_good|apply all_sound]. Qed.
Theorem C97_range_proof : json_form j_range_proof (fun _ => True). Proof. apply json_form_ok; [apply range_good|apply all_sound]. Qed.
(** the stored types: machine integers within 64 bits, 16 slots *)
Theorem C97_path : json_form j_npath (fun p => N.of_nat (np_num p) < 2 ^ 64). Proof. apply json_form_ok; [apply jpath_good|apply jpath_sound]. Qed.
Theorem C97_node_key : json_form j_nodekey (fun nk => nk.1 < 2 ^ 64 /\ N.of_nat (np_num nk.2) < 2 ^ 64). Proof. apply json_form_ok; [apply jkey_good|apply jkey_sound]. Qed.
Theorem C97_child : json_form j_child (fun c => c_version c < 2 ^ 64 /\ match c_type c with NTLeaf => True | NTInternal n => N.of_nat n < 2 ^ 64 end). Proof. apply json_form_ok; [apply jchild_good|apply jchild_sound]. Qed.
Theorem C97_node : json_form j_node (fun n => match n with
  | RInternal a c => (length (ca_slots a) = 16%nat /\
      Forall (fun o => match o with Some c => c_version c < 2 ^ 64 /\ match c_type c with NTLeaf => True | NTInternal n => N.of_nat n < 2 ^ 64 end | None => True end) (ca_slots a) /\
      N.of_nat (ca_num a) < 2 ^ 64) /\ N.of_nat c < 2 ^ 64
  | _ => True end).
Proof. apply json_form_ok; [apply jnode_good|apply jnode_sound]. Qed.
