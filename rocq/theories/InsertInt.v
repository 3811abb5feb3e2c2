(** insert_at at an internal node, and in general. *)
From Verif Require Import Base Spec NodeType ProofDef TreeCache Tree KeyFacts SmtFacts ProofFacts NodeFacts Canon CanonSib ReadFacts PutFacts InsertFacts.
From Coq Require Import Lia.
Local Opaque Spec.smt.

Section ins.
Context (H : list byte -> bytes32) (rd : reader) (v : version) (T0 : nodekey -> option node).
Implicit Types (M : gmap key vhash) (ver : list nibble -> version) (nw : list nibble -> bool) (p q : list nibble).
Notation Inv := (GInv H v T0).
Notation Base0 := (GBase rd T0).
Notation post := (post H rd v T0).

(** *** at an internal node *)
Definition itail (nk : nodekey) (i : internal_node) (n : nibble) (res : put_result) (wp : bool) (pf : option sm_proof) (c : cache)
    : outcome (put_result * option sm_proof * cache) :=
  match res with
  | NotChanged => Ok (NotChanged, with_pf wp (SMProof None []), c)
  | _ =>
      ch ← match res with
           | Updated _ nd =>
               h ← node_hash H nd;
               t ← node_node_type nd;
               Ok (<[ n := Child h v t ]> (in_children i))
           | _ => Ok (delete n (in_children i))
           end;
      c ← cache_delete_node c nk false;
      match children_iter ch with
      | [] => Ok (Removed, pf, c)
      | (cn, ci) :: more =>
          if (match more with [] => true | _ => false end) && c_is_leaf ci then
            let child_key := gen_child nk (c_version ci) cn in
            child_node ← cache_get_node rd c child_key;
            c ← cache_delete_node c child_key true;
            let nk' := nk_set_version nk v in
            c ← cache_put_node c nk' child_node;
            Ok (Updated nk' child_node, pf, c)
          else
            i' ← internal_new ch;
            let nk' := nk_set_version nk v in
            c ← cache_put_node c nk' (Internal i');
            Ok (Updated nk' (Internal i'), pf, c)
      end
  end.
Lemma node_type_canon M ver p n : U (p ++ [n]) M <> ∅ -> exists t, node_node_type (node_at H M ver (p ++ [n])) = Ok t /\
  child_of H M ver p n = Some (Child (ms H (bits (p ++ [n])) M) (ver (p ++ [n])) t).
Proof.
  intros Ne. destruct (size_cases (U (p ++ [n]) M)) as [E|[(k & h & E)|Hm]]; [done| |].
  - exists NTLeaf. rewrite (node_at_leaf H _ _ _ k h) by done. unfold child_of. rewrite E, map_size_singleton. done.
  - exists (NTInternal (size (U (p ++ [n]) M))). rewrite node_at_internal by done. split; [done|]. unfold child_of.
    destruct (size (U (p ++ [n]) M)) as [|[|s]]; [lia|lia|done].
Qed.
Lemma child_of_upd M ver k vh p n m : 2 <= size (U p M) -> (p ++ [n]) `prefix_of` key_nibbles k -> m <> n ->
  child_of H (apply_vh M k vh) (upd v k M ver) p m = child_of H M ver p m.
Proof.
  intros Hm Hn Hne. assert (Np : ~ (p ++ [m]) `prefix_of` key_nibbles k) by (by eapply (not_prefix_other p n m [])).
  unfold child_of. rewrite U_apply_out by done. rewrite upd_other by (done || by rewrite parent_snoc).
  rewrite (ms_under H (bits (p ++ [m])) (apply_vh M k vh) M); [done|]. by apply U_apply_out.
Qed.
Lemma size_delete_ge {A} (m : gmap key A) k : size m <= S (size (delete k m)).
Proof. rewrite map_size_delete. destruct (m !! k); simpl; lia. Qed.

Lemma tail_ok M ver nw k vh p n c c1 res : let M' := apply_vh M k vh in let ver' := upd v k M ver in let nw' := upd true k M nw in
  2 <= size (U p M) -> (p ++ [n]) `prefix_of` key_nibbles k -> Inv p M ver nw c -> Base0 c ->
  Inv (p ++ [n]) M' ver' nw' c1 -> outside (p ++ [n]) c c1 -> rest c1 = rest c -> cnt_ok rd c1 ->
  ((U (p ++ [n]) M' = ∅ /\ res = Removed) \/ (U (p ++ [n]) M' <> ∅ /\ res = Updated (v, p ++ [n]) (node_at H M' ver' (p ++ [n])))) ->
  exists c', (forall wp pf, itail (ver p, p) (mkInternal (children_of H M ver p) (size (U p M))) n res wp pf c1 =
      Ok (Updated (v, p) (node_at H M' ver' p), pf, c')) /\
    U p M' <> ∅ /\ Inv p M' ver' nw' c' /\ outside p c c' /\ rest c' = rest c /\ cnt_ok rd c'.
Proof.
  intros M' ver' nw' Hm Hn I B I1 O1 R1 C1 Hres.
  assert (Pk : p `prefix_of` key_nibbles k) by (by eapply prefix_app_l).
  pose proof (U_many_len _ _ Hm) as L64.
  assert (B1 : Base0 c1) by (by eapply gbase_rest).
  assert (Ne' : U p M' <> ∅).
  { unfold M'. destruct vh as [h|]; cbn [apply_vh].
    - rewrite U_insert_in by done. apply insert_non_empty.
    - rewrite U_delete. apply size_ne. pose proof (size_delete_ge (U p M) k). lia. }
  assert (Vp : ver' p = v) by (by apply upd_prefix).
  assert (Vn : ver' (p ++ [n]) = v) by (by apply upd_prefix).
  assert (NWp : nw' p = true) by (by apply upd_prefix).
  assert (NWn : nw' (p ++ [n]) = true) by (by apply upd_prefix).
  (* the new children *)
  assert (Ech : (match res with
           | Updated _ nd =>
               h ← node_hash H nd;
               t ← node_node_type nd;
               Ok (<[ n := Child h v t ]> (children_of H M ver p))
           | _ => Ok (delete n (children_of H M ver p))
           end) = Ok (children_of H M' ver' p)).
  { destruct Hres as [[Z ->]|[Ne1 ->]].
    - f_equal. apply children_ext. intros m. rewrite children_of_lookup. destruct (decide (m = n)) as [->|Hne].
      + rewrite lookup_delete. symmetry. by apply child_of_none.
      + rewrite lookup_delete_ne by done. rewrite children_of_lookup. symmetry. by apply (child_of_upd M ver k vh p n m).
    - rewrite node_hash_canon, bind_Ok. destruct (node_type_canon M' ver' p n Ne1) as (t & -> & Et). rewrite bind_Ok.
      f_equal. apply children_ext. intros m. rewrite children_of_lookup. destruct (decide (m = n)) as [->|Hne].
      + rewrite lookup_insert, Et. by rewrite Vn.
      + rewrite lookup_insert_ne by done. rewrite children_of_lookup. symmetry. by apply (child_of_upd M ver k vh p n m). }
  assert (Eit : forall wp pf, itail (ver p, p) (mkInternal (children_of H M ver p) (size (U p M))) n res wp pf c1 =
     (c ← cache_delete_node c1 (ver p, p) false;
      match children_iter (children_of H M' ver' p) with
      | [] => Ok (Removed, pf, c)
      | (cn, ci) :: more =>
          if (match more with [] => true | _ => false end) && c_is_leaf ci then
            let child_key := gen_child (ver p, p) (c_version ci) cn in
            child_node ← cache_get_node rd c child_key;
            c ← cache_delete_node c child_key true;
            let nk' := nk_set_version (ver p, p) v in
            c ← cache_put_node c nk' child_node;
            Ok (Updated nk' child_node, pf, c)
          else
            i' ← internal_new (children_of H M' ver' p);
            let nk' := nk_set_version (ver p, p) v in
            c ← cache_put_node c nk' (Internal i');
            Ok (Updated nk' (Internal i'), pf, c)
      end)).
  { intros wp pf. unfold itail. cbn [in_children]. destruct Hres as [[Z ->]|[Ne1 ->]]; cbv beta iota in Ech |- *; rewrite Ech, bind_Ok; done. }
  clear Ech Hres.
  (* the old node at p *)
  assert (Op : forall w, tc_nodes c1 !! (w, p) = tc_nodes c !! (w, p) /\ ((w, p) ∈ tc_stale c1 <-> (w, p) ∈ tc_stale c)).
  { intros w. apply O1. apply prefix_snoc_self. }
  assert (Lpp : lv p p M) by (apply lv_self; by apply U_many_ne).
  assert (Lf : node_is_leaf (node_at H M ver p) = false) by (by rewrite node_at_internal).
  assert (Zp : tc_nodes c1 !! (ver p, p) = None <-> nw p = false).
  { rewrite (proj1 (Op _)). by apply (ginv_nodes H v T0 p M ver nw c p I). }
  destruct (delete_ok rd c1 (ver p, p) (node_at H M ver p)) as (c2 & D1 & D2 & D3 & D4 & D5); [| |done|].
  { destruct (nw p) eqn:Ev.
    - apply cache_node_in. rewrite (proj1 (Op _)). destruct I as (J1 & _ & _ & J4). apply J1; [done|]. auto.
    - rewrite cache_node_out by (by apply Zp). apply B1. by apply I. }
  { intros E. rewrite (proj2 (Op _)). eapply ginv_not_stale; [done|done|]. by apply Zp. }
  rewrite Lf in D1. setoid_rewrite Zp in D3.
  assert (NK2 : forall w, tc_nodes c2 !! (w, p) = None).
  { intros w. rewrite D2. apply lookup_delete_None. destruct (decide (w = ver p)) as [->|]; [by left|right].
    rewrite (proj1 (Op _)). eapply ginv_nodes_none; [done|done|]. intros (-> & L & E). destruct I as (_ & _ & _ & J4). specialize (J4 p L E). congruence. }
  (* the other children *)
  assert (Oth : forall q m r, q = p ++ m :: r -> m <> n -> U q M' = U q M /\ (ver' q = (if decide (2 <= size (U (parent q) M)) then ver q else v) /\ nw' q = (if decide (2 <= size (U (parent q) M)) then nw q else true)) /\
     (2 <= size (U p M') -> (lv p q M' <-> lv p q M)) /\
     (forall w, tc_nodes c1 !! (w, q) = tc_nodes c !! (w, q) /\ ((w, q) ∈ tc_stale c1 <-> (w, q) ∈ tc_stale c))).
  { intros q m r -> Hne. assert (Np : ~ (p ++ m :: r) `prefix_of` key_nibbles k) by (by eapply not_prefix_other).
    assert (EUq : U (p ++ m :: r) M' = U (p ++ m :: r) M) by (by apply U_apply_out).
    split; [done|]. split; [unfold ver', nw', upd; by rewrite !(decide_False (P:=(p ++ m :: r) `prefix_of` _))|]. split.
    - intros Hm'. unfold lv. rewrite EUq.
      assert (Epar : 2 <= size (U (parent (p ++ m :: r)) M') <-> 2 <= size (U (parent (p ++ m :: r)) M)).
      { rewrite parent_app by done. destruct r as [|x r].
        - change (parent [m]) with (@nil nibble). rewrite app_nil_r. done.
        - change (parent (m :: x :: r)) with (parent ([m] ++ x :: r)). rewrite parent_app by done. cbn [app].
          unfold M'. by rewrite U_apply_out by (by eapply not_prefix_other). }
      rewrite Epar. done.
    - intros w. apply O1. intros E. apply prefix_snoc_cons in E. congruence. }
  assert (OthN : forall q m r, q = p ++ m :: r -> m <> n -> lv p q M -> ver' q = ver q /\ node_at H M' ver' q = node_at H M ver q /\ nw' q = nw q).
  { intros q m r Eq Hne (_ & _ & Hl). destruct (Oth q m r Eq Hne) as (EU & [Ev Enw] & _ & _).
    assert (Hpar : 2 <= size (U (parent q) M)).
    { destruct Hl as [E|E]; [|done]. exfalso. subst q. rewrite <- (app_nil_r p) in E at 2. by apply app_inv_head in E. }
    split; [rewrite Ev; by rewrite decide_True|]. split; [|rewrite Enw; by rewrite decide_True]. apply node_at_ext; [done|]. intros Hmq x Hx. subst q.
    destruct (Oth (p ++ m :: r ++ [x]) m (r ++ [x]) eq_refl Hne) as (EU2 & [Ev2 _] & _ & _).
    rewrite <- app_assoc. cbn [app]. rewrite Ev2. rewrite decide_True; [done|].
    replace (p ++ m :: r ++ [x]) with ((p ++ m :: r) ++ [x]) by (by rewrite <- app_assoc). rewrite parent_snoc. by rewrite <- EU. }
  assert (Sp : nw p = false -> is_Some (T0 (ver p, p))).
  { intros E. destruct I as (_ & _ & I3 & _). rewrite I3 by done. eauto. }
  (* stale keys at p *)
  assert (St2 : forall w, (w, p) ∈ tc_stale c2 <-> is_Some (T0 (w, p))).
  { intros w. rewrite D3, (proj2 (Op w)). destruct I as (_ & I2 & _). rewrite I2 by done. split.
    - intros [[? _]|[[= ->] ?]]; [done|by apply Sp].
    - intros E. destruct (decide (nw p = false /\ ver p = w)) as [[E1 <-]|Hw]; [by right|left]. split; [done|]. intros (_ & E1 & E2). by apply Hw. }
  destruct (decide (2 <= size (U p M'))) as [Hm'|Hm'].
  - (* still an internal node *)
    destruct (iter_many H M' ver' p Hm') as (cn & ci & more & Ei & El).
    destruct (put_ok rd c2 (v, p) (node_at H M' ver' p)) as (c3 & F1 & F2 & F3 & F4 & F5); [by apply NK2|done|].
    exists c3. split.
    { intros wp pf. rewrite Eit, D1, bind_Ok, Ei, El, internal_new_canon by done. rewrite bind_Ok. cbn zeta.
      unfold nk_set_version. cbn [snd]. rewrite <- node_at_internal by done. rewrite F1, bind_Ok. done. }
    split; [done|]. split; [|split; [|split; [congruence|done]]].
    + split_and!.
      * intros w q nd Hq. rewrite F2, lookup_insert_Some. destruct (path_cases p q Hq) as [->|(m & r & ->)].
        -- rewrite NK2. split; [intros [[[= <-] <-]|[_ ?]]; [|done]|]; [split_and!; [done|by apply lv_self|done|done]|].
           intros (-> & _ & _ & ->). by left.
        -- assert (Hpq : p ++ m :: r <> p) by (intros E; rewrite <- (app_nil_r p) in E at 2; by apply app_inv_head in E).
           assert (E2 : tc_nodes c2 !! (w, p ++ m :: r) = tc_nodes c1 !! (w, p ++ m :: r)) by (rewrite D2, lookup_delete_ne by congruence; done).
           rewrite E2. destruct (decide (m = n)) as [->|Hne].
           ++ destruct I1 as (I1 & _). rewrite I1 by apply prefix_snoc_in.
              rewrite (lv_child p n (p ++ n :: r) M' Hm' (prefix_snoc_in _ _ _)).
              split; [intros [[[= <- E] _]|[_ E]]; [done|exact E]|]. intros E. right. split; [congruence|exact E].
           ++ destruct (Oth _ m r eq_refl Hne) as (EU & Ev & Lq & Oq). rewrite (proj1 (Oq w)). rewrite (Lq Hm').
              destruct I as (I0 & _). rewrite I0 by done. 
              assert (forall P : Prop, lv p (p ++ m :: r) M -> (ver' (p ++ m :: r) = ver (p ++ m :: r) /\ node_at H M' ver' (p ++ m :: r) = node_at H M ver (p ++ m :: r) /\ nw' (p ++ m :: r) = nw (p ++ m :: r) -> P) -> P) as G.
              { intros P Hl HP. apply HP. by apply (OthN _ m r). }
              split.
              ** intros [[[= <- E] _]|(_ & -> & Hl & E & ->)]; [done|]. apply (G _ Hl). intros (_ & -> & ->). done.
              ** intros (-> & Hl & E & ->). right. split; [congruence|]. apply (G _ Hl). intros (_ & E3 & E4). rewrite E4 in E. rewrite E3. done.
      * intros w q Hq. rewrite F3. destruct (path_cases p q Hq) as [->|(m & r & ->)].
        -- rewrite St2. split; [|by intros [? _]]. intros E. split; [done|]. intros (_ & E2 & _). congruence.
        -- assert (Hpq : p ++ m :: r <> p) by (intros E; rewrite <- (app_nil_r p) in E at 2; by apply app_inv_head in E).
           assert (E2 : (w, p ++ m :: r) ∈ tc_stale c2 <-> (w, p ++ m :: r) ∈ tc_stale c1) .
           { rewrite D3. split; [intros [E|[[= _ E] _]]; [exact E|done]|by left]. }
           rewrite E2. destruct (decide (m = n)) as [->|Hne].
           ++ destruct I1 as (_ & I1 & _). rewrite I1 by apply prefix_snoc_in.
              by rewrite (lv_child p n (p ++ n :: r) M' Hm' (prefix_snoc_in _ _ _)).
           ++ destruct (Oth _ m r eq_refl Hne) as (EU & Ev & Lq & Oq). rewrite (proj2 (Oq w)). rewrite (Lq Hm').
              destruct I as (_ & I0 & _). rewrite I0 by done. apply and_iff_compat_l, not_iff_compat.
              split; intros (Hl & E & E'); (split; [done|]); destruct (OthN _ m r eq_refl Hne Hl) as (E1 & _ & E4); split; congruence.
      * intros q Hl Hv. pose proof Hl as (Hq & _). destruct (path_cases p q Hq) as [->|(m & r & ->)]; [congruence|].
        destruct (decide (m = n)) as [->|Hne].
        -- apply I1; [|done]. apply (lv_child p n (p ++ n :: r) M' Hm' (prefix_snoc_in _ _ _)). done.
        -- destruct (Oth _ m r eq_refl Hne) as (EU & Ev & Lq & Oq). apply (Lq Hm') in Hl.
           destruct (OthN _ m r eq_refl Hne Hl) as (E1 & E3 & E4). rewrite E3, E1. rewrite E4 in Hv. by apply I.
      * intros q Hl Hv. pose proof Hl as (Hq & _). destruct (path_cases p q Hq) as [->|(m & r & ->)]; [done|].
        destruct (decide (m = n)) as [->|Hne].
        -- apply I1; [|done]. apply (lv_child p n (p ++ n :: r) M' Hm' (prefix_snoc_in _ _ _)). done.
        -- destruct (Oth _ m r eq_refl Hne) as (EU & Ev & Lq & Oq). apply (Lq Hm') in Hl.
           destruct (OthN _ m r eq_refl Hne Hl) as (E1 & E3 & E4). rewrite E1. rewrite E4 in Hv. by apply I.
    + intros w q Hq. assert (q <> p) by (intros ->; by apply Hq).
      assert (~ (p ++ [n]) `prefix_of` q) as Hq2 by (intros E; apply Hq; by eapply prefix_app_l).
      destruct (O1 w q Hq2) as [O1a O1b]. rewrite F2, D2, lookup_insert_ne, lookup_delete_ne by congruence. split; [done|].
      rewrite F3, D3, O1b. split; [intros [E|[[= _ E] _]]; [exact E|done]|by left].
  - (* one entry left: the leaf moves up *)
    assert (S1 : size (U p M') = 1) by (apply size_ne in Ne'; lia).
    destruct (iter_one H M' ver' p L64 S1) as (cn & ci & Ei & El & Ev & EUc).
    destruct (size_one_inv _ S1) as (k1 & h1 & E1).
    assert (NodeP : node_at H M' ver' p = Leaf (LeafNode k1 h1)) by (by apply node_at_leaf).
    assert (NodeC : node_at H M' ver' (p ++ [cn]) = Leaf (LeafNode k1 h1)) by (apply node_at_leaf; congruence).
    assert (NeC : U (p ++ [cn]) M' <> ∅) by congruence.
    assert (Hpc : p ++ [cn] <> p) by (intros E; rewrite <- (app_nil_r p) in E at 2; by apply app_inv_head in E).
    assert (OnlyC : forall m, m <> cn -> U (p ++ [m]) M' = ∅).
    { intros m Hne. destruct (decide (U (p ++ [m]) M' = ∅)) as [|Ne2]; [done|]. exfalso. apply Hne.
      apply (U_disjoint_nib M' p); [done|]. rewrite EUc. apply U_app_sub. }
    (* the remaining leaf below p in c1 *)
    assert (Lc : forall q, p `prefix_of` q -> q <> p -> forall w nd, tc_nodes c1 !! (w, q) = Some nd <-> w = v /\ q = p ++ [cn] /\ nw' (p ++ [cn]) = true /\ nd = Leaf (LeafNode k1 h1)).
    { intros q Hq Hqp w nd. destruct (path_cases p q Hq) as [->|(m & r & ->)]; [done|]. destruct (decide (m = n)) as [->|Hne].
      - destruct I1 as (I1 & _). rewrite I1 by apply prefix_snoc_in. 
        assert (size (U (p ++ [n]) M') <= 1) as Sn by (pose proof (U_app_size p [n] M'); lia).
        rewrite lv_small by done. split.
        + intros (-> & [E Ne2] & E2 & ->). assert (n = cn) as -> by (destruct (decide (n = cn)); [done|]; exfalso; by apply Ne2, OnlyC).
          rewrite E in *. done.
        + intros (-> & E & E2 & ->). apply app_inv_head in E. injection E as -> ->. done.
      - destruct (Oth _ m r eq_refl Hne) as (EU & Ev2 & _ & Oq). rewrite (proj1 (Oq w)). destruct I as (I0 & _). rewrite I0 by done.
        assert (Lq : lv p (p ++ m :: r) M <-> m = cn /\ r = []).
        { split.
          - intros (_ & Ne2 & Hl). rewrite <- EU in Ne2.
            assert (m = cn) as ->.
            { destruct (decide (m = cn)) as [|Hne2]; [done|]. exfalso. apply Ne2.
              pose proof (OnlyC m Hne2) as Z. pose proof (U_app_size (p ++ [m]) r M') as Sz. rewrite Z, map_size_empty in Sz.
              apply map_size_empty_iff. rewrite <- app_assoc in Sz. cbn [app] in Sz. lia. }
            split; [done|]. destruct r as [|x r]; [done|]. exfalso. destruct Hl as [Hl|Hl]; [done|].
            replace (p ++ cn :: x :: r) with ((p ++ [cn]) ++ x :: r) in Hl by (by rewrite <- app_assoc).
            rewrite parent_app in Hl by done.
            assert (E2 : U ((p ++ [cn]) ++ parent (x :: r)) M' = U ((p ++ [cn]) ++ parent (x :: r)) M).
            { unfold M'. apply U_apply_out. rewrite <- app_assoc. by eapply not_prefix_other. }
            rewrite <- E2 in Hl. pose proof (U_app_size (p ++ [cn]) (parent (x :: r)) M') as Sz. rewrite EUc in Sz. lia.
          - intros [-> ->]. split; [done|]. split; [by rewrite <- EU|]. right. by rewrite parent_snoc. }
        split.
        + intros (-> & Hl & E2 & ->). destruct (OthN _ m r eq_refl Hne Hl) as (_ & E4 & E3). apply Lq in Hl as [-> ->]. rewrite <- E4, NodeC, E3. done.
        + intros (-> & E & E2 & ->). apply app_inv_head in E. injection E as -> ->. 
          assert (Hl : lv p (p ++ [cn]) M) by (by apply Lq). destruct (OthN _ cn [] eq_refl Hne Hl) as (_ & E4 & E3). rewrite <- E4, NodeC. split_and!; [done|done|congruence|done]. }
    assert (Sc : forall q, p `prefix_of` q -> q <> p -> forall w, (w, q) ∈ tc_stale c1 <-> is_Some (T0 (w, q)) /\ ~ (q = p ++ [cn] /\ nw' (p ++ [cn]) = false /\ ver' (p ++ [cn]) = w)).
    { intros q Hq Hqp w. destruct (path_cases p q Hq) as [->|(m & r & ->)]; [done|]. destruct (decide (m = n)) as [->|Hne].
      - destruct I1 as (_ & I1 & _). rewrite I1 by apply prefix_snoc_in.
        assert (size (U (p ++ [n]) M') <= 1) as Sn by (pose proof (U_app_size p [n] M'); lia).
        rewrite lv_small by done. apply and_iff_compat_l, not_iff_compat. split.
        + intros ([E Ne2] & E' & <-). assert (n = cn) as -> by (destruct (decide (n = cn)); [done|]; exfalso; by apply Ne2, OnlyC).
          rewrite E in *. done.
        + intros (E & E' & <-). apply app_inv_head in E. injection E as -> ->. done.
      - destruct (Oth _ m r eq_refl Hne) as (EU & Ev2 & _ & Oq). rewrite (proj2 (Oq w)). destruct I as (_ & I0 & _). rewrite I0 by done.
        apply and_iff_compat_l, not_iff_compat. split.
        + intros (Hl & E' & <-). destruct (OthN _ m r eq_refl Hne Hl) as (E3 & E4 & E5). rewrite <- E5 in E'. destruct Hl as (_ & Ne2 & Hl). rewrite <- EU in Ne2.
          assert (m = cn) as ->.
          { destruct (decide (m = cn)) as [|Hne2]; [done|]. exfalso. apply Ne2.
            pose proof (OnlyC m Hne2) as Z. pose proof (U_app_size (p ++ [m]) r M') as Sz. rewrite Z, map_size_empty in Sz.
            apply map_size_empty_iff. rewrite <- app_assoc in Sz. cbn [app] in Sz. lia. }
          destruct r as [|x r]; [done|]. exfalso. destruct Hl as [Hl|Hl]; [done|].
          replace (p ++ cn :: x :: r) with ((p ++ [cn]) ++ x :: r) in Hl by (by rewrite <- app_assoc).
          rewrite parent_app in Hl by done.
          assert (E2 : U ((p ++ [cn]) ++ parent (x :: r)) M' = U ((p ++ [cn]) ++ parent (x :: r)) M).
          { unfold M'. apply U_apply_out. rewrite <- app_assoc. by eapply not_prefix_other. }
          rewrite <- E2 in Hl. pose proof (U_app_size (p ++ [cn]) (parent (x :: r)) M') as Sz. rewrite EUc in Sz. lia.
        + intros (E & E' & E2). apply app_inv_head in E. injection E as -> ->.
          assert (Hl : lv p (p ++ [cn]) M).
          { split; [by eexists|]. split; [by rewrite <- EU|]. right. by rewrite parent_snoc. }
          split; [done|]. destruct (OthN _ cn [] eq_refl Hne Hl) as (E3 & E4 & E5). split; congruence. }
    assert (LcN : nw' (p ++ [cn]) = false -> tc_nodes c1 !! (ver' (p ++ [cn]), p ++ [cn]) = None).
    { intros E. destruct (tc_nodes c1 !! (ver' (p ++ [cn]), p ++ [cn])) as [nd|] eqn:E2; [|done]. apply Lc in E2; [|by eexists|done].
      destruct E2 as (_ & _ & E2 & _). congruence. }
    assert (VcN : nw' (p ++ [cn]) = true -> ver' (p ++ [cn]) = v).
    { intros E. destruct (decide (cn = n)) as [->|Hne]; [done|].
      destruct (Oth _ cn [] eq_refl Hne) as (EU & _ & _ & _).
      assert (Hl : lv p (p ++ [cn]) M).
      { split; [by eexists|]. split; [by rewrite <- EU|]. right. by rewrite parent_snoc. }
      destruct (OthN _ cn [] eq_refl Hne Hl) as (E3 & _ & E5). rewrite E3. rewrite E5 in E. by apply I. }
    assert (Rc : cache_node rd c1 (ver' (p ++ [cn]), p ++ [cn]) = Some (Leaf (LeafNode k1 h1))).
    { destruct (nw' (p ++ [cn])) eqn:E.
      - apply cache_node_in. apply Lc; [by eexists|done|]. rewrite VcN by done. done.
      - rewrite cache_node_out by (by apply LcN).
        apply B1. destruct (decide (cn = n)) as [->|Hne].
        + rewrite <- NodeC. destruct I1 as (_ & _ & I3 & _). apply I3; [by apply lv_self|done].
        + destruct (Oth _ cn [] eq_refl Hne) as (EU & Ev2 & _ & Oq).
          assert (Hl : lv p (p ++ [cn]) M).
          { split; [by eexists|]. split; [by rewrite <- EU|]. right. by rewrite parent_snoc. }
          destruct (OthN _ cn [] eq_refl Hne Hl) as (E3 & E4 & E5). rewrite <- NodeC. rewrite E4, E3. rewrite E5 in E. by apply I. }
    assert (Rc2 : cache_node rd c2 (ver' (p ++ [cn]), p ++ [cn]) = Some (Leaf (LeafNode k1 h1))).
    { rewrite <- Rc. unfold cache_node. rewrite D2, lookup_delete_ne by congruence. 
      assert (fz_nodes c2 = fz_nodes c1) as -> by (unfold rest in D4; by injection D4). done. }
    assert (Zc : tc_nodes c2 !! (ver' (p ++ [cn]), p ++ [cn]) = None <-> nw' (p ++ [cn]) = false).
    { rewrite D2, lookup_delete_ne by congruence. split.
      - intros Z. destruct (nw' (p ++ [cn])) eqn:E; [|done]. assert (tc_nodes c1 !! (ver' (p ++ [cn]), p ++ [cn]) = Some (Leaf (LeafNode k1 h1))) as Z2; [|congruence].
        apply Lc; [by eexists|done|]. rewrite VcN by done. done.
      - apply LcN. }
    destruct (delete_ok rd c2 (ver' (p ++ [cn]), p ++ [cn]) (Leaf (LeafNode k1 h1))) as (c3 & F1 & F2 & F3 & F4 & F5); [done| |done|].
    { intros E0%Zc. rewrite D3. intros [E|[E _]]; [|congruence]. apply Sc in E; [|by eexists|done]. destruct E as [_ E]. by apply E. }
    setoid_rewrite Zc in F3. cbn [node_is_leaf] in F1.
    destruct (put_ok rd c3 (v, p) (Leaf (LeafNode k1 h1))) as (c4 & G1 & G2 & G3 & G4 & G5); [|done|].
    { rewrite F2, lookup_delete_ne by congruence. apply NK2. }
    assert (Lv' : forall q, lv p q M' <-> q = p).
    { intros q. rewrite lv_small by lia. naive_solver. }
    assert (Tc : nw' (p ++ [cn]) = false -> is_Some (T0 (ver' (p ++ [cn]), p ++ [cn]))).
    { intros E. destruct (decide (cn = n)) as [->|Hne].
      - destruct I1 as (_ & _ & I3 & _). rewrite I3; [eauto|by apply lv_self|done].
      - destruct (Oth _ cn [] eq_refl Hne) as (EU & Ev2 & _ & Oq).
        assert (Hl : lv p (p ++ [cn]) M).
        { split; [by eexists|]. split; [by rewrite <- EU|]. right. by rewrite parent_snoc. }
        destruct (OthN _ cn [] eq_refl Hne Hl) as (E3 & E4 & E5). rewrite E3. rewrite E5 in E. destruct I as (_ & _ & I3 & _). rewrite I3; eauto. }
    exists c4. split.
    { intros wp pf. rewrite Eit, D1, bind_Ok, Ei, El. cbn [andb]. cbn zeta. unfold gen_child, nk_set_version. cbn [snd].
      rewrite Ev. unfold cache_get_node. rewrite Rc2. cbn [ok_or]. rewrite bind_Ok, F1, bind_Ok, G1, bind_Ok, NodeP. done. }
    split; [done|]. split; [|split; [|split; [congruence|done]]].
    + split_and!.
      * intros w q nd Hq. rewrite Lv', G2, lookup_insert_Some, F2, lookup_delete_Some. split.
        -- intros [[[= <- <-] <-]|(N1 & N2 & E)]; [by rewrite NodeP|]. exfalso.
           destruct (decide (q = p)) as [->|Hqp]; [by rewrite NK2 in E|].
           rewrite D2, lookup_delete_Some in E. destruct E as [_ E]. apply Lc in E as (-> & -> & E & _); [|done|done]. apply VcN in E. congruence.
        -- intros (-> & -> & _ & ->). left. by rewrite NodeP.
      * intros w q Hq. rewrite Lv', G3, F3. destruct (decide (q = p)) as [->|Hqp].
        -- rewrite St2. split.
           ++ intros [E|[E _]]; [|congruence]. split; [done|]. intros (_ & E2 & _). congruence.
           ++ intros [E _]. by left.
        -- rewrite D3, Sc by done. split.
           ++ intros [[[E1' E2']|[[= -> ->] _]]|[[= -> ->] E]]; [split; [done|]; intros (E & _); done|done|]. split; [by apply Tc|]. intros (E' & _). done.
           ++ intros [E _]. destruct (decide (q = p ++ [cn] /\ nw' (p ++ [cn]) = false /\ ver' (p ++ [cn]) = w)) as [(-> & E0 & <-)|Hn2]; [right; done|left; left; done].
      * intros q ->%Lv' E. congruence.
      * intros q ->%Lv' E. done.
    + intros w q Hq. assert (q <> p) by (intros ->; by apply Hq).
      assert (q <> p ++ [cn]) by (intros ->; apply Hq; by eexists).
      assert (~ (p ++ [n]) `prefix_of` q) as Hq2 by (intros E; apply Hq; by eapply prefix_app_l).
      destruct (O1 w q Hq2) as [O1a O1b]. rewrite G2, F2, D2, lookup_insert_ne, !lookup_delete_ne by congruence. split; [done|].
      rewrite G3, F3, D3, O1b. split; [intros [[E|[[= _ E] _]]|[[= _ E] _]]; [exact E|done|done]|intros E; left; by left].
Qed.
End ins.
