(** insert_at at an internal node, and in general. *)
From Verif Require Import Base Spec NodeType ProofDef TreeCache Tree KeyFacts SmtFacts ProofFacts NodeFacts Canon CanonSib ReadFacts PutFacts InsertFacts InsertInt.
From Coq Require Import Lia.
Local Opaque Spec.smt.

Section ins.
Context (H : list byte -> bytes32) (rd : reader) (v : version) (T0 : nodekey -> option node).
Implicit Types (M : gmap key vhash) (ver : list nibble -> version) (nw : list nibble -> bool) (p q : list nibble).
Notation Inv := (GInv H v T0).
Notation Base0 := (GBase rd T0).
Notation post := (post H rd v T0).

Lemma hleaf_under M k n n' : under (kpre n k) M = under (kpre n' k) M -> hleaf M k n = hleaf M k n'.
Proof. unfold hleaf. by intros ->. Qed.
Lemma seq_split (f : nat -> smnode) a b d : a <= b -> b <= d ->
  map f (seq a (d - a)) = map f (seq a (b - a)) ++ map f (seq b (d - b)).
Proof. intros L1 L2. rewrite <- map_app. f_equal. replace (d - a) with ((b - a) + (d - b)) by lia. rewrite seq_app. do 2 f_equal. lia. Qed.

Lemma ginsert_at_canon M ver nw k vh : forall rem p c, key_nibbles k = p ++ rem -> U p M <> ∅ -> Inv p M ver nw c -> Base0 c -> cnt_ok rd c ->
  post M ver nw k vh p c (insert_at H rd rem p (ver p, p) v vh c).
Proof.
  induction rem as [|n rem IH]; intros p c Ek Ne I B C.
  all: assert (Rd : cache_node rd c (ver p, p) = Some (node_at H M ver p)) by (apply (ginv_read H rd v T0 p _ _ nw); [done|done|by apply lv_self]).
  all: destruct (size_cases (U p M)) as [E|[(k0 & h0 & E)|Hm]]; [done| |].
  - assert (G : forall wp, insert_at H rd [] p (ver p, p) v vh c wp = insert_at_leaf_node H (ver p, p) (LeafNode k0 h0) v p [] vh c wp).
    { intros wp. cbn [insert_at]. rewrite Rd, (node_at_leaf H _ _ _ k0 h0) by done. done. }
    destruct (insert_leaf H rd v T0 M ver nw k vh [] p c k0 h0 Ek E I B C) as (res & pf & c' & F & R).
    exists res, pf, c'. split; [|done]. intros wp. by rewrite G.
  - exfalso. apply U_many_len in Hm. apply (f_equal length) in Ek. rewrite key_nibbles_length, app_length in Ek. simpl in Ek. lia.
  - assert (G : forall wp, insert_at H rd (n :: rem) p (ver p, p) v vh c wp = insert_at_leaf_node H (ver p, p) (LeafNode k0 h0) v p (n :: rem) vh c wp).
    { intros wp. cbn [insert_at]. rewrite Rd, (node_at_leaf H _ _ _ k0 h0) by done. done. }
    destruct (insert_leaf H rd v T0 M ver nw k vh (n :: rem) p c k0 h0 Ek E I B C) as (res & pf & c' & F & R).
    exists res, pf, c'. split; [|done]. intros wp. by rewrite G.
  - set (i := mkInternal (children_of H M ver p) (size (U p M))).
    pose proof (U_many_len _ _ Hm) as Lp.
    assert (Ek' : key_nibbles k = (p ++ [n]) ++ rem) by (by rewrite <- app_assoc).
    assert (Kn : (p ++ [n]) `prefix_of` key_nibbles k) by (rewrite Ek'; by eexists).
    assert (Lpn : length (p ++ [n]) = S (length p)) by (rewrite app_length; simpl; lia).
    assert (Kd : kids_ok H (cache_node rd c) M ver p) by (by apply (ginv_kids H rd v T0 _ _ _ nw)).
    assert (Kp : kpre (4 * length (p ++ [n])) k = bits (p ++ [n])) by (by apply kpre_bits).
    assert (Kp0 : kpre (4 * length p) k = bits p) by (apply kpre_bits; by eapply prefix_app_l).
    assert (G : forall wp, insert_at H rd (n :: rem) p (ver p, p) v vh c wp =
      insert_at_internal_node H rd (ver p, p) i v n (key_nibbles k) vh c wp (fun ck c => insert_at H rd rem (p ++ [n]) ck v vh c wp)).
    { intros wp. cbn [insert_at]. rewrite Rd, node_at_internal by done. by rewrite <- Ek. }
    destruct (decide (U (p ++ [n]) M = ∅)) as [Z|Nn].
    + (* no child *)
      assert (Mk : M !! k = None).
      { destruct (M !! k) as [h|] eqn:Mk; [|done]. assert (U (p ++ [n]) M !! k = Some h) as Y by (by apply U_lookup).
        by rewrite Z in Y. }
      assert (Ic : in_child i n = None).
      { unfold in_child, i. cbn [in_children]. rewrite children_of_lookup. by apply child_of_none. }
      destruct (child_with_siblings_canon H (cache_node rd c) M ver (ver p) p (size (U p M)) n k true Hm Kn Kd) as (d & ck & Hd & SR & Esib); [done|].
      fold i in Esib. destruct SR as (Hd4 & Hdm & SR).
      assert (Ghost : size (under (kpre d k) M) <= 1 /\ (lf ← match ck with
                  | None => Ok None
                  | Some ck =>
                      nd ← unwrap (cache_node rd c ck);
                      match nd with
                      | Leaf l => Ok (Some l)
                      | _ => Panic
                      end
                  end; Ok (Some (SMProof lf (rev (map (hsib H M k) (seq (4 * length p) (d - 4 * length p))))))) =
         Ok (Some (SMProof (hleaf M k d) (rev (map (hsib H M k) (seq (4 * length p) (d - 4 * length p))))))).
      { destruct SR as [[Z2 ->]|[(m & S1 & Eu & -> & _)|(_ & S2 & _)]].
        - rewrite Z2, map_size_empty. split; [lia|]. rewrite bind_Ok. by rewrite hleaf_empty.
        - split; [lia|]. assert (Nm : U (p ++ [m]) M <> ∅) by (apply size_ne; rewrite Eu; lia).
          rewrite (Kd m Nm). cbn [unwrap]. rewrite bind_Ok. destruct (size_one_inv _ S1) as (k1 & h1 & E1).
          rewrite (node_at_leaf H _ _ _ k1 h1) by congruence. rewrite bind_Ok. by rewrite (hleaf_single _ _ _ k1 h1).
        - rewrite Z, map_size_empty in S2. lia. }
      destruct Ghost as [Sd Epf].
      assert (Epf' : forall wp, (if wp : bool then
             '(ck, sibs) ← get_only_child_with_siblings H (cache_node rd c) (ver p, p) i n;
             lf ← match ck with
                  | None => Ok None
                  | Some ck =>
                      nd ← unwrap (cache_node rd c ck);
                      match nd with
                      | Leaf l => Ok (Some l)
                      | _ => Panic
                      end
                  end;
             Ok (Some (SMProof lf (rev sibs)))
           else Ok None) = Ok (with_pf wp (SMProof (hleaf M k d) (rev (map (hsib H M k) (seq (4 * length p) (d - 4 * length p))))))).
      { intros []; [|done]. unfold get_only_child_with_siblings. rewrite Esib, bind_Ok. exact Epf. }
      destruct vh as [h|].
      * assert (Nk : tc_nodes c !! (v, p ++ [n]) = None).
        { eapply ginv_nodes_none; [exact I|by eexists|]. intros (_ & (_ & Y & _) & _). done. }
        destruct (create_ok rd (v, p ++ [n]) k h c Nk C) as (c1 & F1 & F2 & F3 & F4 & F5).
        assert (EU' : U (p ++ [n]) (apply_vh M k (Some h)) = {[ k := h ]}).
        { cbn [apply_vh]. rewrite U_insert_in by done. rewrite Z. done. }
        assert (Vn : upd v k M ver (p ++ [n]) = v) by (by apply upd_prefix).
        assert (Nd : node_at H (apply_vh M k (Some h)) (upd v k M ver) (p ++ [n]) = Leaf (LeafNode k h)) by (by apply node_at_leaf).
        assert (NWn : upd true k M nw (p ++ [n]) = true) by (by apply upd_prefix).
        pose proof (ginv_sub H v T0 p n M ver nw c Hm I) as (J1 & J2 & J3 & J4).
        assert (Lv0 : forall q, (p ++ [n]) `prefix_of` q -> ~ lv (p ++ [n]) q M).
        { intros q Hq. rewrite lv_small by (rewrite Z, map_size_empty; lia). intros [_ Y]. done. }
        assert (Lv1 : forall q, lv (p ++ [n]) q (apply_vh M k (Some h)) <-> q = p ++ [n]).
        { intros q. rewrite lv_small by (rewrite EU', map_size_singleton; lia). split; [by intros [? _]|].
          intros ->. split; [done|]. rewrite EU'. apply single_ne. }
        destruct (tail_ok H rd v T0 M ver nw k (Some h) p n c c1 (Updated (v, p ++ [n]) (Leaf (LeafNode k h)))) as (c' & T1 & T2 & T3 & T4 & T5 & T6);
          [done|done|done|done| | |done|done| |].
        { split_and!.
          - intros w q nd Hq. rewrite F2, lookup_insert_Some, Lv1. split.
            + intros [[[= <- <-] <-]|[_ Y]]; [by rewrite Nd|]. apply J1 in Y as (_ & Y & _); [|done]. exfalso. by eapply Lv0.
            + intros (-> & -> & _ & ->). left. by rewrite Nd.
          - intros w q Hq. rewrite F3, J2, Lv1 by done. split.
            + intros [Y1 _]. split; [done|]. intros (-> & Y & _). congruence.
            + intros [Y1 _]. split; [done|]. intros [Y _]. by eapply Lv0.
          - intros q ->%Lv1. congruence.
          - intros q ->%Lv1. done. }
        { intros w q Hq. rewrite F2, F3. rewrite lookup_insert_ne; [done|]. intros [= _ Y]. apply Hq. by rewrite Y. }
        { right. rewrite Nd. split; [|done]. rewrite EU'. apply single_ne. }
        eexists (Updated (v, p) _), _, c'. split.
        { intros wp. rewrite G. unfold insert_at_internal_node. rewrite Ic, Epf', bind_Ok. unfold gen_child. cbn [snd].
          rewrite F1, !bind_Ok. cbv beta iota. apply (T1 wp (with_pf wp _)). }
        split; [intros [Y _]; done|]. intros _.
        split; [right; split; [done|reflexivity]|]. split; [done|]. split; [done|]. split; [done|]. split; [done|].
        exists d. split_and!; [lia|lia|done|done|done].
      * exists NotChanged, (SMProof None []), c. split.
        { intros wp. rewrite G. unfold insert_at_internal_node. rewrite Ic, Epf', !bind_Ok. done. }
        split; [done|]. intros Y. exfalso. by apply Y.
    + (* recursion into the child *)
      destruct (in_child_canon H M ver p (size (U p M)) n Nn) as (ci & Ic & Ev). fold i in Ic.
      destruct (IH (p ++ [n]) c Ek' Nn) as (res & pf & c1 & F & Pn & Pc); [by apply ginv_sub|done|done|].
      destruct (child_with_siblings_canon H (cache_node rd c) M ver (ver p) p (size (U p M)) n k false Hm Kn Kd) as (d & ck & Hd & SR & Esib); [done|].
      fold i in Esib. destruct SR as (Hd4 & Hdm & SR).
      assert (Sub : U (p ++ [n]) M ⊆ under (kpre d k) M).
      { unfold U. rewrite <- Kp, Lpn. apply under_kpre_le. lia. }
      assert (Eck : ck = Some (ver (p ++ [n]), p ++ [n]) /\ (size (U (p ++ [n]) M) = 1 /\ U (p ++ [n]) M = under (kpre d k) M \/ d = 4 * length p + 4 /\ 2 <= size (U (p ++ [n]) M))).
      { destruct SR as [[Z2 ->]|[(m & S1 & Eu & -> & Em)|(-> & S2 & ->)]].
        - exfalso. apply Nn. rewrite Z2 in Sub. apply map_empty. intros j. destruct (U (p ++ [n]) M !! j) as [h|] eqn:X; [|done]. by apply (lookup_weaken _ _ _ _ X) in Sub.
        - rewrite (Em Nn) in *. split; [done|]. left. split; [by rewrite Eu|done].
        - split; [done|]. by right. }
      destruct Eck as [-> Hd2]. clear SR.
      assert (Efirst : forall wp : bool, (if wp then
             '(ck, sibs) ← get_child_with_siblings H (cache_node rd c) (ver p, p) i n;
             ck ← unwrap ck;
             Ok (ck, sibs)
           else Ok (gen_child (ver p, p) (c_version ci) n, [])) =
           Ok ((ver (p ++ [n]), p ++ [n]), if wp then map (hsib H M k) (seq (4 * length p) (d - 4 * length p)) else [])).
      { intros []; [unfold get_child_with_siblings; rewrite Esib; done|]. unfold gen_child. cbn [snd]. by rewrite Ev. }
      set (pf' := SMProof (p_leaf pf) (p_siblings pf ++ rev (map (hsib H M k) (seq (4 * length p) (d - 4 * length p))))).
      assert (Etop : forall wp, insert_at H rd (n :: rem) p (ver p, p) v vh c wp = itail H rd v (ver p, p) i n res wp (with_pf wp pf') c1).
      { intros wp. rewrite G. unfold insert_at_internal_node. rewrite Ic, Efirst, bind_Ok. cbv beta iota. rewrite (F wp), !bind_Ok. cbv beta iota.
        destruct wp; reflexivity. }
      destruct (decide (vh = None)) as [Hv|Hv]; [destruct (decide (M !! k = None)) as [Hk|Hk]|].
      { destruct (Pn (conj Hv Hk)) as (-> & -> & ->). exists NotChanged, (SMProof None []), c. split; [intros wp; by rewrite Etop|].
        split; [done|]. intros Y. exfalso. by apply Y. }
      all: assert (Nnoop : ~ noop M k vh) by (intros [? ?]; done).
      all: destruct (Pc Nnoop) as (Pres & PI & PO & PR & PC & n' & Hn' & Epf & Sn & Hmany); clear Pc Pn.
      all: destruct (tail_ok H rd v T0 M ver nw k vh p n c c1 res) as (c' & T1 & T2 & T3 & T4 & T5 & T6); [done..|].
      all: exists (Updated (v, p) (node_at H (apply_vh M k vh) (upd v k M ver) p)), pf', c'.
      all: split; [intros wp; rewrite Etop; apply T1|].
      all: split; [intros ?; done|]; intros _.
      all: split; [right; done|]; split; [done|]; split; [done|]; split; [done|]; split; [done|].
      all: rewrite Lpn in Hn', Hmany, Epf.
      all: destruct Hd2 as [[S1 Eu]|[-> S2]].
      all: rewrite Lpn in Kp.
      all: match goal with
        | S1 : size _ = 1 |- _ => 
          assert (n' = 4 * S (length p)) as -> by
            (destruct (decide (n' = 4 * S (length p))) as [|X]; [done|]; exfalso;
             pose proof (Hmany (4 * S (length p)) ltac:(lia)) as Y; rewrite Kp in Y; fold (U (p ++ [n]) M) in Y; lia);
          exists d; split; [lia|]; split; [|split; [rewrite <- Eu; lia|done]];
          unfold pf'; rewrite Epf; rewrite Nat.sub_diag; cbn [p_leaf p_siblings seq map rev app];
          f_equal; apply hleaf_under; rewrite Kp; exact Eu
        | _ =>
          exists n'; split; [lia|]; split; [|split; [done|]];
          [unfold pf'; rewrite Epf; cbn [p_leaf p_siblings]; f_equal;
           rewrite <- rev_app_distr; f_equal; 
           rewrite (seq_split _ (4 * length p) (4 * length p + 4) n') by lia; 
           f_equal; do 2 f_equal; lia
          |intros j Hj; destruct (decide (j < 4 * length p + 4)); [apply Hdm; lia|apply Hmany; lia]]
        end.
Qed.

(** the special case used for a fresh version: no base node has version [v] *)
Lemma insert_at_canon M ver k vh rem p c : key_nibbles k = p ++ rem -> U p M <> ∅ -> PutFacts.Inv H v T0 p M ver c -> PutFacts.Base0 rd v T0 c -> cnt_ok rd c ->
  let M' := apply_vh M k vh in
  let ver' := upd v k M ver in
  exists res pf c', (forall wp, insert_at H rd rem p (ver p, p) v vh c wp = Ok (res, with_pf wp pf, c')) /\
  (noop M k vh -> res = NotChanged /\ pf = SMProof None [] /\ c' = c) /\
  (~ noop M k vh ->
    ((U p M' = ∅ /\ res = Removed) \/ (U p M' <> ∅ /\ res = Updated (v, p) (node_at H M' ver' p))) /\
    PutFacts.Inv H v T0 p M' ver' c' /\ outside p c c' /\ rest c' = rest c /\ cnt_ok rd c' /\
    exists n, 4 * length p <= n <= 256 /\ pf = SMProof (hleaf M k n) (rev (map (hsib H M k) (seq (4 * length p) (n - 4 * length p)))) /\
      size (under (kpre n k) M) <= 1 /\ forall j, 4 * length p <= j < n -> 2 <= size (under (kpre j k) M)).
Proof.
  intros Ek Ne I B C.
  assert (T : forall nk nd, T0 nk = Some nd -> nk.1 <> v) by (intros nk nd X; by apply B in X as [X _]).
  apply (inv_ginv H v T0 p M ver (newb v ver)) in I; [|done|done].
  destruct (ginsert_at_canon M ver (newb v ver) k vh rem p c Ek Ne I (base0_gbase rd v T0 c B) C) as (res & pf & c' & F & Pn & Pc).
  exists res, pf, c'. split; [done|]. split; [done|]. intros X. destruct (Pc X) as (P1 & P2 & P3). split; [done|]. split; [|done].
  apply (inv_ginv H v T0 p _ _ (upd true k M (newb v ver))); [done| |done]. intros q. symmetry. apply newb_upd.
Qed.
End ins.
