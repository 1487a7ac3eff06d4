(** Chunk sizes, insertion order and totality of building *)
From Coq Require Import String List Bool Arith ZArith Lia Permutation Sorted Sorting.
From Verif Require Import Base F64 Lib ModelApprox ModelUnits ModelConfig ModelGraph ModelBuild
  ProofNodes ProofStages ProofBuild ProofGraph.
Import ListNotations.

(** *** Chunk sizes *)
Lemma build_core_chunks c ch1 ch2 ch1' ch2' b :
  1 <= ch1 -> 1 <= ch2 -> 1 <= ch1' -> 1 <= ch2' ->
  build_core c ch1 ch2 b = build_core c ch1' ch2' b.
Proof.
  intros. unfold build_core.
  rewrite (work_off_chunks_eq _ ch1), (work_off_chunks_eq _ ch1') by auto.
  destruct (all_coords (nb_coords b)); [cbn [bind]|reflexivity..].
  destruct (foldM (to_protoB (nb_node_ids b)) (nb_edges b) []); [cbn [bind]|reflexivity..].
  destruct (new_indices _); [cbn [bind]|reflexivity..].
  destruct (remap_shortcuts _ _ _); [cbn [bind]|reflexivity..].
  destruct (dedup_edges _) as [[kept removed]| | |]; [cbn [bind]|reflexivity..].
  destruct (correct_shortcuts _ _ _); [cbn [bind]|reflexivity..].
  now rewrite (work_off_chunks_eq _ ch2), (work_off_chunks_eq _ ch2') by auto.
Qed.

Lemma build_chunks hav c ch1 ch2 ch1' ch2' es ns :
  1 <= ch1 -> 1 <= ch2 -> 1 <= ch1' -> 1 <= ch2' ->
  build hav c ch1 ch2 es ns = build hav c ch1' ch2' es ns.
Proof.
  intros. unfold build, finalize. destruct (insert_nodes _ _); auto. cbn [bind].
  now rewrite (build_core_chunks c ch1 ch2 ch1' ch2') by auto.
Qed.

(** *** Totality *)
Lemma core_fun_total c ids oc levels es :
  let K := kept_edges es ids levels in
  match core_fun c ids oc levels K (sc_opts es ids levels) with
  | Ok _ => True
  | Err _ => True
  | _ => False
  end.
Proof.
  intros K. unfold core_fun.
  destruct (all_coords_cases oc) as [(l & -> & _)|[(m & ->) _]]; cbn [bind]; auto.
  destruct (metrics_too_small _); auto.
  assert (Hl : length K = length (sc_opts es ids levels)) by (unfold sc_opts; now rewrite map_length).
  destruct (build_sc_spec (sc_opts es ids levels)) as (offs & E & _).
  rewrite Hl, E. cbn [bind].
  destruct (build_offsets_spec (map b_src K)) as (fo & -> & _); [apply kept_src_sorted|]. cbn [bind].
  destruct (build_id_map_cases (id_pairs (core_edges K))) as [(m & ->)|[(s & ->) _]]; cbn [bind]; auto.
  destruct (build_offsets_spec (map c_dst (core_bwd levels K))) as (bo & -> & _); [|cbn [bind]; auto].
  apply StronglySorted_map. eapply StronglySorted_impl; [|apply core_bwd_sorted].
  intros x y _ _ Hk. unfold bwd_key in Hk. apply key_le_src in Hk. tauto.
Qed.

Lemma build_core_total es b c ch1 ch2 :
  1 <= ch1 -> 1 <= ch2 -> nb_inv es b -> sc_valid es ->
  (exists g, build_core c ch1 ch2 b = Ok g) \/ (exists m, build_core c ch1 ch2 b = Err m).
Proof.
  intros H1 H2 Hb Hv. rewrite (build_core_closed es) by auto.
  pose proof (core_fun_total c (nb_node_ids b) (nb_coords b) (nb_levels b) es) as H. cbv zeta in H.
  destruct (core_fun _ _ _ _ _ _); eauto; contradiction.
Qed.

(** *** Insertion order *)
Lemma sorted_lt_ext (l1 l2 : list Z) :
  StronglySorted Z.lt l1 -> StronglySorted Z.lt l2 -> (forall x, In x l1 <-> In x l2) -> l1 = l2.
Proof.
  revert l2. induction l1 as [|a l1 IH]; intros [|b l2] H1 H2 H; auto.
  - exfalso. apply (H b). now left.
  - exfalso. apply (H a). now left.
  - inversion H1 as [|? ? S1 F1]; subst. inversion H2 as [|? ? S2 F2]; subst.
    rewrite Forall_forall in F1, F2.
    assert (a = b).
    { destruct (proj1 (H a) (or_introl eq_refl)) as [E|E]; auto.
      destruct (proj2 (H b) (or_introl eq_refl)) as [E'|E']; auto.
      specialize (F2 _ E). specialize (F1 _ E'). lia. }
    subst b. f_equal. apply IH; auto. intros x. split; intros Hx.
    + destruct (proj1 (H x) (or_intror Hx)) as [E|E]; auto. subst. specialize (F1 _ Hx). lia.
    + destruct (proj2 (H x) (or_intror Hx)) as [E|E]; auto. subst. specialize (F2 _ Hx). lia.
Qed.

(** two node builders that differ at most in their edges *)
Definition nb_same (b b' : node_builder) : Prop :=
  nb_node_ids b = nb_node_ids b' /\ nb_coords b = nb_coords b' /\ nb_levels b = nb_levels b'.

Lemma insert_nodes_same ns : forall b b' r, nb_same b b' -> insert_nodes b ns = Ok r ->
  exists r', insert_nodes b' ns = Ok r' /\ nb_same r r'.
Proof.
  unfold insert_nodes. induction ns as [|n ns IH]; intros b b' r Hs E; simpl in *.
  - injection E as <-. eauto.
  - apply bind_ok in E. destruct E as (b1 & E1 & E2).
    apply bind_ok in E1. destruct E1 as ((b2 & f) & E1 & E3). injection E3 as <-.
    simpl in *. destruct Hs as (A & B & C).
    unfold nb_insert in *. rewrite <- A, <- B, <- C.
    destruct (node_idx_from (nb_node_ids b) (pn_id n)) as [i|i].
    + apply bind_ok in E1. destruct E1 as (cs & Ec & E1). rewrite Ec. cbn [bind].
      apply bind_ok in E1. destruct E1 as (ls & El & E1). rewrite El. cbn [bind].
      injection E1 as <- <-. cbn [fst]. eapply IH; [|exact E2]. repeat split.
    + injection E1 as <- <-. cbn [bind fst]. eapply IH; [|exact E2]. repeat split; auto.
Qed.

Lemma perm_endpoint es es' x : Permutation es es' -> endpoint es x <-> endpoint es' x.
Proof.
  intros Hp. unfold endpoint. split; intros (e & Hin & He); exists e; split; auto.
  - eapply Permutation_in; eauto.
  - eapply Permutation_in; [apply Permutation_sym|]; eauto.
Qed.

Lemma perm_next es es' : Permutation es es' ->
  nb_same (eb_next (insert_edges es)) (eb_next (insert_edges es')).
Proof.
  intros Hp.
  assert (E : nb_node_ids (eb_next (insert_edges es)) = nb_node_ids (eb_next (insert_edges es'))).
  { destruct (eb_next_ids (insert_edges es)) as [S1 I1].
    destruct (eb_next_ids (insert_edges es')) as [S2 I2].
    apply sorted_lt_ext; auto. intros x. rewrite I1, I2, !insert_edges_node_ids.
    now apply perm_endpoint. }
  unfold nb_same. split; [exact E|]. simpl in E |- *. now rewrite E.
Qed.

(** forget the insertion position *)
Definition strip (e : protoB) : protoB :=
  {| b_idx := 0; b_id := b_id e; b_src := b_src e; b_dst := b_dst e;
     b_metrics := b_metrics e; b_sc := None |}.

Definition of_pe (ids : list Z) (e : proto_edge) : protoB :=
  {| b_idx := 0; b_id := pe_id e; b_src := posn ids (pe_src e); b_dst := posn ids (pe_dst e);
     b_metrics := pe_metrics e; b_sc := None |}.

Lemma strip_as_of ids es : map strip (map (toB ids) (as_of es)) = map (of_pe ids) es.
Proof.
  unfold as_of. rewrite !map_map.
  rewrite <- (enumerate_snd es) at 2. rewrite map_map. apply map_ext. intros [i e]. reflexivity.
Qed.

Definition edge_name (e : proto_edge) : Z * Z * option nat := (pe_src e, pe_dst e, pe_id e).

Lemma posn_inj ids x y : StronglySorted Z.lt ids -> In x ids -> In y ids ->
  posn ids x = posn ids y -> x = y.
Proof.
  intros Hs Hx Hy E. apply (posn_nth ids x Hs) in Hx. apply (posn_nth ids y Hs) in Hy.
  rewrite E in Hx. congruence.
Qed.

Section Permuted.
  Variables (es : list proto_edge) (ids : list Z) (levels : list nat).
  Hypothesis Hs : StronglySorted Z.lt ids.
  Hypothesis Hin : forall e, In e es -> In (pe_src e) ids /\ In (pe_dst e) ids.
  Hypothesis Hnd : NoDup (map edge_name es).

  Lemma stripped_perm : Permutation (map strip (sorted_edges es ids levels)) (map (of_pe ids) es).
  Proof. rewrite <- strip_as_of. apply Permutation_map, sorted_perm. Qed.

  Lemma stripped_sorted :
    StronglySorted (fun x y => key_le (fwd_key levels x) (fwd_key levels y))
                   (map strip (sorted_edges es ids levels)).
  Proof.
    apply StronglySorted_map. eapply StronglySorted_impl; [|apply sorted_sorted].
    intros x y _ _ H. exact H.
  Qed.

  Definition bname (e : protoB) : nat * nat * option nat := (b_src e, b_dst e, b_id e).

  Lemma bname_nodup : NoDup (map bname (map (of_pe ids) es)).
  Proof.
    rewrite map_map. pose proof Hnd as Hnd'.
    assert (Hs' : forall x y, In x es -> In y es ->
       bname (of_pe ids x) = bname (of_pe ids y) -> edge_name x = edge_name y).
    { intros x y Hx Hy E. unfold bname, of_pe in E; simpl in E. injection E as E1 E2 E3.
      destruct (Hin x Hx) as [A1 A2]. destruct (Hin y Hy) as [B1 B2].
      apply posn_inj in E1; auto. apply posn_inj in E2; auto. unfold edge_name. congruence. }
    clear - Hnd' Hs'. revert Hnd' Hs'. induction es as [|e l IH]; intros Hnd' Hs'; simpl; constructor.
    - intros Hc. apply in_map_iff in Hc. destruct Hc as (y & E & Hy).
      simpl in Hnd'. inversion Hnd' as [|? ? Hn _]; subst. apply Hn.
      rewrite (Hs' e y); auto; [now apply in_map|now left|now right].
    - simpl in Hnd'. inversion Hnd'; subst. apply IH; auto. intros x y Hx Hy. apply Hs'; now right.
  Qed.

  Lemma sorted_bname_nodup : NoDup (map bname (sorted_edges es ids levels)).
  Proof.
    assert (E : map bname (sorted_edges es ids levels) = map bname (map strip (sorted_edges es ids levels))).
    { rewrite map_map. apply map_ext. reflexivity. }
    rewrite E. eapply Permutation_NoDup; [|apply bname_nodup].
    apply Permutation_map, Permutation_sym, stripped_perm.
  Qed.

  Lemma dedup_from_id prev l :
    NoDup (map bname (prev :: l)) -> dedup_from is_duplicate prev l = l.
  Proof.
    revert prev. induction l as [|x l IH]; intros prev H; simpl; auto.
    assert (Hd : is_duplicate prev x = false).
    { destruct (is_duplicate prev x) eqn:E; auto. exfalso.
      unfold is_duplicate in E. apply andb_true_iff in E. destruct E as [E _].
      apply andb_true_iff in E. destruct E as [E1 E2]. apply andb_true_iff in E2. destruct E2 as [E2 E3].
      apply Nat.eqb_eq in E2, E3. simpl in H. inversion H as [|? ? Hn _]; subst. apply Hn. left.
      unfold bname. f_equal; [congruence|]. destruct (b_id prev), (b_id x); simpl in E1; try discriminate; auto.
      apply Nat.eqb_eq in E1. congruence. }
    rewrite Hd. f_equal. apply IH. simpl in *. now inversion H.
  Qed.

  Lemma kept_all : kept_edges es ids levels = sorted_edges es ids levels.
  Proof.
    unfold kept_edges. pose proof sorted_bname_nodup as H.
    destruct (sorted_edges es ids levels) as [|x l]; auto. simpl. f_equal. now apply dedup_from_id.
  Qed.
End Permuted.

Lemma stripped_unique es es' ids levels :
  StronglySorted Z.lt ids -> (forall e, In e es -> In (pe_src e) ids /\ In (pe_dst e) ids) ->
  NoDup (map edge_name es) -> Permutation es es' ->
  map strip (sorted_edges es ids levels) = map strip (sorted_edges es' ids levels).
Proof.
  intros Hs Hin Hnd Hp.
  apply (sorted_perm_unique (fun x y => key_le (fwd_key levels x) (fwd_key levels y))).
  - intros x y Hx Hy H1 H2.
    assert (E : fwd_key levels x = fwd_key levels y).
    { unfold key_le in *. apply cmp_key_eq. rewrite cmp_key_anti in H2.
      destruct (cmp_key (fwd_key levels x) (fwd_key levels y)); simpl in *; congruence. }
    unfold fwd_key in E. injection E as E1 _ E2 E3.
    assert (En : bname x = bname y) by (unfold bname; congruence).
    pose proof (bname_nodup es ids Hs Hin Hnd) as Hnd'.
    apply (Permutation_in _ (stripped_perm es ids levels)) in Hx, Hy.
    clear - Hx Hy En Hnd'. induction (map (of_pe ids) es) as [|z l IH]; [contradiction|].
    simpl in Hnd'. inversion Hnd' as [|? ? Hn Hnd2]; subst. destruct Hx as [->|Hx], Hy as [->|Hy]; auto.
    + exfalso. apply Hn. rewrite En. now apply in_map.
    + exfalso. apply Hn. rewrite <- En. now apply in_map.
  - apply stripped_sorted.
  - apply stripped_sorted.
  - rewrite !stripped_perm. now apply Permutation_map.
Qed.

Lemma core_edges_strip K : core_edges (map strip K) = core_edges K.
Proof.
  unfold core_edges. rewrite map_map. f_equal.
Qed.

Lemma core_fun_strip c ids oc levels K n :
  core_fun c ids oc levels (map strip K) (repeat None n) = core_fun c ids oc levels K (repeat None n).
Proof.
  unfold core_fun, core_bwd. rewrite core_edges_strip, !map_map, map_length. reflexivity.
Qed.

Lemma sc_opts_none es ids levels : (forall e, In e es -> pe_sc e = None) ->
  sc_opts es ids levels = repeat None (length (kept_edges es ids levels)).
Proof.
  intros H. unfold sc_opts.
  enough (forall l, map (fun k => match nth_error es (b_idx k) with
                | Some pe => match pe_sc pe with
                             | Some (p, q) => Some (rep_of es ids levels p, rep_of es ids levels q)
                             | None => None
                             end
                | None => None
                end) l = repeat None (length l)) by auto.
  intros l. induction l as [|k l IH]; simpl; auto. rewrite IH. f_equal.
  destruct (nth_error es (b_idx k)) eqn:E; auto. apply nth_error_In in E. now rewrite (H _ E).
Qed.

Lemma build_order hav c ch1 ch2 es es' ns :
  1 <= ch1 -> 1 <= ch2 -> Permutation es es' -> NoDup (map edge_name es) ->
  (forall e, In e es -> pe_sc e = None) ->
  build hav c ch1 ch2 es ns = build hav c ch1 ch2 es' ns.
Proof.
  intros H1 H2 Hp Hnd Hsc.
  destruct (insert_nodes_total es _ ns (nb_inv_init es)) as (b & Eb & Hb).
  destruct (insert_nodes_same ns _ _ _ (perm_next es es' Hp) Eb) as (b' & Eb' & A & B & C).
  destruct (insert_nodes_total es' _ ns (nb_inv_init es')) as (b'' & Eb'' & Hb').
  assert (b'' = b') by congruence. subst b''.
  unfold build, finalize. rewrite Eb, Eb'. cbn [bind].
  assert (Hsc' : forall e, In e es' -> pe_sc e = None).
  { intros e He. apply Hsc. eapply Permutation_in; [apply Permutation_sym; eauto|auto]. }
  assert (Hv : sc_valid es). { intros e p q He E. rewrite Hsc in E by auto. discriminate. }
  assert (Hv' : sc_valid es'). { intros e p q He E. rewrite Hsc' in E by auto. discriminate. }
  enough (E : build_core c ch1 ch2 b = build_core c ch1 ch2 b') by now rewrite E.
  rewrite (build_core_closed es), (build_core_closed es') by auto.
  rewrite !sc_opts_none by auto. rewrite <- A, <- B, <- C.
  assert (Hin : forall e, In e es -> In (pe_src e) (nb_node_ids b) /\ In (pe_dst e) (nb_node_ids b)).
  { intros e He. destruct Hb as [_ Hi _ _ _ _]. rewrite !Hi. split; exists e; auto. }
  assert (Hin' : forall e, In e es' -> In (pe_src e) (nb_node_ids b) /\ In (pe_dst e) (nb_node_ids b)).
  { intros e He. apply Hin. eapply Permutation_in; [apply Permutation_sym; eauto|auto]. }
  assert (Hnd' : NoDup (map edge_name es')).
  { eapply Permutation_NoDup; [|exact Hnd]. now apply Permutation_map. }
  pose proof (nbi_sorted _ _ Hb) as Hs.
  rewrite !kept_all by auto.
  rewrite <- core_fun_strip, (stripped_unique es es') by auto. rewrite core_fun_strip.
  now rewrite !sorted_length, (Permutation_length Hp).
Qed.
