(** From the stages of finalize to what the accessors of a built graph return *)
From Coq Require Import String List Bool Arith ZArith Lia Permutation Sorted Sorting.
From Verif Require Import Base F64 Lib ModelApprox ModelUnits ModelConfig ModelGraph ModelBuild
  ProofNodes ProofStages ProofBuild.
Import ListNotations.

(** *** Generating and normalizing only touch metrics, edge ids and the config *)
Record same_net (g0 g : graph) : Prop := {
  sn_ids : node_ids g = node_ids g0;
  sn_coords : node_coords g = node_coords g0;
  sn_levels : node_levels g = node_levels g0;
  sn_fd : fwd_dsts g = fwd_dsts g0;
  sn_fo : fwd_offsets g = fwd_offsets g0;
  sn_ff : fwd_to_fwd g = fwd_to_fwd g0;
  sn_bd : bwd_dsts g = bwd_dsts g0;
  sn_bo : bwd_offsets g = bwd_offsets g0;
  sn_bf : bwd_to_fwd g = bwd_to_fwd g0;
  sn_so : sc_offsets g = sc_offsets g0;
  sn_se : sc_edges_arr g = sc_edges_arr g0;
}.

Lemma same_net_refl g : same_net g g.
Proof. constructor; reflexivity. Qed.
Lemma same_net_trans g1 g2 g3 : same_net g1 g2 -> same_net g2 g3 -> same_net g1 g3.
Proof. intros [] []. constructor; congruence. Qed.

Lemma merge_row_net eid info g row g' : merge_row eid info g row = Ok g' ->
  same_net g g' /\ edge_ids g' = edge_ids g /\ edge_ids_map g' = edge_ids_map g.
Proof.
  unfold merge_row. intros H. apply bind_ok in H. destruct H as (e & _ & H).
  apply bind_ok in H. destruct H as (ms & _ & H). injection H as <-. repeat split.
Qed.

Lemma merge_rows_net eid info rows : forall g g', foldM (merge_row eid info) rows g = Ok g' ->
  same_net g g' /\ edge_ids g' = edge_ids g /\ edge_ids_map g' = edge_ids_map g.
Proof.
  induction rows as [|r rows IH]; intros g g' E; simpl in E.
  - injection E as <-. auto using same_net_refl.
  - apply bind_ok in E. destruct E as (g1 & E1 & E2).
    destruct (merge_row_net _ _ _ _ _ E1) as (A & B & C).
    destruct (IH _ _ E2) as (A' & B' & C').
    repeat split; try congruence; apply (same_net_trans _ _ _ A A').
Qed.

(** edge ids either stay or become the edge indices *)
Definition ids_kept (g0 g : graph) : Prop :=
  (edge_ids g = edge_ids g0 /\ edge_ids_map g = edge_ids_map g0) \/
  (edge_ids g = map Some (seq 0 (edge_count g0 FWD)) /\
   edge_ids_map g = identity_map (edge_count g0 FWD)).

Definition is_gen_edge_id (gc : gen_cat) : bool :=
  match gc with GMeta GEdgeId _ => true | _ => false end.

Lemma gen_step_net hav g gc g' : gen_step hav g gc = Ok g' ->
  same_net g g' /\ ids_kept g g' /\
  (is_gen_edge_id gc = false -> edge_ids g' = edge_ids g /\ edge_ids_map g' = edge_ids_map g).
Proof.
  intros H. destruct gc as [info id|u id d|u id|fu fid tu tid|fu fid tu tid|ru rid au aid bu bid|rows eid info];
    simpl in H.
  - destruct info; try discriminate; injection H as <-;
      (split; [constructor; reflexivity|split; [|intros; try discriminate; split; reflexivity]]);
      try (left; split; reflexivity). right. split; reflexivity.
  - injection H as <-. split; [constructor; reflexivity|]. split; [left|]; repeat split.
  - destruct u; try discriminate. apply bind_ok in H. destruct H as (ms & _ & H). injection H as <-.
    split; [constructor; reflexivity|]. split; [left|]; repeat split.
  - apply bind_ok in H. destruct H as (mi & _ & H). apply bind_ok in H. destruct H as (ms & _ & H).
    injection H as <-. split; [constructor; reflexivity|]. split; [left|]; repeat split.
  - apply bind_ok in H. destruct H as (mi & _ & H). apply bind_ok in H. destruct H as (ms & _ & H).
    apply bind_ok in H. destruct H as (us & _ & H). apply bind_ok in H. destruct H as (is & _ & H).
    injection H as <-. split; [constructor; reflexivity|]. split; [left|]; repeat split.
  - apply bind_ok in H. destruct H as (ma & _ & H). apply bind_ok in H. destruct H as (mb & _ & H).
    apply bind_ok in H. destruct H as (ms & _ & H).
    injection H as <-. split; [constructor; reflexivity|]. split; [left|]; repeat split.
  - destruct (merge_rows_net _ _ _ _ _ H) as (A & B & C). split; auto. split; [left; auto|auto].
Qed.

Lemma ids_kept_trans g1 g2 g3 : same_net g1 g2 -> ids_kept g1 g2 -> ids_kept g2 g3 -> ids_kept g1 g3.
Proof.
  intros Hn H1 H2. unfold ids_kept, edge_count, xwd_dsts in *. rewrite <- (sn_fd _ _ Hn).
  destruct H2 as [[A B]|[A B]]; [|right; auto].
  rewrite A, B. rewrite <- (sn_fd _ _ Hn) in H1. exact H1.
Qed.

Lemma gen_steps_net hav gcs : forall g g', foldM (gen_step hav) gcs g = Ok g' ->
  same_net g g' /\ ids_kept g g' /\
  (existsb is_gen_edge_id gcs = false -> edge_ids g' = edge_ids g /\ edge_ids_map g' = edge_ids_map g).
Proof.
  induction gcs as [|gc gcs IH]; intros g g' E; simpl in E.
  - injection E as <-. split; [apply same_net_refl|]. split; [left|]; auto.
  - apply bind_ok in E. destruct E as (g1 & E1 & E2).
    destruct (gen_step_net _ _ _ _ E1) as (A & B & C).
    destruct (IH _ _ E2) as (A' & B' & C').
    split; [eapply same_net_trans; eauto|]. split; [eapply ids_kept_trans; eauto|].
    simpl. intros H. apply orb_false_iff in H. destruct H as [H1 H2].
    destruct (C H1), (C' H2). split; congruence.
Qed.

Lemma gen_node_edges c n c' : gen_node c n = Ok c' ->
  cfg_edges c' = cfg_edges c /\ cfg_gen_edges c' = cfg_gen_edges c.
Proof.
  unfold gen_node. destruct (fst n); try discriminate.
  destruct (node_cat_has _ _); [discriminate|]. intros H. injection H as <-. auto.
Qed.

Lemma gen_nodes_edges ns : forall c c', foldM gen_node ns c = Ok c' ->
  cfg_edges c' = cfg_edges c /\ cfg_gen_edges c' = cfg_gen_edges c.
Proof.
  induction ns as [|n ns IH]; intros c c' E; simpl in E.
  - injection E as <-. auto.
  - apply bind_ok in E. destruct E as (c1 & E1 & E2).
    destruct (gen_node_edges _ _ _ E1), (IH _ _ E2). split; congruence.
Qed.

Lemma generate_net hav g g' : generate hav g = Ok g' ->
  same_net g g' /\ ids_kept g g' /\
  (existsb is_gen_edge_id (cfg_gen_edges (g_cfg g)) = false ->
   edge_ids g' = edge_ids g /\ edge_ids_map g' = edge_ids_map g).
Proof.
  unfold generate. intros H. apply bind_ok in H. destruct H as (c' & Ec & H).
  destruct (gen_dup _ _); [discriminate|].
  destruct (gen_steps_net _ _ _ _ H) as (A & B & C).
  assert (N : same_net g (with_cfg g c')) by (constructor; reflexivity).
  split; [eapply same_net_trans; eauto|].
  split; [eapply ids_kept_trans; [exact N| |exact B]; left; split; reflexivity|].
  intros H'. exact (C H').
Qed.

Lemma normalize_net g g' : normalize g = Ok g' ->
  same_net g g' /\ edge_ids g' = edge_ids g /\ edge_ids_map g' = edge_ids_map g /\ g_cfg g' = g_cfg g.
Proof.
  unfold normalize. destruct (ec_normalized _).
  - destruct (edge_count g FWD =? 0); [discriminate|].
    destruct (existsb _ _); [discriminate|]. intros H. apply bind_ok in H.
    destruct H as (ms & _ & H). injection H as <-. repeat split.
  - intros H. injection H as <-. repeat split.
Qed.

(** a build splits into its parts *)
Lemma build_split hav c ch1 ch2 es ns g :
  build hav c ch1 ch2 es ns = Ok g ->
  exists b g0 g1, insert_nodes (eb_next (insert_edges es)) ns = Ok b /\ nb_inv es b /\
    build_core c ch1 ch2 b = Ok g0 /\ generate hav g0 = Ok g1 /\ normalize g1 = Ok g.
Proof.
  unfold build, finalize. intros E.
  apply bind_ok in E. destruct E as (b & Eb & E).
  apply bind_ok in E. destruct E as (g0 & E0 & E).
  apply bind_ok in E. destruct E as (g1 & E1 & E).
  exists b, g0, g1. repeat split; auto;
    destruct (insert_nodes_total es _ ns (nb_inv_init es)) as (b' & Eb' & Hb');
    rewrite Eb in Eb'; injection Eb' as <-; apply Hb'.
Qed.

Lemma build_spec hav c ch1 ch2 es ns g :
  1 <= ch1 -> 1 <= ch2 -> build hav c ch1 ch2 es ns = Ok g ->
  exists b g0 K, insert_nodes (eb_next (insert_edges es)) ns = Ok b /\ nb_inv es b /\
    core_spec es b c K g0 /\ same_net g0 g /\ ids_kept g0 g /\
    (existsb is_gen_edge_id (cfg_gen_edges c) = false ->
     edge_ids g = edge_ids g0 /\ edge_ids_map g = edge_ids_map g0) /\
    (cfg_gen_nodes c = [] -> cfg_gen_edges c = [] -> ec_normalized (cfg_edges c) = false ->
     metrics g = metrics g0 /\ means g = None).
Proof.
  intros H1 H2 E. destruct (build_split _ _ _ _ _ _ _ E) as (b & g0 & g1 & Eb & Hb & E0 & E1 & E2).
  pose proof (build_core_spec _ _ _ _ _ _ H1 H2 Hb E0) as Hc.
  destruct (generate_net _ _ _ E1) as (A & B & C).
  destruct (normalize_net _ _ E2) as (A' & B1 & B2 & B3).
  exists b, g0, (kept_edges es (nb_node_ids b) (nb_levels b)).
  split; auto. split; auto. split; auto.
  split; [eapply same_net_trans; eauto|].
  split; [eapply ids_kept_trans; [exact A|exact B|left; auto]|].
  rewrite (cs_cfg _ _ _ _ _ Hc) in C.
  split.
  - intros H. destruct (C H). split; congruence.
  - intros Hn He Hno. unfold generate in E1. rewrite (cs_cfg _ _ _ _ _ Hc), Hn, He in E1.
    simpl in E1. injection E1 as <-. unfold normalize in E2. simpl in E2. rewrite Hno in E2.
    injection E2 as <-. simpl. split; auto. apply (cs_means _ _ _ _ _ Hc).
Qed.

(** *** accessors only depend on the net *)
Lemma net_dsts g0 g d : same_net g0 g -> xwd_dsts g d = xwd_dsts g0 d.
Proof. intros []. destruct d; simpl; congruence. Qed.
Lemma net_dst_idx g0 g d e : same_net g0 g -> dst_idx g d e = dst_idx g0 d e.
Proof. intros H. unfold dst_idx. now rewrite (net_dsts g0 g). Qed.
Lemma net_edge_count g0 g d : same_net g0 g -> edge_count g d = edge_count g0 d.
Proof. intros H. unfold edge_count. now rewrite (net_dsts g0 g). Qed.
Lemma net_starting g0 g d v : same_net g0 g -> starting_from g d v = starting_from g0 d v.
Proof.
  intros []. unfold starting_from. destruct d; simpl; rewrite ?sn_fo0, ?sn_ff0, ?sn_bo0, ?sn_bf0; reflexivity.
Qed.
Lemma net_level g0 g v : same_net g0 g -> node_level g v = node_level g0 v.
Proof. intros []. unfold node_level. congruence. Qed.
Lemma net_sc g0 g e : same_net g0 g -> sc_edges g e = sc_edges g0 e /\ is_shortcut g e = is_shortcut g0 e.
Proof.
  intros []. unfold sc_edges, is_shortcut. rewrite sn_so0, sn_se0. auto.
Qed.

(** *** Representation of inserted edges *)
Section Rep.
  Variables (es : list proto_edge) (ids : list Z) (levels : list nat).
  Let SE := sorted_edges es ids levels.
  Let K := kept_edges es ids levels.

  Lemma sorted_pos_spec p pe : nth_error es p = Some pe ->
    nth_error SE (sorted_pos es ids levels p) = Some (toB ids (mkAof es p pe)).
  Proof.
    intros H. destruct (sorted_has es ids levels p pe H) as [i Hi].
    destruct (new_indices_spec SE) as (ni & Eni & Hl & Hni).
    { unfold SE. rewrite sorted_length. apply sorted_idx. }
    unfold sorted_pos. fold SE. rewrite Eni.
    specialize (Hni i _ Hi). simpl in Hni. rewrite (nth_error_nth _ _ 0 Hni). exact Hi.
  Qed.

  Lemma rep_of_spec p pe : nth_error es p = Some pe ->
    exists k, nth_error K (rep_of es ids levels p) = Some k /\
      (k = toB ids (mkAof es p pe) \/ is_duplicate k (toB ids (mkAof es p pe)) = true).
  Proof.
    intros H. apply sorted_pos_spec in H. apply rep_pos_spec. exact H.
  Qed.

  Lemma orig_of_spec e k : nth_error K e = Some k ->
    exists pe, nth_error es (b_idx k) = Some pe /\ k = toB ids (mkAof es (b_idx k) pe) /\
               rep_of es ids levels (b_idx k) = e.
  Proof.
    intros H. destruct (orig_pos_spec SE e k H) as (i & Hi & Hrep).
    destruct (sorted_in es ids levels k (nth_error_In _ _ Hi)) as (pe & Hpe & Ek).
    exists pe. split; auto. split; auto. unfold rep_of. fold SE.
    destruct (new_indices_spec SE) as (ni & Eni & Hl & Hni).
    { unfold SE. rewrite sorted_length. apply sorted_idx. }
    unfold sorted_pos. fold SE. rewrite Eni.
    rewrite (nth_error_nth _ _ 0 (Hni i k Hi)). exact Hrep.
  Qed.

  Lemma sc_opts_nth e k pe : nth_error K e = Some k -> nth_error es (b_idx k) = Some pe ->
    nth_error (sc_opts es ids levels) e =
    Some (match pe_sc pe with
          | Some (p, q) => Some (rep_of es ids levels p, rep_of es ids levels q)
          | None => None
          end).
  Proof.
    intros H Hpe. unfold sc_opts. fold K. rewrite nth_error_map, H. simpl. now rewrite Hpe.
  Qed.
End Rep.

(** *** Shortcut accessors *)
Lemma sc_count_S {A} (opts : list (option A)) i o :
  nth_error opts i = Some o ->
  sc_count opts (i + 1) = sc_count opts i + match o with Some _ => 1 | None => 0 end.
Proof.
  intros H. unfold sc_count. replace (i + 1) with (S i) by lia.
  rewrite (somes_firstn_S _ _ _ H), app_length. destruct o; reflexivity.
Qed.

Lemma sc_api g opts i o :
  sc_edges_arr g = somes opts ->
  (forall i, i <= length opts -> nth_error (sc_offsets g) i = Some (sc_count opts i)) ->
  nth_error opts i = Some o ->
  sc_edges g i = Ok o /\ is_shortcut g i = Ok (match o with Some _ => true | None => false end).
Proof.
  intros Ha Ho Hi. pose proof (nth_error_lt _ _ _ Hi) as Hlt.
  assert (E : is_shortcut g i = Ok (match o with Some _ => true | None => false end)).
  { unfold is_shortcut. rewrite (proj2 (idx_ok _ _ _) (Ho (i + 1) ltac:(lia))).
    rewrite (proj2 (idx_ok _ _ _) (Ho i ltac:(lia))). simpl.
    rewrite (sc_count_S _ _ _ Hi).
    destruct (Nat.ltb_spec (sc_count opts i + match o with Some _ => 1 | None => 0 end) (sc_count opts i)); [lia|].
    destruct o.
    - replace (sc_count opts i + 1 - sc_count opts i) with 1 by lia. reflexivity.
    - replace (sc_count opts i + 0 - sc_count opts i) with 0 by lia. reflexivity. }
  split; auto. unfold sc_edges. rewrite E. simpl. destruct o as [p|]; auto.
  rewrite (proj2 (idx_ok _ _ _) (Ho i ltac:(lia))). simpl. rewrite Ha.
  unfold sc_count. rewrite (proj2 (idx_ok _ _ _) (somes_firstn_nth _ _ _ Hi)). reflexivity.
Qed.

(** *** Adjacency *)
Lemma offsets_slice {A} (f : A -> nat) (l : list A) (vals : list nat) (h : A -> nat) offs v :
  StronglySorted le (map f l) -> build_offsets (map f l) = Ok offs -> vals = map h l ->
  (do lo <- idx offs v; do hi <- idx offs (v + 1); mapM (idx vals) (seq lo (hi - lo))) =
  if v <=? last (map f l) 0 then Ok (map h (filter (fun x => f x =? v) l)) else Panic.
Proof.
  intros Hs Eo ->. destruct (build_offsets_spec _ Hs) as (offs' & Eo' & Hl & Ho).
  rewrite Eo in Eo'. injection Eo' as <-.
  destruct (Nat.leb_spec v (last (map f l) 0)).
  - rewrite (proj2 (idx_ok _ _ _) (Ho v ltac:(lia))).
    rewrite (proj2 (idx_ok _ _ _) (Ho (v + 1) ltac:(lia))). simpl.
    assert (Hle : forall v, count_lt (map f l) v <= length l).
    { intros w. unfold count_lt. rewrite <- (map_length f l).
      clear. induction (map f l); simpl; auto. destruct (a <? w); simpl; lia. }
    assert (Hmono : count_lt (map f l) v <= count_lt (map f l) (v + 1)).
    { unfold count_lt. clear. induction (map f l) as [|a t IH]; simpl; auto.
      destruct (Nat.ltb_spec a v), (Nat.ltb_spec a (v + 1)); simpl; lia. }
    rewrite mapM_idx_seq.
    + rewrite <- (sorted_filter_slice f l v Hs). rewrite skipn_map, firstn_map. reflexivity.
    + rewrite map_length. specialize (Hle (v + 1)). lia.
  - assert (E : idx offs (v + 1) = Panic).
    { destruct (idx_res offs (v + 1)) as [(x & _ & Hx)|[Hx _]]; auto. lia. }
    rewrite E. destruct (idx_res offs v) as [(x & Hx & _)|[Hx _]]; rewrite Hx; reflexivity.
Qed.

Lemma core_bwd_sorted levels K :
  StronglySorted (fun x y => key_le (bwd_key levels x) (bwd_key levels y)) (core_bwd levels K).
Proof. apply sort_by_key_sorted. Qed.

Lemma core_bwd_perm levels K : Permutation (core_bwd levels K) (core_edges K).
Proof. apply sort_by_perm. Qed.

Lemma nth_map_seq {A B} (h : A -> B) (l : list A) d : map (fun i => nth i (map h l) d) (seq 0 (length l)) = map h l.
Proof.
  rewrite <- (map_length h l). generalize (map h l) as k. clear.
  intros k. apply nth_ext with (d := d) (d' := d).
  - now rewrite map_length, seq_length.
  - intros n Hn. rewrite map_length, seq_length in Hn.
    rewrite (nth_indep _ d (nth 0 k d)) by (rewrite map_length, seq_length; auto).
    rewrite (map_nth (fun i => nth i k d) (seq 0 (length k)) 0 n).
    rewrite seq_nth by auto. reflexivity.
Qed.

Section Adjacency.
  Variables (es : list proto_edge) (b : node_builder) (c : cfg) (K : list protoB) (g : graph).
  Hypothesis Hb : nb_inv es b.
  Hypothesis Hg : core_spec es b c K g.

  Lemma core_edge_count d : edge_count g d = length K.
  Proof.
    unfold edge_count, xwd_dsts. destruct d; rewrite ?(cs_fwd _ _ _ _ _ Hg), ?(cs_bwd _ _ _ _ _ Hg);
      now rewrite map_length.
  Qed.

  Lemma core_dst d e v : dst_idx g d e = Ok v <->
    exists k, nth_error K e = Some k /\ v = match d with FWD => b_dst k | BWD => b_src k end.
  Proof.
    unfold dst_idx. rewrite idx_ok. destruct d; simpl;
      rewrite ?(cs_fwd _ _ _ _ _ Hg), ?(cs_bwd _ _ _ _ _ Hg), nth_error_map;
      destruct (nth_error K e) as [k|]; simpl; split.
    all: try (intros H; injection H as <-; eauto).
    all: try (intros (k' & H & ->); injection H as <-; reflexivity).
    all: try discriminate.
    all: intros (k' & H & _); discriminate.
  Qed.

  Lemma core_in_edge k : In k K -> exists pe, nth_error es (b_idx k) = Some pe /\
    k = toB (nb_node_ids b) (mkAof es (b_idx k) pe) /\
    nth_error (node_ids g) (b_src k) = Some (pe_src pe) /\
    nth_error (node_ids g) (b_dst k) = Some (pe_dst pe).
  Proof.
    intros Hin. rewrite (cs_kept _ _ _ _ _ Hg) in Hin.
    apply dedup_by_incl in Hin. destruct (sorted_in _ _ _ _ Hin) as (pe & Hpe & Ek).
    exists pe. split; auto. split; auto. rewrite (cs_ids _ _ _ _ _ Hg).
    assert (Hpe' := nth_error_In _ _ Hpe).
    split; rewrite Ek; simpl; apply posn_nth; try apply (nbi_sorted _ _ Hb);
      apply (nbi_ids _ _ Hb); exists pe; auto.
  Qed.

  Lemma fwd_starting v :
    starting_from g FWD v =
    if v <=? last (map b_src K) 0
    then Ok (filter (fun e => nth e (map b_src K) 0 =? v) (seq 0 (length K)))
    else Panic.
  Proof.
    unfold starting_from. simpl.
    pose proof (kept_src_sorted es (nb_node_ids b) (nb_levels b)) as Hs.
    rewrite <- (cs_kept _ _ _ _ _ Hg) in Hs.
    rewrite <- (nth_map_seq b_src K 0) in Hs.
    pose proof (cs_foffs _ _ _ _ _ Hg) as Ho. rewrite <- (nth_map_seq b_src K 0) in Ho.
    rewrite (offsets_slice (fun e => nth e (map b_src K) 0) (seq 0 (length K)) (fwd_to_fwd g) (fun e => e)
               (fwd_offsets g) v Hs Ho).
    - rewrite nth_map_seq, map_id. reflexivity.
    - rewrite map_id. apply (cs_f2f _ _ _ _ _ Hg).
  Qed.

  Lemma core_bwd_dst_sorted : StronglySorted le (map c_dst (core_bwd (nb_levels b) K)).
  Proof.
    apply StronglySorted_map. eapply StronglySorted_impl; [|apply core_bwd_sorted].
    intros x y _ _ H. apply key_le_src in H. apply H.
  Qed.

  Lemma bwd_starting v :
    starting_from g BWD v =
    if v <=? last (map c_dst (core_bwd (nb_levels b) K)) 0
    then Ok (map c_idx (filter (fun e => c_dst e =? v) (core_bwd (nb_levels b) K)))
    else Panic.
  Proof.
    unfold starting_from. simpl.
    apply (offsets_slice c_dst _ (bwd_to_fwd g) c_idx (bwd_offsets g) v).
    - apply core_bwd_dst_sorted.
    - apply (cs_boffs _ _ _ _ _ Hg).
    - apply (cs_b2f _ _ _ _ _ Hg).
  Qed.

  Lemma last_in (l : list nat) : l <> [] -> In (last l 0) l.
  Proof. intros H. rewrite (app_removelast_last 0 H) at 2. apply in_or_app. right. now left. Qed.

  (** guard: some edge starts (in direction d) at v or beyond *)
  Definition reaches_beyond (d : dir) (v : nat) : Prop :=
    exists e w, dst_idx g (opp d) e = Ok w /\ v <= w.

  Lemma starting_spec d v :
    v < node_count g ->
    (reaches_beyond d v /\ exists l, starting_from g d v = Ok l /\ NoDup l /\
       (forall e, In e l <-> dst_idx g (opp d) e = Ok v)) \/
    (~ reaches_beyond d v /\ starting_from g d v = Panic).
  Proof.
    intros Hv.
    assert (Hex : K <> []).
    { intros HK. unfold node_count in Hv. rewrite (cs_ids _ _ _ _ _ Hg) in Hv.
      destruct (nb_node_ids b) as [|x t] eqn:Eids; [simpl in Hv; lia|].
      assert (Hin : In x (nb_node_ids b)) by (rewrite Eids; now left).
      apply (nbi_ids _ _ Hb) in Hin. destruct Hin as (pe & Hpe & _).
      apply In_nth_error in Hpe. destruct Hpe as [p Hp].
      destruct (rep_of_spec es (nb_node_ids b) (nb_levels b) p pe Hp) as (k & Hk & _).
      rewrite <- (cs_kept _ _ _ _ _ Hg), HK in Hk.
      destruct (rep_of es (nb_node_ids b) (nb_levels b) p); discriminate. }
    destruct d.
    - rewrite fwd_starting. simpl opp.
      pose proof (kept_src_sorted es (nb_node_ids b) (nb_levels b)) as Hs.
      rewrite <- (cs_kept _ _ _ _ _ Hg) in Hs.
      destruct (last_ge _ 0 Hs ltac:(intros; lia)) as [_ Hmax].
      destruct (Nat.leb_spec v (last (map b_src K) 0)) as [Hle|Hgt].
      + left. split.
        * assert (Hin : In (last (map b_src K) 0) (map b_src K)) by (apply last_in; destruct K; simpl; congruence).
          apply in_map_iff in Hin. destruct Hin as (k & Hk & Hin).
          apply In_nth_error in Hin. destruct Hin as [e He].
          exists e, (b_src k). split; [|lia]. apply core_dst. eauto.
        * eexists. split; [reflexivity|]. split.
          { apply NoDup_filter, seq_NoDup. }
          intros e. rewrite filter_In, in_seq, core_dst. split.
          -- intros [He Hv']. apply Nat.eqb_eq in Hv'.
             destruct (nth_error K e) as [k|] eqn:Ek.
             ++ exists k. split; auto. rewrite <- Hv'.
                erewrite nth_error_nth; [reflexivity|]. rewrite nth_error_map, Ek. reflexivity.
             ++ apply nth_error_None in Ek. lia.
          -- intros (k & Hk & ->). split; [split; [lia|]; apply nth_error_lt in Hk; lia|].
             apply Nat.eqb_eq. erewrite nth_error_nth; [reflexivity|].
             rewrite nth_error_map, Hk. reflexivity.
      + right. split; auto. intros (e & w & He & Hw). apply core_dst in He.
        destruct He as (k & Hk & ->). apply nth_error_In in Hk. apply (in_map b_src) in Hk.
        specialize (Hmax _ Hk). cbn in Hw; lia.
    - rewrite bwd_starting. simpl opp.
      pose proof core_bwd_dst_sorted as Hs.
      destruct (last_ge _ 0 Hs ltac:(intros; lia)) as [_ Hmax].
      pose proof (core_bwd_perm (nb_levels b) K) as Hp.
      set (L := core_bwd (nb_levels b) K) in *.
      assert (HinL : forall e k, nth_error K e = Some k ->
         In {| c_src := b_src k; c_dst := b_dst k; c_idx := e; c_id := b_id k |} L).
      { intros e k Hk. eapply Permutation_in; [symmetry; exact Hp|].
        eapply nth_error_In. apply core_edges_nth. exact Hk. }
      assert (HLin : forall x, In x L -> exists k, nth_error K (c_idx x) = Some k /\ c_dst x = b_dst k).
      { intros x Hx. eapply Permutation_in in Hx; [|exact Hp].
        destruct (core_edges_in _ _ Hx) as (k & Hk & _ & Hd & _). eauto. }
      destruct (Nat.leb_spec v (last (map c_dst L) 0)) as [Hle|Hgt].
      + left. split.
        * assert (Hin : In (last (map c_dst L) 0) (map c_dst L)).
          { apply last_in. destruct K as [|k K']; [congruence|].
            specialize (HinL 0 k eq_refl). destruct L; simpl; [destruct HinL|congruence]. }
          apply in_map_iff in Hin. destruct Hin as (x & Hx & Hin).
          destruct (HLin x Hin) as (k & Hk & Hd).
          exists (c_idx x), (b_dst k). split; [|lia]. apply core_dst. eauto.
        * eexists. split; [reflexivity|]. split.
          { assert (Hnd : NoDup (map c_idx L)).
            { eapply Permutation_NoDup; [symmetry; apply Permutation_map, Hp|].
              rewrite core_edges_idx. apply seq_NoDup. }
            clear - Hnd. induction L as [|x L IH]; simpl in *; [constructor|].
            inversion Hnd; subst. destruct (c_dst x =? v); auto. simpl. constructor; auto.
            intros Hc. apply H1. apply in_map_iff in Hc. destruct Hc as (y & Ey & Hy).
            apply filter_In in Hy. rewrite <- Ey. apply in_map. tauto. }
          intros e. rewrite in_map_iff, core_dst. split.
          -- intros (x & <- & Hx). apply filter_In in Hx. destruct Hx as [Hx Hv'].
             apply Nat.eqb_eq in Hv'. destruct (HLin x Hx) as (k & Hk & Hd). exists k. split; auto. lia.
          -- intros (k & Hk & ->). eexists. split; [|apply filter_In; split; [apply HinL; exact Hk|]].
             ++ reflexivity.
             ++ apply Nat.eqb_refl.
      + right. split; auto. intros (e & w & He & Hw). apply core_dst in He.
        destruct He as (k & Hk & ->). specialize (HinL e k Hk). apply (in_map c_dst) in HinL.
        specialize (Hmax _ HinL). simpl in Hmax. cbn in Hw; lia.
  Qed.

  (** order within an adjacency list *)
  Lemma filter_sorted {A} (R : A -> A -> Prop) p l : StronglySorted R l -> StronglySorted R (filter p l).
  Proof.
    induction 1; simpl; [constructor|]. destruct (p a); auto. constructor; auto.
    rewrite Forall_forall in *. intros x Hx. apply H0. now apply filter_In in Hx.
  Qed.

  Lemma starting_levels d v l :
    starting_from g d v = Ok l ->
    StronglySorted (fun e f => forall x y lx ly,
       dst_idx g d e = Ok x -> dst_idx g d f = Ok y ->
       node_level g x = Ok lx -> node_level g y = Ok ly -> ly <= lx) l.
  Proof.
    intros E. destruct d.
    - rewrite fwd_starting in E. destruct (v <=? _); [|discriminate]. injection E as <-.
      pose proof (kept_sorted es (nb_node_ids b) (nb_levels b)) as Hs.
      rewrite <- (cs_kept _ _ _ _ _ Hg) in Hs.
      assert (Hsq : StronglySorted lt (seq 0 (length K))).
      { clear. generalize 0. induction (length K); intros s; simpl; constructor; auto.
        rewrite Forall_forall. intros x Hx. apply in_seq in Hx. lia. }
      eapply StronglySorted_impl; [|apply filter_sorted; exact Hsq].
      intros e f He Hf Hlt x y lx ly Hx Hy Hlx Hly. simpl in Hlt.
      apply core_dst in Hx, Hy. destruct Hx as (k1 & Hk1 & ->), Hy as (k2 & Hk2 & ->).
      pose proof (StronglySorted_nth _ _ _ _ _ _ Hs Hlt Hk1 Hk2) as Hkey.
      apply filter_In in He, Hf. destruct He as [_ He], Hf as [_ Hf]. apply Nat.eqb_eq in He, Hf.
      erewrite nth_error_nth in He, Hf by (rewrite nth_error_map, ?Hk1, ?Hk2; reflexivity).
      unfold fwd_key in Hkey. apply key_le_src in Hkey. destruct Hkey as (_ & Hlev & _).
      unfold node_level in Hlx, Hly. apply idx_ok in Hlx, Hly.
      rewrite (cs_levels _ _ _ _ _ Hg) in Hlx, Hly.
      rewrite (nth_error_nth _ _ 0 Hlx), (nth_error_nth _ _ 0 Hly) in Hlev. apply Hlev. congruence.
    - rewrite bwd_starting in E. destruct (v <=? _); [|discriminate]. injection E as <-.
      pose proof (core_bwd_sorted (nb_levels b) K) as Hs.
      apply StronglySorted_map.
      eapply StronglySorted_impl; [|apply filter_sorted; exact Hs].
      intros e f He Hf Hkey x y lx ly Hx Hy Hlx Hly.
      apply filter_In in He, Hf. destruct He as [He Hev], Hf as [Hf Hfv]. apply Nat.eqb_eq in Hev, Hfv.
      eapply Permutation_in in He; [|apply core_bwd_perm]. eapply Permutation_in in Hf; [|apply core_bwd_perm].
      destruct (core_edges_in _ _ He) as (k1 & Hk1 & Hs1 & Hd1 & _).
      destruct (core_edges_in _ _ Hf) as (k2 & Hk2 & Hs2 & Hd2 & _).
      apply core_dst in Hx, Hy. destruct Hx as (k1' & Hk1' & ->), Hy as (k2' & Hk2' & ->).
      assert (k1' = k1) by congruence. assert (k2' = k2) by congruence. subst.
      unfold bwd_key in Hkey. apply key_le_src in Hkey. destruct Hkey as (_ & Hlev & _).
      unfold node_level in Hlx, Hly. apply idx_ok in Hlx, Hly.
      rewrite (cs_levels _ _ _ _ _ Hg) in Hlx, Hly.
      rewrite Hs1, Hs2 in Hlev.
      rewrite (nth_error_nth _ _ 0 Hlx), (nth_error_nth _ _ 0 Hly) in Hlev. apply Hlev. congruence.
  Qed.

  Lemma core_sc e k : nth_error K e = Some k ->
    exists pe, nth_error es (b_idx k) = Some pe /\
      let r := match pe_sc pe with
               | Some (p, q) => Some (rep_of es (nb_node_ids b) (nb_levels b) p,
                                      rep_of es (nb_node_ids b) (nb_levels b) q)
               | None => None
               end in
      sc_edges g e = Ok r /\ is_shortcut g e = Ok (match r with Some _ => true | None => false end).
  Proof.
    intros Hk. destruct (core_in_edge k (nth_error_In _ _ Hk)) as (pe & Hpe & _).
    exists pe. split; auto.
    apply (sc_api g (sc_opts es (nb_node_ids b) (nb_levels b))).
    - apply (cs_sc_arr _ _ _ _ _ Hg).
    - intros i Hi. apply (cs_sc_offs _ _ _ _ _ Hg).
      unfold sc_opts in Hi. rewrite map_length, <- (cs_kept _ _ _ _ _ Hg) in Hi. exact Hi.
    - apply sc_opts_nth with (k := k); auto. rewrite <- (cs_kept _ _ _ _ _ Hg). exact Hk.
  Qed.
End Adjacency.

(** *** Edge ids *)
Lemma dedup_by_full {A} (same : A -> A -> bool) l :
  length (dedup_by same l) = length l -> dedup_by same l = l /\
  (forall i x y, nth_error l i = Some x -> nth_error l (S i) = Some y -> same x y = false).
Proof.
  destruct l as [|x l]; simpl; [split; auto; intros [|]; discriminate|].
  assert (Hle : forall l x, length (dedup_from same x l) <= length l).
  { induction l0 as [|a l0 IH]; intros y; simpl; auto. destruct (same y a); simpl; [specialize (IH y)|specialize (IH a)]; lia. }
  revert x. induction l as [|a l IH]; intros x H; simpl in *.
  - split; auto. intros [|i] u w Hu Hw; simpl in *; try discriminate.
  - destruct (same x a) eqn:E.
    + specialize (Hle l x). lia.
    + simpl in H. destruct (IH a ltac:(lia)) as [H1 H2]. injection H1 as H1.
      split; [congruence|]. intros [|i] u w Hu Hw; simpl in *.
      * congruence.
      * eapply H2; eauto.
Qed.

Lemma build_id_map_spec pairs m :
  build_id_map pairs = Ok m ->
  Permutation m pairs /\ StronglySorted (fun p q : nat * nat => fst p < fst q) m.
Proof.
  unfold build_id_map. set (s := sort_by (fun p q : nat * nat => fst p <=? fst q) pairs).
  destruct (Nat.eqb_spec (length (dedup_by (fun p q : nat * nat => fst p =? fst q) s)) (length pairs));
    [|discriminate].
  intros H. injection H as <-.
  assert (Hl : length s = length pairs) by apply sort_by_length.
  rewrite <- Hl in e. destruct (dedup_by_full _ _ e) as [E Hadj]. rewrite E.
  split; [apply sort_by_perm|].
  assert (Hs : StronglySorted (fun p q : nat * nat => fst p <= fst q) s).
  { eapply StronglySorted_impl; [|apply sort_by_sorted].
    - intros x y _ _ H. now apply Nat.leb_le.
    - intros x y. destruct (Nat.leb_spec (fst x) (fst y)); auto. right. apply Nat.leb_le. lia.
    - intros x y z H1 H2. apply Nat.leb_le in H1, H2. apply Nat.leb_le. lia. }
  clearbody s. clear - Hs Hadj. induction Hs as [|a l Hs IH Hf]; constructor.
  - apply IH. intros i x y Hx Hy. apply (Hadj (S i)); auto.
  - rewrite Forall_forall in *. intros y Hy.
    destruct l as [|b l]; [destruct Hy|].
    pose proof (Hadj 0 a b eq_refl eq_refl) as Hne. apply Nat.eqb_neq in Hne.
    pose proof (Hf b (or_introl eq_refl)).
    inversion Hs; subst. rewrite Forall_forall in H3.
    destruct Hy as [<-|Hy]; [lia|]. specialize (H3 y Hy). lia.
Qed.

Lemma build_id_map_cases pairs :
  (exists m, build_id_map pairs = Ok m) \/
  ((exists s, build_id_map pairs = Err s) /\ ~ NoDup (map fst pairs)).
Proof.
  unfold build_id_map. set (s := sort_by (fun p q : nat * nat => fst p <=? fst q) pairs).
  destruct (Nat.eqb_spec (length (dedup_by (fun p q : nat * nat => fst p =? fst q) s)) (length pairs)); eauto.
  right. split; eauto. intros Hnd. apply n.
  assert (Hl : length s = length pairs) by apply sort_by_length. rewrite <- Hl. f_equal.
  assert (Hs : NoDup (map fst s)).
  { eapply Permutation_NoDup; [|exact Hnd]. apply Permutation_map. symmetry. apply sort_by_perm. }
  clear - Hs. destruct s as [|x s]; auto. simpl. f_equal.
  revert x Hs. induction s as [|a s IH]; intros x Hs; simpl; auto.
  simpl in Hs. inversion Hs; subst. destruct (Nat.eqb_spec (fst x) (fst a)) as [E|E].
  - exfalso. apply H1. rewrite E. now left.
  - f_equal. apply IH. simpl. exact H2.
Qed.

Lemma id_map_lookup g id :
  StronglySorted (fun p q : nat * nat => fst p < fst q) (edge_ids_map g) ->
  match edge_try_idx_from g id with
  | Ok e => In (id, e) (edge_ids_map g)
  | Err _ => forall e, ~ In (id, e) (edge_ids_map g)
  | _ => False
  end.
Proof.
  intros Hs. unfold edge_try_idx_from. set (m := edge_ids_map g) in *.
  assert (Hn : forall j, j < length m -> exists k v, nth_error m j = Some (k, v)).
  { intros j Hj. destruct (nth_error m j) as [[k v]|] eqn:E; eauto. apply nth_error_None in E. lia. }
  pose proof (binary_search_spec (cmp_key_at m id) (length m)) as H.
  assert (P1 : forall i j, i < j -> j < length m -> cmp_key_at m id i = Gt -> cmp_key_at m id j = Gt).
  { intros i j Hij Hj Hg. destruct (Hn i ltac:(lia)) as (k1 & v1 & H1), (Hn j Hj) as (k2 & v2 & H2).
    pose proof (StronglySorted_nth _ _ _ _ _ _ Hs Hij H1 H2) as Hlt. simpl in Hlt.
    unfold cmp_key_at in *. rewrite H1 in Hg. rewrite H2. apply Nat.compare_gt_iff in Hg.
    apply Nat.compare_gt_iff. lia. }
  assert (P2 : forall i j, i < j -> j < length m -> cmp_key_at m id j <> Gt -> cmp_key_at m id i = Lt).
  { intros i j Hij Hj Hg. destruct (Hn i ltac:(lia)) as (k1 & v1 & H1), (Hn j Hj) as (k2 & v2 & H2).
    pose proof (StronglySorted_nth _ _ _ _ _ _ Hs Hij H1 H2) as Hlt. simpl in Hlt.
    unfold cmp_key_at in *. rewrite H2 in Hg. rewrite H1. rewrite Nat.compare_gt_iff in Hg.
    apply Nat.compare_lt_iff. lia. }
  specialize (H P1 P2). destruct (binary_search _ _) as [i|i].
  - destruct H as [Hi He]. destruct (Hn i Hi) as (k & v & Hk). unfold cmp_key_at in He.
    rewrite Hk in He. apply Nat.compare_eq in He. subst.
    rewrite (proj2 (idx_ok _ _ _) Hk). simpl. eapply nth_error_In; eauto.
  - destruct H as (Hi & Hlo & Hhi). intros e Hin. apply In_nth_error in Hin. destruct Hin as [j Hj].
    pose proof (nth_error_lt _ _ _ Hj) as Hjl.
    destruct (le_lt_dec i j) as [Hij|Hij].
    + specialize (Hhi j Hij Hjl). unfold cmp_key_at in Hhi. rewrite Hj in Hhi.
      rewrite Nat.compare_refl in Hhi. discriminate.
    + specialize (Hlo j Hij). unfold cmp_key_at in Hlo. rewrite Hj in Hlo.
      rewrite Nat.compare_refl in Hlo. discriminate.
Qed.

Lemma id_pairs_in l id e : In (id, e) (id_pairs l) <-> exists x, In x l /\ c_id x = Some id /\ c_idx x = e.
Proof.
  induction l as [|x l IH]; simpl.
  - split; [tauto|]. intros (x & [] & _).
  - destruct (c_id x) as [i|] eqn:E; simpl; rewrite IH; split.
    + intros [H|(y & Hy & H)]; [injection H as H1 H2; subst; exists x; auto|eauto].
    + intros (y & [->|Hy] & H1 & H2); [left; congruence|eauto].
    + intros (y & Hy & H); eauto.
    + intros (y & [->|Hy] & H1 & H2); [congruence|eauto].
Qed.

(** id lookup and id access are inverse *)
Definition ids_inverse (g : graph) : Prop :=
  (forall id e, edge_try_idx_from g id = Ok e <-> edge_try_id g e = Ok (Some id)) /\
  (forall id, (exists e, edge_try_idx_from g id = Ok e) \/ (exists s, edge_try_idx_from g id = Err s)).

Lemma ids_inverse_of_map g :
  StronglySorted (fun p q : nat * nat => fst p < fst q) (edge_ids_map g) ->
  (forall id e, In (id, e) (edge_ids_map g) <-> nth_error (edge_ids g) e = Some (Some id)) ->
  ids_inverse g.
Proof.
  intros Hs Hin. split.
  - intros id e. pose proof (id_map_lookup g id Hs) as H.
    unfold edge_try_id. rewrite idx_ok, <- Hin.
    destruct (edge_try_idx_from g id) as [e'|s| |]; split; intros H'; try tauto.
    + injection H' as <-. exact H.
    + f_equal. clear - Hs H H'. set (m := edge_ids_map g) in *.
      apply In_nth_error in H, H'. destruct H as [i Hi], H' as [j Hj].
      destruct (lt_eq_lt_dec i j) as [[Hlt|Heq]|Hlt].
      * pose proof (StronglySorted_nth _ _ _ _ _ _ Hs Hlt Hi Hj) as Hc. simpl in Hc. lia.
      * subst. congruence.
      * pose proof (StronglySorted_nth _ _ _ _ _ _ Hs Hlt Hj Hi) as Hc. simpl in Hc. lia.
    + discriminate.
    + exfalso. eapply H; eauto.
  - intros id. pose proof (id_map_lookup g id Hs) as H.
    destruct (edge_try_idx_from g id); try tauto; eauto.
Qed.

Lemma core_ids_inverse es b c K g : core_spec es b c K g -> ids_inverse g.
Proof.
  intros Hg. destruct (build_id_map_spec _ _ (cs_idmap _ _ _ _ _ Hg)) as [Hp Hs].
  apply ids_inverse_of_map; auto. intros id e.
  rewrite (cs_eids _ _ _ _ _ Hg), nth_error_map. split.
  - intros Hin. eapply Permutation_in in Hin; [|exact Hp]. apply id_pairs_in in Hin.
    destruct Hin as (x & Hx & Hid & <-). destruct (core_edges_in _ _ Hx) as (k & Hk & _ & _ & Hi).
    rewrite Hk. simpl. congruence.
  - destruct (nth_error K e) as [k|] eqn:Ek; simpl; [|discriminate]. intros H. injection H as Hid.
    eapply Permutation_in; [symmetry; exact Hp|]. apply id_pairs_in. eexists. split; [|split].
    + eapply nth_error_In. apply core_edges_nth. exact Ek.
    + exact Hid.
    + reflexivity.
Qed.

Lemma identity_ids_inverse g m :
  edge_ids g = map Some (seq 0 m) -> edge_ids_map g = identity_map m -> ids_inverse g.
Proof.
  intros H1 H2. apply ids_inverse_of_map; rewrite ?H1, H2; unfold identity_map.
  - apply StronglySorted_map. simpl. clear.
    generalize 0. induction m as [|m IH]; intros s; simpl; constructor; [apply IH|].
    rewrite Forall_forall. intros x Hx. apply in_seq in Hx. lia.
  - intros id e. rewrite in_map_iff, nth_error_map. split.
    + intros (x & Hx & Hin). injection Hx as <- <-. apply in_seq in Hin.
      assert (E : nth_error (seq 0 m) x = Some x).
      { rewrite nth_error_nth' with (d := 0) by (rewrite seq_length; lia). rewrite seq_nth by lia. reflexivity. }
      now rewrite E.
    + destruct (nth_error (seq 0 m) e) as [x|] eqn:E; simpl; [|discriminate]. intros H. injection H as ->.
      pose proof (nth_error_lt _ _ _ E) as Hlt. rewrite seq_length in Hlt.
      rewrite nth_error_nth' with (d := 0) in E by (rewrite seq_length; lia).
      rewrite seq_nth in E by lia. injection E as E. simpl in E. subst.
      exists id. split; auto. apply in_seq. lia.
Qed.
