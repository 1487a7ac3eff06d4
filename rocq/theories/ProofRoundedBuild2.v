(** Building with rounding, with all stages: lemmas for C67 *)
From Coq Require Import String List Bool Arith ZArith QArith Lia Permutation Sorted.
From Verif Require Import Base F64 Lib ModelApprox ProofApprox ModelUnits ModelConfig ModelGraph ModelBuild ModelParsing ModelRounded ModelRoundedHeap ModelRoundedMetrics
  ModelRoundedBuild Spec SpecRounded SpecRoundedBuild ProofNodes ProofStages ProofBuild ProofGraph ProofOrder ProofProps ProofRoundedBuild.
Import ListNotations.
Open Scope list_scope.
Open Scope nat_scope.

Lemma remeasured_net g0 g : same_net g0 g -> length (metrics g) = length (metrics g0) -> remeasured g0 g.
Proof.
  intros [] L. exists (metrics g), (means g). split; [exact L|]. exists (g_cfg g), (edge_ids g), (edge_ids_map g). destruct g; cbn in *. congruence.
Qed.

(** *** Generating and normalizing keep the network *)
Lemma merge_cols_length ids eid row e cols : forall ms ms', merge_cols ids eid row e ms cols = Ok ms' -> length ms' = length ms.
Proof.
  unfold merge_cols. induction cols as [|[c col] cols IH]; intros ms ms' E; cbn [foldM] in E; [now injection E as <-|].
  apply bind_ok in E. destruct E as (ms1 & E1 & E). rewrite (IH _ _ E). clear IH E.
  cbn [fst snd] in E1. destruct col as [id|]; [|now injection E1 as <-].
  destruct (String.eqb id eid); [now injection E1 as <-|].
  apply bind_ok in E1. destruct E1 as (mi & _ & E1). apply bind_ok in E1. destruct E1 as (t & _ & E1). destruct (tok_f64 t); [|discriminate].
  apply bind_ok in E1. destruct E1 as (old & _ & E1). apply bind_ok in E1. destruct E1 as (new & _ & E1). apply set_ok in E1. destruct E1 as [_ ->]. apply upd_length.
Qed.

Lemma merge_rows_length eid info rows : forall g g', foldM (merge_row eid info) rows g = Ok g' -> length (metrics g') = length (metrics g).
Proof.
  induction rows as [|r rows IH]; intros g g' E; cbn [foldM] in E; [now injection E as <-|].
  apply bind_ok in E. destruct E as (g1 & E1 & E2). rewrite (IH _ _ E2). unfold merge_row in E1.
  apply bind_ok in E1. destruct E1 as (e & _ & E1). apply bind_ok in E1. destruct E1 as (ms & Em & E1). injection E1 as <-.
  exact (merge_cols_length _ _ _ _ _ _ _ Em).
Qed.

Section Generating.
  Variables (ar : f64 -> f64) (uc : unit_info -> unit_info -> f64 -> f64) (hav : coord -> coord -> f64).

  Lemma rgen_step_net g gc g' : rgen_step ar uc hav g gc = Ok g' -> same_net g g' /\ length (metrics g') = length (metrics g).
  Proof.
    intros H. destruct gc as [info id|u id d|u id|fu fid tu tid|fu fid tu tid|ru rid au aid bu bid|rows eid info]; cbn [rgen_step] in H.
    - split; [now destruct (gen_step_net _ _ _ _ H)|]. cbn [gen_step] in H. destruct info; try discriminate; now injection H as <-.
    - split; [now destruct (gen_step_net _ _ _ _ H)|]. cbn [gen_step] in H. injection H as <-. apply map_length.
    - destruct u; try discriminate. apply bind_ok in H. destruct H as (ms & Em & H). injection H as <-.
      split; [constructor; reflexivity|]. apply mapM_length in Em. rewrite enumerate_length in Em. exact Em.
    - apply bind_ok in H. destruct H as (mi & _ & H). apply bind_ok in H. destruct H as (ms & Em & H). injection H as <-.
      split; [constructor; reflexivity|]. exact (mapM_length _ _ _ Em).
    - apply bind_ok in H. destruct H as (mi & _ & H). apply bind_ok in H. destruct H as (ms & Em & H).
      apply bind_ok in H. destruct H as (us & _ & H). apply bind_ok in H. destruct H as (is & _ & H). injection H as <-.
      split; [constructor; reflexivity|]. exact (mapM_length _ _ _ Em).
    - apply bind_ok in H. destruct H as (ma & _ & H). apply bind_ok in H. destruct H as (mb & _ & H).
      apply bind_ok in H. destruct H as (ms & Em & H). injection H as <-.
      split; [constructor; reflexivity|]. exact (mapM_length _ _ _ Em).
    - split; [now destruct (gen_step_net _ _ _ _ H)|]. exact (merge_rows_length _ _ _ _ _ H).
  Qed.

  Lemma rgen_steps_net gcs : forall g g', foldM (rgen_step ar uc hav) gcs g = Ok g' -> same_net g g' /\ length (metrics g') = length (metrics g).
  Proof.
    induction gcs as [|gc gcs IH]; intros g g' E; cbn [foldM] in E; [injection E as <-; split; [apply same_net_refl|auto]|].
    apply bind_ok in E. destruct E as (g1 & E1 & E2). destruct (rgen_step_net _ _ _ E1) as [A B]. destruct (IH _ _ E2) as [A' B'].
    split; [eapply same_net_trans; eauto|congruence].
  Qed.

  Lemma rnormalize_net g g' : rnormalize ar g = Ok g' -> same_net g g' /\ length (metrics g') = length (metrics g).
  Proof.
    unfold rnormalize. destruct (ec_normalized _).
    - destruct (edge_count g FWD =? 0); [discriminate|]. destruct (existsb _ _); [discriminate|]. intros H. apply bind_ok in H.
      destruct H as (ms & Em & H). injection H as <-. split; [constructor; reflexivity|]. exact (mapM_length _ _ _ Em).
    - intros H. injection H as <-. split; [apply same_net_refl|auto].
  Qed.

  (** *** All stages *)
  Lemma rbuild_split c ch1 ch2 es ns g : 1 <= ch1 -> 1 <= ch2 -> rbuild ar uc hav c ch1 ch2 es ns = Ok g ->
    exists b gc g1 c', insert_nodes (eb_next (insert_edges es)) ns = Ok b /\ nb_inv es b /\ rbuild_core ar c ch1 ch2 b = Ok gc /\
      foldM gen_node (cfg_gen_nodes c) c = Ok c' /\ foldM (rgen_step ar uc hav) (cfg_gen_edges c) (with_cfg gc c') = Ok g1 /\ rnormalize ar g1 = Ok g /\
      same_net gc g /\ length (metrics g) = length (metrics gc).
  Proof.
    unfold rbuild, rfinalize. intros H1 H2 E. apply bind_ok in E. destruct E as (b & Eb & E). apply bind_ok in E. destruct E as (gc & E0 & E).
    apply bind_ok in E. destruct E as (g1 & E1 & E2). unfold rgenerate in E1. apply bind_ok in E1. destruct E1 as (c' & Ec & E1).
    destruct (insert_nodes_total es _ ns (nb_inv_init es)) as (b' & Eb' & Hb'). rewrite Eb in Eb'. injection Eb' as <-.
    destruct (gen_dup _ _); [discriminate|]. destruct (rcore_sim _ _ _ _ _ _ _ H1 H2 Hb' E0) as (f & g0 & _ & _ & Eg & _).
    assert (Hc : g_cfg gc = c) by (rewrite Eg; reflexivity). rewrite Hc in *.
    exists b, gc, g1, c'. split; [auto|]. split; [auto|]. split; [auto|]. split; [auto|]. split; [auto|]. split; [auto|].
    destruct (rgen_steps_net _ _ _ E1) as [A B]. destruct (rnormalize_net _ _ E2) as [A' B'].
    split; [|cbn in B; congruence]. eapply same_net_trans; [|eapply same_net_trans; [exact A|exact A']]. constructor; reflexivity.
  Qed.
End Generating.

Lemma recode_next f es : nb_same (eb_next (insert_edges es)) (eb_next (insert_edges (recode f es))).
Proof. destruct (recode_insert f es) as (A & _). unfold nb_same, eb_next. cbn. rewrite A. auto. Qed.

Lemma recode_stand_in f es : Forall2 same_road es (recode f es).
Proof.
  unfold recode. rewrite <- (enumerate_snd es) at 1. induction (enumerate es) as [|[i e] l IH]; cbn; constructor; auto. repeat split.
Qed.

Lemma bare_generate hav g : g_cfg g = bare_cfg -> generate hav g = Ok (with_cfg g bare_cfg).
Proof. intros H. unfold generate. rewrite H. reflexivity. Qed.

(** the result has the network of an exact build *)
Lemma rbuild_sim ar uc hav hav0 c ch1 ch2 es ns g : 1 <= ch1 -> 1 <= ch2 -> rbuild ar uc hav c ch1 ch2 es ns = Ok g ->
  exists es' g0, Forall2 same_road es es' /\ build hav0 bare_cfg ch1 ch2 es' ns = Ok g0 /\ remeasured g0 g.
Proof.
  intros H1 H2 E. destruct (rbuild_split _ _ _ _ _ _ _ _ _ H1 H2 E) as (b & gc & g1 & c' & Eb & Hb & E0 & _ & _ & _ & N & L).
  destruct (rcore_sim _ _ _ _ _ _ _ H1 H2 Hb E0) as (f & g0 & Hs & Hc & Eg & Lm & _).
  destruct (insert_nodes_same ns _ _ _ (recode_next f es) Eb) as (b' & Eb' & Hsame).
  destruct (insert_nodes_total (recode f es) _ ns (nb_inv_init (recode f es))) as (b'' & Eb'' & Hb').
  assert (b'' = b') by congruence. subst b''. pose proof (Hs b' Hb' Hsame) as E0'.
  exists (recode f es), (with_cfg g0 bare_cfg). split; [apply recode_stand_in|]. split.
  - unfold build, finalize. rewrite Eb'. cbn [bind]. rewrite E0'. cbn [bind]. rewrite (bare_generate hav0 g0 Hc). reflexivity.
  - apply remeasured_net.
    + eapply same_net_trans; [|exact N]. rewrite Eg. constructor; reflexivity.
    + rewrite L, Eg. cbn. rewrite map_length. auto.
Qed.

(** *** Where edges stem from *)
Definition rsame_edge (ar : f64 -> f64) (p q : proto_edge) : Prop :=
  pe_src p = pe_src q /\ pe_dst p = pe_dst q /\ pe_id p = pe_id q /\ rapprox_eq_vec ar (pe_metrics p) (pe_metrics q) = true.

Lemma rcore_traced ar es b c ch1 ch2 g : 1 <= ch1 -> 1 <= ch2 -> nb_inv es b -> rbuild_core ar c ch1 ch2 b = Ok g ->
  (forall e, e < edge_count g FWD -> exists pe, In pe es /\ same_ends g e pe /\ nth_error (edge_ids g) e = Some (pe_id pe) /\
     edge_metrics g e = Ok (map (rclamp ar) (pe_metrics pe))) /\
  (forall pe, In pe es -> exists e pe', e < edge_count g FWD /\ In pe' es /\ (pe' = pe \/ rsame_edge ar pe' pe) /\ same_ends g e pe' /\
     nth_error (edge_ids g) e = Some (pe_id pe') /\ edge_metrics g e = Ok (map (rclamp ar) (pe_metrics pe'))).
Proof.
  intros H1 H2 Hb E. pose proof Hb as [Hs Hids _ _ _ _].
  destruct (rcore_sim _ _ _ _ _ _ _ H1 H2 Hb E) as (f & g0 & _ & _ & Eg & _ & _ & Hn & _ & Hfd & Hbd & Hid).
  assert (Hm : metrics g = map (fun e => map (rclamp ar) (b_metrics e)) (rkept ar es b)) by (rewrite Eg; reflexivity). clear Eg.
  assert (Hin : forall pe, In pe es -> In (pe_src pe) (nb_node_ids b) /\ In (pe_dst pe) (nb_node_ids b)).
  { intros x Hx. rewrite !Hids. split; exists x; auto. }
  assert (G : forall e k, nth_error (rkept ar es b) e = Some k -> exists pe, nth_error es (b_idx k) = Some pe /\ k = toB (nb_node_ids b) (mkAof es (b_idx k) pe) /\
     same_ends g e pe /\ nth_error (edge_ids g) e = Some (pe_id pe) /\ edge_metrics g e = Ok (map (rclamp ar) (pe_metrics pe))).
  { intros e k Ek. pose proof (nth_error_In _ _ Ek) as Hk. unfold rkept in Hk. apply dedup_by_in in Hk.
    destruct (sorted_in _ _ _ _ Hk) as (pe & Hpe & Ekk). exists pe. split; [auto|]. split; [auto|].
    destruct (Hin pe (nth_error_In _ _ Hpe)) as [I1 I2].
    destruct (node_idx_from_in _ _ Hs I1) as (i & Q1 & N1). destruct (node_idx_from_in _ _ Hs I2) as (j & Q2 & N2).
    assert (Es : b_src k = i /\ b_dst k = j /\ b_id k = pe_id pe /\ b_metrics k = pe_metrics pe).
    { rewrite Ekk. unfold toB, posn. cbn. rewrite Q1, Q2. auto. }
    destruct Es as (Es & Ed & Ei & Em). split; [|split].
    - exists i, j. split; [split|split].
      + unfold dst_idx. cbn. apply idx_ok. rewrite Hbd, nth_error_map, Ek. cbn. now rewrite Es.
      + unfold dst_idx. cbn. apply idx_ok. rewrite Hfd, nth_error_map, Ek. cbn. now rewrite Ed.
      + unfold node_id. rewrite Hn. now apply idx_ok.
      + unfold node_id. rewrite Hn. now apply idx_ok.
    - rewrite Hid, nth_error_map, Ek. cbn. now rewrite Ei.
    - unfold edge_metrics. apply idx_ok. rewrite Hm, nth_error_map, Ek. cbn. now rewrite Em. }
  assert (Cnt : edge_count g FWD = length (rkept ar es b)) by (unfold edge_count; cbn; rewrite Hfd; apply map_length).
  split.
  - intros e He. rewrite Cnt in He. destruct (nth_error (rkept ar es b) e) as [k|] eqn:Ek; [|apply nth_error_None in Ek; lia].
    destruct (G e k Ek) as (pe & Epe & _ & A). exists pe. split; [eapply nth_error_In; eauto|exact A].
  - intros pe Hpe. apply In_nth_error in Hpe. destruct Hpe as [p Ep].
    destruct (sorted_has es (nb_node_ids b) (nb_levels b) p pe Ep) as (i & Hi). apply nth_error_In in Hi.
    assert (R : exists k, In k (rkept ar es b) /\ (k = toB (nb_node_ids b) (mkAof es p pe) \/ ris_duplicate ar k (toB (nb_node_ids b) (mkAof es p pe)) = true)).
    { destruct (dedup_by_rep (ris_duplicate ar) _ _ Hi) as [K|(k & K & D)]; eauto. }
    destruct R as (k & Hk & HK). apply In_nth_error in Hk. destruct Hk as (e & Ek). destruct (G e k Ek) as (pe' & Epe' & Ekk & A).
    exists e, pe'. split; [rewrite Cnt; eapply nth_error_lt; eauto|]. split; [eapply nth_error_In; eauto|]. split; [|exact A].
    destruct HK as [->|HK]; [left; cbn in Epe'; congruence|]. right. rewrite Ekk in HK. unfold ris_duplicate in HK.
    apply andb_true_iff in HK. destruct HK as [HK Hv]. apply andb_true_iff in HK. destruct HK as [Ho HK]. apply andb_true_iff in HK. destruct HK as [S1 S2].
    destruct (Hin pe (nth_error_In _ _ Ep)) as [I1 I2]. destruct (Hin pe' (nth_error_In _ _ Epe')) as [J1 J2].
    destruct (node_idx_from_in _ _ Hs I1) as (i1 & Q1 & N1). destruct (node_idx_from_in _ _ Hs I2) as (j1 & Q2 & N2).
    destruct (node_idx_from_in _ _ Hs J1) as (i2 & Q3 & N3). destruct (node_idx_from_in _ _ Hs J2) as (j2 & Q4 & N4).
    unfold toB, posn in S1, S2, Ho, Hv. cbn in S1, S2, Ho, Hv. rewrite Q1, Q3 in S1. rewrite Q2, Q4 in S2.
    apply Nat.eqb_eq in S1, S2. subst i2 j2. split; [congruence|]. split; [congruence|]. split; [|exact Hv].
    destruct (pe_id pe') as [x|], (pe_id pe) as [y|]; cbn in Ho; try discriminate; auto. apply Nat.eqb_eq in Ho. now subst.
Qed.

Lemma rcore_size ar es b c ch1 ch2 g : 1 <= ch1 -> 1 <= ch2 -> nb_inv es b -> rbuild_core ar c ch1 ch2 b = Ok g ->
  length (metrics g) = edge_count g FWD /\ rmetrics_too_small ar (metrics g) = false /\ g_cfg g = c.
Proof.
  intros H1 H2 Hb E. destruct (rcore_sim _ _ _ _ _ _ _ H1 H2 Hb E) as (f & g0 & _ & _ & Eg & _ & Hsm & _ & _ & Hfd & _ & _).
  unfold edge_count. cbn. rewrite Hfd. split; [rewrite Eg; cbn; now rewrite !map_length|]. split; [auto|]. rewrite Eg. reflexivity.
Qed.
