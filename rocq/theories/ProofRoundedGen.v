(** Generating metrics with arithmetic that rounds: lemmas for C67 *)
From Coq Require Import String List Bool Arith ZArith QArith Lia.
From Verif Require Import Base F64 ModelApprox ModelUnits ModelConfig ModelGraph ModelBuild Lib ProofNodes ProofStages ProofBuild ProofGraph
  Spec ProofMetrics ProofProps SpecGenerate ProofGenerate ModelRounded ModelRoundedHeap ModelRoundedMetrics ModelRoundedBuild SpecRoundedGen ProofRoundedBuild ProofRoundedBuild2.
Import ListNotations.
Open Scope nat_scope.

Section Gen.
  Variables (ar : f64 -> f64) (uc : unit_info -> unit_info -> f64 -> f64) (hav : coord -> coord -> f64).

  Lemma rconvert_by fu tu x y : rtry_convert uc fu tu x = Ok y -> converted_by uc fu tu x y.
  Proof.
    unfold rtry_convert. destruct (rconvert_opt uc fu tu x) as [z|] eqn:E; [|discriminate]. intros H. injection H as <-.
    unfold converted_by. destruct fu, tu; cbn in E; try discriminate; injection E as <-;
      first [left; split; [auto|reflexivity]|right; split; [discriminate|]; split; [|reflexivity]; first [constructor 1; cbn; tauto|constructor 2; cbn; tauto]].
  Qed.
  Lemma rcalc_by ru au x bu y z : rtry_calc ar uc ru au x bu y = Ok z -> calculated_by ar uc ru au x bu y z.
  Proof.
    unfold rtry_calc, calculated_by, rdiv. intros H. destruct ru, au, bu; cbn in H; try discriminate; injection H as <-; (split; [reflexivity|]); cbn; auto 10.
  Qed.

  Lemma rgen_step_spec g gc g' : desc_l g -> rgen_step ar uc hav g gc = Ok g' -> desc_l g' /\ meets_rounded ar uc hav g g' gc.
  Proof.
    intros D H. pose proof D as (D1 & D2 & D3).
    destruct gc as [info id|u id d|u id|fu fid tu tid|fu fid tu tid|ru rid au aid bu bid|rows eid info];
      cbn [rgen_step meets_rounded] in *; try exact (gen_step_spec hav g _ g' D H).
    - cbn [meets_formula]. destruct u; try discriminate. apply bind_ok in H. destruct H as (ms & H1 & H). injection H as <-.
      pose proof (mapM_length _ _ _ H1) as L. rewrite enumerate_length in L. apply mapM_ok in H1.
      assert (Y : desc_l (push_metric_cfg (with_metrics g ms) Kilometers id) /\
        adds_metric g (push_metric_cfg (with_metrics g ms) Kilometers id) Kilometers id (fun e y =>
          exists s d cs cd, edge_from_to g e s d /\ node_coord g s = Ok cs /\ node_coord g d = Ok cd /\ y = hav cs cd)).
      { apply adds_lemma; auto. intros e m Em.
        assert (Hen : nth_error (enumerate (metrics g)) e = Some (e, m)) by now rewrite enumerate_nth, Em.
        destruct (Forall2_nth _ _ _ _ _ H1 Hen) as (m' & Em' & E). unfold rhaversine_edge in E. cbn [fst snd] in E.
        apply bind_ok in E. destruct E as (s & Es & E). apply bind_ok in E. destruct E as (dd & Ed & E).
        apply bind_ok in E. destruct E as (cs & Ecs & E). apply bind_ok in E. destruct E as (cd & Ecd & E).
        cbn [rtry_convert rconvert_opt bind] in E. injection E as <-.
        exists (hav cs cd). split; auto. exists s, dd, cs, cd. repeat split; auto. }
      destruct Y. auto.
    - apply bind_ok in H. destruct H as (mi & Hi & H). apply bind_ok in H. destruct H as (ms & H1 & H).
      injection H as <-. pose proof (mapM_length _ _ _ H1) as L. apply mapM_ok in H1. apply idx_of_first in Hi.
      apply adds_lemma; auto. intros e m Em. destruct (Forall2_nth _ _ _ _ _ H1 Em) as (m' & Em' & E).
      cbn beta in E. apply bind_ok in E. destruct E as (x & Ex & E). apply bind_ok in E. destruct E as (y & Ey & E).
      injection E as <-. exists y. split; auto. exists x. apply idx_ok in Ex. split; [eapply metric_named; eauto|now apply rconvert_by].
    - apply bind_ok in H. destruct H as (mi & Hi & H). apply bind_ok in H. destruct H as (ms & H1 & H).
      apply bind_ok in H. destruct H as (us & Hu & H). apply bind_ok in H. destruct H as (is & His & H).
      injection H as <-. pose proof (mapM_length _ _ _ H1) as L. apply mapM_ok in H1. apply idx_of_first in Hi.
      apply set_ok in Hu. destruct Hu as [Lu ->]. apply set_ok in His. destruct His as [Li ->].
      change (mi < length (units_of g)) in Lu. change (mi < length (ids_of g)) in Li.
      assert (K : forall e m, nth_error (metrics g) e = Some m -> exists x y, nth_error m mi = Some x /\
                converted_by uc fu tu x y /\ nth_error ms e = Some (upd m mi y) /\ mi < length m).
      { intros e m Em. destruct (Forall2_nth _ _ _ _ _ H1 Em) as (m' & Em' & E).
        cbn beta in E. apply bind_ok in E. destruct E as (x & Ex & E). apply bind_ok in E. destruct E as (y & Ey & E).
        apply set_ok in E. destruct E as [Lm ->]. apply idx_ok in Ex. apply rconvert_by in Ey. exists x, y. auto. }
      assert (K0 : forall e, nth_error (metrics g) e = None -> nth_error ms e = None).
      { intros e E. apply nth_error_None in E. apply nth_error_None. lia. }
      split.
      + split; [|split].
        * unfold ids_of, units_of. cbn. rewrite !upd_length. exact D1.
        * cbn. rewrite L. exact D2.
        * intros e m' E. cbn [metrics with_edge_cfg with_cfg with_metrics] in E.
          unfold ids_of. cbn. rewrite upd_length.
          destruct (nth_error (metrics g) e) as [m|] eqn:Em; [|rewrite K0 in E by auto; discriminate].
          destruct (K e m Em) as (x & y & _ & _ & E' & _). rewrite E in E'. injection E' as ->.
          rewrite upd_length. apply (D3 e m Em).
      + exists mi. split; auto. split; [exact Li|]. split; [reflexivity|]. split; [|split; [|split]].
        * intros j. unfold ids_of. cbn. rewrite nth_error_upd.
          destruct (Nat.eqb_spec mi j) as [->|Hn]; simpl.
          -- rewrite Nat.eqb_refl. change (ec_ids (cfg_edges (g_cfg g))) with (ids_of g).
             apply Nat.ltb_lt in Li. now rewrite Li.
          -- destruct (Nat.eqb_spec j mi); [congruence|]. reflexivity.
        * intros j. unfold units_of. cbn. rewrite nth_error_upd.
          destruct (Nat.eqb_spec mi j) as [->|Hn]; simpl.
          -- rewrite Nat.eqb_refl. change (ec_units (cfg_edges (g_cfg g))) with (units_of g).
             apply Nat.ltb_lt in Lu. now rewrite Lu.
          -- destruct (Nat.eqb_spec j mi); [congruence|]. reflexivity.
        * intros e j Hj. rewrite !metric_of_nth. cbn [metrics with_edge_cfg with_cfg with_metrics].
          destruct (nth_error (metrics g) e) as [m|] eqn:Em; [|now rewrite K0].
          destruct (K e m Em) as (x & y & _ & _ & -> & _). apply nth_error_upd_neq; congruence.
        * intros e x. rewrite !metric_of_nth. cbn [metrics with_edge_cfg with_cfg with_metrics].
          destruct (nth_error (metrics g) e) as [m|] eqn:Em; [|discriminate]. intros Ex.
          destruct (K e m Em) as (x' & y & Ex' & Ey & -> & Lm). exists y. split.
          -- now apply nth_error_upd_eq.
          -- congruence.
    - apply bind_ok in H. destruct H as (ma & Ha & H). apply bind_ok in H. destruct H as (mb & Hb & H).
      apply bind_ok in H. destruct H as (ms & H1 & H).
      injection H as <-. pose proof (mapM_length _ _ _ H1) as L. apply mapM_ok in H1. apply idx_of_first in Ha, Hb.
      apply adds_lemma; auto. intros e m Em. destruct (Forall2_nth _ _ _ _ _ H1 Em) as (m' & Em' & E).
      cbn beta in E. apply bind_ok in E. destruct E as (x & Ex & E). apply bind_ok in E. destruct E as (y & Ey & E).
      apply bind_ok in E. destruct E as (z & Ez & E). injection E as <-. exists z. split; auto. exists x, y.
      apply idx_ok in Ex, Ey. apply rcalc_by in Ez. split; [eapply metric_named; eauto|]. split; [eapply metric_named; eauto|exact Ez].
  Qed.

  Lemma rgen_steps_spec gcs : forall g g', desc_l g -> foldM (rgen_step ar uc hav) gcs g = Ok g' ->
    desc_l g' /\ rounded_steps ar uc hav g gcs g'.
  Proof.
    induction gcs as [|gc gcs IH]; intros g g' D H; cbn [foldM] in H.
    - injection H as <-. split; auto. constructor.
    - apply bind_ok in H. destruct H as (g1 & H1 & H). destruct (rgen_step_spec _ _ _ D H1) as [D1 F1].
      destruct (IH _ _ D1 H) as [D2 S2]. split; auto. econstructor; eauto.
  Qed.

  Lemma rnormalize_desc g g' : desc_l g -> rnormalize ar g = Ok g' -> desc_l g' /\ g_cfg g' = g_cfg g.
  Proof.
    intros (D1 & D2 & D3). unfold rnormalize. destruct (ec_normalized _).
    - destruct (edge_count g FWD =? 0); [discriminate|]. destruct (existsb _ _); [discriminate|].
      intros H. apply bind_ok in H. destruct H as (ms & H1 & H). injection H as <-.
      pose proof (mapM_length _ _ _ H1) as L. apply mapM_ok in H1.
      split; [|reflexivity]. split; [exact D1|]. split; [cbn; now rewrite L|].
      intros e m' E. cbn [metrics with_means with_metrics] in E.
      destruct (Forall2_nth_r _ _ _ _ _ H1 E) as (m & Em & Hm). cbn beta in Hm.
      unfold rnormalize_vec in Hm. apply mapM_length in Hm. rewrite Hm, enumerate_length.
      unfold ids_of in *. cbn. exact (D3 e m Em).
    - intros H. injection H as <-. split; [split; auto|reflexivity].
  Qed.

  Lemma rgen_step_normalized g gc g' : rgen_step ar uc hav g gc = Ok g' ->
    ec_normalized (cfg_edges (g_cfg g')) = ec_normalized (cfg_edges (g_cfg g)).
  Proof.
    intros H. destruct gc as [info id|u id d|u id|fu fid tu tid|fu fid tu tid|ru rid au aid bu bid|rows eid info];
      cbn [rgen_step] in *; try exact (gen_step_normalized _ _ _ _ H).
    - destruct u; try discriminate. apply bind_ok in H. destruct H as (ms & _ & H). injection H as <-. reflexivity.
    - apply bind_ok in H. destruct H as (mi & _ & H). apply bind_ok in H. destruct H as (ms & _ & H). injection H as <-. reflexivity.
    - apply bind_ok in H. destruct H as (mi & _ & H). apply bind_ok in H. destruct H as (ms & _ & H).
      apply bind_ok in H. destruct H as (us & _ & H). apply bind_ok in H. destruct H as (is & _ & H). injection H as <-. reflexivity.
    - apply bind_ok in H. destruct H as (ma & _ & H). apply bind_ok in H. destruct H as (mb & _ & H).
      apply bind_ok in H. destruct H as (ms & _ & H). injection H as <-. reflexivity.
  Qed.
  Lemma rgen_steps_normalized gcs : forall g g', foldM (rgen_step ar uc hav) gcs g = Ok g' ->
    ec_normalized (cfg_edges (g_cfg g')) = ec_normalized (cfg_edges (g_cfg g)).
  Proof.
    induction gcs as [|gc gcs IH]; intros g g' H; cbn [foldM] in H; [now injection H as <-|].
    apply bind_ok in H. destruct H as (g1 & H1 & H). rewrite (IH _ _ H). exact (rgen_step_normalized _ _ _ H1).
  Qed.

  (** all stages *)
  Lemma rbuild_steps c ch1 ch2 es ns g : 1 <= ch1 -> 1 <= ch2 -> rbuild ar uc hav c ch1 ch2 es ns = Ok g ->
    length (ec_ids (cfg_edges c)) = length (ec_units (cfg_edges c)) -> fitting_edges c es ->
    exists g0 g1, desc_l g0 /\ desc_l g1 /\ desc_l g /\
      ids_of g0 = ec_ids (cfg_edges c) /\ units_of g0 = ec_units (cfg_edges c) /\
      rounded_steps ar uc hav g0 (cfg_gen_edges c) g1 /\ rnormalize ar g1 = Ok g /\ g_cfg g = g_cfg g1 /\
      ec_normalized (cfg_edges (g_cfg g1)) = ec_normalized (cfg_edges c) /\
      edge_count g0 FWD = edge_count g FWD /\
      (forall e, e < edge_count g FWD -> exists pe, In pe es /\ same_ends g e pe /\ edge_metrics g0 e = Ok (map (rclamp ar) (pe_metrics pe))).
  Proof.
    intros H1 H2 E Hl Hf. destruct (rbuild_split _ _ _ _ _ _ _ _ _ H1 H2 E) as (b & gc & g1 & c' & _ & Hb & Ec & En & Eg & Er & Nt & _).
    destruct (rcore_traced ar es b c ch1 ch2 gc H1 H2 Hb Ec) as [A _]. destruct (rcore_size ar es b c ch1 ch2 gc H1 H2 Hb Ec) as (Hs & _ & Hc).
    destruct (gen_node_edges _ _ _ En) as [Q1 Q2].
    assert (D0 : desc_l (with_cfg gc c')).
    { split; [|split].
      - unfold ids_of, units_of. cbn. rewrite Q1. exact Hl.
      - exact Hs.
      - intros e m E'. unfold ids_of. cbn [g_cfg with_cfg]. rewrite Q1. cbn [metrics with_cfg] in E'.
        assert (He : e < edge_count gc FWD) by (rewrite <- Hs; exact (nth_error_lt _ _ _ E')).
        destruct (A e He) as (pe & Hpe & _ & _ & Hm). unfold edge_metrics in Hm. apply idx_ok in Hm. rewrite E' in Hm. injection Hm as ->.
        rewrite map_length, Hl. now apply Hf. }
    destruct (rgen_steps_spec _ _ _ D0 Eg) as [D1 S1]. destruct (rnormalize_desc _ _ D1 Er) as [D2 Ecf].
    exists (with_cfg gc c'), g1. split; [exact D0|]. split; [exact D1|]. split; [exact D2|].
    unfold ids_of, units_of. cbn [g_cfg with_cfg]. rewrite Q1. split; [reflexivity|]. split; [reflexivity|]. split; [exact S1|]. split; [exact Er|].
    split; [exact Ecf|]. split; [rewrite (rgen_steps_normalized _ _ _ Eg); cbn [g_cfg with_cfg]; now rewrite Q1|].
    split; [symmetry; exact (net_edge_count _ _ FWD Nt)|].
    intros e He. rewrite (net_edge_count _ _ FWD Nt) in He. destruct (A e He) as (pe & Hpe & (s & d & [F1 F2] & Es & Ed) & _ & Hm). exists pe. split; [exact Hpe|].
    split; [|exact Hm]. exists s, d. unfold edge_from_to, node_id in *. rewrite !(net_dst_idx gc g) by auto. rewrite (sn_ids _ _ Nt). auto.
  Qed.
End Gen.
