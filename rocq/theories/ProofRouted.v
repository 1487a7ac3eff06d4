(** The answered of a run *)
From Coq Require Import String Ascii List Bool Arith NArith ZArith QArith Lia Lqa.
From Verif Require Import Base F64 Lib ModelText ModelUnits ModelConfig ModelGraph ModelBuild ModelDijkstra ModelRoutingCfg ModelBalancing
  ModelFmi ModelParsing ModelYaml ModelDocs ModelProgram Spec SpecRouting SpecPaths SpecGenerate SpecProgram SpecRouted
  ProofGraph ProofRouting ProofDijkstra ProofProgram ProofProgram2 ProofNonneg PropsGraph PropsRouting PropsPaths SpecExplorator PropsExplorator.
Import ListNotations.
Open Scope nat_scope.

Lemma two_nodes_panic pick fuel g rc s t st' r : node_count g = 2 -> Forall not_negative (rc_alphas rc) ->
  compute_best_path pick fuel dijkstra_new g rc s t <> Ok (st', r).
Proof.
  intros Hn Ha E. rewrite compute_split in E.
  destruct (existsb (fun a => fltb a f0) (rc_alphas rc)) eqn:Ex.
  { apply existsb_exists in Ex. destruct Ex as (a & Hin & Hlt). rewrite Forall_forall in Ha. specialize (Ha a Hin).
    apply not_lt_zero in Ha. congruence. }
  apply bind_ok in E. destruct E as (ch & _ & E). apply bind_ok in E. destruct E as (st0 & E0 & E).
  rewrite Hn in E0. apply (init_query_spec 0) in E0; [|apply clean_new]. subst st0. unfold query in E.
  apply bind_ok in E. destruct E as (st1 & E1 & _). unfold start in E1. apply bind_ok in E1. destruct E1 as (cf & E1 & _).
  cbn in E1. discriminate.
Qed.

Section Answers.
  Variables (hav : coord -> coord -> f64) (c : cfg) (ch1 ch2 : nat) (es : list proto_edge) (ns : list proto_node) (g : graph).
  Hypothesis H1 : 1 <= ch1.
  Hypothesis H2 : 1 <= ch2.
  Hypothesis HB : build hav c ch1 ch2 es ns = Ok g.
  Hypothesis Hnn : nonneg_metrics g.
  Hypothesis Hal : aligned_metrics g.
  Variable e : env.
  Variable rc : routing_cfg.
  Hypothesis Ha : Forall not_negative (rc_alphas rc).
  Variable delta : Q.
  Hypothesis Hdel : (0 <= delta)%Q.
  Hypothesis Hpk : picks_min delta (e_pick e).

  Lemma into_node_named p n : into_node g p = Ok n -> node_named g (fst p) (fst n) /\ node_named g (snd p) (snd n).
  Proof.
    intros H. unfold into_node in H. apply bind_ok in H. destruct H as (s & Es & H).
    apply bind_ok in H. destruct H as (s' & Es' & H). apply bind_ok in H. destruct H as (t & Et & H).
    apply bind_ok in H. destruct H as (t' & Et' & H). injection H as <-. cbn [fst snd].
    destruct (C04_node_lookup _ _ _ _ _ _ _ H1 H2 HB) as (Hi & _ & _ & _).
    assert (K : forall z o v, node_create_from g z = Ok o -> expect o = Ok v -> node_named g z (n_idx v)).
    { intros z o v A B. unfold node_create_from in A.
      destruct (node_idx_from (node_ids g) z) as [i|i] eqn:Ei; [|injection A as <-; discriminate].
      apply bind_ok in A. destruct A as (x & Ex & A). injection A as <-. injection B as <-.
      unfold node_create in Ex. apply bind_ok in Ex. destruct Ex as (y & Ey & Ex). apply bind_ok in Ex. destruct Ex as (co & _ & Ex).
      apply bind_ok in Ex. destruct Ex as (l & _ & Ex). injection Ex as <-. cbn [n_idx]. apply Hi in Ei.
      split; [|exact Ei]. unfold node_id in Ei. apply idx_ok in Ei. apply nth_error_Some. congruence. }
    split; eauto.
  Qed.

  Lemma flatten_unrolled fuel s t p p' :
    p_src_idx p = s -> p_dst_idx p = t -> node_id g s = Ok (p_src_id p) -> node_id g t = Ok (p_dst_id p) ->
    connects g s (p_edges p) t -> flatten g fuel p = Ok p' -> unrolled g s t (p_edges p) p'.
  Proof.
    intros A B C D Hc F. unfold flatten in F. destruct (try_flatten g fuel p) as [p''| | |] eqn:E; try discriminate.
    injection F as ->.
    destruct (C24_flattened _ _ _ _ _ _ _ _ _ _ H1 H2 HB Hal E) as ((S1 & S2 & S3 & S4) & F1 & F2 & F3 & F4 & F5).
    unfold unrolled. rewrite S1, S2, S3, S4. repeat (split; [assumption|]).
    split.
    { destruct F3 as (cs & Ec & Hl & Hs). exists cs. split; [|split; auto]. unfold path_costs in Ec. destruct (p_costs p'); [|discriminate].
      injection Ec as ->. reflexivity. }
    split; [intros Hf; apply F4; auto|exact F5].
  Qed.

  Lemma route_once_ok st acc pair st' acc' : history st -> roomy st g ->
    route_once e g rc (st, acc) pair = Ok (st', acc') ->
    history st' /\ exists r, acc' = acc ++ [r] /\
      (rc_algo rc = ADijkstra -> answered g rc (2 * delta) pair r) /\
      (rc_algo rc = ACHDijkstra -> answered_ch g rc delta pair r).
  Proof.
    intros Hh Hr E. unfold route_once in E. apply bind_ok in E. destruct E as (n & En & E).
    destruct (into_node_named _ _ En) as [Ns Nt]. cbn [fst snd] in E.
    apply bind_ok in E. destruct E as ([st1 o] & Ec & E). cbn [fst snd] in E.
    assert (Hs := proj1 Ns). assert (Ht := proj1 Nt).
    destruct o as [p|].
    - apply bind_ok in E. destruct E as (p' & Ep & E). injection E as <- <-.
      split; [econstructor; eauto|]. eexists. split; [reflexivity|].
      destruct (C16_real_path _ _ _ _ _ _ _ _ _ _ _ _ _ _ _ H1 H2 HB Hnn Hh Hr Hs Ht (proj1 Hpk) Ec)
        as (A1 & A2 & A3 & A4 & _ & A5 & _ & A6).
      split; intros Halg; (split; [exact Ns|split; [exact Nt|right]]).
      + destruct (C18_optimal _ _ _ _ _ _ _ _ _ _ _ _ _ _ _ _ H1 H2 HB Hnn Hh Hr Hs Ht Hdel Hpk Halg Ec) as (qp & Hq & Ho).
        exists p', (p_edges p), qp. split; [reflexivity|]. cbn [r_src r_dst]. split; [eapply flatten_unrolled; eauto|]. auto.
      + destruct (C19_ch_optimal _ _ _ _ _ _ _ _ _ _ _ _ _ _ _ _ H1 H2 HB Hnn Hh Hr Hs Ht Hdel Hpk Halg Ec) as (_ & qp & Hq & Ho).
        exists p', (p_edges p), qp. split; [reflexivity|]. cbn [r_src r_dst]. split; [eapply flatten_unrolled; eauto|]. auto.
    - injection E as <- <-. split; [econstructor; eauto|]. eexists. split; [reflexivity|].
      split; intros Halg; (split; [exact Ns|split; [exact Nt|left]]); (split; [reflexivity|]); cbn [r_src r_dst].
      + apply (C17_found_iff _ _ _ _ _ _ _ _ _ _ _ _ _ _ _ H1 H2 HB Hnn Hh Hr Hs Ht Ha (proj1 Hpk) Halg Ec). reflexivity.
      + apply (C17_found_iff_ch _ _ _ _ _ _ _ _ _ _ _ _ _ _ _ H1 H2 HB Hnn Hh Hr Hs Ht Ha (proj1 Hpk) Halg Ec). reflexivity.
  Qed.

  Lemma route_all_ok pairs : node_count g <> 2 -> forall st acc st' acc', history st ->
    foldM (route_once e g rc) pairs (st, acc) = Ok (st', acc') ->
    exists rs, acc' = acc ++ rs /\
      (rc_algo rc = ADijkstra -> Forall2 (answered g rc (2 * delta)) pairs rs) /\
      (rc_algo rc = ACHDijkstra -> Forall2 (answered_ch g rc delta) pairs rs).
  Proof.
    intros Hn. induction pairs as [|pair pairs IH]; intros st acc st' acc' Hh E; cbn [foldM] in E.
    - injection E as <- <-. exists []. rewrite app_nil_r. auto.
    - apply bind_ok in E. destruct E as ([st1 acc1] & E1 & E).
      destruct (route_once_ok st acc pair st1 acc1 Hh) as (Hh1 & r & -> & R1 & R2); [intros ?; contradiction|exact E1|].
      destruct (IH _ _ _ _ Hh1 E) as (rs & -> & F1 & F2). exists (r :: rs). rewrite <- app_assoc. split; [reflexivity|]. auto.
  Qed.

  Lemma route_new_ok pairs st' rs :
    foldM (route_once e g rc) pairs (dijkstra_new, []) = Ok (st', rs) ->
    (rc_algo rc = ADijkstra -> Forall2 (answered g rc (2 * delta)) pairs rs) /\
    (rc_algo rc = ACHDijkstra -> Forall2 (answered_ch g rc delta) pairs rs).
  Proof.
    destruct pairs as [|pair pairs]; [cbn [foldM]; intros E; injection E as <- <-; auto|]. intros E.
    assert (Hn : node_count g <> 2).
    { intros Hn. cbn [foldM] in E. apply bind_ok in E. destruct E as (s1 & E & _). unfold route_once in E. cbn [fst snd] in E.
      apply bind_ok in E. destruct E as (n & _ & E). apply bind_ok in E. destruct E as ([st1 o] & E & _).
      exact (two_nodes_panic _ _ _ _ _ _ _ _ Hn Ha E). }
    destruct (route_all_ok _ Hn _ _ _ _ history_new E) as (rs' & -> & A & B). auto.
  Qed.

  Lemma explore_all_ok pairs : fresh_ids (e_tri e) (e_tri_new e) (e_tri_add e) -> node_count g <> 2 ->
    forall st acc st' acc', history st ->
    foldM (explore_once e g rc) pairs (st, acc) = Ok (st', acc') ->
    exists rs, acc' = acc ++ rs /\ Forall2 (explored_paths g) pairs rs.
  Proof.
    intros Hf Hn. induction pairs as [|pair pairs IH]; intros st acc st' acc' Hh E; cbn [foldM] in E.
    - injection E as <- <-. exists []. rewrite app_nil_r. auto.
    - apply bind_ok in E. destruct E as ([st1 acc1] & E1 & E). unfold explore_once in E1. cbn [fst snd] in E1.
      apply bind_ok in E1. destruct E1 as (n & En & E1). destruct (into_node_named _ _ En) as [Ns Nt].
      apply bind_ok in E1. destruct E1 as ([st2 ps] & Ex & E1). injection E1 as <- <-. cbn [fst snd] in *.
      destruct (run_spec _ _ _ _ _ _ _ _ _ _ _ _ _ _ _ _ _ _ _ _ _ Hf H1 H2 HB Hnn Hal Hh (fun x => match Hn x with end) (proj1 Ns) (proj1 Nt) (proj1 Hpk) Ex)
        as (st3 & tol & new & _ & [Hh1 _] & Hp).
      destruct (IH _ _ _ _ Hh1 E) as (rs & -> & F). eexists. rewrite <- app_assoc. split; [reflexivity|]. constructor; [|exact F].
      split; [exact Ns|]. split; [exact Nt|]. cbn [r_paths r_src r_dst]. intros p Hin. apply (Hp p Hin).
  Qed.
End Answers.

(** a negative weight: nothing is found *)
Lemma route_negative e g rc a pairs : In a (rc_alphas rc) -> ~ not_negative a -> forall st acc st' acc',
  foldM (route_once e g rc) pairs (st, acc) = Ok (st', acc') ->
  exists rs, acc' = acc ++ rs /\ length rs = length pairs /\ forall r, In r rs -> r_paths r = [].
Proof.
  intros Hin Hneg. induction pairs as [|pair pairs IH]; intros st acc st' acc' E; cbn [foldM] in E.
  - injection E as <- <-. exists []. rewrite app_nil_r. split; auto. split; auto. intros r [].
  - apply bind_ok in E. destruct E as ([st1 acc1] & E1 & E). unfold route_once in E1. cbn [fst snd] in E1.
    apply bind_ok in E1. destruct E1 as (n & _ & E1). rewrite (C20_negative_alpha _ _ _ _ _ _ _ a Hin Hneg) in E1.
    cbn [bind fst snd] in E1. injection E1 as <- <-. destruct (IH _ _ _ _ E) as (rs & -> & Hl & Hp).
    eexists. rewrite <- app_assoc. split; [reflexivity|]. split; [simpl; auto|]. intros r [<-|Hr]; auto.
Qed.

(** a run which routes *)
Lemma run_routes e a w w' rs : a_balancing a = false -> a_evaluating a = false -> a_routing a = true ->
  run e a w = (w', Ok rs) ->
  exists d g p rc pairs, says e w (read_parsing (e_scalars e)) (a_cfg a) d /\ graph_of e w d g /\
    routing_says e w (a_cfg a) g (Some p) rc /\ pairs_in e w' p pairs /\
    exists st', foldM (match rc_algo rc with
                       | AExplorator _ => explore_once e g rc
                       | _ => route_once e g rc
                       end) pairs (dijkstra_new, []) = Ok (st', rs).
Proof.
  intros Hb He Hro E. rewrite ProofProgram2.run_split in E by auto.
  destruct (front_ok _ _ _ _ _ E) as (_ & d & g & Hd & Hg & _ & _ & _ & H). destruct (H He Hro) as (w1 & K1 & E1).
  apply next_ok in E1. destruct E1 as (w2 & rc & L & E1). apply load_ok in L. destruct L as [S2 L].
  apply next_ok in E1. destruct E1 as (w3 & pairs & P & E1). apply pairs_ok in P. destruct P as (S3 & p & Ep & P).
  apply next_ok in E1. destruct E1 as (w4 & r & F & E1). apply lift_ok in F. destruct F as [-> F].
  apply ret_ok in E1. destruct E1 as [-> <-]. exists d, g, p, (snd rc), pairs. split; auto. split; auto. split.
  { assert (Ht : exists t0, file_at e w (a_cfg a) = Some t0) by (destruct Hd as (t & y & Ht & _); eauto).
    destruct Ht as [t0 Ht]. unfold routing_says. rewrite <- Ep, <- surjective_pairing.
    eapply says_back; [|exact Ht|exact L]. exact K1. }
  split; [|exists (fst r); rewrite F; now destruct r].
  destruct P as (t & Ht & P). exists t. split; auto. eapply file_kept; [|exact Ht]. now apply same_kept.
Qed.
