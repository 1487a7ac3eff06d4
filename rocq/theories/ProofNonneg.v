(** No metric of a graph is negative if nothing negative is generated. *)
From Coq Require Import String Ascii List Bool Arith NArith ZArith QArith Lia Lqa.
From Verif Require Import Base F64 Lib ModelApprox ModelText ModelUnits ModelConfig ModelGraph ModelBuild ModelDijkstra ModelRoutingCfg ModelBalancing
  ModelFmi ModelParsing ModelStreets ModelYaml ModelDocs ModelProgram Spec SpecRouting SpecPaths SpecGenerate SpecProgram SpecRouted
  ProofBuild ProofGraph ProofMetrics ProofGenerate.
Import ListNotations.
Open Scope nat_scope.

Notation nn := not_negative.

Lemma nn_sign q : (0 <= q)%Q -> qsign q <> Lt.
Proof. unfold qsign. intros H E. apply Qlt_alt in E. lra. Qed.

Lemma nn_fdiv x y : nn x -> nn y -> nn (fdiv x y).
Proof.
  destruct x as [a| | |], y as [b| | |]; simpl; auto; try contradiction; try lra.
  - intros Ha Hb. pose proof (nn_sign _ Ha). pose proof (nn_sign _ Hb).
    destruct (qsign b) eqn:E; [|congruence|].
    + destruct (qsign a); simpl; auto; congruence.
    + simpl. unfold qsign in E. apply Qgt_alt in E. unfold Qdiv. apply Qmult_le_0_compat; auto. apply Qinv_le_0_compat. lra.
  - intros _ Hb. pose proof (nn_sign _ Hb). destruct (qsign b); simpl; auto; congruence.
Qed.

Lemma nn_fmul x z : (0 < z)%Q -> nn x -> nn (fmul x (Fin z)).
Proof.
  intros Hz. destruct x as [a| | |]; simpl; auto; try contradiction.
  - intros Ha. apply Qmult_le_0_compat; lra.
  - intros _. destruct (qsign z) eqn:E; simpl; auto. unfold qsign in E. apply Qlt_alt in E. lra.
Qed.

Lemma nn_fadd x y : nn x -> nn y -> nn (fadd x y).
Proof. destruct x as [a| | |], y as [b| | |]; simpl; auto; try contradiction. lra. Qed.

Lemma nn_convert fu tu x y : nn x -> try_convert fu tu x = Ok y -> nn y.
Proof.
  unfold try_convert. intros H.
  destruct (convert_opt fu tu x) as [z|] eqn:E; [|discriminate]. intros E2; injection E2 as <-.
  assert (K : forall c, (0 < c)%Z -> nn (fmul x (fz c)) /\ nn (fdiv x (fz c))).
  { intros c Hc. assert (0 < inject_Z c)%Q by (unfold Qlt, inject_Z; simpl; lia).
    split; [apply nn_fmul; auto|apply nn_fdiv; auto; simpl; lra]. }
  destruct fu, tu; simpl in E; try discriminate; injection E as <-; auto; apply K; lia.
Qed.

Lemma nn_calc ru au x bu y z : nn x -> nn y -> try_calc ru au x bu y = Ok z -> nn z.
Proof.
  unfold try_calc. intros Hx Hy. pose proof (nn_fdiv _ _ Hx Hy) as D.
  assert (K : forall c, (0 < c)%Z -> nn (fmul (fdiv x y) (fz c))).
  { intros c Hc. apply nn_fmul; auto. unfold Qlt, inject_Z; simpl; lia. }
  destruct ru, au; simpl; try discriminate; destruct bu; simpl; try discriminate;
    intros E; injection E as <-; auto; apply K; lia.
Qed.

Definition nnm (ms : list (list f64)) : Prop := Forall (Forall nn) ms.

Lemma nnm_at ms m : nnm ms -> In m ms -> Forall nn m.
Proof. unfold nnm. rewrite Forall_forall. auto. Qed.

Lemma nnm_snoc m x : Forall nn m -> nn x -> Forall nn (m ++ [x]).
Proof. intros. apply Forall_app. auto. Qed.

Lemma nnm_mapM f ms ms' : nnm ms -> (forall m m', Forall nn m -> f m = Ok m' -> Forall nn m') ->
  mapM f ms = Ok ms' -> nnm ms'.
Proof.
  intros H Hf E. apply mapM_ok in E. unfold nnm in *. induction E; auto. inversion H; subst. constructor; eauto.
Qed.

Lemma nn_idx m i x : Forall nn m -> idx m i = Ok x -> nn x.
Proof. intros H E. apply idx_ok in E. eapply Forall_forall; eauto. eapply nth_error_In; eauto. Qed.

Lemma set_forall {A} (P : A -> Prop) l i x l' : Forall P l -> P x -> set l i x = Ok l' -> Forall P l'.
Proof.
  unfold set. intros H Hx. destruct (i <? length l); [|discriminate]. intros E. injection E as <-.
  revert i. induction H as [|a l Ha Hl IH]; intros [|i]; simpl; auto.
Qed.

Lemma nn_merge_row eid info g row g' : nnm (metrics g) ->
  (forall t x, In t row -> tok_f64 t = Some x -> nn x) -> merge_row eid info g row = Ok g' -> nnm (metrics g').
Proof.
  intros H Hr E. unfold merge_row in E. apply bind_ok in E. destruct E as (e & _ & E).
  apply bind_ok in E. destruct E as (ms & E & Eg). injection Eg as <-. cbn [with_metrics metrics].
  unfold merge_cols in E. revert E H. generalize (metrics g) (enumerate info). clear -Hr. intros ms0 cols. revert ms0.
  induction cols as [|c cols IH]; intros ms0 E H; cbn [foldM] in E; [injection E as <-; auto|].
  apply bind_ok in E. destruct E as (ms1 & E1 & E). apply (IH ms1); auto. clear IH E.
  destruct (snd c) as [id|]; [|injection E1 as <-; auto].
  destruct (String.eqb id eid); [injection E1 as <-; auto|].
  apply bind_ok in E1. destruct E1 as (mi & _ & E1). apply bind_ok in E1. destruct E1 as (t & Et & E1).
  destruct (tok_f64 t) as [x|] eqn:Ex; [|discriminate].
  apply bind_ok in E1. destruct E1 as (old & Eo & E1). apply bind_ok in E1. destruct E1 as (new & En & E1).
  apply idx_ok in Et, Eo. eapply set_forall; [exact H| |exact E1].
  eapply set_forall; [| |exact En].
  - eapply nnm_at; [exact H|]. eapply nth_error_In; eauto.
  - eapply Hr; eauto. eapply nth_error_In; eauto.
Qed.

Lemma nn_gen_step hav g gc g' : nnm (metrics g) -> nothing_negative hav gc -> gen_step hav g gc = Ok g' -> nnm (metrics g').
Proof.
  intros H Hn E. destruct gc as [info id|u id x|u id|fu fid tu tid|fu fid tu tid|ru rid au aid bu bid|rows eid info]; cbn [gen_step] in E.
  - destruct info; try discriminate; injection E as <-; exact H.
  - injection E as <-. cbn. unfold nnm. apply Forall_map. eapply Forall_impl; [|exact H]. intros m Hm. apply nnm_snoc; auto.
  - destruct u; try discriminate. apply bind_ok in E. destruct E as (ms & E & Eg). injection Eg as <-. cbn.
    apply mapM_ok in E. unfold nnm in *. simpl in Hn.
    assert (Hs : forall p m, In p (enumerate (metrics g)) -> haversine_edge hav g Kilometers p = Ok m -> Forall nn m).
    { intros p m Hp Eh. unfold haversine_edge in Eh.
      apply bind_ok in Eh. destruct Eh as (s & _ & Eh). apply bind_ok in Eh. destruct Eh as (d & _ & Eh).
      apply bind_ok in Eh. destruct Eh as (cs & _ & Eh). apply bind_ok in Eh. destruct Eh as (cd & _ & Eh).
      apply bind_ok in Eh. destruct Eh as (x & Ex & Eh). injection Eh as <-. apply nnm_snoc.
      - eapply nnm_at; [exact H|]. unfold enumerate in Hp. destruct p. eapply in_combine_r; exact Hp.
      - eapply nn_convert; [|exact Ex]. auto. }
    clear -E Hs. induction E; constructor; [eapply Hs; [now left|eauto]|]. apply IHE. intros p m Hp. apply Hs. now right.
  - apply bind_ok in E. destruct E as (mi & _ & E). apply bind_ok in E. destruct E as (ms & E & Eg). injection Eg as <-. cbn.
    eapply nnm_mapM; [exact H| |exact E]. intros m m' Hm Em. cbn beta in Em.
    apply bind_ok in Em. destruct Em as (x & Ex & Em). apply bind_ok in Em. destruct Em as (y & Ey & Em). injection Em as <-.
    apply nnm_snoc; auto. eapply nn_convert; [|exact Ey]. eapply nn_idx; eauto.
  - apply bind_ok in E. destruct E as (mi & _ & E). apply bind_ok in E. destruct E as (ms & E & Eg).
    apply bind_ok in Eg. destruct Eg as (us & _ & Eg). apply bind_ok in Eg. destruct Eg as (is & _ & Eg). injection Eg as <-. cbn.
    eapply nnm_mapM; [exact H| |exact E]. intros m m' Hm Em. cbn beta in Em.
    apply bind_ok in Em. destruct Em as (x & Ex & Em). apply bind_ok in Em. destruct Em as (y & Ey & Em).
    eapply set_forall; [exact Hm| |exact Em]. eapply nn_convert; [|exact Ey]. eapply nn_idx; eauto.
  - apply bind_ok in E. destruct E as (ma & _ & E). apply bind_ok in E. destruct E as (mb & _ & E).
    apply bind_ok in E. destruct E as (ms & E & Eg). injection Eg as <-. cbn.
    eapply nnm_mapM; [exact H| |exact E]. intros m m' Hm Em. cbn beta in Em.
    apply bind_ok in Em. destruct Em as (x & Ex & Em). apply bind_ok in Em. destruct Em as (y & Ey & Em).
    apply bind_ok in Em. destruct Em as (z & Ez & Em). injection Em as <-.
    apply nnm_snoc; auto. eapply nn_calc; [| |exact Ez]; eapply nn_idx; eauto.
  - simpl in Hn. revert g H E. induction rows as [|row rows IH]; intros g H E; cbn [foldM] in E; [injection E as <-; auto|].
    apply bind_ok in E. destruct E as (g1 & E1 & E). apply (IH (fun r t x Hr => Hn r t x (or_intror Hr)) g1); auto.
    eapply nn_merge_row; [exact H| |exact E1]. intros t x Ht. apply (Hn row); [now left|auto].
Qed.

Lemma nn_gen_steps hav gcs : forall g g', nnm (metrics g) -> (forall gc, In gc gcs -> nothing_negative hav gc) ->
  foldM (gen_step hav) gcs g = Ok g' -> nnm (metrics g').
Proof.
  induction gcs as [|gc gcs IH]; intros g g' H Hn E; cbn [foldM] in E; [injection E as <-; auto|].
  apply bind_ok in E. destruct E as (g1 & E1 & E). apply (IH g1); auto; [|intros; apply Hn; now right].
  eapply nn_gen_step; [exact H| |exact E1]. apply Hn. now left.
Qed.

Lemma nn_sums ms : forall acc, nnm ms -> Forall nn acc -> Forall nn (fold_left vadd ms acc).
Proof.
  induction ms as [|m ms IH]; intros acc H Ha; simpl; auto. inversion H as [|? ? Hm Hms]; subst. apply IH; auto.
  clear -Ha Hm. revert m Hm. induction Ha as [|x acc Hx Ha IH]; intros m Hm; simpl; [constructor|].
  destruct Hm; constructor; auto using nn_fadd.
Qed.

Lemma nn_clamp x : nn x -> nn (clamp_metric x).
Proof.
  unfold clamp_metric. intros H. destruct (approx_eq x f0); auto. unfold F64_ABS, ABSQ; simpl; unfold Qle; simpl; lia.
Qed.

Lemma nn_normalize g g' : nnm (metrics g) -> normalize g = Ok g' -> nnm (metrics g').
Proof.
  unfold normalize. intros H. destruct (ec_normalized _); [|intros E; injection E as <-; auto].
  destruct (edge_count g FWD =? 0); [discriminate|]. destruct (existsb _ _); [discriminate|].
  intros E. apply bind_ok in E. destruct E as (ms & E & Eg). injection Eg as <-. cbn.
  eapply nnm_mapM; [exact H| |exact E]. intros m m' Hm Em. unfold normalize_vec in Em. apply mapM_ok in Em.
  assert (Hp : forall p, In p (enumerate m) -> nn (snd p)).
  { intros [i x] Hp. unfold enumerate in Hp. eapply Forall_forall; [exact Hm|]. eapply in_combine_r; exact Hp. }
  assert (Hmu : Forall nn (map (fun s => fdiv s (of_nat (edge_count g FWD))) (metric_sums (metric_dim g) (metrics g)))).
  { apply Forall_map. apply Forall_impl with (P := nn).
    - intros x Hx. apply nn_fdiv; auto. simpl. unfold Qle, inject_Z. simpl. lia.
    - apply nn_sums; auto. apply Forall_forall. intros x Hx. apply repeat_spec in Hx. subst. simpl. lra. }
  revert Hp Hmu Em. generalize (map (fun s => fdiv s (of_nat (edge_count g FWD))) (metric_sums (metric_dim g) (metrics g))).
  generalize (enumerate m). clear. intros ps mu Hp Hmu Em. induction Em as [|p y ps ys Ep Em IH]; constructor.
  - cbn beta in Ep. apply bind_ok in Ep. destruct Ep as (d & Ed & Ep). injection Ep as <-.
    apply nn_clamp, nn_fdiv; [apply Hp; now left|]. eapply nn_idx; eauto.
  - apply IH. intros q Hq. apply Hp. now right.
Qed.

Lemma too_small_nn x : not_too_small x -> nn x.
Proof. destruct x; simpl; auto. lra. Qed.

Lemma build_nonneg hav c ch1 ch2 es ns g : 1 <= ch1 -> 1 <= ch2 -> build hav c ch1 ch2 es ns = Ok g ->
  (forall gc, In gc (cfg_gen_edges c) -> nothing_negative hav gc) -> nonneg_metrics g.
Proof.
  intros H1 H2 E Hn. destruct (build_split _ _ _ _ _ _ _ E) as (b & g0 & g1 & _ & Hb & E0 & E1 & E2).
  pose proof (build_core_spec _ _ _ _ _ _ H1 H2 Hb E0) as Hc.
  assert (N0 : nnm (metrics g0)).
  { apply Forall_forall. intros m Hm. apply Forall_forall. intros x Hx. apply too_small_nn.
    eapply metrics_not_small; eauto. apply (cs_small _ _ _ _ _ Hc). }
  assert (N1 : nnm (metrics g1)).
  { unfold generate in E1. rewrite (cs_cfg _ _ _ _ _ Hc) in E1. apply bind_ok in E1. destruct E1 as (c' & Ec & E1).
    destruct (gen_dup _ _); [discriminate|]. eapply nn_gen_steps; [|exact Hn|exact E1]. exact N0. }
  pose proof (nn_normalize _ _ N1 E2) as N2. intros e ms x Hms Hx. unfold edge_metrics in Hms. apply idx_ok in Hms.
  eapply Forall_forall; [|exact Hx]. eapply nnm_at; [exact N2|]. eapply nth_error_In; eauto.
Qed.

(** *** Metrics as long as configured *)

Lemma edge_params_metrics pf cs : forall a params a', edge_params pf a cs params = Ok a' ->
  length (ea_metrics a') = length (ea_metrics a) + length (metric_units cs).
Proof.
  induction cs as [|c cs IH]; intros a params a' E; cbn [edge_params] in E; [injection E as <-; simpl; lia|].
  destruct params as [|p params]; [discriminate|]. apply bind_ok in E. destruct E as (a1 & E1 & E). rewrite (IH _ _ _ E).
  assert (K : length (ea_metrics a1) = length (ea_metrics a) + length (metric_units [c])).
  { destruct c as [[] id|u id|]; cbn [edge_param] in E1; try discriminate;
      try (apply bind_ok in E1; destruct E1 as (z & _ & E1)); try (injection E1 as <-; simpl; lia).
    destruct (pf p); [|discriminate]. injection E1 as <-. cbn [ea_metrics]. rewrite app_length. simpl. lia. }
  rewrite K. destruct c; simpl; lia.
Qed.

Lemma parse_lines_in {A} (f : text -> res A) r : forall ls n xs, parse_lines f r n ls = Ok xs ->
  forall x, In x xs -> exists l, f l = Ok x.
Proof.
  induction ls as [|l ls IH]; intros n xs E x Hx; cbn [parse_lines] in E; [injection E as <-; destruct Hx|].
  destruct (in_range r n); [|eapply IH; eauto].
  apply bind_ok in E. destruct E as (y & Ey & E). apply bind_ok in E. destruct E as (ys & Eys & E). injection E as <-.
  destruct Hx as [<-|Hx]; eauto.
Qed.

Lemma fmi_fitting pf dim pc file es ns : consistent_cfg (pc_cfg pc) -> fmi_parse pf dim pc file = Ok (es, ns) ->
  fitting_edges (pc_cfg pc) es.
Proof.
  intros [_ Hc] E pe Hpe. unfold fmi_parse in E. apply bind_ok in E. destruct E as (r & _ & E).
  apply bind_ok in E. destruct E as (es' & Ees & E). apply bind_ok in E. destruct E as (ns' & _ & E). injection E as <- <-.
  unfold fmi_edges in Ees. destruct (parse_lines_in _ _ _ _ _ Ees _ Hpe) as (l & El).
  unfold edge_from_str in El. apply bind_ok in El. destruct El as (a & Ea & El).
  destruct (ea_src a); [|discriminate]. destruct (ea_dst a); [|discriminate]. injection El as <-. cbn [pe_metrics].
  rewrite (edge_params_metrics _ _ _ _ _ Ea), Hc. reflexivity.
Qed.

Lemma consecutive_metrics ms nodes pe : In pe (consecutive ms nodes) -> pe_metrics pe = ms.
Proof.
  induction nodes as [|a [|b t] IH]; simpl; [intros []|intros []|]. intros [<-|H]; auto.
Qed.

Lemma way_metrics_length c ts ks : forallb pbf_supports ks = true -> length (way_metrics c ts ks) = length (metric_units ks).
Proof.
  unfold way_metrics. induction ks as [|k ks IH]; intros H; [reflexivity|].
  cbn [forallb] in H. apply andb_prop in H. destruct H as [Hk H]. cbn [flat_map]. rewrite !app_length, IH by auto.
  destruct k as [[] id|[] id|]; simpl in Hk |- *; auto; discriminate.
Qed.

Lemma pbf_fitting dim pc objs : consistent_cfg (pc_cfg pc) -> pbf_preprocess dim pc = Ok tt ->
  fitting_edges (pc_cfg pc) (pbf_edges pc objs).
Proof.
  intros [_ Hc] E pe Hpe. unfold pbf_preprocess in E. apply bind_ok in E. destruct E as (u & _ & E).
  destruct (forallb pbf_supports _) eqn:Ef; [|discriminate].
  unfold pbf_edges in Hpe. apply in_flat_map in Hpe. destruct Hpe as (o & _ & Hpe). destruct o as [|nodes ts|]; try destruct Hpe.
  unfold way_edges in Hpe. destruct (length nodes <? 2); [destruct Hpe|]. destruct (street_from ts) as [c|]; [|destruct Hpe].
  destruct (negb _); [destruct Hpe|]. destruct (parse_oneway c ts) as [ow rv]. apply consecutive_metrics in Hpe. rewrite Hpe.
  rewrite way_metrics_length by auto. now rewrite Hc.
Qed.

(** *** Graphs of documents *)

Lemma read_parsing_consistent sc y d : read_parsing sc y = Ok d ->
  metric_ids (ec_categories (pd_edges d)) = ec_ids (pd_edges d) /\ metric_units (ec_categories (pd_edges d)) = ec_units (pd_edges d).
Proof.
  unfold read_parsing. intros E. apply bind_ok in E. destruct E as (f & _ & E). apply bind_ok in E. destruct E as (d' & Ed & E).
  apply bind_ok in E. destruct E as (u & _ & E). injection E as ->.
  unfold required in Ed. destruct (f _) as [y'|]; [|discriminate]. unfold read_parsing_content in Ed.
  apply bind_ok in Ed. destruct Ed as (f' & _ & Ed). apply bind_ok in Ed. destruct Ed as (m & _ & Ed).
  apply bind_ok in Ed. destruct Ed as (v & _ & Ed). apply bind_ok in Ed. destruct Ed as (ns & _ & Ed).
  apply bind_ok in Ed. destruct Ed as (es & _ & Ed). apply bind_ok in Ed. destruct Ed as (g & _ & Ed).
  apply bind_ok in Ed. destruct Ed as (ec & Ec & Ed). injection Ed as <-. cbn [pd_edges].
  unfold edge_cfg_try_from in Ec. destruct (has_dup_id _); [discriminate|]. injection Ec as <-. auto.
Qed.

Lemma rows_nonneg e w c gc : with_rows e w c gc -> nothing_negative_in e w c -> nothing_negative (e_hav e) gc.
Proof.
  destruct c as [c|from header eid info]; cbn [with_rows nothing_negative_in]; [intros ->; auto|].
  intros (t & Ht & ->) H. cbn [nothing_negative]. intros row tok x Hrow Htok Hx. unfold merge_rows in Hrow.
  apply in_map_iff in Hrow. destruct Hrow as (l & <- & Hl). apply in_map_iff in Htok. destruct Htok as (s & <- & Hs).
  cbn [tok_f64] in Hx. eapply H; eauto. destruct header; auto.
  rewrite <- (firstn_skipn 1 (functional_lines t)). apply in_or_app. now right.
Qed.

(** what a program's graph is *)
Lemma graph_built e w cfg d g : 1 <= e_chunk1 e -> 1 <= e_chunk2 e ->
  says e w (read_parsing (e_scalars e)) cfg d -> graph_of e w d g ->
  exists c es ns, build (e_hav e) c (e_chunk1 e) (e_chunk2 e) es ns = Ok g /\ aligned_metrics g /\
    ((forall gd, In gd (gen_edges d) -> nothing_negative_in e w gd) -> nonneg_metrics g).
Proof.
  intros H1 H2 (td & y & _ & _ & Hd) (t & gens & Ht & Hrows & Hg). apply read_parsing_consistent in Hd.
  assert (Hc : consistent_cfg (pc_cfg (config_of d gens))) by exact Hd.
  assert (B : exists es ns, build (e_hav e) (pc_cfg (config_of d gens)) (e_chunk1 e) (e_chunk2 e) es ns = Ok g /\
                            fitting_edges (pc_cfg (config_of d gens)) es).
  { destruct Hg as [[_ Hg]|[_ Hg]].
    - unfold fmi_graph in Hg. apply bind_ok in Hg. destruct Hg as ([es ns] & Ep & Hg). exists es, ns. split; auto.
      eapply fmi_fitting; eauto.
    - unfold pbf_graph in Hg. apply bind_ok in Hg. destruct Hg as ([] & Ep & Hg). eexists _, _. split; [exact Hg|].
      eapply pbf_fitting; eauto. }
  destruct B as (es & ns & B & F). exists (pc_cfg (config_of d gens)), es, ns. split; auto. split.
  - destruct (build_steps _ _ _ _ _ _ _ H1 H2 B) as (g0 & g1 & _ & _ & D & _); auto.
    { destruct Hc as [<- <-]. clear. induction (ec_categories _) as [|[] cs IH]; simpl; auto. }
    apply desc_described in D. destruct D as (_ & _ & D). intros e0 ms Hm. exact (D e0 ms Hm).
  - intros Hn. eapply build_nonneg; [exact H1|exact H2|exact B|]. intros gc Hgc. cbn in Hgc.
    clear -Hrows Hn Hgc. induction Hrows as [|gd g' gds gs Hr Hrows IH]; [destruct Hgc|].
    destruct Hgc as [<-|Hgc]; [eapply rows_nonneg; eauto; apply Hn; now left|apply IH; auto; intros; apply Hn; now right].
Qed.
