(** Building in binary64 yields what exact building does if no comparison is
    blurred; OpenStreetMap data: lemmas for C67 *)
From Coq Require Import String List Bool Arith NArith ZArith QArith Qabs Lia Lqa Permutation Sorted.
From Verif Require Import Base F64 Lib ModelApprox ProofApprox ModelStreets ModelUnits ModelConfig ModelGraph ModelBuild ModelParsing ModelRounded ModelRoundedHeap ModelRoundedMetrics
  ModelRoundedBuild Spec SpecRounded SpecRoundedHeap SpecRoundedBuild SpecOsm ProofNodes ProofStages ProofBuild ProofGraph ProofOrder ProofMetrics ProofProps
  ProofCompare64 ProofRoundedBuild ProofRoundedBuild2 PropsStreets ProofOsm.
Import ListNotations.
Open Scope string_scope.
Open Scope list_scope.
Open Scope nat_scope.

(** *** Comparisons *)
Lemma acc_tol : ((3 # 2000000) <= accuracy64)%Q. Proof. vm_compute. discriminate. Qed.
Lemma under_tol q : (q <= (3 # 2000000) - Qpower (2 # 1) (- (70)))%Q -> (q < 3 # 2000000)%Q.
Proof. assert (0 < Qpower (2 # 1) (- (70)))%Q by (vm_compute; reflexivity). intros. lra. Qed.

Lemma told_same ar a b : of64 ar -> told_apart a b -> rapprox_eq ar (Fin a) (Fin b) = approx_eq (Fin a) (Fin b).
Proof.
  intros H. destruct (rapprox_eq_64 ar a b H) as [A B]. intros [K|K].
  - rewrite (A K). symmetry. apply approx_eq_fin. exact (under_tol _ K).
  - rewrite (B K). symmetry. apply approx_eq_fin_false. pose proof acc_tol. unfold TOL. lra.
Qed.

Lemma Qabs_0 a : (Qabs (a - 0) == Qabs a)%Q.
Proof. unfold Qminus. rewrite Qplus_0_r. reflexivity. Qed.
Lemma big_false ar a : of64 ar -> (accuracy64 <= Qabs a)%Q -> rapprox_eq ar (Fin a) f0 = false.
Proof. intros H K. apply (rapprox_eq_64 ar a 0 H). now rewrite Qabs_0. Qed.
Lemma big_clamps ar a : of64 ar -> (accuracy64 <= Qabs a)%Q -> rclamp ar (Fin a) = Fin a /\ clamp_metric (Fin a) = Fin a.
Proof.
  intros H K. unfold rclamp, clamp_metric. rewrite (big_false ar a H K). split; auto.
  assert (E : approx_eq (Fin a) f0 = false); [|now rewrite E].
  apply approx_eq_fin_false. pose proof acc_tol. rewrite Qabs_0. unfold TOL. lra.
Qed.

Lemma rABS_fin ar : of64 ar -> exists q, rABS ar = Fin q /\ (0 < q)%Q /\ (q < 3 # 2000000)%Q.
Proof.
  intros [-> | ->]; eexists; (split; [vm_compute; reflexivity|]); split; vm_compute; reflexivity.
Qed.
Lemma big_small ar a : of64 ar -> (accuracy64 <= Qabs a)%Q -> fltb (Fin a) (rABS ar) = fltb (Fin a) F64_ABS.
Proof.
  intros H K. destruct (rABS_fin ar H) as (q & -> & Q1 & Q2). pose proof acc_tol as Tol. set (A := accuracy64) in *. clearbody A. unfold F64_ABS, fltb, fcmp.
  change ABSQ with (1 # 1000000)%Q in *.
  revert K. apply Qabs_case; intros S K.
  - assert (E1 : (a ?= q)%Q = Gt) by (apply Qgt_alt; lra). assert (E2 : (a ?= (1 # 1000000))%Q = Gt) by (apply Qgt_alt; lra). now rewrite E1, E2.
  - assert (E1 : (a ?= q)%Q = Lt) by (apply Qlt_alt; apply Qle_lt_trans with 0%Q; assumption). assert (E2 : (a ?= (1 # 1000000))%Q = Lt) by (apply Qlt_alt; apply Qle_lt_trans with 0%Q; [assumption|reflexivity]). now rewrite E1, E2.
Qed.

Lemma told_vec ar : of64 ar -> forall l l', (forall x, In x l -> exists a, x = Fin a) -> (forall x, In x l' -> exists a, x = Fin a) ->
  (forall i a b, nth_error l i = Some (Fin a) -> nth_error l' i = Some (Fin b) -> told_apart a b) ->
  rapprox_eq_vec ar l l' = approx_eq_vec l l'.
Proof.
  intros H. induction l as [|x l IH]; intros [|y l'] F1 F2 T; cbn; auto.
  destruct (F1 x (or_introl eq_refl)) as (a & ->). destruct (F2 y (or_introl eq_refl)) as (b & ->).
  rewrite (told_same ar a b H (T 0 a b eq_refl eq_refl)), IH; auto.
  - intros x Hx. apply F1. now right.
  - intros x Hx. apply F2. now right.
  - intros i c d A B. exact (T (S i) c d A B).
Qed.

(** *** All stages before generating *)
Lemma dedup_from_ext {A} (d d' : A -> A -> bool) l : forall last, (forall x y, In x (last :: l) -> In y (last :: l) -> d x y = d' x y) ->
  dedup_from d last l = dedup_from d' last l.
Proof.
  induction l as [|x l IH]; intros last H; cbn; auto. rewrite <- (H last x) by (cbn; auto).
  destruct (d last x); [apply IH|f_equal; apply IH]; intros y z Hy Hz; apply H; cbn in *; tauto.
Qed.
Lemma rrm_ext ar l : forall last r, (forall x y, In x (last :: l) -> In y (last :: l) -> ris_duplicate ar x y = is_duplicate x y) ->
  rrm_from ar last r l = rm_from last r l.
Proof.
  induction l as [|x l IH]; intros last r H; cbn [rrm_from rm_from]; auto. rewrite <- (H last x) by (cbn; auto).
  destruct (ris_duplicate ar last x); [f_equal|]; apply IH; intros y z Hy Hz; apply H; cbn in *; tauto.
Qed.
Lemma foldM_ext_in {A S} (f f' : S -> A -> res S) l : (forall s x, In x l -> f s x = f' s x) -> forall s, foldM f l s = foldM f' l s.
Proof.
  intros H. induction l as [|x l IH]; intros s; cbn; auto. rewrite H by (now left). destruct (f' s x); cbn; auto. apply IH. intros. apply H. now right.
Qed.

Lemma store_same ar scs l : (forall e, In e l -> map (rclamp ar) (b_metrics e) = map clamp_metric (b_metrics e)) ->
  forall st, foldM (rstore_metrics ar scs) l st = foldM (store_metrics scs) l st.
Proof. intros H. apply foldM_ext_in. intros s e He. unfold rstore_metrics, store_metrics. now rewrite (H e He). Qed.

Lemma store_values scs l : forall st st', foldM (store_metrics scs) l st = Ok st' ->
  st_metrics st' = st_metrics st ++ map (fun e => map clamp_metric (b_metrics e)) l.
Proof.
  induction l as [|e l IH]; intros st st' E; cbn [foldM map] in *; [injection E as <-; now rewrite app_nil_r|].
  apply bind_ok in E. destruct E as (st1 & E1 & E). rewrite (IH _ _ E). unfold store_metrics in E1. apply bind_ok in E1.
  destruct E1 as (n & _ & E1). injection E1 as <-. cbn [st_metrics]. now rewrite <- app_assoc.
Qed.

Lemma bind_ext {A B} (r : res A) (f f' : A -> res B) : (forall x, r = Ok x -> f x = f' x) -> (do x <- r; f x) = (do x <- r; f' x).
Proof. intros H. destruct r; cbn; auto. Qed.

Lemma rcore_same ar es b c ch1 ch2 : of64 ar -> 1 <= ch1 -> 1 <= ch2 -> nb_inv es b -> clear_cut es ->
  rbuild_core ar c ch1 ch2 b = build_core c ch1 ch2 b.
Proof.
  intros Har Hc1 Hc2 Hb [Cf Ct]. pose proof Hb as [Hs Hids Hcl Hll He Hsc]. destruct (insert_edges_closed es) as [HA HS].
  unfold rbuild_core, build_core. apply bind_ext. intros coords _. rewrite !work_off_chunks_eq by auto.
  rewrite He, HA. rewrite to_protoB_fold; auto.
  2:{ intros a Ha. unfold as_of in Ha. apply in_map_iff in Ha. destruct Ha as ([i pe] & <- & Hin).
      apply enumerate_in in Hin. apply nth_error_In in Hin.
      split; apply Hids; exists pe; simpl; auto. }
  cbn [bind app]. cbv zeta. fold (sorted_edges es (nb_node_ids b) (nb_levels b)).
  pose proof (sorted_in es (nb_node_ids b) (nb_levels b)) as HSin. set (SE := sorted_edges es (nb_node_ids b) (nb_levels b)) in *.
  assert (Hme : forall x, In x SE -> exists pe, In pe es /\ b_metrics x = pe_metrics pe).
  { intros x Hx. destruct (HSin x Hx) as (pe & Hpe & Ex). exists pe. split; [eapply nth_error_In; eauto|]. rewrite Ex. reflexivity. }
  assert (Hd : forall x y, In x SE -> In y SE -> ris_duplicate ar x y = is_duplicate x y).
  { intros x y Hx Hy. unfold ris_duplicate, is_duplicate. f_equal. destruct (Hme x Hx) as (p & Hp & ->). destruct (Hme y Hy) as (q & Hq & ->).
    apply told_vec; auto.
    - intros z Hz. destruct (Cf p z Hp Hz) as (a & -> & _). eauto.
    - intros z Hz. destruct (Cf q z Hq Hz) as (a & -> & _). eauto.
    - intros i u v A B. exact (Ct p q i u v Hp Hq A B). }
  assert (Hcl2 : forall e, In e SE -> map (rclamp ar) (b_metrics e) = map clamp_metric (b_metrics e) /\ map clamp_metric (b_metrics e) = b_metrics e).
  { intros e Hin. destruct (Hme e Hin) as (p & Hp & ->). pose proof (Cf p) as Cp. split.
    - apply map_ext_in. intros x Hx. destruct (Cp x Hp Hx) as (a & -> & Ha). destruct (big_clamps ar a Har Ha) as [-> ->]. reflexivity.
    - rewrite <- map_id. apply map_ext_in. intros x Hx. destruct (Cp x Hp Hx) as (a & -> & Ha). now destruct (big_clamps ar a Har Ha) as [_ ->]. }
  apply bind_ext. intros ni _. apply bind_ext. intros scs1 _. rewrite rdedup_edges_eq, dedup_edges_eq. cbn [bind].
  assert (E1 : dedup_by (ris_duplicate ar) SE = dedup_by is_duplicate SE).
  { clearbody SE. destruct SE as [|x l]; auto. cbn [dedup_by]. f_equal. apply dedup_from_ext. exact Hd. }
  assert (E2 : rrm_of ar SE = rm_of SE).
  { clearbody SE. destruct SE as [|x l]; auto. cbn [rrm_of rm_of]. apply rrm_ext. exact Hd. }
  rewrite E1, E2. apply bind_ext. intros scs2 _.
  assert (HK : forall e, In e (dedup_by is_duplicate SE) -> In e SE) by (intros e; apply dedup_by_incl).
  rewrite !work_off_chunks_eq by auto. rewrite (store_same ar) by (intros e Hin; apply Hcl2; auto). apply bind_ext. intros st Est.
  apply store_values in Est. cbn [st_metrics app] in Est.
  assert (E3 : rmetrics_too_small ar (st_metrics st) = metrics_too_small (st_metrics st)).
  { rewrite Est. unfold rmetrics_too_small, metrics_too_small. rewrite (map_ext_in _ b_metrics) by (intros e Hin; apply Hcl2; auto).
    assert (G : forall m, In m (map b_metrics (dedup_by is_duplicate SE)) -> existsb (fun x => fltb x (rABS ar)) m = existsb (fun x => fltb x F64_ABS) m).
    { intros m Hm. apply in_map_iff in Hm. destruct Hm as (e & <- & Hin). destruct (Hme e (HK e Hin)) as (p & Hp & ->). pose proof (Cf p) as Cp.
      induction (pe_metrics p) as [|x l IH]; auto. cbn [existsb]. destruct (Cp x Hp (or_introl eq_refl)) as (a & -> & Ha).
      rewrite (big_small ar a Har Ha), IH; auto. intros y Hy1 Hy2. apply Cp; auto. now right. }
    induction (map b_metrics (dedup_by is_duplicate SE)) as [|m l IH]; auto. cbn [existsb]. rewrite G by (now left). rewrite IH; auto. intros. apply G. now right. }
  rewrite E3. reflexivity.
Qed.

(** without generating and normalizing the results are the same *)
Lemma rbuild_plain ar uc hav c ch1 ch2 es ns : of64 ar -> 1 <= ch1 -> 1 <= ch2 -> clear_cut es -> plain_metrics c ->
  rbuild ar uc hav c ch1 ch2 es ns = build hav c ch1 ch2 es ns.
Proof.
  intros Har H1 H2 Hc (P1 & P2 & P3). unfold rbuild, build. destruct (insert_nodes_total es _ ns (nb_inv_init es)) as (b & -> & Hb). cbn [bind].
  unfold rfinalize, finalize. rewrite (rcore_same ar es b c ch1 ch2 Har H1 H2 Hb Hc). apply bind_ext. intros g Eg.
  pose proof (cs_cfg _ _ _ _ _ (build_core_spec _ _ _ _ _ _ H1 H2 Hb Eg)) as Ec.
  unfold rgenerate, generate. rewrite Ec, P1, P2. cbn [foldM bind]. destruct (gen_dup _ _); [reflexivity|]. cbn [bind].
  unfold rnormalize, normalize. cbn [with_cfg g_cfg]. rewrite P3. reflexivity.
Qed.

(** *** OpenStreetMap data *)
Lemma int_told x y : told_apart (inject_Z x) (inject_Z y).
Proof.
  destruct (Z.eq_dec x y) as [->|N].
  - left. unfold Qminus. rewrite Qplus_opp_r. vm_compute. discriminate.
  - right. apply Qle_trans with 1%Q; [vm_compute; discriminate|]. unfold Qle, Qabs, Qminus, Qplus, Qopp, inject_Z. cbn. lia.
Qed.
Lemma int_big x : (1 <= x)%Z -> (accuracy64 <= Qabs (inject_Z x))%Q.
Proof. intros H. apply Qle_trans with 1%Q; [vm_compute; discriminate|]. unfold Qle, Qabs, inject_Z. cbn. lia. Qed.

Lemma osm_clear vc objs : clear_cut (pbf_edges (osm_cfg vc) objs).
Proof.
  assert (Hes : forall pe, In pe (pbf_edges (osm_cfg vc) objs) -> exists c ts, pe_metrics pe = osm_row c ts).
  { intros pe H. apply pbf_edges_in in H. destruct H as (nodes & ts & c & a & b & _ & _ & ->). exists c, ts. reflexivity. }
  split.
  - intros e x He Hx. destruct (Hes e He) as (c & ts & E). rewrite E in Hx. destruct Hx as [<-|[<-|[]]]; eexists; (split; [reflexivity|]); apply int_big; auto using speed_pos, lanes_pos.
  - intros e e' i a b He He' A B. destruct (Hes e He) as (c & ts & E). destruct (Hes e' He') as (c' & ts' & E'). rewrite E in A. rewrite E' in B.
    destruct i as [|[|i]]; cbn in A, B; try (injection A as <-; injection B as <-; apply int_told). destruct i; discriminate.
Qed.

Lemma round_last_app ar m z : round_last ar (m ++ [z]) = m ++ [ar z].
Proof. unfold round_last. now rewrite removelast_last, last_last. Qed.

Lemma mapM_post {A B} (f f' : A -> res B) (h : B -> B) : (forall x, f' x = do y <- f x; Ok (h y)) ->
  forall l, mapM f' l = do ys <- mapM f l; Ok (map h ys).
Proof.
  intros H. induction l as [|x l IH]; cbn [mapM]; auto. rewrite H, IH. destruct (f x); cbn; auto. destruct (mapM f l); cbn; auto.
Qed.
Lemma mapM_ext {A B} (f f' : A -> res B) : (forall x, f' x = f x) -> forall l, mapM f' l = mapM f l.
Proof. intros H. induction l as [|x l IH]; cbn [mapM]; auto. rewrite H, IH. auto. Qed.
Lemma bind_assoc {A B C} (r : res A) (f : A -> res B) (h : B -> res C) : (do y <- (do x <- r; f x); h y) = (do x <- r; do y <- f x; h y).
Proof. destruct r; reflexivity. Qed.

Lemma osm_rounded ar uc hav dim vc ch1 ch2 objs : of64 ar -> 1 <= ch1 -> 1 <= ch2 ->
  rpbf_graph ar uc hav dim (osm_cfg vc) ch1 ch2 objs =
  do g <- pbf_graph hav dim (osm_cfg vc) ch1 ch2 objs; Ok (with_metrics g (map (round_last ar) (metrics g))).
Proof.
  intros Har H1 H2. unfold rpbf_graph, pbf_graph. rewrite bind_assoc. apply bind_ext. intros u _.
  set (es := pbf_edges (osm_cfg vc) objs). pose proof (osm_clear vc objs) as Hc. fold es in Hc.
  unfold rbuild, build. destruct (insert_nodes_total es _ (pbf_nodes objs) (nb_inv_init es)) as (b & -> & Hb). cbn [bind].
  unfold rfinalize, finalize. rewrite (rcore_same ar es b _ ch1 ch2 Har H1 H2 Hb Hc). rewrite bind_assoc. apply bind_ext. intros g Eg.
  pose proof (cs_cfg _ _ _ _ _ (build_core_spec _ _ _ _ _ _ H1 H2 Hb Eg)) as Ec.
  unfold rgenerate, generate. rewrite Ec. clear Eg Hb Hc. rewrite !bind_assoc.
  change (foldM gen_node (cfg_gen_nodes (pc_cfg (osm_cfg vc))) (pc_cfg (osm_cfg vc))) with
    (Ok (mkCfg (cfg_edges (pc_cfg (osm_cfg vc))) (cfg_nodes (pc_cfg (osm_cfg vc)) ++ [NMeta NNodeIdx "node-idx"]) (cfg_gen_nodes (pc_cfg (osm_cfg vc))) (cfg_gen_edges (pc_cfg (osm_cfg vc))))).
  cbn [bind]. match goal with |- context [gen_dup ?x ?y] => change (gen_dup x y) with false end. cbv iota.
  change (cfg_gen_edges (pc_cfg (osm_cfg vc))) with [GMeta GSrcIdx "src-idx"; GMeta GDstIdx "dst-idx"; GHaversine Kilometers "kilometers";
                        GCalc Hours "hours" Kilometers "kilometers" KilometersPerHour "kmph"].
  cbn [foldM rgen_step gen_step bind]. set (g2 := push_meta _ _ _).
  assert (E1 : mapM (rhaversine_edge uc hav g2 Kilometers) (enumerate (metrics g2)) = mapM (haversine_edge hav g2 Kilometers) (enumerate (metrics g2))).
  { apply mapM_ext. intros p. reflexivity. }
  rewrite E1, !bind_assoc. apply bind_ext. intros ms _. cbn [bind]. rewrite !bind_assoc.
  apply bind_ext. intros ma _. rewrite !bind_assoc. apply bind_ext. intros mb _. rewrite !bind_assoc.
  rewrite (mapM_post (fun m => do x <- idx m ma; do y <- idx m mb; do z <- try_calc Hours Kilometers x KilometersPerHour y; Ok (m ++ [z])) _ (round_last ar)); [rewrite bind_assoc; apply bind_ext; intros ms' _; cbn [bind]; unfold rnormalize, normalize; cbn; reflexivity|].
  intros m. rewrite bind_assoc. apply bind_ext. intros x _. rewrite bind_assoc. apply bind_ext. intros y _. cbn [rtry_calc try_calc bind].
  rewrite round_last_app. reflexivity.
Qed.
