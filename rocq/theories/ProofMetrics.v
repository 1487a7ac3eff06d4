(** Proofs about stored and normalized metrics *)
From Coq Require Import String List Bool Arith ZArith QArith Qabs Lia Lqa.
From Verif Require Import Base F64 Lib ModelApprox ModelUnits ModelConfig ModelGraph ModelBuild
  ProofApprox ProofNodes ProofStages ProofBuild ProofGraph Spec.
Import ListNotations.
Open Scope nat_scope.

Lemma clamp_lifted x : lifted x (clamp_metric x).
Proof.
  unfold clamp_metric, lifted. destruct (approx_eq x f0) eqn:E.
  - apply approx_eq_iff in E. destruct E as (a & b & -> & Hb & H). injection Hb as <-.
    left. split; auto. exists a. split; auto.
    setoid_replace (a - 0)%Q with a in H by ring. exact H.
  - right. split; auto. intros q ->. unfold f0 in E. apply approx_eq_fin_false in E.
    setoid_replace (q - 0)%Q with q in E by ring. exact E.
Qed.

Lemma not_small x : fltb x F64_ABS = false -> not_too_small x.
Proof.
  unfold fltb, F64_ABS, not_too_small. destruct x as [q| | |]; simpl; auto; try discriminate.
  unfold ABSQ. destruct (Qcompare_spec q (1 # 1000000)); intros; try discriminate; lra.
Qed.

Lemma metrics_not_small ms : metrics_too_small ms = false ->
  forall m x, In m ms -> In x m -> not_too_small x.
Proof.
  unfold metrics_too_small. intros H m x Hm Hx. apply not_small.
  destruct (fltb x F64_ABS) eqn:E; auto. exfalso.
  rewrite <- not_true_iff_false in H. apply H. apply existsb_exists. exists m. split; auto.
  apply existsb_exists. eauto.
Qed.

(** *** The normalization flag is irrelevant before normalizing *)
Definition setn (g : graph) : graph := with_cfg g (without_normalization (g_cfg g)).
Definition rmap {A B} (f : A -> B) (r : res A) : res B := do x <- r; Ok (f x).

Lemma build_core_cfg c c' ch1 ch2 b :
  build_core c' ch1 ch2 b = rmap (fun g => with_cfg g c') (build_core c ch1 ch2 b).
Proof.
  unfold rmap, build_core.
  repeat (match goal with
          | |- bind ?r _ = bind (bind ?r _) _ => destruct r; cbn [bind]; auto
          | |- (let '(_, _) := ?p in _) = _ => destruct p
          | |- (if ?x then _ else _) = _ => destruct x; cbn [bind]; auto
          end).
Qed.

Lemma merge_row_setn eid info g row :
  merge_row eid info (setn g) row = rmap setn (merge_row eid info g row).
Proof.
  unfold rmap, merge_row.
  assert (E : forall cols, merge_edge_idx (setn g) eid row cols = merge_edge_idx g eid row cols).
  { induction cols as [|[i [id|]] cols IH]; simpl; auto. destruct (idx row i); simpl; auto.
    destruct (String.eqb id eid); auto. }
  rewrite E. destruct (merge_edge_idx g eid row (enumerate info)); cbn [bind]; auto.
  change (metrics (setn g)) with (metrics g).
  change (ec_ids (cfg_edges (g_cfg (setn g)))) with (ec_ids (cfg_edges (g_cfg g))).
  destruct (merge_cols _ _ _ _ _ _); cbn [bind]; auto.
Qed.

Lemma gen_step_setn hav g gc : gen_step hav (setn g) gc = rmap setn (gen_step hav g gc).
Proof.
  unfold rmap. destruct gc as [info id|u id d|u id|fu fid tu tid|fu fid tu tid|ru rid au aid bu bid|rows eid info].
  - destruct info; reflexivity.
  - reflexivity.
  - destruct u; try reflexivity. simpl. change (metrics (setn g)) with (metrics g).
    assert (E : forall l, mapM (haversine_edge hav (setn g) Kilometers) l =
                          mapM (haversine_edge hav g Kilometers) l) by reflexivity.
    rewrite E. destruct (mapM _ _); reflexivity.
  - simpl. destruct (idx_of _ _); cbn [bind]; auto.
    change (metrics (setn g)) with (metrics g). destruct (mapM _ _); reflexivity.
  - simpl. destruct (idx_of _ _); cbn [bind]; auto.
    change (metrics (setn g)) with (metrics g). destruct (mapM _ _); cbn [bind]; auto.
    destruct (set _ _ _); cbn [bind]; auto. destruct (set _ _ _); cbn [bind]; auto.
  - simpl. destruct (idx_of _ _); cbn [bind]; auto. destruct (idx_of _ _); cbn [bind]; auto.
    change (metrics (setn g)) with (metrics g). destruct (mapM _ _); reflexivity.
  - simpl. revert g. induction rows as [|r rows IH]; intros g; simpl; auto.
    rewrite merge_row_setn. unfold rmap. destruct (merge_row eid info g r); cbn [bind]; auto.
Qed.

Lemma gen_steps_setn hav gcs : forall g,
  foldM (gen_step hav) gcs (setn g) = rmap setn (foldM (gen_step hav) gcs g).
Proof.
  unfold rmap. induction gcs as [|gc gcs IH]; intros g; simpl; auto.
  rewrite gen_step_setn. unfold rmap. destruct (gen_step hav g gc); cbn [bind]; auto.
Qed.

Lemma gen_nodes_setn ns : forall c,
  foldM gen_node ns (without_normalization c) = rmap without_normalization (foldM gen_node ns c).
Proof.
  unfold rmap. induction ns as [|n ns IH]; intros c; simpl; auto.
  assert (E : gen_node (without_normalization c) n = do c' <- gen_node c n; Ok (without_normalization c')).
  { unfold gen_node. destruct (fst n); auto. simpl. destruct (node_cat_has _ _); auto. }
  rewrite E. destruct (gen_node c n); cbn [bind]; auto.
Qed.

Lemma generate_setn hav g : generate hav (setn g) = rmap setn (generate hav g).
Proof.
  unfold generate. cbv zeta. change (g_cfg (setn g)) with (without_normalization (g_cfg g)).
  change (cfg_gen_nodes (without_normalization (g_cfg g))) with (cfg_gen_nodes (g_cfg g)).
  change (cfg_gen_edges (without_normalization (g_cfg g))) with (cfg_gen_edges (g_cfg g)).
  rewrite gen_nodes_setn. unfold rmap.
  destruct (foldM gen_node (cfg_gen_nodes (g_cfg g)) (g_cfg g)) as [c'| | |]; cbn [bind]; auto.
  change (ec_categories (cfg_edges (without_normalization c'))) with (ec_categories (cfg_edges c')).
  destruct (gen_dup _ _); cbn [bind]; auto.
  change (with_cfg (setn g) (without_normalization c')) with (setn (with_cfg g c')).
  rewrite gen_steps_setn. reflexivity.
Qed.

(** a build with normalization first does the build without *)
Lemma build_unnormalized hav c ch1 ch2 es ns :
  build hav (without_normalization c) ch1 ch2 es ns =
  (do b <- insert_nodes (eb_next (insert_edges es)) ns;
   do g <- build_core c ch1 ch2 b; rmap setn (generate hav g)).
Proof.
  unfold build, finalize. destruct (insert_nodes _ _) as [b| | |]; cbn [bind]; auto.
  rewrite (build_core_cfg c). unfold rmap at 1.
  destruct (build_core c ch1 ch2 b) as [g| | |] eqn:E; cbn [bind]; auto.
  assert (Hc : g_cfg g = c).
  { rewrite (build_core_cfg c c) in E. unfold rmap in E.
    apply bind_ok in E. destruct E as (g' & _ & E). injection E as <-. reflexivity. }
  assert (Es : with_cfg g (without_normalization c) = setn g) by (unfold setn; now rewrite Hc).
  rewrite Es, generate_setn. unfold rmap. destruct (generate hav g); cbn [bind]; auto.
Qed.

(** *** Means *)
Definition val (x : f64) (q : Q) : Prop := exists q', x = Fin q' /\ (q' == q)%Q.

Lemma vadd_nth a b i x y : nth_error a i = Some x -> nth_error b i = Some y ->
  nth_error (vadd a b) i = Some (fadd x y).
Proof.
  revert b i. induction a as [|u a IH]; intros [|w b] [|i] Ha Hb; simpl in *; try discriminate.
  - congruence.
  - eauto.
Qed.

Lemma sums_nth (ms : list (list f64)) : forall acc i (a : Q) (q : nat -> Q),
  nth_error acc i = Some (Fin a) ->
  (forall e, e < length ms -> exists m, nth_error ms e = Some m /\ nth_error m i = Some (Fin (q e))) ->
  exists s, nth_error (fold_left vadd ms acc) i = Some (Fin s) /\ (s == a + sum_to (length ms) q)%Q.
Proof.
  induction ms as [|m ms IH]; intros acc i a q Ha H; simpl.
  - exists a. split; auto. ring.
  - destruct (H 0) as (m0 & E0 & Em); [simpl; lia|]. injection E0 as <-.
    destruct (IH (vadd acc m) i (a + q O)%Q (fun e => q (S e))) as (s & Es & Hs).
    + rewrite (vadd_nth _ _ _ _ _ Ha Em). reflexivity.
    + intros e He. apply (H (S e)). simpl. lia.
    + exists s. split; auto. rewrite Hs.
      assert (Hsum : forall n, (sum_to n (fun e => q (S e)) + q O == sum_to (S n) q)%Q).
      { clear. induction n as [|n IH]; simpl; [ring|]. simpl in IH. rewrite <- IH. ring. }
      rewrite <- (Hsum (length ms)). ring.
Qed.

Lemma sum_to_ext n f h : (forall i, i < n -> (f i == h i)%Q) -> (sum_to n f == sum_to n h)%Q.
Proof.
  induction n as [|n IH]; intros H; simpl; [reflexivity|]. rewrite IH, (H n) by auto with arith. reflexivity.
Qed.

Lemma sum_to_scale n f k : (sum_to n (fun i => f i / k) == sum_to n f / k)%Q.
Proof.
  unfold Qdiv. induction n as [|n IH]; simpl; [ring|]. rewrite IH. ring.
Qed.

Lemma of_nat_pos n : n <> 0 -> (0 < inject_Z (Z.of_nat n))%Q.
Proof. intros. change 0%Q with (inject_Z 0). rewrite <- Zlt_Qlt. lia. Qed.

Lemma qsign_pos q : (0 < q)%Q -> qsign q = Gt.
Proof. intros H. unfold qsign. now apply Qgt_alt in H. Qed.

Lemma fdiv_fin a b : ~ (b == 0)%Q -> fdiv (Fin a) (Fin b) = Fin (a / b).
Proof.
  intros H. unfold fdiv, qsign. destruct (b ?= 0)%Q eqn:E; auto. exfalso. apply H. now apply Qeq_alt.
Qed.

Lemma normalize_spec g g' :
  normalize g = Ok g' -> ec_normalized (cfg_edges (g_cfg g)) = true ->
  length (metrics g) = edge_count g FWD ->
  edge_count g FWD <> 0 /\
  forall i (q : nat -> Q), i < metric_dim g ->
    (forall e, e < edge_count g FWD -> metric_of g e i = Some (Fin (q e))) ->
    exists mu, metric_mean g' i = Ok (Some (Fin mu)) /\
      (mu == sum_to (edge_count g FWD) q / inject_Z (Z.of_nat (edge_count g FWD)))%Q /\
      (3 # 2000000 <= Qabs mu)%Q /\
      forall e, e < edge_count g FWD ->
        exists y, metric_of g' e i = Some y /\ lifted (Fin (q e / mu)) y.
Proof.
  intros E Hn Hl. unfold normalize in E. rewrite Hn in E.
  destruct (Nat.eqb_spec (edge_count g FWD) 0) as [|Hm]; [discriminate|]. split; auto.
  intros i q Hi Hq.
  set (mu := map (fun s => fdiv s (of_nat (edge_count g FWD))) (metric_sums (metric_dim g) (metrics g))) in *.
  destruct (existsb (fun m => approx_eq m f0) mu) eqn:Ez; [discriminate|].
  apply bind_ok in E. destruct E as (ms & Ems & E). injection E as <-.
  destruct (sums_nth (metrics g) (repeat f0 (metric_dim g)) i 0 q) as (s & Es & Hs).
  - rewrite nth_error_repeat by auto. reflexivity.
  - intros e He. rewrite Hl in He. specialize (Hq e He). unfold metric_of, edge_metrics, idx in Hq.
    destruct (nth_error (metrics g) e) as [m|]; [|discriminate]. eauto.
  - assert (Hpos : (0 < inject_Z (Z.of_nat (edge_count g FWD)))%Q) by now apply of_nat_pos.
    set (mm := (s / inject_Z (Z.of_nat (edge_count g FWD)))%Q).
    assert (Emu : nth_error mu i = Some (Fin mm)).
    { unfold mu. rewrite nth_error_map. unfold metric_sums. rewrite Es. simpl.
      unfold of_nat. now rewrite qsign_pos by auto. }
    assert (Hbig : (3 # 2000000 <= Qabs mm)%Q).
    { assert (Hf : approx_eq (Fin mm) f0 = false).
      { destruct (approx_eq (Fin mm) f0) eqn:Ea; auto. exfalso.
        rewrite <- not_true_iff_false in Ez. apply Ez. apply existsb_exists. exists (Fin mm). split; auto.
        eapply nth_error_In; eauto. }
      unfold f0 in Hf. apply approx_eq_fin_false in Hf.
      setoid_replace (mm - 0)%Q with mm in Hf by ring. exact Hf. }
    exists mm. split; [|split; [|split]]; auto.
    + unfold metric_mean. simpl. unfold idx. now rewrite Emu.
    + unfold mm. rewrite Hs, Hl. setoid_replace (0 + sum_to (edge_count g FWD) q)%Q
        with (sum_to (edge_count g FWD) q) by ring. reflexivity.
    + intros e He. specialize (Hq e He). unfold metric_of, edge_metrics in *. simpl.
      unfold idx in *. destruct (nth_error (metrics g) e) as [m|] eqn:Em; [|discriminate].
      apply mapM_ok in Ems.
      assert (Hex : exists m', nth_error ms e = Some m' /\ normalize_vec mu m = Ok m')
        by exact (Forall2_nth _ _ _ _ _ Ems Em).
      destruct Hex as (m' & Em' & Ev). rewrite Em'.
      unfold normalize_vec in Ev. apply mapM_ok in Ev.
      assert (Hen : nth_error (enumerate m) i = Some (i, Fin (q e))) by now rewrite enumerate_nth, Hq.
      destruct (Forall2_nth _ _ _ _ _ Ev Hen) as (y & Ey & Eq). cbn [fst snd] in Eq.
      exists y. split; auto.
      unfold idx in Eq. rewrite Emu in Eq. cbn [bind] in Eq.
      rewrite fdiv_fin in Eq.
      * injection Eq as <-. apply clamp_lifted.
      * intros Hz. rewrite Hz in Hbig. revert Hbig. unfold Qle. simpl. lia.
Qed.

Lemma lifted_fin_same x y : lifted (Fin x) y -> (3 # 2000000 <= Qabs x)%Q -> y = Fin x.
Proof.
  intros [[(q & E & H) _]|[_ ->]] Hb; auto. injection E as <-. exfalso.
  apply (Qlt_not_le _ _ H Hb).
Qed.

(** *** Normalizing does not panic on well-formed metrics *)
Lemma vadd_length a b : length (vadd a b) = Nat.min (length a) (length b).
Proof. revert b. induction a as [|x a IH]; intros [|y b]; simpl; auto. Qed.

Lemma sums_length ms : forall acc, (forall m, In m ms -> length m = length acc) ->
  length (fold_left vadd ms acc) = length acc.
Proof.
  induction ms as [|m ms IH]; intros acc H; simpl; auto.
  assert (Hv : length (vadd acc m) = length acc).
  { rewrite vadd_length, (H m) by now left. lia. }
  rewrite IH; auto. intros m' Hm'. rewrite Hv. apply H. now right.
Qed.

Lemma mapM_no_panic {A B} (f : A -> res B) l :
  (forall x, In x l -> exists y, f x = Ok y) -> exists ys, mapM f l = Ok ys.
Proof.
  induction l as [|x l IH]; intros H; simpl; eauto.
  destruct (H x) as [y ->]; [now left|]. cbn [bind].
  destruct IH as [ys ->]; [intros; apply H; now right|]. cbn [bind]. eauto.
Qed.

Lemma normalize_total g :
  (forall m, In m (metrics g) -> length m = metric_dim g) ->
  (exists g', normalize g = Ok g') \/ (exists s, normalize g = Err s).
Proof.
  intros H. unfold normalize. destruct (ec_normalized _); eauto.
  destruct (_ =? _); eauto. destruct (existsb _ _); eauto. left.
  destruct (mapM_no_panic (normalize_vec (map (fun s => fdiv s (of_nat (edge_count g FWD)))
      (metric_sums (metric_dim g) (metrics g)))) (metrics g)) as [ys ->].
  - intros m Hm. unfold normalize_vec. apply mapM_no_panic. intros [i x] Hx.
    apply enumerate_in in Hx. apply nth_error_lt in Hx. simpl.
    destruct (idx_lt (map (fun s => fdiv s (of_nat (edge_count g FWD)))
      (metric_sums (metric_dim g) (metrics g))) i) as [d ->]; [|cbn [bind]; eauto].
    rewrite map_length. unfold metric_sums. rewrite sums_length.
    + rewrite repeat_length. rewrite <- (H m Hm). exact Hx.
    + rewrite repeat_length. exact H.
  - cbn [bind]. eauto.
Qed.
