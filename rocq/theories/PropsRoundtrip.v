(** Properties C42 and C43: reading graphs that have been written *)
From Coq Require Import String Ascii List Bool Arith NArith ZArith QArith Lia Sorting.Sorted.
From Verif Require Import Base F64 ModelText ModelUnits ProofNodes ModelConfig ModelGraph ModelBuild Lib ProofText Spec Examples SpecGenerate ProofGenerate
  ModelStreets ModelParsing ModelFmi SpecFmi ProofFmi PropsFmi ModelWriting SpecWriting PropsWriting SpecRoundtrip ProofRoundtrip ProofRebuild ProofProps ProofGraph ProofBuild PropsGraph PropsGenerate.
Import ListNotations.
Open Scope string_scope.
Open Scope list_scope.
Open Scope nat_scope.

(** *** C42: a written graph can be read *)

(** the text of a written graph: its functional lines *)
Lemma write_fmi_lines show_f64 parse_f64 show_ids g ncs w file :
  write_fmi show_f64 show_ids g ncs w = Ok file ->
  (forall l, ~ In LF (show_ids l)) ->
  (forall x, written_value g (gc_denormalizing w) x -> survives show_f64 parse_f64 x) ->
  2 <= length (gc_nodes w) -> 2 <= length (gc_edges w) ->
  exists m es ncells ecells,
    functional_lines file = map show_nat [written_dim g w; node_count g; m] ++ map spaced ncells ++ map spaced ecells /\
    length ecells = m /\ m <= edge_count g FWD /\ exported_edges g (gc_shortcuts w) es /\
    Forall2 (fun i cells => Forall2 (fun o t => node_cell show_f64 g ncs i o = Ok t) (gc_nodes w) cells) (seq 0 (node_count g)) ncells /\
    Forall2 (fun e cells => Forall2 (fun o t => edge_cell show_f64 g (gc_denormalizing w) e o = Ok t) (gc_edges w) cells) es ecells /\
    Forall (fun cells => words (spaced cells) = cells /\ 2 <= length cells) (ncells ++ ecells).
Proof.
  intros H Hids Hval Ln Le. unfold write_fmi, write_edges in H.
  apply bind_ok in H. destruct H as (m & Hm & H). apply bind_ok in H. destruct H as (nrows & Hn & H).
  apply bind_ok in H. destruct H as (etext & He & H). apply bind_ok in He. destruct He as (erows & He & Het).
  assert (inj : forall x y : text, Ok x = Ok y -> x = y) by congruence.
  apply inj in Het, H. subst etext file. clear inj. cbn [edges_of_graph wc_shortcuts wc_ids wc_denormalizing header_line wc_header] in *.
  destruct (count_rows _ _ _ _ _ _ He Hm) as [Lm Lm']. rewrite seq_length in Lm'.
  destruct (edge_rows_exported _ _ _ _ He) as (es & Hes & Fe). apply mapM_ok in Hn.
  destruct (rows_cells (fun i o => node_cell show_f64 g ncs i o) (gc_nodes w) _ _ Hn) as (ncells & -> & Fn).
  destruct (rows_cells (fun e o => edge_cell show_f64 g (gc_denormalizing w) e o) (gc_edges w) _ _ Fe) as (ecells & -> & Fe').
  assert (Gn : Forall (fun cells => Forall good_cell cells /\ 2 <= length cells) ncells).
  { clear - Fn Hval Ln. induction Fn as [|i cells is ncells Hc F IH]; constructor; auto. split; [|now rewrite <- (Forall2_len _ _ _ Hc)].
    clear - Hc Hval. induction Hc as [|o t os ts Ht F IH]; constructor; auto.
    exact (node_cell_good show_f64 parse_f64 g (gc_denormalizing w) Hval ncs i o t Ht). }
  assert (Ge : Forall (fun cells => Forall good_cell cells /\ 2 <= length cells) ecells).
  { clear - Fe' Hval Le. induction Fe' as [|i cells is ecells Hc F IH]; constructor; auto. split; [|now rewrite <- (Forall2_len _ _ _ Hc)].
    clear - Hc Hval. induction Hc as [|o t os ts Ht F IH]; constructor; auto.
    exact (cell_good show_f64 parse_f64 g (gc_denormalizing w) Hval i o t Ht). }
  assert (G : Forall (fun cells => Forall good_cell cells /\ 2 <= length cells) (ncells ++ ecells)) by (apply Forall_app; auto).
  exists m, es, ncells, ecells. rewrite map_length in Lm. split; [|repeat (split; [solve [auto]|])].
  - rewrite fmi_comments_dropped by auto.
    replace (concat (map line [show_nat (written_dim g w); show_nat (node_count g); show_nat m]) ++
             concat (map (fun cells => line (spaced cells)) ncells) ++ [] ++ concat (map (fun cells => line (spaced cells)) ecells))
      with (concat (map line (map show_nat [written_dim g w; node_count g; m] ++ map spaced ncells ++ map spaced ecells))).
    2:{ rewrite !map_app, !concat_app, !map_map. reflexivity. }
    apply functional_all. apply Forall_app. split.
    + apply Forall_forall. intros l Hl. apply in_map_iff in Hl. destruct Hl as (k & <- & _).
      split; [apply printable_line, plain_printable, show_nat_plain|apply show_nat_functional].
    + rewrite <- map_app. apply Forall_forall. intros l Hl. apply in_map_iff in Hl. destruct Hl as (cells & <- & Hl).
      rewrite Forall_forall in G. destruct (G _ Hl) as [Gc Lc]. destruct (good_row cells Gc) as (_ & A & B); [destruct cells; cbn in Lc; [lia|discriminate]|auto].
  - eapply Forall_impl; [|exact G]. intros cells [Gc Lc]. split; [|auto]. apply good_row; [auto|]. destruct cells; cbn in Lc; [lia|discriminate].
Qed.

(** the positions of elements that pass a test *)
Lemma filter_positions {A} (test : A -> bool) (xs : list A) : forall o,
  exists ks, StronglySorted lt ks /\ length ks = length (filter test xs) /\
    forall k, In k ks <-> exists i x, k = o + i /\ nth_error xs i = Some x /\ test x = true.
Proof.
  induction xs as [|x xs IH]; intros o.
  - exists []. split; [constructor|]. split; [reflexivity|]. intros k. split; [intros []|]. intros ([|i] & x & _ & H & _); discriminate.
  - destruct (IH (S o)) as (ks & S1 & L & I). destruct (test x) eqn:E.
    + exists (o :: ks). split; [|split].
      * constructor; auto. apply Forall_forall. intros k Hk. apply I in Hk. destruct Hk as (i & y & -> & _). lia.
      * cbn. rewrite E. cbn. now rewrite L.
      * intros k. cbn [In]. rewrite I. split.
        -- intros [<-|(i & y & -> & H & T)]; [exists 0, x; split; [lia|auto]|exists (S i), y; split; [lia|auto]].
        -- intros ([|i] & y & -> & H & T); [left; lia|]. right. exists i, y. split; [lia|auto].
    + exists ks. split; [auto|]. split; [cbn; now rewrite E|]. intros k. rewrite I. split.
      * intros (i & y & -> & H & T). exists (S i), y. split; [lia|auto].
      * intros ([|i] & y & -> & H & T); [cbn in H; congruence|]. exists i, y. split; [lia|auto].
Qed.

(** A written file announces what follows: its first three lines (comments
    aside) are the number of columns that contain metrics, the number of nodes
    and the number of exported edges, followed by just as many lines for nodes
    and for edges, the latter with one word per column. *)
Theorem C42_counts show_f64 parse_f64 show_ids g ncs w file :
  write_fmi show_f64 show_ids g ncs w = Ok file ->
  (forall l, ~ In LF (show_ids l)) ->
  (forall x, written_value g (gc_denormalizing w) x -> survives show_f64 parse_f64 x) ->
  2 <= length (gc_nodes w) -> 2 <= length (gc_edges w) ->
  exists ks es node_lines edge_lines,
    functional_lines file = [show_nat (length ks); show_nat (length node_lines); show_nat (length edge_lines)] ++ node_lines ++ edge_lines /\
    columns_of_metrics g (gc_edges w) ks /\
    exported_edges g (gc_shortcuts w) es /\
    length node_lines = node_count g /\ length edge_lines = length es /\
    (forall l, In l node_lines -> length (words l) = length (gc_nodes w)) /\
    (forall l, In l edge_lines -> length (words l) = length (gc_edges w)).
Proof.
  intros H Hids Hval Ln Le.
  destruct (write_fmi_lines _ _ _ _ _ _ _ H Hids Hval Ln Le) as (m & es & ncells & ecells & Hl & Lm & _ & Hes & Fn & Fe & G).
  destruct (filter_positions (fun o => match o with
                             | Some id => existsb (String.eqb id) (ec_ids (cfg_edges (g_cfg g)))
                             | None => false
                             end) (gc_edges w) 0) as (ks & S1 & L & I).
  exists ks, es, (map spaced ncells), (map spaced ecells).
  assert (Ncells : length ncells = node_count g) by (rewrite <- (Forall2_len _ _ _ Fn); apply seq_length).
  split; [|split; [|split; [exact Hes|split; [|split; [|split]]]]].
  - rewrite Hl. rewrite !map_length, Lm, Ncells, L. reflexivity.
  - split; [exact S1|]. intros k. rewrite I. split.
    + intros (i & [id|] & -> & Hi & Ht); [|discriminate]. exists id. split; [exact Hi|].
      apply existsb_exists in Ht. destruct Ht as (id' & Hin & E). apply String.eqb_eq in E. now subst.
    + intros (id & Hk & Hin). exists k, (Some id). split; [reflexivity|]. split; [exact Hk|].
      apply existsb_exists. exists id. split; [exact Hin|apply String.eqb_refl].
  - now rewrite map_length.
  - rewrite map_length. symmetry. exact (Forall2_len _ _ _ Fe).
  - intros l Hi. apply in_map_iff in Hi. destruct Hi as (cells & <- & Hc). rewrite Forall_forall in G.
    destruct (G cells) as [-> _]; [apply in_or_app; auto|]. clear - Fn Hc. induction Fn as [|a b l l' Hab F IH]; [destruct Hc|]. destruct Hc as [<-|Hc]; [|auto].
    symmetry. exact (Forall2_len _ _ _ Hab).
  - intros l Hi. apply in_map_iff in Hi. destruct Hi as (cells & <- & Hc). rewrite Forall_forall in G.
    destruct (G cells) as [-> _]; [apply in_or_app; auto|]. clear - Fe Hc. induction Fe as [|a b l l' Hab F IH]; [destruct Hc|]. destruct Hc as [<-|Hc]; [|auto].
    symmetry. exact (Forall2_len _ _ _ Hab).
Qed.
Print Assumptions C42_counts.

(** Writing a graph and reading the file with columns that fit gives, in the
    order of the graph's indices, exactly the graph's nodes and exported edges,
    with all information asked for. *)
Theorem C42_read_back show_f64 parse_f64 show_ids g ncs w dim pc file :
  write_fmi show_f64 show_ids g ncs w = Ok file ->
  check_config dim pc = Ok tt ->
  Forall2 (read_as g) (gc_edges w) (ec_categories (cfg_edges (pc_cfg pc))) ->
  Forall2 (read_node_as ncs) (gc_nodes w) (pc_nodes pc) ->
  readable (ec_categories (cfg_edges (pc_cfg pc))) ->
  machine_sized g ->
  (forall x, written_value g (gc_denormalizing w) x -> survives show_f64 parse_f64 x) ->
  (forall l, ~ In LF (show_ids l)) ->
  exists es pes pns,
    fmi_parse parse_f64 dim pc file = Ok (pes, pns) /\
    exported_edges g (gc_shortcuts w) es /\
    Forall2 (retold_edge g (gc_denormalizing w) (gc_edges w) (ec_categories (cfg_edges (pc_cfg pc)))) es pes /\
    Forall2 (retold_node g (pc_nodes pc)) (seq 0 (node_count g)) pns.
Proof.
  intros Hw Hcfg Hre Hrn Hrd Hsz Hval Hids.
  assert (Hc : existsb is_node_id (pc_nodes pc) = true /\ existsb is_latitude (pc_nodes pc) = true /\ existsb is_longitude (pc_nodes pc) = true).
  { unfold check_config in Hcfg. destruct (existsb is_node_id (pc_nodes pc)); [|discriminate]. destruct (existsb is_latitude (pc_nodes pc)); [|discriminate].
    destruct (existsb is_longitude (pc_nodes pc)); [auto|discriminate]. }
  destruct Hc as (Ci & Cla & Clo).
  destruct (write_fmi_lines _ _ _ _ _ _ _ Hw Hids Hval) as (m & es & ncells & ecells & Ef & Lm & Lm' & Hes & Fn & Fe & G).
  { rewrite (Forall2_len _ _ _ Hrn). now apply node_cats_length. }
  { rewrite (Forall2_len _ _ _ Hre). now apply readable_length. }
  pose proof (ms_lines g Hsz) as Hlines. pose proof (Forall2_len _ _ _ Fn) as Ln. rewrite seq_length in Ln.
  destruct (C34_every_file file) as (ls & ds & F1 & F2). pose proof (functional_of _ _ _ F1 F2) as Ed. rewrite Ef in Ed.
  assert (Hsingle : forall k, words (show_nat k) = [show_nat k]).
  { intros k. apply (words_spaced [show_nat k]). constructor; [apply show_nat_plain|constructor]. }
  set (data := map spaced ncells ++ map spaced ecells) in *.
  destruct (C34_ranges file ls ds [] [show_nat (written_dim g w)] (show_nat (node_count g)) (show_nat m) data
              (N.of_nat (node_count g)) (N.of_nat m) F1 F2) as (r & Er & Hr).
  { split; [rewrite <- Ed; reflexivity|]. split; [discriminate|]. split; [constructor|]. split.
    - repeat constructor; eexists; apply Hsingle.
    - intros l rest E [x Hx]. assert (Hl : In l data) by (rewrite E; now left). unfold data in Hl. rewrite <- map_app in Hl.
      apply in_map_iff in Hl. destruct Hl as (cells & <- & Hl). rewrite Forall_forall in G. destruct (G _ Hl) as [E1 E2].
      rewrite E1 in Hx. subst cells. cbn in E2. lia. }
  { eexists. split; [apply Hsingle|]. apply parse_usize_nat. lia. }
  { eexists. split; [apply Hsingle|]. apply parse_usize_nat. lia. }
  { rewrite <- Ed. unfold data. rewrite !app_length, !map_length. cbn [length]. lia. }
  destruct (Hr parse_f64 pc) as [Hns Hees].
  assert (Pn : exists pns, Forall2 (fun l x => node_from_str parse_f64 (pc_nodes pc) l = Ok x) (map spaced ncells) pns /\
                           Forall2 (retold_node g (pc_nodes pc)) (seq 0 (node_count g)) pns).
  { apply Forall_app in G. destruct G as [G _]. clear - Fn G Hrn Ci Cla Clo Hsz Hval.
    induction Fn as [|i cells is ncells Hc F IH]; [exists []; cbn [map]; split; constructor|]. inversion G as [|? ? [G1 _] G2]; subst.
    destruct (IH G2) as (pns & A & B).
    destruct (node_retold show_f64 parse_f64 g (gc_denormalizing w) Hval Hsz ncs i (gc_nodes w) (pc_nodes pc) cells Hrn Ci Cla Clo Hc G1) as (pn & P1 & P2).
    exists (pn :: pns). cbn [map]. auto. }
  assert (Pe : exists pes, Forall2 (fun l x => edge_from_str parse_f64 (ec_categories (cfg_edges (pc_cfg pc))) l = Ok x) (map spaced ecells) pes /\
                 Forall2 (retold_edge g (gc_denormalizing w) (gc_edges w) (ec_categories (cfg_edges (pc_cfg pc)))) es pes).
  { apply Forall_app in G. destruct G as [_ G]. clear - Fe G Hre Hrd Hsz Hval.
    induction Fe as [|e cells is ecells Hc F IH]; [exists []; cbn [map]; split; constructor|]. inversion G as [|? ? [G1 _] G2]; subst.
    destruct (IH G2) as (pes & A & B).
    destruct (edge_retold show_f64 parse_f64 g (gc_denormalizing w) Hval Hsz e (gc_edges w) _ cells Hre Hrd Hc G1) as (pe & P1 & P2).
    exists (pe :: pes). cbn [map]. auto. }
  destruct Pn as (pns & Pn & Rn). destruct Pe as (pes & Pe & Re). exists es, pes, pns.
  split; [|auto]. unfold fmi_parse, fmi_preprocess. rewrite Hcfg. cbn [bind]. rewrite Er. cbn [bind].
  assert (En : firstn (N.to_nat (N.of_nat (node_count g))) data = map spaced ncells).
  { rewrite Nat2N.id, Ln, <- (map_length spaced ncells). unfold data. rewrite firstn_app, Nat.sub_diag, firstn_all. apply app_nil_r. }
  assert (Ee : firstn (N.to_nat (N.of_nat m)) (skipn (N.to_nat (N.of_nat (node_count g))) data) = map spaced ecells).
  { rewrite !Nat2N.id, Ln, <- (map_length spaced ncells). unfold data. rewrite skipn_app, Nat.sub_diag, skipn_all. cbn [skipn app].
    rewrite <- Lm, <- (map_length spaced ecells). apply firstn_all. }
  rewrite En in Hns. rewrite Ee in Hees. rewrite (proj2 (Hees pes) Pe). cbn [bind]. rewrite (proj2 (Hns pns) Pn). reflexivity.
Qed.
Print Assumptions C42_read_back.

(** *** C43: the graph built of a written graph *)

Lemma exported_all g es : exported_edges g true es -> es = seq 0 (edge_count g FWD).
Proof.
  intros [Hs H].
  assert (G : forall n a l, StronglySorted lt l -> (forall e, In e l <-> a <= e < a + n) -> l = seq a n).
  { induction n as [|n IH]; intros a l Hl He.
    - destruct l as [|x l]; [reflexivity|]. exfalso. pose proof (proj1 (He x) (or_introl eq_refl)). lia.
    - destruct Hl as [|x l Hl Hf]; [exfalso; pose proof (proj2 (He a)) as X; apply X; lia|]. rewrite Forall_forall in Hf.
      assert (x = a) as ->.
      { pose proof (proj1 (He x) (or_introl eq_refl)). destruct (proj2 (He a)) as [E|E]; [lia|auto|]. apply Hf in E. lia. }
      simpl. f_equal. apply IH; auto. intros e. split.
      + intros Hin. pose proof (Hf _ Hin). pose proof (proj1 (He e) (or_intror Hin)). lia.
      + intros Hr. destruct (proj2 (He e)) as [E|E]; [lia|lia|auto]. }
  apply G; auto. intros e. rewrite H. simpl. intuition lia.
Qed.

Lemma retold_metrics g denorm e ids xs ms :
  NoDup (ids_of g) -> ids = ids_of g -> denorm = false \/ means g = None ->
  edge_metrics g e = Ok ms -> length ms = length (ids_of g) ->
  Forall2 (fun id x => exists i, first_at (ids_of g) id i /\ exported_metric g denorm e i x) ids xs -> xs = ms.
Proof.
  intros Hn -> Hd He Hl HF. apply list_ext. intros j. destruct (nth_error (ids_of g) j) as [id|] eqn:Ej.
  - destruct (Forall2_nth _ _ _ _ _ HF Ej) as (x & Ex & i & [Hi _] & y & Hy & Hx). rewrite Ex.
    assert (i = j). { apply (proj1 (NoDup_nth_error (ids_of g)) Hn); [apply nth_error_Some; congruence|congruence]. } subst i.
    unfold metric_of in Hy. rewrite He in Hy. rewrite Hy. destruct Hd as [->|E]; [congruence|]. rewrite E in Hx. destruct denorm; congruence.
  - apply nth_error_None in Ej. transitivity (@None f64); [|symmetry]; apply nth_error_None; [rewrite <- (Forall2_len _ _ _ HF)|rewrite Hl]; exact Ej.
Qed.

(** Building a graph of its own file gives the same graph: the same nodes, the
    same edges with the same indices, ids, metrics and shortcuts, and the same
    lists of leaving and entering edges. *)
Theorem C43_rebuild show_f64 parse_f64 show_ids hav c ch1 ch2 es ns g ncs w dim pc file :
  1 <= ch1 -> 1 <= ch2 -> build hav c ch1 ch2 es ns = Ok g ->
  write_fmi show_f64 show_ids g ncs w = Ok file ->
  check_config dim pc = Ok tt ->
  Forall2 (read_as g) (gc_edges w) (ec_categories (cfg_edges (pc_cfg pc))) ->
  Forall2 (read_node_as ncs) (gc_nodes w) (pc_nodes pc) ->
  readable (ec_categories (cfg_edges (pc_cfg pc))) ->
  machine_sized g ->
  (forall x, written_value g (gc_denormalizing w) x -> survives show_f64 parse_f64 x) ->
  (forall l, ~ In LF (show_ids l)) ->
  gc_shortcuts w = true -> gc_denormalizing w = false \/ means g = None ->
  tells_all g (gc_edges w) (ec_categories (cfg_edges (pc_cfg pc))) -> tells_levels g (pc_nodes pc) ->
  described g -> storable g -> no_duplicates g -> plain_metrics (pc_cfg pc) ->
  forall hav' ch1' ch2', 1 <= ch1' -> 1 <= ch2' ->
  exists g', fmi_graph parse_f64 hav' dim pc ch1' ch2' file = Ok g' /\ same_content g g' /\
             g_cfg g' = pc_cfg pc /\ means g' = None.
Proof.
  intros Hc1 Hc2 HB Hw Hcfg Hre Hrn Hrd Hsz Hval Hids Hsh Hden (Tid & Tsc & Tm & Tn) Tl Hd Hst Hdup Hp hav' ch1' ch2' Hc1' Hc2'.
  destruct (C42_read_back _ _ _ _ _ _ _ _ _ Hw Hcfg Hre Hrn Hrd Hsz Hval Hids) as (eds & pes & pns & Hparse & Hex & HE & HN).
  rewrite Hsh in Hex. apply exported_all in Hex. subst eds.
  pose proof (Forall2_len _ _ _ HE) as LE. rewrite seq_length in LE. pose proof (Forall2_len _ _ _ HN) as LN. rewrite seq_length in LN.
  destruct Hd as (Hd1 & Hd2 & Hd3). pose proof (proj2 (desc_described g) (conj Hd1 (conj Hd2 Hd3))) as (_ & Lm & _).
  destruct (build_lengths _ _ _ _ _ _ _ Hc1 Hc2 HB) as (L1 & L2 & L3).
  assert (edge_meta_dec : forall x y : edge_meta, {x = y} + {x <> y}) by decide equality.
  assert (node_meta_dec : forall x y : node_meta, {x = y} + {x <> y}) by decide equality.
  exists (with_means (with_cfg g (pc_cfg pc)) None). split; [|split; [constructor; reflexivity|split; reflexivity]].
  unfold fmi_graph. rewrite Hparse. cbn [bind fst snd].
  apply rebuild_lemma with (hav := hav) (c := c) (ch1 := ch1) (ch2 := ch2) (es := es) (ns := ns); auto.
  - intros e pe Epe. pose proof (nth_error_lt _ _ _ Epe) as Le. rewrite <- LE in Le.
    assert (Hse : nth_error (seq 0 (edge_count g FWD)) e = Some e).
    { rewrite (nth_error_nth' _ 0) by now rewrite seq_length. now rewrite seq_nth. }
    destruct (Forall2_nth _ _ _ _ _ HE Hse) as (pe' & Epe' & R). assert (pe' = pe) by congruence. subst pe'.
    destruct R as [R1 R2 R3 R4 R5 R6]. split; [exact R1|]. split; [|split].
    + destruct (in_dec edge_meta_dec EdgeId (metas (ec_categories (cfg_edges (pc_cfg pc))))) as [I|I]; [auto|].
      rewrite (R3 I). destruct Tid as [Tid|Tid]; [contradiction|].
      destruct (edge_try_id g e) as [[i|]| | |] eqn:Ei; try reflexivity; try (exfalso; apply (Tid e i); exact Ei);
        destruct (idx_lt (edge_ids g) e) as [x Hx]; try (rewrite L1; lia); unfold edge_try_id in Ei; congruence.
    + destruct (proj1 (Hd2 e) Le) as (ms & Ems). rewrite Ems. f_equal. symmetry.
      apply (retold_metrics g (gc_denormalizing w) e (metric_columns (gc_edges w) (ec_categories (cfg_edges (pc_cfg pc)))) _ ms); auto.
      rewrite (Hd3 _ _ Ems). auto.
    + destruct Tsc as [[T0 T1]|Tsc]; [auto|]. destruct (build_is_shortcut _ _ _ _ _ _ _ _ Hc1 Hc2 HB Le) as (r & Hr & _).
      destruct r as [p|]; [exfalso; apply (Tsc e p); exact Hr|]. rewrite Hr. f_equal.
      destruct (in_dec edge_meta_dec ShortcutIdx0 (metas (ec_categories (cfg_edges (pc_cfg pc))))) as [I|I]; [|symmetry; auto].
      destruct (in_dec edge_meta_dec ShortcutIdx1 (metas (ec_categories (cfg_edges (pc_cfg pc))))) as [J|J]; [|symmetry; auto].
      specialize (R4 I J). congruence.
  - intros i pn Epn. pose proof (nth_error_lt _ _ _ Epn) as Le. rewrite <- LN in Le.
    assert (Hse : nth_error (seq 0 (node_count g)) i = Some i).
    { rewrite (nth_error_nth' _ 0) by now rewrite seq_length. now rewrite seq_nth. }
    destruct (Forall2_nth _ _ _ _ _ HN Hse) as (pn' & Epn' & R). assert (pn' = pn) by congruence. subst pn'.
    destruct R as [R1 R2 R3 R4]. split; auto. split; auto.
    destruct (in_dec node_meta_dec NCHLevel (node_metas (pc_nodes pc))) as [I|I].
    + destruct (R3 I) as (l & El & ->). exact El.
    + rewrite (R4 I). destruct Tl as [Tl|Tl]; [contradiction|].
      destruct (idx_lt (node_levels g) i) as [x Hx]; [rewrite L3; exact Le|].
      unfold node_level. rewrite Hx. f_equal. apply (Tl i x). exact Hx.
  - intros e ms x He Hx. apply In_nth_error in Hx. destruct Hx as [i Hi]. apply (Hst e i x). unfold metric_of. now rewrite He.
Qed.
Print Assumptions C43_rebuild.

Lemma lifted_fun x y : lifted x x -> lifted x y -> y = x.
Proof.
  intros [[(q & Eq & Hq) Ex]|[H _]] [[(q' & Eq' & Hq') Ey]|[H' Ey]]; try congruence.
  exfalso. specialize (H q' Eq'). apply (Qlt_not_le _ _ Hq'). exact H.
Qed.

Lemma unlifted_no_duplicates hav c ch1 ch2 es ns g :
  1 <= ch1 -> 1 <= ch2 -> build hav c ch1 ch2 es ns = Ok g -> plain_metrics c ->
  (forall pe x, In pe es -> In x (pe_metrics pe) -> lifted x x) -> no_duplicates g.
Proof.
  intros Hc1 Hc2 HB Hp Hl e s d i ms ms' [S1 D1] [S2 D2] I1 I2 M1 M2 Hclose.
  destruct (build_edges _ _ _ _ _ _ _ Hc1 Hc2 HB) as (rep & orig & A & _ & C).
  assert (He : S e < edge_count g FWD).
  { unfold dst_idx in D2. apply idx_ok in D2. apply nth_error_lt in D2. exact D2. }
  assert (Hk : keeps_edge_ids c) by (intros id H; destruct Hp as (_ & E & _); rewrite E in H; destruct H).
  assert (G : forall pe ms, In pe es -> Forall2 lifted (pe_metrics pe) ms -> ms = pe_metrics pe).
  { intros pe l Hin HF. specialize (Hl pe). revert Hl. induction HF as [|x y xs ys Hxy HF IH]; intros Hl; [reflexivity|].
    f_equal; [|apply IH; intros z Hi Hz; apply Hl; [auto|now right]]. apply lifted_fun; auto. apply Hl; [auto|now left]. }
  destruct (A e ltac:(lia)) as (pe & Epe & _ & (s1 & d1 & (X1 & X2) & N1 & N2) & T1 & U1 & _).
  destruct (A (S e) He) as (pe' & Epe' & _ & (s2 & d2 & (Y1 & Y2) & N3 & N4) & T2 & U2 & _).
  destruct (U1 Hp) as (l1 & E1 & F1). destruct (U2 Hp) as (l2 & E2 & F2). specialize (T1 Hk). specialize (T2 Hk).
  apply G in F1; [|eapply nth_error_In; eauto]. apply G in F2; [|eapply nth_error_In; eauto].
  apply (C e pe pe' He Epe Epe'). split; [congruence|]. split; [congruence|]. split; [congruence|].
  assert (ms = pe_metrics pe) by congruence. assert (ms' = pe_metrics pe') by congruence. now subst.
Qed.

(** For graphs built of inserted metrics alone, all of which are stored as they
    are, nothing has to be assumed about the graph. *)
Theorem C43_plain show_f64 parse_f64 show_ids hav c ch1 ch2 es ns g ncs w dim pc file :
  1 <= ch1 -> 1 <= ch2 -> build hav c ch1 ch2 es ns = Ok g -> plain_metrics c ->
  (forall pe x, In pe es -> In x (pe_metrics pe) -> lifted x x) ->
  length (ec_ids (cfg_edges c)) = length (ec_units (cfg_edges c)) -> fitting_edges c es ->
  write_fmi show_f64 show_ids g ncs w = Ok file ->
  check_config dim pc = Ok tt ->
  Forall2 (read_as g) (gc_edges w) (ec_categories (cfg_edges (pc_cfg pc))) ->
  Forall2 (read_node_as ncs) (gc_nodes w) (pc_nodes pc) ->
  readable (ec_categories (cfg_edges (pc_cfg pc))) ->
  machine_sized g ->
  (forall x, written_value g (gc_denormalizing w) x -> survives show_f64 parse_f64 x) ->
  (forall l, ~ In LF (show_ids l)) ->
  gc_shortcuts w = true ->
  tells_all g (gc_edges w) (ec_categories (cfg_edges (pc_cfg pc))) -> tells_levels g (pc_nodes pc) ->
  plain_metrics (pc_cfg pc) ->
  forall hav' ch1' ch2', 1 <= ch1' -> 1 <= ch2' ->
  exists g', fmi_graph parse_f64 hav' dim pc ch1' ch2' file = Ok g' /\ same_content g g' /\
             g_cfg g' = pc_cfg pc /\ means g' = None.
Proof.
  intros Hc1 Hc2 HB Hp Hlift Hl Hf Hw Hcfg Hre Hrn Hrd Hsz Hval Hids Hsh Hta Htl Hpp.
  pose proof Hp as (P1 & P2 & P3).
  apply (C43_rebuild show_f64 parse_f64 show_ids hav c ch1 ch2 es ns g ncs w); auto.
  - right. destruct (build_spec _ _ _ _ _ _ _ Hc1 Hc2 HB) as (b & g0 & K & _ & _ & _ & _ & _ & _ & Hm). apply (Hm P1 P2 P3).
  - apply (C39_built hav c ch1 ch2 es ns g); auto.
  - intros e i x Hx. unfold metric_of in Hx. destruct (edge_metrics g e) as [ms| | |] eqn:E; try discriminate.
    destruct (C12_metrics_not_small _ _ _ _ _ _ _ Hc1 Hc2 HB Hp e ms E) as (A & pe & _ & _ & HF).
    split; [|apply A; eapply nth_error_In; eauto].
    destruct (Forall2_nth_r _ _ _ _ _ HF Hx) as (y & _ & [[_ ->]|[B ->]]); [left|right; auto].
    split; [exists (1 # 1000000)%Q; split; reflexivity|reflexivity].
  - exact (unlifted_no_duplicates _ _ _ _ _ _ _ Hc1 Hc2 HB Hp Hlift).
Qed.
Print Assumptions C43_plain.

(** *** Cases *)

(** numbers as fractions *)
Definition show_frac (x : f64) : text :=
  match x with Fin q => show_Z (Qnum q) ++ T "/" ++ show_N (Npos (Qden q)) | PInf => T "inf" | NInf => T "-inf" | NaN => T "NaN" end.
Fixpoint split_slash (cur s : text) : option (text * text) :=
  match s with
  | [] => None
  | c :: s => if Ascii.eqb c "/"%char then Some (rev cur, s) else split_slash (c :: cur) s
  end.
Definition parse_frac (s : text) : option f64 :=
  match split_slash [] s with
  | Some (a, b) => match parse_i64 a, parse_usize b with
                   | Some z, Some (Npos p) => Some (Fin (z # p))
                   | _, _ => None
                   end
  | None => None
  end.
Definition plain_ids (l : list text) : text := T "ids".

Definition rt_ncs : list node_cat :=
  [NCMetric Longitude "lon"; NCIgnored; NCMeta NCHLevel "ch"; NCMetric Latitude "lat"; NCMeta NNodeId "id"].
Definition rt_w : graph_cfg :=
  {| gc_nodes := [Some "id"; Some "lat"; None; Some "lon"; Some "ch"]; gc_shortcuts := true; gc_denormalizing := true;
     gc_edges := [Some "id"; Some "dst"; Some "src"; None; Some "km"; Some "m"; Some "sc0"; Some "dst-lat"; Some "sc1"] |}.
Definition rt_pc : parse_cfg :=
  {| pc_vehicles := mkVehicle Car false;
     pc_nodes := [NCMeta NNodeId "i"; NCMetric Latitude "lat"; NCIgnored; NCMetric Longitude "lon"; NCMeta NCHLevel "level"];
     pc_cfg := {| cfg_edges := {| ec_categories := [CMeta EdgeId "e"; CMeta DstId "d"; CMeta SrcId "s"; CIgnored; CMetric Kilometers "x";
                                                    CMetric Meters "y"; CMeta ShortcutIdx0 "a"; CIgnored; CMeta ShortcutIdx1 "b"];
                                  ec_normalized := false; ec_units := [Kilometers; Meters]; ec_ids := ["x"; "y"] |};
                  cfg_nodes := []; cfg_gen_nodes := []; cfg_gen_edges := [] |} |}.
Definition rt_file : text := Eval vm_compute in unok [] (write_fmi show_frac plain_ids wr_graph rt_ncs rt_w).

Lemma node_called_first ncs id c : find (fun c => match c with NCMeta _ i | NCMetric _ i => String.eqb i id | NCIgnored => false end) ncs = Some c ->
  node_called ncs id c.
Proof.
  unfold node_called. induction ncs as [|x ncs IH]; [discriminate|]. cbn [find]. intros H.
  assert (Hc : forall i, String.eqb i id = true -> i = id) by (intros i; apply String.eqb_eq).
  destruct x as [info i|u i|]; [destruct (String.eqb i id) eqn:E|destruct (String.eqb i id) eqn:E|].
  - injection H as <-. exists [], ncs. split; [reflexivity|]. split; [intros c' []|]. split; [intros c' []|]. left. exists info. now rewrite (Hc i E).
  - destruct (IH H) as (b & a & -> & A & B & C). apply String.eqb_neq in E. exists (NCMeta info i :: b), a. split; [reflexivity|].
    split; [|split; [|exact C]]; intros c' [<-|Hin] j; try congruence; auto.
  - injection H as <-. exists [], ncs. split; [reflexivity|]. split; [intros c' []|]. split; [intros c' []|]. right. exists u. now rewrite (Hc i E).
  - destruct (IH H) as (b & a & -> & A & B & C). apply String.eqb_neq in E. exists (NCMetric u i :: b), a. split; [reflexivity|].
    split; [|split; [|exact C]]; intros c' [<-|Hin] j; try congruence; auto.
  - destruct (IH H) as (b & a & -> & A & B & C). exists (NCIgnored :: b), a. split; [reflexivity|].
    split; [|split; [|exact C]]; intros c' [<-|Hin] j; try congruence; auto.
Qed.

Definition good_char (c : ascii) : bool := (33 <=? nat_of_ascii c) && (nat_of_ascii c <=? 126).
Definition survives_b (x : f64) : bool :=
  match show_frac x with
  | [] => false
  | c :: _ => negb (Ascii.eqb c HASH)
  end && forallb good_char (show_frac x).
Lemma survives_ok x : parse_frac (show_frac x) = Some x -> survives_b x = true -> survives show_frac parse_frac x.
Proof.
  unfold survives, survives_b. intros H1 H2. apply andb_true_iff in H2. destruct H2 as [H2 H3]. split; [exact H1|]. split.
  - destruct (show_frac x) as [|c t]; [discriminate|]. exists c, t. split; [reflexivity|]. intros ->. rewrite Ascii.eqb_refl in H2. discriminate.
  - rewrite forallb_forall in H3. intros c Hc. specialize (H3 c Hc). apply andb_true_iff in H3. destruct H3 as [A B].
    apply Nat.leb_le in A, B. lia.
Qed.

Lemma rt_write : write_fmi show_frac plain_ids wr_graph rt_ncs rt_w = Ok rt_file.
Proof. vm_compute. reflexivity. Qed.
Lemma rt_columns : Forall2 (read_as wr_graph) (gc_edges rt_w) (ec_categories (cfg_edges (pc_cfg rt_pc))) /\
                   Forall2 (read_node_as rt_ncs) (gc_nodes rt_w) (pc_nodes rt_pc).
Proof.
  split; cbn [rt_w rt_pc gc_edges gc_nodes ec_categories cfg_edges pc_cfg pc_nodes].
  - repeat (constructor; [first [apply read_ignored | apply read_meta; [apply first_called_spec; vm_compute; reflexivity|cbn [In]; tauto]
                               | eapply read_metric; apply first_called_spec; vm_compute; reflexivity]|]). constructor.
  - repeat (constructor; [first [apply read_node_ignored | apply read_node_meta; [apply node_called_first; vm_compute; reflexivity|tauto]
                               | apply read_node_metric; [apply node_called_first; vm_compute; reflexivity|tauto]]|]). constructor.
Qed.
Lemma rt_readable : readable (ec_categories (cfg_edges (pc_cfg rt_pc))).
Proof.
  split; [|split; cbn; tauto]. repeat (constructor; [cbn; intuition discriminate|]). constructor.
Qed.
Lemma rt_sized : machine_sized wr_graph.
Proof.
  constructor.
  - intros i z H. do 3 (destruct i as [|i]; [vm_compute in H; injection H as <-; lia|]). destruct i; discriminate.
  - intros i l H. do 3 (destruct i as [|i]; [vm_compute in H; injection H as <-; apply N.leb_le; vm_compute; reflexivity|]). destruct i; discriminate.
  - intros e i H. do 4 (destruct e as [|e]; [vm_compute in H; first [discriminate|injection H as <-; apply N.leb_le; vm_compute; reflexivity]|]). destruct e; discriminate.
  - intros e x y H. do 4 (destruct e as [|e]; [vm_compute in H; first [discriminate|injection H as <- <-; split; apply N.leb_le; vm_compute; reflexivity]|]).
    destruct e as [|[|e]]; vm_compute in H; discriminate.
  - apply N.leb_le; vm_compute; reflexivity.
Qed.
Lemma rt_survive x : written_value wr_graph true x -> survives show_frac parse_frac x.
Proof.
  intros [(i & c & H & Hx)|(e & i & y & Hy & Hx)].
  - do 3 (destruct i as [|i]; [vm_compute in H; injection H as <-; destruct Hx as [->| ->]; apply survives_ok; vm_compute; reflexivity|]). destruct i; discriminate.
  - change (x = y) in Hx. subst y.
    do 4 (destruct e as [|e]; [destruct i as [|[|i]]; [vm_compute in Hy; injection Hy as <-; apply survives_ok; vm_compute; reflexivity
                                                      |vm_compute in Hy; injection Hy as <-; apply survives_ok; vm_compute; reflexivity|destruct i; discriminate]|]).
    destruct e; discriminate.
Qed.

(** a graph with a shortcut is written and read *)
Example C42_case :
  write_fmi show_frac plain_ids wr_graph rt_ncs rt_w = Ok rt_file /\
  check_config 4 rt_pc = Ok tt /\
  Forall2 (read_as wr_graph) (gc_edges rt_w) (ec_categories (cfg_edges (pc_cfg rt_pc))) /\
  Forall2 (read_node_as rt_ncs) (gc_nodes rt_w) (pc_nodes rt_pc) /\
  readable (ec_categories (cfg_edges (pc_cfg rt_pc))) /\ machine_sized wr_graph /\
  (forall x, written_value wr_graph (gc_denormalizing rt_w) x -> survives show_frac parse_frac x) /\
  (forall l, ~ In LF (plain_ids l)) /\
  nth_error (functional_lines rt_file) 7 = Some (T "3 30 10 _ 5/1 5000/1 0 1/1 2").
Proof.
  split; [exact rt_write|]. split; [reflexivity|]. split; [apply rt_columns|]. split; [apply rt_columns|]. split; [exact rt_readable|].
  split; [exact rt_sized|]. split; [exact rt_survive|]. split; [|vm_compute; reflexivity].
  intros l H. vm_compute in H. intuition discriminate.
Qed.

Example C42_counts_case :
  write_fmi show_frac plain_ids wr_graph rt_ncs rt_w = Ok rt_file /\
  (forall x, written_value wr_graph (gc_denormalizing rt_w) x -> survives show_frac parse_frac x) /\
  length (gc_edges rt_w) = 9 /\ columns_of_metrics wr_graph (gc_edges rt_w) [4; 5] /\
  firstn 3 (functional_lines rt_file) = [T "2"; T "3"; T "4"].
Proof.
  split; [exact rt_write|]. split; [exact rt_survive|]. split; [reflexivity|]. split; [|vm_compute; reflexivity].
  split; [repeat constructor|]. intros k. split.
  - intros [<-|[<-|[]]]; [exists "km"|exists "m"]; vm_compute; auto.
  - intros (id & Hk & Hin). do 9 (destruct k as [|k]; [cbn in Hk; try discriminate; inversion Hk; subst id; vm_compute in Hin;
      first [cbn; tauto|exfalso; intuition discriminate]|]). destruct k; discriminate.
Qed.


Lemma rt_built : fmi_graph parse_frac ex_hav 4 rt_pc 1 2 rt_file = Ok (with_means (with_cfg wr_graph (pc_cfg rt_pc)) None).
Proof. vm_compute. reflexivity. Qed.

Example C43_case :
  build ex_hav wr_cfg 2 3 ex_es wr_ns = Ok wr_graph /\
  gc_shortcuts rt_w = true /\ means wr_graph = None /\
  tells_all wr_graph (gc_edges rt_w) (ec_categories (cfg_edges (pc_cfg rt_pc))) /\ tells_levels wr_graph (pc_nodes rt_pc) /\
  described wr_graph /\ storable wr_graph /\ no_duplicates wr_graph /\ plain_metrics (pc_cfg rt_pc).
Proof.
  split; [exact wr_build|]. split; [reflexivity|]. split; [reflexivity|]. split.
  { split; [left; cbn; tauto|]. split; [left; cbn; tauto|]. split; [reflexivity|].
    vm_compute. constructor; [|constructor; [|constructor]]; cbn [In]; intuition discriminate. }
  split; [left; cbn; tauto|]. split; [apply C37_case|]. split.
  { intros e i x H.
    assert (Hx : forall q, x = Fin q -> x = Fin (1 # 1000000) \/ Qle_bool (3 # 2000000) q = true -> lifted x x /\ not_too_small x).
    { intros q -> [Hq|Hq].
      - injection Hq as ->. split; [left; split; [|reflexivity]; exists (1 # 1000000)%Q; split; reflexivity|].
        vm_compute. discriminate.
      - apply Qle_bool_iff in Hq. split.
        + right. split; [|reflexivity]. intros q' Hq'. injection Hq' as <-. eapply Qle_trans; [exact Hq|]. apply Qabs.Qle_Qabs.
        + eapply Qle_trans; [|exact Hq]. vm_compute. discriminate. }
    do 4 (destruct e as [|e]; [destruct i as [|[|i]]; [vm_compute in H; injection H as <-; eapply Hx; [reflexivity|]; first [left; reflexivity|right; reflexivity]
                                                      |vm_compute in H; injection H as <-; eapply Hx; [reflexivity|]; first [left; reflexivity|right; reflexivity]
                                                      |destruct i; discriminate]|]).
    destruct e; discriminate. }
  split; [|repeat split].
  intros e s d i ms ms' [S1 D1] [S2 D2]. exfalso.
  do 4 (destruct e as [|e]; [vm_compute in S1, D1, S2, D2; congruence|]). destruct e; discriminate.
Qed.

(** two edges side by side, metrics inserted only *)
Definition pl_edge (id : option nat) (s d : Z) (x y : Q) (sc : option (nat * nat)) : proto_edge :=
  {| pe_id := id; pe_src := s; pe_dst := d; pe_metrics := [Fin x; Fin y]; pe_sc := sc |}.
Definition pl_es : list proto_edge :=
  [pl_edge (Some 7) 10 20 2 3 None; pl_edge (Some 5) 10 20 2 3 None; pl_edge (Some 8) 20 30 1 (1 # 2) None; pl_edge (Some 9) 10 30 3 4 (Some (0, 2)); pl_edge (Some 6) 30 10 1 1 None].
Definition pl_graph : graph := Eval vm_compute in unok empty_graph (build ex_hav (pc_cfg rt_pc) 2 2 pl_es wr_ns).
Definition pl_w : graph_cfg :=
  {| gc_nodes := [Some "id"; Some "lat"; None; Some "lon"; Some "ch"]; gc_shortcuts := true; gc_denormalizing := false;
     gc_edges := [Some "e"; Some "d"; Some "s"; None; Some "x"; Some "y"; Some "a"; None; Some "b"] |}.
Definition pl_file : text := Eval vm_compute in unok [] (write_fmi show_frac plain_ids pl_graph rt_ncs pl_w).

Example C43_plain_case :
  build ex_hav (pc_cfg rt_pc) 2 2 pl_es wr_ns = Ok pl_graph /\ plain_metrics (pc_cfg rt_pc) /\
  (forall pe x, In pe pl_es -> In x (pe_metrics pe) -> lifted x x) /\ fitting_edges (pc_cfg rt_pc) pl_es /\
  write_fmi show_frac plain_ids pl_graph rt_ncs pl_w = Ok pl_file /\
  Forall2 (read_as pl_graph) (gc_edges pl_w) (ec_categories (cfg_edges (pc_cfg rt_pc))) /\
  machine_sized pl_graph /\
  (forall x, written_value pl_graph (gc_denormalizing pl_w) x -> survives show_frac parse_frac x) /\
  tells_all pl_graph (gc_edges pl_w) (ec_categories (cfg_edges (pc_cfg rt_pc))) /\ tells_levels pl_graph (pc_nodes rt_pc) /\
  edge_count pl_graph FWD = 5 /\ sc_edges pl_graph 2 = Ok (Some (1, 3)).
Proof.
  split; [vm_compute; reflexivity|]. split; [repeat split|]. split.
  { intros pe x H Hx.
    assert (G : forall q, Qle_bool (3 # 2000000) q = true -> lifted (Fin q) (Fin q)).
    { intros q Hq. apply Qle_bool_iff in Hq. right. split; [|reflexivity].
      intros q' Hq'. injection Hq' as <-. eapply Qle_trans; [exact Hq|]. apply Qabs.Qle_Qabs. }
    repeat (destruct H as [<-|H]; [cbn in Hx; destruct Hx as [<-|[<-|[]]]; apply G; reflexivity|]). destruct H. }
  split; [intros pe H; repeat (destruct H as [<-|H]; [reflexivity|]); destruct H|]. split; [vm_compute; reflexivity|]. split.
  { cbn [pl_w rt_pc gc_edges ec_categories cfg_edges pc_cfg].
    repeat (constructor; [first [apply read_ignored | apply read_meta; [apply first_called_spec; vm_compute; reflexivity|cbn [In]; tauto]
                               | eapply read_metric; apply first_called_spec; vm_compute; reflexivity]|]). constructor. }
  split.
  { constructor.
    - intros i z H. do 3 (destruct i as [|i]; [vm_compute in H; injection H as <-; lia|]). destruct i; discriminate.
    - intros i l H. do 3 (destruct i as [|i]; [vm_compute in H; injection H as <-; apply N.leb_le; vm_compute; reflexivity|]). destruct i; discriminate.
    - intros e i H. do 5 (destruct e as [|e]; [vm_compute in H; first [discriminate|injection H as <-; apply N.leb_le; vm_compute; reflexivity]|]). destruct e; discriminate.
    - intros e x y H. do 5 (destruct e as [|e]; [vm_compute in H; first [discriminate|injection H as <- <-; split; apply N.leb_le; vm_compute; reflexivity]|]).
      destruct e as [|[|e]]; vm_compute in H; discriminate.
    - apply N.leb_le; vm_compute; reflexivity. }
  split.
  { intros x [(i & c & H & Hx)|(e & i & y & Hy & Hx)].
    - do 3 (destruct i as [|i]; [vm_compute in H; injection H as <-; destruct Hx as [->| ->]; apply survives_ok; vm_compute; reflexivity|]). destruct i; discriminate.
    - change (x = y) in Hx. subst y.
      do 5 (destruct e as [|e]; [destruct i as [|[|i]]; [vm_compute in Hy; injection Hy as <-; apply survives_ok; vm_compute; reflexivity
                                                        |vm_compute in Hy; injection Hy as <-; apply survives_ok; vm_compute; reflexivity|destruct i; discriminate]|]).
      destruct e; discriminate. }
  split.
  { split; [left; cbn; tauto|]. split; [left; cbn; tauto|]. split; [reflexivity|].
    vm_compute. constructor; [|constructor; [|constructor]]; cbn [In]; intuition discriminate. }
  split; [left; cbn; tauto|]. split; reflexivity.
Qed.

(** Metrics of 0 and 2e-6 are far enough apart to be kept side by side.  The
    former is stored as 1e-6, which isn't, so the graph loses an edge when read
    again. *)
Definition sq_es : list proto_edge := [pl_edge None 10 20 0 1 None; pl_edge None 10 20 (2 # 1000000) 1 None; pl_edge None 20 10 1 1 None].
Definition sq_pc : parse_cfg :=
  {| pc_vehicles := mkVehicle Car false; pc_nodes := pc_nodes rt_pc;
     pc_cfg := {| cfg_edges := {| ec_categories := [CMeta SrcId "s"; CMeta DstId "d"; CMetric Kilometers "x"; CMetric Meters "y";
                                                    CMeta ShortcutIdx0 "a"; CMeta ShortcutIdx1 "b"];
                                  ec_normalized := false; ec_units := [Kilometers; Meters]; ec_ids := ["x"; "y"] |};
                  cfg_nodes := []; cfg_gen_nodes := []; cfg_gen_edges := [] |} |}.
Definition sq_w : graph_cfg :=
  {| gc_nodes := gc_nodes pl_w; gc_shortcuts := true; gc_denormalizing := false;
     gc_edges := [Some "s"; Some "d"; Some "x"; Some "y"; Some "a"; Some "b"] |}.
Definition sq_graph : graph := Eval vm_compute in unok empty_graph (build ex_hav (pc_cfg sq_pc) 2 2 sq_es wr_ns).
Theorem C43_duplicates_refuted : exists c es ns g w pc file g',
  build ex_hav c 2 2 es ns = Ok g /\ plain_metrics c /\ described g /\ storable g /\
  (forall pe q, In pe es -> In (Fin q) (pe_metrics pe) -> (0 <= q)%Q) /\
  write_fmi show_frac plain_ids g rt_ncs w = Ok file /\
  fmi_graph parse_frac ex_hav 4 pc 2 2 file = Ok g' /\
  Forall2 (read_as g) (gc_edges w) (ec_categories (cfg_edges (pc_cfg pc))) /\
  tells_all g (gc_edges w) (ec_categories (cfg_edges (pc_cfg pc))) /\
  edge_count g' FWD < edge_count g FWD.
Proof.
  exists (pc_cfg sq_pc), sq_es, wr_ns, sq_graph, sq_w, sq_pc. eexists. eexists.
  split; [vm_compute; reflexivity|]. split; [repeat split|]. split.
  { apply (C39_built ex_hav (pc_cfg sq_pc) 2 2 sq_es wr_ns sq_graph); auto; try (vm_compute; reflexivity); try apply le_S, le_n.
    intros pe H. repeat (destruct H as [<-|H]; [reflexivity|]). destruct H. }
  split.
  { intros e i x H.
    assert (Hx : forall q, x = Fin q -> x = Fin (1 # 1000000) \/ Qle_bool (3 # 2000000) q = true -> lifted x x /\ not_too_small x).
    { intros q -> [Hq|Hq].
      - injection Hq as ->. split; [left; split; [|reflexivity]; exists (1 # 1000000)%Q; split; reflexivity|].
        vm_compute. discriminate.
      - apply Qle_bool_iff in Hq. split.
        + right. split; [|reflexivity]. intros q' Hq'. injection Hq' as <-. eapply Qle_trans; [exact Hq|]. apply Qabs.Qle_Qabs.
        + eapply Qle_trans; [|exact Hq]. vm_compute. discriminate. }
    do 3 (destruct e as [|e]; [destruct i as [|[|i]]; [vm_compute in H; injection H as <-; eapply Hx; [reflexivity|]; first [left; reflexivity|right; reflexivity]
                                                      |vm_compute in H; injection H as <-; eapply Hx; [reflexivity|]; first [left; reflexivity|right; reflexivity]
                                                      |destruct i; discriminate]|]).
    destruct e; discriminate. }
  split.
  { intros pe q H Hq. repeat (destruct H as [<-|H]; [cbn in Hq; destruct Hq as [E|[E|[]]]; injection E as <-; vm_compute; discriminate|]). destruct H. }
  split; [vm_compute; reflexivity|]. split; [vm_compute; reflexivity|]. split.
  { cbn [sq_w sq_pc gc_edges ec_categories cfg_edges pc_cfg].
    repeat (constructor; [first [apply read_ignored | apply read_meta; [apply first_called_spec; vm_compute; reflexivity|cbn [In]; tauto]
                               | eapply read_metric; apply first_called_spec; vm_compute; reflexivity]|]). constructor. }
  split.
  { split; [right; intros e i H; do 3 (destruct e as [|e]; [discriminate|]); destruct e; discriminate|]. split; [left; cbn; tauto|]. split; [reflexivity|].
    vm_compute. constructor; [|constructor; [|constructor]]; cbn [In]; intuition discriminate. }
  vm_compute. lia.
Qed.
Print Assumptions C43_duplicates_refuted.
