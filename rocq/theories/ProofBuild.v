(** The stages of GraphBuilder::finalize put together *)
From Coq Require Import String List Bool Arith ZArith Lia Permutation Sorted Sorting.
From Verif Require Import Base F64 Lib ModelApprox ModelUnits ModelConfig ModelGraph ModelBuild
  ProofNodes ProofStages.
Import ListNotations.

(** inversion of the two shortcut loops *)
Lemma sc_map_ok h es : forall scs scs',
  NoDup (somes (map b_sc es)) -> foldM (sc_map_step h) es scs = Ok scs' ->
  length scs' = length scs /\
  (forall e k, In e es -> b_sc e = Some k ->
     exists p q, nth_error scs k = Some p /\ h p = Ok q /\ nth_error scs' k = Some q) /\
  (forall k, ~ In k (somes (map b_sc es)) -> nth_error scs' k = nth_error scs k).
Proof.
  induction es as [|e es IH]; intros scs scs' Hnd E; simpl in E.
  - injection E as E. subst. repeat split; auto. intros e k [].
  - apply bind_ok in E. destruct E as (s1 & E1 & E2). unfold sc_map_step in E1. simpl in Hnd.
    destruct (b_sc e) as [k|] eqn:Ek.
    + inversion Hnd as [|? ? Hn Hnd']; subst.
      apply bind_ok in E1. destruct E1 as (p & Ep & E1). apply idx_ok in Ep.
      apply bind_ok in E1. destruct E1 as (q & Eq & E1). apply set_ok in E1. destruct E1 as [Hlt ->].
      destruct (IH _ _ Hnd' E2) as (Hl & H1 & H2). rewrite upd_length in Hl. split; auto. split.
      * intros e' k' [<-|Hin] Ek'.
        -- assert (k' = k) by congruence. subst. exists p, q. repeat split; auto.
           rewrite H2 by auto. now apply nth_error_upd_eq.
        -- destruct (H1 e' k' Hin Ek') as (p' & q' & Hp & Hh & Hq). exists p', q'. repeat split; auto.
           rewrite nth_error_upd_neq in Hp; auto. intros ->. apply Hn.
           apply somes_in. rewrite <- Ek'. now apply in_map.
      * intros j Hj. simpl in Hj. rewrite Ek in Hj. simpl in Hj. rewrite H2 by tauto.
        apply nth_error_upd_neq. tauto.
    + injection E1 as E1. subst s1. destruct (IH _ _ Hnd E2) as (Hl & H1 & H2). split; auto. split.
      * intros e' k' [<-|Hin] Ek'; [congruence|eauto].
      * intros j Hj. simpl in Hj. rewrite Ek in Hj. auto.
Qed.

(** shortcut numbers of the inserted edges are 0,1,2,... *)
Lemma as_of_scs es : somes (map a_sc (as_of es)) = seq 0 (length (somes (map pe_sc es))).
Proof.
  induction es as [|e es IH] using rev_ind; [reflexivity|].
  rewrite as_of_app1, !map_app, !somes_app, IH, app_length.
  simpl. destruct (pe_sc e); simpl.
  - rewrite seq_app. simpl. rewrite firstn_all. reflexivity.
  - rewrite Nat.add_0_r, app_nil_r. reflexivity.
Qed.

Lemma as_of_idx es : map a_idx (as_of es) = seq 0 (length es).
Proof.
  unfold as_of. rewrite map_map. simpl. rewrite <- enumerate_fst. apply map_ext. reflexivity.
Qed.

Lemma Permutation_somes {A} (l l' : list (option A)) :
  Permutation l l' -> Permutation (somes l) (somes l').
Proof.
  induction 1 as [|[x|] ? ? ? IH|[x|] [y|] ?|]; simpl; auto.
  - apply perm_swap.
  - eapply perm_trans; eauto.
Qed.

Lemma dedup_from_scs_nodup prev l :
  NoDup (somes (map b_sc l)) -> NoDup (somes (map b_sc (dedup_from is_duplicate prev l))).
Proof.
  revert prev. induction l as [|x l IH]; intros prev H; simpl in *; auto.
  destruct (b_sc x) as [k|] eqn:Ek.
  - inversion H; subst. destruct (is_duplicate prev x); auto.
    simpl. rewrite Ek. constructor; auto. intros Hc. apply H2.
    apply somes_in in Hc. apply in_map_iff in Hc. destruct Hc as (y & Ey & Hy).
    apply somes_in. rewrite <- Ey. apply in_map. eapply dedup_from_incl; eauto.
  - destruct (is_duplicate prev x); auto. simpl. rewrite Ek. auto.
Qed.

Lemma dedup_by_scs_nodup l :
  NoDup (somes (map b_sc l)) -> NoDup (somes (map b_sc (dedup_by is_duplicate l))).
Proof.
  destruct l as [|x l]; simpl; auto. intros H.
  destruct (b_sc x) as [k|] eqn:Ek.
  - inversion H; subst. constructor; [|now apply dedup_from_scs_nodup].
    intros Hc. apply H2.
    apply somes_in in Hc. apply in_map_iff in Hc. destruct Hc as (y & Ey & Hy).
    apply somes_in. rewrite <- Ey. apply in_map. eapply dedup_from_incl; eauto.
  - now apply dedup_from_scs_nodup.
Qed.

(** *** The sorted edges *)
Section Sorted.
  Variables (es : list proto_edge) (ids : list Z) (levels : list nat).
  Definition sorted_edges : list protoB := sort_fwd levels (map (toB ids) (as_of es)).
  Definition kept_edges : list protoB := dedup_by is_duplicate sorted_edges.

  Lemma sorted_perm : Permutation sorted_edges (map (toB ids) (as_of es)).
  Proof. apply sort_by_perm. Qed.

  Lemma sorted_length : length sorted_edges = length es.
  Proof.
    rewrite (Permutation_length sorted_perm), map_length. apply as_of_length.
  Qed.

  Lemma sorted_idx : Permutation (map b_idx sorted_edges) (seq 0 (length es)).
  Proof.
    rewrite (Permutation_map b_idx sorted_perm), map_map.
    rewrite <- as_of_idx. apply Permutation_refl.
  Qed.

  Lemma sorted_scs : NoDup (somes (map b_sc sorted_edges)).
  Proof.
    eapply Permutation_NoDup.
    - apply Permutation_somes, Permutation_map. symmetry. apply sorted_perm.
    - rewrite map_map. simpl. change (map (fun x => a_sc x) (as_of es)) with (map a_sc (as_of es)).
      rewrite as_of_scs. apply seq_NoDup.
  Qed.

  Lemma sorted_in sx : In sx sorted_edges ->
    exists pe, nth_error es (b_idx sx) = Some pe /\ sx = toB ids (mkAof es (b_idx sx) pe).
  Proof.
    intros H. eapply Permutation_in in H; [|apply sorted_perm].
    apply in_map_iff in H. destruct H as (a & <- & H).
    unfold as_of in H. apply in_map_iff in H. destruct H as ([i pe] & <- & H).
    apply enumerate_in in H. exists pe. simpl. auto.
  Qed.

  Lemma sorted_has p pe : nth_error es p = Some pe ->
    exists i, nth_error sorted_edges i = Some (toB ids (mkAof es p pe)).
  Proof.
    intros H. apply as_of_nth in H. apply nth_error_In in H.
    apply (in_map (toB ids)) in H.
    eapply Permutation_in in H; [|symmetry; apply sorted_perm].
    now apply In_nth_error in H.
  Qed.

  Lemma sorted_sorted :
    StronglySorted (fun x y => key_le (fwd_key levels x) (fwd_key levels y)) sorted_edges.
  Proof. apply sort_by_key_sorted. Qed.

  Lemma kept_sorted :
    StronglySorted (fun x y => key_le (fwd_key levels x) (fwd_key levels y)) kept_edges.
  Proof. apply dedup_by_sorted, sorted_sorted. Qed.

  Lemma kept_src_sorted : StronglySorted le (map b_src kept_edges).
  Proof.
    apply StronglySorted_map. eapply StronglySorted_impl; [|apply kept_sorted].
    intros x y _ _ H. apply key_le_src in H. apply H.
  Qed.
End Sorted.

(** edges in the backward order *)
Definition core_edges (K : list protoB) : list protoC := map with_idx (enumerate (map toC K)).
Definition core_bwd (levels : list nat) (K : list protoB) : list protoC :=
  sort_bwd levels (core_edges K).

Lemma core_edges_nth K i e :
  nth_error K i = Some e ->
  nth_error (core_edges K) i = Some {| c_src := b_src e; c_dst := b_dst e; c_idx := i; c_id := b_id e |}.
Proof.
  intros H. unfold core_edges. rewrite nth_error_map, enumerate_nth, nth_error_map, H. reflexivity.
Qed.

Lemma core_edges_map {B} (f : protoC -> B) (h : protoB -> B) K :
  (forall i e, f {| c_src := b_src e; c_dst := b_dst e; c_idx := i; c_id := b_id e |} = h e) ->
  map f (core_edges K) = map h K.
Proof.
  intros H. unfold core_edges. rewrite map_map.
  rewrite <- (enumerate_snd K) at 2. rewrite map_map. unfold enumerate. rewrite map_length.
  generalize 0. induction K as [|e K IH]; intros s; simpl; auto. f_equal; auto. apply H.
Qed.

Lemma core_edges_idx K : map c_idx (core_edges K) = seq 0 (length K).
Proof.
  unfold core_edges. rewrite map_map.
  transitivity (map fst (enumerate (map toC K))); [now apply map_ext|].
  rewrite enumerate_fst, map_length. reflexivity.
Qed.

Lemma core_edges_in K e : In e (core_edges K) ->
  exists k, nth_error K (c_idx e) = Some k /\
            c_src e = b_src k /\ c_dst e = b_dst k /\ c_id e = b_id k.
Proof.
  intros H. apply In_nth_error in H. destruct H as [i H].
  destruct (nth_error K i) as [k|] eqn:E.
  - rewrite (core_edges_nth K i k E) in H. injection H as <-. simpl. exists k. auto.
  - apply nth_error_None in E. assert (i < length (core_edges K)) by (eapply nth_error_lt; eauto).
    unfold core_edges in H0. rewrite map_length, enumerate_length, map_length in H0. lia.
Qed.

(** *** Closed form: for shortcuts referring to inserted edges nothing panics *)
Definition sc_valid (es : list proto_edge) : Prop :=
  forall e p q, In e es -> pe_sc e = Some (p, q) -> p < length es /\ q < length es.

(** position in the sorted list of the p-th inserted edge *)
Definition sorted_pos (es : list proto_edge) (ids : list Z) (levels : list nat) (p : nat) : nat :=
  match new_indices (sorted_edges es ids levels) with
  | Ok ni => nth p ni 0
  | _ => 0
  end.
(** graph edge that represents the p-th inserted edge *)
Definition rep_of (es : list proto_edge) (ids : list Z) (levels : list nat) (p : nat) : nat :=
  rep_pos (sorted_edges es ids levels) (sorted_pos es ids levels p).

Definition sc_opts (es : list proto_edge) (ids : list Z) (levels : list nat)
  : list (option (nat * nat)) :=
  map (fun k => match nth_error es (b_idx k) with
                | Some pe => match pe_sc pe with
                             | Some (p, q) => Some (rep_of es ids levels p, rep_of es ids levels q)
                             | None => None
                             end
                | None => None
                end) (kept_edges es ids levels).

Definition core_fun (c : cfg) (ids : list Z) (ocoords : list (option coord)) (levels : list nat)
           (K : list protoB) (opts : list (option (nat * nat))) : res graph :=
  do coords <- all_coords ocoords;
  if metrics_too_small (map (fun e => map clamp_metric (b_metrics e)) K)
  then Err "A metric is smaller than accuracy allows it."
  else
    do sc <- build_sc (somes_at 0 opts) (length K);
    do foffs <- build_offsets (map b_src K);
    do idmap <- build_id_map (id_pairs (core_edges K));
    do boffs <- build_offsets (map c_dst (core_bwd levels K));
    Ok {| g_cfg := c; node_ids := ids; node_coords := coords; node_levels := levels;
          fwd_dsts := map b_dst K; fwd_offsets := foffs; fwd_to_fwd := seq 0 (length K);
          bwd_dsts := map b_src K; bwd_offsets := boffs;
          bwd_to_fwd := map c_idx (core_bwd levels K);
          metrics := map (fun e => map clamp_metric (b_metrics e)) K; means := None;
          edge_ids := map b_id K; edge_ids_map := idmap;
          sc_offsets := fst sc; sc_edges_arr := snd sc |}.

Lemma build_core_closed es b c ch1 ch2 :
  1 <= ch1 -> 1 <= ch2 -> nb_inv es b -> sc_valid es ->
  build_core c ch1 ch2 b =
  core_fun c (nb_node_ids b) (nb_coords b) (nb_levels b)
           (kept_edges es (nb_node_ids b) (nb_levels b)) (sc_opts es (nb_node_ids b) (nb_levels b)).
Proof.
  intros Hc1 Hc2 Hb Hval. pose proof Hb as [Hs Hids Hcl Hll He Hsc].
  destruct (insert_edges_closed es) as [HA HS].
  unfold build_core, core_fun. destruct (all_coords (nb_coords b)) as [coords|m| |]; auto.
  cbn [bind]. rewrite work_off_chunks_eq by auto. rewrite He, HA.
  rewrite to_protoB_fold; auto.
  2:{ intros a Ha. unfold as_of in Ha. apply in_map_iff in Ha. destruct Ha as ([i pe] & <- & Hin).
      apply enumerate_in in Hin. apply nth_error_In in Hin.
      split; apply Hids; exists pe; simpl; auto. }
  cbn [bind app]. cbv zeta. fold (sorted_edges es (nb_node_ids b) (nb_levels b)).
  unfold sc_opts, rep_of, sorted_pos.
  pose proof (sorted_length es (nb_node_ids b) (nb_levels b)) as HSlen.
  pose proof (sorted_idx es (nb_node_ids b) (nb_levels b)) as HSidx.
  pose proof (sorted_scs es (nb_node_ids b) (nb_levels b)) as HSscs.
  pose proof (sorted_in es (nb_node_ids b) (nb_levels b)) as HSin.
  assert (HK : dedup_by is_duplicate (sorted_edges es (nb_node_ids b) (nb_levels b)) =
               kept_edges es (nb_node_ids b) (nb_levels b)) by reflexivity.
  set (SE := sorted_edges es (nb_node_ids b) (nb_levels b)) in *.
  destruct (new_indices_spec SE) as (ni & Eni & Hnil & Hni). { now rewrite HSlen. }
  rewrite Eni. cbn [bind].
  assert (Hscsk : forall e k, In e SE -> b_sc e = Some k ->
     exists pe p q, nth_error es (b_idx e) = Some pe /\ pe_sc pe = Some (p, q) /\
                    nth_error (nb_shortcuts b) k = Some (p, q) /\ p < length es /\ q < length es).
  { intros e k Hin Hk. destruct (HSin e Hin) as (pe & Hpe & Ee).
    assert (Ebk : b_sc e = match pe_sc pe with
                           | Some _ => Some (length (somes (map pe_sc (firstn (b_idx e) es))))
                           | None => None end) by (rewrite Ee at 1; reflexivity).
    destruct (pe_sc pe) as [[p q]|] eqn:Epe; [|congruence].
    rewrite Hk in Ebk. injection Ebk as ->. exists pe, p, q. split; auto. split; auto. split.
    - rewrite Hsc, HS. rewrite <- firstn_map. apply somes_firstn_nth.
      rewrite nth_error_map, Hpe. simpl. congruence.
    - eapply Hval; eauto. eapply nth_error_In; eauto. }
  rewrite remap_is_sc_map.
  destruct (sc_map_spec (fun p => do x <- idx ni (fst p); do y <- idx ni (snd p); Ok (x, y))
              (fun p => (nth (fst p) ni 0, nth (snd p) ni 0)) SE (nb_shortcuts b) HSscs)
    as (scs1 & Escs1 & Hl1 & Hscs1 & _).
  { intros e k Hin Hk. destruct (Hscsk e k Hin Hk) as (pe & p & q & _ & _ & Hpq & Hp & Hq).
    exists (p, q). split; auto. simpl.
    rewrite <- HSlen, <- Hnil in Hp, Hq.
    destruct (idx_lt ni p Hp) as [x Hx], (idx_lt ni q Hq) as [y Hy]. rewrite Hx, Hy. simpl.
    apply idx_ok in Hx, Hy. now rewrite (nth_error_nth _ _ 0 Hx), (nth_error_nth _ _ 0 Hy). }
  rewrite Escs1. cbn [bind]. rewrite dedup_edges_eq. cbn [bind]. rewrite HK.
  rewrite correct_is_sc_map.
  set (K := kept_edges es (nb_node_ids b) (nb_levels b)) in *.
  assert (HKS : forall e, In e K -> In e SE).
  { intros e H. rewrite <- HK in H. eapply dedup_by_incl; eauto. }
  destruct (sc_map_spec (fun p => Ok (dec_shortcut (rm_of SE) (fst p), dec_shortcut (rm_of SE) (snd p)))
              (fun p => (dec_shortcut (rm_of SE) (fst p), dec_shortcut (rm_of SE) (snd p))) K scs1)
    as (scs2 & Escs2 & Hl2 & Hscs2 & _).
  { rewrite <- HK. now apply dedup_by_scs_nodup. }
  { intros e k Hin Hk. destruct (Hscsk e k (HKS e Hin) Hk) as (pe & p & q & _ & _ & Hpq & Hp & Hq).
    rewrite (Hscs1 e k (p, q) (HKS e Hin) Hk Hpq). eauto. }
  rewrite Escs2. cbn [bind]. rewrite work_off_chunks_eq by auto. rewrite store_fold.
  2:{ intros e k Hin Hk. destruct (Hscsk e k (HKS e Hin) Hk) as (pe & p & q & _ & _ & Hpq & _).
      rewrite Hl2, Hl1. eapply nth_error_lt; eauto. }
  cbn [bind st_metrics st_edges st_scs st_idx app].
  assert (Hopts : map (sc_pair scs2) K =
    map (fun k => match nth_error es (b_idx k) with
                | Some pe => match pe_sc pe with
                             | Some (p, q) => Some (rep_pos SE (nth p ni 0), rep_pos SE (nth q ni 0))
                             | None => None
                             end
                | None => None
                end) K).
  { apply map_ext_in. intros e Hin. unfold sc_pair. destruct (HSin e (HKS e Hin)) as (pe & Hpe & Ee).
    rewrite Hpe.
    assert (Ebk : b_sc e = match pe_sc pe with
                           | Some _ => Some (length (somes (map pe_sc (firstn (b_idx e) es))))
                           | None => None end) by (rewrite Ee at 1; reflexivity).
    destruct (b_sc e) as [k|] eqn:Hk.
    - destruct (Hscsk e k (HKS e Hin) Hk) as (pe' & p & q & Hpe' & Hsc' & Hpq & _).
      assert (pe' = pe) by congruence. subst pe'. rewrite Hsc'.
      rewrite (Hscs2 e k _ Hin Hk (Hscs1 e k (p, q) (HKS e Hin) Hk Hpq)). reflexivity.
    - destruct (pe_sc pe); [discriminate|reflexivity]. }
  rewrite Hopts. rewrite map_length. fold (core_edges K). fold (core_bwd (nb_levels b) K).
  rewrite (core_edges_map c_src b_src K) by reflexivity.
  rewrite (core_edges_map c_dst b_dst K) by reflexivity.
  rewrite (core_edges_map c_id b_id K) by reflexivity.
  rewrite core_edges_idx. reflexivity.
Qed.

(** a successful run had valid shortcuts *)
Lemma build_core_valid es b c ch1 ch2 g :
  1 <= ch1 -> nb_inv es b -> build_core c ch1 ch2 b = Ok g -> sc_valid es.
Proof.
  intros Hc1 Hb E. pose proof Hb as [Hs Hids Hcl Hll He Hsc].
  destruct (insert_edges_closed es) as [HA HS].
  unfold build_core in E.
  apply bind_ok in E. destruct E as (coords & Ecoords & E).
  apply bind_ok in E. destruct E as (bs & Ebs & E).
  rewrite work_off_chunks_eq in Ebs by auto. rewrite He, HA in Ebs.
  rewrite to_protoB_fold in Ebs; auto.
  2:{ intros a Ha. unfold as_of in Ha. apply in_map_iff in Ha. destruct Ha as ([i pe] & <- & Hin).
      apply enumerate_in in Hin. apply nth_error_In in Hin.
      split; apply Hids; exists pe; simpl; auto. }
  simpl in Ebs. injection Ebs as <-.
  fold (sorted_edges es (nb_node_ids b) (nb_levels b)) in E.
  pose proof (sorted_length es (nb_node_ids b) (nb_levels b)) as HSlen.
  pose proof (sorted_idx es (nb_node_ids b) (nb_levels b)) as HSidx.
  pose proof (sorted_scs es (nb_node_ids b) (nb_levels b)) as HSscs.
  pose proof (sorted_has es (nb_node_ids b) (nb_levels b)) as HShas.
  set (SE := sorted_edges es (nb_node_ids b) (nb_levels b)) in *. cbv zeta in E.
  apply bind_ok in E. destruct E as (ni & Eni & E).
  destruct (new_indices_spec SE) as (ni' & Eni' & Hnil & Hni). { now rewrite HSlen. }
  rewrite Eni in Eni'. injection Eni' as <-.
  apply bind_ok in E. destruct E as (scs1 & Escs1 & E).
  rewrite remap_is_sc_map in Escs1. apply sc_map_ok in Escs1; auto.
  destruct Escs1 as (Hl1 & Hscs1 & _).
  intros pe p q Hin Hpq. apply In_nth_error in Hin. destruct Hin as [i Hi].
  destruct (HShas i pe Hi) as [j Hj].
  assert (HinS := nth_error_In _ _ Hj).
  set (sx := toB (nb_node_ids b) (mkAof es i pe)) in *.
  assert (Hk : b_sc sx = Some (length (somes (map pe_sc (firstn i es))))) by (simpl; now rewrite Hpq).
  destruct (Hscs1 sx _ HinS Hk) as (pq & pq' & H0 & Hh & _).
  rewrite Hsc, HS in H0. rewrite <- firstn_map in H0.
  rewrite (somes_firstn_nth (map pe_sc es) i (p, q)) in H0.
  2:{ rewrite nth_error_map, Hi. simpl. congruence. }
  injection H0 as <-. simpl in Hh.
  apply bind_ok in Hh. destruct Hh as (x & Hx & Hh). apply bind_ok in Hh.
  destruct Hh as (y & Hy & Hh).
  apply idx_ok in Hx, Hy. apply nth_error_lt in Hx, Hy. rewrite Hnil, HSlen in *. auto.
Qed.

(** what build_core computes, in terms of the kept edges *)
Record core_spec (es : list proto_edge) (b : node_builder) (c : cfg) (K : list protoB) (g : graph)
  : Prop := {
  cs_valid : sc_valid es;
  cs_kept : K = kept_edges es (nb_node_ids b) (nb_levels b);
  cs_cfg : g_cfg g = c;
  cs_ids : node_ids g = nb_node_ids b;
  cs_coords : nb_coords b = map Some (node_coords g);
  cs_levels : node_levels g = nb_levels b;
  cs_fwd : fwd_dsts g = map b_dst K;
  cs_bwd : bwd_dsts g = map b_src K;
  cs_f2f : fwd_to_fwd g = seq 0 (length K);
  cs_foffs : build_offsets (map b_src K) = Ok (fwd_offsets g);
  cs_b2f : bwd_to_fwd g = map c_idx (core_bwd (nb_levels b) K);
  cs_boffs : build_offsets (map c_dst (core_bwd (nb_levels b) K)) = Ok (bwd_offsets g);
  cs_metrics : metrics g = map (fun e => map clamp_metric (b_metrics e)) K;
  cs_small : metrics_too_small (metrics g) = false;
  cs_means : means g = None;
  cs_eids : edge_ids g = map b_id K;
  cs_idmap : build_id_map (id_pairs (core_edges K)) = Ok (edge_ids_map g);
  cs_sc_arr : sc_edges_arr g = somes (sc_opts es (nb_node_ids b) (nb_levels b));
  cs_sc_len : length (sc_offsets g) = length K + 1;
  cs_sc_offs : forall i, i <= length K ->
     nth_error (sc_offsets g) i = Some (sc_count (sc_opts es (nb_node_ids b) (nb_levels b)) i);
}.

Lemma build_core_spec es b c ch1 ch2 g :
  1 <= ch1 -> 1 <= ch2 -> nb_inv es b -> build_core c ch1 ch2 b = Ok g ->
  core_spec es b c (kept_edges es (nb_node_ids b) (nb_levels b)) g.
Proof.
  intros Hc1 Hc2 Hb E. pose proof (build_core_valid _ _ _ _ _ _ Hc1 Hb E) as Hval.
  rewrite (build_core_closed es) in E by auto. unfold core_fun in E.
  set (K := kept_edges es (nb_node_ids b) (nb_levels b)) in *.
  apply bind_ok in E. destruct E as (coords & Ecoords & E). apply all_coords_ok in Ecoords.
  destruct (metrics_too_small (map (fun e => map clamp_metric (b_metrics e)) K)) eqn:Esm; [discriminate|].
  apply bind_ok in E. destruct E as (sc & Escb & E).
  apply bind_ok in E. destruct E as (foffs & Efo & E).
  apply bind_ok in E. destruct E as (idmap & Eid & E).
  apply bind_ok in E. destruct E as (boffs & Ebo & E).
  injection E as <-.
  destruct (build_sc_spec (sc_opts es (nb_node_ids b) (nb_levels b))) as (offs & Eo & Hol & Ho).
  assert (Hlen : length (sc_opts es (nb_node_ids b) (nb_levels b)) = length K)
    by (unfold sc_opts; now rewrite map_length).
  rewrite Hlen in *. rewrite Eo in Escb. injection Escb as <-.
  constructor; simpl; auto.
Qed.
