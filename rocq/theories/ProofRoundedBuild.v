(** Building with rounding yields the network of an exact build: lemmas for C67 *)
From Coq Require Import String List Bool Arith ZArith QArith Lia Permutation Sorted.
From Verif Require Import Base F64 Lib ModelApprox ProofApprox ModelUnits ModelConfig ModelGraph ModelBuild ModelRounded ModelRoundedHeap ModelRoundedMetrics
  ModelRoundedBuild SpecRounded ProofNodes ProofStages ProofBuild ProofGraph ProofOrder.
Import ListNotations.
Open Scope list_scope.
Open Scope nat_scope.

(** *** Folds over mapped lists *)
Lemma foldM_map {A B S} (f : S -> B -> res S) (h : A -> B) l : forall s, foldM f (map h l) s = foldM (fun s x => f s (h x)) l s.
Proof. induction l as [|x l IH]; intros s; cbn; auto. destruct (f s (h x)); cbn; auto. Qed.
Lemma foldM_ext {A S} (f f' : S -> A -> res S) l : (forall s x, f s x = f' s x) -> forall s, foldM f l s = foldM f' l s.
Proof. intros H. induction l as [|x l IH]; intros s; cbn; auto. rewrite H. destruct (f' s x); cbn; auto. Qed.
Lemma enumerate_map {A B} (h : A -> B) l : enumerate (map h l) = map (fun p => (fst p, h (snd p))) (enumerate l).
Proof.
  unfold enumerate. rewrite map_length. generalize (seq 0 (length l)). induction l as [|x l IH]; intros [|n s]; cbn; auto. now rewrite IH.
Qed.
Lemma sort_by_map {A B} (leb : A -> A -> bool) (leb' : B -> B -> bool) (h : A -> B) : (forall x y, leb' (h x) (h y) = leb x y) ->
  forall l, sort_by leb' (map h l) = map h (sort_by leb l).
Proof.
  intros H. assert (G : forall x l, insert_sorted leb' (h x) (map h l) = map h (insert_sorted leb x l)).
  { intros x l. induction l as [|y l IH]; cbn; auto. rewrite H. destruct (leb x y); cbn; auto. now rewrite IH. }
  induction l as [|x l IH]; cbn; auto. rewrite IH. apply G.
Qed.

Section Rounded.
  Variable ar : f64 -> f64.

  (** *** Deduplicating, as for exact comparisons *)
  Notation dup := (ris_duplicate ar).
  Fixpoint rrm_from (prev : protoB) (r : nat) (l : list protoB) : list nat :=
    match l with
    | [] => []
    | x :: t => if dup prev x then r :: rrm_from prev (S r) t else rrm_from x (S r) t
    end.
  Definition rrm_of (l : list protoB) : list nat :=
    match l with [] => [] | x :: t => rrm_from x 1 t end.

  Lemma rdedup_loop rest : forall kept last junk removed r,
    r = length kept + 1 + length junk ->
    exists junk', foldM (rdedup_step ar) (seq r (length rest))
        ((kept ++ [last]) ++ junk ++ rest, length kept + 1, removed) =
      Ok (((kept ++ [last]) ++ dedup_from dup last rest) ++ junk',
          length kept + 1 + length (dedup_from dup last rest),
          removed ++ rrm_from last r rest) /\
      length junk' = length junk + length (rrm_from last r rest).
  Proof.
    induction rest as [|x rest IH]; intros kept last junk removed r Hr.
    - simpl. exists junk. rewrite !app_nil_r. split; [|lia]. do 3 f_equal. lia.
    - cbn [length seq foldM]. unfold rdedup_step at 1. cbv beta iota.
      assert (E0 : idx ((kept ++ [last]) ++ junk ++ x :: rest) (length kept + 1 - 1) = Ok last).
      { apply idx_ok. rewrite <- !app_assoc. rewrite nth_error_app2 by lia.
        replace (length kept + 1 - 1 - length kept) with 0 by lia. reflexivity. }
      assert (E1 : idx ((kept ++ [last]) ++ junk ++ x :: rest) r = Ok x).
      { apply idx_ok. rewrite app_assoc. rewrite nth_error_app2; rewrite !app_length; simpl; [|lia].
        replace (r - (length kept + 1 + length junk)) with 0 by lia. reflexivity. }
      rewrite E0, E1. simpl bind. destruct (dup last x) eqn:Ed.
      + cbn [bind]. destruct (IH kept last (junk ++ [x]) (removed ++ [r]) (S r)) as (junk' & E & Hl).
        { rewrite app_length. simpl. lia. }
        exists junk'. cbn [dedup_from rrm_from]. rewrite Ed.
        replace ((kept ++ [last]) ++ junk ++ x :: rest) with ((kept ++ [last]) ++ (junk ++ [x]) ++ rest)
          by (rewrite <- !app_assoc; reflexivity).
        rewrite E. rewrite <- (app_assoc removed). simpl. split; auto.
        rewrite Hl, app_length. simpl. lia.
      + (* swap w r *)
        assert (Esw : swap ((kept ++ [last]) ++ junk ++ x :: rest) (length kept + 1) r =
                      Ok (((kept ++ [last]) ++ [x]) ++ match junk with [] => [] | j :: js => js ++ [j] end ++ rest)).
        { unfold swap. rewrite E1. destruct junk as [|j js].
          - simpl in Hr. assert (length kept + 1 = r) as -> by lia. simpl app at 2. rewrite E1. cbn [bind].
            rewrite set_lt by (rewrite !app_length; simpl; lia). cbn [bind].
            rewrite set_lt by (rewrite upd_length, !app_length; simpl; lia).
            assert (Hu : forall y, upd ((kept ++ [last]) ++ y :: rest) r x = (kept ++ [last]) ++ x :: rest).
            { intros y. replace r with (length (kept ++ [last])) by (rewrite app_length; simpl; lia).
              apply upd_app_mid. }
            change ([] ++ x :: rest) with (x :: rest).
            rewrite !Hu. rewrite <- !app_assoc. reflexivity.
          - assert (Ew : idx ((kept ++ [last]) ++ (j :: js) ++ x :: rest) (length kept + 1) = Ok j).
            { apply idx_ok. rewrite nth_error_app2; rewrite app_length; simpl; [|lia].
              rewrite Nat.sub_diag. reflexivity. }
            rewrite Ew. cbn [bind].
            rewrite set_lt by (rewrite !app_length; simpl; lia). cbn [bind].
            rewrite set_lt by (rewrite upd_length, !app_length; simpl in *; lia).
            replace (length kept + 1) with (length (kept ++ [last])) by (rewrite app_length; reflexivity).
            change ((j :: js) ++ x :: rest) with (j :: js ++ x :: rest). rewrite upd_app_mid.
            replace ((kept ++ [last]) ++ x :: js ++ x :: rest) with
              ((((kept ++ [last]) ++ [x]) ++ js) ++ x :: rest) by (rewrite <- !app_assoc; reflexivity).
            replace r with (length (((kept ++ [last]) ++ [x]) ++ js))
              by (rewrite !app_length; simpl in *; lia).
            rewrite upd_app_mid. rewrite <- !app_assoc. reflexivity. }
        rewrite Esw. cbn [bind].
        set (junk2 := match junk with [] => [] | j :: js => js ++ [j] end).
        assert (Hj2 : length junk2 = length junk).
        { unfold junk2. destruct junk; auto. rewrite app_length. simpl. lia. }
        destruct (IH (kept ++ [last]) x junk2 removed (S r)) as (junk' & E & Hl).
        { rewrite app_length. simpl. lia. }
        exists junk'. cbn [dedup_from rrm_from]. rewrite Ed.
        replace (length kept + 1 + 1) with (length (kept ++ [last]) + 1)
          by (rewrite app_length; simpl; lia).
        rewrite E. split; [|lia].
        rewrite <- !app_assoc. simpl. do 3 f_equal. rewrite app_length. simpl. lia.
  Qed.

  Lemma rrm_from_length prev r l :
    length (rrm_from prev r l) + length (dedup_from dup prev l) = length l.
  Proof.
    revert prev r. induction l as [|x l IH]; intros prev r; simpl; auto.
    destruct (dup prev x); simpl; [pose proof (IH prev (S r))|pose proof (IH x (S r))]; lia.
  Qed.

  Lemma rdedup_edges_eq es :
    rdedup_edges ar es = Ok (dedup_by dup es, rrm_of es).
  Proof.
    unfold rdedup_edges. destruct es as [|x es]; [reflexivity|].
    destruct (rdedup_loop es [] x [] [] 1 eq_refl) as (junk' & E & Hl).
    cbn [length]. replace (S (length es) - 1) with (length es) by lia.
    simpl app in E. cbn [length Nat.add] in E. rewrite E. cbn [bind].
    unfold dedup_by, rrm_of. simpl in Hl.
    set (D := dedup_from dup x es) in *. set (R := rrm_from x 1 es) in *.
    assert (Hf : firstn (length (x :: D ++ junk') - length R) (x :: D ++ junk') = x :: D).
    { change (x :: D ++ junk') with ((x :: D) ++ junk'). rewrite app_length, Hl.
      replace (length (x :: D) + length R - length R) with (length (x :: D)) by lia.
      rewrite firstn_app, Nat.sub_diag, firstn_all. simpl. now rewrite app_nil_r. }
    simpl app. now rewrite Hf.
  Qed.

  (** which position of the deduplicated list represents position i *)
  Definition count_le (R : list nat) (i : nat) : nat := length (filter (fun r => r <=? i) R).

  (** *** The same with other metrics, which are numbers of groups of duplicates *)
  Variable f : nat -> nat.
  Definition code (i : nat) : list f64 := [Fin (inject_Z (Z.of_nat (f i)))].
  Definition reA (a : protoA) : protoA := mkA (a_idx a) (a_id a) (a_src a) (a_dst a) (code (a_idx a)) (a_sc a).
  Definition reB (b : protoB) : protoB := mkB (b_idx b) (b_id b) (b_src b) (b_dst b) (code (b_idx b)) (b_sc b).

  Fixpoint codes (k : nat) (last : protoB) (l : list protoB) : list nat :=
    match l with
    | [] => []
    | x :: t => if dup last x then k :: codes k last t else S k :: codes (S k) x t
    end.

  Lemma approx_nat_eq i j : approx_eq (Fin (inject_Z (Z.of_nat i))) (Fin (inject_Z (Z.of_nat j))) = (i =? j).
  Proof.
    destruct (Nat.eqb_spec i j) as [->|H].
    - apply approx_eq_fin. unfold Qlt, Qabs.Qabs, Qminus, Qplus, Qopp, inject_Z, TOL. cbn. lia.
    - apply approx_eq_fin_false. unfold Qle, Qabs.Qabs, Qminus, Qplus, Qopp, inject_Z, TOL. cbn. lia.
  Qed.

  Definition coded (l : list protoB) (cs : list nat) : Prop := Forall2 (fun x c => f (b_idx x) = c) l cs.

  Lemma re_dup last x : f (b_idx x) = (if dup last x then f (b_idx last) else S (f (b_idx last))) ->
    is_duplicate (reB last) (reB x) = dup last x.
  Proof.
    intros H. unfold is_duplicate, ris_duplicate in *. cbn [reB b_id b_src b_dst b_metrics code approx_eq_vec]. rewrite approx_nat_eq, andb_true_r.
    destruct (opt_eqb _ _ && _) eqn:E; cbn [andb] in *; auto.
    destruct (rapprox_eq_vec ar _ _); rewrite H; [apply Nat.eqb_refl|]. apply Nat.eqb_neq. lia.
  Qed.

  Lemma re_dedup l : forall last, coded l (codes (f (b_idx last)) last l) ->
    dedup_from is_duplicate (reB last) (map reB l) = map reB (dedup_from dup last l) /\
    forall r, rm_from (reB last) r (map reB l) = rrm_from last r l.
  Proof.
    induction l as [|x l IH]; intros last H; [split; reflexivity|]. cbn [codes] in H. cbn [map dedup_from rm_from rrm_from].
    destruct (dup last x) eqn:Ed; inversion H as [|? ? ? ? Hx Hl]; subst.
    - rewrite (re_dup last x) by (now rewrite Ed). rewrite Ed. destruct (IH _ Hl) as [A B]. split; [exact A|]. intros r. now rewrite B.
    - rewrite (re_dup last x) by (now rewrite Ed). rewrite Ed. rewrite <- Hx in Hl. destruct (IH _ Hl) as [A B]. cbn [map]. split; [now rewrite A|]. intros r. now rewrite B.
  Qed.

  (** *** All stages *)
  Lemma re_toB ids l : forall acc bs, foldM (to_protoB ids) l acc = Ok bs ->
    foldM (to_protoB ids) (map reA l) (map reB acc) = Ok (map reB bs).
  Proof.
    induction l as [|a l IH]; intros acc bs E; cbn in *; [now injection E as <-|].
    unfold to_protoB in E at 1. unfold to_protoB at 1. cbn [reA a_src a_dst a_idx a_id a_sc a_metrics].
    destruct (node_idx_from ids (a_src a)) as [s|]; [|discriminate]. destruct (node_idx_from ids (a_dst a)) as [d|]; [|discriminate].
    cbn [bind] in *. apply IH in E. rewrite map_app in E. exact E.
  Qed.

  Lemma re_sort lv l : sort_fwd lv (map reB l) = map reB (sort_fwd lv l).
  Proof. apply sort_by_map. reflexivity. Qed.

  Lemma re_new_indices l : new_indices (map reB l) = new_indices l.
  Proof. unfold new_indices. rewrite enumerate_map, foldM_map, map_length. apply foldM_ext. reflexivity. Qed.
  Lemma re_remap ni l scs : remap_shortcuts ni (map reB l) scs = remap_shortcuts ni l scs.
  Proof. unfold remap_shortcuts. rewrite foldM_map. apply foldM_ext. reflexivity. Qed.
  Lemma re_correct rm l scs : correct_shortcuts rm (map reB l) scs = correct_shortcuts rm l scs.
  Proof. unfold correct_shortcuts. rewrite foldM_map. apply foldM_ext. reflexivity. Qed.

  Lemma re_store scs l : forall st st' st2, foldM (rstore_metrics ar scs) l st = Ok st' ->
    st_edges st2 = st_edges st -> st_scs st2 = st_scs st -> st_idx st2 = st_idx st ->
    exists st2', foldM (store_metrics scs) (map reB l) st2 = Ok st2' /\
      st_edges st2' = st_edges st' /\ st_scs st2' = st_scs st' /\ st_idx st2' = st_idx st' /\
      st_metrics st' = st_metrics st ++ map (fun e => map (rclamp ar) (b_metrics e)) l /\
      st_metrics st2' = st_metrics st2 ++ map (fun e => map clamp_metric (code (b_idx e))) l /\
      st_edges st' = st_edges st ++ map toC l.
  Proof.
    induction l as [|e l IH]; intros st st' st2 E E1 E2 E3; cbn [foldM map] in *.
    - injection E as <-. exists st2. cbn [map]. rewrite !app_nil_r. repeat split; auto.
    - apply bind_ok in E. destruct E as (st1 & Es & E). unfold rstore_metrics in Es. apply bind_ok in Es. destruct Es as (nscs & En & Es). injection Es as <-.
      unfold store_metrics at 1. cbn [reB b_sc b_metrics b_src b_dst b_id]. rewrite E2, E3, En. cbn [bind].
      destruct (IH _ _ {| st_metrics := st_metrics st2 ++ [map clamp_metric (code (b_idx e))];
          st_edges := st_edges st2 ++ [{| c_src := b_src e; c_dst := b_dst e; c_idx := 0; c_id := b_id e |}];
          st_scs := nscs; st_idx := st_idx st2 + 1 |} E) as (st2' & F & A); cbn [st_edges st_scs st_idx st_metrics] in *; try congruence.
      exists st2'. rewrite E3 in F. split; [exact F|]. destruct A as (A1 & A2 & A3 & A4 & A5 & A6). rewrite A4, A5, A6, <- !app_assoc. repeat split; try assumption; try congruence. now rewrite A1, A6, <- app_assoc.
  Qed.

  Lemma re_big l : (forall x, In x l -> 1 <= f (b_idx x)) -> metrics_too_small (map (fun e => map clamp_metric (code (b_idx e))) l) = false.
  Proof.
    intros H. unfold metrics_too_small. destruct (existsb _ _) eqn:E; auto. exfalso.
    apply existsb_exists in E. destruct E as (m & Hm & E). apply existsb_exists in E. destruct E as (x & Hx & E).
    apply in_map_iff in Hm. destruct Hm as (e & <- & He). specialize (H e He). cbn in Hx. destruct Hx as [<-|[]].
    unfold clamp_metric in E. change f0 with (Fin (inject_Z (Z.of_nat 0))) in E. rewrite approx_nat_eq in E. destruct (Nat.eqb_spec (f (b_idx e)) 0); [lia|].
    unfold fltb, fcmp, F64_ABS in E. destruct (Qcompare _ _) eqn:C; try discriminate. apply Qlt_alt in C. unfold Qlt, inject_Z in C. cbn in C. lia.
  Qed.

  (** the inserted edges, too *)
  Definition recode (es : list proto_edge) : list proto_edge :=
    map (fun p => mkProtoEdge (pe_id (snd p)) (pe_src (snd p)) (pe_dst (snd p)) (code (fst p)) (pe_sc (snd p))) (enumerate es).

  Lemma recode_insert es : eb_node_ids (insert_edges (recode es)) = eb_node_ids (insert_edges es) /\
    eb_edges (insert_edges (recode es)) = map reA (eb_edges (insert_edges es)) /\
    eb_shortcuts (insert_edges (recode es)) = eb_shortcuts (insert_edges es) /\
    length (eb_edges (insert_edges es)) = length es.
  Proof.
    unfold insert_edges, recode. induction es as [|e es (A & B & C & D)] using rev_ind; [repeat split|].
    rewrite enumerate_app1, map_app, !fold_left_app. cbn [map fold_left fst snd]. unfold eb_insert at 1 3 5 7 9 11 13.
    cbn [eb_node_ids eb_edges eb_shortcuts pe_id pe_src pe_dst pe_metrics pe_sc]. rewrite A, B, C, map_app, !app_length, map_length, D.
    cbn [map reA a_idx a_id a_src a_dst a_metrics a_sc length]. repeat split.
  Qed.
End Rounded.

(** *** Numbers for the groups *)
Lemma codes_length ar l : forall k last, length (codes ar k last l) = length l.
Proof. induction l as [|x l IH]; intros k last; cbn; auto. destruct (ris_duplicate ar last x); cbn; now rewrite IH. Qed.
Lemma codes_ge ar l : forall k last, Forall (fun c => k <= c) (codes ar k last l).
Proof.
  induction l as [|x l IH]; intros k last; cbn; auto. destruct (ris_duplicate ar last x); constructor; auto.
  eapply Forall_impl; [|apply IH]. cbn. intros a H. lia.
Qed.

Lemma coding (l : list protoB) : forall cs, length cs = length l -> NoDup (map b_idx l) -> exists f, coded f l cs.
Proof.
  induction l as [|x l IH]; intros [|c cs] Hl Hn; cbn in *; try discriminate.
  - exists (fun _ => 0). constructor.
  - inversion Hn as [|? ? Hx Hn']; subst. destruct (IH cs) as (f & Hf); auto.
    exists (fun i => if i =? b_idx x then c else f i). constructor; [now rewrite Nat.eqb_refl|].
    unfold coded in *. clear IH Hl Hn. induction Hf as [|y d l cs Hy Hf IH]; constructor; cbn in *.
    + destruct (Nat.eqb_spec (b_idx y) (b_idx x)) as [E|]; auto. exfalso. apply Hx. auto.
    + apply IH; [tauto|]. now inversion Hn'.
Qed.

Lemma coding_all ar (l : list protoB) : NoDup (map b_idx l) ->
  exists f, (forall x, In x l -> 1 <= f (b_idx x)) /\
    dedup_by is_duplicate (map (reB f) l) = map (reB f) (dedup_by (ris_duplicate ar) l) /\
    rm_of (map (reB f) l) = rrm_of ar l.
Proof.
  intros Hn. destruct l as [|x l]; [exists (fun _ => 0); repeat split; intros ? []|].
  destruct (coding (x :: l) (1 :: codes ar 1 x l)) as (f & Hf); auto. { cbn. now rewrite codes_length. }
  exists f. inversion Hf as [|? ? ? ? Hx Hl]; subst. split.
  - intros y [<-|Hy]; [rewrite Hx; lia|]. pose proof (codes_ge ar l 1 x) as G. clear - Hl Hy G. unfold coded in Hl.
    induction Hl as [|z c l cs Hz Hl IH]; [destruct Hy|]. inversion G; subst. destruct Hy as [<-|Hy]; auto.
  - rewrite <- Hx in Hl at 1. destruct (re_dedup ar f l x Hl) as [A B]. cbn [map dedup_by rm_of rrm_of]. split; [now rewrite A|apply B].
Qed.

Lemma dedup_from_in {A} (d : A -> A -> bool) l : forall last x, In x (dedup_from d last l) -> In x l.
Proof. induction l as [|y l IH]; intros last x H; cbn in *; auto. destruct (d last y); [eauto|]. destruct H as [H|H]; eauto. Qed.
Lemma dedup_by_in {A} (d : A -> A -> bool) l x : In x (dedup_by d l) -> In x l.
Proof. destruct l as [|y l]; cbn; auto. intros [H|H]; auto. right. eapply dedup_from_in; eauto. Qed.
Lemma dedup_from_rep {A} (d : A -> A -> bool) l : forall last x, In x l -> In x (dedup_from d last l) \/ exists y, (y = last \/ In y (dedup_from d last l)) /\ d y x = true.
Proof.
  induction l as [|y l IH]; intros last x H; [destruct H|]. cbn [dedup_from]. destruct (d last y) eqn:E.
  - destruct H as [<-|H]; [right; exists last; auto|]. destruct (IH last x H) as [H'|H']; auto.
  - destruct H as [<-|H]; [left; now left|]. destruct (IH y x H) as [H'|(z & [Hz|Hz] & Hd)]; [left; now right| |]; right; exists z; cbn; auto.
Qed.
Lemma dedup_by_rep {A} (d : A -> A -> bool) l x : In x l -> In x (dedup_by d l) \/ exists y, In y (dedup_by d l) /\ d y x = true.
Proof.
  destruct l as [|y l]; cbn; auto. intros [<-|H]; auto. destruct (dedup_from_rep d l y x H) as [H'|(z & [Hz|Hz] & Hd)]; auto; right; exists z; auto.
Qed.

(** *** Building without generating *)
Definition bare_cfg : cfg := mkCfg (mkEdgeCfg [] false [] []) [] [] [].

Definition rkept ar (es : list proto_edge) (b : node_builder) : list protoB :=
  dedup_by (ris_duplicate ar) (sorted_edges es (nb_node_ids b) (nb_levels b)).

Lemma rcore_sim ar es b c ch1 ch2 g : 1 <= ch1 -> 1 <= ch2 -> nb_inv es b -> rbuild_core ar c ch1 ch2 b = Ok g ->
  exists f g0, (forall b', nb_inv (recode f es) b' -> nb_same b b' -> build_core bare_cfg ch1 ch2 b' = Ok g0) /\
    g_cfg g0 = bare_cfg /\
    g = mkGraph c (node_ids g0) (node_coords g0) (node_levels g0)
          (fwd_dsts g0) (fwd_offsets g0) (fwd_to_fwd g0) (bwd_dsts g0) (bwd_offsets g0) (bwd_to_fwd g0)
          (map (fun e => map (rclamp ar) (b_metrics e)) (rkept ar es b)) None (edge_ids g0) (edge_ids_map g0) (sc_offsets g0) (sc_edges_arr g0) /\
    length (metrics g0) = length (rkept ar es b) /\
    rmetrics_too_small ar (metrics g) = false /\
    node_ids g = nb_node_ids b /\ node_levels g = nb_levels b /\
    fwd_dsts g = map b_dst (rkept ar es b) /\ bwd_dsts g = map b_src (rkept ar es b) /\ edge_ids g = map b_id (rkept ar es b).
Proof.
  intros Hc1 Hc2 Hb E. pose proof Hb as [Hs Hids Hcl Hll He Hsc]. destruct (insert_edges_closed es) as [HA HS].
  pose proof (sorted_idx es (nb_node_ids b) (nb_levels b)) as HSidx.
  destruct (coding_all ar (sorted_edges es (nb_node_ids b) (nb_levels b))) as (f & Hf1 & Hf2 & Hf3).
  { eapply Permutation_NoDup; [symmetry; exact HSidx|apply seq_NoDup]. }
  fold (rkept ar es b) in Hf2.
  assert (HK : forall e, In e (rkept ar es b) -> In e (sorted_edges es (nb_node_ids b) (nb_levels b))) by (intros e H; unfold rkept in H; eapply dedup_by_in; exact H).
  exists f. unfold rbuild_core in E.
  apply bind_ok in E. destruct E as (coords & Ecoords & E).
  rewrite work_off_chunks_eq in E by auto. apply bind_ok in E. destruct E as (bs & Ebs & E). pose proof Ebs as Ebs0.
  rewrite He, HA in Ebs0. rewrite to_protoB_fold in Ebs0; auto.
  2:{ intros a Ha. unfold as_of in Ha. apply in_map_iff in Ha. destruct Ha as ([i pe] & <- & Hin).
      apply enumerate_in in Hin. apply nth_error_In in Hin.
      split; apply Hids; exists pe; simpl; auto. }
  injection Ebs0 as Ebs0. cbn [app] in Ebs0.
  assert (ES : sort_fwd (nb_levels b) bs = sorted_edges es (nb_node_ids b) (nb_levels b)) by (subst bs; reflexivity).
  cbv zeta in E. rewrite ES in E. set (SE := sorted_edges es (nb_node_ids b) (nb_levels b)) in *.
  apply bind_ok in E. destruct E as (ni & Eni & E). apply bind_ok in E. destruct E as (scs1 & Escs1 & E).
  rewrite rdedup_edges_eq in E. cbn [bind] in E. fold (rkept ar es b) in E. fold SE in E.
  change (dedup_by (ris_duplicate ar) SE) with (rkept ar es b) in E.
  apply bind_ok in E. destruct E as (scs2 & Escs2 & E). rewrite work_off_chunks_eq in E by auto.
  apply bind_ok in E. destruct E as (st & Est & E).
  destruct (rmetrics_too_small ar (st_metrics st)) eqn:Esmall; [discriminate|].
  destruct (re_store ar f scs2 (rkept ar es b) _ _ (mkStore [] [] [] 0) Est eq_refl eq_refl eq_refl) as (st2 & Est2 & S1 & S2 & S3 & S4 & S5 & S6).
  cbn [st_metrics st_edges app] in S4, S5, S6.
  apply bind_ok in E. destruct E as (sc & Escc & E). apply bind_ok in E. destruct E as (foffs & Efo & E).
  apply bind_ok in E. destruct E as (idmap & Eid & E). apply bind_ok in E. destruct E as (boffs & Ebo & E).
  injection E as <-.
  exists (mkGraph bare_cfg (nb_node_ids b) coords (nb_levels b)
     (map c_dst (map with_idx (enumerate (st_edges st)))) foffs (map c_idx (map with_idx (enumerate (st_edges st))))
     (map c_src (map with_idx (enumerate (st_edges st)))) boffs (map c_idx (sort_bwd (nb_levels b) (map with_idx (enumerate (st_edges st)))))
     (st_metrics st2) None (map c_id (map with_idx (enumerate (st_edges st)))) idmap (fst sc) (snd sc)).
  split; [|split; [reflexivity|]; split; [cbn; now rewrite S4|]; split; [cbn; rewrite S5; apply map_length|];
    cbn [metrics node_ids node_levels fwd_dsts bwd_dsts edge_ids]; split; [exact Esmall|]; split; [reflexivity|]; split; [reflexivity|]].
  - intros b' Hb' (N1 & N2 & N3). destruct Hb' as [_ _ _ _ He' Hsc']. destruct (recode_insert f es) as (_ & R2 & R3 & _).
    unfold build_core. rewrite <- N1, <- N2, <- N3, He', R2, Hsc', R3, <- Hsc, <- He, Ecoords. cbn [bind].
    rewrite work_off_chunks_eq by auto. pose proof (re_toB f _ _ _ _ Ebs) as E1. cbn [map] in E1. rewrite E1. cbn [bind]. cbv zeta.
    rewrite re_sort, ES, re_new_indices, Eni. cbn [bind]. rewrite re_remap, Escs1. cbn [bind]. rewrite dedup_edges_eq. cbn [bind].
    rewrite Hf2, Hf3, re_correct, Escs2. cbn [bind]. rewrite work_off_chunks_eq by auto. rewrite Est2. cbn [bind].
    rewrite S5 at 1. rewrite re_big by (intros x Hx; apply Hf1; auto). rewrite S1, S2, Escc. cbn [bind]. rewrite Efo. cbn [bind]. rewrite Eid. cbn [bind]. rewrite Ebo. reflexivity.
  - rewrite S6. fold (core_edges (rkept ar es b)).
    split; [apply core_edges_map; reflexivity|]. split; apply core_edges_map; reflexivity.
Qed.
