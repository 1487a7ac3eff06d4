(** What the search answers is a road, whatever its arithmetic does *)
From Coq Require Import List Bool Arith Lia ZArith QArith Permutation.
From Verif Require Import Base F64 Lib ModelUnits ModelConfig ModelGraph ModelBuild ModelDijkstra ModelHeap ModelRounded ModelRoundedHeap
  Spec SpecRouting SpecRounded SpecRoundedHeap ProofDijkstra ProofRouting ProofRounded ProofRoundedRun ProofHeap ProofHeapSearch ProofRoundedHeap.
Import ListNotations.
Open Scope nat_scope.

Lemma get_put_same {A} (x : two A) d y : get (put x d y) d = y.
Proof. destruct d, x; reflexivity. Qed.
Lemma get_put_other {A} (x : two A) d d' y : d' <> d -> get (put x d y) d' = get x d'.
Proof. destruct d, d', x; congruence || reflexivity. Qed.
Lemma dir_dec (a b : dir) : a = b \/ a <> b.
Proof. destruct a, b; auto; right; discriminate. Qed.
Lemma upd_nth {A} (l : list A) : forall i j x, i < length l -> nth_error (upd l i x) j = if j =? i then Some x else nth_error l j.
Proof.
  induction l as [|y l IH]; intros [|i] [|j] x H; simpl in *; try lia; auto. apply IH. lia.
Qed.

Section Any.
  Variable ar : f64 -> f64.
  Hypothesis ar_inf : ar PInf = PInf.
  Hypothesis ar_nan : ar NaN = NaN.
  Variable g : graph.
  Hypothesis wf : wf_graph g.
  Variables s t : nat.
  Hypothesis Hs : s < node_count g.
  Hypothesis Ht : t < node_count g.

  Definition origin (d : dir) : nat := match d with FWD => s | BWD => t end.
  Definition got (st : dijkstra) (d : dir) (v : nat) : Prop :=
    v < node_count g /\ (v = origin d \/ exists e, nth_error (get (dj_preds st) d) v = Some (Some e)).
  Definition met (st : dijkstra) (best : option (nat * f64)) : Prop :=
    forall m b, best = Some (m, b) -> got st FWD m /\ got st BWD m.

  Record ok_state (st : dijkstra) : Prop := mkOkState {
    os_pred : forall d v e, v < node_count g -> nth_error (get (dj_preds st) d) v = Some (Some e) ->
                dst_idx g d e = Ok v /\ exists u, dst_idx g (opp d) e = Ok u /\ got st d u;
    os_queue : forall c, In c (dj_queue st) -> got st (cn_dir c) (cn_idx c);
    os_cost : forall d v x, v < node_count g -> nth_error (get (dj_costs st) d) v = Some x -> x <> PInf -> got st d v;
    os_vis : dj_ch st = false -> forall d v, v < node_count g -> nth_error (get (dj_visited st) d) v = Some true -> got st d v;
  }.

  Lemma got_preds st st' d v : dj_preds st' = dj_preds st -> got st d v -> got st' d v.
  Proof. unfold got. now intros ->. Qed.

  Lemma any_relax_edge enqueue d e u v x st st' : ok_state st -> got st d u ->
    dst_idx g d e = Ok v -> dst_idx g (opp d) e = Ok u ->
    relax_edge enqueue d e v x st = Ok st' ->
    ok_state st' /\ (forall d' w, got st d' w -> got st' d' w) /\ dj_ch st' = dj_ch st.
  Proof.
    intros [Hp Hq Hc Hv] Hu Ev Eu E. unfold relax_edge in E. apply bind_ok in E. destruct E as (old & Eold & E).
    destruct (fltb x old); [|injection E as <-; split; [constructor; auto|auto]].
    apply bind_ok in E. destruct E as (ps & Eps & E). apply bind_ok in E. destruct E as (cs & Ecs & E). injection E as <-.
    apply set_ok in Eps, Ecs. destruct Eps as [Lp ->], Ecs as [Lc ->].
    destruct (wg_dst g wf d e v Ev) as [Lv _].
    set (st' := mkDij _ _ _ _ _ _ _).
    assert (M : forall d' w, got st d' w -> got st' d' w).
    { intros d' w [Lw [->|(f & Hf)]]; split; auto. right. unfold st'. cbn [dj_preds].
      destruct (dir_dec d' d) as [->|N]; [|rewrite get_put_other by auto; eauto].
      rewrite get_put_same, upd_nth by auto. destruct (w =? v); eauto. }
    assert (G : got st' d v).
    { split; auto. right. exists e. unfold st'. cbn [dj_preds]. rewrite get_put_same, upd_nth, Nat.eqb_refl by auto. reflexivity. }
    split; [|split; auto]. constructor.
    - intros d' w f Lw Hf. assert (K : d' = d /\ w = v /\ f = e \/ nth_error (get (dj_preds st) d') w = Some (Some f)).
      { unfold st' in Hf. cbn [dj_preds] in Hf. destruct (dir_dec d' d) as [->|N]; [|rewrite get_put_other in Hf by auto; auto].
        rewrite get_put_same, upd_nth in Hf by auto. destruct (Nat.eqb_spec w v) as [->|]; auto. injection Hf as <-. auto. }
      destruct K as [(-> & -> & ->)|K]; [eauto|]. destruct (Hp d' w f Lw K) as (A & u' & B & C). eauto.
    - intros c Hin. unfold st' in Hin. cbn [dj_queue] in Hin. destruct enqueue; [destruct Hin as [<-|Hin]|]; auto.
    - intros d' w y Lw Hy Ny. unfold st' in Hy. cbn [dj_costs] in Hy. destruct (dir_dec d' d) as [->|N].
      + rewrite get_put_same, upd_nth in Hy by auto. destruct (Nat.eqb_spec w v) as [->|]; eauto.
      + rewrite get_put_other in Hy by auto. eauto.
    - intros Hch d' w Lw Hw. apply M. apply Hv; auto.
  Qed.

  Lemma any_relax alphas enqueue c : forall es st st', ok_state st -> got st (cn_dir c) (cn_idx c) ->
    (forall e, In e es -> dst_idx g (opp (cn_dir c)) e = Ok (cn_idx c)) ->
    rrelax ar g alphas enqueue c es st = Ok st' ->
    ok_state st' /\ (forall d' w, got st d' w -> got st' d' w).
  Proof.
    induction es as [|e es IH]; intros st st' H G Hes E; cbn [rrelax] in E; [injection E as <-; auto|].
    apply bind_ok in E. destruct E as (v & Ev & E). apply bind_ok in E. destruct E as (down & _ & E).
    destruct down; [injection E as <-; auto|]. apply bind_ok in E. destruct E as (ms & _ & E).
    apply bind_ok in E. destruct E as (st1 & E1 & E).
    destruct (any_relax_edge _ _ _ _ _ _ _ _ H G Ev (Hes e (or_introl eq_refl)) E1) as (H1 & M1 & _).
    destruct (IH st1 st' H1 (M1 _ _ G) (fun f Hf => Hes f (or_intror Hf)) E) as (H2 & M2). auto.
  Qed.

  Lemma any_total st c x : rtotal_cost ar st c = Ok x -> (x <> PInf /\ x <> NaN) ->
    exists a b, nth_error (fw (dj_costs st)) (cn_idx c) = Some a /\ nth_error (bw (dj_costs st)) (cn_idx c) = Some b /\ a <> PInf /\ b <> PInf.
  Proof.
    unfold rtotal_cost. intros E [N1 N2]. apply bind_ok in E. destruct E as (a & Ea & E). apply bind_ok in E. destruct E as (b & Eb & E).
    injection E as <-. apply idx_ok in Ea, Eb. exists a, b. split; auto. split; auto. unfold radd in *.
    split; intros ->; [destruct b|destruct a]; cbn [fadd] in *; congruence.
  Qed.

  Lemma any_meet st best c best' over : ok_state st -> got st (cn_dir c) (cn_idx c) -> met st best ->
    rmeet ar st best c = Ok (best', over) -> met st best'.
  Proof.
    intros [Hp Hq Hc Hv] G M E. unfold rmeet in E. destruct best as [[m b]|].
    - destruct (fgtb (cn_cost c) b); [injection E as <- _; auto|]. apply bind_ok in E. destruct E as (x & Ex & E).
      destruct (fltb x b) eqn:L; injection E as <- _; auto. intros m' b' K. injection K as <- <-.
      destruct (any_total st c x Ex) as (a & a' & Ha & Ha' & Na & Na').
      { split; intros ->; destruct b; discriminate L. }
      destruct G as [Lc _]. split; [apply (Hc FWD _ a Lc Ha Na)|apply (Hc BWD _ a' Lc Ha' Na')].
    - apply bind_ok in E. destruct E as (mt & Em & E). destruct mt; [|injection E as <- _; intros ? ? K; discriminate K].
      apply bind_ok in E. destruct E as (x & _ & E). injection E as <- _. intros m' b' K. injection K as <- _.
      assert (O : got st (opp (cn_dir c)) (cn_idx c)).
      { destruct G as [Lc _]. unfold is_meeting in Em. destruct (dj_ch st) eqn:Ech.
        - apply bind_ok in Em. destruct Em as (y & Ey & Em). apply idx_ok in Ey. apply (Hc _ _ y Lc Ey). intros ->. discriminate Em.
        - apply idx_ok in Em. apply Hv; auto. }
      destruct (cn_dir c); auto.
  Qed.

  Lemma any_iteration alphas st best c st' best' : ok_state st -> got st (cn_dir c) (cn_idx c) -> met st best ->
    riteration ar g alphas st best c = Ok (st', best') -> ok_state st' /\ met st' best'.
  Proof.
    intros H G M E. unfold riteration in E. apply bind_ok in E. destruct E as (imp & _ & E).
    destruct imp; cbn [negb] in E; [|injection E as <- <-; auto].
    apply bind_ok in E. destruct E as (st1 & E1 & E).
    assert (H1 : ok_state st1 /\ dj_preds st1 = dj_preds st).
    { unfold visit in E1. destruct (dj_ch st) eqn:Ech; [injection E1 as <-; auto|].
      apply bind_ok in E1. destruct E1 as (vs & Evs & E1). injection E1 as <-. apply set_ok in Evs. destruct Evs as [Lv ->].
      split; auto. destruct H as [Hp Hq Hc Hv]. constructor; auto. intros _ d v Lt Hvis. cbn [with_visited dj_visited] in Hvis.
      destruct (dir_dec d (cn_dir c)) as [->|N].
      - rewrite get_put_same, upd_nth in Hvis by auto. destruct (Nat.eqb_spec v (cn_idx c)) as [->|]; [exact G|]. apply (Hv Ech); auto.
      - rewrite get_put_other in Hvis by auto. apply (Hv Ech); auto. }
    destruct H1 as [H1 P1]. assert (G1 : got st1 (cn_dir c) (cn_idx c)) by (eapply got_preds; eauto).
    assert (M1 : met st1 best) by (intros m b K; destruct (M m b K); split; eapply got_preds; eauto).
    apply bind_ok in E. destruct E as ([best1 over] & Em & E). pose proof (any_meet _ _ _ _ _ H1 G1 M1 Em) as M2.
    destruct over.
    - injection E as <- <-. split; [|intros m b K; destruct (M2 m b K); split; (apply (got_preds st1); [reflexivity|assumption])].
      destruct H1 as [Hp Hq Hc Hv]. constructor; auto.
    - apply bind_ok in E. destruct E as (es & Ees & E). apply bind_ok in E. destruct E as (st2 & E2 & E). injection E as <- <-.
      assert (K : forall e, In e es -> dst_idx g (opp (cn_dir c)) e = Ok (cn_idx c)).
      { destruct (wg_start g wf (cn_dir c) (cn_idx c) (proj1 G)) as [(l & El & _ & Hl)|[El _]]; [|congruence].
        assert (l = es) by congruence. subst l. intros e. apply Hl. }
      destruct (any_relax _ _ _ _ _ _ H1 G1 K E2) as (H2 & M3). split; auto. intros m b X. destruct (M2 m b X). auto.
  Qed.

  Lemma any_search alphas pick : forall fuel k st best st' best', ok_state st -> met st best ->
    rsearch ar pick g alphas fuel k st best = Ok (st', best') -> ok_state st' /\ met st' best'.
  Proof.
    induction fuel as [|fuel IH]; intros k st best st' best' H M E; cbn [rsearch] in E.
    - destruct (dj_queue st); [injection E as <- <-; auto|discriminate].
    - destruct (dj_queue st) as [|q0 qs] eqn:Eq; [injection E as <- <-; auto|]. rewrite <- Eq in E.
      apply bind_ok in E. destruct E as (c & Ec & E). apply idx_ok in Ec.
      set (st0 := with_queue st (remove_nth (pick k (dj_queue st)) (dj_queue st))) in *.
      assert (H0 : ok_state st0).
      { destruct H as [Hp Hq Hc Hv]. constructor; auto. intros x Hx. apply Hq. exact (remove_nth_in _ _ _ Hx). }
      assert (M0 : met st0 best) by exact M.
      destruct (has_found st0); [injection E as <- <-; auto|].
      apply bind_ok in E. destruct E as ([st1 b1] & E1 & E). cbn [fst snd] in E.
      destruct (any_iteration alphas st0 best c st1 b1) as [H1 M1]; auto.
      { apply (os_queue _ H). eapply nth_error_In; eauto. }
      eapply IH; eauto.
  Qed.

  Lemma any_start ch st0 st1 : fresh g ch st0 -> start s t st0 = Ok st1 -> ok_state st1.
  Proof.
    intros F E. unfold start in E. apply bind_ok in E. destruct E as (cf & Ef & E). apply bind_ok in E. destruct E as (cb & Eb & E).
    injection E as <-. apply set_ok in Ef, Eb. destruct Ef as [Lf ->], Eb as [Lb ->].
    pose proof (f_pred _ _ _ F) as FP. pose proof (f_cost _ _ _ F) as FC.
    assert (R : forall d, got (mkDij (dj_ch st0) (mkCN t f0 BWD :: mkCN s f0 FWD :: dj_queue st0)
                (mkTwo (upd (fw (dj_costs st0)) s f0) (upd (bw (dj_costs st0)) t f0)) (dj_preds st0) (dj_visited st0) (dj_found st0)
                (mkTwo (fw (dj_touched st0) ++ [s]) (bw (dj_touched st0) ++ [t]))) d (origin d)).
    { intros []; split; auto. }
    constructor; cbn [dj_preds dj_queue dj_costs dj_visited dj_ch].
    - intros d v e Lv K. rewrite (FP d v Lv) in K. discriminate.
    - intros c [<-|[<-|Hc]]; [apply (R BWD)|apply (R FWD)|]. rewrite (f_que _ _ _ F) in Hc. destruct Hc.
    - intros [] v x Lv Hx Nx; cbn [get fw bw] in Hx; rewrite upd_nth in Hx by auto.
      + destruct (Nat.eqb_spec v s) as [->|]; [apply (R FWD)|]. pose proof (FC FWD v Lv) as K. cbn [get] in K. congruence.
      + destruct (Nat.eqb_spec v t) as [->|]; [apply (R BWD)|]. pose proof (FC BWD v Lv) as K. cbn [get] in K. congruence.
    - intros Hch d v Lv K. rewrite (f_ch _ _ _ F) in Hch. rewrite (f_vis _ _ _ F Hch d v Lv) in K. discriminate.
  Qed.

  Lemma connects_snoc l : forall a b c e, connects g a l b -> edge_from_to g e b c -> connects g a (l ++ [e]) c.
  Proof.
    induction l as [|f l IH]; intros a b c e H E; inversion H; subst; cbn [app].
    - econstructor; [exact E|constructor].
    - econstructor; eauto.
  Qed.
  Lemma any_trace st d : ok_state st -> forall fuel v l, got st d v -> trace g (get (dj_preds st) d) d fuel v = Ok l ->
    match d with FWD => connects g s (rev l) v | BWD => connects g v l t end.
  Proof.
    intros H. induction fuel as [|fuel IH]; intros v l G E; cbn [trace] in E; apply bind_ok in E; destruct E as (p & Ep & E);
      apply idx_ok in Ep; destruct p as [e|]; try discriminate.
    1, 3: injection E as <-; destruct G as [_ [->|(e & Ee)]]; [destruct d; constructor|congruence].
    destruct (os_pred _ H d v e (proj1 G) Ep) as (Ev & u & Eu & Gu). rewrite Eu in E. cbn [bind] in E.
    apply bind_ok in E. destruct E as (l' & El & E). injection E as <-. specialize (IH u l' Gu El). destruct d; cbn [opp] in *.
    - cbn [rev]. eapply connects_snoc; [exact IH|]. split; auto.
    - econstructor; [split; [exact Ev|exact Eu]|exact IH].
  Qed.
  (** tracing visits every node once *)
  Lemma trace_same preds d : forall fuel fuel' v l l', trace g preds d fuel v = Ok l -> trace g preds d fuel' v = Ok l' -> l = l'.
  Proof.
    induction fuel as [|fuel IH]; intros [|fuel'] v l l' E E'; cbn [trace] in *; apply bind_ok in E; destruct E as (p & Ep & E);
      rewrite Ep in E'; cbn [bind] in E'; destruct p as [e|]; try discriminate; try congruence.
    apply bind_ok in E. destruct E as (u & Eu & E). rewrite Eu in E'. cbn [bind] in E'.
    apply bind_ok in E. destruct E as (a & Ea & E). apply bind_ok in E'. destruct E' as (b & Eb & E').
    rewrite (IH _ _ _ _ Ea Eb) in E. congruence.
  Qed.
  Lemma any_short st d : ok_state st -> forall fuel v l, got st d v -> trace g (get (dj_preds st) d) d fuel v = Ok l ->
    length l < node_count g.
  Proof.
    intros H fuel v l G E.
    assert (K : forall fuel v l, got st d v -> trace g (get (dj_preds st) d) d fuel v = Ok l ->
      exists vs, length vs = S (length l) /\ NoDup vs /\ forall w, In w vs -> w < node_count g /\
        exists fw lw, trace g (get (dj_preds st) d) d fw w = Ok lw /\ length lw <= length l).
    { clear - H wf. induction fuel as [|fuel IH]; intros v l G E; pose proof E as E0; cbn [trace] in E; apply bind_ok in E; destruct E as (p & Ep & E);
        pose proof (proj1 (idx_ok _ _ _) Ep) as Hp; destruct p as [e|]; try discriminate.
      1, 3: injection E as <-; exists [v]; split; [reflexivity|]; split; [constructor; [intros []|constructor]|];
        intros w [<-|[]]; split; [apply G|]; eexists; exists []; split; [exact E0|apply le_n].
      destruct (os_pred _ H d v e (proj1 G) Hp) as (_ & u & Eu & Gu). rewrite Eu in E. cbn [bind] in E.
      apply bind_ok in E. destruct E as (l' & El & E). injection E as <-.
      destruct (IH u l' Gu El) as (vs & L & N & A). exists (v :: vs). split; [cbn; lia|]. split.
      - constructor; auto. intros Hin. destruct (A v Hin) as (_ & fw & lw & Ew & Lw).
        pose proof (trace_same _ _ _ _ _ _ _ E0 Ew) as <-. cbn in Lw. lia.
      - intros w [<-|Hin]; [split; [apply G|eauto]|]. destruct (A w Hin) as (B & fw & lw & Ew & Lw). split; auto.
        exists fw, lw. split; auto. cbn. lia. }
    destruct (K fuel v l G E) as (vs & L & N & A).
    assert (I : incl vs (seq 0 (node_count g))) by (intros w Hw; apply in_seq; destruct (A w Hw); lia).
    pose proof (NoDup_incl_length N I) as LL. rewrite seq_length in LL. lia.
  Qed.
  Lemma connects_join l : forall a b c l', connects g a l b -> connects g b l' c -> connects g a (l ++ l') c.
  Proof. induction l as [|f l IH]; intros a b c l' H K; inversion H; subst; cbn [app]; auto. econstructor; eauto. Qed.

  Lemma any_query alphas ch pick fuel st0 st' p : fresh g ch st0 ->
    rquery ar g alphas s t pick fuel st0 = Ok (st', Some p) ->
    p_src_idx p = s /\ p_dst_idx p = t /\ node_id g s = Ok (p_src_id p) /\ node_id g t = Ok (p_dst_id p) /\ p_costs p = None /\
    connects g s (p_edges p) t /\ length (p_edges p) + 2 <= 2 * node_count g.
  Proof.
    intros F E. unfold rquery in E. apply bind_ok in E. destruct E as (st1 & E1 & E). apply bind_ok in E. destruct E as ([st2 best] & E2 & E).
    cbn [fst snd] in E. assert (M0 : met st1 None) by (intros ? ? K; discriminate K).
    destruct (any_search _ _ _ _ _ _ _ _ (any_start _ _ _ F E1) M0 E2) as [H M].
    destruct best as [[m b]|]; [|discriminate]. destruct (M m b eq_refl) as [Gf Gb].
    apply bind_ok in E. destruct E as (f & Ef & E). apply bind_ok in E. destruct E as (bl & Eb & E).
    apply bind_ok in E. destruct E as (sid & Es & E). apply bind_ok in E. destruct E as (tid & Et & E). injection E as _ <-. cbn.
    repeat (split; [now auto|]). split.
    2:{ pose proof (any_short _ FWD H _ _ _ Gf Ef). pose proof (any_short _ BWD H _ _ _ Gb Eb). rewrite app_length, rev_length. lia. }
    eapply connects_join; [exact (any_trace _ FWD H _ _ _ Gf Ef)|exact (any_trace _ BWD H _ _ _ Gb Eb)].
  Qed.
End Any.

(** for the queue and for the heap *)
Lemma any_path ar g fuel st rc s t st' p pick :
  ar PInf = PInf -> ar NaN = NaN -> wf_graph g -> rhistory st -> roomy st g -> s < node_count g -> t < node_count g ->
  rcompute_best_path ar pick fuel st g rc s t = Ok (st', Some p) ->
  p_src_idx p = s /\ p_dst_idx p = t /\ node_id g s = Ok (p_src_id p) /\ node_id g t = Ok (p_dst_id p) /\ p_costs p = None /\
  connects g s (p_edges p) t /\ length (p_edges p) + 2 <= 2 * node_count g.
Proof.
  intros A1 A2 W Hh Hr Hs Ht E. rewrite rcompute_split in E. destruct (existsb _ _); [discriminate|].
  apply bind_ok in E. destruct E as (ch & _ & E). apply bind_ok in E. destruct E as (st0 & E0 & E).
  eapply (any_query ar A1 A2 g W s t Hs Ht _ ch); [|exact E].
  rewrite (init_query_spec _ _ _ _ _ (rhistory_clean _ Hh) E0). apply blank_fresh.
  - unfold new_size. destruct (Nat.eqb_spec 2 (node_count g)) as [E2|]; auto. pose proof (Hr (eq_sym E2)). lia.
  - intros ->. reflexivity.
Qed.
Lemma any_path_h ar g fuel st rc s t st' p :
  ar PInf = PInf -> ar NaN = NaN -> wf_graph g -> rhistory_h st -> roomy st g -> s < node_count g -> t < node_count g ->
  rcompute_best_path_h ar fuel st g rc s t = Ok (st', Some p) ->
  p_src_idx p = s /\ p_dst_idx p = t /\ node_id g s = Ok (p_src_id p) /\ node_id g t = Ok (p_dst_id p) /\ p_costs p = None /\
  connects g s (p_edges p) t /\ length (p_edges p) + 2 <= 2 * node_count g.
Proof.
  intros A1 A2 W Hh Hr Hs Ht E. destruct (rp_history st Hh) as (st0 & Hh0 & S0).
  destruct (rp_query ar g rc fuel st0 st s t S0) as (pick & K). rewrite E in K.
  destruct (rcompute_best_path ar pick fuel st0 g rc s t) as [[st1 r]| | |] eqn:E1; cbn [alike fst snd] in K; try contradiction.
  destruct K as [_ ->]. apply (any_path ar g fuel st0 rc s t st1 p pick); auto.
  intros E2. specialize (Hr E2). unfold capacity in *. now rewrite (sm_costs _ _ S0).
Qed.
