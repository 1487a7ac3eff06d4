(** Queries of the search with rounding: on blank arrays, and what the abstract
    runs mean for paths *)
From Coq Require Import String List Bool Arith ZArith QArith Lqa Lia Permutation Sorted.
From Verif Require Import Base F64 Lib ModelUnits ModelConfig ModelGraph ModelBuild ModelDijkstra
  Spec SpecRouting AbsSearch ProofDijkstra ProofRouting PropsRouting ModelRounded SpecRounded AbsRounded ProofRounded.
Import ListNotations.
Open Scope list_scope.
Open Scope nat_scope.

Lemma remeasured_wf g0 g : remeasured g0 g -> wf_graph g0 -> wf_graph g.
Proof.
  intros (ms & mn & Hl & c & ids & im & ->) W. constructor; try apply W.
  intros d e v H. destruct (wg_metrics _ W d e v H) as [m Em]. apply idx_ok in Em.
  assert (Hlt : e < length (metrics g0)) by (apply nth_error_Some; congruence). rewrite <- Hl in Hlt.
  destruct (nth_error ms e) as [x|] eqn:Ex; [|apply nth_error_None in Ex; lia].
  exists x. now apply idx_ok.
Qed.

(** *** without rounding *)
Lemma rfin_id x : rfin (fun q => q) x = x.
Proof. now destruct x. Qed.
Lemma radd_id x y : radd (rfin (fun q => q)) x y = fadd x y.
Proof. apply rfin_id. Qed.
Lemma rdot_from_id al : forall ms acc, rdot_from (rfin (fun q => q)) acc al ms = dot_from acc al ms.
Proof. induction al as [|x al IH]; intros [|y ms] acc; simpl; auto. rewrite IH, radd_id. unfold rmul. now rewrite rfin_id. Qed.
Lemma rrelax_id g al enq c es : forall st, rrelax (rfin (fun q => q)) g al enq c es st = relax g al enq c es st.
Proof.
  induction es as [|e es IH]; intros st; [reflexivity|]. cbn [rrelax relax].
  destruct (dst_idx g (cn_dir c) e) as [v| | |]; cbn [bind]; auto.
  destruct (if dj_ch st then _ else _) as [[]| | |]; cbn [bind]; auto.
  destruct (edge_metrics g e) as [ms| | |]; cbn [bind]; auto.
  unfold rdot, dot_product. rewrite rdot_from_id, radd_id.
  destruct (relax_edge enq (cn_dir c) e v _ st) as [st1| | |]; cbn [bind]; auto.
Qed.
Lemma rtotal_id st c : rtotal_cost (rfin (fun q => q)) st c = total_cost st c.
Proof.
  unfold rtotal_cost, total_cost. destruct (idx (fw (dj_costs st)) _); cbn [bind]; auto.
  destruct (idx (bw (dj_costs st)) _); cbn [bind]; auto. now rewrite radd_id.
Qed.
Lemma riteration_id g al st best c : riteration (rfin (fun q => q)) g al st best c = iteration g al st best c.
Proof.
  unfold riteration, iteration. destruct (has_improved st c) as [b| | |]; cbn [bind]; auto. destruct (negb b); auto.
  destruct (visit st c) as [st1| | |]; cbn [bind]; auto.
  assert (Hm : rmeet (rfin (fun q => q)) st1 best c = meet st1 best c).
  { unfold rmeet, meet. destruct best as [[m x]|]; rewrite rtotal_id; reflexivity. }
  rewrite Hm. destruct (meet st1 best c) as [[b1 over]| | |]; cbn [bind]; auto. destruct over; auto.
  destruct (starting_from g (cn_dir c) (cn_idx c)) as [es| | |]; cbn [bind]; auto. now rewrite rrelax_id.
Qed.
Lemma rsearch_id pick g al fuel : forall k st best, rsearch (rfin (fun q => q)) pick g al fuel k st best = search pick g al fuel k st best.
Proof.
  induction fuel as [|fuel IH]; intros k st best; cbn [rsearch search]; [reflexivity|].
  destruct (dj_queue st) as [|c0 q0]; [reflexivity|].
  destruct (idx _ _) as [c| | |]; cbn [bind]; [|reflexivity|reflexivity|reflexivity]. destruct (has_found _); [reflexivity|]. rewrite riteration_id.
  destruct (iteration g al _ best c) as [[st1 b1]| | |]; cbn [bind fst snd]; [apply IH|reflexivity|reflexivity|reflexivity].
Qed.
Lemma rcompute_id pick fuel st g rc s t :
  rcompute_best_path (rfin (fun q => q)) pick fuel st g rc s t = compute_best_path pick fuel st g rc s t.
Proof.
  unfold rcompute_best_path, compute_best_path. destruct (existsb _ _); [reflexivity|].
  destruct (match rc_algo rc with ADijkstra => _ | _ => _ end) as [ch| | |]; cbn [bind]; [|reflexivity|reflexivity|reflexivity].
  destruct (init_query _ _) as [st0| | |]; cbn [bind]; [|reflexivity|reflexivity|reflexivity].
  destruct (start s t st0) as [st1| | |]; cbn [bind]; [|reflexivity|reflexivity|reflexivity]. now rewrite rsearch_id.
Qed.

Section Arithmetic.
Variable ar : f64 -> f64.

Lemma rcompute_split pick fuel st g rc s t :
  rcompute_best_path ar pick fuel st g rc s t =
  if existsb (fun a => fltb a f0) (rc_alphas rc) then Ok (st, None)
  else
    do ch <- match rc_algo rc with ADijkstra => Ok false | ACHDijkstra => Ok true | AExplorator _ => Panic end;
    do st0 <- init_query (node_count g) (with_ch st ch);
    rquery ar g (rc_alphas rc) s t pick fuel st0.
Proof. reflexivity. Qed.

Lemma rrelax_clean L g alphas enq c es : forall st st', clean L st -> rrelax ar g alphas enq c es st = Ok st' ->
  clean L st' /\ dj_ch st' = dj_ch st.
Proof.
  induction es as [|e es IH]; intros st st' H E; cbn [rrelax] in E; [injection E as <-; auto|].
  apply bind_ok in E. destruct E as (v & _ & E). apply bind_ok in E. destruct E as (down & _ & E).
  destruct down; [injection E as <-; auto|].
  apply bind_ok in E. destruct E as (ms & _ & E). apply bind_ok in E. destruct E as (st1 & E1 & E).
  destruct (relax_edge_clean _ _ _ _ _ _ _ _ H E1) as [H1 C1]. destruct (IH _ _ H1 E) as [H2 C2]. split; [auto|congruence].
Qed.

Lemma riteration_clean L g alphas st best c st' best' : clean L st -> riteration ar g alphas st best c = Ok (st', best') ->
  clean L st' /\ dj_ch st' = dj_ch st.
Proof.
  intros H E. unfold riteration in E. apply bind_ok in E. destruct E as (imp & _ & E).
  destruct imp; cbn [negb] in E; [|injection E as <- _; auto].
  apply bind_ok in E. destruct E as (st1 & E1 & E).
  assert (H1 : clean L st1 /\ dj_ch st1 = dj_ch st).
  { unfold visit in E1. destruct (dj_ch st) eqn:Ec; [injection E1 as <-; auto|].
    apply bind_ok in E1. destruct E1 as (v & _ & E1). injection E1 as <-. split; [constructor; apply H|auto]. }
  destruct H1 as [H1 C1]. apply bind_ok in E. destruct E as ([b1 over] & _ & E). destruct over.
  - injection E as <- _. split; [constructor; apply H1|auto].
  - apply bind_ok in E. destruct E as (es & _ & E). apply bind_ok in E. destruct E as (st2 & E2 & E). injection E as <- _.
    destruct (rrelax_clean _ _ _ _ _ _ _ _ H1 E2). split; [auto|congruence].
Qed.

Lemma rsearch_clean pick L g alphas fuel : forall k st best st' best', clean L st ->
  rsearch ar pick g alphas fuel k st best = Ok (st', best') -> clean L st'.
Proof.
  induction fuel as [|fuel IH]; intros k st best st' best' H E; cbn [rsearch] in E.
  - destruct (dj_queue st); [injection E as <- _; auto|discriminate].
  - destruct (dj_queue st) as [|c0 q0]; [injection E as <- _; auto|].
    apply bind_ok in E. destruct E as (cn & _ & E).
    assert (H0 : forall q, clean L (with_queue st q)) by (intros; constructor; apply H).
    destruct (has_found _); [injection E as <- _; auto|].
    apply bind_ok in E. destruct E as ([st1 b1] & E1 & E). cbn [fst snd] in E.
    eapply IH; [|exact E]. eapply riteration_clean; [apply H0|eauto].
Qed.

Lemma rquery_clean g alphas s t pick fuel L st0 st' r : clean L st0 -> rquery ar g alphas s t pick fuel st0 = Ok (st', r) ->
  clean L st'.
Proof.
  intros H E. unfold rquery in E. apply bind_ok in E. destruct E as (st1 & E1 & E).
  apply bind_ok in E. destruct E as ([st2 b2] & E2 & E). cbn [fst snd] in E.
  destruct (start_clean _ _ _ _ _ H E1) as [H1 _]. pose proof (rsearch_clean _ _ _ _ _ _ _ _ _ _ H1 E2) as H2.
  destruct b2 as [[m b]|]; [|injection E as <- _; auto].
  apply bind_ok in E. destruct E as (f & _ & E). apply bind_ok in E. destruct E as (bb & _ & E).
  apply bind_ok in E. destruct E as (sid & _ & E). apply bind_ok in E. destruct E as (tid & _ & E). now injection E as <- _.
Qed.

End Arithmetic.

Lemma rhistory_clean st : rhistory st -> clean (capacity st) st.
Proof.
  assert (Hcap : forall L st, clean L st -> clean (capacity st) st).
  { intros L st0 H. unfold capacity. pose proof (c_cost _ _ H FWD) as E. simpl in E. now rewrite E. }
  induction 1 as [|ar pick fuel st g rc s t st' r Hh IH E]; [apply clean_new|].
  rewrite rcompute_split in E. destruct (existsb _ _); [now injection E as <- _|].
  apply bind_ok in E. destruct E as (ch & _ & E). apply bind_ok in E. destruct E as (st0 & E0 & E).
  rewrite (init_query_spec _ _ _ _ _ IH E0) in E.
  eapply Hcap. eapply (rquery_clean ar); [|exact E]. apply blank_clean.
Qed.

Section Arithmetic.
Variable ar : f64 -> f64.

Lemma rcompute_ok pick fuel st g rc s t x :
  rhistory st -> roomy st g -> Forall not_negative (rc_alphas rc) ->
  rcompute_best_path ar pick fuel st g rc s t = Ok x ->
  exists st0, fresh g (is_ch (rc_algo rc)) st0 /\ rquery ar g (rc_alphas rc) s t pick fuel st0 = Ok x.
Proof.
  intros Hh Hr Ha E. rewrite rcompute_split in E.
  assert (Hn : existsb (fun a => fltb a f0) (rc_alphas rc) = false).
  { destruct (existsb _ _) eqn:Ex; auto. apply existsb_exists in Ex. destruct Ex as (a & Hin & Hlt).
    rewrite Forall_forall in Ha. apply Ha, not_lt_zero in Hin. congruence. }
  rewrite Hn in E. apply bind_ok in E. destruct E as (ch & Ech & E). apply bind_ok in E. destruct E as (st0 & E0 & E).
  assert (ch = is_ch (rc_algo rc)) by (destruct (rc_algo rc); inversion Ech; auto). subst ch.
  exists st0. split; auto. rewrite (init_query_spec _ _ _ _ _ (rhistory_clean _ Hh) E0). apply blank_fresh.
  - unfold new_size. destruct (Nat.eqb_spec 2 (node_count g)) as [E2|]; auto.
    pose proof (Hr (eq_sym E2)). lia.
  - intros ->. reflexivity.
Qed.

Lemma rcompute_prepared pick fuel st g rc s t :
  rhistory st -> roomy st g -> (node_count g <> 2 -> capacity st <= node_count g) ->
  Forall not_negative (rc_alphas rc) -> (forall i, rc_algo rc <> AExplorator i) ->
  exists st0, fresh g (is_ch (rc_algo rc)) st0 /\
    rcompute_best_path ar pick fuel st g rc s t = rquery ar g (rc_alphas rc) s t pick fuel st0.
Proof.
  intros Hh Hr Hcap Ha Hal. pose proof (rhistory_clean _ Hh) as Hc. rewrite rcompute_split.
  assert (Hn : existsb (fun a => fltb a f0) (rc_alphas rc) = false).
  { destruct (existsb _ _) eqn:Ex; auto. apply existsb_exists in Ex. destruct Ex as (a & Hin & Hlt).
    rewrite Forall_forall in Ha. apply Ha, not_lt_zero in Hin. congruence. }
  rewrite Hn.
  assert (Hx : match rc_algo rc with ADijkstra => Ok false | ACHDijkstra => Ok true | AExplorator _ => Panic end
               = Ok (is_ch (rc_algo rc))).
  { destruct (rc_algo rc) eqn:Er; auto. now destruct (Hal inner_ch). }
  rewrite Hx. cbn [bind].
  destruct (init_query_total (capacity st) (node_count g) (is_ch (rc_algo rc)) st Hc) as (st0 & E0).
  { intros d v Hv. pose proof (c_touch _ _ Hc d v Hv). unfold new_size.
    destruct (Nat.eqb_spec 2 (node_count g)); [lia|]. assert (capacity st <= node_count g) by (apply Hcap; lia). lia. }
  rewrite E0. cbn [bind]. exists st0. split; auto. rewrite (init_query_spec _ _ _ _ _ Hc E0). apply blank_fresh.
  - unfold new_size. destruct (Nat.eqb_spec 2 (node_count g)) as [E2|]; auto. pose proof (Hr (eq_sym E2)). lia.
  - intros ->. reflexivity.
Qed.

Lemma rcompute_diverge pick fuel st g rc s t :
  rhistory st -> roomy st g -> rcompute_best_path ar pick fuel st g rc s t = Diverge ->
  Forall not_negative (rc_alphas rc) /\
  exists st0, fresh g (is_ch (rc_algo rc)) st0 /\ rquery ar g (rc_alphas rc) s t pick fuel st0 = Diverge.
Proof.
  intros Hh Hr. pose proof (rhistory_clean _ Hh) as Hc. rewrite rcompute_split.
  destruct (existsb _ _) eqn:Ex; [discriminate|]. intros Ed. split.
  { apply Forall_forall. intros a Hin. destruct (fltb a f0) eqn:El; [|now apply not_lt_zero].
    assert (existsb (fun a => fltb a f0) (rc_alphas rc) = true) by (apply existsb_exists; eauto). congruence. }
  revert Ed. set (x := match rc_algo rc with ADijkstra => Ok false | ACHDijkstra => Ok true | AExplorator _ => Panic end).
  assert (Hx : x = Ok (is_ch (rc_algo rc)) \/ x = Panic) by (unfold x; destruct (rc_algo rc); auto).
  destruct Hx as [->| ->]; cbn [bind]; [|discriminate].
  destruct (init_query (node_count g) (with_ch st (is_ch (rc_algo rc)))) as [st0| | |] eqn:E0; cbn [bind]; try discriminate.
  - intros Hd. exists st0. split; auto. rewrite (init_query_spec _ _ _ _ _ Hc E0). apply blank_fresh.
    + unfold new_size. destruct (Nat.eqb_spec 2 (node_count g)) as [E2|]; auto. pose proof (Hr (eq_sym E2)). lia.
    + intros ->. reflexivity.
  - exfalso. revert E0. apply init_query_no_diverge.
Qed.


Lemma ralphas_of_some pick fuel st g rc s t st' p :
  rcompute_best_path ar pick fuel st g rc s t = Ok (st', Some p) -> Forall not_negative (rc_alphas rc).
Proof.
  intros E. rewrite rcompute_split in E. destruct (existsb _ _) eqn:Ex; [discriminate|].
  apply Forall_forall. intros a Ha. apply not_lt_zero. destruct (fltb a f0) eqn:El; auto.
  assert (existsb (fun a => fltb a f0) (rc_alphas rc) = true) by (apply existsb_exists; eauto). congruence.
Qed.

End Arithmetic.

Section Run.
Variable rnd : Q -> Q.
Variables u eta : Q.
Hypothesis R : rounding u eta rnd.
Section Graph.
Variables (g : graph) (rc : routing_cfg) (s t : nat).
Hypothesis wf : wf_graph g.
Hypothesis nonneg : nonneg_metrics g.
Hypothesis s_lt : s < node_count g.
Hypothesis t_lt : t < node_count g.
Hypothesis Ha : Forall not_negative (rc_alphas rc).
Notation al := (rc_alphas rc).
Notation ch := (is_ch (rc_algo rc)).
Notation m := (length (rc_alphas rc)).
Notation X := (ext rnd g al).
Notation T := (tot rnd).

Lemma rcompute_run pick (P : list entry -> nat -> Q -> dir -> list entry -> Prop) fuel st st' r :
  rhistory st -> roomy st g -> valid_pick pick -> (forall q v c d q', P q v c d q' -> pops q v c d q') ->
  (forall k q v c d,
      nth_error q (pick k (map conc q)) = Some (v, c, d) -> P q v c d (remove_nth (pick k (map conc q)) q)) ->
  rcompute_best_path (rfin rnd) pick fuel st g rc s t = Ok (st', r) ->
  exists a, arun (adj g al ch) (tgt g) X T ch P (init (root s t)) a /\ answer_of g al ch s t a r.
Proof.
  intros Hh Hr Hv HP Hpk Ec.
  destruct (rcompute_ok _ _ _ _ _ _ _ _ _ Hh Hr Ha Ec) as (st0 & Hf & Eq).
  destruct (rquery_sim u eta rnd R g al ch s t wf nonneg Ha s_lt t_lt pick P fuel st0 Hv HP Hpk Hf)
    as [(st1 & r1 & a & E1 & Hrun & Hans)|[(E1 & _)|(E1 & _)]]; [|congruence|congruence].
  rewrite Eq in E1. injection E1 as <- <-. eauto.
Qed.

Lemma r_found (P : list entry -> nat -> Q -> dir -> list entry -> Prop) a x lf lb :
  (forall q v c d q', P q v c d q' -> pops q v c d q') ->
  arun (adj g al ch) (tgt g) X T ch P (init (root s t)) a ->
  walk (adj g al ch) (tgt g) (root s t) FWD x lf -> walk (adj g al ch) (tgt g) (root s t) BWD x lb -> bst a <> None.
Proof.
  intros HP. apply (AbsRounded.run_found _ _ _ _ _ _ (ok rnd) (ok_eq _ _ _ R) (ok_0 _ _ _ R) (ext_ok _ _ _ R g al ch)
    (ext_mono _ _ _ R g al ch) (ext_up _ _ _ R g al ch s t wf nonneg Ha s_lt t_lt) (tot_mono _ _ _ R)
    (adj_near g al ch s t wf s_lt t_lt) P HP a x lf lb).
Qed.

Lemma near_at k a x : near u eta (depth m k) (operations m k) a x -> (at_least u eta m k a <= x /\ x <= at_most u eta m k a)%Q.
Proof. intros (A & B & C). unfold at_least, at_most. split; lra. Qed.

(** the chains of the answer *)
Lemma r_answer (P : list entry -> nat -> Q -> dir -> list entry -> Prop) a mid b p :
  (forall q v c d q', P q v c d q' -> pops q v c d q') ->
  arun (adj g al ch) (tgt g) X T ch P (init (root s t)) a ->
  bst a = Some (mid, b) -> answer_of g al ch s t a (Some p) ->
  connects g s (p_edges p) t /\ (rc_algo rc = ACHDijkstra -> up_down g (p_edges p)) /\
  p_src_idx p = s /\ p_dst_idx p = t /\ node_id g s = Ok (p_src_id p) /\ node_id g t = Ok (p_dst_id p) /\ p_costs p = None /\
  exists q, costs_as g al (p_edges p) q /\ (at_least u eta m (length (p_edges p)) q <= b)%Q.
Proof.
  intros HP Hrun Eb Hans. unfold answer_of in Hans. rewrite Eb in Hans.
  destruct Hans as (lf & lb & sid & tid & Cf & Cb & Wf & Wb & Es & Et & Hp). injection Hp as ->.
  cbn [path_new p_src_idx p_dst_idx p_src_id p_dst_id p_edges p_costs].
  destruct (walk_fwd _ _ _ _ _ wf s_lt t_lt mid lf Wf) as (A1 & A2 & A3).
  destruct (walk_bwd _ _ _ _ _ wf s_lt t_lt mid lb Wb) as (B1 & B2 & B3).
  split; [eapply connects_app; eauto|]. split.
  { intros Hch. rewrite Hch in *. exists lf, (rev lb). auto. }
  repeat (split; [now auto|]).
  destruct (costs_of g al (lf ++ rev lb)) as (q & Hq & Hsum).
  { intros e He. apply in_app_or in He. destruct He; auto. }
  exists q. split; [auto|].
  destruct (AbsRounded.run_path _ _ _ _ _ _ (ok rnd) (ok_eq _ _ _ R) (ok_0 _ _ _ R) (ext_ok _ _ _ R g al ch)
    (ext_mono _ _ _ R g al ch) (ext_up _ _ _ R g al ch s t wf nonneg Ha s_lt t_lt) (tot_mono _ _ _ R)
    (adj_near g al ch s t wf s_lt t_lt) P HP a mid b Hrun Eb) as (lf' & lb' & Cf' & Cb' & _ & _ & Hb).
  rewrite (chain_det _ _ _ _ _ _ _ Cf' _ Cf), (chain_det _ _ _ _ _ _ _ Cb' _ Cb) in Hb.
  pose proof (tot_near u eta rnd R g al ch s t wf nonneg Ha s_lt t_lt mid mid lf lb Wf Wb) as Hn.
  apply near_at in Hn. rewrite app_length, rev_length.
  assert (Hq' : (q == sumw (wq g al) lf + sumw (wq g al) lb)%Q) by (rewrite Hsum, sumw_app, sumw_rev; reflexivity).
  destruct Hn as [Hn _]. unfold at_least in *. rewrite Hq'. lra.
Qed.

Lemma r_plain a delta : rc_algo rc = ADijkstra -> (0 <= delta)%Q ->
  arun (adj g al ch) (tgt g) X T ch (near_min delta) (init (root s t)) a ->
  forall l q, connects g s l t -> costs_as g al l q ->
  exists mid b, bst a = Some (mid, b) /\ (b <= rho u * at_most u eta m (length l) q + sigma u eta delta)%Q.
Proof.
  intros Hal Hd Hrun l q Hl Hq. rewrite Hal in *. cbn [is_ch] in *.
  destruct (costs_sumw _ _ _ _ Hq) as [Hfin Hqs].
  apply (AbsRounded.run_plain_optimal _ _ _ _ _ _ (ok rnd) (ok_eq _ _ _ R) (ok_0 _ _ _ R) (ext_ok _ _ _ R g al false)
    (ext_mono _ _ _ R g al false) (ext_up _ _ _ R g al false s t wf nonneg Ha s_lt t_lt) (tot_mono _ _ _ R)
    (tot_comm _ _ _ R) (tot_up _ _ _ R)
    (adj_near g al false s t wf s_lt t_lt) delta Hd eq_refl (adj_mirror g al false s t wf s_lt t_lt eq_refl) l
    (splits_of g al s t l wf s_lt t_lt Hl Hfin) (at_most u eta m (length l) q) (rho u) (sigma u eta delta)); auto.
  - intros l1 l2 El. destruct (splits_of g al s t l wf s_lt t_lt Hl Hfin l1 l2 El) as (x & W1 & W2).
    pose proof (tot_near u eta rnd R g al false s t wf nonneg Ha s_lt t_lt x x _ _ W1 W2) as Hn.
    rewrite rev_length, <- app_length, <- El in Hn. apply near_at in Hn. destruct Hn as [_ Hn].
    assert (Hq' : (q == sumw (wq g al) l1 + sumw (wq g al) (rev l2))%Q) by (rewrite Hqs, El, sumw_app, sumw_rev; reflexivity).
    unfold at_most in *. rewrite Hq'. exact Hn.
  - exact (rho_1 _ _ _ R).
  - exact (sigma_delta _ _ _ R delta Hd).
  - intros d v e c x. exact (swap u eta rnd R g al false s t wf nonneg Ha s_lt t_lt delta d v e c x Hd).
  - intros x y. exact (slack u eta rnd R delta x y Hd).
Qed.

Lemma r_ch a delta : rc_algo rc = ACHDijkstra -> (0 <= delta)%Q ->
  arun (adj g al ch) (tgt g) X T ch (near_min delta) (init (root s t)) a ->
  forall l q, connects g s l t -> costs_as g al l q -> up_down g l ->
  exists mid b, bst a = Some (mid, b) /\ (b <= at_most u eta m (length l) q + delta)%Q.
Proof.
  intros Hal Hd Hrun l q Hl Hq Hud. rewrite Hal in *. cbn [is_ch] in *.
  destruct (costs_sumw _ _ _ _ Hq) as [Hfin Hqs].
  destruct (up_down_walks g al s t l wf s_lt t_lt Hl Hfin Hud) as (x & l1 & l2 & El & W1 & W2).
  destruct (AbsRounded.run_ch_optimal _ _ _ _ _ _ (ok rnd) (ok_eq _ _ _ R) (ok_0 _ _ _ R) (ext_ok _ _ _ R g al true)
    (ext_mono _ _ _ R g al true) (ext_up _ _ _ R g al true s t wf nonneg Ha s_lt t_lt) (tot_mono _ _ _ R)
    (tot_comm _ _ _ R) (tot_up _ _ _ R)
    (adj_near g al true s t wf s_lt t_lt) delta Hd a x l1 (rev l2) eq_refl Hrun W1 W2) as (mid & b & Eb & Hle).
  exists mid, b. split; [auto|].
  pose proof (tot_near u eta rnd R g al true s t wf nonneg Ha s_lt t_lt x x _ _ W1 W2) as Hn.
  rewrite rev_length, <- app_length, <- El in Hn. apply near_at in Hn. destruct Hn as [_ Hn].
  assert (Hq' : (q == sumw (wq g al) l1 + sumw (wq g al) (rev l2))%Q) by (rewrite Hqs, El, sumw_app, sumw_rev; reflexivity).
  unfold at_most in *. rewrite Hq'. lra.
Qed.

Lemma rquery_terminates pick fuel st0 :
  valid_pick pick -> fresh g ch st0 -> 2 + 2 * powers (edge_count g FWD) (node_count g) <= fuel ->
  rquery (rfin rnd) g al s t pick fuel st0 <> Diverge.
Proof.
  intros Hv Hf Hfuel Hd.
  destruct (rquery_sim u eta rnd R g al ch s t wf nonneg Ha s_lt t_lt pick pops fuel st0 Hv (fun _ _ _ _ _ H => H) (fun k q v c d => pops_pick pick k q v c d) Hf)
    as [(st1 & r1 & a & E1 & _)|[(_ & [(a & Hst & Hq)|[Hn Hm]])|(E1 & _)]]; [congruence| | |congruence].
  - pose proof (AbsRounded.asteps_bound _ _ _ _ ch (root s t) (ok rnd) (ok_eq _ _ _ R) (ok_0 _ _ _ R) (ext_ok _ _ _ R g al ch)
                  (ext_mono _ _ _ R g al ch) (ext_up _ _ _ R g al ch s t wf nonneg Ha s_lt t_lt) (tot_mono _ _ _ R)
                  (adj_near g al ch s t wf s_lt t_lt) pops
                  (node_count g) (edge_count g FWD) fuel a (fun _ _ _ _ _ H => H)
                  (adj_bound g al ch s t wf s_lt t_lt)) as Hb.
    assert (fuel + length (que a) <= steps_bound (node_count g) (edge_count g FWD)) by (apply Hb; [intros []; auto|auto]).
    unfold steps_bound in H. rewrite powers_lists in H. destruct (que a); [congruence|simpl in H; lia].
  - destruct (edge_count g FWD) eqn:Em; [lia|]. pose proof (powers_ge (S n) (node_count g) ltac:(lia)). lia.
Qed.
End Graph.
End Run.
