(** Where nothing overflows, the search with overflow is the one without *)
From Coq Require Import String List Bool Arith ZArith QArith Lqa Lia Permutation Sorted.
From Verif Require Import Base F64 Lib ModelUnits ModelConfig ModelGraph ModelBuild ModelDijkstra
  Spec SpecRouting AbsSearch ProofDijkstra ProofPaths ProofRouting ModelRounded SpecRounded AbsRounded ProofRounded ProofRoundedRun.
Import ListNotations.
Open Scope nat_scope.

Lemma fadd_fin x y q : fadd x y = Fin q -> exists a b, x = Fin a /\ y = Fin b /\ q = (a + b)%Q.
Proof. destruct x, y; simpl; intros E; try discriminate. injection E as <-. eauto. Qed.
Lemma fmul_fin x y q : fmul x y = Fin q -> exists a b, x = Fin a /\ y = Fin b /\ q = (a * b)%Q.
Proof.
  destruct x as [a| | |], y as [b| | |]; cbn [fmul fsign]; intros E; try discriminate;
    try (unfold inf_signed in E; destruct (qsign _) in E; discriminate);
    try (destruct (qsign _) in E; discriminate).
  injection E as <-. eauto.
Qed.

Section Overflow.
  Variables (u eta : Q) (rnd : Q -> Q).
  Hypothesis R : rounding u eta rnd.
  Variable top : Q.
  Hypothesis top_pos : (0 <= top)%Q.
  Notation AO := (ofin rnd top).
  Notation AF := (rfin rnd).

  Lemma ofin_small q : (0 <= q)%Q -> (rnd q <= top)%Q -> AO (Fin q) = Fin (rnd q).
  Proof.
    intros H0 H. pose proof (rnd_nonneg _ _ _ R _ H0). cbn [ofin].
    assert (E1 : Qle_bool (rnd q) top = true) by now apply Qle_bool_iff.
    assert (E2 : Qle_bool (- top) (rnd q) = true) by (apply Qle_bool_iff; lra). now rewrite E1, E2.
  Qed.
  Lemma ofin_fin x q : AO x = Fin q -> exists q', x = Fin q'.
  Proof. destruct x; simpl; intros E; try discriminate. eauto. Qed.
  Lemma rfin_fin x q : AF x = Fin q -> exists q', x = Fin q' /\ q = rnd q'.
  Proof. destruct x; simpl; intros E; try discriminate. injection E as <-. eauto. Qed.
  Lemma ofin_nn x : not_negative x -> not_negative (AO x).
  Proof.
    destruct x as [q| | |]; simpl; auto. intros H0. pose proof (rnd_nonneg _ _ _ R _ H0).
    destruct (Qle_bool (rnd q) top); simpl; auto.
    assert (E2 : Qle_bool (- top) (rnd q) = true) by (apply Qle_bool_iff; lra). rewrite E2. auto.
  Qed.

  (** *** Weights *)
  Lemma rdot_acc al : forall ms acc r, rdot_from AF acc al ms = Fin r -> exists a, acc = Fin a.
  Proof.
    induction al as [|x al IH]; intros [|y ms] acc r E; simpl in E; eauto.
    apply IH in E. destruct E as [a E]. apply rfin_fin in E. destruct E as (q' & E & _).
    apply fadd_fin in E. destruct E as (a' & _ & -> & _). eauto.
  Qed.
  Lemma rdot_fits al : forall ms acc r, Forall not_negative al -> Forall not_negative ms ->
    (0 <= acc)%Q -> (rnd acc == acc)%Q -> rdot_from AF (Fin acc) al ms = Fin r ->
    (acc <= r)%Q /\ (rnd r == r)%Q /\ ((r <= top)%Q -> rdot_from AO (Fin acc) al ms = Fin r).
  Proof.
    induction al as [|x al IH]; intros [|y ms] acc r Ha Hm H0 Hok E; simpl in E;
      try (injection E as <-; split; [apply Qle_refl|split; [exact Hok|reflexivity]]).
    destruct (rdot_acc _ _ _ _ E) as [a' Ea]. apply rfin_fin in Ea. destruct Ea as (q & Eq & ->).
    apply fadd_fin in Eq. destruct Eq as (a1 & p & Ea1 & Ep & ->). injection Ea1 as <-.
    apply rfin_fin in Ep. destruct Ep as (p' & Ep & ->). apply fmul_fin in Ep. destruct Ep as (a & b & -> & -> & ->).
    inversion Ha as [|? ? Hx Ha']; subst. inversion Hm as [|? ? Hy Hm']; subst. simpl in Hx, Hy.
    assert (Hp : (0 <= a * b)%Q) by now apply Qmult_le_0_compat.
    pose proof (rnd_nonneg _ _ _ R _ Hp) as Hp0.
    assert (Hs : (0 <= acc + rnd (a * b))%Q) by lra. pose proof (rnd_nonneg _ _ _ R _ Hs) as Hs0.
    cbn [radd rmul fmul rfin fadd] in E. unfold radd, rmul in E. cbn [fmul rfin fadd] in E.
    destruct (IH ms _ r Ha' Hm' Hs0 (r_idem _ _ _ R _) E) as (A & A' & B).
    assert (C : (acc <= rnd (acc + rnd (a * b)))%Q).
    { assert (H : (acc <= acc + rnd (a * b))%Q) by lra. apply (r_mono _ _ _ R) in H. lra. }
    assert (D : (rnd (a * b) <= rnd (acc + rnd (a * b)))%Q).
    { assert (H : (rnd (a * b) <= acc + rnd (a * b))%Q) by lra. apply (r_mono _ _ _ R) in H.
      pose proof (r_idem _ _ _ R (a * b)). lra. }
    split; [lra|]. split; [exact A'|]. intros Ht. simpl. unfold radd, rmul. cbn [fmul].
    rewrite (ofin_small (a * b)) by lra. cbn [fadd]. rewrite (ofin_small (acc + rnd (a * b))) by lra. now apply B.
  Qed.
  (** what isn't finite stays so *)
  Lemma odot_fin al : forall ms acc acc' r, rdot_from AO acc al ms = Fin r -> (exists a, acc' = Fin a) ->
    exists r', rdot_from AF acc' al ms = Fin r'.
  Proof.
    assert (Hacc : forall al ms acc r, rdot_from AO acc al ms = Fin r -> exists a, acc = Fin a).
    { clear. induction al as [|x al IH]; intros [|y ms] acc r E; simpl in E; eauto.
      apply IH in E. destruct E as [a E]. apply ofin_fin in E. destruct E as (q' & E).
      apply fadd_fin in E. destruct E as (a' & _ & -> & _). eauto. }
    induction al as [|x al IH]; intros [|y ms] acc acc' r E [a' ->]; simpl in E |- *; eauto.
    destruct (Hacc _ _ _ _ E) as [a Ea]. apply ofin_fin in Ea. destruct Ea as (q & Eq).
    apply fadd_fin in Eq. destruct Eq as (a1 & p & _ & Ep & _).
    apply ofin_fin in Ep. destruct Ep as (p' & Ep). apply fmul_fin in Ep. destruct Ep as (b & c & -> & -> & _).
    eapply IH; [exact E|]. unfold radd, rmul. simpl. eauto.
  Qed.
  Lemma odot_nn al : forall ms acc, Forall not_negative al -> Forall not_negative ms -> not_negative acc ->
    not_negative (rdot_from AO acc al ms).
  Proof.
    induction al as [|x al IH]; intros [|y ms] acc Ha Hm H0; simpl; auto.
    inversion Ha; subst. inversion Hm; subst. apply IH; auto. apply ofin_nn.
    assert (Hz : not_negative (rmul AO x y)) by (apply ofin_nn; now apply fmul_not_negative).
    destruct acc as [a| | |], (rmul AO x y) as [b| | |]; simpl in *; auto. lra.
  Qed.

  Variables (g : graph) (alphas : list f64) (ch : bool) (s t : nat).
  Hypothesis wf : wf_graph g.
  Hypothesis nonneg : nonneg_metrics g.
  Hypothesis alphas_ok : Forall not_negative alphas.
  Hypothesis s_lt : s < node_count g.
  Hypothesis t_lt : t < node_count g.
  Notation adj := (ProofDijkstra.adj g alphas ch).
  Notation tgt := (ProofDijkstra.tgt g).
  Notation root := (ProofDijkstra.root s t).
  Notation usable := (ProofDijkstra.usable g alphas ch).
  Notation finite := (ProofDijkstra.finite g alphas).
  Notation level := (ProofDijkstra.level g).
  Notation X := (ext rnd g alphas).
  Notation T := (tot rnd).
  Notation walkg := (walk adj tgt root).
  Notation simg := (sim g ch).
  Notation invg := (inv adj tgt X T root).

  (** what the search can come across is small *)
  Hypothesis fits : forall v v' lf lb, walkg FWD v lf -> walkg BWD v' lb ->
    length lf <= node_count g -> length lb <= node_count g -> (T (val X FWD lf) (val X BWD lb) <= top)%Q.

  Lemma val_fits d v l : walkg d v l -> length l <= node_count g -> (val X d l <= top)%Q.
  Proof.
    intros W L. pose proof (val_near u eta rnd R g alphas ch s t wf nonneg alphas_ok s_lt t_lt _ _ _ W) as [_ Z].
    pose proof (walk_val adj tgt X root (ok rnd) (ok_0 _ _ _ R) (ext_ok _ _ _ R g alphas ch)
      (ext_up _ _ _ R g alphas ch s t wf nonneg alphas_ok s_lt t_lt) _ _ _ W) as [K _].
    pose proof (tot_up _ _ _ R (val X d l) 0 K Z ltac:(lra)) as H.
    destruct d.
    - pose proof (fits _ _ _ [] W (walk_nil adj tgt root BWD) L ltac:(simpl; lia)) as B. change (val X BWD []) with 0%Q in B. lra.
    - pose proof (fits _ _ [] _ (walk_nil adj tgt root FWD) W ltac:(simpl; lia) L) as B. change (val X FWD []) with 0%Q in B.
      pose proof (tot_comm _ _ _ R (val X BWD l) 0). lra.
  Qed.
  Lemma hst_short a d v c : invg a -> lab a d v = Some c -> S (length (hst a d v)) <= node_count g.
  Proof.
    intros Hi E. destruct (i_simple _ _ _ _ _ _ Hi d v c E) as (ns & N1 & N2 & N3). rewrite <- N2.
    rewrite <- (seq_length (node_count g) 0). apply NoDup_incl_length; auto. intros x Hx.
    destruct (N3 x Hx) as (l1 & l2 & _ & W). apply in_seq. split; [lia|]. cbn.
    destruct W as [|y l e _ He]; [destruct d; auto|]. apply (ProofDijkstra.adj_bound g alphas ch s t wf s_lt t_lt _ _ _ He).
  Qed.

  (** the weight of an edge *)
  Definition oweight (e : nat) : f64 := match edge_metrics g e with Ok ms => rdot AO alphas ms | _ => NaN end.
  Lemma oweight_small e : finite e = true -> (wr rnd g alphas e <= top)%Q -> oweight e = rweight rnd g alphas e.
  Proof.
    intros Hf Ht. destruct (proj1 (proj2 (rweight_shape rnd g alphas nonneg alphas_ok e)) Hf) as [r Er].
    unfold wr in Ht. rewrite Er in *. unfold oweight. unfold rweight in Er. destruct (edge_metrics g e) as [ms| | |] eqn:Em; try discriminate.
    refine (proj2 (proj2 (rdot_fits alphas ms 0 r alphas_ok _ _ _ Er)) Ht); [|lra|exact (r_zero _ _ _ R)].
    apply Forall_forall. intros x. now apply (nonneg e ms).
  Qed.
  Lemma wr_ok e : finite e = true -> (rnd (wr rnd g alphas e) == wr rnd g alphas e)%Q.
  Proof.
    intros Hf. destruct (proj1 (proj2 (rweight_shape rnd g alphas nonneg alphas_ok e)) Hf) as [r Er].
    unfold wr. rewrite Er. unfold rweight in Er. destruct (edge_metrics g e) as [ms| | |] eqn:Em; try discriminate.
    refine (proj1 (proj2 (rdot_fits alphas ms 0 r alphas_ok _ _ _ Er))); [|lra|exact (r_zero _ _ _ R)].
    apply Forall_forall. intros x. now apply (nonneg e ms).
  Qed.
  Lemma oweight_shape e : finite e = false -> oweight e = PInf \/ oweight e = NaN.
  Proof.
    intros Hf. unfold oweight. destruct (edge_metrics g e) as [ms| | |] eqn:Em; auto.
    destruct (rdot AO alphas ms) as [q| | |] eqn:Er; auto; exfalso.
    - destruct (odot_fin _ _ _ f0 _ Er) as [r' Er']; [unfold f0; eauto|].
      assert (E : rweight rnd g alphas e = Fin r') by (unfold rweight; now rewrite Em).
      apply (proj1 (rweight_shape rnd g alphas nonneg alphas_ok e)) in E. congruence.
    - assert (H : not_negative (rdot AO alphas ms)).
      { apply odot_nn; auto; [|simpl; lra]. apply Forall_forall. intros x. now apply (nonneg e ms). }
      rewrite Er in H. exact H.
  Qed.

  (** relaxing an edge *)
  Definition small (d : dir) (v0 : nat) (c : Q) : Prop :=
    (0 <= c)%Q /\ (rnd c == c)%Q /\ forall e, In e (adj d v0) -> (X d e c <= top)%Q.
  Lemma relax_same d v0 c e enq x st : v0 < node_count g -> dst_idx g (opp d) e = Ok v0 ->
    ch && (level (tgt d e) <? level v0) = false -> small d v0 c ->
    relax_edge enq d e x (radd AO (Fin c) (oweight e)) st = relax_edge enq d e x (radd AF (Fin c) (rweight rnd g alphas e)) st.
  Proof.
    intros Hv He Hdown (H0 & Hok & Hsm). destruct (finite e) eqn:Ef.
    - assert (Ha : In e (adj d v0)).
      { apply (ProofDijkstra.adj_in g alphas ch s t wf s_lt t_lt). split; [auto|]. split; [auto|].
        unfold ProofDijkstra.usable. now rewrite Ef, Hdown. }
      specialize (Hsm e Ha). unfold ext in Hsm.
      destruct (wr_near u eta rnd R g alphas s t nonneg alphas_ok s_lt t_lt e Ef) as [_ Hw].
      assert (Hr : (rnd (wr rnd g alphas e) == wr rnd g alphas e)%Q) by (now apply wr_ok).
      assert (Hle : (wr rnd g alphas e <= top)%Q).
      { assert (H : (wr rnd g alphas e <= c + wr rnd g alphas e)%Q) by lra. apply (r_mono _ _ _ R) in H. lra. }
      rewrite (oweight_small e Ef Hle).
      destruct (proj1 (proj2 (rweight_shape rnd g alphas nonneg alphas_ok e)) Ef) as [r Er].
      unfold wr in *. rewrite Er in *. unfold radd. cbn [fadd]. rewrite ofin_small; [reflexivity|lra|auto].
    - destruct (oweight_shape e Ef) as [-> | ->];
        (assert (Hr : rweight rnd g alphas e = PInf \/ rweight rnd g alphas e = NaN);
         [destruct (rweight_shape rnd g alphas nonneg alphas_ok e) as (A & _ & B);
          destruct (rweight rnd g alphas e) as [q| | |]; auto; [rewrite (A q eq_refl) in Ef; discriminate|now destruct B]|]);
        destruct Hr as [-> | ->]; unfold radd, relax_edge; cbn [fadd ofin rfin];
        destruct (idx (get (dj_costs st) d) x) as [[]| | |]; reflexivity.
  Qed.
  Lemma rrelax_same d v0 c enq es : v0 < node_count g -> small d v0 c ->
    (forall e, In e es -> dst_idx g (opp d) e = Ok v0) -> forall st, dj_ch st = ch ->
    rrelax AO g alphas enq {| cn_idx := v0; cn_cost := Fin c; cn_dir := d |} es st =
    rrelax AF g alphas enq {| cn_idx := v0; cn_cost := Fin c; cn_dir := d |} es st.
  Proof.
    intros Hv Hsm. induction es as [|e es IH]; intros Hes st Hch; [reflexivity|].
    cbn [rrelax cn_dir cn_idx cn_cost]. pose proof (Hes e (or_introl eq_refl)) as He.
    destruct (wg_dst _ wf _ _ _ He) as [_ [x Hx]]. rewrite opp_opp in Hx. rewrite Hx. cbn [bind].
    destruct (wg_dst _ wf _ _ _ Hx) as [Hxn _].
    assert (Htg : tgt d e = x) by (unfold ProofDijkstra.tgt; now rewrite Hx).
    assert (Hlev : forall v, v < node_count g -> node_level g v = Ok (level v)).
    { intros v Hvv. unfold ProofDijkstra.level, node_level. destruct (idx_lt (node_levels g) v) as [l ->]; auto.
      now rewrite (wg_levels _ wf). }
    assert (Hdown : (if dj_ch st then do lu <- node_level g v0; do lv <- node_level g x; Ok (lv <? lu) else Ok false)
                    = Ok (ch && (level x <? level v0))).
    { rewrite Hch. destruct ch; auto. rewrite (Hlev v0 Hv), (Hlev x Hxn). reflexivity. }
    rewrite Hdown. cbn [bind]. destruct (ch && (level x <? level v0)) eqn:Ed; [reflexivity|].
    destruct (wg_metrics _ wf _ _ _ He) as [ms Hms]. rewrite Hms. cbn [bind].
    assert (Ew : rdot AO alphas ms = oweight e) by (unfold oweight; now rewrite Hms).
    assert (Ew' : rdot AF alphas ms = rweight rnd g alphas e) by (unfold rweight; now rewrite Hms).
    rewrite Ew, Ew', (relax_same d v0 c e enq x st Hv He) by (rewrite ?Htg; auto).
    destruct (relax_edge enq d e x _ st) as [st1| | |] eqn:E1; cbn [bind]; auto.
    apply IH; [intros; apply Hes; now right|]. rewrite <- Hch. unfold relax_edge in E1. apply bind_ok in E1. destruct E1 as (old & _ & E1).
    destruct (fltb _ old); [|injection E1 as <-; auto].
    apply bind_ok in E1. destruct E1 as (ps & _ & E1). apply bind_ok in E1. destruct E1 as (cs & _ & E1).
    injection E1 as <-. reflexivity.
  Qed.

  (** one iteration *)
  Lemma small_popped a d v c : invg a -> (exists cl, lab a d v = Some cl /\ (cl == c)%Q) -> small d v c.
  Proof.
    intros Hi (cl & El & Hc). destruct (i_lab _ _ _ _ _ _ Hi d v cl El) as [W Hv].
    pose proof (walk_val adj tgt X root (ok rnd) (ok_0 _ _ _ R) (ext_ok _ _ _ R g alphas ch)
      (ext_up _ _ _ R g alphas ch s t wf nonneg alphas_ok s_lt t_lt) _ _ _ W) as [K Z].
    assert (Hvc : (val X d (hst a d v) == c)%Q) by (rewrite Hv; exact Hc).
    split; [lra|]. split; [exact (ok_eq _ _ _ R _ _ Hvc K)|]. intros e He.
    pose proof (hst_short a d v cl Hi El) as Hs.
    pose proof (val_fits d _ _ (walk_step adj tgt root d v _ e W He)) as B. rewrite app_length in B. cbn [length] in B.
    rewrite val_snoc in B. assert (Hb := B ltac:(lia)).
    pose proof (ext_mono _ _ _ R g alphas ch d v e c (val X d (hst a d v)) He ltac:(lra)). lra.
  Qed.
  Lemma rtotal_same a best st cn : simg st best a -> invg a -> cn_idx cn < node_count g -> rtotal_cost AO st cn = rtotal_cost AF st cn.
  Proof.
    intros H Hi Hv. unfold rtotal_cost, idx.
    pose proof (s_lab _ _ _ _ _ H FWD _ Hv) as Ef. pose proof (s_lab _ _ _ _ _ H BWD _ Hv) as Eb. simpl in Ef, Eb.
    rewrite Ef, Eb. cbn [bind]. f_equal. unfold radd.
    destruct (lab a FWD (cn_idx cn)) as [x|] eqn:Ex, (lab a BWD (cn_idx cn)) as [y|] eqn:Ey; cbn [flab fadd]; try reflexivity.
    destruct (i_lab _ _ _ _ _ _ Hi FWD _ x Ex) as [W V]. destruct (i_lab _ _ _ _ _ _ Hi BWD _ y Ey) as [W' V'].
    pose proof (hst_short _ _ _ _ Hi Ex). pose proof (hst_short _ _ _ _ Hi Ey).
    pose proof (fits _ _ _ _ W W' ltac:(lia) ltac:(lia)) as B. unfold tot in B.
    assert (E : (rnd (x + y) == rnd (val X FWD (hst a FWD (cn_idx cn)) + val X BWD (hst a BWD (cn_idx cn))))%Q)
      by (apply (rnd_proper _ _ _ R); rewrite V, V'; reflexivity).
    pose proof (val_near u eta rnd R g alphas ch s t wf nonneg alphas_ok s_lt t_lt _ _ _ W) as [_ Z].
    pose proof (val_near u eta rnd R g alphas ch s t wf nonneg alphas_ok s_lt t_lt _ _ _ W') as [_ Z'].
    rewrite ofin_small; [reflexivity|lra|lra].
  Qed.
  Lemma riteration_same st best a v c d q' : simg st best a -> invg a -> pops (que a) v c d q' ->
    riteration AO g alphas (with_queue st (map conc q')) best (conc (v, c, d)) =
    riteration AF g alphas (with_queue st (map conc q')) best (conc (v, c, d)).
  Proof.
    intros H Hi Hp. destruct (pops_in _ _ _ _ _ Hp) as (Hin & Hs & _).
    pose proof (s_in _ _ _ _ _ H _ _ _ Hin) as Hv.
    pose proof (sim_pop g ch st best a q' H Hs) as H0. set (st0 := with_queue st (map conc q')) in *.
    unfold riteration, has_improved. cbn [conc cn_dir cn_idx cn_cost].
    assert (Hidx : idx (get (dj_costs st0) d) v = Ok (flab (lab a d v))) by (apply idx_ok; exact (s_lab _ _ _ _ _ H0 d v Hv)).
    rewrite !Hidx. cbn [bind]. rewrite !fleb_lab.
    destruct (lab a d v) as [cl|] eqn:El.
    2:{ exfalso. destruct (i_que _ _ _ _ _ _ Hi _ _ _ Hin) as (c' & E' & _). congruence. }
    destruct (qltb cl c) eqn:Eq; cbn [negb]; [reflexivity|].
    assert (Hc : (cl == c)%Q).
    { destruct (i_que _ _ _ _ _ _ Hi _ _ _ Hin) as (c' & E' & Hle). rewrite El in E'. injection E' as <-.
      apply qltb_ge in Eq. lra. }
    assert (Hsm : small d v c) by (apply (small_popped a); eauto).
    destruct (visit st0 {| cn_idx := v; cn_cost := Fin c; cn_dir := d |}) as [st1| | |] eqn:E1; cbn [bind]; auto.
    assert (H1 : dj_costs st1 = dj_costs st0 /\ dj_ch st1 = ch).
    { unfold visit in E1. rewrite (s_ch _ _ _ _ _ H0) in E1. destruct ch eqn:Ech.
      - injection E1 as <-. split; [reflexivity|apply (s_ch _ _ _ _ _ H0)].
      - apply bind_ok in E1. destruct E1 as (vv & _ & E1). injection E1 as <-. split; [reflexivity|apply (s_ch _ _ _ _ _ H0)]. }
    destruct H1 as [H1 Hch1].
    assert (Ht : rtotal_cost AO st1 {| cn_idx := v; cn_cost := Fin c; cn_dir := d |} = rtotal_cost AF st1 {| cn_idx := v; cn_cost := Fin c; cn_dir := d |}).
    { pose proof (rtotal_same a best st {| cn_idx := v; cn_cost := Fin c; cn_dir := d |} H Hi Hv) as E.
      unfold rtotal_cost in *. rewrite H1. exact E. }
    assert (Hm : rmeet AO st1 best {| cn_idx := v; cn_cost := Fin c; cn_dir := d |} = rmeet AF st1 best {| cn_idx := v; cn_cost := Fin c; cn_dir := d |}).
    { unfold rmeet. rewrite Ht. reflexivity. }
    rewrite Hm. destruct (rmeet AF st1 best _) as [[b1 over]| | |]; cbn [bind]; auto. destruct over; auto.
    destruct (starting_from g d v) as [es| | |] eqn:Ees; cbn [bind]; auto.
    rewrite rrelax_same; auto. intros e He. destruct (wg_start _ wf d v Hv) as [(l & El' & _ & Hl)|[El' _]]; [|congruence].
    rewrite Ees in El'. injection El' as <-. now apply Hl.
  Qed.

  (** the search *)
  Lemma rsearch_same pick fuel : valid_pick pick -> forall k st best a, simg st best a -> invg a ->
    rsearch AO pick g alphas fuel k st best = rsearch AF pick g alphas fuel k st best.
  Proof.
    intros valid. induction fuel as [|fuel IH]; intros k st best a H Hi; [reflexivity|].
    cbn [rsearch]. assert (Hq : que a = [] \/ que a <> []) by (destruct (que a); [now left|right; discriminate]).
    destruct Hq as [Eq|Hne]; [rewrite (s_que _ _ _ _ _ H), Eq; reflexivity|].
    rewrite (s_que _ _ _ _ _ H).
    assert (Hm : exists x y, map conc (que a) = x :: y) by (destruct (que a); [congruence|simpl; eauto]).
    assert (Hv : pick k (map conc (que a)) < length (que a)).
    { rewrite <- (map_length conc). apply valid. destruct Hm as (x & y & ->). discriminate. }
    destruct (nth_error (que a) (pick k (map conc (que a)))) as [[[v c] d]|] eqn:En;
      [|apply nth_error_None in En; lia].
    pose proof (pops_pick pick k _ _ _ _ En) as Hp.
    assert (Hi' : idx (map conc (que a)) (pick k (map conc (que a))) = Ok (conc (v, c, d))).
    { apply idx_ok. now apply map_nth_error. }
    assert (Hmatch : forall (A : Type) (X Y : A), match map conc (que a) with [] => X | _ :: _ => Y end = Y)
      by (intros; destruct Hm as (x & y & ->); reflexivity).
    rewrite !Hmatch, Hi'. cbn [bind]. rewrite remove_nth_map.
    set (q' := remove_nth (pick k (map conc (que a))) (que a)) in *.
    destruct (has_found _); [reflexivity|]. rewrite (riteration_same st best a v c d q' H Hi Hp).
    destruct (iteration_sim rnd g alphas ch s t wf nonneg alphas_ok s_lt t_lt st best a v c d q' H Hi Hp) as [(st1 & b1 & E1 & H1)|(E1 & Es & Hvn)];
      rewrite E1; cbn [bind fst snd]; [|reflexivity].
    apply (IH (S k) st1 b1 _ H1).
    exact (iterate_inv adj tgt X T ch root (ok rnd) (ok_eq _ _ _ R) (ok_0 _ _ _ R) (ext_ok _ _ _ R g alphas ch)
      (ext_mono _ _ _ R g alphas ch) (ext_up _ _ _ R g alphas ch s t wf nonneg alphas_ok s_lt t_lt) (tot_mono _ _ _ R)
      (adj_near g alphas ch s t wf s_lt t_lt) a v c d q' Hi Hp).
  Qed.
  Lemma rquery_same pick fuel st0 : valid_pick pick -> fresh g ch st0 ->
    rquery AO g alphas s t pick fuel st0 = rquery AF g alphas s t pick fuel st0.
  Proof.
    intros Hv Hf. destruct (start_sim g ch s t s_lt t_lt st0 Hf) as (st1 & E1 & H1). unfold rquery. rewrite E1. cbn [bind].
    rewrite (rsearch_same pick fuel Hv 0 st1 None _ H1 (init_inv adj tgt X T root)). reflexivity.
  Qed.
End Overflow.

(** *** from bounds on single edges *)
Lemma at_most_mono u eta m k k' q q' : (0 <= u)%Q -> (0 <= eta)%Q -> (0 <= q)%Q -> k <= k' -> (q <= q')%Q ->
  (at_most u eta m k q <= at_most u eta m k' q')%Q.
Proof.
  intros Hu He Hq Hk Hqq. unfold at_most.
  assert (D : (pow (1 + u) (depth m k) <= pow (1 + u) (depth m k'))%Q) by (apply pow_grow; [lra|unfold depth; lia]).
  assert (P : (1 <= pow (1 + u) (depth m k))%Q) by (apply pow_ge_1; lra).
  assert (N : (nq (operations m k) <= nq (operations m k'))%Q) by (apply nq_mono; unfold operations; nia).
  assert (N0 : (0 <= nq (operations m k))%Q) by apply nq_nonneg.
  set (x := pow (1 + u) (depth m k)) in *. set (x' := pow (1 + u) (depth m k')) in *.
  set (n := nq (operations m k)) in *. set (n' := nq (operations m k')) in *.
  assert (A : (0 <= (n' - n) * eta)%Q) by (apply Qmult_le_0_compat; lra).
  assert (B : (0 <= n * eta)%Q) by (apply Qmult_le_0_compat; lra).
  assert (C : (0 <= x * (q' + n' * eta - (q + n * eta)))%Q) by (apply Qmult_le_0_compat; lra).
  assert (E : (0 <= (x' - x) * (q' + n' * eta))%Q) by (apply Qmult_le_0_compat; lra). lra.
Qed.

Lemma rcompute_same u eta rnd top g pick fuel st rc s t W :
  rounding u eta rnd -> (0 <= top)%Q -> wf_graph g -> nonneg_metrics g -> rhistory st -> roomy st g ->
  s < node_count g -> t < node_count g -> valid_pick pick -> (0 <= W)%Q ->
  (forall e q, costs_as g (rc_alphas rc) [e] q -> (q <= W)%Q) ->
  (at_most u eta (length (rc_alphas rc)) (2 * node_count g) (nq (2 * node_count g) * W) <= top)%Q ->
  rcompute_best_path (ofin rnd top) pick fuel st g rc s t = rcompute_best_path (rfin rnd) pick fuel st g rc s t.
Proof.
  intros R Ht wf nn Hh Hr Hs Htt Hv HW Hedge Hbig. rewrite !rcompute_split.
  destruct (existsb _ _) eqn:Ex; [reflexivity|].
  assert (Ha : Forall not_negative (rc_alphas rc)).
  { apply Forall_forall. intros a Hin. destruct (fltb a f0) eqn:El; [|now apply not_lt_zero].
    assert (existsb (fun a => fltb a f0) (rc_alphas rc) = true) by (apply existsb_exists; eauto). congruence. }
  set (x := match rc_algo rc with ADijkstra => Ok false | ACHDijkstra => Ok true | AExplorator _ => Panic end).
  assert (Hx : x = Ok (is_ch (rc_algo rc)) \/ x = Panic) by (unfold x; destruct (rc_algo rc); auto).
  destruct Hx as [->| ->]; cbn [bind]; [|reflexivity].
  pose proof (rhistory_clean _ Hh) as Hc.
  destruct (init_query (node_count g) (with_ch st (is_ch (rc_algo rc)))) as [st0| | |] eqn:E0; cbn [bind]; try reflexivity.
  assert (Hf : fresh g (is_ch (rc_algo rc)) st0).
  { rewrite (init_query_spec _ _ _ _ _ Hc E0). apply blank_fresh.
    - unfold new_size. destruct (Nat.eqb_spec 2 (node_count g)) as [E2|]; auto. pose proof (Hr (eq_sym E2)). lia.
    - intros ->. reflexivity. }
  apply (rquery_same u eta rnd R top Ht g (rc_alphas rc) (is_ch (rc_algo rc)) s t wf nn Ha Hs Htt); auto.
  intros v v' lf lb Wf Wb Lf Lb.
  pose proof (tot_near u eta rnd R g _ _ s t wf nn Ha Hs Htt _ _ _ _ Wf Wb) as Hn. apply near_at in Hn. destruct Hn as [_ Hn].
  destruct (r_u _ _ _ R) as [U1 U2]. pose proof (r_eta _ _ _ R) as Et.
  assert (Hsum : forall d v l, walk (adj g (rc_alphas rc) (is_ch (rc_algo rc))) (tgt g) (root s t) d v l ->
    (0 <= sumw (wq g (rc_alphas rc)) l <= nq (length l) * W)%Q).
  { clear - Hedge HW wf Hs Htt nn Ha. intros d v l. induction 1 as [|y l e _ IH He].
    - simpl. change (nq 0) with 0%Q. lra.
    - rewrite sumw_app, sumw_single, app_length. cbn [length]. rewrite Nat.add_1_r, nq_S.
      assert (Hfin : finite g (rc_alphas rc) e = true) by (eapply adj_finite; eauto).
      destruct (costs_of g (rc_alphas rc) [e]) as (q & Hq & Eq); [intros e' [<-|[]]; auto|].
      rewrite sumw_single in Eq. pose proof (Hedge e q Hq). pose proof (wq_nonneg g (rc_alphas rc) nn Ha e). lra. }
  pose proof (Hsum _ _ _ Wf) as S1. pose proof (Hsum _ _ _ Wb) as S2.
  eapply Qle_trans; [exact Hn|]. eapply Qle_trans; [|exact Hbig].
  apply at_most_mono; try lra; [lia|].
  pose proof (nq_mono _ _ Lf) as N1. pose proof (nq_mono _ _ Lb) as N2.
  assert (N : (nq (2 * node_count g) == nq (node_count g) + nq (node_count g))%Q).
  { replace (2 * node_count g) with (node_count g + node_count g) by lia. apply nq_plus. }
  rewrite N.
  assert (0 <= (nq (node_count g) - nq (length lf)) * W)%Q by (apply Qmult_le_0_compat; lra).
  assert (0 <= (nq (node_count g) - nq (length lb)) * W)%Q by (apply Qmult_le_0_compat; lra). lra.
Qed.
