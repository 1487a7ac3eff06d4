(** The model of the Dijkstra in ModelDijkstra.v follows the abstract search
    of AbsSearch.v *)
From Coq Require Import String List Bool Arith ZArith QArith Lqa Lia Permutation Sorted.
From Verif Require Import Base F64 Lib ModelUnits ModelConfig ModelGraph ModelBuild ModelDijkstra
  Spec SpecRouting AbsSearch.
Import ListNotations.
Open Scope nat_scope.

(** *** Weights *)
Lemma dot_from_fin alphas : forall ms q r, dot_from (Fin q) alphas ms = Fin r ->
  exists s, weighted_sum alphas ms = Some s /\ (r == q + s)%Q.
Proof.
  assert (Hstay : forall a b acc r, (forall q, acc <> Fin q) -> dot_from acc a b <> Fin r).
  { induction a as [|x a IH]; intros [|y b] acc r H; simpl; auto. apply IH. intros q.
    destruct acc; [exfalso; now apply (H q0)| | |]; destruct (fmul x y); discriminate. }
  induction alphas as [|x alphas IH]; intros [|y ms] q r E; simpl in E;
    try (injection E as <-; exists 0%Q; split; [reflexivity|ring]).
  unfold weighted_sum. simpl. fold (weighted_sum alphas ms).
  destruct (fmul x y) as [p| | |] eqn:Em; simpl in E; try (exfalso; eapply Hstay; [|exact E]; discriminate).
  destruct (IH _ _ _ E) as (s & Es & Hs). rewrite Es.
  destruct x as [x| | |], y as [y| | |]; simpl in Em; try discriminate;
    try (unfold inf_signed in Em; destruct (qsign _) in Em; discriminate);
    try (destruct (qsign _) in Em; discriminate).
  injection Em as <-. exists (x * y + s)%Q. split; [reflexivity|]. rewrite Hs. ring.
Qed.

Lemma dot_from_some alphas : forall ms q s, weighted_sum alphas ms = Some s ->
  exists r, dot_from (Fin q) alphas ms = Fin r /\ (r == q + s)%Q.
Proof.
  induction alphas as [|x alphas IH]; intros [|y ms] q s E; unfold weighted_sum in E; simpl in *;
    try (injection E as <-; exists q; split; [reflexivity|ring]).
  fold (weighted_sum alphas ms) in E. destruct x as [x| | |], y as [y| | |]; try discriminate.
  destruct (weighted_sum alphas ms) as [s'|] eqn:Es; [|discriminate]. injection E as <-. simpl.
  destruct (IH ms (q + x * y)%Q s' Es) as (r & Er & Hr). exists r. split; auto. rewrite Hr. ring.
Qed.

Lemma dot_fin alphas ms r : dot_product alphas ms = Fin r ->
  exists s, weighted_sum alphas ms = Some s /\ (r == s)%Q.
Proof.
  intros E. destruct (dot_from_fin _ _ _ _ E) as (s & Es & Hs). exists s. split; auto. rewrite Hs. ring.
Qed.
Lemma dot_some alphas ms s : weighted_sum alphas ms = Some s ->
  exists r, dot_product alphas ms = Fin r /\ (r == s)%Q.
Proof.
  intros E. destruct (dot_from_some _ _ 0%Q _ E) as (r & Er & Hr). exists r. split; auto. rewrite Hr. ring.
Qed.

Lemma fadd_not_negative x y : not_negative x -> not_negative y -> not_negative (fadd x y).
Proof. destruct x, y; simpl; auto. intros. lra. Qed.
Lemma fmul_not_negative x y : not_negative x -> not_negative y -> not_negative (fmul x y).
Proof.
  assert (Hq : forall q, (0 <= q)%Q -> qsign q = Eq \/ qsign q = Gt).
  { intros q Hq. unfold qsign. destruct (Qcompare_spec q 0); auto. exfalso. lra. }
  destruct x as [x| | |], y as [y| | |]; simpl; auto; intros Hx Hy; try contradiction.
  - now apply Qmult_le_0_compat.
  - unfold fmul. simpl. destruct (Hq _ Hx) as [-> | ->]; simpl; auto.
  - unfold fmul. simpl. destruct (Hq _ Hy) as [-> | ->]; simpl; auto.
Qed.
Lemma dot_not_negative alphas ms : Forall not_negative alphas -> Forall not_negative ms ->
  not_negative (dot_product alphas ms).
Proof.
  unfold dot_product. assert (H0 : not_negative f0) by (simpl; lra). revert H0. generalize f0 as acc.
  revert ms. induction alphas as [|a alphas IH]; intros [|m ms] acc H0 Ha Hm; simpl; auto.
  inversion Ha; inversion Hm; subst. apply IH; auto. apply fadd_not_negative; auto. now apply fmul_not_negative.
Qed.

Lemma not_lt_zero x : fltb x f0 = false <-> not_negative x.
Proof.
  unfold fltb. destruct x as [q| | |]; simpl; try (split; auto; try discriminate; contradiction).
  destruct (Qcompare_spec q 0); split; intros; auto; try discriminate; try lra.
Qed.

(** *** comparisons of labels *)
Definition flab (o : option Q) : f64 := match o with Some c => Fin c | None => PInf end.
Lemma fltb_fin a b : fltb (Fin a) (Fin b) = qltb a b.
Proof. unfold fltb, qltb. simpl. now destruct (a ?= b)%Q. Qed.
Lemma fltb_lab a o : fltb (Fin a) (flab o) = match o with None => true | Some b => qltb a b end.
Proof. destruct o; [apply fltb_fin|reflexivity]. Qed.
Lemma fleb_lab a o : negb (fleb (Fin a) (flab o)) = match o with None => false | Some l => qltb l a end.
Proof.
  destruct o as [l|]; auto. unfold fleb, qltb. simpl. rewrite <- (Qcompare_antisym a l).
  now destruct (a ?= l)%Q.
Qed.

Lemma get_put {A} (p : two A) d x d' : get (put p d x) d' = if dir_eqb d d' then x else get p d'.
Proof. now destruct d, d'. Qed.

Lemma nth_set {A} (l : list A) i x y : nth_error l i = Some y -> set l i x = Ok (upd l i x).
Proof. intros H. apply set_lt. apply nth_error_Some. congruence. Qed.

(** *** What the search needs from the graph *)
Record wf_graph (g : graph) : Prop := mkWf {
  wg_start : forall d v, v < node_count g ->
    (exists l, starting_from g d v = Ok l /\ NoDup l /\ forall e, In e l <-> dst_idx g (opp d) e = Ok v) \/
    (starting_from g d v = Panic /\ forall e, dst_idx g (opp d) e <> Ok v);
  wg_dst : forall d e v, dst_idx g d e = Ok v -> v < node_count g /\ exists u, dst_idx g (opp d) e = Ok u;
  wg_levels : length (node_levels g) = node_count g;
  wg_metrics : forall d e v, dst_idx g d e = Ok v -> exists ms, edge_metrics g e = Ok ms;
  wg_sorted : forall d v l, starting_from g d v = Ok l ->
    StronglySorted (fun e f => forall x y lx ly,
       dst_idx g d e = Ok x -> dst_idx g d f = Ok y ->
       node_level g x = Ok lx -> node_level g y = Ok ly -> ly <= lx) l;
  wg_count : edge_count g BWD = edge_count g FWD;
}.
Definition routable (g : graph) : Prop := forall d v, v < node_count g -> starting_from g d v <> Panic.

Lemma chain_det adj tgt root p d v l : chain adj tgt root p d v l -> forall l', chain adj tgt root p d v l' -> l = l'.
Proof.
  induction 1 as [v Hv Hr|v e l Hp Ht Hin Hc IH]; intros l2 H2; inversion H2; subst; auto; try congruence.
  assert (e0 = e) by congruence. subst e0. now rewrite (IH _ H3).
Qed.

Section Sim.
  Variables (g : graph) (alphas : list f64) (ch : bool) (s t : nat).
  Hypothesis wf : wf_graph g.
  Hypothesis nonneg : nonneg_metrics g.
  Hypothesis alphas_ok : Forall not_negative alphas.
  Hypothesis s_lt : s < node_count g.
  Hypothesis t_lt : t < node_count g.

  Definition fweight (e : nat) : f64 :=
    match edge_metrics g e with Ok ms => dot_product alphas ms | _ => NaN end.
  Definition finite (e : nat) : bool := match fweight e with Fin _ => true | _ => false end.
  Definition wq (e : nat) : Q := match fweight e with Fin q => q | _ => 0%Q end.
  Definition tgt (d : dir) (e : nat) : nat := match dst_idx g d e with Ok v => v | _ => 0 end.
  Definition level (v : nat) : nat := match node_level g v with Ok l => l | _ => 0 end.
  Definition usable (d : dir) (v e : nat) : bool :=
    finite e && negb (ch && (level (tgt d e) <? level v)).
  Definition adj (d : dir) (v : nat) : list nat :=
    if v <? node_count g
    then match starting_from g d v with Ok l => filter (usable d v) l | _ => [] end
    else [].
  Definition root (d : dir) : nat := match d with FWD => s | BWD => t end.

  Lemma adj_in d v e : In e (adj d v) <-> v < node_count g /\ dst_idx g (opp d) e = Ok v /\ usable d v e = true.
  Proof.
    unfold adj. destruct (Nat.ltb_spec v (node_count g)) as [Hv|Hv].
    - destruct (wg_start _ wf d v Hv) as [(l & -> & _ & Hl)|[-> Hn]].
      + rewrite filter_In, Hl. tauto.
      + split; [intros []|]. intros (_ & He & _). now apply Hn in He.
    - split; [intros []|lia].
  Qed.

  Lemma fweight_ok e : not_negative (fweight e).
  Proof.
    unfold fweight. destruct (edge_metrics g e) as [ms| | |] eqn:E; simpl; auto.
    apply dot_not_negative; auto. apply Forall_forall. intros x. now apply (nonneg e ms).
  Qed.
  Lemma wq_nonneg e : (0 <= wq e)%Q.
  Proof. pose proof (fweight_ok e) as H. unfold wq. destruct (fweight e); simpl in *; auto; lra. Qed.
  Lemma adj_nonneg d u e : In e (adj d u) -> (0 <= wq e)%Q.
  Proof. intros _. apply wq_nonneg. Qed.
  Lemma adj_near d u e : In e (adj d u) -> tgt (opp d) e = u.
  Proof. intros H. apply adj_in in H. unfold tgt. destruct H as (_ & -> & _). reflexivity. Qed.
  Lemma adj_bound d u e : In e (adj d u) -> e < edge_count g FWD /\ tgt d e < node_count g.
  Proof.
    intros H. apply adj_in in H. destruct H as (_ & H & _).
    destruct (wg_dst _ wf _ _ _ H) as [_ [x Hx]]. rewrite opp_opp in Hx. unfold tgt. rewrite Hx.
    split; [|apply (wg_dst _ wf _ _ _ Hx)].
    apply idx_ok in Hx. assert (Hl : e < length (xwd_dsts g d)) by (apply nth_error_Some; congruence).
    fold (edge_count g d) in Hl. destruct d; auto. now rewrite (wg_count _ wf) in Hl.
  Qed.
  Lemma adj_mirror : ch = false -> forall d u e, In e (adj d u) -> In e (adj (opp d) (tgt d e)).
  Proof.
    intros Hch d u e H. pose proof (adj_bound _ _ _ H) as [_ Hx]. apply adj_in in H. destruct H as (_ & H & Hu).
    apply adj_in. split; auto. rewrite opp_opp. destruct (wg_dst _ wf _ _ _ H) as [_ [x Hx']].
    rewrite opp_opp in Hx'. split; [unfold tgt; now rewrite Hx'|].
    unfold usable in *. rewrite Hch in *. exact Hu.
  Qed.

  (** *** relation between the states *)
  Definition conc (e : entry) : costnode :=
    let '(v, c, d) := e in {| cn_idx := v; cn_cost := Fin c; cn_dir := d |}.

  Record sim (st : dijkstra) (best : option (nat * f64)) (a : ast) : Prop := mkSim {
    s_ch : dj_ch st = ch;
    s_lab : forall d v, v < node_count g -> nth_error (get (dj_costs st) d) v = Some (flab (lab a d v));
    s_prd : forall d v, v < node_count g -> nth_error (get (dj_preds st) d) v = Some (prd a d v);
    s_vis : ch = false -> forall d v, v < node_count g ->
      nth_error (get (dj_visited st) d) v = Some (vis a d v);
    s_flg : forall d, get (dj_found st) d = flg a d;
    s_que : dj_queue st = map conc (que a);
    s_best : best = option_map (fun p => (fst p, Fin (snd p))) (bst a);
    s_in : forall v c d, In (v, c, d) (que a) -> v < node_count g;
  }.

  Notation arelax1 := (relax1 tgt wq ch).

  Lemma relax_edge_sim st best a d u c e :
    sim st best a -> In e (adj d u) ->
    exists st', relax_edge (ch || match best with None => true | _ => false end) d e (tgt d e)
                  (fadd (Fin c) (fweight e)) st = Ok st' /\ sim st' best (arelax1 d u c a e).
  Proof.
    intros H He. pose proof (adj_bound _ _ _ He) as [_ Hx]. apply adj_in in He. destruct He as (_ & _ & Hus).
    unfold usable in Hus. apply andb_true_iff in Hus. destruct Hus as [Hfin _].
    assert (Ew : fadd (Fin c) (fweight e) = Fin (c + wq e)%Q).
    { unfold finite in Hfin. unfold wq. destruct (fweight e); try discriminate. reflexivity. }
    rewrite Ew. unfold relax_edge, idx, relax1. set (x := tgt d e) in *.
    rewrite (s_lab _ _ _ H d x Hx). cbn [bind]. rewrite fltb_lab.
    destruct (match lab a d x with None => true | Some old => qltb (c + wq e) old end); [|eauto].
    rewrite (nth_set _ _ _ _ (s_prd _ _ _ H d x Hx)), (nth_set _ _ _ _ (s_lab _ _ _ H d x Hx)). cbn [bind].
    eexists. split; [reflexivity|].
    constructor; cbn [dj_ch dj_queue dj_costs dj_preds dj_visited dj_found dj_touched lab prd vis flg que bst];
      try apply H.
    - intros d' v Hv. rewrite get_put. destruct (up2_cases (lab a) d x (Some (c + wq e)%Q) d' v) as [(<- & <- & ->)|[Hn ->]].
      + destruct (dir_eqb_spec d d); [|congruence]. apply nth_error_upd_eq. apply nth_error_Some.
        rewrite (s_lab _ _ _ H d x Hx). discriminate.
      + destruct (dir_eqb_spec d d') as [<-|Hd]; [|now apply (s_lab _ _ _ H)].
        rewrite nth_error_upd_neq by (destruct Hn; congruence). now apply (s_lab _ _ _ H).
    - intros d' v Hv. rewrite get_put. destruct (up2_cases (prd a) d x (Some e) d' v) as [(<- & <- & ->)|[Hn ->]].
      + destruct (dir_eqb_spec d d); [|congruence]. apply nth_error_upd_eq. apply nth_error_Some.
        rewrite (s_prd _ _ _ H d x Hx). discriminate.
      + destruct (dir_eqb_spec d d') as [<-|Hd]; [|now apply (s_prd _ _ _ H)].
        rewrite nth_error_upd_neq by (destruct Hn; congruence). now apply (s_prd _ _ _ H).
    - rewrite (s_best _ _ _ H), (s_que _ _ _ H). destruct ch, (bst a); reflexivity.
    - intros v c0 d0 Hin. destruct (ch || _); [destruct Hin as [E|Hin]|]; try (now apply (s_in _ _ _ H v c0 d0)).
      injection E as <- <- <-. exact Hx.
  Qed.

  Lemma relax_sim d u c es : forall st best a, sim st best a -> u < node_count g ->
    (forall e, In e es -> dst_idx g (opp d) e = Ok u) ->
    StronglySorted (fun e f => forall x y lx ly,
       dst_idx g d e = Ok x -> dst_idx g d f = Ok y ->
       node_level g x = Ok lx -> node_level g y = Ok ly -> ly <= lx) es ->
    exists st', relax g alphas (ch || match best with None => true | _ => false end)
                  {| cn_idx := u; cn_cost := Fin c; cn_dir := d |} es st = Ok st' /\
      sim st' best (fold_left (arelax1 d u c) (filter (usable d u) es) a).
  Proof.
    induction es as [|e es IH]; intros st best a H Hu Hes Hs; [simpl; eauto|].
    cbn [relax filter cn_dir cn_idx cn_cost].
    pose proof (Hes e (or_introl eq_refl)) as He.
    destruct (wg_dst _ wf _ _ _ He) as [_ [x Hx]]. rewrite opp_opp in Hx. rewrite Hx. cbn [bind].
    destruct (wg_dst _ wf _ _ _ Hx) as [Hxn _].
    assert (Htg : tgt d e = x) by (unfold tgt; now rewrite Hx).
    assert (Hlev : forall v, v < node_count g -> node_level g v = Ok (level v)).
    { intros v Hv. unfold level, node_level. destruct (idx_lt (node_levels g) v) as [l ->]; auto.
      now rewrite (wg_levels _ wf). }
    assert (Hdown : (if dj_ch st then do lu <- node_level g u; do lv <- node_level g x; Ok (lv <? lu) else Ok false)
                    = Ok (ch && (level x <? level u))).
    { rewrite (s_ch _ _ _ H). destruct ch; auto. rewrite (Hlev u Hu), (Hlev x Hxn). reflexivity. }
    rewrite Hdown. cbn [bind]. inversion Hs as [|? ? Hs' Hall]; subst.
    destruct (wg_metrics _ wf _ _ _ He) as [ms Hms].
    destruct (ch && (level (tgt d e) <? level u)) eqn:Edown.
    - (* downwards: so are all others *)
      assert (Hnone : filter (usable d u) (e :: es) = []).
      { apply andb_true_iff in Edown. destruct Edown as [Ech Elt]. apply Nat.ltb_lt in Elt.
        assert (Hall' : forall f, In f (e :: es) -> usable d u f = false).
        { intros f [<-|Hf]; unfold usable; rewrite Ech.
          - apply Nat.ltb_lt in Elt. rewrite Elt. apply andb_false_r.
          - rewrite Forall_forall in Hall. pose proof (Hes f (or_intror Hf)) as Hf'.
            destruct (wg_dst _ wf _ _ _ Hf') as [_ [y Hy]]. rewrite opp_opp in Hy.
            destruct (wg_dst _ wf _ _ _ Hy) as [Hyn _].
            assert (Hle := Hall f Hf _ y _ _ Hx Hy (Hlev _ Hxn) (Hlev y Hyn)).
            assert (Htf : tgt d f = y) by (unfold tgt; now rewrite Hy). rewrite Htf.
            assert (E : level y <? level u = true) by (apply Nat.ltb_lt; lia). rewrite E. apply andb_false_r. }
        clear - Hall'. induction (e :: es) as [|f l IH]; auto. simpl. rewrite Hall' by now left.
        apply IH. intros; apply Hall'; now right. }
      simpl in Hnone. rewrite Hnone. simpl. eauto.
    - rewrite Hms. cbn [bind].
      assert (Hus : usable d u e = finite e).
      { unfold usable. rewrite Edown. apply andb_true_r. }
      rewrite Hus. assert (Ew : dot_product alphas ms = fweight e) by (unfold fweight; now rewrite Hms).
      rewrite Ew. destruct (finite e) eqn:Efin.
      + destruct (relax_edge_sim st best a d u c e H) as (st1 & E1 & H1); [apply adj_in; auto|].
        cbn [cn_dir cn_cost]. rewrite E1. cbn [bind fold_left]. apply IH; auto. intros; apply Hes; now right.
      + (* the new cost is not smaller than anything *)
        assert (E1 : relax_edge (ch || match best with None => true | _ => false end) d e (tgt d e)
                       (fadd (Fin c) (fweight e)) st = Ok st).
        { unfold relax_edge, idx. rewrite (s_lab _ _ _ H _ _ Hxn). cbn [bind].
          pose proof (fweight_ok e) as Hok. unfold finite in Efin. destruct (fweight e); try discriminate; auto.
          - simpl. now destruct (lab a d (tgt d e)).
          - destruct Hok. }
        cbn [cn_dir cn_cost]. rewrite E1. cbn [bind]. apply IH; auto. intros; apply Hes; now right.
  Qed.

  (** *** one iteration *)
  Lemma remove_nth_perm {A} (l : list A) : forall i x, nth_error l i = Some x -> Permutation l (x :: remove_nth i l).
  Proof.
    induction l as [|y l IH]; intros [|i] x E; simpl in *; try discriminate.
    - injection E as ->. reflexivity.
    - rewrite (IH i x E) at 1. apply perm_swap.
  Qed.
  Lemma remove_nth_map {A B} (f : A -> B) l : forall i, remove_nth i (map f l) = map f (remove_nth i l).
  Proof. induction l as [|y l IH]; intros [|i]; simpl; auto. now rewrite IH. Qed.

  Definition iterate_g := iterate adj tgt wq ch.

  Lemma sim_pop st best a q' : sim st best a -> (forall e, In e q' -> In e (que a)) ->
    sim (with_queue st (map conc q')) best (set_que a q').
  Proof.
    intros H Hq. constructor; cbn [with_queue dj_ch dj_queue dj_costs dj_preds dj_visited dj_found set_que lab prd vis flg que bst];
      try apply H; auto. intros v c d Hin. apply (s_in _ _ _ H v c d). auto.
  Qed.

  Lemma iteration_sim st best a v c d q' :
    sim st best a -> inv adj tgt wq root a -> pops (que a) v c d q' ->
    (exists st' best', iteration g alphas (with_queue st (map conc q')) best (conc (v, c, d)) = Ok (st', best') /\
       sim st' best' (iterate_g a v c d q')) \/
    (iteration g alphas (with_queue st (map conc q')) best (conc (v, c, d)) = Panic /\
     starting_from g d v = Panic /\ v < node_count g).
  Proof.
    intros H Hi Hp. destruct (pops_in _ _ _ _ _ Hp) as (Hin & Hs & _).
    pose proof (s_in _ _ _ H _ _ _ Hin) as Hv.
    pose proof (sim_pop st best a q' H Hs) as H0. set (st0 := with_queue st (map conc q')) in *.
    unfold iteration, has_improved, iterate_g, iterate, iter. cbn [conc cn_dir cn_idx cn_cost].
    assert (Hidx : idx (get (dj_costs st0) d) v = Ok (flab (lab a d v))) by (apply idx_ok; exact (s_lab _ _ _ H0 d v Hv)).
    rewrite !Hidx. cbn [bind]. rewrite !fleb_lab.
    cbn [set_que lab bst]. destruct (match lab a d v with None => false | Some l => qltb l c end); [left; eauto|].
    (* visit *)
    assert (Hvis : exists st1, visit st0 (conc (v, c, d)) = Ok st1 /\
      sim st1 best (mkAst (lab a) (prd a) (up2 (vis a) d v true) (flg a) q' (bst a) (dn a) (mx a) (hst a) (log a)) /\
      dj_ch st1 = ch).
    { unfold visit. rewrite (s_ch _ _ _ H0). assert (Hcc : ch = true \/ ch = false) by (destruct ch; auto). destruct Hcc as [Ech|Ech].
      - exists st0. split; [now rewrite Ech|]. split; [|apply (s_ch _ _ _ H0)].
        destruct H0. constructor; cbn [lab prd vis flg que bst set_que] in *; auto; congruence.
      - cbn [conc cn_dir cn_idx].
        rewrite (nth_set _ _ _ _ (s_vis _ _ _ H0 Ech d v Hv)). cbn [bind]. eexists. split; [rewrite Ech; reflexivity|].
        split; [|apply (s_ch _ _ _ H0)].
        constructor; cbn [with_visited dj_ch dj_queue dj_costs dj_preds dj_visited dj_found lab prd vis flg que bst set_que];
          try apply H0; auto.
        intros _ d' v' Hv'. cbn [conc cn_dir cn_idx]. rewrite get_put.
        destruct (up2_cases (vis a) d v true d' v') as [(<- & <- & ->)|[Hn ->]].
        + destruct (dir_eqb_spec d d); [|congruence]. apply nth_error_upd_eq. apply nth_error_Some.
          rewrite (s_vis _ _ _ H0 Ech d v Hv). discriminate.
        + destruct (dir_eqb_spec d d') as [<-|Hd]; [|now apply (s_vis _ _ _ H0)].
          rewrite nth_error_upd_neq by (destruct Hn; congruence). now apply (s_vis _ _ _ H0). }
    destruct Hvis as (st1 & E1 & H1 & Hch1). cbn [conc] in E1. rewrite E1. cbn [bind].
    (* total cost *)
    assert (Htot : exists x, total_cost st1 {| cn_idx := v; cn_cost := Fin c; cn_dir := d |} = Ok x /\
              x = flab (total a v)).
    { unfold total_cost, idx. cbn [cn_idx].
      pose proof (s_lab _ _ _ H1 FWD v Hv) as Ef. pose proof (s_lab _ _ _ H1 BWD v Hv) as Eb. simpl in Ef, Eb.
      rewrite Ef, Eb. cbn [bind]. eexists. split; [reflexivity|]. unfold total.
      destruct (lab a FWD v), (lab a BWD v); reflexivity. }
    destruct Htot as (tc & Etot & ->).
    assert (Hbranch : forall nb,
      bst (enter ch (set_que a q') v c d) = nb ->
      (exists st' best',
        (do es <- starting_from g d v;
         do st2 <- relax g alphas (dj_ch st1 || match option_map (fun p : nat * Q => (fst p, Fin (snd p))) nb with None => true | _ => false end)
                     {| cn_idx := v; cn_cost := Fin c; cn_dir := d |} es st1;
         Ok (st2, option_map (fun p : nat * Q => (fst p, Fin (snd p))) nb)) = Ok (st', best') /\
        sim st' best' (fold_left (arelax1 d v c) (adj d v) (enter ch (set_que a q') v c d))) \/
      ((do es <- starting_from g d v;
         do st2 <- relax g alphas (dj_ch st1 || match option_map (fun p : nat * Q => (fst p, Fin (snd p))) nb with None => true | _ => false end)
                     {| cn_idx := v; cn_cost := Fin c; cn_dir := d |} es st1;
         Ok (st2, option_map (fun p : nat * Q => (fst p, Fin (snd p))) nb)) = Panic /\
       starting_from g d v = Panic /\ v < node_count g)).
    { intros nb Hnb. destruct (wg_start _ wf d v Hv) as [(l & El & _ & Hl)|[El _]].
      - rewrite El. cbn [bind]. left.
        assert (H2 : sim st1 (option_map (fun p : nat * Q => (fst p, Fin (snd p))) nb) (enter ch (set_que a q') v c d)).
        { destruct H1. constructor; cbn [enter set_que lab prd vis flg que] in *; auto. now rewrite Hnb. }
        rewrite Hch1.
        destruct (relax_sim d v c l st1 _ _ H2 Hv) as (st2 & E2 & H3).
        + intros e He. now apply Hl.
        + apply (wg_sorted _ wf d v). exact El.
        + rewrite E2. cbn [bind]. do 2 eexists. split; [reflexivity|].
          unfold adj. apply Nat.ltb_lt in Hv. rewrite Hv, El. exact H3.
      - right. rewrite El. auto. }
    (* meeting *)
    unfold meet. cbn [cn_cost cn_idx cn_dir]. rewrite (s_best _ _ _ H0). cbn [set_que bst].
    destruct (bst a) as [[m b]|] eqn:Eb; cbn [option_map fst snd].
    - unfold fgtb. rewrite fltb_fin. destruct (qltb b c) eqn:Ebc.
      + cbn [bind]. left. do 2 eexists. split; [reflexivity|].
        destruct H1. constructor; cbn [with_found cut set_que dj_ch dj_queue dj_costs dj_preds dj_visited dj_found lab prd vis flg que bst] in *; auto.
        * intros d'. rewrite get_put. unfold up1. destruct (dir_eqb d d'); auto.
        * now rewrite Eb.
      + rewrite Etot. cbn [bind].
        specialize (Hbranch (new_best ch (set_que a q') d v) eq_refl).
        assert (Enb : (if fltb (flab (total a v)) (Fin b) then Some (v, flab (total a v)) else Some (m, Fin b)) =
                  option_map (fun p : nat * Q => (fst p, Fin (snd p))) (new_best ch (set_que a q') d v)).
        { unfold new_best. cbn [set_que bst]. rewrite Eb. change (total (set_que a q') v) with (total a v).
          destruct (total a v) as [tt|]; [|reflexivity]. cbn [flab]. rewrite fltb_fin. destruct (qltb tt b); reflexivity. }
        rewrite Enb. exact Hbranch.
    - assert (Hmt : is_meeting st1 {| cn_idx := v; cn_cost := Fin c; cn_dir := d |} = Ok (meets ch (set_que a q') d v)).
      { unfold is_meeting, meets, idx. rewrite Hch1. cbn [cn_dir cn_idx set_que lab vis].
        assert (Hcc : ch = true \/ ch = false) by (destruct ch; auto). destruct Hcc as [Ech|Ech]; rewrite Ech.
        - rewrite (s_lab _ _ _ H1 (opp d) v Hv). cbn [bind lab]. now destruct (lab a (opp d) v).
        - rewrite (s_vis _ _ _ H1 Ech (opp d) v Hv). cbn [vis]. rewrite up2_neq; auto.
          left. destruct d; discriminate. }
      rewrite Hmt. cbn [bind].
      specialize (Hbranch (new_best ch (set_que a q') d v) eq_refl).
      unfold new_best in Hbranch. cbn [set_que bst] in Hbranch. rewrite Eb in Hbranch.
      change (total (set_que a q') v) with (total a v) in Hbranch.
      destruct (meets ch (set_que a q') d v) eqn:Em.
      + rewrite Etot. cbn [bind]. destruct (total a v) as [tt|] eqn:Et.
        * exact Hbranch.
        * (* both labels exist *)
          exfalso. destruct (i_que _ _ _ _ _ Hi _ _ _ Hin) as (cl & El & _).
          assert (Ho : exists co, lab a (opp d) v = Some co).
          { unfold meets in Em. cbn [set_que lab vis] in Em. destruct ch.
            - destruct (lab a (opp d) v); [eauto|discriminate].
            - apply (i_vis _ _ _ _ _ Hi _ _ Em). }
          destruct Ho as [co Eo]. unfold total in Et. destruct d; simpl in Eo; rewrite El, Eo in Et; discriminate.
      + exact Hbranch.
  Qed.

  (** *** the whole search *)
  Section Pick.
    Variable pick : nat -> list costnode -> nat.
    Variable P : list entry -> nat -> Q -> dir -> list entry -> Prop.
    Hypothesis valid : valid_pick pick.
    Hypothesis P_pops : forall q v c d q', P q v c d q' -> pops q v c d q'.
    Hypothesis P_pick : forall k q v c d,
      nth_error q (pick k (map conc q)) = Some (v, c, d) -> P q v c d (remove_nth (pick k (map conc q)) q).

    Lemma search_sim fuel : forall k st best a, sim st best a -> inv adj tgt wq root a ->
      (exists st' best' a', search pick g alphas fuel k st best = Ok (st', best') /\
         arun adj tgt wq ch P a a' /\ best' = option_map (fun p => (fst p, Fin (snd p))) (bst a') /\
         forall d v, v < node_count g -> nth_error (get (dj_preds st') d) v = Some (prd a' d v)) \/
      (search pick g alphas fuel k st best = Diverge /\ exists a', asteps adj tgt wq ch P fuel a a' /\ que a' <> []) \/
      (search pick g alphas fuel k st best = Panic /\ ~ routable g).
    Proof.
      induction fuel as [|fuel IH]; intros k st best a H Hi.
      - simpl. rewrite (s_que _ _ _ H). destruct (que a) as [|e q] eqn:Eq; simpl.
        + left. exists st, best, a. split; auto. split; [constructor; now left|].
          split; [apply (s_best _ _ _ H)|apply (s_prd _ _ _ H)].
        + right. left. split; auto. exists a. split; [constructor|congruence].
      - cbn [search]. assert (Hq : que a = [] \/ que a <> []) by (destruct (que a); [now left|right; discriminate]).
        destruct Hq as [Eq|Hne].
        + left. rewrite (s_que _ _ _ H), Eq. exists st, best, a. split; auto. split; [constructor; now left|].
          split; [apply (s_best _ _ _ H)|apply (s_prd _ _ _ H)].
        + rewrite (s_que _ _ _ H).
          assert (Hm : exists x y, map conc (que a) = x :: y) by (destruct (que a); [congruence|simpl; eauto]).
          assert (Hv : pick k (map conc (que a)) < length (que a)).
          { rewrite <- (map_length conc). apply valid. destruct Hm as (x & y & ->). discriminate. }
          destruct (nth_error (que a) (pick k (map conc (que a)))) as [[[v c] d]|] eqn:En;
            [|apply nth_error_None in En; lia].
          pose proof (P_pick _ _ _ _ _ En) as HP. pose proof (P_pops _ _ _ _ _ HP) as Hp.
          assert (Hi' : idx (map conc (que a)) (pick k (map conc (que a))) = Ok (conc (v, c, d))).
          { apply idx_ok. now apply map_nth_error. }
          assert (Hmatch : forall (A : Type) (X Y : A), match map conc (que a) with [] => X | _ :: _ => Y end = Y)
            by (intros; destruct Hm as (x & y & ->); reflexivity).
          rewrite Hmatch, Hi'. cbn [bind]. rewrite remove_nth_map.
          set (q' := remove_nth (pick k (map conc (que a))) (que a)) in *.
          assert (Hf : has_found (with_queue st (map conc q')) = flg a FWD && flg a BWD).
          { unfold has_found. cbn [with_queue dj_found].
            pose proof (s_flg _ _ _ H FWD) as F. pose proof (s_flg _ _ _ H BWD) as B. simpl in F, B. now rewrite F, B. }
          rewrite Hf. destruct (flg a FWD && flg a BWD) eqn:Ef.
          * left. apply andb_true_iff in Ef. destruct Ef as [Ef Eb].
            do 3 eexists. split; [reflexivity|]. split; [constructor 1; right; intros []; auto|].
            split; [apply (s_best _ _ _ H)|]. apply (s_prd _ _ _ H).
          * destruct (iteration_sim st best a v c d q' H Hi Hp) as [(st1 & b1 & E1 & H1)|(E1 & Es & Hvn)].
            -- rewrite E1. cbn [bind fst snd].
               assert (Hi1 := iterate_inv adj tgt wq ch root adj_nonneg adj_near a v c d q' Hi Hp).
               destruct (IH (S k) st1 b1 _ H1 Hi1) as [(st2 & b2 & a2 & E2 & Hr & Hb & Hpr)|[(E2 & a2 & Hs & Hq)|(E2 & Hn)]].
               ++ left. do 3 eexists. split; [exact E2|]. split; [eapply arun_step; [exact HP|exact Hr]|]. split; [exact Hb|exact Hpr].
               ++ right. left. split; auto. exists a2. split; auto. eapply asteps_S; [exact HP|exact Hs].
               ++ right. right. auto.
            -- right. right. rewrite E1. split; auto. intros Hr. exact (Hr d v Hvn Es).
    Qed.
  End Pick.

  (** *** before the first iteration *)
  Record fresh (st : dijkstra) : Prop := mkFresh {
    f_ch : dj_ch st = ch;
    f_cost : forall d v, v < node_count g -> nth_error (get (dj_costs st) d) v = Some PInf;
    f_pred : forall d v, v < node_count g -> nth_error (get (dj_preds st) d) v = Some None;
    f_vis : ch = false -> forall d v, v < node_count g -> nth_error (get (dj_visited st) d) v = Some false;
    f_flg : forall d, get (dj_found st) d = false;
    f_que : dj_queue st = [];
  }.

  Lemma start_sim st : fresh st -> exists st', start s t st = Ok st' /\ sim st' None (init root).
  Proof.
    intros H. unfold start. pose proof (f_cost _ H FWD s s_lt) as Es. pose proof (f_cost _ H BWD t t_lt) as Et.
    simpl in Es, Et. rewrite (nth_set _ _ f0 _ Es), (nth_set _ _ f0 _ Et). cbn [bind].
    eexists. split; [reflexivity|].
    constructor; cbn [dj_ch dj_costs dj_preds dj_visited dj_found dj_queue init lab prd vis flg que bst]; try apply H; auto.
    - intros d v Hv. destruct d; cbn [get fw bw root]; unfold up2; cbn [dir_eqb andb].
      + destruct (Nat.eqb_spec s v) as [<-|Hn]; cbn [flab].
        * apply nth_error_upd_eq. apply nth_error_Some. congruence.
        * rewrite nth_error_upd_neq by auto. apply (f_cost _ H FWD v Hv).
      + destruct (Nat.eqb_spec t v) as [<-|Hn]; cbn [flab].
        * apply nth_error_upd_eq. apply nth_error_Some. congruence.
        * rewrite nth_error_upd_neq by auto. apply (f_cost _ H BWD v Hv).
    - rewrite (f_que _ H). reflexivity.
    - intros v c d [E|[E|[]]]; injection E as <- <- <-; auto.
  Qed.

  (** *** following the predecessors *)
  Lemma trace_chain preds p d m l : chain adj tgt root p d m l -> m < node_count g ->
    (forall v, v < node_count g -> nth_error preds v = Some (p v)) ->
    forall fuel, length l <= fuel -> trace g preds d fuel m = Ok (rev l).
  Proof.
    intros Hc. induction Hc as [v Hv Hr|v e l Hp Ht Hin Hc IH]; intros Hm Hpr fuel Hl.
    - assert (E : idx preds v = Ok None) by (apply idx_ok; rewrite Hpr, Hv; auto).
      destruct fuel; simpl; rewrite E; reflexivity.
    - assert (E : idx preds v = Ok (Some e)) by (apply idx_ok; rewrite Hpr, Hp; auto).
      rewrite app_length in Hl. simpl in Hl. destruct fuel as [|fuel]; [lia|]. simpl. rewrite E. cbn [bind].
      apply adj_in in Hin. destruct Hin as (Hu & Hd & _).
      rewrite Hd. cbn [bind]. rewrite IH; [|auto|auto|lia]. cbn [bind]. rewrite rev_app_distr. reflexivity.
  Qed.

  Lemma chain_len p d m l : chain adj tgt root p d m l -> m < node_count g -> length l < node_count g.
  Proof.
    intros Hc Hm.
    assert (Hdet : forall v l1, chain adj tgt root p d v l1 -> forall l2, chain adj tgt root p d v l2 -> l1 = l2).
    { clear. induction 1 as [v Hv Hr|v e l Hp Ht Hin Hc IH]; intros l2 H2; inversion H2; subst; auto; try congruence.
      assert (e0 = e) by congruence. subst e0. now rewrite (IH _ H3). }
    assert (Hns : exists ns, length ns = S (length l) /\ NoDup ns /\
              forall x, In x ns -> x < node_count g /\ exists l', chain adj tgt root p d x l' /\ length l' <= length l).
    { clear Hm. induction Hc as [v Hv Hr|v e l Hp Ht Hin Hc IH].
      - exists [v]. repeat split; [constructor; [intros []|constructor]| |].
        + destruct H as [<-|[]]. rewrite Hr. destruct d; auto.
        + destruct H as [<-|[]]. exists []. split; [constructor; auto|auto].
      - destruct IH as (ns & L & N & Hall). exists (v :: ns). split; [simpl; rewrite app_length; simpl; lia|].
        assert (Hcv : chain adj tgt root p d v (l ++ [e])) by (econstructor; eauto).
        split.
        + constructor; auto. intros Hin'. destruct (Hall _ Hin') as (_ & l' & Hl' & Hle).
          rewrite (Hdet _ _ Hl' _ Hcv) in Hle. rewrite app_length in Hle. simpl in Hle. lia.
        + intros x [<-|Hx].
          * split; [subst v; apply (adj_bound _ _ _ Hin)|]. eauto.
          * destruct (Hall _ Hx) as (A & l' & B & C). split; auto. exists l'. rewrite app_length. split; [auto|lia]. }
    destruct Hns as (ns & L & N & Hall).
    assert (length ns <= length (seq 0 (node_count g))).
    { apply NoDup_incl_length; auto. intros x Hx. apply in_seq. destruct (Hall x Hx). lia. }
    rewrite seq_length in *. lia.
  Qed.

  Lemma chain_edges_len p d m l : chain adj tgt root p d m l -> length l <= edge_count g FWD.
  Proof.
    intros Hc.
    assert (Hm : m < node_count g).
    { destruct Hc as [v _ ->|v e l _ <- Hin _]; [destruct d; auto|]. apply (adj_bound _ _ _ Hin). }
    assert (Hdet : forall v l1, chain adj tgt root p d v l1 -> forall l2, chain adj tgt root p d v l2 -> l1 = l2).
    { clear. induction 1 as [v Hv Hr|v e l Hp Ht Hin Hc IH]; intros l2 H2; inversion H2; subst; auto; try congruence.
      assert (e0 = e) by congruence. subst e0. now rewrite (IH _ H3). }
    assert (Hall : NoDup l /\ forall e, In e l -> e < edge_count g FWD /\
              exists l', chain adj tgt root p d (tgt d e) l' /\ length l' <= length l).
    { clear Hm. induction Hc as [v Hv Hr|v e l Hp Ht Hin Hc [IH1 IH2]]; [split; [constructor|intros e []]|].
      assert (Hcv : chain adj tgt root p d v (l ++ [e])) by (econstructor; eauto).
      split.
      - rewrite <- (rev_involutive (l ++ [e])). apply NoDup_rev. rewrite rev_app_distr. simpl.
        constructor; [|now apply NoDup_rev]. rewrite <- in_rev. intros Hx.
        destruct (IH2 _ Hx) as (_ & l' & Hl' & Hle). rewrite Ht in Hl'. rewrite (Hdet _ _ Hl' _ Hcv) in Hle.
        rewrite app_length in Hle. simpl in Hle. lia.
      - intros x Hx. rewrite app_length. apply in_app_or in Hx. destruct Hx as [Hx|[<-|[]]].
        + destruct (IH2 _ Hx) as (A & l' & B & C). split; auto. exists l'. split; [auto|lia].
        + split; [apply (adj_bound _ _ _ Hin)|]. rewrite Ht. exists (l ++ [e]). split; auto. rewrite app_length. auto. }
    destruct Hall as [N Hall]. rewrite <- (seq_length (edge_count g FWD) 0). apply NoDup_incl_length; auto.
    intros e He. apply in_seq. destruct (Hall e He). lia.
  Qed.

  Lemma trace_cases preds p d m l : chain adj tgt root p d m l -> m < node_count g ->
    (forall v, v < node_count g -> nth_error preds v = Some (p v)) ->
    forall fuel, trace g preds d fuel m = Ok (rev l) \/ (trace g preds d fuel m = Diverge /\ fuel < length l).
  Proof.
    intros Hc. induction Hc as [v Hv Hr|v e l Hp Ht Hin Hc IH]; intros Hm Hpr fuel.
    - left. assert (E : idx preds v = Ok None) by (apply idx_ok; rewrite Hpr, Hv; auto).
      destruct fuel; simpl; rewrite E; reflexivity.
    - assert (E : idx preds v = Ok (Some e)) by (apply idx_ok; rewrite Hpr, Hp; auto).
      destruct fuel as [|fuel]; simpl; rewrite E; cbn [bind].
      + right. rewrite app_length. simpl. split; [auto|lia].
      + apply adj_in in Hin. destruct Hin as (Hu & Hd & _). rewrite Hd. cbn [bind].
        destruct (IH Hu Hpr fuel) as [->|[-> Hl]]; cbn [bind].
        * left. now rewrite rev_app_distr.
        * right. rewrite app_length. simpl. split; [auto|lia].
  Qed.

  (** *** walks are paths *)
  Lemma finite_costs e : finite e = true -> exists ms a, edge_metrics g e = Ok ms /\
    weighted_sum alphas ms = Some a /\ (a == wq e)%Q.
  Proof.
    unfold finite, wq, fweight. destruct (edge_metrics g e) as [ms| | |] eqn:E; try discriminate.
    destruct (dot_product alphas ms) as [r| | |] eqn:Er; try discriminate. intros _.
    destruct (dot_fin _ _ _ Er) as (a & Ea & Hq). exists ms, a. split; [auto|]. split; [auto|lra].
  Qed.
  Lemma costs_finite e ms a : edge_metrics g e = Ok ms -> weighted_sum alphas ms = Some a ->
    finite e = true /\ (a == wq e)%Q.
  Proof.
    intros E Ea. destruct (dot_some _ _ _ Ea) as (r & Er & Hq).
    unfold finite, wq, fweight. rewrite E, Er. split; [auto|lra].
  Qed.
  Lemma costs_of l : (forall e, In e l -> finite e = true) ->
    exists q, costs_as g alphas l q /\ (q == sumw wq l)%Q.
  Proof.
    induction l as [|e l IH]; intros H; [exists 0%Q; split; [constructor|reflexivity]|].
    destruct IH as (q & Hq & E); [intros; apply H; now right|].
    destruct (finite_costs e (H e (or_introl eq_refl))) as (ms & a & A & B & C).
    exists (a + q)%Q. split; [econstructor; eauto|]. simpl. rewrite E, C. reflexivity.
  Qed.
  Lemma costs_sumw l q : costs_as g alphas l q -> (forall e, In e l -> finite e = true) /\ (q == sumw wq l)%Q.
  Proof.
    induction 1 as [|e es ms a b A B C [IH1 IH2]]; [split; [intros e []|reflexivity]|].
    destruct (costs_finite _ _ _ A B) as [F W]. split; [intros x [<-|Hx]; auto|]. simpl. rewrite W, IH2. reflexivity.
  Qed.

  Lemma connects_snoc x l y e z : connects g x l y -> edge_from_to g e y z -> connects g x (l ++ [e]) z.
  Proof. induction 1; intros He; simpl; econstructor; eauto. constructor. Qed.
  Lemma connects_app x l y l' z : connects g x l y -> connects g y l' z -> connects g x (l ++ l') z.
  Proof. induction 1; intros He; simpl; auto. econstructor; eauto. Qed.
  Lemma connects_split x l1 : forall y l2, connects g y (l1 ++ l2) x -> exists z, connects g y l1 z /\ connects g z l2 x.
  Proof.
    induction l1 as [|e l1 IH]; intros y l2 H; [exists y; split; [constructor|auto]|].
    inversion H; subst. destruct (IH _ _ H5) as (z & A & B). exists z. split; auto. econstructor; eauto.
  Qed.

  Lemma level_ok v : v < node_count g -> node_level g v = Ok (level v).
  Proof.
    intros Hv. unfold level. destruct (node_level g v) eqn:E; auto; unfold node_level, idx in E;
      destruct (nth_error (node_levels g) v) eqn:F; try discriminate;
      apply nth_error_None in F; rewrite (wg_levels _ wf) in F; lia.
  Qed.

  Lemma edge_lt e x y : edge_from_to g e x y -> x < node_count g /\ y < node_count g.
  Proof. intros [A B]. split; [apply (wg_dst _ wf _ _ _ A)|apply (wg_dst _ wf _ _ _ B)]. Qed.

  Lemma adj_fwd e x : In e (adj FWD x) -> edge_from_to g e x (tgt FWD e) /\ finite e = true /\
    (ch = true -> level x <= level (tgt FWD e)).
  Proof.
    intros H. apply adj_in in H. destruct H as (Hx & Hd & Hu). simpl in Hd.
    destruct (wg_dst _ wf _ _ _ Hd) as (_ & y & Hy). simpl in Hy.
    assert (Ht : tgt FWD e = y) by (unfold tgt; now rewrite Hy). rewrite Ht in *. unfold usable in Hu.
    apply andb_true_iff in Hu. destruct Hu as [Hf Hu]. split; [split; auto|]. split; auto.
    intros Hc. rewrite Hc, Ht in Hu. simpl in Hu. destruct (Nat.ltb_spec (level y) (level x)); [discriminate|auto].
  Qed.
  Lemma adj_bwd e y : In e (adj BWD y) -> edge_from_to g e (tgt BWD e) y /\ finite e = true /\
    (ch = true -> level y <= level (tgt BWD e)).
  Proof.
    intros H. apply adj_in in H. destruct H as (Hx & Hd & Hu). simpl in Hd.
    destruct (wg_dst _ wf _ _ _ Hd) as (_ & x & Hx'). simpl in Hx'.
    assert (Ht : tgt BWD e = x) by (unfold tgt; now rewrite Hx'). rewrite Ht in *. unfold usable in Hu.
    apply andb_true_iff in Hu. destruct Hu as [Hf Hu]. split; [split; auto|]. split; auto.
    intros Hc. rewrite Hc, Ht in Hu. simpl in Hu. destruct (Nat.ltb_spec (level x) (level y)); [discriminate|auto].
  Qed.
  Lemma fwd_adj e x y : edge_from_to g e x y -> finite e = true -> (ch = true -> level x <= level y) ->
    In e (adj FWD x) /\ tgt FWD e = y.
  Proof.
    intros He Hf Hl. destruct (edge_lt _ _ _ He) as [Hx Hy]. destruct He as [A B].
    assert (Ht : tgt FWD e = y) by (unfold tgt; now rewrite B). split; auto. apply adj_in. split; auto. split; auto.
    unfold usable. rewrite Hf, Ht. simpl. assert (Hcc : ch = true \/ ch = false) by (destruct ch; auto).
    destruct Hcc as [Hc|Hc]; rewrite Hc; auto. simpl. specialize (Hl Hc). destruct (Nat.ltb_spec (level y) (level x)); [lia|auto].
  Qed.
  Lemma bwd_adj e x y : edge_from_to g e x y -> finite e = true -> (ch = true -> level y <= level x) ->
    In e (adj BWD y) /\ tgt BWD e = x.
  Proof.
    intros He Hf Hl. destruct (edge_lt _ _ _ He) as [Hx Hy]. destruct He as [A B].
    assert (Ht : tgt BWD e = x) by (unfold tgt; now rewrite A). split; auto. apply adj_in. split; auto. split; auto.
    unfold usable. rewrite Hf, Ht. simpl. assert (Hcc : ch = true \/ ch = false) by (destruct ch; auto).
    destruct Hcc as [Hc|Hc]; rewrite Hc; auto. simpl. specialize (Hl Hc). destruct (Nat.ltb_spec (level x) (level y)); [lia|auto].
  Qed.

  Notation walkg := (walk adj tgt root).

  Lemma walk_fwd v l : walkg FWD v l ->
    connects g s l v /\ (forall e, In e l -> finite e = true) /\ (ch = true -> climbs g l).
  Proof.
    induction 1 as [|u l e Hw (IH1 & IH2 & IH3) He].
    - split; [constructor|]. split; [intros e []|]. intros _ e x y lx ly [].
    - destruct (adj_fwd _ _ He) as (A & B & C). split; [|split].
      + eapply connects_snoc; eauto.
      + intros x Hx. apply in_app_or in Hx. destruct Hx as [Hx|[<-|[]]]; auto.
      + intros Hc f x y lx ly Hf Hxy Lx Ly. apply in_app_or in Hf. destruct Hf as [Hf|[<-|[]]].
        * now apply (IH3 Hc f x y).
        * destruct A as [A1 A2], Hxy as [B1 B2]. assert (x = u) by congruence. assert (y = tgt FWD e) by congruence. subst x y.
          specialize (C Hc). unfold level in C. now rewrite Lx, Ly in C.
  Qed.
  Lemma walk_bwd v l : walkg BWD v l ->
    connects g v (rev l) t /\ (forall e, In e (rev l) -> finite e = true) /\ (ch = true -> descends g (rev l)).
  Proof.
    induction 1 as [|u l e Hw (IH1 & IH2 & IH3) He].
    - split; [constructor|]. split; [intros e []|]. intros _ e x y lx ly [].
    - destruct (adj_bwd _ _ He) as (A & B & C). rewrite rev_app_distr. simpl. split; [|split].
      + econstructor; eauto.
      + intros x [<-|Hx]; auto.
      + intros Hc f x y lx ly Hf Hxy Lx Ly. destruct Hf as [<-|Hf].
        * destruct A as [A1 A2], Hxy as [B1 B2]. assert (x = tgt BWD e) by congruence. assert (y = u) by congruence. subst x y.
          specialize (C Hc). unfold level in C. now rewrite Lx, Ly in C.
        * now apply (IH3 Hc f x y).
  Qed.

  Lemma fwd_walk l : forall v, connects g s l v -> (forall e, In e l -> finite e = true) -> (ch = true -> climbs g l) ->
    walkg FWD v l.
  Proof.
    induction l as [|e l IH] using rev_ind; intros v Hc Hf Hl.
    - assert (E : v = root FWD) by (inversion Hc; simpl; congruence). rewrite E. constructor.
    - destruct (connects_split _ _ _ _ Hc) as (u & A & B).
      assert (H2 : edge_from_to g e u v).
      { inversion B as [|? ? x ? ? He Hn]. now inversion Hn; subst. }
      destruct (fwd_adj e u v H2) as [C <-].
      + apply Hf. apply in_or_app. right. now left.
      + intros Hch. destruct (edge_lt _ _ _ H2) as [Hu Hv].
        apply (Hl Hch e u v); auto using level_ok. apply in_or_app. right. now left.
      + apply walk_step with (u := u); auto. apply IH; auto.
        * intros x Hx. apply Hf. apply in_or_app. now left.
        * intros Hch f x y lx ly Hx. apply (Hl Hch). apply in_or_app. now left.
  Qed.
  Lemma bwd_walk l : forall v, connects g v l t -> (forall e, In e l -> finite e = true) -> (ch = true -> descends g l) ->
    walkg BWD v (rev l).
  Proof.
    induction l as [|e l IH]; intros v Hc Hf Hl.
    - assert (E : v = root BWD) by (inversion Hc; simpl; congruence). rewrite E. constructor.
    - assert (Hx : exists x, edge_from_to g e v x /\ connects g x l t) by (inversion Hc; eauto).
      destruct Hx as (x & H2 & Hc'). simpl. destruct (bwd_adj e v x H2) as [C <-].
      + apply Hf. now left.
      + intros Hch. destruct (edge_lt _ _ _ H2) as [Hu Hv]. apply (Hl Hch e v x); auto using level_ok. now left.
      + apply walk_step with (u := x); auto. apply IH; auto.
        * intros y Hy. apply Hf. now right.
        * intros Hch f y z ly lz Hy. apply (Hl Hch). now right.
  Qed.

  (** *** a whole query on blank arrays *)
  Definition query (pick : nat -> list costnode -> nat) (fuel : nat) (st0 : dijkstra) : res (dijkstra * option path) :=
    do st1 <- start s t st0;
    do r <- search pick g alphas fuel 0 st1 None;
    match snd r with
    | None => Ok (fst r, None)
    | Some (m, _) =>
        do f <- trace g (fw (dj_preds (fst r))) FWD fuel m;
        do b <- trace g (bw (dj_preds (fst r))) BWD fuel m;
        do sid <- node_id g s;
        do tid <- node_id g t;
        Ok (fst r, Some (path_new s sid t tid (rev f ++ b)))
    end.

  Definition answer_of (a : ast) (r : option path) : Prop :=
    match bst a with
    | None => r = None
    | Some (m, _) => exists lf lb sid tid, chain adj tgt root (prd a FWD) FWD m lf /\
        chain adj tgt root (prd a BWD) BWD m lb /\ walkg FWD m lf /\ walkg BWD m lb /\
        node_id g s = Ok sid /\ node_id g t = Ok tid /\ r = Some (path_new s sid t tid (lf ++ rev lb))
    end.

  Lemma query_sim pick (P : list entry -> nat -> Q -> dir -> list entry -> Prop) fuel st0 : valid_pick pick ->
    (forall q v c d q', P q v c d q' -> pops q v c d q') ->
    (forall k q v c d,
      nth_error q (pick k (map conc q)) = Some (v, c, d) -> P q v c d (remove_nth (pick k (map conc q)) q)) ->
    fresh st0 ->
    (exists st' r a', query pick fuel st0 = Ok (st', r) /\ arun adj tgt wq ch P (init root) a' /\ answer_of a' r) \/
    (query pick fuel st0 = Diverge /\
       ((exists a', asteps adj tgt wq ch P fuel (init root) a' /\ que a' <> []) \/
        (fuel < node_count g /\ fuel < edge_count g FWD))) \/
    (query pick fuel st0 = Panic /\ ~ routable g).
  Proof.
    intros Hv HP Hpk Hf. destruct (start_sim st0 Hf) as (st1 & E1 & H1). unfold query. rewrite E1. cbn [bind].
    assert (Hi := init_inv adj tgt wq root).
    destruct (search_sim pick P Hv HP Hpk fuel 0 st1 None _ H1 Hi) as [(st2 & b2 & a2 & E2 & Hr & Hb & Hpr)|[(E2 & Hs)|(E2 & Hn)]];
      rewrite E2; cbn [bind fst snd]; [|right; left; auto|right; right; auto].
    destruct (bst a2) as [[m b]|] eqn:Eb; rewrite Hb; cbn [option_map fst snd].
    - destruct (run_path adj tgt wq ch root adj_nonneg adj_near P HP a2 m b Hr Eb) as (lf & lb & Cf & Cb & Wf & Wb & _).
      assert (Hm : m < node_count g).
      { destruct Cf as [v _ ->|v e l _ <- Hin _]; [auto|]. apply (adj_bound _ _ _ Hin). }
      destruct (trace_cases (fw (dj_preds st2)) _ FWD m lf Cf Hm (Hpr FWD) fuel) as [Ef|[Ef Hlf]]; rewrite Ef; cbn [bind];
        [|right; left; split; auto; right; pose proof (chain_len _ _ _ _ Cf Hm); pose proof (chain_edges_len _ _ _ _ Cf); lia].
      destruct (trace_cases (bw (dj_preds st2)) _ BWD m lb Cb Hm (Hpr BWD) fuel) as [Ebb|[Ebb Hlb]]; rewrite Ebb; cbn [bind];
        [|right; left; split; auto; right; pose proof (chain_len _ _ _ _ Cb Hm); pose proof (chain_edges_len _ _ _ _ Cb); lia].
      destruct (nth_error (node_ids g) s) as [sid|] eqn:Es; [|apply nth_error_None in Es; unfold node_count in *; lia].
      destruct (nth_error (node_ids g) t) as [tid|] eqn:Et; [|apply nth_error_None in Et; unfold node_count in *; lia].
      assert (Es' : node_id g s = Ok sid) by now apply idx_ok. assert (Et' : node_id g t = Ok tid) by now apply idx_ok.
      rewrite Es', Et'. cbn [bind]. left. do 3 eexists. split; [reflexivity|]. split; [exact Hr|].
      unfold answer_of. rewrite Eb. exists lf, lb, sid, tid. rewrite rev_involutive. repeat (split; auto).
    - left. do 3 eexists. split; [reflexivity|]. split; [exact Hr|]. unfold answer_of. now rewrite Eb.
  Qed.
End Sim.
