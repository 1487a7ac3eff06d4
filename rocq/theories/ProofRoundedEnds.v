(** The search ends, whatever its arithmetic does as long as it respects the
    order *)
From Coq Require Import List Bool Arith Lia ZArith QArith.
From Verif Require Import Base F64 Lib ModelUnits ModelConfig ModelGraph ModelBuild ModelDijkstra ModelHeap ModelRounded ModelRoundedHeap
  Spec SpecRouting SpecRounded SpecRoundedHeap AbsSearch ProofDijkstra ProofRouting ProofRounded ProofRoundedRun ProofHeap ProofHeapSearch ProofRoundedHeap
  ProofRoundedAny ProofOverflow ProofExploreEnds PropsRouting.
Import ListNotations.
Open Scope nat_scope.

(** *** The order of f64 *)
Lemma fle_trans a b c : fleb a b = true -> fleb b c = true -> fleb a c = true.
Proof.
  destruct a as [a| | |], b as [b| | |], c as [c| | |]; unfold fleb; cbn [fcmp]; try discriminate; auto. intros H K.
  destruct (Qcompare_spec a b), (Qcompare_spec b c), (Qcompare_spec a c); try discriminate; auto;
    exfalso; assert (L : (a <= c)%Q); try (apply Qle_trans with b; (apply Qlt_le_weak; assumption) || (rewrite H0; apply Qle_refl) || (rewrite H1; apply Qle_refl)); apply (Qle_not_lt _ _ L); assumption.
Qed.
Lemma flt_le a b : fltb a b = true -> fleb a b = true.
Proof. unfold fltb, fleb. destruct (fcmp a b) as [[]|]; auto; discriminate. Qed.
Lemma flt_not_le a b : fltb a b = true -> fleb b a = true -> False.
Proof.
  destruct a as [a| | |], b as [b| | |]; unfold fltb, fleb; cbn [fcmp]; try discriminate.
  destruct (Qcompare_spec a b), (Qcompare_spec b a); try discriminate; intros _ _.
  - rewrite H0 in H. exact (Qlt_irrefl _ H).
  - exact (Qlt_irrefl _ (Qlt_trans _ _ _ H H0)).
Qed.
Lemma flt_le_trans a b c : fltb a b = true -> fleb b c = true -> fltb a c = true.
Proof.
  destruct a as [a| | |], b as [b| | |], c as [c| | |]; unfold fltb, fleb; cbn [fcmp]; try discriminate; auto. intros H K.
  destruct (Qcompare_spec a b) as [E1|E1|E1]; try discriminate. destruct (Qcompare_spec b c) as [E2|E2|E2]; try discriminate;
    destruct (Qcompare_spec a c) as [E3|E3|E3]; auto; exfalso.
  - rewrite E3, E2 in E1. exact (Qlt_irrefl _ E1).
  - rewrite E2 in E1. exact (Qlt_irrefl _ (Qlt_trans _ _ _ E1 E3)).
  - rewrite E3 in E1. exact (Qlt_irrefl _ (Qlt_trans _ _ _ E1 E2)).
  - exact (Qlt_irrefl _ (Qlt_trans _ _ _ (Qlt_trans _ _ _ E1 E2) E3)).
Qed.
Lemma fle_refl_lt a b : fltb a b = true -> fleb a a = true.
Proof.
  destruct a as [a| | |]; unfold fltb, fleb; cbn [fcmp]; auto.
  - intros _. destruct (Qcompare_spec a a); auto. exfalso. exact (Qlt_irrefl _ H).
Qed.

Lemma remove_nth_length {A} (l : list A) : forall i, i < length l -> S (length (remove_nth i l)) = length l.
Proof. induction l as [|x l IH]; intros [|i] L; cbn [length remove_nth] in *; try lia. rewrite IH; lia. Qed.

Lemma dir_self d : dir_eqb d d = true.
Proof. now destruct d. Qed.
Lemma dir_other d d' : d' <> d -> dir_eqb d' d = false.
Proof. destruct d, d'; auto; congruence. Qed.
Lemma dir_eqb_eq d d' : dir_eqb d' d = true -> d' = d.
Proof. destruct d, d'; auto; discriminate. Qed.

Section Ends.
  Variable ar : f64 -> f64.
  Hypothesis ar_inf : ar PInf = PInf.
  Hypothesis ar_nan : ar NaN = NaN.
  Variable g : graph.
  Hypothesis wf : wf_graph g.
  Variables s t : nat.
  Hypothesis Hs : s < node_count g.
  Hypothesis Ht : t < node_count g.
  Variable alphas : list f64.
  (** what an edge adds doesn't bring costs down *)
  Hypothesis up0 : forall e ms x, edge_metrics g e = Ok ms -> fltb (radd ar f0 (rdot ar alphas ms)) x = true ->
    fleb f0 (radd ar f0 (rdot ar alphas ms)) = true.
  Hypothesis up : forall y e ms x, edge_metrics g e = Ok ms -> fltb (radd ar (ar y) (rdot ar alphas ms)) x = true -> fleb f0 (ar y) = true ->
    fleb (ar y) (radd ar (ar y) (rdot ar alphas ms)) = true.

  Notation ok_state := (ok_state g s t).
  Notation got := (got g s t).
  Notation origin := (origin s t).

  Definition wgt (e : nat) : f64 := match edge_metrics g e with Ok ms => rdot ar alphas ms | _ => NaN end.
  Definition tgt (d : dir) (e : nat) : nat := match dst_idx g d e with Ok v => v | _ => 0 end.
  (** costs and nodes of a walk, the last edge first *)
  Fixpoint rval (l : list nat) : f64 := match l with [] => f0 | e :: l' => radd ar (rval l') (wgt e) end.
  Definition fin (d : dir) (l : list nat) : nat := match l with [] => origin d | e :: _ => tgt d e end.
  Fixpoint nodes (d : dir) (l : list nat) : list nat := match l with [] => [origin d] | e :: l' => tgt d e :: nodes d l' end.
  Definition lab (st : dijkstra) (d : dir) (v : nat) : f64 := nth v (get (dj_costs st) d) PInf.

  (** the walk doesn't come back, costs rise on it, the labels of its nodes are
      at most its costs *)
  Fixpoint wk (st : dijkstra) (d : dir) (l : list nat) : Prop :=
    match l with
    | [] => fleb (lab st d (origin d)) f0 = true
    | e :: l' => fleb (lab st d (tgt d e)) (rval l) = true /\ (exists v, dst_idx g d e = Ok v) /\ fleb (rval l') (rval l) = true /\
        ~ In (tgt d e) (nodes d l') /\ wk st d l'
    end.

  Lemma wk_top st d l : wk st d l -> fleb (lab st d (fin d l)) (rval l) = true.
  Proof. destruct l; cbn; [auto|tauto]. Qed.
  Lemma wk_node st d l : wk st d l -> forall v, In v (nodes d l) -> fleb (lab st d v) (rval l) = true.
  Proof.
    induction l as [|e l IH]; cbn [wk nodes]; [intros H v [<-|[]]; exact H|].
    intros (A & _ & B & _ & C) v [<-|Hv]; auto. exact (fle_trans _ _ _ (IH C v Hv) B).
  Qed.
  Lemma wk_pos st d l : wk st d l -> fleb f0 (rval l) = true.
  Proof. induction l as [|e l IH]; [reflexivity|]. intros (_ & _ & B & _ & C). exact (fle_trans _ _ _ (IH C) B). Qed.
  Lemma wk_less st st' d l : (forall v, fleb (lab st' d v) (lab st d v) = true \/ lab st' d v = lab st d v) -> wk st d l -> wk st' d l.
  Proof.
    intros H. assert (K : forall v x, fleb (lab st d v) x = true -> fleb (lab st' d v) x = true).
    { intros v x L. destruct (H v) as [L'|E]; [exact (fle_trans _ _ _ L' L)|now rewrite E]. }
    induction l as [|e l IH]; cbn [wk]; [apply K|]. intros (A & B & C & D & F). auto 6.
  Qed.
  Lemma wk_nodes st d l : wk st d l -> NoDup (nodes d l) /\ (forall v, In v (nodes d l) -> v < node_count g) /\
    length (nodes d l) = S (length l) /\ forall e, In e l -> e < edge_count g FWD.
  Proof.
    induction l as [|e l IH]; cbn [wk nodes length].
    - intros _. split; [constructor; [intros []|constructor]|]. split; [|split; [reflexivity|intros e []]].
      intros v [<-|[]]. now destruct d.
    - intros (_ & (v & Ev) & _ & N & W). destruct (IH W) as (A & B & C & D). split; [now constructor|]. split; [|split; [lia|]].
      + intros w [<-|Hw]; auto. unfold tgt. rewrite Ev. apply (wg_dst g wf d e v Ev).
      + intros f [<-|Hf]; auto. unfold dst_idx in Ev. apply idx_ok in Ev. assert (Lf : e < length (xwd_dsts g d)) by (apply nth_error_Some; congruence). pose proof (wg_count g wf) as Ec.
        unfold edge_count in *. destruct d; cbn [xwd_dsts] in *; lia.
  Qed.
  Definition universe : list (list nat) := AbsSearch.lists_of (edge_count g FWD) (node_count g).
  Lemma wk_universe st d l : wk st d l -> In l universe.
  Proof.
    intros H. destruct (wk_nodes _ _ _ H) as (A & B & C & D). apply AbsSearch.lists_of_in; auto.
    assert (I : incl (nodes d l) (seq 0 (node_count g))) by (intros w Hw; apply in_seq; specialize (B w Hw); lia).
    pose proof (NoDup_incl_length A I) as L. rewrite seq_length in L. lia.
  Qed.

  (** walks that would still improve a label *)
  Definition better (st : dijkstra) (d : dir) (l : list nat) : bool := fltb (rval l) (lab st d (fin d l)).
  Definition open (st : dijkstra) : nat := length (filter (better st FWD) universe) + length (filter (better st BWD) universe).

  (** tracing comes to an end *)
  Inductive rooted (ps : list (option nat)) (d : dir) : nat -> Prop :=
  | rooted_none v : nth_error ps v = Some None -> rooted ps d v
  | rooted_some v e u : nth_error ps v = Some (Some e) -> dst_idx g (opp d) e = Ok u -> rooted ps d u -> rooted ps d v.

  Record end_inv (st : dijkstra) : Prop := {
    ei_queue : forall c, In c (dj_queue st) -> exists l, fin (cn_dir c) l = cn_idx c /\ rval l = cn_cost c /\ wk st (cn_dir c) l;
    ei_pred : forall d v e u, v < node_count g -> nth_error (get (dj_preds st) d) v = Some (Some e) -> dst_idx g (opp d) e = Ok u ->
                fleb (lab st d u) (lab st d v) = true;
    ei_root : forall d v, v < node_count g -> rooted (get (dj_preds st) d) d v;
  }.

  Lemma lab_relaxed enqueue d e v x st st' : relax_edge enqueue d e v x st = Ok st' ->
    (st' = st /\ fltb x (lab st d v) = false) \/
    (v < length (get (dj_preds st) d) /\ fltb x (lab st d v) = true /\
     dj_queue st' = (if enqueue then mkCN v x d :: dj_queue st else dj_queue st) /\
     dj_preds st' = put (dj_preds st) d (upd (get (dj_preds st) d) v (Some e)) /\
     forall d' w, lab st' d' w = if dir_eqb d' d && (w =? v) then x else lab st d' w).
  Proof.
    intros E. unfold relax_edge in E. apply bind_ok in E. destruct E as (old & Eold & E). apply idx_ok in Eold.
    assert (El : lab st d v = old) by (unfold lab; now apply nth_error_nth). rewrite El.
    destruct (fltb x old); [|injection E as <-; auto]. right.
    apply bind_ok in E. destruct E as (ps & Eps & E). apply bind_ok in E. destruct E as (cs & Ecs & E). injection E as <-.
    apply set_ok in Eps, Ecs. destruct Eps as [Lp ->], Ecs as [Lc ->]. do 4 (split; [now auto|]).
    intros d' w. unfold lab. cbn [dj_costs]. destruct (dir_dec d' d) as [->|N].
    - rewrite get_put_same. replace (dir_eqb d d) with true by now destruct d. cbn [andb].
      destruct (Nat.eqb_spec w v) as [->|Nw].
      + apply nth_error_nth. rewrite upd_nth by auto. now rewrite Nat.eqb_refl.
      + pose proof (upd_nth (get (dj_costs st) d) v w x Lc) as U. destruct (Nat.eqb_spec w v) as [|_]; [easy|].
        destruct (nth_error (get (dj_costs st) d) w) as [y|] eqn:Ey.
        * now rewrite (nth_error_nth _ _ _ U), (nth_error_nth _ _ _ Ey).
        * rewrite !nth_overflow; auto; [now apply nth_error_None|]. rewrite upd_length. now apply nth_error_None.
    - rewrite get_put_other by auto. replace (dir_eqb d' d) with false by now destruct d, d'. reflexivity.
  Qed.

  Definition walk_of (st : dijkstra) (c : costnode) : Prop :=
    exists l, fin (cn_dir c) l = cn_idx c /\ rval l = cn_cost c /\ wk st (cn_dir c) l.

  Lemma end_relax_edge enqueue c e v ms st st' : end_inv st -> walk_of st c ->
    dst_idx g (cn_dir c) e = Ok v -> dst_idx g (opp (cn_dir c)) e = Ok (cn_idx c) -> edge_metrics g e = Ok ms ->
    relax_edge enqueue (cn_dir c) e v (radd ar (cn_cost c) (rdot ar alphas ms)) st = Ok st' ->
    end_inv st' /\ (forall c, walk_of st c -> walk_of st' c) /\ length (dj_queue st') + open st' <= length (dj_queue st) + open st.
  Proof.
    intros [Hq Hp Hr] (l & Fl & Vl & Wl) Ev Eu Em E. set (d := cn_dir c) in *. set (u := cn_idx c) in *.
    set (x := radd ar (cn_cost c) (rdot ar alphas ms)) in *.
    destruct (lab_relaxed _ _ _ _ _ _ _ E) as [[-> _]|(Lv & Lt & Eq & Ep & EL)]; [split; [constructor; auto|]; auto|].
    assert (Ex : rval (e :: l) = x) by (cbn [rval]; unfold wgt; rewrite Em, Vl; reflexivity).
    assert (Hup : fleb (cn_cost c) x = true).
    { rewrite <- Vl. pose proof (wk_pos _ _ _ Wl) as P. subst x. rewrite <- Vl in *. destruct l as [|e' l']; cbn [rval] in *.
      - eapply up0; eauto.
      - unfold radd at 1 in P. unfold radd at 1 3. eapply up; eauto. }
    assert (Lu : fleb (lab st d u) x = true) by (apply fle_trans with (cn_cost c); auto; rewrite <- Vl, <- Fl; now apply wk_top).
    assert (less : forall d' w, fleb (lab st' d' w) (lab st d' w) = true \/ lab st' d' w = lab st d' w).
    { intros d' w. rewrite EL. destruct (dir_eqb d' d) eqn:Ed, (Nat.eqb_spec w v) as [->|]; cbn [andb]; auto.
      apply dir_eqb_eq in Ed. subst d'. left. now apply flt_le. }
    assert (keep : forall c, walk_of st c -> walk_of st' c).
    { intros c' (l' & A & B & C). exists l'. split; auto. split; auto. eapply wk_less; eauto. }
    assert (Tv : tgt d e = v) by (unfold tgt; now rewrite Ev).
    assert (Lnew : lab st' d v = x) by (rewrite EL, Nat.eqb_refl, dir_self; reflexivity).
    assert (Rx : fleb x x = true) by (eapply fle_refl_lt; eauto).
    assert (Nv : ~ In v (nodes d l)).
    { intros K. apply (flt_not_le _ _ Lt). apply fle_trans with (cn_cost c); auto. rewrite <- Vl. now apply wk_node. }
    assert (Wn : forall st2, lab st2 d v = x -> wk st2 d l -> wk st2 d (e :: l)).
    { intros st2 L2 W2. cbn [wk]. rewrite Tv, L2, Ex, Vl. split; auto. split; [eauto|]. auto. }
    assert (Wl' : wk st' d l) by (eapply wk_less; eauto).
    assert (Hroot : forall w, rooted (get (dj_preds st) d) d w -> w < node_count g -> fleb (lab st d w) x = true -> rooted (get (dj_preds st') d) d w).
    { assert (D : forall w, fleb (lab st d w) x = true -> nth_error (get (dj_preds st') d) w = nth_error (get (dj_preds st) d) w).
      { intros w K. rewrite Ep, get_put_same, upd_nth by auto. destruct (Nat.eqb_spec w v) as [->|]; auto. exfalso. exact (flt_not_le _ _ Lt K). }
      induction 1 as [w K|w f u' K Eu' _ IH]; intros Hw Lw; [apply rooted_none; now rewrite D|].
      eapply rooted_some; [rewrite (D w Lw); exact K|exact Eu'|]. apply IH; [apply (wg_dst g wf (opp d) f u' Eu')|]. apply fle_trans with (lab st d w); auto. eapply Hp; eauto. }
    assert (less' : forall d' w y, fleb (lab st d' w) y = true -> fleb (lab st' d' w) y = true).
    { intros d' w y K. destruct (less d' w) as [L|L]; [exact (fle_trans _ _ _ L K)|now rewrite L]. }
    split; [constructor|split; [exact keep|]].
    - intros c' Hc'. rewrite Eq in Hc'. assert (Hc : c' = mkCN v x d \/ In c' (dj_queue st)) by (destruct enqueue; [destruct Hc'; auto|auto]).
      destruct Hc as [->|Hc]; [|exact (keep _ (Hq _ Hc))]. exists (e :: l). cbn [cn_dir cn_idx cn_cost]. split; [exact Tv|]. split; [exact Ex|]. apply Wn; auto.
    - intros d' w f u' Hw K Eu'. rewrite Ep in K. destruct (dir_dec d' d) as [->|N].
      + rewrite get_put_same, upd_nth in K by auto. destruct (Nat.eqb_spec w v) as [->|Nw].
        * injection K as <-. assert (u' = u) by congruence. subst u'. rewrite Lnew. now apply less'.
        * rewrite (EL d w). destruct (Nat.eqb_spec w v); [easy|]. rewrite andb_false_r. apply less'. eapply Hp; eauto.
      + rewrite get_put_other in K by auto. rewrite (EL d' w). rewrite (dir_other _ _ N). cbn [andb].
        apply less'. eapply Hp; eauto.
    - intros d' w Lw. destruct (dir_dec d' d) as [->|N].
      + assert (Rv : rooted (get (dj_preds st') d) d v).
        { eapply rooted_some; [|exact Eu|apply Hroot; auto].
          - rewrite Ep, get_put_same, upd_nth, Nat.eqb_refl by auto. reflexivity.
          - apply Hr. apply (wg_dst g wf (opp d) e u Eu).
          - apply (wg_dst g wf (opp d) e u Eu). }
        specialize (Hr d w Lw). induction Hr as [w K|w f u' K Eu' _ IH].
        * destruct (Nat.eq_dec w v) as [->|Nw]; auto. apply rooted_none. rewrite Ep, get_put_same, upd_nth by auto.
          destruct (Nat.eqb_spec w v); [easy|auto].
        * destruct (Nat.eq_dec w v) as [->|Nw]; auto. eapply rooted_some; [|exact Eu'|].
          -- rewrite Ep, get_put_same, upd_nth by auto. destruct (Nat.eqb_spec w v); [easy|exact K].
          -- apply IH. apply (wg_dst g wf (opp d) f u' Eu').
      + rewrite Ep, get_put_other by auto. now apply Hr.
    - assert (B : forall d' l', better st' d' l' = true -> better st d' l' = true).
      { unfold better. intros d' l' K. destruct (less d' (fin d' l')) as [L|L]; [exact (flt_le_trans _ _ _ K L)|now rewrite L in K]. }
      assert (In (e :: l) universe) by (eapply wk_universe with (st := st') (d := d); apply Wn; auto).
      destruct (filter_shorter (better st' FWD) (better st FWD) universe) as [F1 F2]; [auto|].
      destruct (filter_shorter (better st' BWD) (better st BWD) universe) as [B1 B2]; [auto|].
      assert (Hnew : better st d (e :: l) = true /\ better st' d (e :: l) = false).
      { unfold better. rewrite Ex. cbn [fin]. rewrite Tv, Lnew. split; auto. destruct (fltb x x) eqn:K; auto. exfalso. exact (flt_not_le _ _ K Rx). }
      assert (Q : length (dj_queue st') <= S (length (dj_queue st))) by (rewrite Eq; destruct enqueue; cbn; lia).
      unfold open. clear - Hnew H F1 F2 B1 B2 Q. destruct d.
      + enough (length (filter (better st' FWD) universe) < length (filter (better st FWD) universe)) by lia. apply F2. exists (e :: l). tauto.
      + enough (length (filter (better st' BWD) universe) < length (filter (better st BWD) universe)) by lia. apply B2. exists (e :: l). tauto.
  Qed.

  Lemma end_relax enqueue c : forall es st st', end_inv st -> walk_of st c ->
    (forall e, In e es -> dst_idx g (opp (cn_dir c)) e = Ok (cn_idx c)) ->
    rrelax ar g alphas enqueue c es st = Ok st' ->
    end_inv st' /\ length (dj_queue st') + open st' <= length (dj_queue st) + open st.
  Proof.
    induction es as [|e es IH]; intros st st' H W Hes E; cbn [rrelax] in E; [injection E as <-; auto|].
    apply bind_ok in E. destruct E as (v & Ev & E). apply bind_ok in E. destruct E as (down & _ & E).
    destruct down; [injection E as <-; auto|]. apply bind_ok in E. destruct E as (ms & Em & E).
    apply bind_ok in E. destruct E as (st1 & E1 & E).
    destruct (end_relax_edge _ _ _ _ _ _ _ H W Ev (Hes e (or_introl eq_refl)) Em E1) as (H1 & K1 & L1).
    destruct (IH st1 st' H1 (K1 _ W) (fun f Hf => Hes f (or_intror Hf)) E) as (H2 & L2). split; auto. lia.
  Qed.

  Lemma end_same st st' : dj_queue st' = dj_queue st -> dj_costs st' = dj_costs st -> dj_preds st' = dj_preds st ->
    (end_inv st -> end_inv st') /\ (forall c, walk_of st c -> walk_of st' c) /\ open st' = open st.
  Proof.
    intros Eq Ec Ep. assert (EL : forall d v, lab st' d v = lab st d v) by (intros; unfold lab; now rewrite Ec).
    assert (K : forall c, walk_of st c -> walk_of st' c).
    { intros c (l & A & B & C). exists l. split; auto. split; auto. eapply wk_less; [|exact C]. intros v. right. apply EL. }
    split; [|split; [exact K|]].
    - intros [Hq Hp Hr]. constructor.
      + intros c Hc. rewrite Eq in Hc. apply K, Hq, Hc.
      + intros d v e u L A B. rewrite Ep in A. rewrite !EL. eauto.
      + intros d v L. rewrite Ep. auto.
    - unfold open. f_equal; f_equal; apply filter_ext; intros l; unfold better; now rewrite EL.
  Qed.

  Lemma end_iteration st best c st' best' : end_inv st -> walk_of st c -> cn_idx c < node_count g ->
    riteration ar g alphas st best c = Ok (st', best') ->
    end_inv st' /\ length (dj_queue st') + open st' <= length (dj_queue st) + open st.
  Proof.
    intros H W Lc E. unfold riteration in E. apply bind_ok in E. destruct E as (imp & _ & E).
    destruct imp; cbn [negb] in E; [|injection E as <- _; auto].
    apply bind_ok in E. destruct E as (st1 & E1 & E).
    assert (S1 : dj_queue st1 = dj_queue st /\ dj_costs st1 = dj_costs st /\ dj_preds st1 = dj_preds st).
    { unfold visit in E1. destruct (dj_ch st); [injection E1 as <-; auto|].
      apply bind_ok in E1. destruct E1 as (vs & _ & E1). injection E1 as <-. auto. }
    destruct S1 as (Q1 & C1 & P1). destruct (end_same st st1 Q1 C1 P1) as (I1 & W1 & O1).
    apply bind_ok in E. destruct E as ([best1 over] & _ & E). destruct over.
    - injection E as <- _. set (st2 := with_found _ _). destruct (end_same st1 st2 eq_refl eq_refl eq_refl) as (I2 & W2 & O2).
      split; auto. rewrite O2, O1. change (dj_queue st2) with (dj_queue st1). rewrite Q1. lia.
    - apply bind_ok in E. destruct E as (es & Ees & E). apply bind_ok in E. destruct E as (st2 & E2 & E). injection E as <- _.
      assert (Hes : forall e, In e es -> dst_idx g (opp (cn_dir c)) e = Ok (cn_idx c)).
      { destruct (wg_start g wf (cn_dir c) (cn_idx c) Lc) as [(l & El & _ & Hl)|[El _]]; [|congruence].
        assert (l = es) by congruence. subst l. intros e. apply Hl. }
      destruct (end_relax _ _ _ _ _ (I1 H) (W1 _ W) Hes E2) as (I2 & L2).
      split; auto. rewrite O1, Q1 in L2. exact L2.
  Qed.

  Lemma iteration_ends st best c : riteration ar g alphas st best c <> Diverge.
  Proof.
    assert (T : forall st, rtotal_cost ar st c <> Diverge).
    { intros. unfold rtotal_cost. apply bind_ends; [apply idx_ends|]. intros. apply bind_ends; [apply idx_ends|]. discriminate. }
    unfold riteration. apply bind_ends; [unfold has_improved; apply bind_ends; [apply idx_ends|discriminate]|]. intros [] _; cbn [negb]; [|discriminate].
    apply bind_ends; [unfold visit; destruct (dj_ch st); [discriminate|apply bind_ends; [apply set_ends|discriminate]]|]. intros st1 _.
    apply bind_ends.
    { unfold rmeet. destruct best as [[m b]|].
      - destruct (fgtb _ _); [discriminate|]. apply bind_ends; [apply T|discriminate].
      - apply bind_ends; [unfold is_meeting; destruct (dj_ch st1); [apply bind_ends; [apply idx_ends|discriminate]|apply idx_ends]|].
        intros [] _; [|discriminate]. apply bind_ends; [apply T|discriminate]. }
    intros [b1 []] _; [discriminate|]. apply bind_ends.
    { unfold starting_from. apply bind_ends; [apply idx_ends|]. intros. apply bind_ends; [apply idx_ends|]. intros. apply mapM_ends. intros. apply idx_ends. }
    intros es _. apply bind_ends; [|discriminate]. generalize (dj_ch st1 || match b1 with None => true | _ => false end). intros b.
    revert st1. induction es as [|e es IH]; intros st1; cbn [rrelax]; [discriminate|].
    apply bind_ends; [apply idx_ends|]. intros v _. apply bind_ends.
    { destruct (dj_ch st1); [|discriminate]. apply bind_ends; [apply idx_ends|]. intros. apply bind_ends; [apply idx_ends|discriminate]. }
    intros [] _; [discriminate|]. apply bind_ends; [apply idx_ends|]. intros ms _. apply bind_ends; [|intros; apply IH].
    unfold relax_edge. apply bind_ends; [apply idx_ends|]. intros old _. destruct (fltb _ _); [|discriminate].
    apply bind_ends; [apply set_ends|]. intros ps _. apply bind_ends; [apply set_ends|discriminate].
  Qed.

  Lemma end_search pick : forall fuel k st best, end_inv st -> ok_state st -> met g s t st best ->
    (forall st' best', rsearch ar pick g alphas fuel k st best = Ok (st', best') -> end_inv st') /\
    (length (dj_queue st) + open st <= fuel -> rsearch ar pick g alphas fuel k st best <> Diverge).
  Proof.
    induction fuel as [|fuel IH]; intros k st best H O M; cbn [rsearch].
    - destruct (dj_queue st); split; try discriminate; [|cbn; lia]. intros st' best' E. now injection E as <- <-.
    - destruct (dj_queue st) as [|q0 qs] eqn:Eq; [split; [|discriminate]; intros st' best' E; now injection E as <- <-|]. rewrite <- Eq.
      destruct (idx (dj_queue st) (pick k (dj_queue st))) as [c| | |] eqn:Ec; cbn [bind]; try (split; discriminate).
      2:{ exfalso. revert Ec. apply idx_ends. }
      apply idx_ok in Ec. set (st0 := with_queue st (remove_nth (pick k (dj_queue st)) (dj_queue st))) in *.
      assert (O0 : ok_state st0).
      { destruct O as [Op Oq Oc Ov]. constructor; auto. intros x Hx. apply Oq. exact (remove_nth_in _ _ _ Hx). }
      assert (WK : forall c, walk_of st c -> walk_of st0 c).
      { intros c' (l & A & B & C). exists l. split; auto. split; auto. eapply wk_less; [|exact C]. intros v. now right. }
      assert (H0 : end_inv st0).
      { destruct H as [Hq Hp Hr]. constructor; auto. intros x Hx. apply WK, Hq. exact (remove_nth_in _ _ _ Hx). }
      assert (M0 : met g s t st0 best) by exact M.
      pose proof (nth_error_In _ _ Ec) as Hin.
      assert (Lq : S (length (dj_queue st0)) = length (dj_queue st)).
      { apply remove_nth_length. apply nth_error_Some. congruence. }
      destruct (has_found st0); [split; [|discriminate]; intros st' best' E; now injection E as <- <-|].
      pose proof (os_queue _ _ _ _ O c Hin) as G. pose proof (WK _ (ei_queue _ H c Hin)) as W.
      destruct (riteration ar g alphas st0 best c) as [[st1 b1]| | |] eqn:E1; cbn [bind fst snd]; try (split; discriminate).
      2:{ exfalso. revert E1. apply iteration_ends. }
      destruct (any_iteration ar ar_inf ar_nan g wf s t alphas st0 best c st1 b1 O0 G M0 E1) as [O1 M1].
      destruct (end_iteration st0 best c st1 b1 H0 W (proj1 G) E1) as [H1 L1].
      destruct (IH (S k) st1 b1 H1 O1 M1) as [A B]. split; [exact A|]. intros L. apply B.
      assert (open st0 = open st) by reflexivity. lia.
  Qed.

  Lemma end_start ch st0 st1 : fresh g ch st0 -> start s t st0 = Ok st1 -> end_inv st1 /\ length (dj_queue st1) = 2.
  Proof.
    intros F E. unfold start in E. apply bind_ok in E. destruct E as (cf & Ef & E). apply bind_ok in E. destruct E as (cb & Eb & E).
    injection E as <-. apply set_ok in Ef, Eb. destruct Ef as [Lf ->], Eb as [Lb ->].
    split; [|cbn [dj_queue length]; now rewrite (f_que _ _ _ F)].
    constructor; cbn [dj_preds dj_queue].
    - intros c [<-|[<-|Hc]]; [| |rewrite (f_que _ _ _ F) in Hc; destruct Hc]; exists []; split; [reflexivity|split; [reflexivity|]|reflexivity|split; [reflexivity|]];
        cbn [wk ProofRoundedAny.origin]; unfold lab; cbn [get dj_costs fw bw cn_dir].
      + rewrite (nth_error_nth _ _ PInf (x := f0)); [reflexivity|]. now rewrite upd_nth, Nat.eqb_refl by auto.
      + rewrite (nth_error_nth _ _ PInf (x := f0)); [reflexivity|]. now rewrite upd_nth, Nat.eqb_refl by auto.
    - intros d v e u Lv K Eu. exfalso. rewrite (f_pred _ _ _ F d v Lv) in K. discriminate.
    - intros d v Lv. apply rooted_none. apply (f_pred _ _ _ F d v Lv).
  Qed.

  Lemma open_bound st : open st <= 2 * powers (edge_count g FWD) (node_count g).
  Proof.
    unfold open. rewrite <- powers_lists. fold universe.
    assert (L : forall f, length (filter f universe) <= length universe).
    { intros f. induction universe as [|a l IH]; cbn; auto. destruct (f a); cbn; lia. }
    pose proof (L (better st FWD)). pose proof (L (better st BWD)). lia.
  Qed.

  Lemma trace_more ps d : forall fuel v l, trace g ps d fuel v = Ok l -> forall fuel', length l <= fuel' -> trace g ps d fuel' v = Ok l.
  Proof.
    induction fuel as [|fuel IH]; intros v l E fuel' L; cbn [trace] in E; apply bind_ok in E; destruct E as (p & Ep & E);
      destruct p as [e|]; try discriminate.
    1, 3: injection E as <-; destruct fuel'; cbn [trace]; rewrite Ep; reflexivity.
    apply bind_ok in E. destruct E as (u & Eu & E). apply bind_ok in E. destruct E as (l' & El & E). injection E as <-.
    destruct fuel' as [|fuel']; cbn [length] in L; [lia|]. cbn [trace]. rewrite Ep. cbn [bind]. rewrite Eu. cbn [bind].
    rewrite (IH _ _ El fuel') by lia. reflexivity.
  Qed.
  Lemma rooted_trace ps d v : rooted ps d v -> exists fuel l, trace g ps d fuel v = Ok l.
  Proof.
    induction 1 as [v K|v e u K Eu _ (fuel & l & IH)].
    - exists 0, []. cbn [trace]. unfold idx. rewrite K. reflexivity.
    - exists (S fuel), (e :: l). cbn [trace]. unfold idx. rewrite K. cbn [bind]. rewrite Eu. cbn [bind]. rewrite IH. reflexivity.
  Qed.
  Lemma end_trace st d v fuel : end_inv st -> ok_state st -> got st d v -> 2 + 2 * powers (edge_count g FWD) (node_count g) <= fuel ->
    exists l, trace g (get (dj_preds st) d) d fuel v = Ok l.
  Proof.
    intros H O G L. destruct (rooted_trace _ _ _ (ei_root _ H d v (proj1 G))) as (f & l & E).
    pose proof (any_short g s t Hs Ht st d O f v l G E) as S. exists l. apply (trace_more _ _ _ _ _ E fuel).
    destruct l as [|e l]; [cbn; lia|]. assert (Le : 1 <= edge_count g FWD).
    { destruct f as [|f]; cbn [trace] in E; apply bind_ok in E; destruct E as (p & Ep & E); destruct p as [e'|]; try discriminate.
      apply idx_ok in Ep. destruct (os_pred _ _ _ _ O d v e' (proj1 G) Ep) as (Ev & _). unfold dst_idx in Ev. apply idx_ok in Ev.
      assert (Lf : e' < length (xwd_dsts g d)) by (apply nth_error_Some; congruence). pose proof (wg_count g wf) as Ec.
      unfold edge_count in *. destruct d; lia. }
    pose proof (powers_ge (edge_count g FWD) (node_count g) Le). lia.
  Qed.

  Lemma end_query ch pick fuel st0 : fresh g ch st0 -> 2 + 2 * powers (edge_count g FWD) (node_count g) <= fuel ->
    rquery ar g alphas s t pick fuel st0 <> Diverge.
  Proof.
    intros F L2. unfold rquery. apply bind_ends.
    { unfold start. apply bind_ends; [apply set_ends|]. intros. apply bind_ends; [apply set_ends|discriminate]. }
    intros st1 E1. destruct (end_start _ _ _ F E1) as [H1 Q1]. pose proof (any_start g s t Hs Ht ch _ _ F E1) as O1.
    assert (M1 : met g s t st1 None) by (intros ? ? K; discriminate K).
    destruct (end_search pick fuel 0 st1 None H1 O1 M1) as [A B]. apply bind_ends.
    { apply B. pose proof (open_bound st1). lia. }
    intros [st2 best] E2. destruct (any_search ar ar_inf ar_nan g wf s t alphas pick _ _ _ _ _ _ O1 M1 E2) as [O2 M2].
    specialize (A _ _ E2). cbn [fst snd]. destruct best as [[m b]|]; [|discriminate]. destruct (M2 m b eq_refl) as [Gf Gb].
    apply bind_ends; [destruct (end_trace st2 FWD m fuel A O2 Gf L2) as (l & El); cbn [get] in El; rewrite El; discriminate|]. intros f _.
    apply bind_ends; [destruct (end_trace st2 BWD m fuel A O2 Gb L2) as (l & El); cbn [get] in El; rewrite El; discriminate|]. intros b' _.
    apply bind_ends; [apply idx_ends|]. intros sid _. apply bind_ends; [apply idx_ends|discriminate].
  Qed.
End Ends.

(** *** Rounding that respects the order, with overflow *)
Section Overflow.
  Variables (u eta : Q) (rnd : Q -> Q) (top : Q).
  Hypothesis R : rounding u eta rnd.
  Hypothesis top_nonneg : (0 <= top)%Q.
  Notation ar := (ofin rnd top).

  Lemma ofin_up y w : not_negative w -> fleb f0 (ar y) = true -> radd ar (ar y) w <> NaN -> fleb (ar y) (radd ar (ar y) w) = true.
  Proof.
    intros Hw Hy Hn. unfold radd in *. destruct y as [q| | |]; cbn [ofin] in *; try discriminate Hy.
    - destruct (Qle_bool (rnd q) top) eqn:E1.
      + destruct (Qle_bool (- top) (rnd q)) eqn:E2; [|discriminate Hy].
        destruct w as [w| | |]; cbn [fadd ofin] in *; try contradiction; try reflexivity; try (exfalso; congruence).
        cbn [not_negative] in Hw. assert (L : (rnd q <= rnd (rnd q + w))%Q).
        { rewrite <- (r_idem _ _ _ R q) at 1. apply (r_mono _ _ _ R). rewrite <- (Qplus_0_r (rnd q)) at 1. apply Qplus_le_compat; [apply Qle_refl|exact Hw]. }
        destruct (Qle_bool (rnd (rnd q + w)) top) eqn:E3; [|reflexivity].
        apply Qle_bool_iff in E2. assert (E4 : Qle_bool (- top) (rnd (rnd q + w)) = true) by (apply Qle_bool_iff; exact (Qle_trans _ _ _ E2 L)).
        rewrite E4. unfold fleb. cbn [fcmp]. destruct (Qcompare_spec (rnd q) (rnd (rnd q + w))); auto. exfalso. exact (Qlt_not_le _ _ H L).
      + destruct w as [w| | |]; cbn [fadd ofin] in *; try contradiction; try reflexivity; try (exfalso; congruence).
    - destruct w as [w| | |]; cbn [fadd ofin] in *; try contradiction; try reflexivity; try (exfalso; congruence).
  Qed.

  Lemma ofin_weight g alphas e ms : nonneg_metrics g -> Forall not_negative alphas -> edge_metrics g e = Ok ms -> not_negative (rdot ar alphas ms).
  Proof.
    intros Hg Ha Em. apply rdot_from_nn; auto.
    - intros x. now apply (ofin_nn u eta rnd R).
    - apply Forall_forall. intros x. now apply (Hg e ms).
    - cbn. apply Qle_refl.
  Qed.

  Lemma ofin_query_ends g alphas s t ch pick fuel st0 : wf_graph g -> nonneg_metrics g -> Forall not_negative alphas ->
    s < node_count g -> t < node_count g -> fresh g ch st0 ->
    2 + 2 * powers (edge_count g FWD) (node_count g) <= fuel ->
    rquery ar g alphas s t pick fuel st0 <> Diverge.
  Proof.
    intros Hwf Hg Ha Hs Ht F L2. apply (end_query ar) with (ch := ch); auto.
    - intros e ms x Em Lt. pose proof (ofin_weight g alphas e ms Hg Ha Em) as W. set (w := rdot ar alphas ms) in *.
      assert (P : not_negative (radd ar f0 w)).
      { apply (ofin_nn u eta rnd R); auto. apply fadd_not_negative; auto. cbn. apply Qle_refl. }
      destruct (radd ar f0 w) as [q| | |]; cbn [not_negative] in P; try contradiction; try reflexivity.
      + unfold fleb, f0. cbn [fcmp]. destruct (Qcompare_spec 0 q); auto. exfalso. exact (Qlt_not_le _ _ H P).
      + destruct x; discriminate Lt.
    - intros y e ms x Em Lt P. apply ofin_up; auto.
      + exact (ofin_weight g alphas e ms Hg Ha Em).
      + intros E. rewrite E in Lt. destruct x; discriminate Lt.
  Qed.

  (** queries of the program come to an end, whatever the weights are *)
  Lemma ofin_path_ends g fuel st rc s t pick : wf_graph g -> nonneg_metrics g -> rhistory st -> roomy st g ->
    s < node_count g -> t < node_count g ->
    2 + 2 * powers (edge_count g FWD) (node_count g) <= fuel ->
    rcompute_best_path ar pick fuel st g rc s t <> Diverge.
  Proof.
    intros Hwf Hg Hh Hr Hs Ht L2 E. destruct (rcompute_diverge _ _ _ _ _ _ _ _ Hh Hr E) as (Ha & st0 & F & Ed).
    revert Ed. apply (ofin_query_ends g (rc_alphas rc) s t (is_ch (rc_algo rc))); auto.
  Qed.
  Lemma ofin_path_h_ends g fuel st rc s t : wf_graph g -> nonneg_metrics g -> rhistory_h st -> roomy st g ->
    s < node_count g -> t < node_count g ->
    2 + 2 * powers (edge_count g FWD) (node_count g) <= fuel ->
    rcompute_best_path_h ar fuel st g rc s t <> Diverge.
  Proof.
    intros Hwf Hg Hh Hr Hs Ht L2 E. destruct (rp_history st Hh) as (st0 & Hh0 & S0).
    destruct (rp_query ar g rc fuel st0 st s t S0) as (pick & K). rewrite E in K.
    destruct (rcompute_best_path ar pick fuel st0 g rc s t) as [[st1 r]| | |] eqn:E1; cbn [alike] in K; try contradiction.
    revert E1. apply ofin_path_ends; auto. intros E2. specialize (Hr E2). unfold capacity in *. now rewrite (sm_costs _ _ S0).
  Qed.
End Overflow.
