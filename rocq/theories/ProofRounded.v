(** The search with rounding follows the abstract search of AbsRounded.v *)
From Coq Require Import String List Bool Arith ZArith QArith Lqa Lia Permutation Sorted.
From Verif Require Import Base F64 Lib ModelUnits ModelConfig ModelGraph ModelBuild ModelDijkstra
  Spec SpecRouting AbsSearch ProofDijkstra ModelRounded SpecRounded AbsRounded.
Import ListNotations.
Open Scope nat_scope.

(** *** Powers and numbers *)
Lemma pow_S q n : pow q (S n) = (q * pow q n)%Q.
Proof. reflexivity. Qed.
Lemma pow_nonneg q n : (0 <= q)%Q -> (0 <= pow q n)%Q.
Proof. intros H. induction n as [|n IH]; simpl; [lra|]. now apply Qmult_le_0_compat. Qed.
Lemma pow_ge_1 q n : (1 <= q)%Q -> (1 <= pow q n)%Q.
Proof.
  intros H. induction n as [|n IH]; simpl; [lra|].
  assert (0 <= (q - 1) * pow q n)%Q by (apply Qmult_le_0_compat; lra). lra.
Qed.
Lemma pow_grow q n k : (1 <= q)%Q -> n <= k -> (pow q n <= pow q k)%Q.
Proof.
  intros H. induction 1 as [|k Hk IH]; [apply Qle_refl|]. simpl.
  pose proof (pow_ge_1 q k H). assert (0 <= (q - 1) * pow q k)%Q by (apply Qmult_le_0_compat; lra). lra.
Qed.
Lemma pow_shrink q n k : (0 <= q)%Q -> (q <= 1)%Q -> n <= k -> (pow q k <= pow q n)%Q.
Proof.
  intros H H1. induction 1 as [|k Hk IH]; [apply Qle_refl|]. simpl.
  pose proof (pow_nonneg q k H). assert (0 <= (1 - q) * pow q k)%Q by (apply Qmult_le_0_compat; lra). lra.
Qed.
Lemma nq_plus a b : (nq (a + b) == nq a + nq b)%Q.
Proof. unfold nq. rewrite Nat2Z.inj_add, inject_Z_plus. reflexivity. Qed.
Lemma nq_S a : (nq (S a) == nq a + 1)%Q.
Proof. rewrite <- Nat.add_1_r. rewrite nq_plus. reflexivity. Qed.
Lemma nq_nonneg a : (0 <= nq a)%Q.
Proof. unfold nq. change 0%Q with (inject_Z 0). rewrite <- Zle_Qle. lia. Qed.
Lemma nq_mono a b : a <= b -> (nq a <= nq b)%Q.
Proof. intros H. unfold nq. rewrite <- Zle_Qle. lia. Qed.

(** a whole query on blank arrays *)
Definition rquery (ar : f64 -> f64) (g : graph) (alphas : list f64) (s t : nat)
  (pick : nat -> list costnode -> nat) (fuel : nat) (st0 : dijkstra) : res (dijkstra * option path) :=
  do st1 <- start s t st0;
  do r <- rsearch ar pick g alphas fuel 0 st1 None;
  match snd r with
  | None => Ok (fst r, None)
  | Some (m, _) =>
      do f <- trace g (fw (dj_preds (fst r))) FWD fuel m;
      do b <- trace g (bw (dj_preds (fst r))) BWD fuel m;
      do sid <- node_id g s;
      do tid <- node_id g t;
      Ok (fst r, Some (path_new s sid t tid (rev f ++ b)))
  end.

Section Sim.
  Variables (u eta : Q) (rnd : Q -> Q).
  Hypothesis R : rounding u eta rnd.

  (** *** A number that was calculated instead of [a]: [k] roundings on top of
      each other, [j] altogether *)
  Definition near (k j : nat) (a x : Q) : Prop :=
    (0 <= a)%Q /\ (pow (1 - u) k * a <= x + nq j * eta)%Q /\ (x <= pow (1 + u) k * (a + nq j * eta))%Q.

  Lemma rnd_nonneg x : (0 <= x)%Q -> (0 <= rnd x)%Q.
  Proof. intros H. pose proof (r_mono _ _ _ R _ _ H). pose proof (r_zero _ _ _ R). lra. Qed.
  Lemma rnd_proper x y : (x == y)%Q -> (rnd x == rnd y)%Q.
  Proof.
    intros E. assert ((x <= y)%Q /\ (y <= x)%Q) as [A B] by (split; lra).
    pose proof (r_mono _ _ _ R _ _ A). pose proof (r_mono _ _ _ R _ _ B). lra.
  Qed.
  Lemma near_proper k j a b x y : (a == b)%Q -> (x == y)%Q -> near k j a x -> near k j b y.
  Proof. intros E F (A & B & C). split; [lra|]. split; [rewrite <- E, <- F; auto|rewrite <- E, <- F; auto]. Qed.
  Lemma near_weaken k j k' j' a x : k <= k' -> j <= j' -> near k j a x -> near k' j' a x.
  Proof.
    intros Hk Hj (A & B & C). destruct (r_u _ _ _ R) as [U1 U2]. pose proof (r_eta _ _ _ R) as E.
    pose proof (nq_mono _ _ Hj) as Hn. pose proof (nq_nonneg j) as Hj0.
    assert (He : (nq j * eta <= nq j' * eta)%Q) by (apply Qmult_le_compat_r; auto).
    assert (He0 : (0 <= nq j * eta)%Q) by (apply Qmult_le_0_compat; auto).
    split; [auto|]. split.
    - assert (pow (1 - u) k' * a <= pow (1 - u) k * a)%Q by (apply Qmult_le_compat_r; auto; apply pow_shrink; auto; lra). lra.
    - assert (pow (1 + u) k * (a + nq j * eta) <= pow (1 + u) k' * (a + nq j * eta))%Q
        by (apply Qmult_le_compat_r; [apply pow_grow; auto; lra|lra]).
      assert (pow (1 + u) k' * (a + nq j * eta) <= pow (1 + u) k' * (a + nq j' * eta))%Q; [|lra].
      apply Qmult_le_l; [|lra]. pose proof (pow_ge_1 (1 + u) k'). lra.
  Qed.
  (** sums *)
  Lemma near_plus k j j' a b x y : (0 <= x)%Q -> (0 <= y)%Q -> near k j a x -> near k j' b y ->
    near (S k) (j + j' + 1) (a + b) (rnd (x + y)).
  Proof.
    intros Hx Hy (A1 & A2 & A3) (B1 & B2 & B3). destruct (r_u _ _ _ R) as [U1 U2]. pose proof (r_eta _ _ _ R) as E.
    assert (Hs : (0 <= x + y)%Q) by lra.
    pose proof (r_low _ _ _ R _ Hs) as L. pose proof (r_high _ _ _ R _ Hs) as H.
    split; [lra|]. rewrite !nq_plus. change (nq 1) with 1%Q. rewrite !pow_S.
    set (p := pow (1 - u) k) in *. set (q := pow (1 + u) k) in *.
    assert (Hj : (0 <= nq j * eta)%Q) by (apply Qmult_le_0_compat; auto; apply nq_nonneg).
    assert (Hj' : (0 <= nq j' * eta)%Q) by (apply Qmult_le_0_compat; auto; apply nq_nonneg).
    set (ej := (nq j * eta)%Q) in *. set (ej' := (nq j' * eta)%Q) in *.
    assert (Hd : ((nq j + nq j' + 1) * eta == ej + ej' + eta)%Q) by (unfold ej, ej'; ring).
    rewrite Hd. clear Hd. split.
    - assert ((1 - u) * (p * a + p * b) <= (1 - u) * (x + ej + (y + ej')))%Q by (apply Qmult_le_l; lra).
      assert (0 <= u * (ej + ej'))%Q by (apply Qmult_le_0_compat; lra). lra.
    - assert ((1 + u) * (x + y) <= (1 + u) * (q * (a + ej) + q * (b + ej')))%Q by (apply Qmult_le_l; lra).
      assert (Hq : (1 <= q)%Q) by (apply pow_ge_1; lra).
      assert (Hq2 : (1 <= (1 + u) * q)%Q).
      { assert (0 <= u * q)%Q by (apply Qmult_le_0_compat; lra). lra. }
      assert (0 <= ((1 + u) * q - 1) * eta)%Q by (apply Qmult_le_0_compat; lra). lra.
  Qed.
  (** a product *)
  Lemma near_rnd a : (0 <= a)%Q -> near 1 1 a (rnd a).
  Proof.
    intros H. destruct (r_u _ _ _ R) as [U1 U2]. pose proof (r_eta _ _ _ R) as E.
    pose proof (r_low _ _ _ R _ H) as L. pose proof (r_high _ _ _ R _ H) as U.
    split; [auto|]. simpl. change (nq 1) with 1%Q.
    assert (0 <= u * eta)%Q by (apply Qmult_le_0_compat; lra). split; lra.
  Qed.

  (** *** Weights *)
  Lemma rdot_from_shape al : forall ms acc acc',
    (forall q, acc = Fin q -> exists q', acc' = Fin q') -> (forall q, acc' = Fin q -> exists q', acc = Fin q') ->
    (acc = PInf <-> acc' = PInf) -> (acc = NInf <-> acc' = NInf) ->
    let r := rdot_from (rfin rnd) acc al ms in let r' := dot_from acc' al ms in
    (forall q, r = Fin q -> exists q', r' = Fin q') /\ (forall q, r' = Fin q -> exists q', r = Fin q') /\
    (r = PInf <-> r' = PInf) /\ (r = NInf <-> r' = NInf).
  Proof.
    induction al as [|x al IH]; intros [|y ms] acc acc' H1 H2 H3 H4; simpl; auto.
    assert (Hs : exists z z', fmul x y = z' /\ rmul (rfin rnd) x y = z /\
      ((z = PInf /\ z' = PInf) \/ (z = NInf /\ z' = NInf) \/ (z = NaN /\ z' = NaN) \/ exists p p', z = Fin p /\ z' = Fin p')).
    { exists (rmul (rfin rnd) x y), (fmul x y). split; [auto|split; [auto|]]. unfold rmul. destruct (fmul x y); simpl; eauto 10. }
    destruct Hs as (z & z' & -> & -> & Hz).
    assert (Ha : (acc = PInf /\ acc' = PInf) \/ (acc = NInf /\ acc' = NInf) \/ (acc = NaN /\ acc' = NaN) \/ exists p p', acc = Fin p /\ acc' = Fin p').
    { destruct acc as [q| | |].
      - destruct (H1 q eq_refl) as [q' ->]. eauto 10.
      - left. split; [auto|now apply H3].
      - right. left. split; [auto|now apply H4].
      - destruct acc' as [q| | |]; auto.
        + destruct (H2 q eq_refl) as [q' E]. discriminate.
        + assert (E : NaN = PInf) by now apply H3. discriminate.
        + assert (E : NaN = NInf) by now apply H4. discriminate. }
    apply IH;
      destruct Ha as [[-> ->]|[[-> ->]|[[-> ->]|(p1 & p2 & -> & ->)]]]; destruct Hz as [[-> ->]|[[-> ->]|[[-> ->]|(p3 & p4 & -> & ->)]]];
      unfold radd; simpl; try (split; congruence); intros; try discriminate; eauto.
  Qed.

  Lemma rdot_from_near al : forall ms acc A k j r,
    Forall not_negative al -> Forall not_negative ms -> 1 <= k -> near k j A acc -> (0 <= acc)%Q ->
    rdot_from (rfin rnd) (Fin acc) al ms = Fin r ->
    exists s, weighted_sum al ms = Some s /\ near (k + length al) (j + 2 * length al) (A + s) r /\ (0 <= r)%Q.
  Proof.
    assert (Hstay : forall a b acc r, (forall q, acc <> Fin q) -> rdot_from (rfin rnd) acc a b <> Fin r).
    { induction a as [|x a IH]; intros [|y b] acc r H; simpl; auto. apply IH. intros q.
      unfold radd, rmul. destruct acc; [exfalso; now apply (H q0)| | |]; destruct (fmul x y); discriminate. }
    induction al as [|x al IH]; intros [|y ms] acc A k j r Ha Hm Hk Hn H0 E; simpl in E;
      try (injection E as <-; exists 0%Q; split; [reflexivity|]; split; [|auto];
           eapply near_weaken; [| |eapply near_proper; [| |exact Hn]]; simpl; try lia; try reflexivity; ring).
    unfold weighted_sum. simpl. fold (weighted_sum al ms). inversion Ha as [|? ? Hx Ha']; inversion Hm as [|? ? Hy Hm']; subst.
    destruct (fmul x y) as [p| | |] eqn:Em; unfold radd, rmul in E; rewrite Em in E; simpl in E;
      try (exfalso; eapply Hstay; [|exact E]; discriminate).
    destruct x as [x| | |], y as [y| | |]; simpl in Em; try discriminate;
      try (unfold inf_signed in Em; destruct (qsign _) in Em; discriminate);
      try (destruct (qsign _) in Em; discriminate).
    injection Em as <-. simpl in Hx, Hy. assert (Hp : (0 <= x * y)%Q) by now apply Qmult_le_0_compat.
    assert (Hr : near k 1 (x * y) (rnd (x * y))) by (eapply near_weaken; [exact Hk| |now apply near_rnd]; lia).
    pose proof (rnd_nonneg _ Hp) as Hp0.
    assert (Hs0 : (0 <= rnd (acc + rnd (x * y)))%Q) by (apply rnd_nonneg; lra).
    pose proof (near_plus _ _ _ _ _ _ _ H0 Hp0 Hn Hr) as Hs.
    assert (Hk1 : 1 <= S k) by lia. destruct (IH ms _ _ _ _ _ Ha' Hm' Hk1 Hs Hs0 E) as (s & Es & Hns & Hr0). rewrite Es.
    exists (x * y + s)%Q. split; [reflexivity|]. split; [|auto].
    eapply near_weaken; [| |eapply near_proper; [| |exact Hns]]; simpl; try lia; try reflexivity. ring.
  Qed.

  Variables (g : graph) (alphas : list f64) (ch : bool) (s t : nat).
  Hypothesis wf : wf_graph g.
  Hypothesis nonneg : nonneg_metrics g.
  Hypothesis alphas_ok : Forall not_negative alphas.
  Hypothesis s_lt : s < node_count g.
  Hypothesis t_lt : t < node_count g.
  Notation adj := (ProofDijkstra.adj g alphas ch).
  Notation tgt := (ProofDijkstra.tgt g).
  Notation root := (ProofDijkstra.root s t).
  Notation usable := (ProofDijkstra.usable g alphas ch).
  Notation finite := (ProofDijkstra.finite g alphas).
  Notation level := (ProofDijkstra.level g).
  Notation wq := (ProofDijkstra.wq g alphas).
  Notation dim := (length alphas).

  Notation adj_in := (ProofDijkstra.adj_in g alphas ch s t wf s_lt t_lt).
  Notation adj_bound := (ProofDijkstra.adj_bound g alphas ch s t wf s_lt t_lt).
  Notation adj_near := (ProofDijkstra.adj_near g alphas ch s t wf s_lt t_lt).
  Notation adj_mirror := (ProofDijkstra.adj_mirror g alphas ch s t wf s_lt t_lt).
  Notation chain_len := (ProofDijkstra.chain_len g alphas ch s t wf s_lt t_lt).
  Notation trace_cases := (ProofDijkstra.trace_cases g alphas ch s t wf s_lt t_lt).
  Notation walk_fwd := (ProofDijkstra.walk_fwd g alphas ch s t wf s_lt t_lt).
  Notation walk_bwd := (ProofDijkstra.walk_bwd g alphas ch s t wf s_lt t_lt).
  Notation fwd_walk := (ProofDijkstra.fwd_walk g alphas ch s t wf s_lt t_lt).
  Notation bwd_walk := (ProofDijkstra.bwd_walk g alphas ch s t wf s_lt t_lt).
  Notation chain_edges_len := (ProofDijkstra.chain_edges_len g alphas ch s t wf s_lt t_lt).

  Definition rweight (e : nat) : f64 :=
    match edge_metrics g e with Ok ms => rdot (rfin rnd) alphas ms | _ => NaN end.
  Definition wr (e : nat) : Q := match rweight e with Fin q => q | _ => 0%Q end.
  Definition ext (d : dir) (e : nat) (c : Q) : Q := rnd (c + wr e)%Q.
  Definition tot (a b : Q) : Q := rnd (a + b)%Q.
  Definition ok (x : Q) : Prop := (rnd x == x)%Q.

  Lemma rweight_shape e :
    (forall q, rweight e = Fin q -> finite e = true) /\ (finite e = true -> exists q, rweight e = Fin q) /\
    rweight e <> NInf.
  Proof.
    unfold rweight, ProofDijkstra.finite, fweight. destruct (edge_metrics g e) as [ms| | |] eqn:E;
      try (split; [discriminate|split; discriminate]).
    destruct (rdot_from_shape alphas ms f0 f0) as (A & B & C & D); eauto; try tauto.
    fold (rdot (rfin rnd) alphas ms) in *. fold (dot_product alphas ms) in *. split; [|split].
    - intros q Eq. destruct (A q Eq) as [q' ->]. reflexivity.
    - destruct (dot_product alphas ms) as [q| | |]; try discriminate. intros _. apply (B q eq_refl).
    - intros En. apply D in En. pose proof (dot_not_negative alphas ms alphas_ok) as Hn.
      rewrite En in Hn. apply Hn. apply Forall_forall. intros x. now apply (nonneg e ms).
  Qed.
  Lemma wr_near e : finite e = true -> near (dim + 1) (2 * dim) (wq e) (wr e) /\ (0 <= wr e)%Q.
  Proof.
    intros Hf. destruct (proj1 (proj2 (rweight_shape e)) Hf) as [r Er]. unfold wr. rewrite Er.
    destruct (finite_costs g alphas e Hf) as (ms & a & Em & Ea & Hq).
    unfold rweight in Er. rewrite Em in Er.
    destruct (rdot_from_near alphas ms 0 0 1 0 r alphas_ok) as (b & Eb & Hn & H0); auto; try lra.
    - apply Forall_forall. intros x. now apply (nonneg e ms).
    - unfold near. change (nq 0) with 0%Q. simpl. split; [lra|]. split; lra.
    - rewrite Ea in Eb. injection Eb as <-. split; [|auto].
      eapply near_weaken; [| |eapply near_proper; [| |exact Hn]]; try lia; try reflexivity. rewrite <- Hq. ring.
  Qed.
  Lemma adj_finite d v e : In e (adj d v) -> finite e = true.
  Proof.
    intros H. apply adj_in in H. destruct H as (_ & _ & H). unfold ProofDijkstra.usable in H.
    now apply andb_true_iff in H.
  Qed.

  (** *** The arithmetic is as AbsRounded.v wants it *)
  Lemma ok_eq x y : (x == y)%Q -> ok x -> ok y.
  Proof. unfold ok. intros E H. rewrite <- (rnd_proper _ _ E), H. exact E. Qed.
  Lemma ok_0 : ok 0%Q.
  Proof. exact (r_zero _ _ _ R). Qed.
  Lemma ext_ok d v e c : In e (adj d v) -> ok c -> ok (ext d e c).
  Proof. intros _ _. apply (r_idem _ _ _ R). Qed.
  Lemma ext_mono d v e x y : In e (adj d v) -> (x <= y)%Q -> (ext d e x <= ext d e y)%Q.
  Proof. intros _ H. apply (r_mono _ _ _ R). lra. Qed.
  Lemma ext_up d v e c : In e (adj d v) -> ok c -> (0 <= c)%Q -> (c <= ext d e c)%Q.
  Proof.
    intros He Hc _. unfold ext. destruct (wr_near e (adj_finite _ _ _ He)) as [_ Hw].
    assert (H : (c <= c + wr e)%Q) by lra. apply (r_mono _ _ _ R) in H. unfold ok in Hc. lra.
  Qed.
  Lemma tot_mono x y x' y' : (x <= x')%Q -> (y <= y')%Q -> (tot x y <= tot x' y')%Q.
  Proof. intros A B. apply (r_mono _ _ _ R). lra. Qed.
  Lemma tot_comm x y : (tot x y == tot y x)%Q.
  Proof. apply rnd_proper. ring. Qed.
  Lemma tot_up x y : ok x -> (0 <= x)%Q -> (0 <= y)%Q -> (x <= tot x y)%Q.
  Proof.
    intros Hx _ Hy. unfold tot. assert (H : (x <= x + y)%Q) by lra. apply (r_mono _ _ _ R) in H. unfold ok in Hx. lra.
  Qed.

  (** *** Costs of walks *)
  Notation walkg := (walk adj tgt root).
  Lemma val_near d v l : walkg d v l -> near (length l + dim + 1) (length l * (2 * dim + 1)) (sumw wq l) (val ext d l) /\
    (0 <= val ext d l)%Q.
  Proof.
    induction 1 as [|x l e Hw [IH IH0] He].
    - split; [|apply Qle_refl]. unfold near, val. simpl. change (nq 0) with 0%Q. split; [lra|]. split; [lra|]. lra.
    - destruct (wr_near e (adj_finite _ _ _ He)) as [Hn H0]. rewrite val_snoc. split; [|apply rnd_nonneg; lra].
      assert (Hn' : near (length l + dim + 1) (2 * dim) (wq e) (wr e)) by (eapply near_weaken; [| |exact Hn]; lia).
      pose proof (near_plus _ _ _ _ _ _ _ IH0 H0 IH Hn') as Hs. rewrite app_length. cbn [length].
      eapply near_weaken; [| |eapply near_proper; [| |exact Hs]]; try (simpl; lia); try reflexivity.
      rewrite sumw_app, sumw_single. reflexivity.
  Qed.
  Lemma tot_near v v' lf lb : walkg FWD v lf -> walkg BWD v' lb ->
    near (depth dim (length lf + length lb)) (operations dim (length lf + length lb)) (sumw wq lf + sumw wq lb)
      (tot (val ext FWD lf) (val ext BWD lb)).
  Proof.
    intros Hf Hb. destruct (val_near _ _ _ Hf) as [Nf Zf]. destruct (val_near _ _ _ Hb) as [Nb Zb].
    set (n := length lf + length lb).
    assert (Nf' : near (n + dim + 1) (length lf * (2 * dim + 1)) (sumw wq lf) (val ext FWD lf))
      by (eapply near_weaken; [| |exact Nf]; unfold n; lia).
    assert (Nb' : near (n + dim + 1) (length lb * (2 * dim + 1)) (sumw wq lb) (val ext BWD lb))
      by (eapply near_weaken; [| |exact Nb]; unfold n; lia).
    eapply near_weaken; [| |exact (near_plus _ _ _ _ _ _ _ Zf Zb Nf' Nb')]; unfold depth, operations, n; simpl; lia.
  Qed.

  Definition rho : Q := ((1 + u) / (1 - u) * ((1 + u) / (1 - u)))%Q.
  Definition sigma (delta : Q) : Q := (2 * (1 + u) * delta + (3 + 2 * rho) * eta)%Q.
  Lemma ratio_1 : (1 <= (1 + u) / (1 - u))%Q.
  Proof. destruct (r_u _ _ _ R) as [U1 U2]. apply Qle_shift_div_l; lra. Qed.
  Lemma rho_ratio : ((1 + u) / (1 - u) <= rho)%Q.
  Proof.
    unfold rho. pose proof ratio_1 as H. set (x := ((1 + u) / (1 - u))%Q) in *.
    assert (0 <= (x - 1) * x)%Q by (apply Qmult_le_0_compat; lra). lra.
  Qed.
  Lemma rho_1 : (1 <= rho)%Q.
  Proof. pose proof ratio_1. pose proof rho_ratio. lra. Qed.
  Lemma ratio_back x : ((1 + u) / (1 - u) * ((1 - u) * x) == (1 + u) * x)%Q.
  Proof. destruct (r_u _ _ _ R) as [U1 U2]. field. lra. Qed.
  Lemma sigma_delta delta : (0 <= delta)%Q -> (delta <= sigma delta)%Q.
  Proof.
    intros H. destruct (r_u _ _ _ R) as [U1 U2]. pose proof (r_eta _ _ _ R) as E. pose proof rho_1 as R1. unfold sigma.
    assert (0 <= u * delta)%Q by (apply Qmult_le_0_compat; lra).
    assert (0 <= (3 + 2 * rho) * eta)%Q by (apply Qmult_le_0_compat; lra). lra.
  Qed.
  Lemma swap delta d v e c x : (0 <= delta)%Q -> In e (adj d v) -> ok c -> ok x -> (0 <= c)%Q -> (0 <= x)%Q ->
    (tot c (ext (opp d) e x) <= rho * tot (ext d e c) x + sigma delta)%Q.
  Proof.
    intros Hd He _ _ Hc Hx. destruct (wr_near e (adj_finite _ _ _ He)) as [_ Hw]. unfold tot, ext.
    destruct (r_u _ _ _ R) as [U1 U2]. pose proof (r_eta _ _ _ R) as E. pose proof rho_1 as R1.
    assert (H1 : (0 <= x + wr e)%Q) by lra. assert (H2 : (0 <= c + wr e)%Q) by lra.
    pose proof (rnd_nonneg _ H1) as P1. pose proof (rnd_nonneg _ H2) as P2.
    pose proof (r_high _ _ _ R _ H1) as A1. pose proof (r_low _ _ _ R _ H2) as B1.
    assert (H3 : (0 <= c + rnd (x + wr e))%Q) by lra. assert (H4 : (0 <= rnd (c + wr e) + x)%Q) by lra.
    pose proof (r_high _ _ _ R _ H3) as A2. pose proof (r_low _ _ _ R _ H4) as B2.
    set (S := (c + x + wr e)%Q).
    assert (A : (rnd (c + rnd (x + wr e)) <= (1 + u) * ((1 + u) * S) + 3 * eta)%Q).
    { assert ((1 + u) * (c + rnd (x + wr e)) <= (1 + u) * ((1 + u) * S + eta))%Q.
      { apply Qmult_le_l; [lra|]. unfold S. assert (0 <= u * c)%Q by (apply Qmult_le_0_compat; lra). lra. }
      assert (0 <= (1 - u) * eta)%Q by (apply Qmult_le_0_compat; lra). lra. }
    assert (B : ((1 - u) * ((1 - u) * S) <= rnd (rnd (c + wr e) + x) + 2 * eta)%Q).
    { assert ((1 - u) * ((1 - u) * S) <= (1 - u) * (rnd (c + wr e) + x + eta))%Q.
      { apply Qmult_le_l; [lra|]. unfold S. assert (0 <= u * x)%Q by (apply Qmult_le_0_compat; lra). lra. }
      assert (0 <= u * eta)%Q by (apply Qmult_le_0_compat; lra). lra. }
    assert (C : ((1 + u) * ((1 + u) * S) == rho * ((1 - u) * ((1 - u) * S)))%Q) by (unfold rho; field; lra).
    assert (D : (rho * ((1 - u) * ((1 - u) * S)) <= rho * (rnd (rnd (c + wr e) + x) + 2 * eta))%Q) by (apply Qmult_le_l; lra).
    unfold sigma. assert (0 <= (1 + u) * delta)%Q by (apply Qmult_le_0_compat; lra). lra.
  Qed.
  Lemma slack delta x y : (0 <= delta)%Q -> ok x -> ok y -> (0 <= x)%Q -> (0 <= y)%Q ->
    (tot (x + delta) (y + delta) <= rho * tot x y + sigma delta)%Q.
  Proof.
    intros Hd _ _ Hx Hy. destruct (r_u _ _ _ R) as [U1 U2]. pose proof (r_eta _ _ _ R) as E. pose proof rho_ratio as RR.
    pose proof ratio_1 as R1. unfold tot.
    assert (H1 : (0 <= x + delta + (y + delta))%Q) by lra. assert (H2 : (0 <= x + y)%Q) by lra.
    pose proof (r_high _ _ _ R _ H1) as A. pose proof (r_low _ _ _ R _ H2) as B. pose proof (rnd_nonneg _ H2) as P.
    pose proof (ratio_back (x + y)) as C. set (r := ((1 + u) / (1 - u))%Q) in *.
    assert (r * ((1 - u) * (x + y)) <= r * (rnd (x + y) + eta))%Q by (apply Qmult_le_l; lra).
    assert (0 <= (rho - r) * (rnd (x + y) + eta))%Q by (apply Qmult_le_0_compat; lra).
    assert (0 <= (2 + rho) * eta)%Q by (apply Qmult_le_0_compat; lra). unfold sigma. lra.
  Qed.

  Record sim (st : dijkstra) (best : option (nat * f64)) (a : ast) : Prop := mkSim {
    s_ch : dj_ch st = ch;
    s_lab : forall d v, v < node_count g -> nth_error (get (dj_costs st) d) v = Some (flab (lab a d v));
    s_prd : forall d v, v < node_count g -> nth_error (get (dj_preds st) d) v = Some (prd a d v);
    s_vis : ch = false -> forall d v, v < node_count g ->
      nth_error (get (dj_visited st) d) v = Some (vis a d v);
    s_flg : forall d, get (dj_found st) d = flg a d;
    s_que : dj_queue st = map conc (que a);
    s_best : best = option_map (fun p => (fst p, Fin (snd p))) (bst a);
    s_in : forall v c d, In (v, c, d) (que a) -> v < node_count g;
  }.

  Notation arelax1 := (relax1 tgt ext ch).

  Lemma rrelax_edge_sim st best a d v0 c e :
    sim st best a -> In e (adj d v0) ->
    exists st', relax_edge (ch || match best with None => true | _ => false end) d e (tgt d e)
                  (radd (rfin rnd) (Fin c) (rweight e)) st = Ok st' /\ sim st' best (arelax1 d v0 c a e).
  Proof.
    intros H He. pose proof (adj_bound _ _ _ He) as [_ Hx]. apply adj_in in He. destruct He as (_ & _ & Hus).
    unfold ProofDijkstra.usable in Hus. apply andb_true_iff in Hus. destruct Hus as [Hfin _].
    assert (Ew : radd (rfin rnd) (Fin c) (rweight e) = Fin (ext d e c)).
    { destruct (proj1 (proj2 (rweight_shape e)) Hfin) as [q Eq]. unfold ext, wr. rewrite Eq. reflexivity. }
    rewrite Ew. unfold relax_edge, idx, relax1. set (x := tgt d e) in *.
    rewrite (s_lab _ _ _ H d x Hx). cbn [bind]. rewrite fltb_lab.
    destruct (match lab a d x with None => true | Some old => qltb (ext d e c) old end); [|eauto].
    rewrite (nth_set _ _ _ _ (s_prd _ _ _ H d x Hx)), (nth_set _ _ _ _ (s_lab _ _ _ H d x Hx)). cbn [bind].
    eexists. split; [reflexivity|].
    constructor; cbn [dj_ch dj_queue dj_costs dj_preds dj_visited dj_found dj_touched lab prd vis flg que bst];
      try apply H.
    - intros d' v Hv. rewrite get_put. destruct (up2_cases (lab a) d x (Some (ext d e c)) d' v) as [(<- & <- & ->)|[Hn ->]].
      + destruct (dir_eqb_spec d d); [|congruence]. apply nth_error_upd_eq. apply nth_error_Some.
        rewrite (s_lab _ _ _ H d x Hx). discriminate.
      + destruct (dir_eqb_spec d d') as [<-|Hd]; [|now apply (s_lab _ _ _ H)].
        rewrite nth_error_upd_neq by (destruct Hn; congruence). now apply (s_lab _ _ _ H).
    - intros d' v Hv. rewrite get_put. destruct (up2_cases (prd a) d x (Some e) d' v) as [(<- & <- & ->)|[Hn ->]].
      + destruct (dir_eqb_spec d d); [|congruence]. apply nth_error_upd_eq. apply nth_error_Some.
        rewrite (s_prd _ _ _ H d x Hx). discriminate.
      + destruct (dir_eqb_spec d d') as [<-|Hd]; [|now apply (s_prd _ _ _ H)].
        rewrite nth_error_upd_neq by (destruct Hn; congruence). now apply (s_prd _ _ _ H).
    - rewrite (s_best _ _ _ H), (s_que _ _ _ H). destruct ch, (bst a); reflexivity.
    - intros v c0 d0 Hin. destruct (ch || _); [destruct Hin as [E|Hin]|]; try (now apply (s_in _ _ _ H v c0 d0)).
      injection E as <- <- <-. exact Hx.
  Qed.

  Lemma rrelax_sim d v0 c es : forall st best a, sim st best a -> v0 < node_count g ->
    (forall e, In e es -> dst_idx g (opp d) e = Ok v0) ->
    StronglySorted (fun e f => forall x y lx ly,
       dst_idx g d e = Ok x -> dst_idx g d f = Ok y ->
       node_level g x = Ok lx -> node_level g y = Ok ly -> ly <= lx) es ->
    exists st', rrelax (rfin rnd) g alphas (ch || match best with None => true | _ => false end)
                  {| cn_idx := v0; cn_cost := Fin c; cn_dir := d |} es st = Ok st' /\
      sim st' best (fold_left (arelax1 d v0 c) (filter (usable d v0) es) a).
  Proof.
    induction es as [|e es IH]; intros st best a H Hu Hes Hs; [simpl; eauto|].
    cbn [rrelax filter cn_dir cn_idx cn_cost].
    pose proof (Hes e (or_introl eq_refl)) as He.
    destruct (wg_dst _ wf _ _ _ He) as [_ [x Hx]]. rewrite opp_opp in Hx. rewrite Hx. cbn [bind].
    destruct (wg_dst _ wf _ _ _ Hx) as [Hxn _].
    assert (Htg : tgt d e = x) by (unfold ProofDijkstra.tgt; now rewrite Hx).
    assert (Hlev : forall v, v < node_count g -> node_level g v = Ok (level v)).
    { intros v Hv. unfold ProofDijkstra.level, node_level. destruct (idx_lt (node_levels g) v) as [l ->]; auto.
      now rewrite (wg_levels _ wf). }
    assert (Hdown : (if dj_ch st then do lu <- node_level g v0; do lv <- node_level g x; Ok (lv <? lu) else Ok false)
                    = Ok (ch && (level x <? level v0))).
    { rewrite (s_ch _ _ _ H). destruct ch; auto. rewrite (Hlev v0 Hu), (Hlev x Hxn). reflexivity. }
    rewrite Hdown. cbn [bind]. inversion Hs as [|? ? Hs' Hall]; subst.
    destruct (wg_metrics _ wf _ _ _ He) as [ms Hms].
    destruct (ch && (level (tgt d e) <? level v0)) eqn:Edown.
    - (* downwards: so are all others *)
      assert (Hnone : filter (usable d v0) (e :: es) = []).
      { apply andb_true_iff in Edown. destruct Edown as [Ech Elt]. apply Nat.ltb_lt in Elt.
        assert (Hall' : forall f, In f (e :: es) -> usable d v0 f = false).
        { intros f [<-|Hf]; unfold ProofDijkstra.usable; rewrite Ech.
          - apply Nat.ltb_lt in Elt. rewrite Elt. apply andb_false_r.
          - rewrite Forall_forall in Hall. pose proof (Hes f (or_intror Hf)) as Hf'.
            destruct (wg_dst _ wf _ _ _ Hf') as [_ [y Hy]]. rewrite opp_opp in Hy.
            destruct (wg_dst _ wf _ _ _ Hy) as [Hyn _].
            assert (Hle := Hall f Hf _ y _ _ Hx Hy (Hlev _ Hxn) (Hlev y Hyn)).
            assert (Htf : tgt d f = y) by (unfold ProofDijkstra.tgt; now rewrite Hy). rewrite Htf.
            assert (E : level y <? level v0 = true) by (apply Nat.ltb_lt; lia). rewrite E. apply andb_false_r. }
        clear - Hall'. induction (e :: es) as [|f l IH]; auto. simpl. rewrite Hall' by now left.
        apply IH. intros; apply Hall'; now right. }
      simpl in Hnone. rewrite Hnone. simpl. eauto.
    - rewrite Hms. cbn [bind].
      assert (Hus : usable d v0 e = finite e).
      { unfold ProofDijkstra.usable. rewrite Edown. apply andb_true_r. }
      rewrite Hus. assert (Ew : rdot (rfin rnd) alphas ms = rweight e) by (unfold rweight; now rewrite Hms).
      rewrite Ew. destruct (finite e) eqn:Efin.
      + destruct (rrelax_edge_sim st best a d v0 c e H) as (st1 & E1 & H1); [apply adj_in; auto|].
        cbn [cn_dir cn_cost]. rewrite E1. cbn [bind fold_left]. apply IH; auto. intros; apply Hes; now right.
      + (* the new cost is not smaller than anything *)
        assert (E1 : relax_edge (ch || match best with None => true | _ => false end) d e (tgt d e)
                       (radd (rfin rnd) (Fin c) (rweight e)) st = Ok st).
        { unfold relax_edge, idx. rewrite (s_lab _ _ _ H _ _ Hxn). cbn [bind].
          destruct (rweight_shape e) as (Hfi & _ & Hni). destruct (rweight e) as [q| | |]; auto.
          - rewrite (Hfi q eq_refl) in Efin. discriminate.
          - simpl. now destruct (lab a d (tgt d e)).
          - now destruct Hni. }
        cbn [cn_dir cn_cost]. rewrite E1. cbn [bind]. apply IH; auto. intros; apply Hes; now right.
  Qed.

  (** *** one iteration *)
  Definition iterate_g := iterate adj tgt ext tot ch.

  Lemma sim_pop st best a q' : sim st best a -> (forall e, In e q' -> In e (que a)) ->
    sim (with_queue st (map conc q')) best (set_que a q').
  Proof.
    intros H Hq. constructor; cbn [with_queue dj_ch dj_queue dj_costs dj_preds dj_visited dj_found set_que lab prd vis flg que bst];
      try apply H; auto. intros v c d Hin. apply (s_in _ _ _ H v c d). auto.
  Qed.

  Lemma iteration_sim st best a v c d q' :
    sim st best a -> inv adj tgt ext tot root a -> pops (que a) v c d q' ->
    (exists st' best', riteration (rfin rnd) g alphas (with_queue st (map conc q')) best (conc (v, c, d)) = Ok (st', best') /\
       sim st' best' (iterate_g a v c d q')) \/
    (riteration (rfin rnd) g alphas (with_queue st (map conc q')) best (conc (v, c, d)) = Panic /\
     starting_from g d v = Panic /\ v < node_count g).
  Proof.
    intros H Hi Hp. destruct (pops_in _ _ _ _ _ Hp) as (Hin & Hs & _).
    pose proof (s_in _ _ _ H _ _ _ Hin) as Hv.
    pose proof (sim_pop st best a q' H Hs) as H0. set (st0 := with_queue st (map conc q')) in *.
    unfold riteration, has_improved, iterate_g, iterate, iter. cbn [conc cn_dir cn_idx cn_cost].
    assert (Hidx : idx (get (dj_costs st0) d) v = Ok (flab (lab a d v))) by (apply idx_ok; exact (s_lab _ _ _ H0 d v Hv)).
    rewrite !Hidx. cbn [bind]. rewrite !fleb_lab.
    cbn [set_que lab bst]. destruct (match lab a d v with None => false | Some l => qltb l c end); [left; eauto|].
    (* visit *)
    assert (Hvis : exists st1, visit st0 (conc (v, c, d)) = Ok st1 /\
      sim st1 best (mkAst (lab a) (prd a) (up2 (vis a) d v true) (flg a) q' (bst a) (dn a) (mx a) (hst a) (log a)) /\
      dj_ch st1 = ch).
    { unfold visit. rewrite (s_ch _ _ _ H0). assert (Hcc : ch = true \/ ch = false) by (destruct ch; auto). destruct Hcc as [Ech|Ech].
      - exists st0. split; [now rewrite Ech|]. split; [|apply (s_ch _ _ _ H0)].
        destruct H0. constructor; cbn [lab prd vis flg que bst set_que] in *; auto; congruence.
      - cbn [conc cn_dir cn_idx].
        rewrite (nth_set _ _ _ _ (s_vis _ _ _ H0 Ech d v Hv)). cbn [bind]. eexists. split; [rewrite Ech; reflexivity|].
        split; [|apply (s_ch _ _ _ H0)].
        constructor; cbn [with_visited dj_ch dj_queue dj_costs dj_preds dj_visited dj_found lab prd vis flg que bst set_que];
          try apply H0; auto.
        intros _ d' v' Hv'. cbn [conc cn_dir cn_idx]. rewrite get_put.
        destruct (up2_cases (vis a) d v true d' v') as [(<- & <- & ->)|[Hn ->]].
        + destruct (dir_eqb_spec d d); [|congruence]. apply nth_error_upd_eq. apply nth_error_Some.
          rewrite (s_vis _ _ _ H0 Ech d v Hv). discriminate.
        + destruct (dir_eqb_spec d d') as [<-|Hd]; [|now apply (s_vis _ _ _ H0)].
          rewrite nth_error_upd_neq by (destruct Hn; congruence). now apply (s_vis _ _ _ H0). }
    destruct Hvis as (st1 & E1 & H1 & Hch1). cbn [conc] in E1. rewrite E1. cbn [bind].
    (* total cost *)
    assert (Htot : exists x, rtotal_cost (rfin rnd) st1 {| cn_idx := v; cn_cost := Fin c; cn_dir := d |} = Ok x /\
              x = flab (total tot a v)).
    { unfold rtotal_cost, idx. cbn [cn_idx].
      pose proof (s_lab _ _ _ H1 FWD v Hv) as Ef. pose proof (s_lab _ _ _ H1 BWD v Hv) as Eb. simpl in Ef, Eb.
      rewrite Ef, Eb. cbn [bind]. eexists. split; [reflexivity|]. unfold total.
      destruct (lab a FWD v), (lab a BWD v); reflexivity. }
    destruct Htot as (tc & Etot & ->).
    assert (Hbranch : forall nb,
      bst (enter tot ch (set_que a q') v c d) = nb ->
      (exists st' best',
        (do es <- starting_from g d v;
         do st2 <- rrelax (rfin rnd) g alphas (dj_ch st1 || match option_map (fun p : nat * Q => (fst p, Fin (snd p))) nb with None => true | _ => false end)
                     {| cn_idx := v; cn_cost := Fin c; cn_dir := d |} es st1;
         Ok (st2, option_map (fun p : nat * Q => (fst p, Fin (snd p))) nb)) = Ok (st', best') /\
        sim st' best' (fold_left (arelax1 d v c) (adj d v) (enter tot ch (set_que a q') v c d))) \/
      ((do es <- starting_from g d v;
         do st2 <- rrelax (rfin rnd) g alphas (dj_ch st1 || match option_map (fun p : nat * Q => (fst p, Fin (snd p))) nb with None => true | _ => false end)
                     {| cn_idx := v; cn_cost := Fin c; cn_dir := d |} es st1;
         Ok (st2, option_map (fun p : nat * Q => (fst p, Fin (snd p))) nb)) = Panic /\
       starting_from g d v = Panic /\ v < node_count g)).
    { intros nb Hnb. destruct (wg_start _ wf d v Hv) as [(l & El & _ & Hl)|[El _]].
      - rewrite El. cbn [bind]. left.
        assert (H2 : sim st1 (option_map (fun p : nat * Q => (fst p, Fin (snd p))) nb) (enter tot ch (set_que a q') v c d)).
        { destruct H1. constructor; cbn [enter set_que lab prd vis flg que] in *; auto. now rewrite Hnb. }
        rewrite Hch1.
        destruct (rrelax_sim d v c l st1 _ _ H2 Hv) as (st2 & E2 & H3).
        + intros e He. now apply Hl.
        + apply (wg_sorted _ wf d v). exact El.
        + rewrite E2. cbn [bind]. do 2 eexists. split; [reflexivity|].
          unfold ProofDijkstra.adj. apply Nat.ltb_lt in Hv. rewrite Hv, El. exact H3.
      - right. rewrite El. auto. }
    (* meeting *)
    unfold rmeet. cbn [cn_cost cn_idx cn_dir]. rewrite (s_best _ _ _ H0). cbn [set_que bst].
    destruct (bst a) as [[m b]|] eqn:Eb; cbn [option_map fst snd].
    - unfold fgtb. rewrite fltb_fin. destruct (qltb b c) eqn:Ebc.
      + cbn [bind]. left. do 2 eexists. split; [reflexivity|].
        destruct H1. constructor; cbn [with_found cut set_que dj_ch dj_queue dj_costs dj_preds dj_visited dj_found lab prd vis flg que bst] in *; auto.
        * intros d'. rewrite get_put. unfold up1. destruct (dir_eqb d d'); auto.
        * now rewrite Eb.
      + rewrite Etot. cbn [bind].
        specialize (Hbranch (new_best tot ch (set_que a q') d v) eq_refl).
        assert (Enb : (if fltb (flab (total tot a v)) (Fin b) then Some (v, flab (total tot a v)) else Some (m, Fin b)) =
                  option_map (fun p : nat * Q => (fst p, Fin (snd p))) (new_best tot ch (set_que a q') d v)).
        { unfold new_best. cbn [set_que bst]. rewrite Eb. change (total tot (set_que a q') v) with (total tot a v).
          destruct (total tot a v) as [tt|]; [|reflexivity]. cbn [flab]. rewrite fltb_fin. destruct (qltb tt b); reflexivity. }
        rewrite Enb. exact Hbranch.
    - assert (Hmt : is_meeting st1 {| cn_idx := v; cn_cost := Fin c; cn_dir := d |} = Ok (meets ch (set_que a q') d v)).
      { unfold is_meeting, meets, idx. rewrite Hch1. cbn [cn_dir cn_idx set_que lab vis].
        assert (Hcc : ch = true \/ ch = false) by (destruct ch; auto). destruct Hcc as [Ech|Ech]; rewrite Ech.
        - rewrite (s_lab _ _ _ H1 (opp d) v Hv). cbn [bind lab]. now destruct (lab a (opp d) v).
        - rewrite (s_vis _ _ _ H1 Ech (opp d) v Hv). cbn [vis]. rewrite up2_neq; auto.
          left. destruct d; discriminate. }
      rewrite Hmt. cbn [bind].
      specialize (Hbranch (new_best tot ch (set_que a q') d v) eq_refl).
      unfold new_best in Hbranch. cbn [set_que bst] in Hbranch. rewrite Eb in Hbranch.
      change (total tot (set_que a q') v) with (total tot a v) in Hbranch.
      destruct (meets ch (set_que a q') d v) eqn:Em.
      + rewrite Etot. cbn [bind]. destruct (total tot a v) as [tt|] eqn:Et.
        * exact Hbranch.
        * (* both labels exist *)
          exfalso. destruct (i_que _ _ _ _ _ _ Hi _ _ _ Hin) as (cl & El & _).
          assert (Ho : exists co, lab a (opp d) v = Some co).
          { unfold meets in Em. cbn [set_que lab vis] in Em. destruct ch.
            - destruct (lab a (opp d) v); [eauto|discriminate].
            - apply (i_vis _ _ _ _ _ _ Hi _ _ Em). }
          destruct Ho as [co Eo]. unfold total in Et. destruct d; simpl in Eo; rewrite El, Eo in Et; discriminate.
      + exact Hbranch.
  Qed.

  (** *** the whole search *)
  Section Pick.
    Variable pick : nat -> list costnode -> nat.
    Variable P : list entry -> nat -> Q -> dir -> list entry -> Prop.
    Hypothesis valid : valid_pick pick.
    Hypothesis P_pops : forall q v c d q', P q v c d q' -> pops q v c d q'.
    Hypothesis P_pick : forall k q v c d,
      nth_error q (pick k (map conc q)) = Some (v, c, d) -> P q v c d (remove_nth (pick k (map conc q)) q).

    Lemma search_sim fuel : forall k st best a, sim st best a -> inv adj tgt ext tot root a ->
      (exists st' best' a', rsearch (rfin rnd) pick g alphas fuel k st best = Ok (st', best') /\
         arun adj tgt ext tot ch P a a' /\ best' = option_map (fun p => (fst p, Fin (snd p))) (bst a') /\
         forall d v, v < node_count g -> nth_error (get (dj_preds st') d) v = Some (prd a' d v)) \/
      (rsearch (rfin rnd) pick g alphas fuel k st best = Diverge /\ exists a', asteps adj tgt ext tot ch P fuel a a' /\ que a' <> []) \/
      (rsearch (rfin rnd) pick g alphas fuel k st best = Panic /\ ~ routable g).
    Proof.
      induction fuel as [|fuel IH]; intros k st best a H Hi.
      - simpl. rewrite (s_que _ _ _ H). destruct (que a) as [|e q] eqn:Eq; simpl.
        + left. exists st, best, a. split; auto. split; [constructor; now left|].
          split; [apply (s_best _ _ _ H)|apply (s_prd _ _ _ H)].
        + right. left. split; auto. exists a. split; [constructor|congruence].
      - cbn [rsearch]. assert (Hq : que a = [] \/ que a <> []) by (destruct (que a); [now left|right; discriminate]).
        destruct Hq as [Eq|Hne].
        + left. rewrite (s_que _ _ _ H), Eq. exists st, best, a. split; auto. split; [constructor; now left|].
          split; [apply (s_best _ _ _ H)|apply (s_prd _ _ _ H)].
        + rewrite (s_que _ _ _ H).
          assert (Hm : exists x y, map conc (que a) = x :: y) by (destruct (que a); [congruence|simpl; eauto]).
          assert (Hv : pick k (map conc (que a)) < length (que a)).
          { rewrite <- (map_length conc). apply valid. destruct Hm as (x & y & ->). discriminate. }
          destruct (nth_error (que a) (pick k (map conc (que a)))) as [[[v c] d]|] eqn:En;
            [|apply nth_error_None in En; lia].
          pose proof (P_pick _ _ _ _ _ En) as HP. pose proof (P_pops _ _ _ _ _ HP) as Hp.
          assert (Hi' : idx (map conc (que a)) (pick k (map conc (que a))) = Ok (conc (v, c, d))).
          { apply idx_ok. now apply map_nth_error. }
          assert (Hmatch : forall (A : Type) (X Y : A), match map conc (que a) with [] => X | _ :: _ => Y end = Y)
            by (intros; destruct Hm as (x & y & ->); reflexivity).
          rewrite Hmatch, Hi'. cbn [bind]. rewrite remove_nth_map.
          set (q' := remove_nth (pick k (map conc (que a))) (que a)) in *.
          assert (Hf : has_found (with_queue st (map conc q')) = flg a FWD && flg a BWD).
          { unfold has_found. cbn [with_queue dj_found].
            pose proof (s_flg _ _ _ H FWD) as F. pose proof (s_flg _ _ _ H BWD) as B. simpl in F, B. now rewrite F, B. }
          rewrite Hf. destruct (flg a FWD && flg a BWD) eqn:Ef.
          * left. apply andb_true_iff in Ef. destruct Ef as [Ef Eb].
            do 3 eexists. split; [reflexivity|]. split; [constructor 1; right; intros []; auto|].
            split; [apply (s_best _ _ _ H)|]. apply (s_prd _ _ _ H).
          * destruct (iteration_sim st best a v c d q' H Hi Hp) as [(st1 & b1 & E1 & H1)|(E1 & Es & Hvn)].
            -- rewrite E1. cbn [bind fst snd].
               assert (Hi1 := iterate_inv adj tgt ext tot ch root ok ok_eq ok_0 ext_ok ext_mono ext_up tot_mono adj_near a v c d q' Hi Hp).
               destruct (IH (S k) st1 b1 _ H1 Hi1) as [(st2 & b2 & a2 & E2 & Hr & Hb & Hpr)|[(E2 & a2 & Hs & Hq)|(E2 & Hn)]].
               ++ left. do 3 eexists. split; [exact E2|]. split; [eapply arun_step; [exact HP|exact Hr]|]. split; [exact Hb|exact Hpr].
               ++ right. left. split; auto. exists a2. split; auto. eapply asteps_S; [exact HP|exact Hs].
               ++ right. right. auto.
            -- right. right. rewrite E1. split; auto. intros Hr. exact (Hr d v Hvn Es).
    Qed.
  End Pick.

  Lemma start_sim st : fresh g ch st -> exists st', start s t st = Ok st' /\ sim st' None (init root).
  Proof.
    intros H. unfold start. pose proof (f_cost _ _ _ H FWD s s_lt) as Es. pose proof (f_cost _ _ _ H BWD t t_lt) as Et.
    simpl in Es, Et. rewrite (nth_set _ _ f0 _ Es), (nth_set _ _ f0 _ Et). cbn [bind].
    eexists. split; [reflexivity|].
    constructor; cbn [dj_ch dj_costs dj_preds dj_visited dj_found dj_queue init lab prd vis flg que bst]; try apply H; auto.
    - intros d v Hv. destruct d; cbn [get fw bw root]; unfold up2; cbn [dir_eqb andb].
      + destruct (Nat.eqb_spec s v) as [<-|Hn]; cbn [flab].
        * apply nth_error_upd_eq. apply nth_error_Some. congruence.
        * rewrite nth_error_upd_neq by auto. apply (f_cost _ _ _ H FWD v Hv).
      + destruct (Nat.eqb_spec t v) as [<-|Hn]; cbn [flab].
        * apply nth_error_upd_eq. apply nth_error_Some. congruence.
        * rewrite nth_error_upd_neq by auto. apply (f_cost _ _ _ H BWD v Hv).
    - rewrite (f_que _ _ _ H). reflexivity.
    - intros v c d [E|[E|[]]]; injection E as <- <- <-; auto.
  Qed.

  (** *** a whole query on blank arrays *)
  Notation rqueryg := (rquery (rfin rnd) g alphas s t).
  Lemma rquery_sim pick (P : list entry -> nat -> Q -> dir -> list entry -> Prop) fuel st0 : valid_pick pick ->
    (forall q v c d q', P q v c d q' -> pops q v c d q') ->
    (forall k q v c d,
      nth_error q (pick k (map conc q)) = Some (v, c, d) -> P q v c d (remove_nth (pick k (map conc q)) q)) ->
    fresh g ch st0 ->
    (exists st' r a', rqueryg pick fuel st0 = Ok (st', r) /\ arun adj tgt ext tot ch P (init root) a' /\ answer_of g alphas ch s t a' r) \/
    (rqueryg pick fuel st0 = Diverge /\
       ((exists a', asteps adj tgt ext tot ch P fuel (init root) a' /\ que a' <> []) \/
        (fuel < node_count g /\ fuel < edge_count g FWD))) \/
    (rqueryg pick fuel st0 = Panic /\ ~ routable g).
  Proof.
    intros Hv HP Hpk Hf. destruct (start_sim st0 Hf) as (st1 & E1 & H1). unfold rquery. rewrite E1. cbn [bind].
    assert (Hi := init_inv adj tgt ext tot root).
    destruct (search_sim pick P Hv HP Hpk fuel 0 st1 None _ H1 Hi) as [(st2 & b2 & a2 & E2 & Hr & Hb & Hpr)|[(E2 & Hs)|(E2 & Hn)]];
      rewrite E2; cbn [bind fst snd]; [|right; left; auto|right; right; auto].
    destruct (bst a2) as [[m b]|] eqn:Eb; rewrite Hb; cbn [option_map fst snd].
    - destruct (run_path adj tgt ext tot ch root ok ok_eq ok_0 ext_ok ext_mono ext_up tot_mono adj_near P HP a2 m b Hr Eb) as (lf & lb & Cf & Cb & Wf & Wb & _).
      assert (Hm : m < node_count g).
      { destruct Cf as [v _ ->|v e l _ <- Hin _]; [auto|]. apply (adj_bound _ _ _ Hin). }
      destruct (trace_cases (fw (dj_preds st2)) _ FWD m lf Cf Hm (Hpr FWD) fuel) as [Ef|[Ef Hlf]]; rewrite Ef; cbn [bind];
        [|right; left; split; auto; right; pose proof (chain_len _ _ _ _ Cf Hm); pose proof (chain_edges_len _ _ _ _ Cf); lia].
      destruct (trace_cases (bw (dj_preds st2)) _ BWD m lb Cb Hm (Hpr BWD) fuel) as [Ebb|[Ebb Hlb]]; rewrite Ebb; cbn [bind];
        [|right; left; split; auto; right; pose proof (chain_len _ _ _ _ Cb Hm); pose proof (chain_edges_len _ _ _ _ Cb); lia].
      destruct (nth_error (node_ids g) s) as [sid|] eqn:Es; [|apply nth_error_None in Es; unfold node_count in *; lia].
      destruct (nth_error (node_ids g) t) as [tid|] eqn:Et; [|apply nth_error_None in Et; unfold node_count in *; lia].
      assert (Es' : node_id g s = Ok sid) by now apply idx_ok. assert (Et' : node_id g t = Ok tid) by now apply idx_ok.
      rewrite Es', Et'. cbn [bind]. left. do 3 eexists. split; [reflexivity|]. split; [exact Hr|].
      unfold answer_of. rewrite Eb. exists lf, lb, sid, tid. rewrite rev_involutive. repeat (split; auto).
    - left. do 3 eexists. split; [reflexivity|]. split; [exact Hr|]. unfold answer_of. now rewrite Eb.
  Qed.
End Sim.
