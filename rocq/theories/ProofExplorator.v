(** Lemmas about the explorator *)
From Coq Require Import List Bool Arith NArith ZArith QArith Lia Lqa.
From Verif Require Import Base F64 ModelApprox ModelUnits ModelConfig ModelGraph ModelBuild ModelDijkstra ModelExplorator
  Lib Spec SpecRouting SpecPaths SpecExplorator ProofDijkstra ProofRouting PropsRouting ProofPaths PropsPaths.
Import ListNotations.
Open Scope nat_scope.

(** *** Masks *)
Lemma imc_mask_cons b l : imc_mask (b :: l) = (2 * imc_mask l + (if b then 1 else 0))%N.
Proof. unfold imc_mask. simpl rev. now rewrite fold_left_app. Qed.

Lemma imc_mask_bit l : forall i, N.testbit (imc_mask l) (N.of_nat i) = nth i l false.
Proof.
  induction l as [|b l IH]; intros i.
  - destruct i; reflexivity.
  - rewrite imc_mask_cons. destruct i as [|i].
    + simpl nth. change (N.of_nat 0) with 0%N. destruct b; [apply N.testbit_odd_0|rewrite N.add_0_r; apply N.testbit_even_0].
    + rewrite Nat2N.inj_succ. simpl nth. rewrite <- IH.
      destruct b; [apply N.testbit_odd_succ; lia|rewrite N.add_0_r; apply N.testbit_even_succ; lia].
Qed.

Lemma imc_mask_lt l : (imc_mask l < 2 ^ N.of_nat (length l))%N.
Proof.
  induction l as [|b l IH]; [reflexivity|]. rewrite imc_mask_cons. simpl length. rewrite Nat2N.inj_succ, N.pow_succ_r'.
  destruct b; lia.
Qed.

Definition sub_mask (imc m : N) : bool := (N.lxor (N.lor imc m) imc =? 0)%N.

Lemma sub_mask_iff imc m : sub_mask imc m = true <-> forall i, N.testbit m i = true -> N.testbit imc i = true.
Proof.
  unfold sub_mask. rewrite N.eqb_eq. split.
  - intros H i Hi. apply N.lxor_eq in H. rewrite <- H, N.lor_spec, Hi. apply orb_true_r.
  - intros H. apply N.bits_inj. intros i. rewrite N.lxor_spec, N.lor_spec, N.bits_0.
    destruct (N.testbit m i) eqn:E; [rewrite (H _ E); reflexivity|]. rewrite orb_false_r. apply xorb_nilpotent.
Qed.

Lemma pow2_iff m : (m <> 0)%N -> is_pow_of_2 m = true <-> m = (2 ^ N.log2 m)%N.
Proof.
  intros Hm. unfold is_pow_of_2. rewrite N.eqb_eq. set (k := N.log2 m).
  assert (Hk : (2 ^ k <= m < 2 ^ N.succ k)%N) by (apply N.log2_spec; lia).
  split.
  - intros H. destruct (N.eq_dec m (2 ^ k)) as [|Hne]; auto. exfalso.
    assert (Hl : N.log2 (m - 1) = k) by (apply N.log2_unique; lia).
    assert (Hb : N.testbit (N.land m (m - 1)) k = true).
    { rewrite N.land_spec. apply andb_true_intro. split.
      - apply N.bit_log2. auto.
      - rewrite <- Hl. apply N.bit_log2. intros H0. assert (2 ^ k <> 0)%N by (apply N.pow_nonzero; lia). lia. }
    rewrite H, N.bits_0 in Hb. discriminate.
  - intros E. assert (E1 : (m - 1 = N.ones k)%N) by (rewrite N.ones_equiv; lia).
    rewrite E1, N.land_ones. rewrite E at 1. apply N.mod_same. apply N.pow_nonzero. lia.
Qed.

Definition tag (m : N) : option nat := if is_pow_of_2 m then Some (N.to_nat (N.log2 m)) else None.

Lemma size_succ m : (m <> 0)%N ->
  N.to_nat (N.size m) = if is_pow_of_2 m then S (N.to_nat (N.size (N.pred m))) else N.to_nat (N.size (N.pred m)).
Proof.
  intros Hm. pose proof (pow2_iff m Hm) as Hp. set (k := N.log2 m) in *.
  assert (Hk : (2 ^ k <= m < 2 ^ N.succ k)%N) by (apply N.log2_spec; lia).
  rewrite (N.size_log2 m) by auto. fold k. destruct (is_pow_of_2 m).
  - assert (E : m = (2 ^ k)%N) by now apply Hp. rewrite E. destruct (N.eq_dec k 0) as [->|Hk0]; [reflexivity|].
    assert (2 <= 2 ^ k)%N by (change 2%N with (2 ^ 1)%N at 1; apply N.pow_le_mono_r; lia).
    rewrite N.size_log2 by lia. rewrite N.log2_pred_pow2 by lia. lia.
  - assert (m <> 2 ^ k)%N by (intros E; apply Hp in E; discriminate).
    assert (2 ^ k <> 0)%N by (apply N.pow_nonzero; lia).
    rewrite N.size_log2 by lia. f_equal. f_equal. symmetry. apply N.log2_unique; lia.
Qed.

Lemma init_alphas_fold dim imc n :
  fold_left (mask_step dim imc) (map N.of_nat (seq 1 n)) (0, []) =
  (N.to_nat (N.size (N.of_nat n)),
   map (fun m => (tag m, mask_alphas dim m)) (filter (sub_mask imc) (map N.of_nat (seq 1 n)))).
Proof.
  induction n as [|n IH]; [reflexivity|].
  rewrite seq_S, map_app, fold_left_app, IH, filter_app, map_app. cbn [map fold_left filter].
  set (m := N.of_nat (1 + n)). assert (Hm : (m <> 0)%N) by (unfold m; lia).
  assert (Hpred : N.pred m = N.of_nat n) by (unfold m; lia).
  change (N.of_nat (S n)) with m. rewrite (size_succ m Hm), Hpred.
  unfold mask_step. fold (sub_mask imc m). unfold tag.
  assert (Hmi : is_pow_of_2 m = true -> N.to_nat (N.size (N.of_nat n)) = N.to_nat (N.log2 m)).
  { intros Ep. pose proof (proj1 (pow2_iff m Hm) Ep) as E. set (k := N.log2 m) in *.
    rewrite <- Hpred, E. destruct (N.eq_dec k 0) as [->|Hk0]; [reflexivity|].
    assert (2 <= 2 ^ k)%N by (change 2%N with (2 ^ 1)%N at 1; apply N.pow_le_mono_r; lia).
    rewrite N.size_log2 by lia. rewrite N.log2_pred_pow2 by lia. lia. }
  destruct (sub_mask imc m); cbn [map]; rewrite ?app_nil_r; destruct (is_pow_of_2 m); auto.
  now rewrite <- Hmi.
Qed.

Definition mask_bits (dim : nat) (m : N) : list bool := map (fun i => N.testbit m (N.of_nat i)) (seq 0 dim).

Lemma mask_alphas_bits dim m : mask_alphas dim m = indicator (mask_bits dim m).
Proof.
  unfold mask_alphas, indicator, mask_bits. rewrite map_map. apply map_ext. intros i.
  change 1%N with (N.ones 1). rewrite N.land_ones. change (2 ^ 1)%N with 2%N.
  rewrite <- N.bit0_mod, N.shiftr_spec', N.add_0_l. now destruct (N.testbit m (N.of_nat i)).
Qed.

Lemma mask_bits_nth dim m i : i < dim -> nth_error (mask_bits dim m) i = Some (N.testbit m (N.of_nat i)).
Proof.
  intros H. unfold mask_bits. rewrite nth_error_map, (nth_error_nth' (seq 0 dim) 0) by now rewrite seq_length.
  rewrite seq_nth by auto. reflexivity.
Qed.
Lemma mask_bits_length dim m : length (mask_bits dim m) = dim.
Proof. unfold mask_bits. now rewrite map_length, seq_length. Qed.

Lemma high_bit dim m i : (m < 2 ^ N.of_nat dim)%N -> (N.of_nat dim <= i)%N -> N.testbit m i = false.
Proof.
  intros H Hi. rewrite <- (N.mod_small m (2 ^ N.of_nat dim)) by auto. now apply N.mod_pow2_bits_high.
Qed.

Lemma mask_bits_inj dim m m' : (m < 2 ^ N.of_nat dim)%N -> (m' < 2 ^ N.of_nat dim)%N ->
  mask_bits dim m = mask_bits dim m' -> m = m'.
Proof.
  intros H H' E. apply N.bits_inj. intros i. destruct (N.lt_ge_cases i (N.of_nat dim)) as [Hi|Hi].
  - assert (Hn : N.to_nat i < dim) by lia.
    pose proof (mask_bits_nth dim m _ Hn) as A. pose proof (mask_bits_nth dim m' _ Hn) as B.
    rewrite E in A. rewrite N2Nat.id in *. congruence.
  - now rewrite !(high_bit dim).
Qed.

Lemma indicator_inj a : forall b, indicator a = indicator b -> a = b.
Proof.
  induction a as [|x a IH]; intros [|y b] H; try discriminate; auto.
  injection H as H1 H2. f_equal; auto. destruct x, y; auto; discriminate.
Qed.

Lemma pow_N dim : N.of_nat (2 ^ dim) = (2 ^ N.of_nat dim)%N.
Proof. induction dim as [|n IH]; [reflexivity|]. now rewrite Nat2N.inj_succ, N.pow_succ_r', <- IH, Nat.pow_succ_r', Nat2N.inj_mul. Qed.

Lemma masks_in dim m : In m (map N.of_nat (seq 1 (2 ^ dim - 1))) <-> (m <> 0)%N /\ (m < 2 ^ N.of_nat dim)%N.
Proof.
  rewrite in_map_iff, <- pow_N. split.
  - intros (n & <- & H). apply in_seq in H. lia.
  - intros [H0 H]. exists (N.to_nat m). split; [lia|]. apply in_seq. lia.
Qed.

(** what is asked initially *)
Lemma init_alphas_spec dim imc l : length imc = dim -> init_alphas dim imc = Ok l ->
  NoDup (map snd l) /\
  (forall v, In v (map snd l) <-> exists sub, chosen_from imc sub /\ v = indicator sub) /\
  (forall o sub, In (o, indicator sub) l -> forall i, o = Some i <-> only i sub).
Proof.
  intros Hl E. unfold init_alphas in E. destruct (32 <=? dim); [discriminate|].
  rewrite init_alphas_fold in E. cbn [snd] in E. injection E as <-.
  set (ms := filter (sub_mask (imc_mask imc)) (map N.of_nat (seq 1 (2 ^ dim - 1)))).
  assert (Hms : forall m, In m ms <-> (m <> 0)%N /\ (m < 2 ^ N.of_nat dim)%N /\ sub_mask (imc_mask imc) m = true).
  { intros m. unfold ms. rewrite filter_In, masks_in. tauto. }
  assert (Hnd : NoDup ms).
  { apply NoDup_filter. apply FinFun.Injective_map_NoDup; [|apply seq_NoDup]. intros a b H. lia. }
  rewrite map_map. cbn [snd].
  assert (Hch : forall m, In m ms -> chosen_from imc (mask_bits dim m)).
  { intros m Hm. apply Hms in Hm. destruct Hm as (H0 & Hlt & Hsub). split; [now rewrite mask_bits_length|].
    rewrite sub_mask_iff in Hsub. split.
    - intros i Hi. assert (Hid : i < dim) by (rewrite <- (mask_bits_length dim m); apply nth_error_Some; congruence).
      rewrite mask_bits_nth in Hi by auto. injection Hi as Hi. apply Hsub in Hi. rewrite imc_mask_bit in Hi.
      rewrite (nth_error_nth' imc false) by lia. now rewrite Hi.
    - apply nth_error_In with (n := N.to_nat (N.log2 m)).
      assert (N.log2 m < N.of_nat dim)%N by (apply N.log2_lt_pow2; lia).
      rewrite mask_bits_nth by lia. rewrite N2Nat.id. now rewrite N.bit_log2. }
  assert (Hback : forall sub, chosen_from imc sub -> In (imc_mask sub) ms /\ mask_bits dim (imc_mask sub) = sub).
  { intros sub (Hsl & Hsub & Hin). split.
    - apply Hms. split; [|split].
      + intros E0. apply In_nth_error in Hin. destruct Hin as (i & Hi).
        assert (Hb : N.testbit (imc_mask sub) (N.of_nat i) = true)
          by (rewrite imc_mask_bit; now apply nth_error_nth).
        rewrite E0, N.bits_0 in Hb. discriminate.
      + rewrite <- Hl, <- Hsl. apply imc_mask_lt.
      + apply sub_mask_iff. intros i Hi. rewrite <- (N2Nat.id i) in Hi |- *. rewrite imc_mask_bit in Hi |- *.
        destruct (nth_error sub (N.to_nat i)) as [b|] eqn:Eb.
        * rewrite (nth_error_nth _ _ _ Eb) in Hi. subst b. apply Hsub in Eb. now apply nth_error_nth.
        * apply nth_error_None in Eb. rewrite nth_overflow in Hi by auto. discriminate.
    - apply list_ext; [rewrite mask_bits_length; lia|]. intros i Hi. rewrite mask_bits_length in Hi.
      rewrite mask_bits_nth by auto. rewrite imc_mask_bit. symmetry. apply nth_error_nth'. lia. }
  split; [|split].
  - assert (Hg : forall l, incl l ms -> NoDup l -> NoDup (map (fun m => mask_alphas dim m) l)).
    { induction l as [|m l IH]; intros Hi Hn; [constructor|]. apply NoDup_cons_iff in Hn. destruct Hn as [Hni Hn']. cbn [map]. constructor.
      - intros Hx. apply in_map_iff in Hx. destruct Hx as (m' & E & Hm'). apply Hni. rewrite !mask_alphas_bits in E. apply indicator_inj in E.
        assert (Em : m' = m); [|rewrite <- Em; auto]. apply (mask_bits_inj dim); auto; apply Hms, Hi; [now right|now left].
      - apply IH; auto. intros x Hx. apply Hi. now right. }
    apply Hg; auto. apply incl_refl.
  - intros v. rewrite in_map_iff. split.
    + intros (m & <- & Hm). exists (mask_bits dim m). split; [auto|apply mask_alphas_bits].
    + intros (sub & Hc & ->). destruct (Hback sub Hc) as [Hin E]. exists (imc_mask sub). split; auto.
      now rewrite mask_alphas_bits, E.
  - intros o sub Hin i. apply in_map_iff in Hin. destruct Hin as (m & E & Hm). injection E as <- E.
    rewrite mask_alphas_bits in E. apply indicator_inj in E. subst sub.
    apply Hms in Hm. destruct Hm as (H0 & Hlt & _). unfold tag.
    assert (Hlog : (N.log2 m < N.of_nat dim)%N) by (apply N.log2_lt_pow2; lia).
    pose proof (pow2_iff m H0) as Hp. split.
    + destruct (is_pow_of_2 m); [|discriminate]. intros E. injection E as <-. intros j. rewrite mask_bits_length.
      rewrite (proj1 Hp eq_refl) at 1. split.
      * intros Hj. assert (Hjd : j < dim) by (rewrite <- (mask_bits_length dim (2 ^ N.log2 m)); apply nth_error_Some; congruence).
        rewrite mask_bits_nth in Hj by auto. injection Hj as Hj. rewrite N.pow2_bits_eqb in Hj. apply N.eqb_eq in Hj. lia.
      * intros [-> Hj]. rewrite mask_bits_nth by auto. now rewrite N2Nat.id, N.pow2_bits_true.
    + intros Ho. assert (Hi : i < dim /\ N.testbit m (N.of_nat i) = true).
      { assert (Hb : nth_error (mask_bits dim m) (N.to_nat (N.log2 m)) = Some true)
          by (rewrite mask_bits_nth by lia; now rewrite N2Nat.id, N.bit_log2).
        apply Ho in Hb. destruct Hb as [<- Hlt']. rewrite mask_bits_length in Hlt'. split; auto.
        now rewrite N2Nat.id, N.bit_log2. }
      assert (Em : m = (2 ^ N.of_nat i)%N).
      { apply N.bits_inj. intros j. rewrite N.pow2_bits_eqb. destruct (N.eqb_spec (N.of_nat i) j) as [<-|Hne]; [tauto|].
        destruct (N.testbit m j) eqn:Ej; auto. exfalso.
        assert (Hjd : (j < N.of_nat dim)%N).
        { destruct (N.lt_ge_cases j (N.of_nat dim)) as [|Hge]; auto. rewrite (high_bit dim) in Ej; auto. discriminate. }
        assert (Hb : nth_error (mask_bits dim m) (N.to_nat j) = Some true)
          by (rewrite mask_bits_nth by lia; now rewrite N2Nat.id, Ej).
        apply Ho in Hb. lia. }
      assert (El : N.log2 m = N.of_nat i) by (rewrite Em; apply N.log2_pow2; lia).
      rewrite (proj2 Hp); [|now rewrite El]. now rewrite El, Nat2N.id.
Qed.

(** *** Queries *)
Lemma capacity_after pick fuel st g rc s t st' r : history st -> roomy st g ->
  compute_best_path pick fuel st g rc s t = Ok (st', r) -> history st' /\ roomy st' g.
Proof.
  intros Hh Hr E. split; [eapply history_query; eauto|]. intros Hn. specialize (Hr Hn).
  rewrite compute_split in E. destruct (existsb _ _); [now injection E as <- _|].
  apply bind_ok in E. destruct E as (ch & _ & E). apply bind_ok in E. destruct E as (st0 & E0 & E).
  pose proof (history_clean _ Hh) as Hc. rewrite (init_query_spec _ _ _ _ _ Hc E0) in E.
  pose proof (query_clean _ _ _ _ _ _ _ _ _ _ (blank_clean _ _ _) E) as Hc'.
  pose proof (c_cost _ _ Hc' FWD) as El. cbn [get] in El. unfold capacity. rewrite El. unfold new_size. now rewrite Hn.
Qed.

Lemma connects_exist g s es t : connects g s es t -> edges_exist g es.
Proof.
  induction 1 as [s|s e x es t He Hc IH]; intros k Hk; [destruct Hk|]. destruct Hk as [<-|Hk]; auto.
  unfold edge_count. cbn [xwd_dsts]. destruct He as [_ He]. unfold dst_idx in He. apply idx_ok in He. apply nth_error_Some. cbn [xwd_dsts] in He. congruence.
Qed.

Lemma xbest_real hav c ch1 ch2 es ns g pick fuel q st al st' p :
  1 <= ch1 -> 1 <= ch2 -> build hav c ch1 ch2 es ns = Ok g -> nonneg_metrics g -> aligned_metrics g ->
  history st -> roomy st g -> xq_src q < node_count g -> xq_dst q < node_count g -> valid_pick pick ->
  xbest pick fuel g q st al = Ok (st', Some p) -> real_path g (xq_src q) (xq_dst q) p.
Proof.
  intros H1 H2 E Hnn Hal Hh Hr Hs Ht Hv Ex. unfold xbest in Ex. apply bind_ok in Ex. destruct Ex as ([st1 [p0|]] & Ec & Ex);
    cbn [fst snd] in Ex; [|discriminate].
  apply bind_ok in Ex. destruct Ex as (p1 & Ep & Ex). injection Ex as <- <-.
  destruct (C16_real_path _ _ _ _ _ _ _ _ _ _ _ _ _ _ _ H1 H2 E Hnn Hh Hr Hs Ht Hv Ec) as (A1 & A2 & _ & _ & A5 & A6 & _).
  destruct (C23_calc_costs _ _ _ _ _ _ _ p0 H1 H2 E Hal (connects_exist _ _ _ _ A6) A5)
    as (p' & cs & B1 & B2 & B3 & (B4 & _ & B5 & _) & B6 & _ & B7).
  assert (p1 = p') by congruence. subst p1. unfold real_path. rewrite B4, B5, B6.
  split; [auto|]. split; [auto|]. split; [auto|]. exists cs. split; [|split; auto].
  unfold path_costs, expect in B2. destruct (p_costs p'); congruence.
Qed.

Lemma xbest_history pick fuel g q st al st' r : history st -> roomy st g ->
  xbest pick fuel g q st al = Ok (st', r) -> history st' /\ roomy st' g.
Proof.
  intros Hh Hr Ex. unfold xbest in Ex. apply bind_ok in Ex. destruct Ex as ([st1 o] & Ec & Ex). cbn [fst snd] in Ex.
  destruct (capacity_after _ _ _ _ _ _ _ _ _ Hh Hr Ec).
  destruct o as [p0|]; [apply bind_ok in Ex; destruct Ex as (p1 & _ & Ex)|]; now injection Ex as <- _.
Qed.

(** what is remembered as tolerance of metric [i] *)
Definition recorded (rc : routing_cfg) (i : nat) (r : option path) (x : f64) : Prop :=
  match r with
  | None => x = PInf
  | Some p => exists sc, nth_error (rc_scales rc) i = Some sc /\
      if feqb sc PInf then x = PInf
      else exists cs co, p_costs p = Some cs /\ nth_error cs i = Some co /\ x = fmul co sc
  end.

(** an answered query of the exploration *)
Definition asked pick fuel g q (al : list f64) (r : option path) : Prop :=
  exists st st', history st /\ roomy st g /\ xbest pick fuel g q st al = Ok (st', r).

Definition cost_apart (p p' : path) : Prop :=
  forall c c', p_costs p = Some c -> p_costs p' = Some c' -> approx_eq_vec c c' = false.

Record init_inv pick fuel g q (done : list (option nat * list f64)) (x : dijkstra * list f64 * list path) : Prop := {
  ii_hist : history (fst (fst x)) /\ roomy (fst (fst x)) g;
  ii_len : length (snd (fst x)) = xq_dim q;
  ii_found : forall p, In p (snd x) -> exists al, In al (map snd done) /\ asked pick fuel g q al (Some p);
  ii_apart : ForallOrdPairs cost_apart (snd x);
  ii_tol : forall i, i < xq_dim q -> exists y, nth_error (snd (fst x)) i = Some y /\
      (y = PInf /\ (forall al, ~ In (Some i, al) done) \/
       exists al r, In (Some i, al) done /\ asked pick fuel g q al r /\ recorded (xq_rc q) i r y);
  ii_none : snd x = [] -> forall al, In al (map snd done) -> asked pick fuel g q al None;
}.

Lemma FOP_snoc {A} (R : A -> A -> Prop) l x : ForallOrdPairs R l -> (forall y, In y l -> R y x) -> ForallOrdPairs R (l ++ [x]).
Proof.
  induction 1 as [|a l Ha Hl IH]; intros Hx; simpl; [repeat constructor|]. constructor.
  - apply Forall_app. split; [auto|]. constructor; [apply Hx; now left|constructor].
  - apply IH. intros y Hy. apply Hx. now right.
Qed.

Lemma path_costs_ok p cs : path_costs p = Ok cs <-> p_costs p = Some cs.
Proof. unfold path_costs, expect. destruct (p_costs p); split; congruence. Qed.

Lemma init_inv_step pick fuel g q done x ia x' : init_inv pick fuel g q done x -> init_step pick fuel g q x ia = Ok x' ->
  init_inv pick fuel g q (done ++ [ia]) x'.
Proof.
  destruct x as [[st tol] found]. intros [[Hh Hr] Hlen Hf Ha Htol Hnone] E. cbn [fst snd] in *.
  unfold init_step in E. apply bind_ok in E. destruct E as ([st1 o] & Ex & E). cbn [fst snd] in E.
  pose proof (xbest_history _ _ _ _ _ _ _ _ Hh Hr Ex) as Hh1.
  assert (Hask : asked pick fuel g q (snd ia) o) by (exists st, st1; auto).
  assert (Hin : forall a, In a done -> In a (done ++ [ia])) by (intros; apply in_or_app; auto).
  assert (Hin' : forall a, In a (map snd done) -> In a (map snd (done ++ [ia]))) by (intros; rewrite map_app; apply in_or_app; auto).
  destruct o as [p|].
  - apply bind_ok in E. destruct E as (cs & Ecs & E). apply bind_ok in E. destruct E as (tol' & Et & E).
    apply bind_ok in E. destruct E as (cl & Ecl & E). apply path_costs_ok in Ecs.
    assert (Htol' : length tol' = length tol /\ forall i, i < xq_dim q ->
              nth_error tol' i = nth_error tol i /\ fst ia <> Some i \/
              fst ia = Some i /\ exists y, nth_error tol' i = Some y /\ recorded (xq_rc q) i (Some p) y).
    { unfold set_tolerance in Et. destruct (fst ia) as [k|].
      - apply bind_ok in Et. destruct Et as (sc & Esc & Et). apply idx_ok in Esc.
        destruct (feqb sc PInf) eqn:Ef.
        + apply set_ok in Et. destruct Et as [Hk ->]. rewrite upd_length. split; auto. intros i Hi.
          destruct (Nat.eq_dec k i) as [->|Hne]; [right|left; rewrite nth_error_upd_neq by auto; split; congruence].
          split; auto. exists PInf. rewrite nth_error_upd_eq by auto. split; auto. exists sc. rewrite Ef. auto.
        + apply bind_ok in Et. destruct Et as (co & Eco & Et). apply idx_ok in Eco. apply set_ok in Et. destruct Et as [Hk ->].
          rewrite upd_length. split; auto. intros i Hi.
          destruct (Nat.eq_dec k i) as [->|Hne]; [right|left; rewrite nth_error_upd_neq by auto; split; congruence].
          split; auto. exists (fmul co sc). rewrite nth_error_upd_eq by auto. split; auto. exists sc. rewrite Ef.
          split; auto. exists cs, co. auto.
      - injection Et as <-. split; auto. intros i Hi. left. split; congruence. }
    destruct Htol' as [Hlen' Htol'].
    assert (Htols : forall i, i < xq_dim q -> exists y, nth_error tol' i = Some y /\
      (y = PInf /\ (forall al, ~ In (Some i, al) (done ++ [ia])) \/
       exists al r, In (Some i, al) (done ++ [ia]) /\ asked pick fuel g q al r /\ recorded (xq_rc q) i r y)).
    { intros i Hi. destruct (Htol' i Hi) as [[En Hne]|[Eia (y & Ey & Hrec)]].
      - destruct (Htol i Hi) as (y & Ey & [[-> Hno]|(al & r & A & B & C)]); rewrite En.
        + exists PInf. split; auto. left. split; auto. intros al Hal. apply in_app_or in Hal.
          destruct Hal as [Hal|[Hal|[]]]; [eapply Hno; eauto|]. subst ia. now apply Hne.
        + exists y. split; auto. right. exists al, r. auto.
      - exists y. split; auto. right. exists (snd ia), (Some p). split; [|auto]. rewrite <- Eia. destruct ia; cbn [fst snd].
        apply in_or_app. right. now left. }
    destruct (existsb (fun c => approx_eq_vec c cs) cl) eqn:Eex; injection E as <-; constructor; cbn [fst snd]; auto; try lia.
    + intros p' Hp'. destruct (Hf p' Hp') as (al & A & B). eauto.
    + intros ->. cbn [mapM] in Ecl. injection Ecl as <-. discriminate.
    + intros p' Hp'. apply in_app_or in Hp'. destruct Hp' as [Hp'|[<-|[]]].
      * destruct (Hf p' Hp') as (al & A & B). eauto.
      * exists (snd ia). split; auto. rewrite map_app. apply in_or_app. right. now left.
    + apply FOP_snoc; auto. intros y Hy c c' Ec Ec'. assert (c' = cs) by congruence. subst c'.
      destruct (approx_eq_vec c cs) eqn:Eq; auto. exfalso. apply mapM_ok in Ecl.
      apply In_nth_error in Hy. destruct Hy as (k & Hk). destruct (Forall2_nth _ _ _ _ _ Ecl Hk) as (c0 & Hc0 & Hc1).
      apply path_costs_ok in Hc1. assert (c0 = c) by congruence. subst c0.
      assert (existsb (fun c => approx_eq_vec c cs) cl = true); [|congruence]. apply existsb_exists. exists c. split; auto.
      eapply nth_error_In; eauto.
    + intros Hnil. destruct found; discriminate.
  - injection E as <-. constructor; cbn [fst snd]; auto.
    + intros p' Hp'. destruct (Hf p' Hp') as (al & A & B). eauto.
    + intros i Hi. destruct (Htol i Hi) as (y & Ey & [[-> Hno]|(al & r & A & B & C)]).
      * exists PInf. split; auto. destruct ia as [[k|] al0]; cbn [snd] in *.
        { destruct (Nat.eq_dec k i) as [->|Hne].
          - right. exists al0, None. split; [apply in_or_app; right; now left|]. split; auto. reflexivity.
          - left. split; auto. intros al Hal. apply in_app_or in Hal. destruct Hal as [Hal|[Hal|[]]]; [eapply Hno; eauto|congruence]. }
        { left. split; auto. intros al Hal. apply in_app_or in Hal. destruct Hal as [Hal|[Hal|[]]]; [eapply Hno; eauto|congruence]. }
      * exists y. split; auto. right. exists al, r. auto.
    + intros Hnil al Hal. rewrite map_app in Hal. apply in_app_or in Hal. destruct Hal as [Hal|[<-|[]]]; auto.
Qed.

Lemma init_inv_fold pick fuel g q l : forall done x x', init_inv pick fuel g q done x ->
  foldM (init_step pick fuel g q) l x = Ok x' -> init_inv pick fuel g q (done ++ l) x'.
Proof.
  induction l as [|ia l IH]; intros done x x' H E; cbn [foldM] in E.
  - injection E as <-. now rewrite app_nil_r.
  - apply bind_ok in E. destruct E as (x1 & E1 & E). change (ia :: l) with ([ia] ++ l). rewrite app_assoc.
    eapply IH; [|exact E]. eapply init_inv_step; eauto.
Qed.

Lemma init_inv_start pick fuel g q st : history st -> roomy st g -> xq_tol q = repeat PInf (xq_dim q) ->
  init_inv pick fuel g q [] (st, xq_tol q, []).
Proof.
  intros Hh Hr Et. constructor; cbn [fst snd]; auto.
  - rewrite Et. apply repeat_length.
  - intros p [].
  - constructor.
  - intros i Hi. exists PInf. rewrite Et, nth_repeat by auto. split; auto.
  - intros _ al [].
Qed.

Lemma initial_inv pick fuel g q st x ias : history st -> roomy st g -> xq_tol q = repeat PInf (xq_dim q) ->
  init_alphas (xq_dim q) (xq_imc q) = Ok ias -> explore_initial_paths pick fuel g q st = Ok x -> init_inv pick fuel g q ias x.
Proof.
  intros Hh Hr Et Ei E. unfold explore_initial_paths in E. rewrite Ei in E. cbn [bind] in E.
  exact (init_inv_fold pick fuel g q ias [] _ _ (init_inv_start pick fuel g q st Hh Hr Et) E).
Qed.

(** *** Single metrics *)
Lemma ws_zero sub : forall ms, (forall x, In x ms -> exists q, x = Fin q) -> ~ In true sub ->
  exists z, weighted_sum (indicator sub) ms = Some z /\ (z == 0)%Q.
Proof.
  induction sub as [|b sub IH]; intros [|x ms] Hf Hn; try (exists 0%Q; split; reflexivity).
  destruct (Hf x (or_introl eq_refl)) as (q & ->). destruct b; [exfalso; apply Hn; now left|].
  destruct (IH ms) as (z & Ez & Hz); [intros y Hy; apply Hf; now right|intros H; apply Hn; now right|].
  exists (0 * q + z)%Q. split; [|rewrite Hz; ring]. change (weighted_sum (indicator (false :: sub)) (Fin q :: ms)) with
    (match weighted_sum (indicator sub) ms with Some s => Some (0 * q + s)%Q | None => None end). now rewrite Ez.
Qed.

Lemma ws_only sub : forall i ms m, (forall x, In x ms -> exists q, x = Fin q) -> only i sub -> i < length sub ->
  nth_error ms i = Some (Fin m) -> exists z, weighted_sum (indicator sub) ms = Some z /\ (z == m)%Q.
Proof.
  induction sub as [|b sub IH]; intros i [|x ms] m Hf Ho Hi Em; try (simpl in *; lia); try (destruct i; discriminate).
  destruct (Hf x (or_introl eq_refl)) as (q & ->).
  assert (Hf' : forall y, In y ms -> exists q, y = Fin q) by (intros y Hy; apply Hf; now right).
  destruct i as [|i].
  - assert (b = true) by (assert (E : nth_error (b :: sub) 0 = Some true) by (apply Ho; split; auto); now injection E). subst b.
    destruct (ws_zero sub ms Hf') as (z & Ez & Hz).
    { intros H. apply In_nth_error in H. destruct H as (k & Hk). assert (nth_error (true :: sub) (S k) = Some true) as H by auto.
      apply Ho in H. lia. }
    injection Em as ->. exists (1 * m + z)%Q. split; [|rewrite Hz; ring].
    change (weighted_sum (indicator (true :: sub)) (Fin m :: ms)) with
      (match weighted_sum (indicator sub) ms with Some s => Some (1 * m + s)%Q | None => None end). now rewrite Ez.
  - assert (b = false) by (destruct b; auto; assert (E : nth_error (true :: sub) 0 = Some true) by auto; apply Ho in E; lia). subst b.
    destruct (IH i ms m Hf') as (z & Ez & Hz).
    { intros j. specialize (Ho (S j)). simpl in Ho. rewrite Ho. split; intros; lia. }
    { simpl in Hi. lia. }
    { exact Em. }
    exists (0 * q + z)%Q. split; [|rewrite Hz; ring].
    change (weighted_sum (indicator (false :: sub)) (Fin q :: ms)) with
      (match weighted_sum (indicator sub) ms with Some s => Some (0 * q + s)%Q | None => None end). now rewrite Ez.
Qed.

Lemma metric_finite g e i : finite_metrics g -> aligned_metrics g -> i < metric_dim g ->
  forall ms, edge_metrics g e = Ok ms -> exists m, nth_error ms i = Some (Fin m).
Proof.
  intros Hf Ha Hi ms E. pose proof (Ha e ms E) as Hl. destruct (nth_error ms i) as [x|] eqn:Ex; [|apply nth_error_None in Ex; lia].
  destruct (Hf e ms x E (nth_error_In _ _ Ex)) as (q & ->). eauto.
Qed.

Lemma sums_costs g sub i : finite_metrics g -> aligned_metrics g -> i < metric_dim g -> length sub = metric_dim g -> only i sub ->
  forall es q, sums g i es q -> exists q', costs_as g (indicator sub) es q' /\ (q' == q)%Q.
Proof.
  intros Hf Ha Hi Hl Ho. induction 1 as [|e es a b Em Hs (b' & IH & Eb)]; [exists 0%Q; split; [constructor|reflexivity]|].
  unfold metric_of in Em. destruct (edge_metrics g e) as [ms| | |] eqn:Ee; try discriminate.
  destruct (ws_only sub i ms a) as (z & Ez & Hz); auto; [intros x Hx; eapply Hf; eauto|lia|].
  exists (z + b')%Q. split; [econstructor; eauto|]. now rewrite Hz, Eb.
Qed.

Lemma costs_sums g sub i : finite_metrics g -> aligned_metrics g -> i < metric_dim g -> length sub = metric_dim g -> only i sub ->
  forall es q, costs_as g (indicator sub) es q -> exists q', sums g i es q' /\ (q' == q)%Q.
Proof.
  intros Hf Ha Hi Hl Ho. induction 1 as [|e es ms a b Em Hw Hs (b' & IH & Eb)]; [exists 0%Q; split; [constructor|reflexivity]|].
  destruct (metric_finite g e i Hf Ha Hi ms Em) as (m & Hm).
  destruct (ws_only sub i ms m) as (z & Ez & Hz); auto; [intros x Hx; eapply Hf; eauto|lia|].
  exists (m + b')%Q. split; [constructor; auto; unfold metric_of; now rewrite Em|]. rewrite Eb.
  assert (z = a) by congruence. subst z. now rewrite Hz.
Qed.

Lemma sums_exist hav c ch1 ch2 es ns g i : 1 <= ch1 -> 1 <= ch2 -> build hav c ch1 ch2 es ns = Ok g ->
  finite_metrics g -> aligned_metrics g -> i < metric_dim g ->
  forall s l t, connects g s l t -> exists q, sums g i l q.
Proof.
  intros H1 H2 E Hf Ha Hi s l t Hc. pose proof (connects_exist _ _ _ _ Hc) as Hex. clear Hc. induction l as [|e l IH].
  - exists 0%Q. constructor.
  - destruct IH as (q & Hq); [intros x Hx; apply Hex; now right|].
    destruct (build_metrics _ _ _ _ _ _ _ e H1 H2 E (Hex e (or_introl eq_refl))) as (ms & Em).
    destruct (metric_finite g e i Hf Ha Hi ms Em) as (m & Hm). exists (m + q)%Q. constructor; auto. unfold metric_of. now rewrite Em.
Qed.

Lemma indicator_nonneg sub : Forall not_negative (indicator sub).
Proof. induction sub as [|[] sub IH]; constructor; auto; simpl; lra. Qed.

(** what both algorithms find *)
Lemma cheapest_found hav c ch1 ch2 es ns g pick delta fuel st rc s t st' p :
  1 <= ch1 -> 1 <= ch2 -> build hav c ch1 ch2 es ns = Ok g -> nonneg_metrics g ->
  history st -> roomy st g -> s < node_count g -> t < node_count g -> (0 <= delta)%Q -> picks_min delta pick -> finds_cheapest g rc ->
  compute_best_path pick fuel st g rc s t = Ok (st', Some p) ->
  exists qp, costs_as g (rc_alphas rc) (p_edges p) qp /\
    forall l q, connects g s l t -> costs_as g (rc_alphas rc) l q -> (qp <= q + 2 * delta)%Q.
Proof.
  intros H1 H2 E Hnn Hh Hr Hs Ht Hdel Hpk [Halg|[Halg Hcon]] Ec.
  - exact (C18_optimal _ _ _ _ _ _ _ _ _ _ _ _ _ _ _ _ H1 H2 E Hnn Hh Hr Hs Ht Hdel Hpk Halg Ec).
  - pose proof (alphas_of_some _ _ _ _ _ _ _ _ _ Ec) as Ha.
    destruct (C19_ch_shortest _ _ _ _ _ _ _ _ _ _ _ _ _ _ _ _ H1 H2 E Hnn Hh Hr Hs Ht Ha Hdel Hpk Halg (Hcon _ Ha s t) Ec) as [_ K].
    destruct (K p eq_refl) as (qp & A & B). exists qp. split; auto. intros l q X Y. specialize (B l q X Y). lra.
Qed.
Lemma cheapest_none hav c ch1 ch2 es ns g pick fuel st rc s t st' :
  1 <= ch1 -> 1 <= ch2 -> build hav c ch1 ch2 es ns = Ok g -> nonneg_metrics g ->
  history st -> roomy st g -> s < node_count g -> t < node_count g -> Forall not_negative (rc_alphas rc) -> valid_pick pick -> finds_cheapest g rc ->
  compute_best_path pick fuel st g rc s t = Ok (st', None) ->
  ~ exists l q, connects g s l t /\ costs_as g (rc_alphas rc) l q.
Proof.
  intros H1 H2 E Hnn Hh Hr Hs Ht Ha Hv [Halg|[Halg Hcon]] Ec.
  - exact (proj1 (C17_found_iff _ _ _ _ _ _ _ _ _ _ _ _ _ _ _ H1 H2 E Hnn Hh Hr Hs Ht Ha Hv Halg Ec) eq_refl).
  - pose proof (proj1 (C17_found_iff_ch _ _ _ _ _ _ _ _ _ _ _ _ _ _ _ H1 H2 E Hnn Hh Hr Hs Ht Ha Hv Halg Ec) eq_refl) as A.
    intros (l & q & B & D). destruct (Hcon _ Ha s t l q B D) as (l' & q' & B' & D' & U & _). apply A. exists l', q'. auto.
Qed.

Lemma unit_query hav c ch1 ch2 es ns g pick fuel q sub i r :
  1 <= ch1 -> 1 <= ch2 -> build hav c ch1 ch2 es ns = Ok g -> nonneg_metrics g -> aligned_metrics g -> finite_metrics g ->
  xq_src q < node_count g -> xq_dst q < node_count g -> picks_min 0 pick -> finds_cheapest g (xq_rc q) ->
  length sub = metric_dim g -> i < metric_dim g -> only i sub -> asked pick fuel g q (indicator sub) r ->
  match r with
  | None => ~ exists l, connects g (xq_src q) l (xq_dst q)
  | Some p => exists cs m, p_costs p = Some cs /\ nth_error cs i = Some (Fin m) /\ least_cost g i (xq_src q) (xq_dst q) m
  end.
Proof.
  intros H1 H2 E Hnn Hal Hf Hs Ht Hpk Halg Hl Hi Ho (st & st' & Hh & Hr & Ex).
  pose proof (proj1 Hpk) as Hv.
  assert (Halg' : finds_cheapest g (with_alphas (xq_rc q) (indicator sub))) by exact Halg.
  assert (Hna : Forall not_negative (rc_alphas (with_alphas (xq_rc q) (indicator sub)))) by exact (indicator_nonneg sub).
  assert (Hreal := fun p (H : r = Some p) => xbest_real _ _ _ _ _ _ _ _ _ _ _ _ _ _ H1 H2 E Hnn Hal Hh Hr Hs Ht Hv
                     (eq_trans Ex (f_equal (fun o => Ok (st', o)) H))).
  unfold xbest in Ex. apply bind_ok in Ex. destruct Ex as ([st1 o] & Ec & Ex). cbn [fst snd] in Ex.
  destruct o as [p0|].
  - apply bind_ok in Ex. destruct Ex as (p1 & Ep & Ex). injection Ex as <- <-.
    destruct (Hreal p1 eq_refl) as (_ & _ & Hc & cs & Ecs & Hlen & Hsum).
    destruct (cheapest_found _ _ _ _ _ _ _ _ _ _ _ _ _ _ _ _ H1 H2 E Hnn Hh Hr Hs Ht (Qle_refl 0) Hpk Halg' Ec) as (qp & Hqp & Hmin).
    cbn [with_alphas rc_alphas] in *.
    assert (Ee : p_edges p1 = p_edges p0).
    { unfold calc_costs in Ep. destruct (p_costs p0); [now injection Ep as <-|]. apply bind_ok in Ep. destruct Ep as (? & _ & Ep). now injection Ep as <-. }
    rewrite Ee in *. destruct (costs_sums g sub i Hf Hal Hi Hl Ho _ _ Hqp) as (q1 & Hq1 & Eq1).
    destruct (Hsum i q1 Hi Hq1) as (m & Hm & Em). exists cs, m. split; auto. split; auto. split.
    + exists (p_edges p0), q1. split; auto. split; auto. now symmetry.
    + intros l q' Hl' Hq'. destruct (sums_costs g sub i Hf Hal Hi Hl Ho _ _ Hq') as (q2 & Hq2 & Eq2).
      specialize (Hmin l q2 Hl' Hq2). rewrite Em, Eq1, <- Eq2. lra.
  - injection Ex as <- <-. intros (l & Hc).
    apply (cheapest_none _ _ _ _ _ _ _ _ _ _ _ _ _ _ H1 H2 E Hnn Hh Hr Hs Ht Hna Hv Halg' Ec). destruct (sums_exist _ _ _ _ _ _ _ i H1 H2 E Hf Hal Hi _ _ _ Hc) as (q0 & Hq0).
    destruct (sums_costs g sub i Hf Hal Hi Hl Ho _ _ Hq0) as (q1 & Hq1 & _). exists l, q1. auto.
Qed.

(** *** Exploring *)
Lemma lookup_in id m p : lookup id m = Some p -> In (id, p) m.
Proof.
  induction m as [|[k x] m IH]; [discriminate|]. cbn [lookup]. destruct (Nat.eqb_spec k id) as [->|]; intros E.
  - injection E as ->. now left.
  - right. auto.
Qed.
Lemma lookup_remove id k m : lookup k (remove_id id m) = if k =? id then None else lookup k m.
Proof.
  induction m as [|[j x] m IH]; [now destruct (k =? id)|]. cbn [lookup remove_id filter fst].
  destruct (Nat.eqb_spec j id) as [->|Hj]; cbn [negb].
  - fold (remove_id id m). rewrite IH. destruct (Nat.eqb_spec k id) as [->|Hk]; auto. destruct (Nat.eqb_spec id k); congruence.
  - cbn [lookup]. fold (remove_id id m). rewrite IH. destruct (Nat.eqb_spec j k) as [->|Hk]; auto. destruct (Nat.eqb_spec k id); congruence.
Qed.
Lemma remove_in id m x : In x (remove_id id m) -> In x m.
Proof. unfold remove_id. rewrite filter_In. tauto. Qed.

Section State.
  Variable T : Type.
  Variable tri_new : nat -> T.
  Variable tri_add : T -> list f64 -> option (T * nat).
  Variable tri_cells : T -> list (nat * list nat).
  Variable solve : list (list f64) -> list f64 -> option (list f64).
  Variable ids : T -> list nat.
  Hypothesis ids_new : forall d, ids (tri_new d) = [].
  Hypothesis ids_add : forall t c t' id, tri_add t c = Some (t', id) ->
    ~ In id (ids t) /\ forall k, In k (ids t') <-> k = id \/ In k (ids t).
  Variable pick : nat -> list costnode -> nat.
  Variable fuel : nat.
  Variable g : graph.
  Variable q : xquery.
  (** property of all paths *)
  Variable P : path -> Prop.

  Definition tolerated (p : path) : Prop := exists cs, p_costs p = Some cs /\ approx_le_vec cs (xq_tol q) = true.

  Record xinv (s : xstate T) : Prop := {
    xi_found : forall id p, In (id, p) (xs_found T s) -> P p;
    xi_ids : forall id, In id (xs_tolerated T s) -> In id (ids (xs_tri T s));
    xi_nodup : NoDup (xs_tolerated T s);
    xi_tol : forall id, In id (xs_tolerated T s) -> exists p, lookup id (xs_found T s) = Some p /\ tolerated p;
  }.

  Lemma update_path_inv s p s' : xinv s -> P p -> update_path T tri_add q s p = Ok s' -> xinv s'.
  Proof.
    intros [Hf Hi Hn Ht] Hp E. unfold update_path in E. apply bind_ok in E. destruct E as (cs & Ecs & E).
    apply path_costs_ok in Ecs. apply bind_ok in E. destruct E as (cc & _ & E). apply bind_ok in E. destruct E as ([tri id] & Ea & E).
    unfold expect in Ea. destruct (tri_add (xs_tri T s) cc) as [[tri' id']|] eqn:Et; [|discriminate]. injection Ea as -> ->.
    destruct (ids_add _ _ _ _ Et) as [Hnew Hids]. injection E as <-.
    assert (Hsame : forall k, In k (xs_tolerated T s) -> k <> id) by (intros k Hk ->; apply Hnew; auto).
    constructor; cbn [xs_found xs_tri xs_tolerated].
    - intros k p' [H|H]; [injection H as <- <-; auto|]. apply remove_in in H. eauto.
    - intros k Hk. apply Hids. destruct (approx_le_vec _ _); [apply in_app_or in Hk; destruct Hk as [Hk|[<-|[]]]; auto|auto].
    - destruct (approx_le_vec _ _); auto. apply NoDup_rev in Hn. rewrite <- (rev_involutive (_ ++ [id])). apply NoDup_rev.
      rewrite rev_app_distr. simpl. constructor; auto. rewrite <- in_rev. intros H. now apply (Hsame id).
    - intros k Hk. assert (Hk' : In k (xs_tolerated T s) \/ k = id /\ approx_le_vec cs (xq_tol q) = true).
      { destruct (approx_le_vec _ _); auto. apply in_app_or in Hk. destruct Hk as [Hk|[<-|[]]]; auto. }
      cbn [lookup]. destruct Hk' as [Hk'|[-> Hle]].
      + destruct (Nat.eqb_spec id k) as [<-|_]; [now apply Hsame in Hk'|]. rewrite lookup_remove.
        destruct (Nat.eqb_spec k id) as [->|_]; [now apply Hsame in Hk'|]. auto.
      + rewrite Nat.eqb_refl. exists p. split; auto. exists cs. auto.
  Qed.

  Lemma update_inv new s s' : xinv s -> (forall p, In p new -> P p) -> update T tri_add q new s = Ok s' -> xinv s'.
  Proof.
    intros Hi Hp E. unfold update in E. eapply foldM_inv; [| |exact E].
    - destruct Hi. constructor; auto.
    - intros s0 p t Hin H0 Ht. eapply update_path_inv; eauto.
  Qed.

  Hypothesis Pasked : forall al p, asked pick fuel g q al (Some p) -> P p.

  Lemma explore_cell_inv found x c x' :
    history (fst (fst x)) /\ roomy (fst (fst x)) g -> (forall p, In p (snd x) -> P p) ->
    explore_cell pick fuel solve g q found x c = Ok x' ->
    (history (fst (fst x')) /\ roomy (fst (fst x')) g) /\ (forall p, In p (snd x') -> P p).
  Proof.
    destruct x as [[st vis] new]. cbn [fst snd]. intros Hh Hp E. unfold explore_cell in E.
    destruct (existsb _ vis); [injection E as <-; auto|].
    apply bind_ok in E. destruct E as (cell & Ec & E). apply bind_ok in E. destruct E as (miss & _ & E).
    destruct miss; [injection E as <-; auto|].
    apply bind_ok in E. destruct E as ([[rows b]|] & _ & E); [|injection E as <-; auto].
    destruct (solve rows b) as [al|]; [|injection E as <-; auto].
    apply bind_ok in E. destruct E as ([st1 o] & Ex & E). cbn [fst snd] in E.
    pose proof (xbest_history _ _ _ _ _ _ _ _ (proj1 Hh) (proj2 Hh) Ex) as Hh1.
    destruct o as [p|]; [|injection E as <-; auto].
    assert (HP : P p) by (apply (Pasked al); exists st, st1; tauto).
    apply bind_ok in E. destruct E as (cs & _ & E). apply bind_ok in E. destruct E as (v0 & _ & E).
    apply bind_ok in E. destruct E as (c0 & _ & E).
    destruct (_ && _); injection E as <-; cbn [fst snd]; split; auto.
    intros p' Hp'. apply in_app_or in Hp'. destruct Hp' as [Hp'|[<-|[]]]; auto.
  Qed.

  Lemma explore_inv rounds : forall st s st' s', history st -> roomy st g -> xinv s ->
    explore pick fuel T tri_add tri_cells solve g q rounds st s = Ok (st', s') -> (history st' /\ roomy st' g) /\ xinv s'.
  Proof.
    induction rounds as [|k IH]; intros st s st' s' Hh Hr Hi E; cbn [explore] in E; destruct (xs_dirty T s);
      try discriminate; try (injection E as <- <-; auto).
    apply bind_ok in E. destruct E as ([[st1 vis] new] & Ef & E). apply bind_ok in E. destruct E as (s1 & Eu & E).
    assert (H1 : (history st1 /\ roomy st1 g) /\ forall p, In p new -> P p).
    { apply (foldM_inv _ (fun x : dijkstra * list nat * list path => (history (fst (fst x)) /\ roomy (fst (fst x)) g) /\ forall p, In p (snd x) -> P p) _ _ _) in Ef; auto.
      - cbn [fst snd]. split; auto. intros p [].
      - intros x c x' _ [A B] Ex. eapply explore_cell_inv; eauto. }
    destruct H1 as [[Hh1 Hr1] Hnew]. eapply IH; [| | |exact E]; auto.
    eapply update_inv; [|exact Hnew|exact Eu]. destruct Hi. constructor; auto.
  Qed.

  Lemma collect_spec tols : forall found ps, collect tols found = Ok ps -> NoDup tols ->
    Forall2 (fun id p => lookup id found = Some p) tols ps.
  Proof.
    induction tols as [|id tols IH]; intros found ps E Hn; cbn [collect] in E.
    - injection E as <-. constructor.
    - apply bind_ok in E. destruct E as (p & Ep & E). apply bind_ok in E. destruct E as (l & El & E). injection E as <-.
      apply NoDup_cons_iff in Hn. destruct Hn as [Hni Hn]. constructor.
      + unfold expect in Ep. destruct (lookup id found); congruence.
      + specialize (IH _ _ El Hn). revert IH. clear El Hn. intros IH.
        assert (G : forall tl l, Forall2 (fun k p => lookup k (remove_id id found) = Some p) tl l -> ~ In id tl ->
                    Forall2 (fun k p => lookup k found = Some p) tl l).
        { induction 1 as [|k p0 tl l0 Hk Hl IHl]; intros Hx; constructor.
          - rewrite lookup_remove in Hk. destruct (Nat.eqb_spec k id); congruence.
          - apply IHl. intros H. apply Hx. now right. }
        apply G; auto.
  Qed.
End State.
