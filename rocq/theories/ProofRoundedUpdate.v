(** Updating the balanced metric in binary64 *)
From Coq Require Import String List Bool Arith ZArith QArith Qabs Qround Lia Lqa.
From Verif Require Import Base F64 Lib ModelUnits ModelConfig ModelGraph ModelBuild ModelBalancing ModelRounded ModelRoundedHeap ModelRoundedMetrics
  Spec SpecRounded SpecRoundedHeap SpecRoundedMetrics SpecBalancing ProofMetrics ProofRounded ProofRounding64 ProofCompare64 ProofFactor64
  ProofRoundedMetrics ProofMonotone64 ProofBalancing.
Import ListNotations.
Open Scope list_scope.
Open Scope nat_scope.

Section Any.
  Variable ar : f64 -> f64.
  Variables (iteration : nat) (ws : list nat) (bc : balancing_cfg) (g : graph) (mi : nat) (x : nat -> f64).
  Hypothesis Hat : metric_at g (bc_metric bc) mi.
  Hypothesis Hlen : length ws = length (metrics g).
  Hypothesis Hx : forall e, e < length ws -> metric_of g e mi = Some (x e).

  Definition up_mean : f64 := rmean ar (map (rof_nat ar) ws).
  Definition up_next (e : nat) : f64 :=
    rnext_metric ar (bc_method bc) iteration (x e) (rdiv ar (rof_nat ar (nth e ws 0)) up_mean).
  Definition up_floor (y : f64) : f64 :=
    match bc_min bc with Some mn => if rapprox_le ar y mn then mn else y | None => y end.
  Definition up_list : list f64 := map (fun e => up_floor (up_next e)) (seq 0 (length ws)).

  Lemma up_values : exists m1 m2,
    rnew_metric_values ar iteration ws bc g =
    (if rapprox_eq ar up_mean f0 then Err m1
     else do _ <- (match bc_min bc with
                   | Some _ => Ok tt
                   | None => if existsb (fun y => rapprox_le ar y f0) up_list && bc_zero_err bc then Err m2 else Ok tt
                   end);
          if rapprox_le ar (rmean ar up_list) f0 then Err m1
          else Ok (mi, rmean ar up_list, map (fun y => rdiv ar y (rmean ar up_list)) up_list)).
  Proof.
    do 2 eexists. unfold rnew_metric_values, idx_of. apply position_spec in Hat. rewrite Hat. cbn [expect bind]. cbv zeta.
    fold up_mean. destruct (rapprox_eq ar up_mean f0); [reflexivity|].
    assert (En : rnext_metrics ar (bc_method bc) iteration mi (metrics g) (map (fun y => rdiv ar y up_mean) (map (rof_nat ar) ws)) =
                 Ok (map up_next (seq 0 (length ws)))).
    { unfold rnext_metrics. rewrite map_map. set (l := map _ ws).
      assert (Hl : length l = length ws) by apply map_length.
      rewrite (mapM_total _ (fun en => up_next (fst en))).
      - f_equal. rewrite <- (map_map fst up_next), enumerate_fst, Hl. reflexivity.
      - intros [e y] Hin. apply enumerate_in in Hin. assert (He : e < length ws) by (rewrite <- Hl; apply nth_error_Some; congruence).
        pose proof (Hx e He) as Hm. unfold metric_of, edge_metrics in Hm. cbn [fst snd].
        unfold idx in *. destruct (nth_error (metrics g) e) as [v|]; [|discriminate]. cbn [bind]. rewrite Hm. cbn [bind].
        unfold up_next. f_equal. f_equal. unfold l in Hin. rewrite nth_error_map in Hin.
        destruct (nth_error ws e) as [w|] eqn:Ew; [|discriminate]. simpl in Hin. rewrite (nth_error_nth _ _ 0 Ew). congruence. }
    rewrite En. cbn [bind]. unfold rfloor_metrics, up_list, up_floor. destruct (bc_min bc) as [mn|].
    - cbn [bind]. rewrite map_map. reflexivity.
    - destruct (existsb _ _ && _); cbn [bind]; reflexivity.
  Qed.

  Lemma up_shape : (forall mu, means g = Some mu -> mi < length mu) ->
    (exists m, rupdate_new_metric ar iteration ws bc g = (Err m, g)) \/
    exists g', rupdate_new_metric ar iteration ws bc g = (Ok tt, g') /\
      rapprox_eq ar up_mean f0 = false /\ rapprox_le ar (rmean ar up_list) f0 = false /\
      (bc_min bc = None -> bc_zero_err bc = true -> forall e, e < length ws -> rapprox_le ar (up_next e) f0 = false) /\
      (forall e, e < length ws -> metric_of g' e mi = Some (rdiv ar (up_floor (up_next e)) (rmean ar up_list))) /\
      same_other_metrics g g' mi /\ same_network g g' /\
      (forall mu, means g = Some mu -> exists mu', means g' = Some mu' /\ nth_error mu' mi = Some (rmean ar up_list)).
  Proof.
    intros Hmu. destruct up_values as (m1 & m2 & Ev). unfold rupdate_new_metric. rewrite Ev.
    destruct (rapprox_eq ar up_mean f0) eqn:E1; [left; eauto|].
    destruct (match bc_min bc with Some _ => _ | None => _ end) as [[]|m| |] eqn:E2; cbn [bind];
      [|left; eauto|exfalso; destruct (bc_min bc); [|destruct (_ && _)]; discriminate|exfalso; destruct (bc_min bc); [|destruct (_ && _)]; discriminate].
    destruct (rapprox_le ar (rmean ar up_list) f0) eqn:E3; [left; eauto|].
    set (news := map (fun y => rdiv ar y (rmean ar up_list)) up_list) in *. right.
    assert (Ln : length news = length ws) by (unfold news, up_list; now rewrite !map_length, seq_length).
    assert (Hr : forall e, e < length ws -> exists v, nth_error (metrics g) e = Some v /\ mi < length v).
    { intros e He. specialize (Hx e He). unfold metric_of, edge_metrics, idx in Hx. destruct (nth_error (metrics g) e) as [v|]; [|discriminate].
      exists v. split; auto. apply nth_error_Some. congruence. }
    destruct (write_spec mi news 0 (metrics g)) as (ms' & Ew & Lms & Hms); [intros j Hj; apply Hr; lia|].
    assert (Hnth : forall e, e < length ws -> exists v z, nth_error (metrics g) e = Some v /\ mi < length v /\ nth_error news e = Some z /\
                     nth_error ms' e = Some (upd v mi z)).
    { intros e He. destruct (Hr e He) as (v & Ev' & Hv). destruct (nth_error news e) as [z|] eqn:Ez; [|apply nth_error_None in Ez; lia].
      exists v, z. split; auto. split; auto. split; auto. rewrite Hms, Ln.
      replace (0 <=? e) with true by reflexivity. replace (e <? 0 + length ws) with true by (symmetry; apply Nat.ltb_lt; lia). cbn [andb].
      rewrite Ev', Nat.sub_0_r, Ez. reflexivity. }
    assert (Hmeans : exists o, match means g with None => Ok None | Some mu => do mu' <- set mu mi (rmean ar up_list); Ok (Some mu') end = Ok o /\
                       forall mu, means g = Some mu -> exists mu', o = Some mu' /\ nth_error mu' mi = Some (rmean ar up_list)).
    { destruct (means g) as [mu|].
      - rewrite set_lt by auto. eexists. split; [reflexivity|]. intros mu0 H0. injection H0 as <-. eexists. split; [reflexivity|].
        apply nth_error_upd_eq. auto.
      - eexists. split; [reflexivity|]. discriminate. }
    destruct Hmeans as (o & Eo & Ho). rewrite Eo, Ew. eexists. split; [reflexivity|]. split; [reflexivity|]. split; [reflexivity|].
    split; [|split; [|split; [|split]]].
    - intros Hmn Hze e He. rewrite Hmn, Hze, andb_true_r in E2. destruct (existsb _ _) eqn:Ex; [discriminate|].
      destruct (rapprox_le ar (up_next e) f0) eqn:El; auto. exfalso. rewrite <- not_true_iff_false in Ex. apply Ex.
      apply existsb_exists. exists (up_next e). split; auto. unfold up_list, up_floor. rewrite Hmn. apply in_map_iff. exists e. split; auto.
      apply in_seq. lia.
    - intros e He. destruct (Hnth e He) as (w & z & Ew' & Hw & Ez & Em). unfold metric_of, edge_metrics. cbn [with_metrics with_means metrics].
      unfold idx. rewrite Em. rewrite nth_error_upd_eq by auto. rewrite <- Ez. unfold news, up_list. rewrite map_map, nth_error_map.
      assert (Es : nth_error (seq 0 (length ws)) e = Some e).
      { rewrite (nth_error_nth' _ 0) by (now rewrite seq_length). now rewrite seq_nth. }
      now rewrite Es.
    - split; [exact Lms|]. intros e j y Hj. unfold has_metric, edge_metrics. cbn [with_metrics with_means metrics].
      destruct (Nat.lt_ge_cases e (length ws)) as [He|He].
      + destruct (Hnth e He) as (w & z & Ew' & Hw & Ez & Em). split; intros (ms & F1 & F2); apply idx_ok in F1.
        * exists w. split; [now apply idx_ok|]. assert (ms = upd w mi z) by congruence. subst ms.
          rewrite nth_error_upd_neq in F2 by congruence. exact F2.
        * exists (upd w mi z). split; [now apply idx_ok|]. assert (ms = w) by congruence. subst ms. rewrite nth_error_upd_neq by congruence. exact F2.
      + split; intros (ms & F1 & F2); apply idx_ok in F1; exfalso.
        * assert (e < length ms') by (apply nth_error_Some; congruence). lia.
        * assert (e < length (metrics g)) by (apply nth_error_Some; congruence). lia.
    - unfold same_network. destruct g. reflexivity.
    - intros mu0 H0. cbn [with_metrics with_means means]. now apply (Ho mu0).
  Qed.
End Any.

(** *** The numbers *)
Open Scope Q_scope.
Lemma representable_fix q : representable q -> rnd64 q == q.
Proof.
  intros H. pose proof (rnd64_nearest q q H) as N. assert (E : Qabs (q - q) == 0) by (setoid_replace (q - q) with 0 by ring; reflexivity).
  rewrite E in N. assert (Qabs (rnd64 q - q) == 0) as Z by (pose proof (Qabs_nonneg (rnd64 q - q)); lra).
  destruct (Qlt_le_dec (rnd64 q - q) 0) as [L|L]; [rewrite Qabs_neg in Z by lra|rewrite Qabs_pos in Z by lra]; lra.
Qed.
Lemma ieee_up h q : (- (1074) <= h)%Z -> (h <= 1000)%Z -> 0 <= q -> q <= B h -> ieee (Fin q) = Fin (rnd64 q) /\ 0 <= rnd64 q /\ rnd64 q <= B h.
Proof.
  intros H1 H2 Hq Hh. assert (q <= B 1000) by (apply B_mono in H2; lra).
  split; [apply ieee_fits; rewrite Qabs_pos; auto|]. split.
  - apply (rnd_nonneg _ _ _ rounding64). auto.
  - apply mono64 in Hh. rewrite (rnd64_pow2 h H1) in Hh. exact Hh.
Qed.
Lemma ieee_abs h q : (- (1074) <= h)%Z -> (h <= 1000)%Z -> - B h <= q -> q <= B h -> ieee (Fin q) = Fin (rnd64 q) /\ - B h <= rnd64 q /\ rnd64 q <= B h.
Proof.
  intros H1 H2 Hq Hh. pose proof H2 as H2'. apply B_mono in H2'.
  split; [apply ieee_fits; apply Qabs_Qle_condition; split; lra|].
  apply mono64 in Hq, Hh. rewrite rnd64_opp in Hq. rewrite (rnd64_pow2 h H1) in Hq, Hh. auto.
Qed.
Lemma nq_pos n : (0 < n)%nat -> 0 < nq n.
Proof. intros H. unfold nq. change 0 with (inject_Z 0). rewrite <- Zlt_Qlt. lia. Qed.
Lemma nq_le_B n k : (0 <= k)%Z -> (Z.of_nat n <= 2 ^ k)%Z -> nq n <= B k.
Proof. intros Hk H. rewrite B_nat by auto. unfold nq. rewrite <- Zle_Qle. auto. Qed.

(** sums of whole numbers are exact *)
Lemma whole_fix q n : (Z.of_nat n <= 2 ^ 53)%Z -> q == nq n -> ieee (Fin q) = Fin (rnd64 q) /\ rnd64 q == nq n.
Proof.
  intros H E. destruct (ieee_up 53 q) as [A _]; [lia|lia|rewrite E; apply nq_nonneg|rewrite E; apply nq_le_B; lia|]. split; auto.
  rewrite (rnd64_proper _ _ E). apply representable_fix. exists (Z.of_nat n), 0%Z. split; [lia|]. split; [lia|].
  fold (nq n). change (Qpower (2 # 1) 0) with 1. ring.
Qed.
Lemma whole_sum ws : forall s j, s == nq j -> (Z.of_nat (j + list_sum ws) <= 2 ^ 53)%Z ->
  exists s', fold_left (radd ieee) (map (rof_nat ieee) ws) (Fin s) = Fin s' /\ s' == nq (j + list_sum ws).
Proof.
  induction ws as [|w ws IH]; intros s j Hs H; simpl.
  - exists s. split; auto. rewrite Nat.add_0_r. exact Hs.
  - simpl in H. unfold rof_nat at 2. unfold of_nat. fold (nq w). destruct (whole_fix (nq w) w) as [E1 E2]; [lia|reflexivity|]. rewrite E1.
    unfold radd at 2. cbn [fadd]. destruct (whole_fix (s + rnd64 (nq w)) (j + w)) as [F1 F2]; [lia|rewrite nq_plus; lra|]. rewrite F1.
    destruct (IH (rnd64 (s + rnd64 (nq w))) (j + w)%nat) as (s' & A & C); auto; [lia|]. exists s'. split; auto.
    now replace (j + (w + list_sum ws))%nat with (j + w + list_sum ws)%nat by lia.
Qed.

(** sums of numbers up to a power of two *)
Lemma radd_sum_up hi l : forall s j, (- (1074) <= hi)%Z -> (hi + 53 <= 1000)%Z -> (Z.of_nat (j + length l) <= 2 ^ 53)%Z ->
  Forall (fun q => 0 <= q /\ q <= B hi) l -> 0 <= s -> s <= nq j * B hi ->
  exists s', fold_left (radd ieee) (map Fin l) (Fin s) = Fin s' /\ 0 <= s' /\ s' <= nq (j + length l) * B hi.
Proof.
  induction l as [|q l IH]; intros s j H1 H2 Hj Hl Hs Hb; simpl.
  - exists s. rewrite Nat.add_0_r. auto.
  - inversion Hl as [|q' l' [Hq0 Hq] Hl']; subst. simpl in Hj. unfold radd at 2. cbn [fadd].
    pose proof (B_pos hi) as P.
    assert (Hle : s + q <= nq (S j) * B hi) by (rewrite nq_S; lra).
    assert (Hn : nq (S j) <= B 53) by (apply nq_le_B; lia).
    assert (Hle' : s + q <= B (53 + hi)). { rewrite B_plus. assert (nq (S j) * B hi <= B 53 * B hi) by (apply Qmult_le_compat_r; lra). lra. }
    destruct (ieee_up (53 + hi) (s + q)) as (E & E0 & _); [lia|lia|lra|auto|]. rewrite E.
    destruct (IH (rnd64 (s + q)) (S j)) as (s' & A & C); auto; [lia| |].
    + apply mono64 in Hle. rewrite (representable_fix (nq (S j) * B hi)) in Hle; auto.
      exists (Z.of_nat (S j)), hi. split; [lia|]. split; [lia|]. reflexivity.
    + exists s'. split; auto. now replace (j + S (length l))%nat with (S j + length l)%nat by lia.
Qed.

Section Update.
  Variables (iteration : nat) (ws : list nat) (bc : balancing_cfg) (old : nat -> Q).
  Hypothesis Hn : countable (length ws).
  Hypothesis Hne : (0 < length ws)%nat.
  Hypothesis Htotal : (Z.of_nat (list_sum ws) <= 2 ^ 53)%Z.
  Hypothesis Hit : countable iteration.
  Hypothesis Hold : forall e, (e < length ws)%nat -> moderate (old e) /\ representable (old e).
  Let x := fun e => Fin (old e).

  Lemma up_mean_64 : exists m, up_mean ieee ws = Fin m /\ m == rnd64 (nq (list_sum ws) / nq (length ws)) /\ 0 <= m /\ m <= B 53.
  Proof.
    unfold up_mean, rmean. rewrite map_length. unfold countable in Hn.
    destruct (whole_sum ws 0 0) as (s & Es & Hs); [reflexivity|simpl; auto|]. unfold f0. rewrite Es. simpl Nat.add in Hs.
    unfold rof_nat, of_nat. fold (nq (length ws)). destruct (whole_fix (nq (length ws)) (length ws)) as [E1 E2]; [lia|reflexivity|]. rewrite E1.
    pose proof (nq_pos _ Hne) as P. unfold rdiv. rewrite fdiv_fin by lra.
    assert (E : s / rnd64 (nq (length ws)) == nq (list_sum ws) / nq (length ws)) by (rewrite Hs, E2; reflexivity).
    assert (P1 : 1 <= nq (length ws)) by (unfold nq; change 1 with (inject_Z 1); rewrite <- Zle_Qle; lia).
    assert (Hu : nq (list_sum ws) / nq (length ws) <= B 53).
    { apply Qle_shift_div_r; auto. assert (nq (list_sum ws) <= B 53) by (apply nq_le_B; lia). pose proof (B_pos 53).
      assert (0 <= B 53 * (nq (length ws) - 1)) by (apply Qmult_le_0_compat; lra). lra. }
    assert (Hl : 0 <= nq (list_sum ws) / nq (length ws)) by (apply Qle_shift_div_l; auto; pose proof (nq_nonneg (list_sum ws)); lra).
    destruct (ieee_up 53 (s / rnd64 (nq (length ws)))) as (A & C & D); [lia|lia|rewrite E; auto|rewrite E; auto|].
    exists (rnd64 (s / rnd64 (nq (length ws)))). split; auto. split; [now apply rnd64_proper|auto].
  Qed.

  Section Mean.
    Variable m : Q.
    Hypothesis Em : up_mean ieee ws = Fin m.
    Hypothesis Hm : (7 # 5000000) <= m.
    Hypothesis Hm53 : m <= B 53.

    (** a workload relative to the mean *)
    Definition up_rel (e : nat) : Q := rnd64 (rnd64 (nq (nth e ws 0%nat)) / m).
    Lemma load_le e : (Z.of_nat (nth e ws 0%nat) <= 2 ^ 53)%Z.
    Proof.
      assert (nth e ws 0 <= list_sum ws)%nat; [|lia]. clear. revert e. induction ws as [|w l IH]; intros [|e]; simpl; try lia. specialize (IH e). lia.
    Qed.
    Lemma up_rel_64 e : rdiv ieee (rof_nat ieee (nth e ws 0%nat)) (up_mean ieee ws) = Fin (up_rel e) /\ 0 <= up_rel e /\ up_rel e <= B 73.
    Proof.
      rewrite Em. unfold rof_nat, of_nat. fold (nq (nth e ws 0%nat)). pose proof (load_le e) as Hl.
      destruct (whole_fix (nq (nth e ws 0%nat)) _ Hl) as [E1 E2]; [reflexivity|]. rewrite E1.
      unfold rdiv. rewrite fdiv_fin by lra. unfold up_rel.
      apply ieee_up; [lia|lia| |].
      - apply Qle_shift_div_l; [lra|]. rewrite E2. pose proof (nq_nonneg (nth e ws 0%nat)). lra.
      - apply Qle_shift_div_r; [lra|]. rewrite E2. apply Qle_trans with (B 53); [apply nq_le_B; lia|].
        replace 73%Z with (53 + 20)%Z by lia. rewrite B_plus. assert (1 <= B 20 * (7 # 5000000)) by (apply by_le; vm_compute; reflexivity).
        pose proof (B_pos 53). pose proof (B_pos 20). assert (0 <= B 20 * (m - (7 # 5000000))) by (apply Qmult_le_0_compat; lra).
        assert (0 <= B 53 * (B 20 * m - 1)) by (apply Qmult_le_0_compat; lra). lra.
    Qed.
    Lemma up_rel_fix e : rnd64 (up_rel e) == up_rel e.
    Proof. apply (r_idem _ _ _ rounding64). Qed.

    (** the next value *)
    Definition up_value (e : nat) : Q :=
      match bc_method bc with
      | ExplicitEuler (Fin c) => rnd64 (old e + rnd64 (rnd64 (up_rel e - old e) * c))
      | ExplicitEuler _ => 0
      | Averaging => rnd64 (rnd64 (rnd64 (rnd64 (nq iteration) * old e) + up_rel e) / rnd64 (nq (iteration + 1)))
      end.

    Lemma up_value_64 e : corrects (bc_method bc) -> (e < length ws)%nat ->
      up_next ieee iteration ws bc x e = Fin (up_value e) /\ 0 <= up_value e /\ up_value e <= B 460.
    Proof.
      intros Hc He. destruct (up_rel_64 e) as (Er & R0 & R1). destruct (Hold e He) as [[O0 O1] Or]. fold (B 400) in O1.
      unfold up_next. rewrite Er. unfold rnext_metric, up_value, corrects in *. unfold x.
      assert (M73 : B 73 <= B 400) by (apply B_mono; lia). assert (M401 : B 401 == 2 * B 400) by (apply (B_succ 400)).
      assert (M460 : B 401 <= B 460) by (apply B_mono; lia).
      destruct (bc_method bc) as [c|].
      - destruct Hc as (k & -> & K0 & K1). unfold radd, rmul, rsub, fsub. cbn [fneg fadd fmul].
        change (up_rel e + - old e) with (up_rel e - old e).
        destruct (ieee_abs 400 (up_rel e - old e)) as (E1 & _); [lia|lia|lra|lra|]. rewrite E1. cbn [fmul].
        assert (D : - old e <= rnd64 (up_rel e - old e) /\ rnd64 (up_rel e - old e) <= up_rel e).
        { split.
          - rewrite <- (representable_fix _ Or) at 1. rewrite <- rnd64_opp. apply mono64. lra.
          - rewrite <- (up_rel_fix e) at 2. apply mono64. lra. }
        set (d := rnd64 (up_rel e - old e)) in *.
        assert (D1 : - old e <= d * k).
        { assert (0 <= (d + old e) * k) by (apply Qmult_le_0_compat; lra). assert (0 <= old e * (1 - k)) by (apply Qmult_le_0_compat; lra). lra. }
        assert (D2 : d * k <= B 400).
        { assert (0 <= (B 400 - d) * k) by (apply Qmult_le_0_compat; lra). pose proof (B_pos 400). assert (0 <= B 400 * (1 - k)) by (apply Qmult_le_0_compat; lra). lra. }
        destruct (ieee_abs 400 (d * k)) as (E2 & _ & E2'); [lia|lia|lra|lra|]. rewrite E2. cbn [fadd].
        assert (D3 : - old e <= rnd64 (d * k)). { rewrite <- (representable_fix _ Or) at 1. rewrite <- rnd64_opp. apply mono64. lra. }
        destruct (ieee_up 401 (old e + rnd64 (d * k))) as (E3 & E4 & E5); [lia|lia|lra|lra|]. rewrite E3. split; auto. split; auto. lra.
      - unfold radd, rmul, rdiv, rof_nat, of_nat. fold (nq iteration). fold (nq (iteration + 1)). unfold countable in Hit.
        destruct (whole_fix (nq iteration) iteration) as [E1 E1']; [lia|reflexivity|]. rewrite E1.
        destruct (whole_fix (nq (iteration + 1)) (iteration + 1)) as [E2 E2']; [lia|reflexivity|]. rewrite E2. cbn [fmul].
        set (k := rnd64 (nq iteration)) in *. set (k' := rnd64 (nq (iteration + 1))) in *.
        assert (K0 : 0 <= k) by (rewrite E1'; apply nq_nonneg). assert (K1 : k <= B 50) by (rewrite E1'; apply nq_le_B; lia).
        assert (K2 : 1 <= k') by (rewrite E2'; unfold nq; change 1 with (inject_Z 1); rewrite <- Zle_Qle; lia).
        destruct (ieee_up 450 (k * old e)) as (E3 & E3' & E3''); [lia|lia|apply Qmult_le_0_compat; auto| |].
        { replace 450%Z with (50 + 400)%Z by lia. rewrite B_plus. apply mult_le; auto. }
        rewrite E3. cbn [fadd]. assert (M451 : B 451 == 2 * B 450) by (apply (B_succ 450)). assert (B 400 <= B 450) by (apply B_mono; lia).
        destruct (ieee_up 451 (rnd64 (k * old e) + up_rel e)) as (E4 & E4' & E4''); [lia|lia|lra|lra|]. rewrite E4.
        rewrite fdiv_fin by lra.
        destruct (ieee_up 451 (rnd64 (rnd64 (k * old e) + up_rel e) / k')) as (E5 & E5' & E5''); [lia|lia| | |].
        + apply Qle_shift_div_l; lra.
        + apply Qle_shift_div_r; [lra|]. pose proof (B_pos 451). assert (0 <= B 451 * (k' - 1)) by (apply Qmult_le_0_compat; lra). lra.
        + rewrite E5. split; auto. split; auto. assert (B 451 <= B 460) by (apply B_mono; lia). lra.
    Qed.

    Lemma up_floor_64 q : floors (bc_min bc) -> 0 <= q -> q <= B 460 -> exists z, up_floor ieee bc (Fin q) = Fin z /\ 0 <= z /\ z <= B 460.
    Proof.
      intros Hf H0 H1. unfold up_floor, floors in *. destruct (bc_min bc) as [mn|]; [|eauto].
      destruct Hf as (k & -> & K0 & K1). fold (B 400) in K1. destruct (rapprox_le _ _ _); [|eauto]. exists k. split; auto. split; auto.
      assert (B 400 <= B 460) by (apply B_mono; lia). lra.
    Qed.

    Lemma up_list_64 : corrects (bc_method bc) -> floors (bc_min bc) -> exists zs, up_list ieee iteration ws bc x = map Fin zs /\ length zs = length ws /\
      Forall (fun q => 0 <= q /\ q <= B 460) zs /\ forall e, (e < length ws)%nat -> up_floor ieee bc (up_next ieee iteration ws bc x e) = Fin (nth e zs 0).
    Proof.
      intros Hc Hf. unfold up_list.
      assert (G : forall k s, (s + k <= length ws)%nat -> exists zs, map (fun e => up_floor ieee bc (up_next ieee iteration ws bc x e)) (seq s k) = map Fin zs /\
                length zs = k /\ Forall (fun q => 0 <= q /\ q <= B 460) zs /\
                forall e, (e < k)%nat -> up_floor ieee bc (up_next ieee iteration ws bc x (s + e)%nat) = Fin (nth e zs 0)).
      { induction k as [|k IH]; intros s Hs.
        - exists []. repeat split; auto. intros e He. lia.
        - destruct (up_value_64 s Hc) as (E1 & E2 & E3); [lia|]. destruct (up_floor_64 (up_value s) Hf E2 E3) as (z & Ez & Z0 & Z1).
          destruct (IH (S s)) as (zs & A & C & D & F); [lia|]. exists (z :: zs). cbn [seq map]. rewrite E1, Ez, A. split; [reflexivity|].
          split; [simpl; auto|]. split; [constructor; auto|]. intros [|e] He.
          + rewrite Nat.add_0_r, E1, Ez. reflexivity.
          + simpl nth. rewrite <- F by lia. now rewrite <- plus_n_Sm. }
      destruct (G (length ws) 0%nat) as (zs & A & C & D & F); [lia|]. exists zs. repeat split; auto.
    Qed.

    Lemma up_mean2_64 : corrects (bc_method bc) -> floors (bc_min bc) -> exists m2, rmean ieee (up_list ieee iteration ws bc x) = Fin m2 /\ 0 <= m2 /\ m2 <= B 513.
    Proof.
      intros Hc Hf. destruct (up_list_64 Hc Hf) as (zs & E & L & F & _). rewrite E. unfold rmean. rewrite map_length, L. unfold countable in Hn.
      destruct (radd_sum_up 460 zs 0 0) as (s & Es & S0 & S1); [lia|lia|simpl; lia|auto|lra|change (nq 0) with 0; lra|].
      unfold f0. rewrite Es. simpl Nat.add in S1. rewrite L in S1. unfold rof_nat, of_nat. fold (nq (length ws)).
      destruct (whole_fix (nq (length ws)) (length ws)) as [E1 E2]; [lia|reflexivity|]. rewrite E1. pose proof (nq_pos _ Hne).
      unfold rdiv. rewrite fdiv_fin by lra.
      assert (P1 : 1 <= rnd64 (nq (length ws))) by (rewrite E2; unfold nq; change 1 with (inject_Z 1); rewrite <- Zle_Qle; lia).
      destruct (ieee_up 513 (s / rnd64 (nq (length ws)))) as (A & C & D); [lia|lia|apply Qle_shift_div_l; lra| |eauto].
      apply Qle_shift_div_r; [lra|]. replace 513%Z with (53 + 460)%Z by lia. rewrite B_plus. pose proof (B_pos 460). pose proof (B_pos 53).
      assert (nq (length ws) <= B 53) by (apply nq_le_B; lia). assert (nq (length ws) * B 460 <= B 53 * B 460) by (apply Qmult_le_compat_r; lra).
      assert (0 <= B 53 * B 460) by (apply Qmult_le_0_compat; lra).
      assert (0 <= B 53 * B 460 * (rnd64 (nq (length ws)) - 1)) by (apply Qmult_le_0_compat; lra). lra.
    Qed.
  End Mean.
End Update.
