(** Proofs about the balancer's update of a metric *)
From Coq Require Import String List Bool Arith ZArith QArith NArith Lia Lqa.
From Verif Require Import Base F64 ModelApprox ModelUnits ModelConfig ModelGraph ModelBuild ModelDijkstra ModelBalancing
  Lib Spec ProofApprox SpecBalancing.
Import ListNotations.
Open Scope string_scope.
Open Scope list_scope.
Open Scope nat_scope.

Lemma position_spec ids id : forall mi, position id ids = Some mi <->
  nth_error ids mi = Some id /\ forall j, j < mi -> nth_error ids j <> Some id.
Proof.
  induction ids as [|x ids IH]; intros mi; simpl.
  - split; [discriminate|]. destruct mi; intros [H _]; discriminate.
  - destruct (String.eqb_spec x id) as [->|Hne].
    + split.
      * intros E. injection E as <-. split; auto. intros; lia.
      * intros [A B]. destruct mi as [|mi]; auto. exfalso. apply (B 0); [lia|reflexivity].
    + destruct (position id ids) as [i|] eqn:Ei.
      * destruct (IH i) as [F _]. destruct (F eq_refl) as [A B]. split.
        -- intros E. injection E as <-. split; auto. intros [|j] Hj; simpl; [congruence|]. apply B. lia.
        -- intros [A' B']. destruct mi as [|mi]; [simpl in A'; congruence|]. f_equal. f_equal. simpl in A'.
           destruct (lt_eq_lt_dec i mi) as [[Hlt|]|Hgt]; auto; exfalso.
           ++ apply (B' (S i)); [lia|]. exact A.
           ++ apply (B mi Hgt). exact A'.
      * split; [discriminate|]. intros [A B]. destruct mi as [|mi]; [simpl in A; congruence|]. simpl in A.
        destruct (IH mi) as [_ F]. exfalso. enough (H : None = Some mi) by discriminate. rewrite <- F; [reflexivity|]. split; auto.
        intros j Hj. specialize (B (S j) ltac:(lia)). exact B.
Qed.

(** *** Writing *)
Lemma write_spec mi news : forall e ms,
  (forall j, j < length news -> exists v, nth_error ms (e + j) = Some v /\ mi < length v) ->
  exists ms', write_metrics mi e news ms = (Ok tt, ms') /\ length ms' = length ms /\
    forall k, nth_error ms' k =
      if (e <=? k) && (k <? e + length news) then
        match nth_error ms k, nth_error news (k - e) with Some v, Some x => Some (upd v mi x) | o, _ => o end
      else nth_error ms k.
Proof.
  induction news as [|x t IH]; intros e ms H.
  - exists ms. split; auto. split; auto. intros k. destruct (e <=? k) eqn:E1, (k <? e + length []) eqn:E2; simpl; auto.
    apply Nat.leb_le in E1. apply Nat.ltb_lt in E2. simpl in E2. lia.
  - destruct (H 0) as (v & Hv & Hmi); [simpl; lia|]. rewrite Nat.add_0_r in Hv.
    assert (He : e < length ms) by (apply nth_error_Some; congruence).
    simpl write_metrics. rewrite (proj2 (idx_ok ms e v) Hv). cbn [bind]. rewrite set_lt by auto. cbn [bind]. rewrite set_lt by auto.
    destruct (IH (S e) (upd ms e (upd v mi x))) as (ms' & Ew & El & En).
    { intros j Hj. destruct (H (S j)) as (v' & Hv' & Hm'); [simpl; lia|]. exists v'. split; auto.
      rewrite nth_error_upd_neq by lia. now replace (S e + j) with (e + S j) by lia. }
    rewrite upd_length in El. exists ms'. split; [exact Ew|]. split; [exact El|]. intros k. rewrite En.
    destruct (Nat.eq_dec k e) as [->|Hk].
    + replace (S e <=? e) with false by (symmetry; apply Nat.leb_gt; lia). cbn [andb]. rewrite Nat.leb_refl.
      replace (e <? e + length (x :: t)) with true by (symmetry; apply Nat.ltb_lt; simpl; lia). cbn [andb].
      rewrite nth_error_upd_eq by auto. rewrite Hv, Nat.sub_diag. reflexivity.
    + rewrite nth_error_upd_neq by auto.
      destruct (Nat.leb_spec (S e) k), (Nat.ltb_spec k (S e + length t)), (Nat.leb_spec e k), (Nat.ltb_spec k (e + length (x :: t)));
        cbn [andb]; simpl in *; auto; try lia.
      replace (k - e) with (S (k - S e)) by lia. reflexivity.
Qed.

(** *** Sums *)
Lemma fsum_fin qs : forall a, exists s, fold_left fadd (map Fin qs) (Fin a) = Fin s /\ (s == a + sum_to (length qs) (fun i => nth i qs 0))%Q.
Proof.
  induction qs as [|q qs IH] using rev_ind; intros a.
  - exists a. simpl. split; auto. lra.
  - rewrite map_app, fold_left_app. destruct (IH a) as (s & -> & Hs). simpl. exists (s + q)%Q. split; auto.
    rewrite app_length. simpl. rewrite Nat.add_1_r. simpl. rewrite app_nth2 by lia. rewrite Nat.sub_diag. simpl.
    rewrite Hs.
    assert (Hext : forall n, n <= length qs -> (sum_to n (fun i => nth i qs 0) == sum_to n (fun i => nth i (qs ++ [q]) 0))%Q).
    { induction n as [|n IHn]; intros Hn; simpl; [lra|]. rewrite IHn by lia. rewrite app_nth1 by lia. lra. }
    rewrite (Hext (length qs)) by lia. lra.
Qed.

Lemma qn_pos n : 0 < n -> (0 < qn n)%Q.
Proof. intros H. unfold qn, Qlt. simpl. lia. Qed.
Lemma qn_zero : (qn 0 == 0)%Q.
Proof. reflexivity. Qed.
Lemma qn_S n : (qn (S n) == qn n + 1)%Q.
Proof. unfold qn. rewrite Nat2Z.inj_succ. unfold Z.succ. rewrite inject_Z_plus. reflexivity. Qed.
Lemma qn_add n m : (qn (n + m) == qn n + qn m)%Q.
Proof. unfold qn. rewrite Nat2Z.inj_add, inject_Z_plus. reflexivity. Qed.
Lemma qn_nonneg n : (0 <= qn n)%Q.
Proof. unfold qn, Qle. simpl. lia. Qed.

Lemma fdiv_fin a b : ~ (b == 0)%Q -> fdiv (Fin a) (Fin b) = Fin (a / b).
Proof.
  intros H. simpl. unfold qsign. destruct (b ?= 0)%Q eqn:E; auto. apply Qeq_alt in E. contradiction.
Qed.

Lemma fmean_fin qs : qs <> [] -> exists m, fmean (map Fin qs) = Fin m /\
  (m * qn (length qs) == sum_to (length qs) (fun i => nth i qs 0))%Q.
Proof.
  intros Hne. unfold fmean, fsum. destruct (fsum_fin qs 0) as (s & E & Hs). unfold f0. rewrite E, map_length.
  change (of_nat (length qs)) with (Fin (qn (length qs))).
  assert (Hp : (0 < qn (length qs))%Q) by (apply qn_pos; destruct qs; [congruence|simpl; lia]).
  rewrite fdiv_fin by lra. eexists. split; [reflexivity|]. rewrite Hs. field. lra.
Qed.

Lemma list_sum_to ws : (sum_to (length ws) (fun i => nth i (map qn ws) 0) == qn (list_sum ws))%Q.
Proof.
  assert (H : forall n, n <= length ws -> (sum_to n (fun i => nth i (map qn ws) 0) == qn (list_sum (firstn n ws)))%Q).
  { induction n as [|n IH]; intros Hn; [reflexivity|]. simpl sum_to. rewrite IH by lia.
    destruct (nth_error ws n) as [w|] eqn:E; [|apply nth_error_None in E; lia].
    assert (Ef : firstn (S n) ws = firstn n ws ++ [w]).
    { clear - E. revert ws E. induction n as [|n IH]; intros [|x ws] E; try discriminate; simpl in *.
      - now injection E as ->.
      - f_equal. now apply IH. }
    rewrite Ef, list_sum_app, qn_add. simpl. rewrite Nat.add_0_r.
    rewrite (nth_error_nth (map qn ws) n 0%Q (map_nth_error qn n ws E)). lra. }
  rewrite (H (length ws)) by lia. now rewrite firstn_all.
Qed.

Lemma approx_le_fin a b : approx_le (Fin a) (Fin b) = true <-> (a < b + TOL)%Q.
Proof.
  unfold approx_le. destruct (approx_cmp_fin a b) as (c & E). rewrite E. destruct c.
  - apply approx_cmp_eq, Qabs_lt_iff in E. split; auto. intros _. lra.
  - apply approx_cmp_lt in E. split; auto. intros _. unfold TOL in *. lra.
  - apply approx_cmp_gt in E. split; [discriminate|]. intros. lra.
Qed.

(** *** The new values *)
Section Update.
  Variables (iteration : nat) (ws : list nat) (bc : balancing_cfg) (g : graph) (mi : nat) (old : nat -> Q).
  Hypothesis Hcfg : finite_cfg bc.
  Hypothesis Hold : forall e, e < length (metrics g) -> has_metric g e mi (Fin (old e)).
  Hypothesis Hlen : length ws = length (metrics g).

  Lemma next_fin o n : exists v, next_metric (bc_method bc) iteration (Fin o) (Fin n) = Fin v /\ moved (bc_method bc) iteration o n v.
  Proof.
    destruct Hcfg as [Hm _]. destruct (bc_method bc) as [c|].
    - destruct Hm as (k & ->). eexists. split; [reflexivity|]. exists k. split; auto. lra.
    - unfold next_metric. change (of_nat iteration) with (Fin (qn iteration)). change (of_nat (iteration + 1)) with (Fin (qn (iteration + 1))).
      cbn [fmul fadd]. assert (Hp : (qn (iteration + 1) == qn iteration + 1)%Q) by (rewrite Nat.add_1_r; apply qn_S).
      pose proof (qn_nonneg iteration).
      rewrite fdiv_fin by lra. eexists. split; [reflexivity|]. unfold moved. rewrite <- Hp. field. lra.
  Qed.

  Lemma next_list rs : length rs = length (metrics g) ->
    exists vs, next_metrics (bc_method bc) iteration mi (metrics g) (map Fin rs) = Ok (map Fin vs) /\ length vs = length rs /\
      forall e r v, nth_error rs e = Some r -> nth_error vs e = Some v -> moved (bc_method bc) iteration (old e) r v.
  Proof.
    intros Hl. unfold next_metrics.
    assert (G : forall l start, (forall j r, nth_error l j = Some r -> start + j < length (metrics g)) ->
      exists vs, mapM (fun en => do v <- idx (metrics g) (fst en); do o <- idx v mi; Ok (next_metric (bc_method bc) iteration o (snd en)))
                   (combine (seq start (length (map Fin l))) (map Fin l)) = Ok (map Fin vs) /\ length vs = length l /\
      forall e r v, nth_error l e = Some r -> nth_error vs e = Some v -> moved (bc_method bc) iteration (old (start + e)) r v).
    { induction l as [|r l IH]; intros start Hb.
      - exists []. split; auto. split; auto. intros [|e]; discriminate.
      - destruct (IH (S start)) as (vs & Em & El & Hv).
        { intros j r' Hj. specialize (Hb (S j) r' Hj). lia. }
        specialize (Hb 0 r eq_refl). rewrite Nat.add_0_r in Hb.
        destruct (Hold start Hb) as (v & Ev & Eo). destruct (next_fin (old start) r) as (x & Ex & Hx).
        exists (x :: vs). split; [|split; [simpl; now rewrite El|]].
        + simpl length. cbn [seq map combine mapM fst snd]. unfold edge_metrics in Ev. rewrite Ev. cbn [bind].
          rewrite (proj2 (idx_ok v mi (Fin (old start))) Eo). cbn [bind]. rewrite Ex. cbn [bind]. rewrite Em. reflexivity.
        + intros [|e] r' v' Hr' Hv'; simpl in Hr', Hv'.
          * injection Hr' as <-. injection Hv' as <-. now rewrite Nat.add_0_r.
          * replace (start + S e) with (S start + e) by lia. eapply Hv; eauto. }
    unfold enumerate. apply (G rs 0). intros j r Hj. simpl. rewrite <- Hl. apply nth_error_Some. congruence.
  Qed.

  Lemma floor_list vs xs : floor_metrics bc (map Fin vs) = Ok xs ->
    exists qs, xs = map Fin qs /\ length qs = length vs /\
      (forall e v x, nth_error vs e = Some v -> nth_error qs e = Some x -> raised (bc_min bc) v x) /\
      (bc_min bc = None -> bc_zero_err bc = true -> forall x, In x qs -> (TOL <= x)%Q).
  Proof.
    unfold floor_metrics. destruct Hcfg as [_ Hm]. destruct (bc_min bc) as [mn|].
    - destruct Hm as (m & ->). intros E. injection E as <-.
      exists (map (fun v => if approx_le (Fin v) (Fin m) then m else v) vs). split; [|split; [now rewrite map_length|split; [|discriminate]]].
      + rewrite !map_map. apply map_ext. intros a. destruct (approx_le _ _); auto.
      + intros e v x Hv Hx. rewrite (map_nth_error _ _ _ Hv) in Hx. injection Hx as <-. simpl.
        destruct (approx_le (Fin v) (Fin m)) eqn:Ea.
        * apply approx_le_fin in Ea. left. split; [exact Ea|reflexivity].
        * right. split; [|reflexivity]. apply Qnot_lt_le. intros H. apply approx_le_fin in H. congruence.
    - destruct (existsb _ _ && bc_zero_err bc) eqn:Eb; [discriminate|]. intros E. injection E as <-.
      exists vs. split; auto. split; auto. split.
      + intros e v x Hv Hx. simpl. assert (v = x) by congruence. subst. reflexivity.
      + intros _ Hz x Hx. rewrite Hz, andb_true_r in Eb. apply Qnot_lt_le. intros Hlt.
        assert (Ht : existsb (fun y => approx_le y f0) (map Fin vs) = true); [|congruence].
        apply existsb_exists. exists (Fin x). split; [now apply in_map|]. apply approx_le_fin. lra.
  Qed.

  Lemma values_ok k mean news : metrics g <> [] ->
    position (bc_metric bc) (ec_ids (cfg_edges (g_cfg g))) = Some mi ->
    new_metric_values iteration ws bc g = Ok (k, mean, news) ->
    0 < list_sum ws /\ k = mi /\
    exists m2 ys xs, mean = Fin m2 /\ news = map Fin ys /\ length ys = length ws /\ length xs = length ws /\ (0 < m2)%Q /\
      (m2 * qn (length ws) == sum_to (length ws) (fun i => nth i xs 0))%Q /\
      (forall e load, nth_error ws e = Some load -> exists r v x y,
        relative ws load r /\ moved (bc_method bc) iteration (old e) r v /\ raised (bc_min bc) v x /\
        nth_error xs e = Some x /\ nth_error ys e = Some y /\ (y * m2 == x)%Q /\
        (bc_min bc = None -> bc_zero_err bc = true -> (TOL <= v)%Q)).
  Proof.
    intros Hne Hpos. assert (Hw : ws <> []) by (intros ->; destruct (metrics g); [congruence|discriminate]).
    unfold new_metric_values, idx_of. rewrite Hpos. cbn [expect bind].
    assert (El : map of_nat ws = map Fin (map qn ws)) by (rewrite map_map; apply map_ext; reflexivity).
    rewrite El. destruct (fmean_fin (map qn ws)) as (m1 & Em1 & Hm1); [destruct ws; [congruence|discriminate]|].
    rewrite Em1. rewrite map_length in Hm1. rewrite list_sum_to in Hm1.
    destruct (approx_eq (Fin m1) f0) eqn:Ea; [discriminate|].
    apply approx_eq_fin_false in Ea.
    assert (Hn : (0 < qn (length ws))%Q) by (apply qn_pos; destruct ws; [congruence|simpl; lia]).
    assert (Hm1' : ~ (m1 == 0)%Q).
    { intros H. assert (Hq : (m1 - 0 == 0)%Q) by lra. rewrite Hq in Ea. vm_compute in Ea. apply Ea. reflexivity. }
    assert (Hpos' : 0 < list_sum ws).
    { destruct (list_sum ws) eqn:Es; [|lia]. exfalso. apply Hm1'. rewrite qn_zero in Hm1. destruct (Qmult_integral _ _ Hm1); auto. lra. }
    assert (Er : map (fun x => fdiv x (Fin m1)) (map Fin (map qn ws)) = map Fin (map (fun w => qn w / m1)%Q ws)).
    { rewrite !map_map. apply map_ext. intros a. now apply fdiv_fin. }
    rewrite Er. destruct (next_list (map (fun w => qn w / m1)%Q ws)) as (vs & Ev & Elv & Hv); [now rewrite map_length|].
    rewrite Ev. cbn [bind]. rewrite map_length in Elv. intros E. apply bind_ok in E. destruct E as (fl & Ef & E).
    destruct (floor_list _ _ Ef) as (xs & -> & Elx & Hx & Hz).
    destruct (fmean_fin xs) as (m2 & Em2 & Hm2); [destruct xs, ws; simpl in *; congruence|].
    rewrite Em2 in E. destruct (approx_le (Fin m2) f0) eqn:Eb; [discriminate|].
    assert (H0 : (0 < m2)%Q).
    { apply Qnot_le_lt. intros H. assert (approx_le (Fin m2) (Fin 0) = true); [|unfold f0 in Eb; congruence].
      apply approx_le_fin. unfold TOL. lra. }
    injection E as <- <- <-. split; auto. split; auto.
    exists m2, (map (fun x => x / m2)%Q xs), xs. split; auto. split.
    { rewrite !map_map. apply map_ext. intros a. apply fdiv_fin. lra. }
    split; [rewrite map_length; congruence|]. split; [congruence|]. split; auto. split.
    { replace (length ws) with (length xs) by congruence. exact Hm2. }
    intros e load He.
    assert (Hle : e < length ws) by (apply nth_error_Some; congruence).
    destruct (nth_error vs e) as [v|] eqn:E1; [|apply nth_error_None in E1; lia].
    destruct (nth_error xs e) as [x|] eqn:E2; [|apply nth_error_None in E2; lia].
    exists (qn load / m1)%Q, v, x, (x / m2)%Q. split.
    { unfold relative. rewrite <- Hm1. field. auto. }
    split; [apply (Hv e); auto; now apply (map_nth_error (fun w => qn w / m1)%Q)|]. split; [eapply Hx; eauto|]. split; auto.
    split; [now apply (map_nth_error (fun x => x / m2)%Q)|]. split; [field; lra|].
    intros Hmn Hze. pose proof (Hz Hmn Hze x (nth_error_In _ _ E2)) as Ht. specialize (Hx e v x E1 E2). rewrite Hmn in Hx. simpl in Hx. lra.
  Qed.
End Update.

Lemma next_metrics_reads m it mi ms news vs : next_metrics m it mi ms news = Ok vs ->
  length vs = length news /\ forall e, e < length news -> exists v, nth_error ms e = Some v /\ mi < length v.
Proof.
  intros E. unfold next_metrics in E. pose proof (mapM_length _ _ _ E) as Hl. rewrite enumerate_length in Hl.
  split; auto. intros e He. apply mapM_ok in E.
  destruct (nth_error news e) as [x|] eqn:Ex; [|apply nth_error_None in Ex; lia].
  pose proof (enumerate_nth news e) as Hn. rewrite Ex in Hn. cbn in Hn.
  destruct (Forall2_nth _ _ _ e _ E Hn) as (y & _ & Hy). cbn [fst snd] in Hy.
  apply bind_ok in Hy. destruct Hy as (v & Ev & Hy). apply bind_ok in Hy. destruct Hy as (o & Eo & _).
  apply idx_ok in Ev. apply idx_ok in Eo. exists v. split; auto. apply nth_error_Some. congruence.
Qed.

Lemma floor_length bc l l' : floor_metrics bc l = Ok l' -> length l' = length l.
Proof.
  unfold floor_metrics. destruct (bc_min bc).
  - intros E. injection E as <-. apply map_length.
  - destruct (_ && _); [discriminate|]. congruence.
Qed.

Lemma values_reads it ws bc g mi mean news : new_metric_values it ws bc g = Ok (mi, mean, news) ->
  length news = length ws /\ forall e, e < length news -> exists v, nth_error (metrics g) e = Some v /\ mi < length v.
Proof.
  unfold new_metric_values. intros E. apply bind_ok in E. destruct E as (k & Ek & E). cbv zeta in E.
  destruct (approx_eq _ _); [discriminate|]. apply bind_ok in E. destruct E as (vs & Ev & E). apply bind_ok in E. destruct E as (fl & Ef & E).
  destruct (approx_le _ _); [discriminate|]. injection E as <- <- <-.
  destruct (next_metrics_reads _ _ _ _ _ _ Ev) as [Hl Hr]. rewrite !map_length in *. rewrite (floor_length _ _ _ Ef), Hl. auto.
Qed.
