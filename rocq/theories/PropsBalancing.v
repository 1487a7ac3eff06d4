(** C29, C30 and C31: the balancer *)
From Coq Require Import String List Bool Arith ZArith QArith NArith Lia Lqa Permutation.
From Verif Require Import Base F64 ModelApprox ModelUnits ModelConfig ModelGraph ModelBuild ModelDijkstra ModelExplorator ModelBalancing
  Lib Spec SpecRouting SpecPaths SpecBalancing ProofApprox ProofMetrics ProofRouting PropsGraph PropsRouting ProofPaths ProofBalancing ProofWorkers
  Examples ExamplesRouting PropsExplorator.
Import ListNotations.
Open Scope string_scope.
Open Scope list_scope.
Open Scope nat_scope.

(** *** C29: updating the balanced metric *)

(** whatever the outcome, either all is written or the graph is the same *)
Theorem C29_all_or_nothing iteration ws bc g r g' :
  update_new_metric iteration ws bc g = (r, g') -> r = Ok tt \/ g' = g.
Proof.
  unfold update_new_metric. destruct (new_metric_values iteration ws bc g) as [[[mi mean] news]| | |] eqn:E;
    try (intros H; injection H as <- <-; auto; fail).
  destruct (match means g with Some mu => _ | None => _ end) as [mu| | |]; try (intros H; injection H as <- <-; auto; fail).
  destruct (values_reads _ _ _ _ _ _ _ E) as [_ Hr].
  destruct (write_spec mi news 0 (metrics g)) as (ms' & Ew & _); [intros j Hj; apply Hr, Hj|].
  rewrite Ew. intros H. injection H as <- _. auto.
Qed.
Print Assumptions C29_all_or_nothing.

Definition bal_cfg (m : opt_method) (mn : option f64) : balancing_cfg :=
  {| bc_metric := "km"; bc_method := m; bc_min := mn; bc_zero_err := true |}.
Example C29_all_or_nothing_case :
  (exists m, update_new_metric 0 [1; 0; 0; 0; 0; 0; 0] (bal_cfg (ExplicitEuler (Fin 1)) None) rt_graph = (Err m, rt_graph)) /\
  fst (update_new_metric 0 [1; 2; 3; 4; 5; 6; 7] (bal_cfg (ExplicitEuler (Fin 1)) None) rt_graph) = Ok tt.
Proof. split; [eexists|]; vm_compute; reflexivity. Qed.

(** Of the documented update: every edge's new value is the documented one,
    raised to the minimum, up to one common positive factor: the mean [m2] of
    these values, by which they are divided afterwards.  Missing: the factor
    being 1, see the refutations below. *)
Theorem C29_update_partial iteration ws bc g mi old g' :
  finite_cfg bc -> metric_at g (bc_metric bc) mi -> metrics g <> [] -> length ws = length (metrics g) ->
  (forall e, e < length ws -> has_metric g e mi (Fin (old e))) ->
  update_new_metric iteration ws bc g = (Ok tt, g') ->
  0 < list_sum ws /\
  exists m2 x y, (0 < m2 /\ m2 * qn (length ws) == sum_to (length ws) x)%Q /\
    (forall e load, nth_error ws e = Some load ->
       (exists r v, relative ws load r /\ moved (bc_method bc) iteration (old e) r v /\ raised (bc_min bc) v (x e) /\
          (bc_min bc = None -> bc_zero_err bc = true -> (TOL <= v)%Q)) /\
       has_metric g' e mi (Fin (y e)) /\ (y e * m2 == x e)%Q) /\
    (sum_to (length ws) y == qn (length ws))%Q /\
    same_other_metrics g g' mi /\ same_network g g' /\
    (forall mu, means g = Some mu -> exists mu', means g' = Some mu' /\ nth_error mu' mi = Some (Fin m2)).
Proof.
  intros Hcfg Hat Hne Hlen Hold. apply position_spec in Hat. unfold update_new_metric.
  destruct (new_metric_values iteration ws bc g) as [[[k mean] news]| | |] eqn:E; try (intros H; discriminate).
  rewrite Hlen in Hold.
  destruct (values_ok iteration ws bc g mi old Hcfg Hold Hlen k mean news Hne Hat E)
    as (Hsum & -> & m2 & ys & xs & -> & -> & Ly & Lx & Hm2 & Hmean & Hval).
  destruct (match means g with Some mu => _ | None => _ end) as [mu| | |] eqn:Emu; try (intros H; discriminate).
  destruct (values_reads _ _ _ _ _ _ _ E) as [_ Hr]. rewrite map_length in Hr.
  destruct (write_spec mi (map Fin ys) 0 (metrics g)) as (ms' & Ew & Lms & Hms); [intros j Hj; rewrite map_length in Hj; apply Hr, Hj|].
  rewrite Ew. intros H. injection H as <-. split; auto.
  assert (Hnth : forall e, e < length ws -> exists v z, nth_error (metrics g) e = Some v /\ mi < length v /\ nth_error ys e = Some z /\
                   nth_error ms' e = Some (upd v mi (Fin z))).
  { intros e He. destruct (Hr e) as (v & Ev & Hv); [lia|]. destruct (nth_error ys e) as [z|] eqn:Ez; [|apply nth_error_None in Ez; lia].
    exists v, z. split; auto. split; auto. split; auto. rewrite Hms. rewrite map_length.
    replace (0 <=? e) with true by reflexivity. replace (e <? 0 + length ys) with true by (symmetry; apply Nat.ltb_lt; lia). cbn [andb].
    rewrite Ev, Nat.sub_0_r, (map_nth_error Fin _ _ Ez). reflexivity. }
  assert (Hxy : forall e, e < length ws -> (nth e ys 0 * m2 == nth e xs 0)%Q).
  { intros e He. destruct (nth_error ws e) as [load|] eqn:El; [|apply nth_error_None in El; lia].
    destruct (Hval e load El) as (r & v & x & y & _ & _ & _ & Hx & Hy & Hq & _).
    rewrite (nth_error_nth _ _ 0%Q Hx), (nth_error_nth _ _ 0%Q Hy). exact Hq. }
  exists m2, (fun e => nth e xs 0%Q), (fun e => nth e ys 0%Q). split; [auto|]. split; [|split; [|split; [|split]]].
  - intros e load El. assert (He : e < length ws) by (apply nth_error_Some; congruence).
    destruct (Hval e load El) as (r & v & x & y & A & B & C & Hx & Hy & Hq & D).
    rewrite (nth_error_nth _ _ 0%Q Hx), (nth_error_nth _ _ 0%Q Hy). split; [exists r, v; auto|]. split; auto.
    destruct (Hnth e He) as (w & z & Ew' & Hw & Ez & Em). exists (upd w mi (Fin z)). split.
    + unfold edge_metrics. cbn. now apply idx_ok.
    + rewrite nth_error_upd_eq by auto. congruence.
  - assert (Hs : (sum_to (length ws) (fun e => nth e ys 0) == sum_to (length ws) (fun e => nth e xs 0 / m2))%Q).
    { apply sum_to_ext. intros i Hi. rewrite <- (Hxy i Hi). field. lra. }
    rewrite Hs, sum_to_scale, <- Hmean. field. lra.
  - split; [exact Lms|]. intros e j x Hj. unfold has_metric, edge_metrics. cbn [with_metrics with_means metrics].
    destruct (Nat.lt_ge_cases e (length ws)) as [He|He].
    + destruct (Hnth e He) as (w & z & Ew' & Hw & Ez & Em). split; intros (ms & E1 & E2); apply idx_ok in E1.
      * exists w. split; [now apply idx_ok|]. assert (ms = upd w mi (Fin z)) by congruence. subst ms.
        rewrite nth_error_upd_neq in E2 by congruence. exact E2.
      * exists (upd w mi (Fin z)). split; [now apply idx_ok|]. assert (ms = w) by congruence. subst ms. rewrite nth_error_upd_neq by congruence. exact E2.
    + split; intros (ms & E1 & E2); apply idx_ok in E1; exfalso.
      * assert (e < length ms') by (apply nth_error_Some; congruence). lia.
      * assert (e < length (metrics g)) by (apply nth_error_Some; congruence). lia.
  - unfold same_network. destruct g. reflexivity.
  - intros mu0 Hmu. cbn [with_metrics with_means means]. rewrite Hmu in Emu. apply bind_ok in Emu. destruct Emu as (mu' & Es & Eo).
    injection Eo as <-. exists mu'. split; auto. apply set_ok in Es. destruct Es as [Hlt ->]. now apply nth_error_upd_eq.
Qed.
Print Assumptions C29_update_partial.
Example C29_update_case :
  finite_cfg (bal_cfg (ExplicitEuler (Fin (1 # 2))) (Some (Fin (1 # 10)))) /\ metric_at rt_graph "km" 0 /\
  length [1; 2; 3; 4; 5; 6; 7] = length (metrics rt_graph) /\
  (forall e, e < 7 -> exists q, has_metric rt_graph e 0 (Fin q)) /\
  exists g', update_new_metric 3 [1; 2; 3; 4; 5; 6; 7] (bal_cfg (ExplicitEuler (Fin (1 # 2))) (Some (Fin (1 # 10)))) rt_graph = (Ok tt, g') /\
    g' <> rt_graph.
Proof.
  split; [split; simpl; eauto|]. split; [split; [reflexivity|intros j Hj; lia]|]. split; [reflexivity|]. split.
  - intros e He. do 7 (destruct e as [|e]; [eexists; eexists; split; reflexivity|]). lia.
  - eexists. split; [vm_compute; reflexivity|discriminate].
Qed.

(** The update neither panics nor hangs. *)
Theorem C29_no_panic iteration ws bc g mi old :
  finite_cfg bc -> metric_at g (bc_metric bc) mi -> metrics g <> [] -> length ws = length (metrics g) ->
  (forall e, e < length ws -> has_metric g e mi (Fin (old e))) ->
  (forall mu, means g = Some mu -> mi < length mu) ->
  (exists m, update_new_metric iteration ws bc g = (Err m, g)) \/ (exists g', update_new_metric iteration ws bc g = (Ok tt, g')).
Proof.
  intros Hcfg Hat Hne Hlen Hold Hmu. apply position_spec in Hat. unfold update_new_metric.
  destruct (new_metric_values iteration ws bc g) as [[[k mean] news]| | |] eqn:E.
  - right. rewrite Hlen in Hold. destruct (values_ok iteration ws bc g mi old Hcfg Hold Hlen k mean news Hne Hat E) as (_ & -> & _).
    destruct (values_reads _ _ _ _ _ _ _ E) as [_ Hr].
    destruct (write_spec mi news 0 (metrics g)) as (ms' & Ew & _); [intros j Hj; apply Hr, Hj|].
    destruct (means g) as [mu|]; [rewrite set_lt by auto; cbn [bind]|]; rewrite Ew; eauto.
  - left. eauto.
  - exfalso. revert E. unfold new_metric_values, idx_of. rewrite Hat. cbn [expect bind].
    destruct (approx_eq _ _) eqn:Ea; [discriminate|].
    assert (El : map of_nat ws = map Fin (map qn ws)) by (rewrite map_map; apply map_ext; reflexivity).
    rewrite El in *. destruct (fmean_fin (map qn ws)) as (m1 & Em1 & _); [destruct ws, (metrics g); simpl in *; congruence|].
    rewrite Em1 in *.
    assert (Hm1' : ~ (m1 == 0)%Q).
    { intros H. apply approx_eq_fin_false in Ea. assert (Hq : (m1 - 0 == 0)%Q) by lra. rewrite Hq in Ea. vm_compute in Ea. now apply Ea. }
    assert (Er : map (fun x => fdiv x (Fin m1)) (map Fin (map qn ws)) = map Fin (map (fun w => qn w / m1)%Q ws)).
    { rewrite !map_map. apply map_ext. intros a. now apply fdiv_fin. }
    rewrite Er. rewrite Hlen in Hold. destruct (next_list iteration ws bc g mi old Hcfg Hold Hlen (map (fun w => qn w / m1)%Q ws)) as (vs & Ev & _);
      [now rewrite map_length|]. rewrite Ev. cbn [bind]. unfold floor_metrics. destruct (bc_min bc); cbn [bind];
      [destruct (approx_le _ _); discriminate|]. destruct (_ && _); cbn [bind]; [discriminate|]. destruct (approx_le _ _); discriminate.
  - exfalso. revert E. unfold new_metric_values, idx_of. rewrite Hat. cbn [expect bind]. destruct (approx_eq _ _); [discriminate|].
    intros E. destruct (next_metrics _ _ _ _ _) eqn:En; cbn [bind] in E; try discriminate.
    + destruct (floor_metrics _ _) eqn:Ef; cbn [bind] in E; try discriminate; [destruct (approx_le _ _); discriminate|].
      unfold floor_metrics in Ef. destruct (bc_min bc); [discriminate|]. destruct (_ && _); discriminate.
    + clear E. unfold next_metrics in En. revert En.
      assert (G : forall l : list (nat * f64), mapM (fun en => do v <- idx (metrics g) (fst en); do o <- idx v mi;
                    Ok (next_metric (bc_method bc) iteration o (snd en))) l <> Diverge); [|apply G].
      induction l as [|en l IH]; [discriminate|]. simpl. unfold idx. destruct (nth_error (metrics g) (fst en)) as [v|]; [|discriminate].
      cbn [bind]. destruct (nth_error v mi); cbn [bind]; [|discriminate]. unfold idx in IH. destruct (mapM _ l); cbn [bind]; try discriminate. congruence.
Qed.
Print Assumptions C29_no_panic.
Example C29_no_panic_case : finite_cfg (bal_cfg Averaging None) /\ metric_at rt_graph "km" 0 /\
  (forall mu, means rt_graph = Some mu -> 0 < length mu) /\
  (exists m, update_new_metric 2 [0; 0; 0; 0; 0; 0; 0] (bal_cfg Averaging None) rt_graph = (Err m, rt_graph)) /\
  fst (update_new_metric 2 [1; 0; 2; 0; 1; 3; 0] (bal_cfg Averaging None) rt_graph) = Ok tt.
Proof.
  split; [split; simpl; auto|]. split; [split; [reflexivity|intros j Hj; lia]|]. split; [intros mu H; vm_compute in H; discriminate|].
  split; [eexists|]; vm_compute; reflexivity.
Qed.

(** The stored value is not the documented one: it is divided by the new mean
    even if the workloads were normalised before. *)
Theorem C29_formula_refuted : exists hav c es ns g bc ws g' old load new k x,
  build hav c 1 1 es ns = Ok g /\ bc_method bc = ExplicitEuler (Fin k) /\ bc_min bc = None /\
  update_new_metric 0 ws bc g = (Ok tt, g') /\ nth_error ws 0 = Some load /\ relative ws load new /\
  has_metric g 0 0 (Fin old) /\ has_metric g' 0 0 (Fin x) /\ ~ (x == old + (new - old) * k)%Q.
Proof.
  exists ex_hav, (ex_cfg false), rt_es, rt_ns, (unok empty_graph (build ex_hav (ex_cfg false) 1 1 rt_es rt_ns)),
    (bal_cfg (ExplicitEuler (Fin (1 # 2))) None), [1; 2; 3; 4; 5; 6; 7],
    (snd (update_new_metric 0 [1; 2; 3; 4; 5; 6; 7] (bal_cfg (ExplicitEuler (Fin (1 # 2))) None) (unok empty_graph (build ex_hav (ex_cfg false) 1 1 rt_es rt_ns)))).
  do 5 eexists. split; [vm_compute; reflexivity|]. split; [reflexivity|]. split; [reflexivity|]. split; [vm_compute; reflexivity|].
  split; [reflexivity|]. split; [instantiate (1 := (1 # 4)%Q); vm_compute; reflexivity|].
  split; [eexists; split; vm_compute; reflexivity|]. split; [eexists; split; vm_compute; reflexivity|]. vm_compute. discriminate.
Qed.
Print Assumptions C29_formula_refuted.

(** The stored value may be below the configured minimum, for the same reason. *)
Theorem C29_minimum_refuted : exists hav c es ns g bc ws g' mn x,
  build hav c 1 1 es ns = Ok g /\ bc_min bc = Some (Fin mn) /\ update_new_metric 0 ws bc g = (Ok tt, g') /\
  has_metric g' 0 0 (Fin x) /\ (x + (9 # 10) <= mn)%Q.
Proof.
  exists ex_hav, (ex_cfg false), rt_es, rt_ns, (unok empty_graph (build ex_hav (ex_cfg false) 1 1 rt_es rt_ns)),
    (bal_cfg (ExplicitEuler (Fin 1)) (Some (Fin 2))), [0; 0; 0; 0; 0; 0; 28],
    (snd (update_new_metric 0 [0; 0; 0; 0; 0; 0; 28] (bal_cfg (ExplicitEuler (Fin 1)) (Some (Fin 2))) (unok empty_graph (build ex_hav (ex_cfg false) 1 1 rt_es rt_ns)))).
  do 2 eexists. split; [vm_compute; reflexivity|]. split; [reflexivity|]. split; [vm_compute; reflexivity|].
  split; [eexists; split; vm_compute; reflexivity|]. vm_compute. discriminate.
Qed.
Print Assumptions C29_minimum_refuted.

(** *** C31: work size *)

(** After any sequence of receipts (each by try_recv or not, from any worker)
    the work size is within its bounds, no computation over- or underflows,
    and no chunk is empty. *)
Theorem C31_work_size init plus minus receipts :
  (1 <= minus)%N -> (minus + plus <= USIZE_MAX)%N ->
  exists size0 size, init_size init plus minus = Ok size0 /\
    foldM (fun s r => recv_size plus minus s (fst r) (snd r)) receipts size0 = Ok size /\
    (minus <= size)%N /\ (size <= USIZE_MAX - plus)%N /\ forall last, (1 <= work_size size last)%N.
Proof.
  intros H1 Hmp. destruct (init_size_bounds init plus minus) as (size0 & E0 & A & B); [lia|auto|].
  exists size0. assert (G : forall s, (minus <= s)%N -> (s <= USIZE_MAX - plus)%N ->
    exists s', foldM (fun s r => recv_size plus minus s (fst r) (snd r)) receipts s = Ok s' /\ (minus <= s')%N /\ (s' <= USIZE_MAX - plus)%N).
  { induction receipts as [|[f w] rs IH]; intros s Hs1 Hs2; [exists s; auto|]. cbn [foldM fst snd].
    destruct (recv_size_bounds plus minus s f w) as (s1 & E1 & C & D); [lia|auto|auto|auto|]. rewrite E1. cbn [bind]. now apply IH. }
  destruct (G size0 A B) as (size & E & C & D). exists size. split; [auto|]. split; [auto|]. split; [auto|]. split; [auto|].
  intros [[|[|k]]|]; simpl; lia.
Qed.
Print Assumptions C31_work_size.
Example C31_case : (1 <= WORK_SIZE_MINUS)%N /\ (WORK_SIZE_MINUS + WORK_SIZE_PLUS <= USIZE_MAX)%N /\
  foldM (fun s r => recv_size WORK_SIZE_PLUS WORK_SIZE_MINUS s (fst r) (snd r))
    [(true, 0); (false, 1); (false, 0); (false, 0); (false, 0); (false, 0); (false, 0); (false, 0); (false, 0)] 50%N = Ok 10%N.
Proof. vm_compute. repeat split; discriminate. Qed.

(** Sending takes at least one and at most [work_size] routes from the end of
    the reversed list, in their original order. *)
Theorem C31_chunk g ff job count routes collecting fit s0 l log s i w (fast : bool) o rest :
  steady g ff job routes fit -> spawned g count routes collecting = Ok s0 -> runs g ff job l s0 log s ->
  s_phase s = (if fast then PTry else PWait) -> s_chan s = (i, o) :: rest -> s_routes s <> [] ->
  nth_error (s_workers s) i = Some w ->
  exists s' chunk, fire g ff job AMaster s = Some s' /\ chunk <> [] /\
    s_routes s = s_routes s' ++ rev chunk /\ (N.of_nat (length chunk) <= work_size (s_size s') (Some i))%N /\
    (s_routes s' <> [] -> N.of_nat (length chunk) = work_size (s_size s') (Some i)) /\
    exists w', nth_error (s_workers s') i = Some w' /\ map wk_routes (w_inbox w') = [chunk].
Proof.
  intros Hst E0 R Hph Hch Hne Hw.
  destruct (spawned_inv g ff job count routes collecting fit Hst s0 E0) as [Hi0 _].
  destruct (runs_inv g ff job count routes collecting fit Hst l s0 [] log s R Hi0) as [Hi _]. simpl in Hi.
  pose proof (i_size _ _ _ _ _ _ _ _ Hi) as [Hs1 Hs2]. destruct (i_chan _ _ _ _ _ _ _ _ Hi i o) as [_ Hfl]; [rewrite Hch; simpl; auto|].
  destruct (i_paths _ _ _ _ _ _ _ _ Hi) as (ab & fl & _ & Ha & _).
  destruct (recv_size_bounds WORK_SIZE_PLUS WORK_SIZE_MINUS (s_size s) fast i) as (sz & Esz & Hz1 & Hz2);
    [vm_compute; discriminate|vm_compute; discriminate|auto|auto|].
  destruct (absorb_spec g ff collecting o fl (s_loads s) (s_paths s) Ha Hfl) as (lo & pa & fl' & Ea & _ & _).
  pose proof (i_workers _ _ _ _ _ _ _ _ Hi i w Hw) as [_ Wo].
  assert (Ho : w_open w = true).
  { destruct (w_open w); auto. destruct Wo as (_ & Wc & _). rewrite Hch, cnt_cons in Wc. destruct (Nat.eq_dec i i); [lia|congruence]. }
  rewrite Ho in Wo. destruct Wo as [Wt Wc]. rewrite Hch, cnt_cons in Wc. destruct (Nat.eq_dec i i) as [_|]; [|congruence].
  assert (Wi : w_inbox w = []) by (destruct (w_inbox w); [auto|simpl in Wc; lia]).
  assert (Efire : fire g ff job AMaster s = Some (receive g ff fast i o rest s)).
  { cbn [fire]. unfold master_step. rewrite Hph, Hch. destruct fast; reflexivity. }
  rewrite Efire. unfold receive. rewrite Esz, Ea. unfold dispatch. cbn [s_workers s_routes s_size s_last s_loads s_paths s_chan s_seeds s_phase].
  rewrite Hw, Ho. cbn [negb]. assert (Hlen : 0 < length (s_routes s)) by (destruct (s_routes s); [congruence|simpl; lia]).
  rewrite (proj2 (Nat.ltb_lt _ _) Hlen), Wt.
  assert (Hk : (1 <= work_size sz (Some i))%N).
  { unfold work_size. unfold WORK_SIZE_MINUS in Hz1. destruct i as [|[|i]]; lia. }
  set (k := N.to_nat (N.min (N.of_nat (length (s_routes s))) (work_size sz (Some i)))).
  eexists. exists (rev (skipn (length (s_routes s) - k) (s_routes s))). split; [reflexivity|].
  cbn [s_workers s_routes s_size s_last s_loads s_paths s_chan s_seeds s_phase].
  assert (Hlk : length (rev (skipn (length (s_routes s) - k) (s_routes s))) = k).
  { rewrite rev_length, skipn_length. unfold k. lia. }
  split; [intros H; rewrite H in Hlk; simpl in Hlk; unfold k in Hlk; lia|].
  split; [rewrite rev_involutive; symmetry; apply firstn_skipn|]. rewrite Hlk. split; [unfold k; lia|]. split.
  - intros Hf. unfold k in *. assert (length (s_routes s) - N.to_nat (N.min (N.of_nat (length (s_routes s))) (work_size sz (Some i))) <> 0).
    { intros H0. rewrite H0 in Hf. now apply Hf. }
    lia.
  - eexists. split; [apply nth_error_upd_eq; apply nth_error_Some; congruence|]. cbn [w_inbox]. rewrite Wi. reflexivity.
Qed.
Print Assumptions C31_chunk.

(** *** C30: working off routes *)

(** For every number of workers, every schedule is finite, does no work twice
    and never fails; if nobody can move any more then the master has returned. *)
Theorem C30_schedules g ff job count routes collecting fit s0 l log s :
  steady g ff job routes fit -> spawned g count routes collecting = Ok s0 -> runs g ff job l s0 log s ->
  length l <= 3 * length routes + 4 * count + 2 /\
  s_phase s <> PErr /\ s_phase s <> PPanic /\ (forall w, In w (s_workers s) -> w_thread w <> Crashed) /\
  (exists others, Permutation routes (logged_routes log ++ others)) /\
  (blocked g ff job s -> s_phase s = PDone) /\
  exists l' log' s', runs g ff job l' s log' s' /\ s_phase s' = PDone.
Proof.
  intros Hst E0 R. destruct (spawned_inv g ff job count routes collecting fit Hst s0 E0) as [Hi0 Hm0].
  destruct (runs_inv g ff job count routes collecting fit Hst l s0 [] log s R Hi0) as [Hi Hm]. simpl in Hi.
  split; [lia|]. pose proof (i_phase _ _ _ _ _ _ _ _ Hi) as Hph. unfold phase_ok in Hph.
  split; [intros H; now rewrite H in Hph|]. split; [intros H; now rewrite H in Hph|]. split; [|split; [|split]].
  - intros w Hw Hc. apply In_nth_error in Hw. destruct Hw as (i & Hn). destruct (i_workers _ _ _ _ _ _ _ _ Hi i w Hn) as [_ Wo].
    destruct (w_open w); [destruct Wo as [Wo _]; congruence|]. destruct Wo as (_ & _ & _ & [Wo|[Wo _]]); congruence.
  - exists (s_routes s ++ flat_map inbox_routes (s_workers s)). rewrite (i_routes _ _ _ _ _ _ _ _ Hi). rewrite app_assoc. apply Permutation_app_comm.
  - intros Hb. eapply progress; eauto.
  - eapply completes; eauto.
Qed.
Print Assumptions C30_schedules.

(** When the master returns, every route has been worked off exactly once, all
    workers have been joined, and the workload of an edge is the number of its
    occurrences in the flattened chosen paths. *)
Theorem C30_accounting g ff job count routes collecting fit s0 l log s :
  steady g ff job routes fit -> 1 <= count -> spawned g count routes collecting = Ok s0 -> runs g ff job l s0 log s ->
  s_phase s = PDone ->
  Permutation routes (logged_routes log) /\
  (forall w, In w (s_workers s) -> w_thread w = Exited /\ w_open w = false /\ w_inbox w = []) /\
  exists ps fl, Permutation (logged_paths log) ps /\ Forall2 (flattens g ff) ps fl /\
    length (s_loads s) = edge_count g FWD /\
    (forall e, e < edge_count g FWD -> nth_error (s_loads s) e = Some (occurrences e fl)) /\
    s_paths s = (if collecting then Some fl else None).
Proof.
  intros Hst Hc E0 R Hd. destruct (spawned_inv g ff job count routes collecting fit Hst s0 E0) as [Hi0 _].
  destruct (runs_inv g ff job count routes collecting fit Hst l s0 [] log s R Hi0) as [Hi _]. simpl in Hi.
  destruct (done_spec g ff count routes collecting fit log s Hc Hi Hd) as (A & B & ab & fl & F & P & [[L C] D]).
  split; auto. split; auto. exists ab, fl. auto.
Qed.
Print Assumptions C30_accounting.

(** *** C30 for Dijkstra *)
Definition dijkstra_fit (g : graph) (st : dijkstra) : Prop := history st /\ capacity st <= node_count g.

Lemma capacity_bound pick fuel st g rc s t st' r : history st -> capacity st <= node_count g ->
  compute_best_path pick fuel st g rc s t = Ok (st', r) -> capacity st' <= node_count g.
Proof.
  intros Hh Hr E. rewrite compute_split in E. destruct (existsb _ _); [now injection E as <- _|].
  apply bind_ok in E. destruct E as (ch & _ & E). apply bind_ok in E. destruct E as (st0 & E0 & E).
  pose proof (history_clean _ Hh) as Hc. rewrite (init_query_spec _ _ _ _ _ Hc E0) in E.
  pose proof (query_clean _ _ _ _ _ _ _ _ _ _ (blank_clean _ _ _) E) as Hc'.
  pose proof (c_cost _ _ Hc' FWD) as El. cbn [get] in El. unfold capacity. rewrite El. unfold new_size. destruct (2 =? node_count g); lia.
Qed.

(** the chosen paths as a function *)
Definition best_paths (pick : nat -> list costnode -> nat) (fuel : nat) (g : graph) (rc : routing_cfg) (r : route) : list path :=
  match into_node g (fst r) with
  | Ok (s, t) => match answer (compute_best_path pick fuel dijkstra_new g rc s t) with
                 | Ok (Some p) => repeat p (snd r)
                 | _ => []
                 end
  | _ => []
  end.

Section Dijkstra.
  Variables (hav : coord -> coord -> f64) (c : cfg) (ch1 ch2 : nat) (es : list proto_edge) (ns : list proto_node) (g : graph).
  Hypotheses (H1 : 1 <= ch1) (H2 : 1 <= ch2) (E : build hav c ch1 ch2 es ns = Ok g).
  Variables (pick : nat -> list costnode -> nat) (fuel ff : nat) (rc : routing_cfg) (routes : list route).
  Hypothesis (Hans : answerable pick fuel g rc ff routes) (Hn : node_count g <> 2).

  Lemma into_node_ok p s t : node_id g s = Ok (fst p) -> node_id g t = Ok (snd p) -> into_node g p = Ok (s, t).
  Proof.
    intros Hs Ht. destruct (C04_node_lookup _ _ _ _ _ _ _ H1 H2 E) as (_ & _ & _ & Hc).
    destruct (Hc _ _ Hs) as (co & l & _ & _ & E1). destruct (Hc _ _ Ht) as (co' & l' & _ & _ & E2).
    unfold into_node. rewrite E1. cbn [bind expect]. rewrite E2. reflexivity.
  Qed.

  Lemma chosen_fun r ps : chosen_for pick fuel g rc r ps <-> chosen_for pick fuel g rc r (best_paths pick fuel g rc r) /\ ps = best_paths pick fuel g rc r.
  Proof.
    split; [|intros [A ->]; exact A]. intros (s & t & o & A & B & C & D).
    assert (Hb : best_paths pick fuel g rc r = match o with Some p => repeat p (snd r) | None => [] end).
    { unfold best_paths. rewrite (into_node_ok _ _ _ A B), C. reflexivity. }
    split; [|congruence]. exists s, t, o. auto.
  Qed.

  Lemma route_step st o r : dijkstra_fit g st -> In r routes ->
    exists st' fd, dijkstra_route pick fuel g rc (st, o) r = Ok (st', {| oc_chosen := oc_chosen o ++ best_paths pick fuel g rc r; oc_found := fd |}) /\
      dijkstra_fit g st'.
  Proof.
    intros [Hh Hcap] Hr. destruct (Hans r Hr) as (Hpos & ps & Hch & _). apply chosen_fun in Hch. destruct Hch as [(s & t & a & A & B & C & D) _].
    unfold dijkstra_route. rewrite (into_node_ok _ _ _ A B). cbn [bind fst snd].
    pose proof (C21_reuse_partial pick fuel st g rc s t Hh Hcap Hn) as Hre. rewrite C in Hre.
    destruct (compute_best_path pick fuel st g rc s t) as [[st' a']| | |] eqn:Ec; try discriminate. cbn [answer snd] in Hre. injection Hre as ->.
    cbn [bind fst snd]. assert (Hf : dijkstra_fit g st') by (split; [eapply history_query; eauto|eapply capacity_bound; eauto]).
    rewrite D. destruct a as [p|].
    - destruct (snd r) as [|n] eqn:En; [lia|]. cbn [Nat.eqb]. eexists _, _. split; [|exact Hf]. f_equal. f_equal. f_equal. f_equal.
      simpl. rewrite Nat.sub_0_r. clear. induction n as [|n IH]; simpl; auto. now rewrite IH.
    - exists st', (oc_found o). split; auto. rewrite app_nil_r. destruct o. reflexivity.
  Qed.

  Lemma work_steps rs : forall st o, dijkstra_fit g st -> incl rs routes ->
    exists st' fd, foldM (dijkstra_route pick fuel g rc) rs (st, o) =
        Ok (st', {| oc_chosen := oc_chosen o ++ flat_map (best_paths pick fuel g rc) rs; oc_found := fd |}) /\ dijkstra_fit g st'.
  Proof.
    induction rs as [|r rs IH]; intros st o Hf Hin.
    - exists st, (oc_found o). simpl. rewrite app_nil_r. destruct o. auto.
    - destruct (route_step st o r Hf (Hin r (or_introl eq_refl))) as (st1 & fd & E1 & Hf1). cbn [foldM]. rewrite E1. cbn [bind].
      destruct (IH st1 {| oc_chosen := oc_chosen o ++ best_paths pick fuel g rc r; oc_found := fd |} Hf1) as (st2 & fd2 & E2 & Hf2).
      { intros x Hx. apply Hin. simpl. auto. }
      exists st2, fd2. rewrite E2. split; auto. cbn [oc_chosen flat_map]. now rewrite app_assoc.
  Qed.

  Lemma dijkstra_works st w : dijkstra_fit g st -> incl (wk_routes w) routes ->
    exists st' o, work_with_dijkstra pick fuel g rc st w = Ok (st', o) /\ dijkstra_fit g st' /\
      oc_chosen o = flat_map (best_paths pick fuel g rc) (wk_routes w).
  Proof.
    intros Hf Hin. destruct (work_steps (wk_routes w) st {| oc_chosen := []; oc_found := [] |} Hf Hin) as (st' & fd & E' & Hf').
    exists st', {| oc_chosen := flat_map (best_paths pick fuel g rc) (wk_routes w); oc_found := fd |}. auto.
  Qed.

  Lemma dijkstra_steady : steady g ff (work_with_dijkstra pick fuel g rc) routes (dijkstra_fit g).
  Proof.
    split; [split; [constructor|unfold capacity; simpl; lia]|]. intros st w Hf Hin.
    destruct (dijkstra_works st w Hf Hin) as (st' & o & Ew & Hf' & Ho). exists st', o. split; auto. split; auto.
    intros p Hp. rewrite Ho in Hp. apply in_flat_map in Hp. destruct Hp as (r & Hr & Hp).
    destruct (Hans r (Hin r Hr)) as (_ & ps & Hc & Hfl). apply chosen_fun in Hc. destruct Hc as [_ ->]. auto.
  Qed.

  Definition flat (p : path) : path := match flatten g ff p with Ok p' => p' | _ => p end.
  Lemma flat_all ps fl : Forall2 (flattens g ff) ps fl -> fl = map flat ps.
  Proof. induction 1 as [|p p' ps fl [Hp _] F IH]; auto. simpl. unfold flat at 1. rewrite Hp. now f_equal. Qed.

  Lemma dijkstra_loads count collecting s0 l log s : 1 <= count ->
    spawned g count routes collecting = Ok s0 -> runs g ff (work_with_dijkstra pick fuel g rc) l s0 log s -> s_phase s = PDone ->
    length (s_loads s) = edge_count g FWD /\
    forall e, e < edge_count g FWD -> nth_error (s_loads s) e = Some (occurrences e (map flat (flat_map (best_paths pick fuel g rc) routes))).
  Proof.
    intros Hc E0 R Hd.
    destruct (C30_accounting g ff _ count routes collecting _ s0 l log s dijkstra_steady Hc E0 R Hd) as (P & _ & ps & fl & P2 & F & L & Hl & _).
    split; auto. intros e He. rewrite (Hl e He). f_equal. rewrite (flat_all _ _ F).
    assert (Hlog : forall w o, In (w, o) log -> oc_chosen o = flat_map (best_paths pick fuel g rc) (wk_routes w)).
    { eapply (logged_ok g ff (work_with_dijkstra pick fuel g rc) count routes collecting (dijkstra_fit g) dijkstra_steady
        (fun w o => oc_chosen o = flat_map (best_paths pick fuel g rc) (wk_routes w))); eauto.
      - intros st w st' o Hf Hin Ej. destruct (dijkstra_works st w Hf Hin) as (st2 & o2 & E2 & _ & Ho). congruence.
      - apply (proj1 (spawned_inv _ _ _ _ _ _ _ dijkstra_steady _ E0)). }
    assert (Hp : logged_paths log = flat_map (best_paths pick fuel g rc) (logged_routes log)).
    { clear - Hlog. induction log as [|[w o] log IH]; auto. unfold logged_paths, logged_routes in *. cbn [flat_map fst snd].
      rewrite flat_map_app, (Hlog w o) by (simpl; auto). f_equal. apply IH. intros w' o' Hin. apply Hlog. simpl. auto. }
    assert (Hperm : Permutation (flat_map p_edges (map flat ps)) (flat_map p_edges (map flat (flat_map (best_paths pick fuel g rc) routes)))).
    { apply Permutation_flat_map. apply Permutation_map. rewrite <- P2, Hp. apply Permutation_flat_map. now apply Permutation_sym. }
    unfold occurrences. exact (proj1 (Permutation_count_occ Nat.eq_dec _ _) Hperm e).
  Qed.
End Dijkstra.

(** With Dijkstra (or its variant on contraction hierarchies) the workloads are
    those of the paths a new Dijkstra object finds for the routes, each as often
    as demanded. *)
Theorem C30_dijkstra hav c ch1 ch2 es ns g pick fuel ff rc routes count collecting s0 l log s pss :
  1 <= ch1 -> 1 <= ch2 -> build hav c ch1 ch2 es ns = Ok g -> node_count g <> 2 ->
  answerable pick fuel g rc ff routes -> 1 <= count ->
  spawned g count routes collecting = Ok s0 -> runs g ff (work_with_dijkstra pick fuel g rc) l s0 log s -> s_phase s = PDone ->
  Forall2 (chosen_for pick fuel g rc) routes pss ->
  exists fl, Forall2 (flattens g ff) (concat pss) fl /\ length (s_loads s) = edge_count g FWD /\
    forall e, e < edge_count g FWD -> nth_error (s_loads s) e = Some (occurrences e fl).
Proof.
  intros H1 H2 E Hn Hans Hc E0 R Hd F.
  destruct (dijkstra_loads hav c ch1 ch2 es ns g H1 H2 E pick fuel ff rc routes Hans Hn count collecting s0 l log s Hc E0 R Hd) as [L Hl].
  exists (map (flat g ff) (concat pss)). split; [|split; auto].
  - assert (Hall : forall p, In p (concat pss) -> exists p', flattens g ff p p').
    { intros p Hp. apply in_concat in Hp. destruct Hp as (ps & Hps & Hp). clear - F Hps Hp Hans H1 H2 E.
      assert (exists r, In r routes /\ chosen_for pick fuel g rc r ps) as (r & Hr & Hch).
      { clear - F Hps. induction F as [|r ps' rs pss Hr F IH]; [destruct Hps|]. destruct Hps as [->|Hps]; [exists r; simpl; auto|].
        destruct (IH Hps) as (r' & Hr' & Hc'). exists r'. simpl. auto. }
      destruct (Hans r Hr) as (_ & ps' & Hch' & Hfl). apply (chosen_fun hav c ch1 ch2 es ns g H1 H2 E) in Hch. apply (chosen_fun hav c ch1 ch2 es ns g H1 H2 E) in Hch'.
      destruct Hch as [_ ->]. destruct Hch' as [_ ->]. auto. }
    clear - Hall. induction (concat pss) as [|p ps IH]; [constructor|]. constructor.
    + destruct (Hall p) as (p' & Hp); [simpl; auto|]. unfold flat. destruct Hp as [Hp Hq]. rewrite Hp. split; auto.
    + apply IH. intros q Hq. apply Hall. simpl. auto.
  - intros e He. rewrite (Hl e He). do 3 f_equal. clear - F H1 H2 E. induction F as [|r ps rs pss Hr F IH]; auto. simpl. rewrite IH.
    apply (chosen_fun hav c ch1 ch2 es ns g H1 H2 E) in Hr. destruct Hr as [_ ->]. reflexivity.
Qed.
Print Assumptions C30_dijkstra.

Lemma nth_error_ext {A} : forall l l' : list A, (forall i, nth_error l i = nth_error l' i) -> l = l'.
Proof.
  induction l as [|x l IH]; intros [|y l'] H; auto; try (specialize (H 0); discriminate).
  f_equal; [specialize (H 0); now injection H|]. apply IH. intros i. exact (H (S i)).
Qed.

(** Hence two executions with any numbers of workers and any schedules agree. *)
Theorem C30_schedule_independent hav c ch1 ch2 es ns g pick fuel ff rc routes :
  1 <= ch1 -> 1 <= ch2 -> build hav c ch1 ch2 es ns = Ok g -> node_count g <> 2 ->
  answerable pick fuel g rc ff routes ->
  forall count count' collecting collecting' s0 s0' l l' log log' s s',
  1 <= count -> 1 <= count' ->
  spawned g count routes collecting = Ok s0 -> runs g ff (work_with_dijkstra pick fuel g rc) l s0 log s -> s_phase s = PDone ->
  spawned g count' routes collecting' = Ok s0' -> runs g ff (work_with_dijkstra pick fuel g rc) l' s0' log' s' -> s_phase s' = PDone ->
  s_loads s = s_loads s'.
Proof.
  intros H1 H2 E Hn Hans count count' co co' s0 s0' l l' log log' s s' Hc Hc' E0 R Hd E0' R' Hd'.
  destruct (dijkstra_loads hav c ch1 ch2 es ns g H1 H2 E pick fuel ff rc routes Hans Hn count co s0 l log s Hc E0 R Hd) as [L Hl].
  destruct (dijkstra_loads hav c ch1 ch2 es ns g H1 H2 E pick fuel ff rc routes Hans Hn count' co' s0' l' log' s' Hc' E0' R' Hd') as [L' Hl'].
  apply nth_error_ext. intros e. destruct (Nat.lt_ge_cases e (edge_count g FWD)) as [He|He].
  - now rewrite Hl, Hl'.
  - rewrite !(proj2 (nth_error_None _ _)); auto; lia.
Qed.
Print Assumptions C30_schedule_independent.

(** What a worker does is chosen by the algorithm: both theorems hold of the
    workers as they are unless the explorator is asked for. *)
Theorem C30_algorithms hav c ch1 ch2 es ns g pick fuel ff T tri_new tri_add tri_cells solve rounds sample rc routes :
  1 <= ch1 -> 1 <= ch2 -> build hav c ch1 ch2 es ns = Ok g -> node_count g <> 2 ->
  answerable pick fuel g rc ff routes -> rc_algo rc = ADijkstra \/ rc_algo rc = ACHDijkstra ->
  let job := do_work pick fuel g rc T tri_new tri_add tri_cells solve rounds sample in
  (forall count collecting s0 l log s pss, 1 <= count ->
     spawned g count routes collecting = Ok s0 -> runs g ff job l s0 log s -> s_phase s = PDone ->
     Forall2 (chosen_for pick fuel g rc) routes pss ->
     exists fl, Forall2 (flattens g ff) (concat pss) fl /\ length (s_loads s) = edge_count g FWD /\
       forall e, e < edge_count g FWD -> nth_error (s_loads s) e = Some (occurrences e fl)) /\
  (forall count count' collecting collecting' s0 s0' l l' log log' s s', 1 <= count -> 1 <= count' ->
     spawned g count routes collecting = Ok s0 -> runs g ff job l s0 log s -> s_phase s = PDone ->
     spawned g count' routes collecting' = Ok s0' -> runs g ff job l' s0' log' s' -> s_phase s' = PDone ->
     s_loads s = s_loads s').
Proof.
  intros H1 H2 E Hn Hans Ha job.
  assert (Ej : job = work_with_dijkstra pick fuel g rc) by (unfold job, do_work; destruct Ha as [->| ->]; reflexivity).
  clearbody job. subst job. split.
  - intros count collecting s0 l log s pss Hc E0 R Hd F.
    exact (C30_dijkstra hav c ch1 ch2 es ns g pick fuel ff rc routes count collecting s0 l log s pss H1 H2 E Hn Hans Hc E0 R Hd F).
  - exact (C30_schedule_independent hav c ch1 ch2 es ns g pick fuel ff rc routes H1 H2 E Hn Hans).
Qed.
Print Assumptions C30_algorithms.

(** *** Executions *)
Fixpoint exec (g : graph) (ff : nat) (job : dijkstra -> work -> res (dijkstra * outcome)) (l : list action) (s : sys)
  : option (list (work * outcome) * sys) :=
  match l with
  | [] => Some ([], s)
  | a :: l => match fire g ff job a s with
              | Some s1 => match exec g ff job l s1 with
                           | Some (log, s2) => Some (worked job a s ++ log, s2)
                           | None => None
                           end
              | None => None
              end
  end.
Lemma exec_runs g ff job l : forall s log s', exec g ff job l s = Some (log, s') -> runs g ff job l s log s'.
Proof.
  induction l as [|a l IH]; intros s log s' H; simpl in H; [injection H as <- <-; constructor|].
  destruct (fire g ff job a s) as [s1|] eqn:Ef; [|discriminate]. destruct (exec g ff job l s1) as [[log1 s2]|] eqn:Ee; [|discriminate].
  injection H as <- <-. econstructor; eauto.
Qed.

(** three routes on [rt_graph], the first one counted twice *)
Definition bal_routes : list route := [((0%Z, 4%Z), 2); ((0%Z, 3%Z), 1); ((4%Z, 0%Z), 1)].
Definition bal_rc : routing_cfg := ex_rc ADijkstra [Fin 1].
Definition bal_job := work_with_dijkstra exact_pick 50 rt_graph bal_rc.
Definition bal_start (n : nat) (routes : list route) : sys :=
  match spawned rt_graph n routes true with Ok s => s | _ => mkSys PErr [] 0 None [] None [] [] 0 end.
(** the first worker gets all routes, both are joined *)
Definition bal_schedule : list action :=
  [AMaster; AMaster; AWorker 1; AMaster; AMaster; AWorker 0; AMaster; AWorker 0; AMaster; AMaster; AMaster].

Lemma bal_answerable : answerable exact_pick 50 rt_graph bal_rc 50 bal_routes.
Proof.
  intros r Hr. destruct Hr as [<-|[<-|[<-|[]]]]; (split; [simpl; lia|]).
  - eexists. split; [exists 0, 4; eexists; split; [reflexivity|]; split; [reflexivity|]; split; [vm_compute; reflexivity|reflexivity]|].
    intros p Hp. apply repeat_spec in Hp. subst p. eexists. split; [vm_compute; reflexivity|]. intros e He. vm_compute in He. vm_compute. lia.
  - eexists. split; [exists 0, 3; eexists; split; [reflexivity|]; split; [reflexivity|]; split; [vm_compute; reflexivity|reflexivity]|].
    intros p Hp. apply repeat_spec in Hp. subst p. eexists. split; [vm_compute; reflexivity|]. intros e He. vm_compute in He. vm_compute. lia.
  - eexists. split; [exists 4, 0; eexists; split; [reflexivity|]; split; [reflexivity|]; split; [vm_compute; reflexivity|reflexivity]|].
    intros p [].
Qed.

Example C30_case : exists log s, answerable exact_pick 50 rt_graph bal_rc 50 bal_routes /\ node_count rt_graph <> 2 /\
  steady rt_graph 50 bal_job bal_routes (dijkstra_fit rt_graph) /\
  spawned rt_graph 2 bal_routes true = Ok (bal_start 2 bal_routes) /\
  runs rt_graph 50 bal_job bal_schedule (bal_start 2 bal_routes) log s /\ s_phase s = PDone /\
  s_loads s = [3; 0; 0; 3; 0; 2; 0].
Proof.
  do 2 eexists. split; [exact bal_answerable|]. split; [discriminate|].
  split; [apply (dijkstra_steady ex_hav (ex_cfg false) 2 3 rt_es rt_ns); [lia|lia|exact rt_build|exact bal_answerable|discriminate]|].
  split; [vm_compute; reflexivity|]. split; [apply exec_runs; vm_compute; reflexivity|]. split; reflexivity.
Qed.

(** the same with the choice of the algorithm, for both algorithms *)
Definition bal_do (rc : routing_cfg) :=
  do_work exact_pick 50 rt_graph rc unit (fun _ => tt) (fun _ _ => None) (fun _ => []) (fun _ _ => None) 0 (fun _ _ _ => 0).
Definition ch_rc : routing_cfg := ex_rc ACHDijkstra [Fin 1].
Example C30_algorithms_case : exists log s log' s',
  runs rt_graph 50 (bal_do bal_rc) bal_schedule (bal_start 2 bal_routes) log s /\ s_phase s = PDone /\ s_loads s = [3; 0; 0; 3; 0; 2; 0] /\
  runs rt_graph 50 (bal_do ch_rc) bal_schedule (bal_start 2 bal_routes) log' s' /\ s_phase s' = PDone.
Proof.
  do 4 eexists. split; [apply exec_runs; vm_compute; reflexivity|]. split; [reflexivity|]. split; [reflexivity|].
  split; [apply exec_runs; vm_compute; reflexivity|reflexivity].
Qed.

(** the hypotheses of [C31_chunk]: the first answer arrives, all routes are left *)
Example C31_chunk_case : exists log s o w,
  steady rt_graph 50 bal_job bal_routes (dijkstra_fit rt_graph) /\
  runs rt_graph 50 bal_job [] (bal_start 2 bal_routes) log s /\
  s_phase s = PTry /\ s_chan s = (0, o) :: [(1, o)] /\ s_routes s = rev bal_routes /\ nth_error (s_workers s) 0 = Some w.
Proof.
  do 4 eexists. split; [apply (dijkstra_steady ex_hav (ex_cfg false) 2 3 rt_es rt_ns); [lia|lia|exact rt_build|exact bal_answerable|discriminate]|].
  split; [constructor|]. split; [reflexivity|]. split; [vm_compute; reflexivity|]. split; vm_compute; reflexivity.
Qed.

(** *** Limits *)

(** Without workers the master returns at once, without an error and without
    having worked off anything. *)
Theorem C30_no_workers_refuted : exists hav c es ns g pick fuel ff rc routes s0 l log s,
  build hav c 2 3 es ns = Ok g /\ answerable pick fuel g rc ff routes /\ routes <> [] /\
  spawned g 0 routes true = Ok s0 /\ runs g ff (work_with_dijkstra pick fuel g rc) l s0 log s /\ s_phase s = PDone /\
  log = [] /\ forall e n, nth_error (s_loads s) e = Some n -> n = 0.
Proof.
  exists ex_hav, (ex_cfg false), rt_es, rt_ns, rt_graph, exact_pick, 50, 50, bal_rc, bal_routes, (bal_start 0 bal_routes), [AMaster; AMaster].
  do 2 eexists. split; [exact rt_build|]. split; [exact bal_answerable|]. split; [discriminate|]. split; [vm_compute; reflexivity|].
  split; [apply exec_runs; vm_compute; reflexivity|]. split; [reflexivity|]. split; [reflexivity|].
  intros e n H. do 7 (destruct e as [|e]; [now injection H as <-|]). destruct e; discriminate.
Qed.
Print Assumptions C30_no_workers_refuted.

(** A panicking worker is not noticed: here the second of two routes has an
    unknown id (or is to be counted zero times, [n = 0]); its worker takes all
    routes of the chunk with it, and the master returns without an error. *)
Theorem C30_panic_refuted n : exists hav c es ns g pick fuel ff rc good bad s0 l log s,
  build hav c 2 3 es ns = Ok g /\ answerable pick fuel g rc ff [good] /\ snd bad = n /\
  spawned g 2 [good; bad] true = Ok s0 /\ runs g ff (work_with_dijkstra pick fuel g rc) l s0 log s /\ s_phase s = PDone /\
  log = [] /\ (exists w, In w (s_workers s) /\ w_thread w = Crashed) /\ forall e k, nth_error (s_loads s) e = Some k -> k = 0.
Proof.
  exists ex_hav, (ex_cfg false), rt_es, rt_ns, rt_graph, exact_pick, 50, 50, bal_rc, ((0%Z, 4%Z), 2),
    (if n =? 0 then ((0%Z, 3%Z), 0) else ((0%Z, 99%Z), n)), (bal_start 2 [((0%Z, 4%Z), 2); (if n =? 0 then ((0%Z, 3%Z), 0) else ((0%Z, 99%Z), n))]),
    [AMaster; AMaster; AWorker 1; AMaster; AMaster; AWorker 0; AMaster].
  destruct n as [|n].
  - do 2 eexists. split; [exact rt_build|]. split; [intros r [<-|[]]; apply bal_answerable; simpl; auto|]. split; [reflexivity|].
    split; [vm_compute; reflexivity|]. split; [apply exec_runs; vm_compute; reflexivity|]. split; [reflexivity|]. split; [reflexivity|].
    split; [eexists; split; [left; reflexivity|reflexivity]|].
    intros e k H. do 7 (destruct e as [|e]; [now injection H as <-|]). destruct e; discriminate.
  - do 2 eexists. split; [exact rt_build|]. split; [intros r [<-|[]]; apply bal_answerable; simpl; auto|]. split; [reflexivity|].
    split; [reflexivity|]. split; [apply exec_runs; vm_compute; reflexivity|]. split; [reflexivity|]. split; [reflexivity|].
    split; [eexists; split; [left; reflexivity|reflexivity]|].
    intros e k H. do 7 (destruct e as [|e]; [now injection H as <-|]). destruct e; discriminate.
Qed.
Print Assumptions C30_panic_refuted.

(** With the explorator the workloads depend on the schedule, as the random
    choices depend on the chunks. *)
Definition xb_rc : routing_cfg := {| rc_algo := AExplorator false; rc_alphas := [Fin 1; Fin 1]; rc_scales := [PInf; PInf] |}.
Definition xb_sample (seed k n : nat) : nat := if (seed =? 2) && (k =? 1) then 1 else 0.
Definition xb_job := do_work exact_pick 20 xp_graph xb_rc nat xp_new xp_add xp_cells xp_solve 5 xb_sample.
Definition xb_routes : list route := repeat ((0%Z, 1%Z), 1) 83.
Definition xb_start : sys :=
  match spawned xp_graph 2 xb_routes false with Ok s => s | _ => mkSys PErr [] 0 None [] None [] [] 0 end.
Definition xb_join : list action := [AMaster; AWorker 0; AMaster; AMaster; AWorker 1; AMaster; AMaster; AMaster].
(** worker 1 answers twice before worker 0 does *)
Definition xb_first : list action :=
  [AMaster; AMaster; AWorker 1; AMaster; AWorker 1; AMaster; AWorker 0; AWorker 1] ++ xb_join.
(** worker 0 answers first *)
Definition xb_second : list action :=
  [AMaster; AMaster; AWorker 0; AMaster; AWorker 0; AWorker 1] ++ xb_join.

Theorem C30_explorator_refuted : exists hav c es ns g pick fuel ff T tri_new tri_add tri_cells solve rounds sample rc routes s0 l l' log log' s s',
  build hav c 1 1 es ns = Ok g /\ (forall seed k n, 1 < n -> sample seed k n < n) /\
  spawned g 2 routes false = Ok s0 /\
  let job := do_work pick fuel g rc T tri_new tri_add tri_cells solve rounds sample in
  runs g ff job l s0 log s /\ s_phase s = PDone /\ runs g ff job l' s0 log' s' /\ s_phase s' = PDone /\
  s_loads s <> s_loads s'.
Proof.
  exists ex_hav, xp_cfg, xp_es, sink_ns, xp_graph, exact_pick, 20, 20, nat, xp_new, xp_add, xp_cells, xp_solve, 5, xb_sample, xb_rc, xb_routes, xb_start, xb_first, xb_second.
  destruct (exec xp_graph 20 xb_job xb_first xb_start) as [[log s]|] eqn:E1; [|vm_compute in E1; discriminate].
  destruct (exec xp_graph 20 xb_job xb_second xb_start) as [[log' s']|] eqn:E2; [|vm_compute in E2; discriminate].
  exists log, log', s, s'. split; [exact xp_build|]. split.
  { intros seed k n Hn. unfold xb_sample. destruct (_ && _); lia. }
  split; [vm_compute; reflexivity|]. cbv zeta. fold xb_job.
  split; [now apply exec_runs|]. vm_compute in E1. injection E1 as <- <-. split; [reflexivity|].
  split; [now apply exec_runs|]. vm_compute in E2. injection E2 as <- <-. split; [reflexivity|]. discriminate.
Qed.
Print Assumptions C30_explorator_refuted.
