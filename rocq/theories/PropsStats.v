(** Property C48: statistics about found paths *)
From Coq Require Import String List Bool Arith ZArith QArith Lia Lqa Permutation.
From Verif Require Import Base F64 Lib ModelApprox ModelUnits ModelConfig ModelGraph ModelBuild Spec Examples
  ModelDijkstra SpecRouting SpecPaths PropsRouting ExamplesRouting ModelExplorator SpecExplorator ProofExplorator PropsExplorator
  ModelBalancing SpecBalancing ProofBalancing ProofWorkers PropsBalancing PropsExploring ModelStats.
Import ListNotations.
Open Scope list_scope.
Open Scope nat_scope.

(** *** Vocabulary *)

(** [m] is the mean of the numbers *)
Definition mean_of (xs : list nat) (m : Q) : Prop := (m * qn (length xs) == qn (list_sum xs))%Q.
(** the sum of the squared distances to [m] *)
Fixpoint squares (m : Q) (xs : list nat) : Q :=
  match xs with [] => 0 | x :: xs => (qn x - m) * (qn x - m) + squares m xs end%Q.
(** [v] is the variance of the numbers, whose mean is [m] *)
Definition variance_of (xs : list nat) (m v : Q) : Prop := (v * qn (length xs) == squares m xs)%Q.

(** every route pair of the outcome is counted *)
Definition all_counted (c : counts) : Prop := length (ct_found c) = ct_pairs c.
Definition all_found (cs : list counts) : list nat := flat_map ct_found cs.

(** *** Sums *)
Lemma qn_add a b : (qn (a + b) == qn a + qn b)%Q.
Proof. unfold qn. rewrite Nat2Z.inj_add, inject_Z_plus. reflexivity. Qed.
Lemma qn_pos n : 0 < n -> (0 < qn n)%Q.
Proof. intros H. unfold qn. change 0%Q with (inject_Z 0). rewrite <- Zlt_Qlt. lia. Qed.
Lemma squares_app m xs ys : (squares m (xs ++ ys) == squares m xs + squares m ys)%Q.
Proof. induction xs as [|x xs IH]; simpl; [lra|]. rewrite IH. lra. Qed.
Lemma sum_app xs ys : list_sum (xs ++ ys) = list_sum xs + list_sum ys.
Proof. induction xs as [|x xs IH]; simpl; [auto|]. lia. Qed.
(** moving the point the distances refer to *)
Lemma squares_shift m m' xs : (squares m' xs == squares m xs + (m - m') * (2 * qn (list_sum xs) - (m + m') * qn (length xs)))%Q.
Proof.
  induction xs as [|x xs IH]; [unfold qn; simpl; ring|].
  change (list_sum (x :: xs)) with (x + list_sum xs). change (length (x :: xs)) with (1 + length xs).
  cbn [squares]. rewrite !qn_add, IH. change (qn 1) with (1%Q). ring.
Qed.

Fixpoint qsum (l : list Q) : Q := match l with [] => 0 | x :: l => x + qsum l end%Q.
Lemma fsum_fin l : forall a, exists q, fold_left fadd (map Fin l) (Fin a) = Fin q /\ (q == a + qsum l)%Q.
Proof.
  induction l as [|x l IH]; intros a; simpl; [exists a; split; [auto|lra]|].
  destruct (IH (a + x)%Q) as (q & -> & Hq). exists q. split; [auto|]. rewrite Hq. lra.
Qed.
Lemma fsum_nat xs : exists q, fsum (map of_nat xs) = Fin q /\ (q == qn (list_sum xs))%Q.
Proof.
  unfold fsum, f0. assert (E : map of_nat xs = map Fin (map qn xs)) by (rewrite map_map; reflexivity). rewrite E.
  destruct (fsum_fin (map qn xs) 0%Q) as (q & -> & Hq). exists q. split; [auto|]. rewrite Hq. clear.
  induction xs as [|x xs IH]; simpl; [reflexivity|]. change (list_sum (x :: xs)) with (x + list_sum xs). rewrite qn_add. lra.
Qed.
Lemma fsum_products xs a b : exists q, fsum (map (fun x => fmul (fsub x (Fin a)) (fsub x (Fin b))) (map of_nat xs)) = Fin q /\
  (q == squares a xs + (a - b) * (qn (list_sum xs) - a * qn (length xs)))%Q.
Proof.
  unfold fsum, f0.
  assert (E : map (fun x => fmul (fsub x (Fin a)) (fsub x (Fin b))) (map of_nat xs) =
              map Fin (map (fun x => ((qn x + - a) * (qn x + - b))%Q) xs)) by (rewrite !map_map; reflexivity).
  rewrite E. destruct (fsum_fin (map (fun x => ((qn x + - a) * (qn x + - b))%Q) xs) 0%Q) as (q & -> & Hq). exists q. split; [auto|].
  rewrite Hq. clear. induction xs as [|x xs IH]; [unfold qn; simpl; ring|].
  change (list_sum (x :: xs)) with (x + list_sum xs). change (length (x :: xs)) with (1 + length xs).
  cbn [map qsum squares]. rewrite !qn_add. change (qn 1) with (1%Q).
  assert (IH' : (qsum (map (fun x => (qn x + - a) * (qn x + - b)) xs) == squares a xs + (a - b) * (qn (list_sum xs) - a * qn (length xs)))%Q) by lra.
  rewrite IH'. ring.
Qed.
Lemma fdiv_pos a b : (0 < b)%Q -> fdiv (Fin a) (Fin b) = Fin (a / b).
Proof. intros H. unfold fdiv, qsign. apply Qgt_alt in H. rewrite H. reflexivity. Qed.

(** *** One step *)
Definition exact (s : stats) (xs : list nat) : Prop :=
  st_progress s = length xs /\
  exists m v, st_mean s = Fin m /\ st_var s = Fin v /\ mean_of xs m /\ variance_of xs m v /\ (xs = [] -> m == 0 /\ v == 0)%Q.

Lemma exact_new : exact stats_new [].
Proof. split; [reflexivity|]. exists 0%Q, 0%Q. repeat split; reflexivity. Qed.

Lemma exact_add s xs c : exact s xs -> all_counted c -> exact (stats_add s c) (xs ++ ct_found c).
Proof.
  intros (Hp & m & v & Em & Ev & Hm & Hv & H0) Hc. unfold all_counted in Hc. unfold stats_add. set (ys := ct_found c) in *.
  destruct (Nat.ltb_spec 0 (length ys)) as [Hl|Hl].
  2:{ destruct ys as [|y ys]; [|simpl in Hl; lia]. rewrite app_nil_r. split; cbn [st_progress st_mean st_var]; [simpl in Hc; lia|].
      exists m, v. auto. }
  cbv zeta. rewrite Hp, <- Hc, Em, Ev. unfold next_mean, next_var.
  set (n := length xs + length ys). assert (Hn : (0 < qn n)%Q) by (apply qn_pos; lia).
  destruct (fsum_nat ys) as (sy & Esy & Hsy).
  set (m' := (m + (sy + - (qn (length ys) * m)) / qn n)%Q).
  assert (Em' : fadd (Fin m) (fdiv (fsub (fsum (map of_nat ys)) (fmul (of_nat (length ys)) (Fin m))) (of_nat n)) = Fin m').
  { rewrite Esy. change (of_nat n) with (Fin (qn n)). unfold fsub. cbn [of_nat fmul fneg fadd]. now rewrite fdiv_pos. }
  rewrite Em'. destruct (fsum_products ys m m') as (sp & -> & Hsp). change (of_nat n) with (Fin (qn n)). change (of_nat (length ys)) with (Fin (qn (length ys))).
  unfold fsub. cbn [fneg fadd]. rewrite !fdiv_pos by exact Hn. cbn [fmul fadd].
  assert (Hnn : (qn n == qn (length xs) + qn (length ys))%Q) by (unfold n; apply qn_add).
  assert (Hm' : (m' * qn n == qn (list_sum xs) + qn (list_sum ys))%Q).
  { unfold m'. transitivity (m * qn n + (sy + - (qn (length ys) * m)))%Q; [field; lra|]. rewrite Hsy, Hnn. unfold mean_of in Hm. lra. }
  split; cbn [st_progress st_mean st_var]; [rewrite app_length; reflexivity|].
  eexists m', _. split; [reflexivity|]. split; [reflexivity|]. split; [|split].
  - unfold mean_of. rewrite app_length, sum_app. fold n. rewrite qn_add. exact Hm'.
  - unfold variance_of. rewrite app_length. fold n. rewrite squares_app, (squares_shift m m' xs), (squares_shift m m' ys).
    transitivity (v * (qn n - qn (length ys)) + sp)%Q; [field; lra|]. rewrite Hsp, Hnn.
    unfold variance_of in Hv. unfold mean_of in Hm.
    transitivity (v * qn (length xs) + squares m ys + (m - m') * (qn (list_sum ys) - m * qn (length ys)))%Q; [ring|]. rewrite Hv.
    rewrite Hnn in Hm'.
    assert (HX : ((m - m') * (m * qn (length xs) - qn (list_sum xs)) == 0)%Q) by (rewrite Hm; ring).
    assert (HY : ((m - m') * (m' * (qn (length xs) + qn (length ys)) - (qn (list_sum xs) + qn (list_sum ys))) == 0)%Q) by (rewrite Hm'; ring).
    lra.
  - intros E. exfalso. apply app_eq_nil in E. destruct E as [_ E]. rewrite E in Hl. simpl in Hl. lia.
Qed.
Lemma exact_all cs : Forall all_counted cs -> forall s xs, exact s xs -> exact (fold_left stats_add cs s) (xs ++ all_found cs).
Proof.
  induction 1 as [|c cs Hc F IH]; intros s xs Hs; cbn [fold_left all_found flat_map]; [now rewrite app_nil_r|].
  rewrite app_assoc. apply IH. now apply exact_add.
Qed.

(** However the counts are distributed over outcomes and in whatever order
    these arrive: if every route pair is counted, then the running values are
    the mean and the variance of all counts so far. *)
Theorem C48_statistics cs : Forall all_counted cs ->
  exists m v, st_mean (stats_of cs) = Fin m /\ st_var (stats_of cs) = Fin v /\
    st_progress (stats_of cs) = length (all_found cs) /\
    mean_of (all_found cs) m /\ variance_of (all_found cs) m v /\ (all_found cs = [] -> m == 0 /\ v == 0)%Q.
Proof.
  intros F. destruct (exact_all cs F stats_new [] exact_new) as (Hp & m & v & A & B & C & D & E0). exists m, v. auto 7.
Qed.
Print Assumptions C48_statistics.
Definition some_counts : list counts :=
  [mkCounts 0 []; mkCounts 2 [1; 4]; mkCounts 0 []; mkCounts 1 [0]; mkCounts 3 [2; 2; 3]].
Example C48_statistics_case : Forall all_counted some_counts /\
  exists m v, st_mean (stats_of some_counts) = Fin m /\ (m == 2)%Q /\ st_var (stats_of some_counts) = Fin v /\ (v == 10 # 6)%Q.
Proof. split; [repeat constructor|]. do 2 eexists. split; [vm_compute; reflexivity|]. split; [reflexivity|]. split; [vm_compute; reflexivity|reflexivity]. Qed.

(** *** The explorator *)
Lemma mean_perm xs ys m : Permutation xs ys -> mean_of xs m -> mean_of ys m.
Proof.
  intros P. unfold mean_of. rewrite (Permutation_length P). replace (list_sum ys) with (list_sum xs); [auto|].
  induction P; simpl in *; lia.
Qed.
Lemma variance_perm xs ys m v : Permutation xs ys -> variance_of xs m v -> variance_of ys m v.
Proof.
  intros P. unfold variance_of. rewrite (Permutation_length P). intros ->.
  induction P; simpl in *; try lra.
Qed.
Lemma forall2_perm {A B} (R : A -> B -> Prop) (xs xs' : list A) : Permutation xs xs' -> forall ys, Forall2 R xs ys ->
  exists ys', Permutation ys ys' /\ Forall2 R xs' ys'.
Proof.
  induction 1 as [|x xs xs' P IH|x y xs|xs xs' xs'' P IH P' IH']; intros ys F.
  - inversion F; subst. exists []. auto.
  - inversion F as [|? b ? bs Hb F']; subst. destruct (IH bs F') as (bs' & P' & F''). exists (b :: bs'). auto.
  - inversion F as [|? b ? bs Hb F']; subst. inversion F' as [|? b' ? bs' Hb' F'']; subst. exists (b' :: b :: bs'). split; [constructor|auto].
  - destruct (IH ys F) as (ys1 & P1 & F1). destruct (IH' ys1 F1) as (ys2 & P2 & F2). exists ys2. split; [|auto]. now transitivity ys1.
Qed.

(** With the explorator every route pair is counted, by the number of paths
    found for it.  So for any schedule the statistics printed at the end are the
    mean and the variance of these numbers: the outcomes arrive in some order,
    among empty ones. *)
Theorem C48_explorator hav c ch1 ch2 es ns g pick fuel T tri_new tri_add tri_cells solve rounds rc sample ff routes found count collecting s0 l log s received :
  1 <= ch1 -> 1 <= ch2 -> build hav c ch1 ch2 es ns = Ok g -> node_count g <> 2 ->
  (forall seed k n, 0 < n -> sample seed k n < n) ->
  explorable pick fuel g rc T tri_new tri_add tri_cells solve rounds ff routes -> 1 <= count ->
  let job := work_with_explorator pick fuel g rc T tri_new tri_add tri_cells solve rounds sample in
  spawned g count routes collecting = Ok s0 -> runs g ff job l s0 log s -> s_phase s = PDone ->
  Forall2 (explored pick fuel g rc T tri_new tri_add tri_cells solve rounds) routes found ->
  Permutation received (map counts_of log ++ repeat (mkCounts 0 []) count) ->
  exists m v, st_mean (stats_of received) = Fin m /\ st_var (stats_of received) = Fin v /\
    mean_of (map (@length path) found) m /\ variance_of (map (@length path) found) m v.
Proof.
  intros H1 H2 E Hn Hs Hx Hc job E0 R Hd F P.
  pose proof (explorator_steady _ _ _ _ _ _ _ H1 H2 E Hn T tri_new tri_add tri_cells solve pick fuel rounds rc sample Hs ff routes Hx) as Hst.
  fold job in Hst. destruct (C30_accounting _ _ _ _ _ _ _ _ _ _ _ Hst Hc E0 R Hd) as (PR & _).
  set (xpl := explored pick fuel g rc T tri_new tri_add tri_cells solve rounds) in *.
  assert (HL : forall w o, In (w, o) log -> exists fs, Forall2 xpl (wk_routes w) fs /\ oc_found o = map (@length path) fs).
  { eapply (logged_ok g ff job count routes collecting (dijkstra_fit g) Hst
      (fun w o => exists fs, Forall2 xpl (wk_routes w) fs /\ oc_found o = map (@length path) fs)); eauto.
    - intros st w st' o Hf Hin Ej.
      assert (exists fs, Forall2 xpl (wk_routes w) fs) as (fs & Ff).
      { clear - Hx Hin. induction (wk_routes w) as [|r rs IH]; [exists []; constructor|].
        destruct IH as (fs & Ff); [intros x Hi; apply Hin; simpl; auto|]. destruct (Hx r (Hin r (or_introl eq_refl))) as (fd & Hr & _).
        exists (fd :: fs). now constructor. }
      destruct (explorator_works _ _ _ _ _ _ _ H1 H2 E Hn T tri_new tri_add tri_cells solve pick fuel rounds rc sample Hs st w fs Hf Ff)
        as (st2 & o2 & E2 & _ & D & _). unfold job in Ej. rewrite E2 in Ej. injection Ej as _ <-. eauto.
    - apply (proj1 (spawned_inv _ _ _ _ _ _ _ Hst _ E0)). }
  assert (Hfun : forall r f f', xpl r f -> xpl r f' -> f = f').
  { intros r f f' (s1 & t1 & A & B & Ef) (s2 & t2 & A' & B' & Ef').
    pose proof (into_node_ok _ _ _ _ _ _ _ H1 H2 E _ _ _ A B) as X. rewrite (into_node_ok _ _ _ _ _ _ _ H1 H2 E _ _ _ A' B') in X.
    injection X as -> ->. rewrite Ef in Ef'. now injection Ef'. }
  assert (HLL : exists fs, Forall2 xpl (logged_routes log) fs /\ all_found (map counts_of log) = map (@length path) fs).
  { clear - HL. induction log as [|[w o] log IH]; [exists []; split; [constructor|reflexivity]|].
    destruct IH as (fs & A & B); [intros; apply HL; simpl; auto|]. destruct (HL w o (or_introl eq_refl)) as (f & A' & B').
    exists (f ++ fs). split; [cbn [logged_routes flat_map fst]; now apply Forall2_app|].
    unfold all_found in *. cbn [map flat_map counts_of ct_found snd]. rewrite B, B', map_app. reflexivity. }
  destruct HLL as (fs & FL & EL). destruct (forall2_perm _ _ _ PR _ F) as (fs' & Pf & F').
  assert (fs' = fs). { clear - F' FL Hfun. revert fs FL. induction F' as [|r f rs fs' Hr F' IH]; intros fs FL; inversion FL as [|? f2 ? fs2 Hr2 FL2]; subst; auto.
    f_equal; eauto. }
  subst fs'.
  assert (Fc : Forall all_counted received).
  { apply Forall_forall. intros x Hin. apply (Permutation_in _ P) in Hin. apply in_app_iff in Hin. destruct Hin as [Hin|Hin].
    - apply in_map_iff in Hin. destruct Hin as ([w o] & <- & Hin). destruct (HL w o Hin) as (f & A & B).
      unfold all_counted, counts_of. cbn [ct_found ct_pairs fst snd]. rewrite B, map_length. symmetry. exact (Forall2_len _ _ _ A).
    - apply repeat_spec in Hin. subst x. reflexivity. }
  assert (Pa : Permutation (all_found received) (map (@length path) found)).
  { transitivity (all_found (map counts_of log ++ repeat (mkCounts 0 []) count)).
    - unfold all_found. now apply Permutation_flat_map.
    - unfold all_found in *. rewrite flat_map_app. rewrite EL.
      replace (flat_map ct_found (repeat (mkCounts 0 []) count)) with (@nil nat) by (clear; induction count; simpl; auto). rewrite app_nil_r.
      apply Permutation_map. now symmetry. }
  destruct (C48_statistics received Fc) as (m & v & A & B & _ & C & D & _). exists m, v. split; [auto|]. split; [auto|].
  split; [eapply mean_perm; eauto|eapply variance_perm; eauto].
Qed.
Print Assumptions C48_explorator.
(** two routes explored with two workers: four paths and one path *)
Definition xs_job := work_with_explorator exact_pick 20 xp_graph xb_rc nat xp_new xp_add xp_cells xp_solve 5 xw_sample.
Definition xs_start : sys :=
  match spawned xp_graph 2 (wk_routes xw_work) false with Ok s => s | _ => mkSys PErr [] 0 None [] None [] [] 0 end.
Example C48_explorator_case : exists log s found,
  spawned xp_graph 2 (wk_routes xw_work) false = Ok xs_start /\
  runs xp_graph 20 xs_job bal_schedule xs_start log s /\ s_phase s = PDone /\
  Forall2 (explored exact_pick 20 xp_graph xb_rc nat xp_new xp_add xp_cells xp_solve 5) (wk_routes xw_work) found /\
  map (@length path) found = [4; 1] /\
  exists m v, st_mean (stats_of (map counts_of log)) = Fin m /\ (m == 5 # 2)%Q /\ st_var (stats_of (map counts_of log)) = Fin v /\ (v == 9 # 4)%Q.
Proof.
  do 3 eexists. split; [vm_compute; reflexivity|]. split; [apply exec_runs; vm_compute; reflexivity|]. split; [reflexivity|].
  split; [constructor; [exists 0, 1; do 2 (split; [reflexivity|]); vm_compute; reflexivity|];
          constructor; [exists 2, 0; do 2 (split; [reflexivity|]); vm_compute; reflexivity|constructor]|].
  split; [reflexivity|]. do 2 eexists. split; [vm_compute; reflexivity|]. split; [reflexivity|]. split; [vm_compute; reflexivity|reflexivity].
Qed.

(** *** Dijkstra *)

(** Route pairs without path are not counted by Dijkstra, but are part of the
    number divided by.  The printed mean is then neither that of all route pairs
    nor independent of the order: here two outcomes for three route pairs, to
    one of which there is no path, yield 1 or 2/3. *)
Theorem C48_dijkstra_refuted : exists hav c es ns g pick fuel rc w1 w2 st1 st2 o1 o2,
  build hav c 2 3 es ns = Ok g /\
  work_with_dijkstra pick fuel g rc dijkstra_new w1 = Ok (st1, o1) /\
  work_with_dijkstra pick fuel g rc dijkstra_new w2 = Ok (st2, o2) /\
  length (wk_routes w1) + length (wk_routes w2) = 3 /\ length (oc_chosen o1) + length (oc_chosen o2) = 2 /\
  exists m m', st_mean (stats_of [counts_of (w1, o1); counts_of (w2, o2)]) = Fin m /\ (m == 1)%Q /\
               st_mean (stats_of [counts_of (w2, o2); counts_of (w1, o1)]) = Fin m' /\ (m' == 2 # 3)%Q.
Proof.
  exists ex_hav, (ex_cfg false), rt_es, rt_ns, rt_graph, exact_pick, 50, bal_rc,
    {| wk_routes := [((0%Z, 4%Z), 1)]; wk_seed := 0 |}, {| wk_routes := [((0%Z, 3%Z), 1); ((4%Z, 0%Z), 1)]; wk_seed := 0 |}.
  do 4 eexists. split; [exact rt_build|]. split; [vm_compute; reflexivity|]. split; [vm_compute; reflexivity|].
  split; [reflexivity|]. split; [reflexivity|]. do 2 eexists. split; [vm_compute; reflexivity|]. split; [reflexivity|].
  split; [vm_compute; reflexivity|reflexivity].
Qed.
Print Assumptions C48_dijkstra_refuted.
