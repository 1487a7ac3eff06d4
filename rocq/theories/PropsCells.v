(** Properties of matrices, of the linear systems of cells, and of the
    exploration as a whole *)
From Coq Require Import List Bool Arith Lia ZArith QArith Qabs Lqa.
From Verif Require Import Base F64 Lib ModelApprox ModelUnits ModelConfig ModelGraph ModelBuild ModelDijkstra ModelExplorator ModelAlgebra
  Spec SpecRouting SpecPaths SpecExplorator SpecCells ProofApprox ProofDijkstra ProofPaths ProofExplorator PropsRouting PropsExplorator
  ProofAlgebra ProofCells ProofCells2 ProofCells3 Examples ExamplesRouting.
Import ListNotations.
Open Scope nat_scope.

(** *** Matrices *)

(** A matrix is built of at least one row; all rows together must have as many
    values as if each were as long as the first one. *)
Theorem C57_from_rows rows : (exists m, from_rows rows = Ok m) <->
  exists r0, nth_error rows 0 = Some r0 /\ length (concat rows) = length rows * length r0.
Proof. exact (from_rows_iff rows). Qed.
Print Assumptions C57_from_rows.
(** rows of different lengths pass if the number of values fits *)
Example C57_from_rows_case :
  (exists m, from_rows [[Fin 1; Fin 2]; [Fin 3]; [Fin 4; Fin 5; Fin 6]] = Ok m /\ index1 m 1 = Ok (Fin 3) /\ index1 m 4 = Ok (Fin 4)) /\
  from_rows [[Fin 1; Fin 2]; [Fin 3]] = Panic /\ from_rows [] = Panic.
Proof. split; [eexists; split; [vm_compute; reflexivity|split; reflexivity]|split; reflexivity]. Qed.

(** One index counts column after column. *)
Theorem C57_linear_index nr nc rows m k x : 0 < nr -> table nr nc rows -> from_rows rows = Ok m ->
  (index1 m k = Ok x <-> k < nr * nc /\ entry rows (k mod nr) (k / nr) x).
Proof. exact (index1_spec nr nc rows m k x). Qed.
Print Assumptions C57_linear_index.

(** Row and column of a square matrix are found as given. *)
Theorem C57_square_index n rows m i j x : table n n rows -> from_rows rows = Ok m -> i < n -> j < n ->
  (index2 m i j = Ok x <-> entry rows i j x).
Proof. exact (square_index n rows m i j x). Qed.
Print Assumptions C57_square_index.
Example C57_square_index_case : exists m,
  from_rows [[Fin 1; Fin 2]; [Fin 3; Fin 4]] = Ok m /\ table 2 2 [[Fin 1; Fin 2]; [Fin 3; Fin 4]] /\
  index2 m 0 1 = Ok (Fin 2) /\ index2 m 1 0 = Ok (Fin 3) /\ index1 m 1 = Ok (Fin 3).
Proof.
  eexists. split; [vm_compute; reflexivity|]. split; [|repeat split]. split; [reflexivity|]. intros r [<-|[<-|[]]]; reflexivity.
Qed.

(** In general it is the entry at this number of a matrix stored by columns. *)
Theorem C57_index nr nc rows m i j x : 0 < nr -> table nr nc rows -> from_rows rows = Ok m ->
  (index2 m i j = Ok x <-> nc * j + i < nr * nc /\ entry rows ((nc * j + i) mod nr) ((nc * j + i) / nr) x).
Proof. exact (index2_spec nr nc rows m i j x). Qed.
Print Assumptions C57_index.

(** If the matrix is not square, another entry is returned or the program
    stops, although the entry exists; a row that does not exist is answered. *)
Theorem C57_index_refuted :
  (exists rows m x y, table 2 3 rows /\ from_rows rows = Ok m /\ entry rows 0 1 x /\ index2 m 0 1 = Ok y /\ x <> y) /\
  (exists rows m x, table 2 3 rows /\ from_rows rows = Ok m /\ entry rows 1 2 x /\ index2 m 1 2 = Panic) /\
  (exists rows m x, table 2 2 rows /\ from_rows rows = Ok m /\ index2 m 2 0 = Ok x).
Proof.
  set (A := [[Fin 1; Fin 2; Fin 3]; [Fin 4; Fin 5; Fin 6]]).
  assert (TA : table 2 3 A) by (split; [reflexivity|intros r [<-|[<-|[]]]; reflexivity]).
  split; [|split].
  - exists A. do 3 eexists. split; [exact TA|]. split; [vm_compute; reflexivity|]. split; [eexists; split; reflexivity|].
    split; [vm_compute; reflexivity|discriminate].
  - exists A. do 2 eexists. split; [exact TA|]. split; [vm_compute; reflexivity|]. split; [eexists; split; reflexivity|reflexivity].
  - exists [[Fin 1; Fin 2]; [Fin 3; Fin 4]]. do 2 eexists. split; [|split; [vm_compute; reflexivity|vm_compute; reflexivity]].
    split; [reflexivity|]. intros r [<-|[<-|[]]]; reflexivity.
Qed.
Print Assumptions C57_index_refuted.

(** *** Linear systems *)

(** A system is made exactly of cells having as many corners as metrics are
    considered, or one more.  It is square, and neither its matrix nor solving
    it stops the program. *)
Theorem C57_system q cell : length (xq_imc q) = xq_dim q -> costed (xq_dim q) cell -> cell <> [] ->
  (S (considered_metrics (xq_imc q)) < length cell -> create_linear_system q cell = Panic) /\
  (length cell < considered_metrics (xq_imc q) -> create_linear_system q cell = Ok None) /\
  (length cell = considered_metrics (xq_imc q) \/ length cell = S (considered_metrics (xq_imc q)) ->
   exists rows b, create_linear_system q cell = Ok (Some (rows, b)) /\ table (xq_dim q) (xq_dim q) rows /\ length b = xq_dim q /\
     (0 < xq_dim q -> exists m, from_rows rows = Ok m /\ (forall lu, lu_solve lu m b = Ok (lu m b)) /\
        forall i j x, i < xq_dim q -> j < xq_dim q -> (index2 m i j = Ok x <-> entry rows i j x))).
Proof.
  intros Hl Hc Hne. destruct (system_spec q cell Hl Hc Hne) as (A & B & C). split; auto. split; auto.
  intros H. destruct (C H) as (rows & b & E & Ht & _ & Hb & _). exists rows, b. split; auto. split; auto. split; auto.
  intros Hd. destruct (from_rows_ok _ _ rows Hd Ht) as (m & Em & Er & Ec & _). exists m. split; auto. split.
  - intros lu. unfold lu_solve. rewrite Er, Ec, Hb, Nat.eqb_refl. reflexivity.
  - intros i j x Hi Hj. exact (square_index _ rows m i j x Ht Em Hi Hj).
Qed.
Print Assumptions C57_system.

(** The solutions are the weights for which all corners cost the same, that are
    zero for metrics not considered, and that add up to one unless the cell has
    one corner too many. *)
Theorem C57_meaning q cell rows b x : length (xq_imc q) = xq_dim q -> costed (xq_dim q) cell ->
  create_linear_system q cell = Ok (Some (rows, b)) -> numbers x -> length x = xq_dim q ->
  (solves rows x b <-> equally_expensive x cell /\ ignores x (xq_imc q) /\
                       (length cell = considered_metrics (xq_imc q) -> adds_up x)).
Proof.
  intros Hl Hc E Hn Hx. assert (Hne : cell <> []) by (intros ->; discriminate E).
  destruct (system_spec q cell Hl Hc Hne) as (A & B & C).
  assert (H : length cell = considered_metrics (xq_imc q) \/ length cell = S (considered_metrics (xq_imc q))).
  { destruct (lt_eq_lt_dec (length cell) (considered_metrics (xq_imc q))) as [[H|H]|H]; auto.
    - rewrite (B H) in E. discriminate.
    - destruct (Nat.eq_dec (length cell) (S (considered_metrics (xq_imc q)))); auto. rewrite A in E by lia. discriminate. }
  destruct (C H) as (rows' & b' & E' & _ & _ & _ & _ & _ & Hs). rewrite E' in E. injection E as -> ->. auto.
Qed.
Print Assumptions C57_meaning.

(** a query considering the first and the last of three metrics, and two paths
    costing (1, 7, 10) and (10, 8, 1) *)
Definition cs_query : xquery :=
  {| xq_src := 0; xq_dst := 1; xq_rc := {| rc_algo := ADijkstra; rc_alphas := [Fin 1; Fin 0; Fin 1]; rc_scales := [PInf; PInf; PInf] |};
     xq_dim := 3; xq_tdim := 2; xq_tol := [PInf; PInf; PInf]; xq_imc := [true; false; true] |}.
Definition cs_path (e : nat) (cs : list f64) : path :=
  {| p_src_idx := 0; p_src_id := 0; p_dst_idx := 1; p_dst_id := 1; p_edges := [e]; p_costs := Some cs |}.
Definition cs_cell : list path := [cs_path 0 [Fin 1; Fin 7; Fin 10]; cs_path 1 [Fin 10; Fin 8; Fin 1]].
Example C57_system_case : exists rows b,
  create_linear_system cs_query cs_cell = Ok (Some (rows, b)) /\ costed 3 cs_cell /\ considered_metrics (xq_imc cs_query) = 2 /\
  solves rows [Fin (1 # 2); Fin 0; Fin (1 # 2)] b /\ ~ solves rows [Fin 1; Fin 0; Fin 1] b /\
  create_linear_system cs_query (firstn 1 cs_cell) = Ok None /\
  create_linear_system cs_query (cs_cell ++ cs_cell) = Panic.
Proof.
  do 2 eexists. split; [vm_compute; reflexivity|]. split.
  { intros p [<-|[<-|[]]]; eexists; (split; [reflexivity|split; [|reflexivity]]); [exists [1; 7; 10]%Q|exists [10; 8; 1]%Q]; reflexivity. }
  split; [reflexivity|]. split.
  { repeat constructor; do 2 eexists; (split; [reflexivity|split; [reflexivity|vm_compute; reflexivity]]). }
  split; [|split; reflexivity].
  intros H. inversion H as [|? ? ? ? _ H']; subst. inversion H' as [|? ? ? ? _ H'']; subst. inversion H'' as [|? ? ? ? H3 _]; subst.
  destruct H3 as (w & r & Ew & Er & E). injection Er as <-. vm_compute in Ew. injection Ew as <-. vm_compute in E. discriminate.
Qed.

(** *** Exploration *)

Lemma tdim_considered imc : length (filter (fun b : bool => b) imc) = considered_metrics imc.
Proof.
  unfold considered_metrics. induction imc as [|[] imc IH]; cbn [filter count_occ length]; auto; destruct (bool_dec _ _); try discriminate; congruence.
Qed.

(** the flags of the considered metrics *)
Definition flags (rc : routing_cfg) : list bool := map (fun a => fgtb a f0) (rc_alphas rc).

(** A path found at a cell costs, for some weights of the considered metrics
    that make the corners of the cell equally expensive, at least 1.5e-6 less
    than these; and no path costs less (up to the inexactness [delta] of the
    queue).  At a cell having one corner too many, no path is found. *)
Theorem C58_undercuts hav c ch1 ch2 es ns g pick delta fuel q solve found st vis new cell_id st' vis' new' :
  1 <= ch1 -> 1 <= ch2 -> build hav c ch1 ch2 es ns = Ok g -> nonneg_metrics g -> aligned_metrics g -> finite_metrics g ->
  (0 <= delta)%Q -> picks_min delta pick -> xq_src q < node_count g -> xq_dst q < node_count g ->
  xq_dim q = metric_dim g -> length (xq_imc q) = xq_dim q -> finds_cheapest g (xq_rc q) ->
  exact_solver (metric_dim g) solve ->
  (forall id p, lookup id found = Some p -> real_path g (xq_src q) (xq_dst q) p) -> history st -> roomy st g ->
  explore_cell pick fuel solve g q found (st, vis, new) cell_id = Ok (st', vis', new') ->
  new' = new \/
  exists p cell al, new' = new ++ [p] /\ Forall2 (fun id v => lookup id found = Some v) (snd cell_id) cell /\
    real_path g (xq_src q) (xq_dst q) p /\ length cell = considered_metrics (xq_imc q) /\
    facet_weights (xq_dim q) (xq_imc q) cell al /\ Forall not_negative al /\
    exists w, cost_under al p w /\
      (forall v wv, In v cell -> cost_under al v wv -> (w + (3 # 2000000) <= wv)%Q) /\
      forall l w', connects g (xq_src q) l (xq_dst q) -> costs_as g al l w' -> (w <= w' + 2 * delta)%Q.
Proof.
  intros H1 H2 Hb Hnn Hal Hf Hd Hpk Hs Ht Hdim Himc Halg Hsol Hfound Hh Hr E.
  exact (cell_added _ _ _ _ _ _ g H1 H2 Hb Hnn Hal Hf pick delta Hd Hpk fuel q Hs Ht Hdim Himc Halg solve Hsol
           found st vis new cell_id st' vis' new' Hfound Hh Hr E).
Qed.
Print Assumptions C58_undercuts.

Lemma holds_nodup T tri_new tri_add imc ids : (forall d, ids (tri_new d) = []) ->
  (forall t c t' id, tri_add t c = Some (t', id) -> ~ In id (ids t) /\ forall k, In k (ids t') <-> k = id \/ In k (ids t)) ->
  forall t l, holds T tri_new tri_add imc t l -> NoDup (map fst l) /\ forall k : nat, In k (map fst l) <-> In k (ids t).
Proof.
  intros Hn Ha t l H. induction H as [|t l p cs t' id H [IH1 IH2] Ec Et]; cbn [map].
  - rewrite Hn. split; [constructor|tauto].
  - destruct (Ha _ _ _ _ Et) as [A B]. cbn [fst]. split.
    + constructor; auto. rewrite IH2. exact A.
    + intros k. cbn [In]. rewrite B, IH2. split; intros [?|?]; auto.
Qed.

Lemma lookup_nodup k v : forall l, NoDup (map fst l) -> In (k, v) l -> lookup k l = Some v.
Proof.
  induction l as [|[j w] l IH]; intros Hn Hi; [destruct Hi|]. cbn [map fst] in Hn. apply NoDup_cons_iff in Hn. destruct Hn as [Hj Hn]. cbn [lookup].
  destruct Hi as [H|H]; [injection H as -> ->; now rewrite Nat.eqb_refl|].
  destruct (Nat.eqb_spec j k) as [->|_]; auto. exfalso. apply Hj. apply in_map_iff. exists (k, v). auto.
Qed.

(** The exploration as a whole.  The triangulation holds the initially found
    and further paths; those within the tolerances are returned, in the order
    of being found.  When it ends, no cell of the triangulation is worth
    another look: for the weights that make its corners equally expensive (if
    there are exactly one such, none negative), one of the paths held is a
    cheapest of all paths of the graph, up to 1.5e-6 and the inexactness of the
    queue. *)
Theorem C58_explored hav c ch1 ch2 es ns g pick delta fuel T tri_new tri_add tri_cells solve rounds rc s t st st' ps :
  fresh_ids T tri_new tri_add -> stable_cells T tri_cells -> exact_solver (metric_dim g) solve ->
  1 <= ch1 -> 1 <= ch2 -> build hav c ch1 ch2 es ns = Ok g -> nonneg_metrics g -> aligned_metrics g -> finite_metrics g ->
  history st -> roomy st g -> s < node_count g -> t < node_count g ->
  (0 <= delta)%Q -> picks_min delta pick -> finds_cheapest g rc -> length (rc_alphas rc) = metric_dim g ->
  fully_explorate pick fuel T tri_new tri_add tri_cells solve rounds g rc s t st = Ok (st', ps) ->
  exists st1 tol new tri found,
    explore_initial_paths pick fuel g (xquery_with g rc s t) st = Ok (st1, tol, new) /\
    holds T tri_new tri_add (flags rc) tri found /\ incl new (map snd found) /\
    (forall p, In p (map snd found) -> real_path g s t p) /\
    ps = filter (tol_ok tol) (rev (map snd found)) /\
    (1 < considered_metrics (flags rc) -> considered_metrics (flags rc) < length new ->
     forall id vs cell al, In (id, vs) (tri_cells tri) -> Forall2 (fun k v => In (k, v) found) vs cell ->
       length cell = considered_metrics (flags rc) -> within_tolerances tol cell ->
       facet_weights (metric_dim g) (flags rc) cell al -> determined (metric_dim g) (flags rc) cell al -> Forall not_negative al ->
       has_cheapest g al s t ((3 # 2000000) + 2 * delta) (map snd found)).
Proof.
  intros (ids & Hnew & Hadd) Hst Hsol H1 H2 Hb Hnn Hal Hf Hh Hr Hs Ht Hd Hpk Halg Hlen Er.
  destruct (run_split T tri_new tri_add tri_cells solve _ _ _ _ _ _ _ _ _ _ Er) as (st1 & tol & new & s1 & s2 & E1 & E2 & E3 & E4). cbv zeta in *.
  set (q0 := xquery_with g rc s t) in *.
  set (q := {| xq_src := s; xq_dst := t; xq_rc := rc; xq_dim := metric_dim g; xq_tdim := xq_tdim q0; xq_tol := tol; xq_imc := xq_imc q0 |}) in *.
  destruct (initial_ok _ _ _ q0 _ _ _ _ Hh Hr eq_refl E1) as ([Hh1 Hr1] & Hfnd & _).
  assert (Himc : length (xq_imc q) = xq_dim q) by (unfold q, q0; cbn; now rewrite map_length).
  assert (Htd : xq_tdim q0 = considered_metrics (flags rc)) by (unfold q0, flags; cbn; apply tdim_considered).
  assert (Hnr : forall p, In p new -> real g q p).
  { intros p Hp. destruct (Hfnd p Hp) as (al & sta & stb & A & B & C).
    exact (xbest_real _ _ _ _ _ _ _ _ _ q0 _ _ _ _ H1 H2 Hb Hnn Hal A B Hs Ht (proj1 Hpk) C). }
  unfold update in E2. cbn [xs_tri xs_found xs_tolerated xs_visited] in E2.
  assert (Hadded : winv g delta q T tri_new tri_add tri_cells ids s1 /\ xs_visited T s1 = [] /\
                   xs_dirty T s1 = negb (length new =? 0) /\ incl new (map snd (xs_found T s1)) /\ length (xs_found T s1) = length new).
  { destruct (add_paths g delta q T tri_new tri_add tri_cells ids Hadd new
      {| xs_tri := tri_new (xq_tdim q0); xs_found := []; xs_tolerated := []; xs_visited := []; xs_dirty := negb (length new =? 0) |} s1)
      as (A & B & C & _ & D & L & _); try exact E2; auto; cbn [xs_tri xs_found xs_tolerated xs_visited].
    - rewrite Htd. constructor.
    - intros ? ? [].
    - intros ? ? [].
    - intros ? [].
    - constructor.
    - constructor.
    - intros ? [].
    - split; auto. split; auto. split; auto. split; auto. cbn [xs_found length] in L. lia. }
  destruct Hadded as (W1 & V1 & D1 & I1 & L1).
  assert (Hend : winv g delta q T tri_new tri_add tri_cells ids s2 /\ incl (xs_found T s1) (xs_found T s2) /\
            (1 < considered_metrics (flags rc) -> considered_metrics (flags rc) < length new ->
             forall k, In k (tri_cells (xs_tri T s2)) -> In (fst k) (xs_visited T s2))).
  { rewrite Htd, L1 in E3. destruct ((1 <? considered_metrics (flags rc)) && (considered_metrics (flags rc) <? length new)) eqn:Ec.
    - apply andb_true_iff in Ec. destruct Ec as [Ea Eb]. apply Nat.ltb_lt in Ea, Eb.
      assert (HK : 0 < K q) by (change (K q) with (considered_metrics (flags rc)); lia).
      destruct (explore_settles hav c ch1 ch2 es ns g H1 H2 Hb Hnn Hal Hf pick delta Hd Hpk fuel q Hs Ht eq_refl Himc Halg solve Hsol HK
                  T tri_new tri_add tri_cells Hst ids Hadd rounds st1 s1 st' s2 Hh1 Hr1 W1) as (_ & A & B & C); auto.
      intros Hx. rewrite D1 in Hx. destruct new; [cbn [length] in Eb; lia|discriminate].
    - injection E3 as <- <-. split; auto. split; [apply incl_refl|]. intros Ha Hbb. apply Nat.ltb_lt in Ha, Hbb. rewrite Ha, Hbb in Ec. discriminate. }
  destruct Hend as ([J1 J2 J3 J4 J5 J6 J7] & I2 & Hcells). exists st1, tol, new, (xs_tri T s2), (xs_found T s2).
  split; auto. split; [exact J1|]. split.
  { intros p Hp. apply I1 in Hp. apply in_map_iff in Hp. destruct Hp as (kp & <- & Hkp). apply in_map. auto. }
  split.
  { intros p Hp. apply in_map_iff in Hp. destruct Hp as ([k p'] & <- & Hkp). exact (J2 k p' Hkp). }
  split.
  { pose proof (collect_spec _ _ _ E4 J5) as F1. eapply Forall2_det; [|exact F1|exact J6]. cbn. congruence. }
  intros Ha Hbb id vs cell al Hin Fc Hk Hw Hfw Hdt Hn.
  pose proof (Hcells Ha Hbb (id, vs) Hin) as Hv. destruct (J7 id Hv vs _ Hin) as (cell' & F' & R).
  destruct (holds_nodup T tri_new tri_add (flags rc) ids Hnew Hadd _ _ J1) as [Hnd _].
  assert (cell' = cell).
  { clear -F' Fc Hnd. revert cell Fc. induction F' as [|k v vs cell' Ek F IH]; intros cell Fc; inversion Fc as [|? v' ? cell0 Hin Fc']; subst; auto.
    f_equal; [|auto]. rewrite (lookup_nodup _ _ _ Hnd Hin) in Ek. congruence. }
  subst cell'. apply R. split; [exact Hk|]. split; [exact Hw|]. split; [exact Hfw|]. split; [exact Hdt|exact Hn].
Qed.
Print Assumptions C58_explored.

(** Cramer's rule is exact *)
Lemma pair_of_len {A} (l : list A) : length l = 2 -> exists a b, l = [a; b].
Proof. destruct l as [|a [|b [|]]]; try discriminate. eauto. Qed.
Lemma numbers_pair l : length l = 2 -> numbers l -> exists a b, l = [Fin a; Fin b].
Proof.
  intros H (qs & ->). rewrite map_length in H. destruct (pair_of_len _ H) as (a & b & ->). exists a, b. reflexivity.
Qed.
Lemma solves_pair a b c d x y e f :
  solves [[Fin a; Fin b]; [Fin c; Fin d]] [Fin x; Fin y] [Fin e; Fin f] <-> (a * x + b * y == e)%Q /\ (c * x + d * y == f)%Q.
Proof.
  change (solves (map (map Fin) [[a; b]; [c; d]]) (map Fin [x; y]) (map Fin [e; f]) <-> (a * x + b * y == e)%Q /\ (c * x + d * y == f)%Q).
  rewrite solves_fin. split.
  - intros H. inversion H as [|? ? ? ? A H']; subst. inversion H' as [|? ? ? ? B _]; subst. cbn in A, B. split; lra.
  - intros [A B]. constructor; [cbn; lra|]. constructor; [cbn; lra|constructor].
Qed.
Lemma alike_pair a b c d : alike [Fin a; Fin b] [Fin c; Fin d] <-> (a == c)%Q /\ (b == d)%Q.
Proof.
  split.
  - intros H. split; [exact (H 0 a c eq_refl eq_refl)|exact (H 1 b d eq_refl eq_refl)].
  - intros [A B] [|[|[|i]]] p q Hp Hq; try discriminate; cbn in Hp, Hq; injection Hp as <-; injection Hq as <-; auto.
Qed.
Lemma xp_exact : exact_solver 2 xp_solve.
Proof.
  intros rows rhs [Hl Hw] Hn Hb Hnb.
  destruct (pair_of_len _ Hl) as (r1 & r2 & ->). inversion Hn as [|? ? N1 Hn']; subst. inversion Hn' as [|? ? N2 _]; subst.
  destruct (numbers_pair r1 (Hw r1 (or_introl eq_refl)) N1) as (a & b & ->).
  destruct (numbers_pair r2 (Hw r2 (or_intror (or_introl eq_refl))) N2) as (c & d & ->).
  destruct (numbers_pair rhs Hb Hnb) as (e & f & ->). cbn [xp_solve].
  destruct (Qeq_bool (a * d - b * c) 0) eqn:Ed.
  - apply Qeq_bool_eq in Ed. split; [discriminate|]. intros x Nx Lx Sx Ux. exfalso.
    destruct (numbers_pair x Lx Nx) as (u & v & ->). apply solves_pair in Sx. destruct Sx as [S1 S2].
    assert (G : forall p r, (a * p + b * r == 0)%Q -> (c * p + d * r == 0)%Q -> (p == 0)%Q /\ (r == 0)%Q).
    { intros p r P1 P2. assert (Hy : solves [[Fin a; Fin b]; [Fin c; Fin d]] [Fin (u + p); Fin (v + r)] [Fin e; Fin f]).
      { apply solves_pair. split.
        - rewrite <- S1. transitivity (a * u + b * v + (a * p + b * r))%Q; [ring|]. rewrite P1. ring.
        - rewrite <- S2. transitivity (c * u + d * v + (c * p + d * r))%Q; [ring|]. rewrite P2. ring. }
      specialize (Ux [Fin (u + p); Fin (v + r)] (ex_intro _ [(u + p)%Q; (v + r)%Q] eq_refl) eq_refl Hy). apply alike_pair in Ux. destruct Ux. split; lra. }
    destruct (G b (- a)%Q) as [B1 A1]; [ring|transitivity (- (a * d - b * c))%Q; [ring|rewrite Ed; reflexivity]|].
    destruct (G d (- c)%Q) as [D1 C1]; [transitivity (a * d - b * c)%Q; [ring|exact Ed]|ring|].
    assert (Za : (a == 0)%Q) by (rewrite <- (Qopp_involutive a), A1; reflexivity).
    assert (Zc : (c == 0)%Q) by (rewrite <- (Qopp_involutive c), C1; reflexivity).
    destruct (G 1%Q 1%Q) as [F _]; [rewrite Za, B1; ring|rewrite Zc, D1; ring|]. discriminate F.
  - assert (Hd : ~ (a * d - b * c == 0)%Q) by (intros H; apply Qeq_bool_iff in H; congruence). split; [|discriminate].
    intros x E. remember (Qred ((e * d - b * f) / (a * d - b * c))) as X eqn:EX. remember (Qred ((a * f - e * c) / (a * d - b * c))) as Y eqn:EY.
    assert (HX : (X == (e * d - b * f) / (a * d - b * c))%Q) by (subst X; apply Qred_correct).
    assert (HY : (Y == (a * f - e * c) / (a * d - b * c))%Q) by (subst Y; apply Qred_correct). clear EX EY.
    injection E as <-. split; [exists [X; Y]; reflexivity|]. split; [reflexivity|]. split.
    + apply solves_pair. split; rewrite HX, HY; field; auto.
    + intros y Ny Ly Sy. destruct (numbers_pair y Ly Ny) as (u & v & ->). apply solves_pair in Sy. destruct Sy as [S1 S2].
      apply alike_pair. split; [rewrite HX|rewrite HY]; rewrite <- S1, <- S2; field; auto.
Qed.
Lemma xp_stable : stable_cells nat xp_cells.
Proof.
  intros t t' id vs vs' H H'. unfold xp_cells in *. destruct (3 <=? t), (3 <=? t'); cbn [In] in *; try tauto.
  repeat match goal with H : _ \/ _ |- _ => destruct H | H : False |- _ => destruct H end; congruence.
Qed.

(** the roads (1, 10), (10, 1) and (4, 4): at the cell of the first two, the
    third is found, by weights of one half *)
Definition xp_found : list (nat * path) :=
  [(0, cs_path 0 [Fin 1; Fin 10]); (1, cs_path 1 [Fin 10; Fin 1])].
Example C58_undercuts_case : exists st' vis' p,
  explore_cell exact_pick 20 xp_solve xp_graph
    {| xq_src := 0; xq_dst := 1; xq_rc := xp_rc PInf PInf; xq_dim := 2; xq_tdim := 2; xq_tol := [PInf; PInf]; xq_imc := [true; true] |}
    xp_found (dijkstra_new, [], []) (0, [0; 1]) = Ok (st', vis', [p]) /\ p_edges p = [2] /\ exact_solver (metric_dim xp_graph) xp_solve.
Proof. do 3 eexists. split; [vm_compute; reflexivity|]. split; [reflexivity|exact xp_exact]. Qed.

(** The exploration of these roads holds (4, 4) twice.  For the cell of (1, 10)
    and (4, 4), the weights (2/3, 1/3) are the only ones, and no road costs less
    than 4. *)
Example C58_explored_case : exists st' a b p,
  fully_explorate exact_pick 20 nat xp_new xp_add xp_cells xp_solve 5 xp_graph (xp_rc PInf PInf) 0 1 dijkstra_new = Ok (st', [a; b; p; p]) /\
  fresh_ids nat xp_new xp_add /\ stable_cells nat xp_cells /\ exact_solver (metric_dim xp_graph) xp_solve /\
  considered_metrics (flags (xp_rc PInf PInf)) = 2 /\
  In (2, [1; 2]) (xp_cells 4) /\ (exists l, p_costs a = Some [Fin l; Fin (10 # 1)]) /\
  let al := [Fin (2 # 3); Fin (1 # 3)] in
  facet_weights 2 [true; true] [a; p] al /\ determined 2 [true; true] [a; p] al /\ within_tolerances [PInf; PInf] [a; p] /\ Forall not_negative al.
Proof.
  do 4 eexists. split; [vm_compute; reflexivity|]. split; [exact xp_fresh|]. split; [exact xp_stable|]. split; [exact xp_exact|].
  split; [reflexivity|]. split; [right; right; now left|]. split; [eexists; reflexivity|]. cbv zeta.
  match goal with |- facet_weights _ _ ?c _ /\ _ => set (cell := c) end.
  assert (Heq : forall u v, equally_expensive [Fin u; Fin v] cell <-> (u + 10 * v == 4 * u + 4 * v)%Q).
  { intros u v. unfold cell. change [Fin u; Fin v] with (map Fin [u; v]).
    rewrite (equally_iff [u; v] _ _ [1; 10]%Q [[4; 4]]%Q); [|reflexivity|constructor; [reflexivity|constructor]]. split.
    - intros H. specialize (H _ (or_introl eq_refl)). cbn in H. lra.
    - intros H c [<-|[]]. cbn. lra. }
  assert (Hig : forall al, ignores al [true; true]) by (intros al [|[|[|i]]] H; discriminate).
  split.
  { split; [exists [2 # 3; 1 # 3]%Q; reflexivity|]. split; [reflexivity|]. split; [apply Heq; reflexivity|]. split; auto.
    exists [2 # 3; 1 # 3]%Q. split; reflexivity. }
  split.
  { intros other (N & L & A & _ & B). destruct (numbers_pair other L N) as (u & v & ->). apply Heq in A.
    change [Fin u; Fin v] with (map Fin [u; v]) in B. apply adds_up_iff in B. cbn in B. apply alike_pair. split; lra. }
  split; [|repeat constructor; discriminate].
  intros [|[|[|i]]] x H; try discriminate; injection H as <-; unfold cell.
  - do 3 eexists. split; [left; reflexivity|]. split; [reflexivity|]. split; reflexivity.
  - do 3 eexists. split; [left; reflexivity|]. split; [reflexivity|]. split; reflexivity.
Qed.
