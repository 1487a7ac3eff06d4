(** C28 and C30, continued: reusing the explorator, and routes worked off with it *)
From Coq Require Import String List Bool Arith ZArith QArith Lia.
From Verif Require Import Base F64 Lib ModelApprox ModelUnits ModelConfig ModelGraph ModelBuild Spec Examples
  ModelDijkstra SpecRouting SpecPaths PropsRouting ExamplesRouting ModelExplorator SpecExplorator ProofExplorator PropsExplorator
  ModelBalancing SpecBalancing ProofBalancing ProofWorkers PropsBalancing.
Import ListNotations.
Open Scope list_scope.
Open Scope nat_scope.

(** *** Results in relation *)
Definition res_rel {A B} (R : A -> B -> Prop) (r : res A) (r' : res B) : Prop :=
  match r, r' with
  | Ok a, Ok b => R a b
  | Err m, Err m' => m = m'
  | Panic, Panic => True
  | Diverge, Diverge => True
  | _, _ => False
  end.
Lemma res_rel_refl {A} (R : A -> A -> Prop) r : (forall a, R a a) -> res_rel R r r.
Proof. intros H. destruct r; simpl; auto. Qed.
Lemma bind_rel {A B A' B'} (R : A -> B -> Prop) (S : A' -> B' -> Prop) r r' f f' :
  res_rel R r r' -> (forall a b, R a b -> res_rel S (f a) (f' b)) -> res_rel S (bind r f) (bind r' f').
Proof. destruct r, r'; simpl; intros H G; auto; contradiction. Qed.
Lemma same_bind {A A' B'} (S : A' -> B' -> Prop) (r : res A) f f' :
  (forall a, res_rel S (f a) (f' a)) -> res_rel S (bind r f) (bind r f').
Proof. destruct r; simpl; intros G; auto. Qed.
Lemma foldM_rel {A S S'} (R : S -> S' -> Prop) (f : S -> A -> res S) (f' : S' -> A -> res S') l :
  (forall s s' x, R s s' -> res_rel R (f s x) (f' s' x)) -> forall s s', R s s' -> res_rel R (foldM f l s) (foldM f' l s').
Proof.
  intros H. induction l as [|x l IH]; intros s s' Hs; [exact Hs|]. cbn [foldM]. eapply bind_rel; [apply H, Hs|]. auto.
Qed.

(** *** Reuse *)
Lemma new_fit g : dijkstra_fit g dijkstra_new.
Proof. split; [exact history_new|unfold capacity; simpl; lia]. Qed.
Section Reuse.
  Variable T : Type.
  Variable tri_new : nat -> T.
  Variable tri_add : T -> list f64 -> option (T * nat).
  Variable tri_cells : T -> list (nat * list nat).
  Variable solve : list (list f64) -> list f64 -> option (list f64).
  Variables (pick : nat -> list costnode -> nat) (fuel : nat) (g : graph).
  Hypothesis Hn : node_count g <> 2.

  (** both Dijkstra objects may be used, the rest is the same *)
  Definition alike {A} (x y : dijkstra * A) : Prop := dijkstra_fit g (fst x) /\ dijkstra_fit g (fst y) /\ snd x = snd y.

  Lemma best_alike st st' rc s t : dijkstra_fit g st -> dijkstra_fit g st' ->
    res_rel alike (compute_best_path pick fuel st g rc s t) (compute_best_path pick fuel st' g rc s t).
  Proof.
    intros [Hh Hc] [Hh' Hc'].
    pose proof (C21_reuse_partial pick fuel st g rc s t Hh Hc Hn) as E. pose proof (C21_reuse_partial pick fuel st' g rc s t Hh' Hc' Hn) as E'.
    rewrite <- E' in E. clear E'.
    destruct (compute_best_path pick fuel st g rc s t) as [[a x]| | |] eqn:E1, (compute_best_path pick fuel st' g rc s t) as [[b y]| | |] eqn:E2;
      cbn [answer snd] in E; try discriminate; simpl; auto; [|now injection E].
    injection E as ->. split; [|split; [|reflexivity]]; split; eauto using history_query, capacity_bound.
  Qed.
  Lemma xbest_alike q st st' al : dijkstra_fit g st -> dijkstra_fit g st' ->
    res_rel alike (xbest pick fuel g q st al) (xbest pick fuel g q st' al).
  Proof.
    intros H H'. unfold xbest. eapply bind_rel; [now apply best_alike|]. intros [a x] [b y] (Ha & Hb & E). cbn [fst snd] in *. subst y.
    destruct x as [p|]; [|now split]. apply same_bind. intros p'. now split.
  Qed.
  Ltac by3 := (split; [assumption|split; [assumption|split; reflexivity]]).
  Definition alike3 {A B} (x y : dijkstra * A * B) : Prop :=
    dijkstra_fit g (fst (fst x)) /\ dijkstra_fit g (fst (fst y)) /\ snd (fst x) = snd (fst y) /\ snd x = snd y.
  Lemma init_alike q x y ia : alike3 x y -> res_rel alike3 (init_step pick fuel g q x ia) (init_step pick fuel g q y ia).
  Proof.
    destruct x as [[st tol] found], y as [[st' tol'] found']. intros (H & H' & E1 & E2). cbn [fst snd] in *. subst tol' found'. unfold init_step.
    eapply bind_rel; [now apply xbest_alike|]. intros [a x] [b y] (Ha & Hb & E). cbn [fst snd] in *. subst y. destruct x as [p|]; [|by3].
    apply same_bind. intros costs. apply same_bind. intros t1. apply same_bind. intros cs. destruct (existsb _ _); by3.
  Qed.
  Lemma cell_alike q found x y c : alike3 x y -> res_rel alike3 (explore_cell pick fuel solve g q found x c) (explore_cell pick fuel solve g q found y c).
  Proof.
    destruct x as [[st vis] new], y as [[st' vis'] new']. intros (H & H' & E1 & E2). cbn [fst snd] in *. subst vis' new'. unfold explore_cell.
    destruct (existsb (fun k => k =? fst c) vis); [by3|].
    apply same_bind. intros cell. apply same_bind. intros miss. destruct miss; [by3|].
    apply same_bind. intros [[rows b]|]; [|by3]. destruct (solve rows b) as [al|]; [|by3].
    eapply bind_rel; [now apply xbest_alike|]. intros [a x] [a' y] (Ha & Hb & E). cbn [fst snd] in *. subst y. destruct x as [p|]; [|by3].
    apply same_bind. intros costs. apply same_bind. intros v0. apply same_bind. intros c0. destruct (_ && _); by3.
  Qed.
  Lemma explore_alike q rounds : forall st st' s, dijkstra_fit g st -> dijkstra_fit g st' ->
    res_rel alike (explore pick fuel T tri_add tri_cells solve g q rounds st s) (explore pick fuel T tri_add tri_cells solve g q rounds st' s).
  Proof.
    induction rounds as [|k IH]; intros st st' s H H'; cbn [explore]; destruct (xs_dirty T s); try exact I; try (now split).
    eapply bind_rel; [eapply (foldM_rel alike3); [intros; now apply cell_alike|by3]|].
    intros [[a vis] new] [[b vis'] new'] (Ha & Hb & E1 & E2). cbn [fst snd] in *. subst vis' new'. apply same_bind. intros s1. now apply IH.
  Qed.
  Lemma explorate_alike rounds rc s t st st' : dijkstra_fit g st -> dijkstra_fit g st' ->
    res_rel alike (fully_explorate pick fuel T tri_new tri_add tri_cells solve rounds g rc s t st)
                  (fully_explorate pick fuel T tri_new tri_add tri_cells solve rounds g rc s t st').
  Proof.
    intros H H'. unfold fully_explorate, explore_initial_paths. eapply (bind_rel alike3).
    - apply same_bind. intros ias. eapply (foldM_rel alike3); [intros; now apply init_alike|by3].
    - intros [[a tol] new] [[b tol'] new'] (Ha & Hb & E1 & E2). cbn [fst snd] in *. subst tol' new'. cbv zeta. apply same_bind. intros s1.
      eapply (bind_rel alike).
      + destruct (_ && _); [now apply explore_alike|now split].
      + intros [a' x] [b' y] (Ha' & Hb' & E). cbn [fst snd] in *. subst y. apply same_bind. intros ps. now split.
  Qed.
End Reuse.

(** the answer without the Dijkstra object *)
Definition answers {A} (r : res (dijkstra * A)) : res A := bind r (fun x => Ok (snd x)).

(** A used Dijkstra object explores as a new one does, so the explorator
    returns the same paths again.  Missing, as for single queries: graphs of two
    nodes, and objects used for larger graphs before. *)
Theorem C28_reuse_partial pick fuel T tri_new tri_add tri_cells solve rounds g rc s t st :
  history st -> capacity st <= node_count g -> node_count g <> 2 ->
  answers (fully_explorate pick fuel T tri_new tri_add tri_cells solve rounds g rc s t st) =
  answers (fully_explorate pick fuel T tri_new tri_add tri_cells solve rounds g rc s t dijkstra_new).
Proof.
  intros Hh Hc Hn.
  pose proof (explorate_alike T tri_new tri_add tri_cells solve pick fuel g Hn rounds rc s t st dijkstra_new) as H.
  specialize (H (conj Hh Hc)). specialize (H (new_fit g)).
  destruct (fully_explorate _ _ _ _ _ _ _ _ _ _ _ _ st) as [[a x]| | |], (fully_explorate _ _ _ _ _ _ _ _ _ _ _ _ dijkstra_new) as [[b y]| | |];
    simpl in *; try contradiction; auto.
  - destruct H as (_ & _ & E). cbn [snd] in E. now subst.
  - now subst.
Qed.
Print Assumptions C28_reuse_partial.
Example C28_reuse_case : history used_dijkstra /\ used_dijkstra <> dijkstra_new /\ capacity used_dijkstra <= node_count rt_graph /\ node_count rt_graph <> 2 /\
  exists ps, answers (fully_explorate exact_pick 20 nat xp_new xp_add xp_cells xp_solve 5 xp_graph (xp_rc PInf PInf) 0 1 dijkstra_new) = Ok ps /\ length ps = 4.
Proof.
  split; [exact used_history|]. split; [discriminate|]. split; [vm_compute; lia|]. split; [discriminate|].
  eexists. split; [vm_compute; reflexivity|reflexivity].
Qed.

(** *** Working off routes *)

(** What the routes' explorations yield: [n] times a path is drawn among those
    found, every draw with a random number of its own ([k] numbers have been
    drawn before).  Nothing is drawn if nothing has been found. *)
Inductive drawn (sample : nat -> nat -> nat -> nat) (seed : nat) : nat -> list nat -> list (list path) -> list path -> Prop :=
| drawn_end k : drawn sample seed k [] [] []
| drawn_none k n ns fs ps : drawn sample seed k ns fs ps -> drawn sample seed k (n :: ns) ([] :: fs) ps
| drawn_some k n ns found fs now ps : found <> [] -> length now = n ->
    (forall i, i < n -> exists p, nth_error now i = Some p /\ nth_error found (sample seed (k + i) (length found)) = Some p) ->
    drawn sample seed (k + n) ns fs ps -> drawn sample seed k (n :: ns) (found :: fs) (now ++ ps).

(** the paths a new Dijkstra object explores for a route *)
Definition explored pick fuel g rc T tri_new tri_add tri_cells solve rounds (r : route) (found : list path) : Prop :=
  exists s t, node_id g s = Ok (fst (fst r)) /\ node_id g t = Ok (snd (fst r)) /\
    answers (fully_explorate pick fuel T tri_new tri_add tri_cells solve rounds g (inner_cfg rc) s t dijkstra_new) = Ok found.

(** a route is explored by a new object, and the found paths can be flattened *)
Definition explorable pick fuel g rc T tri_new tri_add tri_cells solve rounds (ff : nat) (routes : list route) : Prop :=
  forall r, In r routes -> exists found, explored pick fuel g rc T tri_new tri_add tri_cells solve rounds r found /\
    forall p, In p found -> exists p', flattens g ff p p'.

Section Work.
  Variables (hav : coord -> coord -> f64) (c : cfg) (ch1 ch2 : nat) (es : list proto_edge) (ns : list proto_node) (g : graph).
  Hypotheses (H1 : 1 <= ch1) (H2 : 1 <= ch2) (E : build hav c ch1 ch2 es ns = Ok g) (Hn : node_count g <> 2).
  Variable T : Type.
  Variable tri_new : nat -> T.
  Variable tri_add : T -> list f64 -> option (T * nat).
  Variable tri_cells : T -> list (nat * list nat).
  Variable solve : list (list f64) -> list f64 -> option (list f64).
  Variables (pick : nat -> list costnode -> nat) (fuel rounds : nat) (rc : routing_cfg).
  Variable sample : nat -> nat -> nat -> nat.
  Hypothesis Hsample : forall seed k n, 0 < n -> sample seed k n < n.
  Let xpl := explored pick fuel g rc T tri_new tri_add tri_cells solve rounds.
  Let xroute := explorator_route pick fuel g rc T tri_new tri_add tri_cells solve rounds sample.

  Lemma draw_total seed n found : found <> [] -> forall k, exists now, draw sample seed k n found = Ok now /\ length now = n /\
    forall i, i < n -> exists p, nth_error now i = Some p /\ nth_error found (sample seed (k + i) (length found)) = Some p.
  Proof.
    intros Hf. assert (Hl : 0 < length found) by (destruct found; [congruence|simpl; lia]).
    induction n as [|n IH]; intros k; [exists []; split; [reflexivity|split; [reflexivity|lia]]|]. cbn [draw].
    destruct (nth_error found (sample seed k (length found))) as [p|] eqn:Ep;
      [|apply nth_error_None in Ep; specialize (Hsample seed k _ Hl); lia].
    unfold idx at 1. rewrite Ep. cbn [bind]. destruct (IH (S k)) as (now & -> & Ln & Hi). cbn [bind]. exists (p :: now). split; [reflexivity|].
    split; [simpl; lia|]. intros [|i] Hlt; [exists p; rewrite Nat.add_0_r; auto|]. destruct (Hi i) as (p' & A & B); [lia|].
    exists p'. replace (k + S i) with (S k + i) by lia. auto.
  Qed.

  Lemma xroute_step seed st k o r found : dijkstra_fit g st -> xpl r found ->
    exists st' now, xroute seed (st, k, o) r =
      Ok (st', k + length now, {| oc_chosen := oc_chosen o ++ now; oc_found := oc_found o ++ [length found] |}) /\ dijkstra_fit g st' /\
      (found = [] /\ now = [] \/ found <> [] /\ length now = snd r /\
       forall i, i < snd r -> exists p, nth_error now i = Some p /\ nth_error found (sample seed (k + i) (length found)) = Some p).
  Proof.
    intros Hf (s & t & A & B & Ea). unfold xroute, explorator_route. rewrite (into_node_ok _ _ _ _ _ _ _ H1 H2 E _ _ _ A B). cbn [bind fst snd].
    pose proof (explorate_alike T tri_new tri_add tri_cells solve pick fuel g Hn rounds (inner_cfg rc) s t st dijkstra_new Hf) as Hr.
    specialize (Hr (new_fit g)).
    destruct (fully_explorate _ _ _ _ _ _ _ _ _ _ _ _ dijkstra_new) as [[st1 y]| | |]; try discriminate. cbn in Ea. injection Ea as ->.
    destruct (fully_explorate _ _ _ _ _ _ _ _ _ _ _ _ st) as [[st' x]| | |]; simpl in Hr; try contradiction. destruct Hr as (Hf' & _ & Ex).
    cbn [fst snd] in *. subst x. cbn [bind fst snd]. destruct found as [|p found].
    - cbn [length Nat.ltb Nat.leb]. exists st', []. rewrite app_nil_r, Nat.add_0_r. auto.
    - set (fd := p :: found). assert (Hne : fd <> []) by (unfold fd; discriminate). replace (0 <? length fd) with true by reflexivity.
      destruct (draw_total seed (snd r) fd Hne k) as (now & Ed & Ln & Hi). rewrite Ed. cbn [bind]. exists st', now. rewrite Ln. auto 6.
  Qed.

  Lemma xroute_steps seed rs : forall st k o fs, dijkstra_fit g st -> Forall2 xpl rs fs ->
    exists st' k' now, foldM (xroute seed) rs (st, k, o) =
      Ok (st', k', {| oc_chosen := oc_chosen o ++ now; oc_found := oc_found o ++ map (@length path) fs |}) /\ dijkstra_fit g st' /\
      drawn sample seed k (map snd rs) fs now.
  Proof.
    induction rs as [|r rs IH]; intros st k o fs Hf F; inversion F as [|? found ? fs' Hr F']; subst.
    - exists st, k, []. cbn. rewrite !app_nil_r. destruct o. split; [auto|]. split; [auto|constructor].
    - destruct (xroute_step seed st k o r found Hf Hr) as (st1 & now & E1 & Hf1 & Hd).
      destruct (IH st1 (k + length now) {| oc_chosen := oc_chosen o ++ now; oc_found := oc_found o ++ [length found] |} fs' Hf1 F')
        as (st2 & k2 & later & E2 & Hf2 & D).
      exists st2, k2, (now ++ later). cbn [foldM]. rewrite E1. cbn [bind]. rewrite E2. cbn [oc_chosen oc_found map]. rewrite <- !app_assoc.
      split; [reflexivity|]. split; [auto|]. destruct Hd as [[-> ->]|(Hne & Ln & Hi)].
      + cbn [app length] in *. rewrite Nat.add_0_r in D. now constructor.
      + rewrite Ln in D. constructor; auto.
  Qed.

  Lemma explorator_works st w fs : dijkstra_fit g st -> Forall2 xpl (wk_routes w) fs ->
    exists st' o, work_with_explorator pick fuel g rc T tri_new tri_add tri_cells solve rounds sample st w = Ok (st', o) /\ dijkstra_fit g st' /\
      oc_found o = map (@length path) fs /\ drawn sample (wk_seed w) 0 (map snd (wk_routes w)) fs (oc_chosen o).
  Proof.
    intros Hf F. destruct (xroute_steps (wk_seed w) (wk_routes w) st 0 {| oc_chosen := []; oc_found := [] |} fs Hf F) as (st' & k & now & E1 & Hf' & D).
    unfold work_with_explorator. fold xroute. rewrite E1. cbn [bind fst snd]. eexists st', _. split; [reflexivity|]. auto.
  Qed.

  Lemma drawn_in seed k nn fs ps p : drawn sample seed k nn fs ps -> In p ps -> exists found, In found fs /\ In p found.
  Proof.
    induction 1 as [k|k n ns' fs' ps' D IH|k n ns' found fs' now ps' Hne Hl Hi D IH]; intros Hp.
    - destruct Hp.
    - destruct (IH Hp) as (f & A & B). exists f. simpl. auto.
    - apply in_app_iff in Hp. destruct Hp as [Hp|Hp].
      + apply In_nth_error in Hp. destruct Hp as (i & Ei). destruct (Hi i) as (p' & A & B).
        { rewrite <- Hl. apply nth_error_Some. congruence. }
        exists found. split; [simpl; auto|]. apply nth_error_In in B. congruence.
      + destruct (IH Hp) as (f & A & B). exists f. simpl. auto.
  Qed.

  Lemma explorator_steady ff routes :
    explorable pick fuel g rc T tri_new tri_add tri_cells solve rounds ff routes ->
    steady g ff (work_with_explorator pick fuel g rc T tri_new tri_add tri_cells solve rounds sample) routes (dijkstra_fit g).
  Proof.
    intros Hx. split; [apply new_fit|]. intros st w Hf Hin.
    assert (exists fs, Forall2 xpl (wk_routes w) fs /\ forall found p, In found fs -> In p found -> exists p', flattens g ff p p') as (fs & F & Hfl).
    { clear - Hx Hin. induction (wk_routes w) as [|r rs IH]; [exists []; split; [constructor|intros ? ? []]|].
      destruct IH as (fs & F & Hfl); [intros x Hi; apply Hin; simpl; auto|]. destruct (Hx r (Hin r (or_introl eq_refl))) as (found & Hr & Hp).
      exists (found :: fs). split; [now constructor|]. intros f p [<-|Hf] Hin'; eauto. }
    destruct (explorator_works st w fs Hf F) as (st' & o & Ew & Hf' & _ & D). exists st', o. split; auto. split; auto.
    intros p Hp. destruct (drawn_in _ _ _ _ _ _ D Hp) as (found & A & B). eauto.
  Qed.
End Work.

(** Work with the explorator yields the paths drawn from those a new object
    finds, in the order of the routes. *)
Theorem C30_draws hav c ch1 ch2 es ns g pick fuel T tri_new tri_add tri_cells solve rounds rc sample st w fs :
  1 <= ch1 -> 1 <= ch2 -> build hav c ch1 ch2 es ns = Ok g -> node_count g <> 2 ->
  (forall seed k n, 0 < n -> sample seed k n < n) -> history st -> capacity st <= node_count g ->
  Forall2 (explored pick fuel g rc T tri_new tri_add tri_cells solve rounds) (wk_routes w) fs ->
  exists st' o, work_with_explorator pick fuel g rc T tri_new tri_add tri_cells solve rounds sample st w = Ok (st', o) /\
    oc_found o = map (@length path) fs /\ drawn sample (wk_seed w) 0 (map snd (wk_routes w)) fs (oc_chosen o).
Proof.
  intros H1 H2 E Hn Hs Hh Hc F.
  destruct (explorator_works _ _ _ _ _ _ _ H1 H2 E Hn T tri_new tri_add tri_cells solve pick fuel rounds rc sample Hs st w fs (conj Hh Hc) F)
    as (st' & o & A & _ & B & C). eauto.
Qed.
Print Assumptions C30_draws.
(** two routes: the second path and the first one are drawn for the first route *)
Definition xw_sample (seed k n : nat) : nat := (seed + k) mod n.
Definition xw_work : work := {| wk_routes := [((0%Z, 1%Z), 2); ((2%Z, 0%Z), 1)]; wk_seed := 5 |}.
Example C30_draws_case : (forall seed k n, 0 < n -> xw_sample seed k n < n) /\ node_count xp_graph <> 2 /\
  exists fs st' o, Forall2 (explored exact_pick 20 xp_graph xb_rc nat xp_new xp_add xp_cells xp_solve 5) (wk_routes xw_work) fs /\
    work_with_explorator exact_pick 20 xp_graph xb_rc nat xp_new xp_add xp_cells xp_solve 5 xw_sample dijkstra_new xw_work = Ok (st', o) /\
    map p_edges (oc_chosen o) = [[1]; [2]; [4]] /\ oc_found o = [4; 1].
Proof.
  split; [intros seed k n Hn; unfold xw_sample; apply Nat.mod_upper_bound; lia|]. split; [discriminate|]. do 3 eexists. split; [|split; [vm_compute; reflexivity|split; reflexivity]].
  constructor; [exists 0, 1; do 2 (split; [reflexivity|]); vm_compute; reflexivity|].
  constructor; [exists 2, 0; do 2 (split; [reflexivity|]); vm_compute; reflexivity|constructor].
Qed.

(** With the explorator, too, any number of workers and any schedule end, all
    workers being joined, every route is worked off once, and the workload of an
    edge counts the drawn paths; each of these has been found by exploring one of
    the routes.  Missing, and false (C30_explorator_refuted): the draws being
    the same for all schedules. *)
Theorem C30_explorator_partial hav c ch1 ch2 es ns g pick fuel T tri_new tri_add tri_cells solve rounds rc sample ff routes count collecting s0 l log s :
  1 <= ch1 -> 1 <= ch2 -> build hav c ch1 ch2 es ns = Ok g -> node_count g <> 2 ->
  (forall seed k n, 0 < n -> sample seed k n < n) ->
  explorable pick fuel g rc T tri_new tri_add tri_cells solve rounds ff routes -> 1 <= count ->
  let job := work_with_explorator pick fuel g rc T tri_new tri_add tri_cells solve rounds sample in
  spawned g count routes collecting = Ok s0 -> runs g ff job l s0 log s ->
  length l <= 3 * length routes + 4 * count + 2 /\
  (exists l' log' s', runs g ff job l' s log' s' /\ s_phase s' = PDone) /\
  (blocked g ff job s -> s_phase s = PDone) /\
  (s_phase s = PDone ->
   Permutation.Permutation routes (logged_routes log) /\
   (forall w o, In (w, o) log -> exists fs,
      Forall2 (explored pick fuel g rc T tri_new tri_add tri_cells solve rounds) (wk_routes w) fs /\
      drawn sample (wk_seed w) 0 (map snd (wk_routes w)) fs (oc_chosen o)) /\
   exists ps fl, Permutation.Permutation (logged_paths log) ps /\ Forall2 (flattens g ff) ps fl /\
     length (s_loads s) = edge_count g FWD /\
     forall e, e < edge_count g FWD -> nth_error (s_loads s) e = Some (occurrences e fl)).
Proof.
  intros H1 H2 E Hn Hs Hx Hc job E0 R.
  pose proof (explorator_steady _ _ _ _ _ _ _ H1 H2 E Hn T tri_new tri_add tri_cells solve pick fuel rounds rc sample Hs ff routes Hx) as Hst.
  fold job in Hst.
  destruct (C30_schedules _ _ _ _ _ _ _ _ _ _ _ Hst E0 R) as (A1 & _ & _ & _ & _ & A2 & A3).
  split; [auto|]. split; [auto|]. split; [auto|]. intros Hd.
  destruct (C30_accounting _ _ _ _ _ _ _ _ _ _ _ Hst Hc E0 R Hd) as (B1 & _ & ps & fl & B2 & B3 & B4 & B5 & _).
  split; [auto|]. split; [|exists ps, fl; auto].
  intros w o Hin. revert w o Hin.
  eapply (logged_ok g ff job count routes collecting (dijkstra_fit g) Hst
    (fun w o => exists fs, Forall2 (explored pick fuel g rc T tri_new tri_add tri_cells solve rounds) (wk_routes w) fs /\
      drawn sample (wk_seed w) 0 (map snd (wk_routes w)) fs (oc_chosen o))); eauto.
  - intros st w st' o Hf Hin Ej.
    assert (exists fs, Forall2 (explored pick fuel g rc T tri_new tri_add tri_cells solve rounds) (wk_routes w) fs) as (fs & F).
    { clear - Hx Hin. induction (wk_routes w) as [|r rs IH]; [exists []; constructor|].
      destruct IH as (fs & F); [intros x Hi; apply Hin; simpl; auto|]. destruct (Hx r (Hin r (or_introl eq_refl))) as (found & Hr & _).
      exists (found :: fs). now constructor. }
    destruct (explorator_works _ _ _ _ _ _ _ H1 H2 E Hn T tri_new tri_add tri_cells solve pick fuel rounds rc sample Hs st w fs Hf F)
      as (st2 & o2 & E2 & _ & _ & D). unfold job in Ej. rewrite E2 in Ej. injection Ej as _ <-. eauto.
  - apply (proj1 (spawned_inv _ _ _ _ _ _ _ Hst _ E0)).
Qed.
Print Assumptions C30_explorator_partial.
Example C30_explorator_case :
  explorable exact_pick 20 xp_graph xb_rc nat xp_new xp_add xp_cells xp_solve 5 20 (wk_routes xw_work) /\
  exists s0, spawned xp_graph 2 (wk_routes xw_work) false = Ok s0.
Proof.
  split; [|eexists; vm_compute; reflexivity].
  intros r Hr. destruct Hr as [<-|[<-|[]]].
  - eexists. split; [exists 0, 1; do 2 (split; [reflexivity|]); vm_compute; reflexivity|].
    intros p [<-|[<-|[<-|[<-|[]]]]]; eexists; (split; [vm_compute; reflexivity|]); intros e [<-|[]]; vm_compute; lia.
  - eexists. split; [exists 2, 0; do 2 (split; [reflexivity|]); vm_compute; reflexivity|].
    intros p [<-|[]]; eexists; (split; [vm_compute; reflexivity|]); intros e [<-|[]]; vm_compute; lia.
Qed.
