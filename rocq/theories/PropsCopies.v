(** C28, continued: how often the explorator returns a path *)
From Coq Require Import String List Bool Arith ZArith QArith Lia.
From Verif Require Import Base F64 Lib ModelApprox ModelUnits ModelConfig ModelGraph ModelBuild Spec Examples
  ModelDijkstra SpecRouting SpecPaths ExamplesRouting ModelExplorator SpecExplorator ProofExplorator PropsExplorator.
Import ListNotations.
Open Scope list_scope.
Open Scope nat_scope.

(** the same end nodes and the same edges *)
Definition same_path (p p' : path) : Prop :=
  p_src_id p = p_src_id p' /\ p_dst_id p = p_dst_id p' /\ p_edges p = p_edges p'.

(** [l] contains [p] at most [n] times: no more than [n] positions hold it *)
Definition at_most (n : nat) (p : path) (l : list path) : Prop :=
  forall is, NoDup is -> (forall i, In i is -> exists p', nth_error l i = Some p' /\ same_path p p') -> length is <= n.

Lemma nats_eqb_iff a : forall b, nats_eqb a b = true <-> a = b.
Proof.
  induction a as [|x a IH]; intros [|y b]; simpl; split; intros H; try discriminate; auto.
  - apply andb_true_iff in H. destruct H as [A B]. apply Nat.eqb_eq in A. apply IH in B. congruence.
  - injection H as -> ->. rewrite Nat.eqb_refl. now apply IH.
Qed.
Lemma path_eqb_iff p p' : path_eqb p p' = true <-> same_path p p'.
Proof.
  unfold path_eqb, same_path. rewrite !andb_true_iff, !Z.eqb_eq, nats_eqb_iff. tauto.
Qed.
Lemma same_path_sym p p' : same_path p p' -> same_path p' p.
Proof. unfold same_path. intuition. Qed.
Lemma same_path_trans p q r : same_path p q -> same_path q r -> same_path p r.
Proof. unfold same_path. intuition congruence. Qed.

(** counting *)
Definition times (p : path) (l : list path) : nat := length (filter (path_eqb p) l).
Lemma times_app p a b : times p (a ++ b) = times p a + times p b.
Proof. unfold times. now rewrite filter_app, app_length. Qed.
Lemma times_cons p a l : times p (a :: l) = (if path_eqb p a then 1 else 0) + times p l.
Proof. unfold times. cbn [filter]. destruct (path_eqb p a); reflexivity. Qed.

Lemma filter_positions {A} (f : A -> bool) (l : list A) :
  exists ps, NoDup ps /\ length ps = length (filter f l) /\ forall i, In i ps <-> exists x, nth_error l i = Some x /\ f x = true.
Proof.
  induction l as [|a l (ps & Hn & Hl & Hi)].
  - exists []. split; [constructor|]. split; [reflexivity|]. intros i. split; [intros []|]. intros (x & H & _). destruct i; discriminate.
  - assert (Hn' : NoDup (map S ps)) by (apply FinFun.Injective_map_NoDup; [intros ? ? H; now injection H|auto]).
    assert (Hi' : forall i, In (S i) (map S ps) <-> exists x, nth_error l i = Some x /\ f x = true).
    { intros i. rewrite <- Hi, in_map_iff. split; [intros (j & E & H); injection E as ->; auto|eauto]. }
    cbn [filter]. destruct (f a) eqn:Ef.
    + exists (0 :: map S ps). split; [constructor; [intros H; apply in_map_iff in H; destruct H as (? & ? & _); discriminate|auto]|].
      split; [simpl; now rewrite map_length, Hl|]. intros [|i]; cbn [nth_error].
      * split; [eauto|now left].
      * rewrite <- Hi'. split; [intros [H|H]; [discriminate|auto]|now right].
    + exists (map S ps). split; [auto|]. split; [now rewrite map_length|]. intros [|i]; cbn [nth_error].
      * split; [intros H; apply in_map_iff in H; destruct H as (? & ? & _); discriminate|]. intros (x & E & H). congruence.
      * apply Hi'.
Qed.
Lemma at_most_times n p l : at_most n p l <-> times p l <= n.
Proof.
  destruct (filter_positions (path_eqb p) l) as (ps & Hn & Hl & Hi). unfold times. rewrite <- Hl. split.
  - intros H. apply H; auto. intros i Hin. apply Hi in Hin. destruct Hin as (x & A & B). apply path_eqb_iff in B. eauto.
  - intros H is Hnd Hs. apply Nat.le_trans with (length ps); auto. apply NoDup_incl_length; auto.
    intros i Hin. apply Hi. destruct (Hs i Hin) as (x & A & B). apply path_eqb_iff in B. eauto.
Qed.

Section Copies.
  Variable T : Type.
  Variable tri_new : nat -> T.
  Variable tri_add : T -> list f64 -> option (T * nat).
  Variable tri_cells : T -> list (nat * list nat).
  Variable solve : list (list f64) -> list f64 -> option (list f64).

  Lemma times_remove p id m : times p (map snd (remove_id id m)) <= times p (map snd m).
  Proof.
    unfold remove_id. induction m as [|[k a] m IH]; [auto|]. cbn [filter map snd]. rewrite times_cons.
    destruct (negb _); cbn [map snd]; rewrite ?times_cons; lia.
  Qed.
  Lemma times_lookup p id m a : lookup id m = Some a ->
    (if path_eqb p a then 1 else 0) + times p (map snd (remove_id id m)) <= times p (map snd m).
  Proof.
    induction m as [|[k b] m IH]; intros H; cbn [lookup] in H; [discriminate|]. unfold remove_id in *. cbn [filter fst map snd].
    rewrite times_cons. destruct (k =? id) eqn:Ek; cbn [negb].
    - injection H as ->. pose proof (times_remove p id m) as Hr. unfold remove_id in Hr. lia.
    - specialize (IH H). cbn [map snd]. rewrite times_cons. lia.
  Qed.
  Lemma collect_times p ids : forall m ps, collect ids m = Ok ps -> times p ps <= times p (map snd m).
  Proof.
    induction ids as [|id ids IH]; intros m ps E; cbn [collect] in E; [injection E as <-; cbn; lia|].
    apply bind_ok in E. destruct E as (a & Ea & E). apply bind_ok in E. destruct E as (l & El & E). injection E as <-.
    unfold expect in Ea. destruct (lookup id m) as [b|] eqn:Eb; [|discriminate]. injection Ea as ->.
    rewrite times_cons. pose proof (times_lookup p id m a Eb). specialize (IH _ _ El). lia.
  Qed.
  Lemma update_times p q new : forall s s', foldM (update_path T tri_add q) new s = Ok s' ->
    times p (map snd (xs_found T s')) <= times p (map snd (xs_found T s)) + times p new.
  Proof.
    induction new as [|a new IH]; intros s s' E; cbn [foldM] in E; [injection E as <-; lia|].
    apply bind_ok in E. destruct E as (s1 & E1 & E). specialize (IH _ _ E). unfold update_path in E1.
    apply bind_ok in E1. destruct E1 as (cs & _ & E1). apply bind_ok in E1. destruct E1 as (cc & _ & E1).
    apply bind_ok in E1. destruct E1 as ([tri id] & _ & E1). injection E1 as <-. cbn [xs_found map snd] in IH.
    rewrite times_cons in *. pose proof (times_remove p id (xs_found T s)). lia.
  Qed.
  Lemma cell_times p pick fuel g q found x c x' : explore_cell pick fuel solve g q found x c = Ok x' ->
    (forall p, times p (snd x) <= 1) -> times p (snd x') <= 1.
  Proof.
    destruct x as [[st vis] new]. unfold explore_cell. intros E H. cbn [snd] in H.
    destruct (existsb (fun k => k =? fst c) vis); [injection E as <-; apply H|].
    apply bind_ok in E. destruct E as (cell & _ & E). apply bind_ok in E. destruct E as (miss & _ & E).
    destruct miss; [injection E as <-; apply H|]. apply bind_ok in E. destruct E as (ls & _ & E).
    destruct ls as [[rows b]|]; [|injection E as <-; apply H]. destruct (solve rows b) as [al|]; [|injection E as <-; apply H].
    apply bind_ok in E. destruct E as ([st' r] & _ & E). cbn [fst snd] in E. destruct r as [a|]; [|injection E as <-; apply H].
    apply bind_ok in E. destruct E as (costs & _ & E). apply bind_ok in E. destruct E as (v0 & _ & E). apply bind_ok in E. destruct E as (c0 & _ & E).
    destruct (approx_lt _ _ && _) eqn:Ec; [|injection E as <-; apply H]. injection E as <-. cbn [snd].
    apply andb_true_iff in Ec. destruct Ec as [_ Ec]. apply negb_true_iff in Ec.
    rewrite times_app, times_cons. destruct (path_eqb p a) eqn:Ep; [|specialize (H p); unfold times at 2; cbn; lia].
    assert (times p new = 0); [|unfold times at 2; cbn; lia].
    unfold times. destruct (filter (path_eqb p) new) as [|b1 l1] eqn:Ef; [reflexivity|].
    assert (Hb : In b1 (filter (path_eqb p) new)) by (rewrite Ef; now left). apply filter_In in Hb. destruct Hb as [Hb Hpb].
    exfalso. assert (existsb (fun p' => path_eqb p' a) new = true); [|congruence]. apply existsb_exists. exists b1. split; [auto|].
    apply path_eqb_iff. apply path_eqb_iff in Hpb, Ep. eapply same_path_trans; [apply same_path_sym; eauto|eauto].
  Qed.
  Lemma cells_times pick fuel g q found cs : forall x x', foldM (explore_cell pick fuel solve g q found) cs x = Ok x' ->
    (forall p, times p (snd x) <= 1) -> forall p, times p (snd x') <= 1.
  Proof.
    induction cs as [|c cs IH]; intros x x' E H p; cbn [foldM] in E; [injection E as <-; auto|].
    apply bind_ok in E. destruct E as (x1 & E1 & E). eapply IH; [exact E|]. intros p'. eapply cell_times; eauto.
  Qed.
  Lemma explore_times p pick fuel g q rounds : forall st s st' s',
    explore pick fuel T tri_add tri_cells solve g q rounds st s = Ok (st', s') ->
    times p (map snd (xs_found T s')) <= times p (map snd (xs_found T s)) + rounds.
  Proof.
    induction rounds as [|k IH]; intros st s st' s' E; cbn [explore] in E.
    - destruct (xs_dirty T s); [discriminate|]. injection E as _ <-. lia.
    - destruct (xs_dirty T s); [|injection E as _ <-; lia].
      apply bind_ok in E. destruct E as ([[st1 vis] new] & E1 & E). apply bind_ok in E. destruct E as (s1 & E2 & E).
      apply IH in E. unfold update in E2. apply (update_times p) in E2. cbn [xs_found] in E2.
      assert (times p new <= 1); [|lia].
      apply (cells_times _ _ _ _ _ _ _ _ E1). intros p'. cbn. lia.
  Qed.

  (** Every round of exploring facets adds at most one copy of a path: the
      explorator returns a path at most as often as it has been found initially
      plus the number of rounds. *)
  Theorem C28_copies pick fuel rounds g rc s t st st' ps st1 tol new n p :
    fully_explorate pick fuel T tri_new tri_add tri_cells solve rounds g rc s t st = Ok (st', ps) ->
    explore_initial_paths pick fuel g (xquery_with g rc s t) st = Ok (st1, tol, new) ->
    at_most n p new -> at_most (n + rounds) p ps.
  Proof.
    intros Er Ei Hn. apply at_most_times in Hn. apply at_most_times.
    destruct (run_split T tri_new tri_add tri_cells solve _ _ _ _ _ _ _ _ _ _ Er) as (st1' & tol' & new' & s1 & s2 & E1 & E2 & E3 & E4). cbv zeta in *.
    rewrite E1 in Ei. injection Ei as -> -> ->.
    apply (collect_times p) in E4. unfold update in E2. apply (update_times p) in E2. cbn [xs_found map] in E2. cbn in E2.
    assert (times p (map snd (xs_found T s2)) <= times p (map snd (xs_found T s1)) + rounds); [|lia].
    destruct (_ && _); [exact (explore_times _ _ _ _ _ _ _ _ _ _ E3)|]. injection E3 as _ <-. lia.
  Qed.
End Copies.
Print Assumptions C28_copies.
Example C28_copies_case : exists st1 tol new st' ps p,
  explore_initial_paths exact_pick 20 xp_graph (xquery_with xp_graph (xp_rc PInf PInf) 0 1) dijkstra_new = Ok (st1, tol, new) /\
  at_most 1 p new /\
  fully_explorate exact_pick 20 nat xp_new xp_add xp_cells xp_solve 2 xp_graph (xp_rc PInf PInf) 0 1 dijkstra_new = Ok (st', ps) /\
  ~ at_most 1 p ps.
Proof.
  do 5 eexists. eexists {| p_src_idx := 0; p_src_id := 0; p_dst_idx := 1; p_dst_id := 1; p_edges := [2]; p_costs := None |}.
  split; [vm_compute; reflexivity|]. split; [apply at_most_times; vm_compute; lia|]. split; [vm_compute; reflexivity|].
  intros H. apply at_most_times in H. vm_compute in H. lia.
Qed.
