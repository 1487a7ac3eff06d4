(** Properties of paths: C23 - C25 *)
From Coq Require Import String List Bool Arith ZArith QArith Lia Lqa.
From Verif Require Import Base F64 ModelUnits ModelConfig ModelGraph ModelBuild ModelDijkstra Lib Spec SpecRouting SpecPaths
  Examples ExamplesRouting ProofProps ProofDijkstra ProofRouting ProofPaths.
Import ListNotations.
Open Scope nat_scope.

(** *** C23: costs are sums of metrics *)
Theorem C23_calc_costs hav c ch1 ch2 es ns g p :
  1 <= ch1 -> 1 <= ch2 -> build hav c ch1 ch2 es ns = Ok g -> aligned_metrics g ->
  edges_exist g (p_edges p) -> p_costs p = None ->
  exists p' cs, calc_costs g p = Ok p' /\ path_costs p' = Ok cs /\ length cs = metric_dim g /\
    same_route p p' /\ p_edges p' = p_edges p /\
    (forall i, i < metric_dim g ->
       exists ms, Forall2 (fun e m => metric_of g e i = Some m) (p_edges p) ms /\
         nth_error cs i = Some (fold_left fadd ms f0)) /\
    (forall i q, i < metric_dim g -> sums g i (p_edges p) q ->
       exists q', nth_error cs i = Some (Fin q') /\ (q' == q)%Q).
Proof.
  intros H1 H2 E Hal Hex Hn. unfold calc_costs. rewrite Hn.
  destruct (calc_loop g Hal (p_edges p) [] (repeat f0 (metric_dim g)) (repeat f0 (metric_dim g)))
    as (cs & Ef & [Hl Ha]); [apply repeat_length|apply adds_nil| |].
  { intros e He. exact (build_metrics _ _ _ _ _ _ _ e H1 H2 E (Hex e He)). }
  rewrite Ef. cbn [bind]. eexists. exists cs. split; [reflexivity|]. split; [reflexivity|].
  rewrite repeat_length in Hl. split; auto. split; [now repeat split|]. split; auto. simpl in Ha.
  assert (Hi : forall i, i < metric_dim g ->
       exists ms, Forall2 (fun e m => metric_of g e i = Some m) (p_edges p) ms /\
         nth_error cs i = Some (fold_left fadd ms f0)).
  { intros i Hi. apply Ha. now apply nth_error_repeat. }
  split; auto. intros i q Hlt Hs. destruct (Hi i Hlt) as (ms & F & En).
  destruct (sums_fold g i _ q Hs ms F 0%Q) as (b & Eb & Hb). exists b. split.
  - rewrite En. unfold f0. now rewrite Eb.
  - rewrite Hb. ring.
Qed.
Print Assumptions C23_calc_costs.
Example C23_case : exists p', calc_costs rt_graph (path_new 0 0 4 4 [0; 3; 5]) = Ok p' /\ p_costs p' <> None /\
  edges_exist rt_graph [0; 3; 5] /\ aligned_metrics rt_graph.
Proof.
  eexists. split; [vm_compute; reflexivity|]. split; [discriminate|]. split.
  - intros e [<-|[<-|[<-|[]]]]; vm_compute; lia.
  - intros e ms He. do 7 (destruct e as [|e]; [injection He as <-; reflexivity|]). destruct e; discriminate.
Qed.

Theorem C23_idempotent g g' p p' : calc_costs g p = Ok p' -> calc_costs g' p' = Ok p'.
Proof.
  unfold calc_costs at 1. destruct (p_costs p) as [cs|] eqn:Ep.
  - intros H. injection H as <-. unfold calc_costs. now rewrite Ep.
  - intros H. apply bind_ok in H. destruct H as (cs & _ & H). injection H as <-. reflexivity.
Qed.
Print Assumptions C23_idempotent.

(** *** C24: flattening *)
(** what is returned, if something is returned *)
Theorem C24_flattened hav c ch1 ch2 es ns g fuel p p' :
  1 <= ch1 -> 1 <= ch2 -> build hav c ch1 ch2 es ns = Ok g -> aligned_metrics g ->
  try_flatten g fuel p = Ok p' ->
  same_route p p' /\
  (exists ls, Forall2 (stands_for g) (p_edges p) ls /\ p_edges p' = concat ls) /\
  (forall e, In e (p_edges p') -> is_shortcut g e = Ok false) /\
  (exists cs, path_costs p' = Ok cs /\ length cs = metric_dim g /\
     forall i q, i < metric_dim g -> sums g i (p_edges p') q ->
       exists q', nth_error cs i = Some (Fin q') /\ (q' == q)%Q) /\
  (shortcuts_fit g -> forall s t, connects g s (p_edges p) t -> connects g s (p_edges p') t) /\
  (shortcuts_add_up g -> forall i q, sums g i (p_edges p) q -> exists q', sums g i (p_edges p') q' /\ (q' == q)%Q).
Proof.
  intros H1 H2 E Hal Hf. unfold try_flatten in Hf. apply bind_ok in Hf. destruct Hf as (r & Er & Hf). injection Hf as <-.
  cbn [p_edges p_costs p_src_idx p_src_id p_dst_idx p_dst_id]. split; [repeat split|].
  assert (H : exists ls, Forall2 (stands_for g) (p_edges p) ls /\ fst r = concat ls /\
                adds g (repeat f0 (metric_dim g)) (fst r) (snd r)).
  { destruct (p_edges p) as [|e t].
    - injection Er as <-. exists []. split; [constructor|]. split; [auto|apply adds_nil].
    - destruct (flatten_sound g Hal _ _ _ _ _ _ _ (repeat_length f0 (metric_dim g)) (adds_nil g _) Er) as (ls & A & B & C).
      exists ls. auto. }
  destruct H as (ls & F & Ef & [Hl Ha]). rewrite repeat_length in Hl.
  split; [eauto|]. split.
  { intros e He. rewrite Ef in He. apply in_concat in He. destruct He as (l & Hl' & He).
    assert (exists x, stands_for g x l) as [x Hx].
    { clear - F Hl'. induction F as [|x y xs ys Hxy F IH]; [destruct Hl'|]. destruct Hl' as [<-|Hl']; eauto. }
    pose proof (stands_plain _ _ _ Hx e He) as Hp. unfold sc_edges in Hp. apply bind_ok in Hp. destruct Hp as (b & Eb & Hp).
    destruct b; [|auto]. apply bind_ok in Hp. destruct Hp as (o & _ & Hp). apply bind_ok in Hp. destruct Hp as (o' & _ & Hp).
    discriminate. }
  split.
  { exists (snd r). split; [reflexivity|]. split; auto. intros i q Hi Hs.
    destruct (Ha i f0 (nth_error_repeat f0 Hi)) as (ms & Fm & En).
    destruct (sums_fold g i _ q Hs ms Fm 0%Q) as (b & Eb & Hb). exists b. split.
    - rewrite En. unfold f0. now rewrite Eb.
    - rewrite Hb. ring. }
  rewrite Ef. split.
  - intros Hfit s t Hc. eapply all_connects; eauto.
  - intros Hadd i q Hs. eapply all_sums; eauto.
Qed.
Print Assumptions C24_flattened.

(** something is returned if no shortcut is cyclic and the flattened path is
    not longer than the number of edges plus one *)
Theorem C24_terminates hav c ch1 ch2 es ns g fuel p ls :
  1 <= ch1 -> 1 <= ch2 -> build hav c ch1 ch2 es ns = Ok g ->
  edges_exist g (p_edges p) -> Forall2 (stands_for g) (p_edges p) ls ->
  length (concat ls) <= edge_count g FWD + 1 -> 2 * length (concat ls) <= fuel ->
  exists p', try_flatten g fuel p = Ok p' /\ flatten g fuel p = Ok p' /\ p_edges p' = concat ls.
Proof.
  intros H1 H2 E Hex F Hl Hfuel. unfold flatten, try_flatten. destruct (p_edges p) as [|e t] eqn:Ep.
  - inversion F; subst. simpl. eexists. repeat split; reflexivity.
  - destruct (flatten_all g ls e t [] (repeat f0 (metric_dim g)) fuel F) as (cs & Ec); auto.
    + intros x Hx. apply (build_metrics _ _ _ _ _ _ _ x H1 H2 E). apply in_concat in Hx. destruct Hx as (l & Hl' & Hx).
      assert (exists y, In y (e :: t) /\ stands_for g y l) as (y & Hy & Hs).
      { clear - F Hl'. induction F as [|a b xs ys Hxy F IH]; [destruct Hl'|]. destruct Hl' as [<-|Hl'].
        - exists a. simpl. auto.
        - destruct (IH Hl') as (y & Hy & Hs). exists y. simpl. auto. }
      exact (stands_exist _ _ _ _ _ _ _ _ _ H1 H2 E Hs (Hex y Hy) x Hx).
    + rewrite Ec. cbn [bind fst snd]. eexists. repeat split; reflexivity.
Qed.
Print Assumptions C24_terminates.

(** [ex_graph]: edge 0 is a shortcut for the edges 1 and 2 *)
Example C24_case : exists p', try_flatten ex_graph 4 (path_new 0 10 2 30 [0]) = Ok p' /\ p_edges p' = [1; 2] /\
  stands_for ex_graph 0 [1; 2] /\ shortcuts_fit ex_graph /\ shortcuts_add_up ex_graph /\ aligned_metrics ex_graph /\
  inserted_shortcuts_fit ex_es.
Proof.
  assert (Hsc : forall e a b, sc_edges ex_graph e = Ok (Some (a, b)) -> e = 0 /\ a = 1 /\ b = 2).
  { intros e a b H. do 4 (destruct e as [|e]; [vm_compute in H; try discriminate; injection H as <- <-; auto|]).
    unfold sc_edges, is_shortcut in H. rewrite Nat.add_1_r in H. destruct e; discriminate. }
  eexists. split; [vm_compute; reflexivity|]. split; [reflexivity|]. split; [|split; [|split; [|split]]].
  - apply (stands_shortcut _ 0 1 2 [1] [2]); [reflexivity|constructor; reflexivity|constructor; reflexivity].
  - intros e a b s d H [A B]. destruct (Hsc _ _ _ H) as (-> & -> & ->). injection A as <-. injection B as <-.
    exists 1. repeat split; reflexivity.
  - intros e a b i x H Hx. destruct (Hsc _ _ _ H) as (-> & -> & ->). destruct i as [|[|i]]; try discriminate.
    injection Hx as <-. eexists. eexists. repeat split; reflexivity.
  - intros e ms He. do 4 (destruct e as [|e]; [injection He as <-; reflexivity|]). destruct e; discriminate.
  - intros e p q [<-|[<-|[<-|[<-|[<-|[]]]]]] H; try discriminate. injection H as <- <-.
    do 2 eexists. repeat split; reflexivity.
Qed.

(** shortcuts inserted with fitting edges are fitting shortcuts in the graph *)
Theorem C24_shortcuts_fit hav c ch1 ch2 es ns g :
  1 <= ch1 -> 1 <= ch2 -> build hav c ch1 ch2 es ns = Ok g -> inserted_shortcuts_fit es -> shortcuts_fit g.
Proof. intros H1 H2 E. now apply (build_fit hav c ch1 ch2 es ns). Qed.
Print Assumptions C24_shortcuts_fit.

(** a path with a cyclic shortcut is never flattened to anything *)
Theorem C24_cycle_no_result hav c ch1 ch2 es ns g fuel p p' :
  1 <= ch1 -> 1 <= ch2 -> build hav c ch1 ch2 es ns = Ok g -> aligned_metrics g ->
  (exists e, In e (p_edges p) /\ forall l, ~ stands_for g e l) ->
  try_flatten g fuel p <> Ok p'.
Proof.
  intros H1 H2 E Hal (e & He & Hn) Hf.
  destruct (C24_flattened _ _ _ _ _ _ _ _ _ _ H1 H2 E Hal Hf) as (_ & (ls & F & _) & _).
  clear - He Hn F. induction F as [|x l xs ls Hx F IH]; [destruct He|]. destruct He as [->|He]; [eapply Hn; eauto|auto].
Qed.
Print Assumptions C24_cycle_no_result.

(** a cycle of first replaced edges is reported *)
Theorem C24_cycle_reported_partial g fuel p e t :
  p_edges p = e :: t -> endless_first g e -> edge_count g FWD + 1 <= fuel ->
  exists m, try_flatten g fuel p = Err m.
Proof.
  intros Ep He Hf. unfold try_flatten. rewrite Ep.
  destruct (flatten_endless g fuel e t [] (repeat f0 (metric_dim g)) He) as (m & ->); [lia|lia|].
  cbn [bind]. eauto.
Qed.
Print Assumptions C24_cycle_reported_partial.

(** shortcut 1 of [left_cycle] consists of itself and edge 0; shortcut 1 of
    [right_cycle] consists of edge 0 and itself *)
Definition left_es : list proto_edge := [ ex_edge 0 0 1 1 None; ex_edge 1 0 1 1 (Some (1, 0)) ].
Definition left_cycle : graph := Eval vm_compute in unok empty_graph (build ex_hav (ex_cfg false) 1 1 left_es pair_ns).
Definition right_es : list proto_edge := [ ex_edge 0 0 1 1 None; ex_edge 1 0 1 1 (Some (0, 1)) ].
Definition right_cycle : graph := Eval vm_compute in unok empty_graph (build ex_hav (ex_cfg false) 1 1 right_es pair_ns).

Example C24_cycle_case : build ex_hav (ex_cfg false) 1 1 left_es pair_ns = Ok left_cycle /\ endless_first left_cycle 1 /\
  forall l, ~ stands_for left_cycle 1 l.
Proof.
  assert (H : endless_first left_cycle 1) by (cofix F; apply (endless _ 1 1 0); [reflexivity|exact F]).
  split; [vm_compute; reflexivity|]. split; auto. intros l Hl. eapply stands_endless; eauto.
Qed.

(** a cycle of second replaced edges is not reported: flattening never ends *)
Theorem C24_cycle_reported_refuted :
  exists hav c es ns g p, build hav c 1 1 es ns = Ok g /\ edges_exist g (p_edges p) /\
    (exists e, In e (p_edges p) /\ forall l, ~ stands_for g e l) /\
    forall fuel, try_flatten g fuel p = Diverge.
Proof.
  exists ex_hav, (ex_cfg false), right_es, pair_ns, right_cycle, (path_new 0 0 1 1 [1]).
  split; [vm_compute; reflexivity|]. split; [intros e [<-|[]]; vm_compute; lia|].
  split.
  - exists 1. split; [simpl; auto|]. intros l Hl. remember 1 as e eqn:Ee. revert Ee.
    induction Hl as [e E|e a b la lb E Ha IHa Hb IHb]; intros ->; [discriminate|]. injection E as <- <-. auto.
  - intros fuel. unfold try_flatten. cbn [path_new p_edges].
    assert (H : forall k acc cs, flatten_loop right_cycle k 1 [] acc cs = Diverge /\
                 flatten_loop right_cycle k 0 [1] acc cs = Diverge).
    { induction k as [|k IH]; intros acc cs; [auto|]. split.
      - cbn [flatten_loop]. change (sc_edges right_cycle 1) with (Ok (Some (0, 1)) : res (option (nat * nat))).
        cbn [bind]. change (edge_count right_cycle FWD <? length [1]) with false. cbv iota. apply IH.
      - cbn [flatten_loop]. change (sc_edges right_cycle 0) with (Ok None : res (option (nat * nat))).
        cbn [bind]. unfold edge_metrics. cbn [right_cycle metrics idx nth_error bind]. apply IH. }
    destruct (H fuel [] (repeat f0 (metric_dim right_cycle))) as [-> _]. reflexivity.
Qed.
Print Assumptions C24_cycle_reported_refuted.

(** a cycle is reported although there is none, if the path is longer than the
    graph has edges *)
Theorem C24_false_cycle_refuted :
  exists hav c es ns g p, build hav c 1 1 es ns = Ok g /\ connects g 0 (p_edges p) 0 /\
    (forall e, e < edge_count g FWD -> exists l, stands_for g e l) /\
    exists m, forall fuel, 1 <= fuel -> try_flatten g fuel p = Err m.
Proof.
  exists ex_hav, (ex_cfg false), [ex_edge 0 0 0 1 None; ex_edge 1 0 0 2 (Some (0, 0))], loop_ns.
  eexists. exists (path_new 0 0 0 0 [1; 1; 1]). split; [vm_compute; reflexivity|]. split.
  - repeat (econstructor; [split; reflexivity|]). constructor.
  - split.
    + intros e He. vm_compute in He. destruct e as [|[|e]]; [| |lia].
      * exists [0]. constructor. reflexivity.
      * exists ([0] ++ [0]). eapply stands_shortcut; [reflexivity|constructor; reflexivity|constructor; reflexivity].
    + eexists. intros [|fuel] Hf; [lia|]. reflexivity.
Qed.
Print Assumptions C24_false_cycle_refuted.

(** finalizing does not check that a shortcut's edges fit: a flattened path may
    be broken *)
Theorem C24_contiguous_refuted :
  exists hav c es ns g p p', build hav c 1 1 es ns = Ok g /\ connects g 0 (p_edges p) 1 /\
    try_flatten g 10 p = Ok p' /\ ~ connects g 0 (p_edges p') 1.
Proof.
  exists ex_hav, (ex_cfg false), [ex_edge 0 0 1 1 None; ex_edge 1 0 1 2 (Some (0, 0))], pair_ns.
  eexists. exists (path_new 0 0 1 1 [1]). eexists. split; [vm_compute; reflexivity|]. split.
  - econstructor; [split; reflexivity|]. constructor.
  - split; [vm_compute; reflexivity|]. cbn [p_edges]. intros H.
    inversion H as [|s e x es t [A B] Hc]; subst. injection B as <-.
    inversion Hc as [|s' e' x' es' t' [A' B'] Hc']; subst. discriminate.
Qed.
Print Assumptions C24_contiguous_refuted.

(** *** C25: equality of paths *)
Theorem C25_path_eq p q :
  path_eqb p q = true <-> p_src_id p = p_src_id q /\ p_dst_id p = p_dst_id q /\ p_edges p = p_edges q.
Proof.
  unfold path_eqb. rewrite !andb_true_iff, !Z.eqb_eq, nats_eqb_eq. tauto.
Qed.
Print Assumptions C25_path_eq.
Theorem C25_equivalence :
  (forall p, path_eqb p p = true) /\
  (forall p q, path_eqb p q = path_eqb q p) /\
  (forall p q r, path_eqb p q = true -> path_eqb q r = true -> path_eqb p r = true).
Proof.
  split; [|split].
  - intros p. now apply C25_path_eq.
  - intros p q. apply eq_true_iff_eq. rewrite !C25_path_eq. intuition congruence.
  - intros p q r. rewrite !C25_path_eq. intuition congruence.
Qed.
Print Assumptions C25_equivalence.
Theorem C25_costs_irrelevant g p p' q : calc_costs g p = Ok p' -> path_eqb p' q = path_eqb p q.
Proof.
  unfold calc_costs. destruct (p_costs p); intros H; [injection H as <-; reflexivity|].
  apply bind_ok in H. destruct H as (cs & _ & H). injection H as <-. reflexivity.
Qed.
Print Assumptions C25_costs_irrelevant.
Example C25_case : path_eqb (path_new 0 7 1 8 [3; 4]) {| p_src_idx := 0; p_src_id := 7; p_dst_idx := 1; p_dst_id := 8;
    p_edges := [3; 4]; p_costs := Some [Fin 1] |} = true /\ path_eqb (path_new 0 7 1 8 [3; 4]) (path_new 0 7 1 8 [4; 3]) = false.
Proof. split; reflexivity. Qed.
