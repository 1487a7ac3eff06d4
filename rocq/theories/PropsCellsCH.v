(** Properties C27, C28 and C58 with CH-Dijkstra: a graph which is contracted
    for all weights *)
From Coq Require Import String List Bool Arith ZArith QArith Lia Lqa.
From Verif Require Import Base F64 Lib ModelApprox ModelUnits ModelConfig ModelGraph ModelBuild ModelDijkstra ModelExplorator
  Spec SpecRouting SpecPaths SpecExplorator SpecCells Examples ExamplesRouting PropsRouting PropsExplorator PropsCells.
Import ListNotations.
Open Scope nat_scope.

(** three roads 0 -> 1, and 1 -> 2 -> 0 with a shortcut 1 -> 0 *)
Definition hw_es : list proto_edge :=
  [ xp_edge 0 0 1 1 10; xp_edge 1 0 1 10 1; xp_edge 2 0 1 4 4; xp_edge 3 1 2 1 1; xp_edge 4 2 0 1 1;
    {| pe_id := Some 5; pe_src := 1; pe_dst := 0; pe_metrics := [Fin 2; Fin 2]; pe_sc := Some (3, 4) |} ].
Definition hw_ns : list proto_node := [ ex_node 0 0 (Some 3); ex_node 1 1 (Some 2); ex_node 2 2 (Some 1) ].
Definition hw_graph : graph :=
  Eval vm_compute in unok empty_graph (build ex_hav xp_cfg 1 1 hw_es hw_ns).
Lemma hw_build : build ex_hav xp_cfg 1 1 hw_es hw_ns = Ok hw_graph.
Proof. vm_compute. reflexivity. Qed.
Lemma hw_nonneg : nonneg_metrics hw_graph.
Proof. apply nonneg_of_list. vm_compute. repeat constructor; discriminate. Qed.
Lemma hw_aligned : aligned_metrics hw_graph.
Proof. intros e ms He. do 6 (destruct e as [|e]; [injection He as <-; reflexivity|]). destruct e; discriminate. Qed.
Lemma hw_finite : finite_metrics hw_graph.
Proof.
  intros e ms x He Hx. do 6 (destruct e as [|e]; [injection He as <-; repeat (destruct Hx as [<-|Hx]; [eauto|]); destruct Hx|]).
  destruct e; discriminate.
Qed.

Definition hw_metrics : list (Q * Q) := [(1, 10); (10, 1); (4, 4); (2, 2); (1, 1); (1, 1)]%Q.
Fixpoint hw_cost (u v : Q) (l : list nat) : Q :=
  match l with
  | [] => 0
  | e :: l => (match nth_error hw_metrics e with Some (x, y) => u * x + v * y | None => 0 end + hw_cost u v l)%Q
  end.
Lemma hw_weights al : Forall not_negative al ->
  (forall x y, weighted_sum al [Fin x; Fin y] = None) \/
  exists u v, (0 <= u)%Q /\ (0 <= v)%Q /\ forall x y, exists w, weighted_sum al [Fin x; Fin y] = Some w /\ (w == u * x + v * y)%Q.
Proof.
  intros Ha. destruct al as [|a al]; [right; exists 0%Q, 0%Q; split; [lra|]; split; [lra|]; intros x y; eexists; split; [reflexivity|lra]|].
  inversion Ha as [|? ? Na Ha']; subst. destruct al as [|b al].
  - destruct a as [u| | |]; try (left; reflexivity). right. exists u, 0%Q. split; [exact Na|]. split; [lra|]. intros x y. eexists. split; [reflexivity|]. lra.
  - inversion Ha' as [|? ? Nb _]; subst. unfold weighted_sum. cbn [combine fold_right].
    destruct al; cbn [combine fold_right]; (destruct a as [u| | |], b as [v| | |]; try (left; reflexivity); right; exists u, v;
      split; [exact Na|]; split; [exact Nb|]; intros x y; eexists; split; [reflexivity|lra]).
Qed.
Lemma hw_edge e ms : edge_metrics hw_graph e = Ok ms -> exists x y, nth_error hw_metrics e = Some (x, y) /\ ms = [Fin x; Fin y].
Proof. intros H. do 6 (destruct e as [|e]; [injection H as <-; do 2 eexists; split; reflexivity|]). destruct e; discriminate. Qed.
Lemma hw_ends e s x : edge_from_to hw_graph e s x -> In (e, s, x) [(0, 0, 1); (1, 0, 1); (2, 0, 1); (3, 1, 0); (4, 1, 2); (5, 2, 0)].
Proof.
  intros [A B]. do 6 (destruct e as [|e]; [vm_compute in A, B; injection A as <-; injection B as <-; simpl; tauto|]).
  vm_compute in A. destruct e; discriminate.
Qed.

Section Weights.
  Variables (al : list f64) (u v : Q).
  Hypothesis Hu : (0 <= u)%Q.
  Hypothesis Hv : (0 <= v)%Q.
  Hypothesis Hw : forall x y, exists w, weighted_sum al [Fin x; Fin y] = Some w /\ (w == u * x + v * y)%Q.
  Lemma hw_costs l q : costs_as hw_graph al l q -> (q == hw_cost u v l)%Q.
  Proof.
    induction 1 as [|e l ms a b Em Ea Hc IH]; cbn [hw_cost]; [reflexivity|].
    destruct (hw_edge _ _ Em) as (x & y & -> & ->). destruct (Hw x y) as (w & Ew & E). assert (w = a) by congruence. subst w. rewrite IH, E. reflexivity.
  Qed.
  Lemma hw_costed l : (forall e, In e l -> e < 6) -> exists q, costs_as hw_graph al l q.
  Proof.
    induction l as [|e l IH]; intros Hl; [exists 0%Q; constructor|]. destruct IH as (b & Hb); [intros x Hx; apply Hl; now right|].
    assert (He : exists ms, edge_metrics hw_graph e = Ok ms).
    { pose proof (Hl e (or_introl eq_refl)). do 6 (destruct e as [|e]; [eexists; reflexivity|]). lia. }
    destruct He as (ms & Em). destruct (hw_edge _ _ Em) as (x & y & _ & ->). destruct (Hw x y) as (w & Ew & _). exists (w + b)%Q. econstructor; eauto.
  Qed.

  (** ways which climb and descend *)
  Definition hw_ways (s t : nat) : list (list nat) :=
    match s, t with
    | 0, 1 => [[0]; [1]; [2]]
    | 0, 2 => [[0; 4]; [1; 4]; [2; 4]]
    | 1, 0 => [[3]]
    | 1, 2 => [[4]]
    | 2, 0 => [[5]]
    | 2, 1 => [[5; 0]; [5; 1]; [5; 2]]
    | _, _ => [[]]
    end.
  Lemma hw_step s e x l t : edge_from_to hw_graph e s x -> t < 3 -> In l (hw_ways x t) ->
    exists l', In l' (hw_ways s t) /\ (hw_cost u v l' <= hw_cost u v [e] + hw_cost u v l)%Q.
  Proof.
    intros He Ht Hl. apply hw_ends in He.
    repeat (destruct He as [He|He]; [injection He as <- <- <-|]); [| | | | | |destruct He];
      (destruct t as [|[|[|t]]]; [| | |lia]); cbn [hw_ways] in *;
      repeat (destruct Hl as [<-|Hl]); try (destruct Hl);
      first [ eexists; split; [left; reflexivity|]; cbn; lra
            | eexists; split; [right; left; reflexivity|]; cbn; lra
            | eexists; split; [right; right; left; reflexivity|]; cbn; lra ].
  Qed.
  Lemma hw_short s l t : connects hw_graph s l t -> t < 3 -> exists l', In l' (hw_ways s t) /\ (hw_cost u v l' <= hw_cost u v l)%Q.
  Proof.
    induction 1 as [s|s e x l t He Hc IH]; intros Ht.
    - exists []. split; [|apply Qle_refl]. destruct s as [|[|[|s]]]; [left; reflexivity|left; reflexivity|left; reflexivity|lia].
    - destruct (IH Ht) as (l1 & A & B). destruct (hw_step s e x l1 t He Ht A) as (l2 & C & D). exists l2. split; auto. cbn [hw_cost] in *. lra.
  Qed.
End Weights.

Lemma hw_up_down s t l : s < 3 -> t < 3 -> In l (hw_ways s t) -> connects hw_graph s l t /\ up_down hw_graph l /\ forall e, In e l -> e < 6.
Proof.
  intros Hs Ht Hl.
  assert (D : forall e a b la lb, edge_from_to hw_graph e a b -> node_level hw_graph a = Ok la -> node_level hw_graph b = Ok lb ->
            (e = 5 \/ e = 3 -> la <= lb) /\ (e = 0 \/ e = 1 \/ e = 2 \/ e = 4 -> lb <= la)).
  { intros e a b la lb He Ha Hb. apply hw_ends in He.
    repeat (destruct He as [He|He]; [injection He as <- <- <-; vm_compute in Ha, Hb; injection Ha as <-; injection Hb as <-; lia|]). destruct He. }
  assert (U : forall x, (forall e, In e x -> e = 5 \/ e = 3) -> climbs hw_graph x).
  { intros x Hx e a b la lb Hin He Ha Hb. destruct (D e a b la lb He Ha Hb) as [A _]. auto. }
  assert (W : forall x, (forall e, In e x -> e = 0 \/ e = 1 \/ e = 2 \/ e = 4) -> descends hw_graph x).
  { intros x Hx e a b la lb Hin He Ha Hb. destruct (D e a b la lb He Ha Hb) as [_ A]. auto. }
  assert (C : forall e, e < 6 -> exists a b, edge_from_to hw_graph e a b /\ nth_error [(0, 1); (0, 1); (0, 1); (1, 0); (1, 2); (2, 0)] e = Some (a, b)).
  { intros e He. do 6 (destruct e as [|e]; [do 2 eexists; split; [split; reflexivity|reflexivity]|]). lia. }
  assert (N : forall e a b, nth_error [(0, 1); (0, 1); (0, 1); (1, 0); (1, 2); (2, 0)] e = Some (a, b) -> edge_from_to hw_graph e a b).
  { intros e a b E. assert (He : e < 6) by (change 6 with (length [(0, 1); (0, 1); (0, 1); (1, 0); (1, 2); (2, 0)]); apply nth_error_Some; congruence).
    destruct (C e He) as (a' & b' & X & E'). congruence. }
  destruct s as [|[|[|s]]]; [| | |lia]; (destruct t as [|[|[|t]]]; [| | |lia]); cbn [hw_ways] in Hl;
    repeat (destruct Hl as [<-|Hl]); try (destruct Hl);
    (split; [repeat (econstructor; [apply N; reflexivity|]); constructor|]);
    (split; [|intros e He; simpl in He; lia]);
    first [ exists []; eexists; split; [reflexivity|]; split; [apply U; intros e []|apply W; simpl; intros e He; lia]
          | eexists; exists []; split; [symmetry; apply app_nil_r|]; split; [apply U; simpl; intros e He; lia|apply W; intros e []]
          | exists [5]; eexists; split; [reflexivity|]; split; [apply U; simpl; intros e He; lia|apply W; simpl; intros e He; lia] ].
Qed.

Theorem hw_contracted : contracted_for_all hw_graph.
Proof.
  intros al Ha s t l q Hc Hq.
  assert (K : l = [] /\ s = t \/ s < 3 /\ t < 3).
  { assert (G : forall s l t, connects hw_graph s l t -> l = [] /\ s = t \/ s < 3 /\ t < 3).
    { clear. induction 1 as [|s e x l t He Hc IH]; [auto|]. right. apply hw_ends in He.
      assert (s < 3 /\ x < 3) by (repeat (destruct He as [He|He]; [injection He as <- <- <-; lia|]); destruct He). destruct IH as [[_ <-]|[_ ?]]; lia. }
    eauto. }
  destruct K as [[-> ->]|[Hs Ht]].
  { exists [], q. split; auto. split; auto. split; [|apply Qle_refl]. exists [], []. split; auto. split; intros ? ? ? ? ? []. }
  destruct (hw_weights al Ha) as [Hn|(u & v & Hu & Hv & Hw)].
  - inversion Hq as [|e l' ms a b Em Ea Hq' El Eq]; [subst l q|].
    + inversion Hc; subst. exists [], 0%Q. split; [constructor|]. split; [constructor|]. split; [|apply Qle_refl]. exists [], []. split; auto. split; intros ? ? ? ? ? [].
    + destruct (hw_edge _ _ Em) as (x & y & _ & ->). congruence.
  - destruct (hw_short u v Hu Hv s l t Hc Ht) as (l' & Hl' & Hle). destruct (hw_up_down s t l' Hs Ht Hl') as (A & B & C).
    destruct (hw_costed al u v Hw l' C) as (q' & Hq'). exists l', q'. split; auto. split; auto. split; auto.
    rewrite (hw_costs al u v Hw _ _ Hq'), (hw_costs al u v Hw _ _ Hq). exact Hle.
Qed.

Definition hw_rc : routing_cfg := {| rc_algo := ACHDijkstra; rc_alphas := [Fin 1; Fin 1]; rc_scales := [Fin 5; Fin 5] |}.
(** climbing from 2 to 0 and descending to 1, the roads are found; and the
    theorems speak about it *)
Example C58_ch_case : finds_cheapest hw_graph hw_rc /\
  (exists st' ps, fully_explorate exact_pick (6 * 100) nat xp_new xp_add xp_cells xp_solve 5 hw_graph hw_rc 2 1 dijkstra_new = Ok (st', ps) /\
     map p_edges ps = [[5; 2]; [5; 2]]) /\
  (exists st' p, fully_explorate exact_pick (6 * 100) nat xp_new xp_add xp_cells xp_solve 5 hw_graph hw_rc 1 0 dijkstra_new = Ok (st', [p]) /\ p_edges p = [3]) /\
  forall st' ps, fully_explorate exact_pick (6 * 100) nat xp_new xp_add xp_cells xp_solve 5 hw_graph hw_rc 2 1 dijkstra_new = Ok (st', ps) ->
    forall p i, In p ps -> i < 2 -> exists a m, sums hw_graph i (p_edges p) a /\ least_cost hw_graph i 2 1 m /\ (a < m * 5 + (3 # 2000000))%Q.
Proof.
  assert (F : finds_cheapest hw_graph hw_rc) by (right; split; [reflexivity|exact hw_contracted]).
  split; [exact F|]. split; [do 2 eexists; split; [vm_compute; reflexivity|vm_compute; reflexivity]|].
  split; [do 2 eexists; split; [vm_compute; reflexivity|vm_compute; reflexivity]|].
  intros st' ps E p i Hp Hi.
  assert (R : roomy dijkstra_new hw_graph) by (intros X; discriminate X).
  assert (S2 : 2 < node_count hw_graph) by (vm_compute; lia). assert (S1 : 1 < node_count hw_graph) by (vm_compute; lia).
  apply (C28_scaled _ xp_new xp_add xp_cells xp_solve _ _ _ _ _ _ _ _ _ _ _ _ _ _ _ _ xp_fresh (le_n 1) (le_n 1) hw_build hw_nonneg hw_aligned hw_finite
           history_new R S2 S1 exact_picks F eq_refl E p i 5%Q Hp Hi).
  - destruct i as [|[|i]]; [| |lia]; (eexists; split; [reflexivity|reflexivity]).
  - destruct i as [|[|i]]; [reflexivity|reflexivity|lia].
Qed.
