(** Property C52: balancing on contracted graphs *)
From Coq Require Import String List Bool Arith ZArith QArith NArith Lia Lqa.
From Verif Require Import Base F64 ModelApprox ModelUnits ModelText ModelConfig ModelGraph ModelBuild ModelDijkstra ModelRoutingCfg ModelBalancing ModelLoop
  Lib Spec SpecGenerate SpecBalancing ProofApprox ProofMetrics ProofGenerate ProofBalancing Examples PropsConfig PropsBalancing PropsWriting PropsLoop.
Import ListNotations.
Open Scope string_scope.
Open Scope list_scope.
Open Scope nat_scope.

(** *** Vocabulary *)

(** edge [e] is the one called [k]; shortcuts have no ids *)
Definition called_edge (g : graph) (k e : nat) : Prop :=
  edge_try_id g e = Ok (Some k) /\ forall e', edge_try_id g e' = Ok (Some k) -> e' = e.

(** the edge called [k] has the balanced metric [x] *)
Definition value_of (g : graph) (mi k : nat) (x : Q) : Prop := exists e, called_edge g k e /\ has_metric g e mi (Fin x).
(** the edge called [k] has been used [n] times *)
Definition used (step : graph * list nat) (k n : nat) : Prop :=
  exists e, called_edge (fst step) k e /\ nth_error (snd step) e = Some n.

(** all edges have finite balanced metrics *)
Definition finite_metric (g : graph) (mi : nat) : Prop := forall e, e < length (metrics g) -> exists q, has_metric g e mi (Fin q).

(** rebuilding [g] as [ch] keeps the edges which have an id, and their balanced
    metric; shortcuts may come and go, and the edges may be numbered anew *)
Definition kept (id : string) (mi : nat) (g ch : graph) : Prop :=
  metric_at ch id mi /\ metrics ch <> [] /\ finite_metric ch mi /\
  forall k x, value_of g mi k x -> exists y, (y == x)%Q /\ value_of ch mi k y.

(** the weighted sum of numbers *)
Fixpoint weighted (cs : list Q) (ns : list nat) : Q :=
  match cs, ns with
  | c :: cs, n :: ns => (c * qn n + weighted cs ns)%Q
  | _, _ => 0%Q
  end.

(** every iteration moves a metric towards the workload, not beyond *)
Definition pulls (bc : balancing_cfg) : Prop :=
  match bc_method bc with
  | ExplicitEuler c => exists k, c = Fin k /\ (0 <= k <= 1)%Q
  | Averaging => True
  end.

Section Vocabulary.
  Variables (routing_of : graph -> res routing_cfg) (rebuild : nat -> graph -> res graph)
            (simulate : nat -> graph -> routing_cfg -> res (list nat)) (bc : balancing_cfg).
  (** as [iterated], where rebuilding keeps the edges; the rebuilt graphs are
      listed beside the workloads *)
  Inductive traced (mi : nat) : nat -> graph -> list (graph * list nat) -> graph -> Prop :=
  | traced_none i g : traced mi i g [] g
  | traced_one i g ch rc ws g1 steps g' :
      rebuild i g = Ok ch -> kept (bc_metric bc) mi g ch -> routed routing_of bc i ch rc -> simulate i ch rc = Ok ws ->
      update_new_metric i ws bc ch = (Ok tt, g1) -> traced mi (S i) g1 steps g' -> traced mi i g ((ch, ws) :: steps) g'.
End Vocabulary.

(** *** One iteration *)

(** the shares of the old value and of the relative workload *)
Definition shares (m : opt_method) (i : nat) : Q * Q :=
  match m with
  | ExplicitEuler (Fin k) => (1 - k, k)%Q
  | ExplicitEuler _ => (0, 0)%Q
  | Averaging => (qn i / (qn i + 1), 1 / (qn i + 1))%Q
  end.
Lemma shares_pos bc i : pulls bc -> (0 <= fst (shares (bc_method bc) i) /\ 0 <= snd (shares (bc_method bc) i))%Q /\
  (bc_method bc = Averaging ->
   (0 < snd (shares (bc_method bc) i))%Q /\ (0 < i -> (0 < fst (shares (bc_method bc) i))%Q) /\ (i = 0 -> (fst (shares (bc_method bc) i) == 0)%Q)).
Proof.
  unfold pulls. intros H. pose proof (qn_nonneg i) as Hq. destruct (bc_method bc) as [c|].
  - destruct H as (k & -> & H1 & H2). cbn [shares fst snd]. split; [lra|discriminate].
  - cbn [shares fst snd]. assert (0 < 1 / (qn i + 1))%Q by (apply Qlt_shift_div_l; lra).
    split; [split; [apply Qle_shift_div_l; lra|lra]|]. intros _. split; [assumption|]. split.
    + intros Hi. apply qn_pos in Hi. apply Qlt_shift_div_l; lra.
    + intros ->. reflexivity.
Qed.
Lemma moved_shares bc i o r v : pulls bc -> moved (bc_method bc) i o r v ->
  (v == fst (shares (bc_method bc) i) * o + snd (shares (bc_method bc) i) * r)%Q.
Proof.
  unfold pulls. intros H M. pose proof (qn_nonneg i) as Hq. destruct (bc_method bc) as [c|]; cbn [moved] in M.
  - destruct M as (k & -> & ->). cbn [shares fst snd]. lra.
  - cbn [shares fst snd]. apply (Qmult_inj_r _ _ (qn i + 1)); [lra|]. rewrite M. field. lra.
Qed.
Lemma pulls_finite bc : pulls bc -> (bc_min bc = None \/ exists q, bc_min bc = Some (Fin q)) -> finite_cfg bc.
Proof.
  unfold pulls, finite_cfg. intros H Hm. split; [|destruct Hm as [->|(q & ->)]; eauto].
  destruct (bc_method bc); [|auto]. destruct H as (k & -> & _). eauto.
Qed.

Lemma update_called i ws bc g g' : update_new_metric i ws bc g = (Ok tt, g') -> forall k e, called_edge g k e -> called_edge g' k e.
Proof.
  intros H. unfold update_new_metric in H. destruct (new_metric_values _ _ _ _) as [[[? ?] ?]| | |]; try discriminate.
  destruct (match means g with Some _ => _ | None => _ end); try discriminate. destruct (write_metrics _ _ _ _) as [[[]| | |] ms]; try discriminate.
  injection H as <-. intros k e [A B]. split; [exact A|exact B].
Qed.

(** an iteration computes every edge's value from the old one and its workload
    with the same coefficients, and raises the small ones *)
Lemma step_linear i ws bc g mi g' : pulls bc -> (bc_min bc = None \/ exists q, bc_min bc = Some (Fin q)) ->
  metric_at g (bc_metric bc) mi -> metrics g <> [] -> finite_metric g mi -> length ws = length (metrics g) ->
  update_new_metric i ws bc g = (Ok tt, g') ->
  metric_at g' (bc_metric bc) mi /\ metrics g' <> [] /\ finite_metric g' mi /\
  exists c m, (0 < c /\ 0 < m)%Q /\
    forall k o n, value_of g mi k o -> used (g, ws) k n ->
      exists v x y, (v == fst (shares (bc_method bc) i) * o + snd (shares (bc_method bc) i) * (c * qn n))%Q /\
        raised (bc_min bc) v x /\ (y * m == x)%Q /\ value_of g' mi k y.
Proof.
  intros Hp Hm Hat Hne Hfin Lw H.
  assert (exists old, forall e, e < length ws -> has_metric g e mi (Fin (old e))) as [old Hold].
  { exists (fun e => match metric_of g e mi with Some (Fin q) => q | _ => 0%Q end). intros e He. rewrite Lw in He. destruct (Hfin e He) as (q & ms & A & B).
    unfold metric_of. rewrite A, B. exists ms. auto. }
  destruct (C29_update_partial i ws bc g mi old g' (pulls_finite _ Hp Hm) Hat Hne Lw Hold H) as (Hs & m2 & x & y & (Hm2 & _) & Hv & _ & Ho & Hnet & _).
  split. { unfold same_network in Hnet. unfold metric_at in *. rewrite <- Hnet in Hat. exact Hat. }
  destruct Ho as [Lm _].
  split. { intros E. rewrite E in Lm. destruct (metrics g); [congruence|discriminate]. }
  split.
  { intros e He. destruct (nth_error ws e) as [l|] eqn:El; [|apply nth_error_None in El; lia]. exists (y e). now apply (Hv e l). }
  assert (Hq : (0 < qn (list_sum ws))%Q) by now apply qn_pos.
  assert (Hn : (0 < qn (length ws))%Q) by (apply qn_pos; rewrite Lw; destruct (metrics g); [congruence|cbn; lia]).
  exists (qn (length ws) / qn (list_sum ws))%Q, m2. split; [split; [apply Qlt_shift_div_l; lra|exact Hm2]|].
  intros k o n (e & Hc & Hoe) (e' & Hc' & Hn'). cbn [fst snd] in Hc', Hn'.
  assert (e' = e) by (destruct Hc as [_ U]; apply U, Hc'). subst e'.
  destruct (Hv e n Hn') as ((r & v & Hr & Hmv & Hrz & _) & Hy & Hyx).
  assert (old e = o).
  { assert (He : e < length ws) by (apply nth_error_Some; congruence). destruct (Hold e He) as (a & A1 & A2). destruct Hoe as (b & B1 & B2).
    rewrite A1 in B1. injection B1 as <-. rewrite A2 in B2. now injection B2. }
  subst o. exists v, (x e), (y e). split.
  { rewrite (moved_shares _ _ _ _ _ Hp Hmv). unfold relative in Hr.
    assert (r == qn (length ws) / qn (list_sum ws) * qn n)%Q as ->; [|reflexivity].
    apply (Qmult_inj_r _ _ (qn (list_sum ws))); [lra|]. rewrite Hr. field. lra. }
  split; [exact Hrz|]. split; [exact Hyx|]. exists e. split; [eapply update_called; eauto|exact Hy].
Qed.

(** *** Linearity *)
Section Run.
  Variables (routing_of : graph -> res routing_cfg) (rebuild : nat -> graph -> res graph)
            (simulate : nat -> graph -> routing_cfg -> res (list nat)) (bc : balancing_cfg) (mi : nat).
  Hypothesis Hp : pulls bc.
  Hypothesis Hc : counts_edges simulate.
  Notation traced := (traced routing_of rebuild simulate bc mi).

  Lemma used_exists ch ws k x : length ws = length (metrics ch) -> value_of ch mi k x -> exists n, used (ch, ws) k n.
  Proof.
    intros L (e & He & (ms & A & _)). apply idx_ok in A. destruct (nth_error ws e) as [n|] eqn:E.
    - exists n, e. auto.
    - apply nth_error_None in E. assert (e < length (metrics ch)) by (apply nth_error_Some; congruence). lia.
  Qed.

  Lemma linear_from : bc_min bc = None ->
    forall i g steps g', traced i g steps g' -> metric_at g (bc_metric bc) mi -> finite_metric g mi ->
    exists a cs, (0 <= a)%Q /\ Forall (fun c => (0 <= c)%Q) cs /\ length cs = length steps /\
      (bc_method bc = Averaging -> Forall (fun c => (0 < c)%Q) cs /\ (0 < i -> (0 < a)%Q) /\ (i = 0 -> steps <> [] -> (a == 0)%Q)) /\
      forall k o, value_of g mi k o -> exists ns y, Forall2 (fun st n => used st k n) steps ns /\ value_of g' mi k y /\ (y == a * o + weighted cs ns)%Q.
  Proof.
    intros Hmin. induction 1 as [i g|i g ch rc ws g1 steps g' Er (Hat1 & Hne1 & Hfin1 & Hv1) Ert Es Eu T IH]; intros Hat Hfin.
    - exists 1%Q, []. split; [lra|]. split; [constructor|]. split; [reflexivity|]. split; [intros _; split; [constructor|split; [lra|congruence]]|].
      intros k o Ho. exists [], o. split; [constructor|]. split; [exact Ho|]. cbn [weighted]. lra.
    - pose proof (Hc _ _ _ _ Es) as Lw.
      destruct (step_linear i ws bc ch mi g1 Hp (or_introl Hmin) Hat1 Hne1 Hfin1 Lw Eu) as (Hat2 & _ & Hfin2 & c & m & (Hc0 & Hm0) & Hl).
      destruct (IH Hat2 Hfin2) as (a & cs & Ha & Hcs & Lcs & Hav & Hrest).
      destruct (shares_pos bc i Hp) as ((S1 & S2) & S3). set (p := fst (shares (bc_method bc) i)) in *. set (q := snd (shares (bc_method bc) i)) in *.
      assert (Hd : forall z, (0 <= z -> 0 <= z / m)%Q) by (intros z Hz; apply Qle_shift_div_l; lra).
      assert (Hd' : forall z, (0 < z -> 0 < z / m)%Q) by (intros z Hz; apply Qlt_shift_div_l; lra).
      exists (a * (p / m))%Q, ((a * (q * c / m))%Q :: cs). split; [apply Qmult_le_0_compat; auto|].
      split; [constructor; [|exact Hcs]; apply Qmult_le_0_compat; [exact Ha|]; apply Hd, Qmult_le_0_compat; lra|].
      split; [cbn [length]; now rewrite Lcs|]. split.
      { intros Em. destruct (Hav Em) as (A & B & _). destruct (S3 Em) as (C & D & E). specialize (B ltac:(lia)).
        split; [constructor; [|exact A]; apply Qmult_lt_0_compat; [exact B|]; apply Hd', Qmult_lt_0_compat; lra|].
        split; [intros Hi; apply Qmult_lt_0_compat; [exact B|]; apply Hd', D, Hi|].
        intros Hi _. rewrite (E Hi). field. lra. }
      intros k o' Ho. apply Hv1 in Ho. destruct Ho as (o & Eo & Ho). destruct (used_exists ch ws k o Lw Ho) as (n & Hn). destruct (Hl k o n Ho Hn) as (v & x & y & Ev & Hr & Hyx & Hy).
      rewrite Hmin in Hr. cbn [raised] in Hr. destruct (Hrest k y Hy) as (ns & z & Hns & Hz & Ez).
      exists (n :: ns), z. split; [constructor; assumption|]. split; [exact Hz|]. cbn [weighted].
      assert (Ey : (y == (p * o + q * (c * qn n)) / m)%Q) by (rewrite <- Ev, <- Hr, <- Hyx; field; lra).
      rewrite Ez, Ey, <- Eo. field. lra.
  Qed.

  Lemma raised_mono a b x y : bc_min bc = None \/ (exists q, bc_min bc = Some (Fin q)) ->
    raised (bc_min bc) a x -> raised (bc_min bc) b y -> (a <= b -> x <= y)%Q.
  Proof.
    intros [->|(q & ->)]; cbn [raised]; [intros; lra|]. unfold TOL. intros [[? ?]|[? ?]] [[? ?]|[? ?]] ?; lra.
  Qed.

  Lemma mono_from : bc_min bc = None \/ (exists q, bc_min bc = Some (Fin q)) ->
    forall i g steps g', traced i g steps g' -> metric_at g (bc_metric bc) mi -> finite_metric g mi ->
    forall k l o p, value_of g mi k o -> value_of g mi l p ->
    (o <= p)%Q \/ (bc_method bc = Averaging /\ i = 0 /\ steps <> []) ->
    (forall st n n', In st steps -> used st k n -> used st l n' -> n <= n') ->
    exists y z, value_of g' mi k y /\ value_of g' mi l z /\ (y <= z)%Q.
  Proof.
    intros Hm. induction 1 as [i g|i g ch rc ws g1 steps g' Er (Hat1 & Hne1 & Hfin1 & Hv1) Ert Es Eu T IH]; intros Hat Hfin k l o p Ho Hl Hop Hus.
    - exists o, p. split; [exact Ho|]. split; [exact Hl|]. destruct Hop as [|(_ & _ & E)]; [assumption|congruence].
    - pose proof (Hc _ _ _ _ Es) as Lw.
      destruct (step_linear i ws bc ch mi g1 Hp Hm Hat1 Hne1 Hfin1 Lw Eu) as (Hat2 & _ & Hfin2 & c & m & (Hc0 & Hm0) & Hs).
      apply Hv1 in Ho. apply Hv1 in Hl. destruct Ho as (o' & Eo & Ho). destruct Hl as (p' & Ep & Hl). rewrite <- Eo, <- Ep in Hop. clear o Eo p Ep.
      rename o' into o. rename p' into p. destruct (used_exists ch ws k o Lw Ho) as (n & Hn). destruct (used_exists ch ws l p Lw Hl) as (n' & Hn').
      destruct (Hs k o n Ho Hn) as (v & x & y & Ev & Hr & Hyx & Hy). destruct (Hs l p n' Hl Hn') as (v' & x' & y' & Ev' & Hr' & Hyx' & Hy').
      apply (IH Hat2 Hfin2 k l y y' Hy Hy'); [left|intros; eapply Hus; [right|..]; eassumption].
      assert (Hnn : (qn n <= qn n')%Q).
      { unfold qn. rewrite <- Zle_Qle. apply inj_le. apply (Hus (ch, ws)); [now left|exact Hn|exact Hn']. }
      destruct (shares_pos bc i Hp) as ((S1 & S2) & S3).
      assert (Hvv : (v <= v')%Q).
      { rewrite Ev, Ev'. apply Qplus_le_compat.
        - destruct Hop as [Hop|(Em & Hi & _)]; [rewrite !(Qmult_comm (fst _)); now apply Qmult_le_compat_r|].
          destruct (S3 Em) as (_ & _ & E). rewrite (E Hi). lra.
        - rewrite !(Qmult_comm (snd _)). apply Qmult_le_compat_r; [|exact S2]. rewrite !(Qmult_comm c). apply Qmult_le_compat_r; lra. }
      pose proof (raised_mono _ _ _ _ Hm Hr Hr' Hvv) as Hxx. rewrite <- Hyx, <- Hyx' in Hxx. apply Qmult_le_r in Hxx; assumption.
  Qed.
End Run.
Arguments linear_from {_ _ _ _ _}.
Arguments mono_from {_ _ _ _ _}.

(** Whatever shortcuts the graphs have: without minimum, the balanced metric
    of every edge with an id is a weighted sum of how often it has been used in
    the iterations.  The weights are the same for all edges.  With averaging,
    all weights are positive and the metric before the first iteration does not
    matter. *)
Theorem C52_linear routing_of rebuild simulate bc mi g steps g' :
  pulls bc -> bc_min bc = None -> counts_edges simulate -> metric_at g (bc_metric bc) mi -> finite_metric g mi ->
  traced routing_of rebuild simulate bc mi 0 g steps g' ->
  exists a cs, (0 <= a)%Q /\ Forall (fun c => (0 <= c)%Q) cs /\ length cs = length steps /\
    (bc_method bc = Averaging -> steps <> [] -> Forall (fun c => (0 < c)%Q) cs /\ (a == 0)%Q) /\
    forall k o, value_of g mi k o ->
      exists ns y, Forall2 (fun st n => used st k n) steps ns /\ value_of g' mi k y /\ (y == a * o + weighted cs ns)%Q.
Proof.
  intros Hp Hmin Hc Hat Hfin T.
  destruct (linear_from Hp Hc Hmin _ _ _ _ T Hat Hfin) as (a & cs & Ha & Hcs & L & Hav & Hv).
  exists a, cs. split; [exact Ha|]. split; [exact Hcs|]. split; [exact L|]. split; [|exact Hv].
  intros Em Hne. destruct (Hav Em) as (A & _ & B). auto.
Qed.
Print Assumptions C52_linear.

(** With or without minimum: an edge used at least as often as another one in
    every iteration does not get a smaller metric (if it had not had a smaller
    one before; with averaging, this does not matter). *)
Theorem C52_monotone routing_of rebuild simulate bc mi g steps g' k l o p :
  pulls bc -> bc_min bc = None \/ (exists q, bc_min bc = Some (Fin q)) -> counts_edges simulate ->
  metric_at g (bc_metric bc) mi -> finite_metric g mi ->
  traced routing_of rebuild simulate bc mi 0 g steps g' ->
  value_of g mi k o -> value_of g mi l p ->
  (o <= p)%Q \/ (bc_method bc = Averaging /\ steps <> []) ->
  (forall st n n', In st steps -> used st k n -> used st l n' -> n <= n') ->
  exists y z, value_of g' mi k y /\ value_of g' mi l z /\ (y <= z)%Q.
Proof.
  intros Hp Hmin Hc Hat Hfin T Ho Hl Hop Hus.
  apply (mono_from Hp Hc Hmin _ _ _ _ T Hat Hfin k l o p Ho Hl); [|exact Hus].
  destruct Hop as [|[Em Hne]]; [now left|right; auto].
Qed.
Print Assumptions C52_monotone.

(** rebuilding always keeps the edges of graphs with finite metrics *)
Definition keeps_edges (rebuild : nat -> graph -> res graph) (id : string) (mi : nat) : Prop :=
  forall i g ch, rebuild i g = Ok ch -> metric_at g id mi -> metrics g <> [] -> finite_metric g mi -> kept id mi g ch.

Lemma iterated_traced routing_of rebuild simulate bc mi :
  pulls bc -> bc_min bc = None \/ (exists q, bc_min bc = Some (Fin q)) -> keeps_edges rebuild (bc_metric bc) mi -> counts_edges simulate ->
  forall i g wss g', iterated routing_of rebuild simulate bc i g wss g' ->
  metric_at g (bc_metric bc) mi -> metrics g <> [] -> finite_metric g mi ->
  exists steps, map snd steps = wss /\ traced routing_of rebuild simulate bc mi i g steps g'.
Proof.
  intros Hp Hm Hk Hc. induction 1 as [i g|i g ch rc ws g1 wss g' Er Ert Es Eu I IH]; intros Hat Hne Hfin; [exists []; split; [reflexivity|constructor]|].
  pose proof (Hk _ _ _ Er Hat Hne Hfin) as K. destruct K as (Hat1 & Hne1 & Hfin1 & Hv1).
  destruct (step_linear i ws bc ch mi g1 Hp Hm Hat1 Hne1 Hfin1 (Hc _ _ _ _ Es) Eu) as (Hat2 & Hne2 & Hfin2 & _).
  destruct (IH Hat2 Hne2 Hfin2) as (steps & <- & T). exists ((ch, ws) :: steps). split; [reflexivity|].
  econstructor; eauto.
Qed.

(** The iterations considered are those of the balancer: the stored graph is the
    one after [k] of them. *)
Theorem C52_run routing_of rebuild simulate export store bc mi k g g' stored :
  pulls bc -> bc_min bc = None \/ (exists q, bc_min bc = Some (Fin q)) -> keeps_edges rebuild (bc_metric bc) mi -> counts_edges simulate ->
  metric_at g (bc_metric bc) mi -> metrics g <> [] -> finite_metric g mi ->
  run_balancing routing_of rebuild simulate export store bc k g = Ok (g', stored) ->
  exists steps gs t, length steps = k /\ traced routing_of rebuild simulate bc mi 0 g steps gs /\ store gs = Ok t /\ stored = [t].
Proof.
  intros Hp Hm Hk Hc Hat Hne Hfin H. apply C51_loop in H. destruct H as (wss & ws & gs & t & L & I & Es & -> & _).
  destruct (iterated_traced _ _ _ _ _ Hp Hm Hk Hc _ _ _ _ I Hat Hne Hfin) as (steps & <- & T). rewrite map_length in L. exists steps, gs, t. auto.
Qed.
Print Assumptions C52_run.

(** *** Cases *)

(** three edges; rebuilding adds a shortcut in the second iteration *)
Definition ct_edge (id : option nat) (s d : Z) (x : Q) (sc : option (nat * nat)) : proto_edge :=
  {| pe_id := id; pe_src := s; pe_dst := d; pe_metrics := [Fin x]; pe_sc := sc |}.
Definition ct_cfg : cfg :=
  {| cfg_edges := {| ec_categories := [CMeta EdgeId "id"; CMeta SrcId "src"; CMeta DstId "dst"; CMetric UF64 "workload"];
                     ec_normalized := false; ec_units := [UF64]; ec_ids := ["workload"] |};
     cfg_nodes := []; cfg_gen_nodes := []; cfg_gen_edges := [] |}.
Definition ct_es (x y z : Q) (sc : bool) : list proto_edge :=
  [ct_edge (Some 7) 10 20 x None; ct_edge (Some 8) 20 30 y None; ct_edge (Some 9) 30 10 z None] ++
  (if sc then [ct_edge None 10 30 (x + y) (Some (0, 1))] else []).
Definition ct_graph (x y z : Q) (sc : bool) : graph := unok empty_graph (build ex_hav ct_cfg 2 3 (ct_es x y z sc) wr_ns).
Definition ct_value (g : graph) (k : nat) : Q :=
  match edge_try_idx_from g k with
  | Ok e => match edge_metrics g e with Ok (Fin x :: _) => x | _ => 1%Q end
  | _ => 1%Q
  end.
Definition ct_rebuild (i : nat) (g : graph) : res graph :=
  build ex_hav ct_cfg 2 3 (ct_es (ct_value g 7) (ct_value g 8) (ct_value g 9) (i =? 1)) wr_ns.
Definition ct_simulate (i : nat) (g : graph) (rc : routing_cfg) : res (list nat) :=
  match i, length (metrics g) with
  | 0, 3 => Ok [2; 1; 3]
  | 1, 4 => Ok [1; 0; 2; 3]
  | _, n => Ok (repeat 1 n)
  end.
Lemma ct_counts : counts_edges ct_simulate.
Proof.
  intros i g rc ws H. unfold ct_simulate in H. destruct i as [|[|i]], (length (metrics g)) as [|[|[|[|[|n]]]]]; injection H as <-; cbn [length repeat]; try reflexivity; now rewrite repeat_length.
Qed.
Definition ct_bc (mn : option f64) : balancing_cfg := {| bc_metric := "workload"; bc_method := Averaging; bc_min := mn; bc_zero_err := false |}.
Definition ct_0 : graph := Eval vm_compute in ct_graph 1 1 1 false.
Definition ct_1 (mn : option f64) : graph := snd (update_new_metric 0 [2; 1; 3] (ct_bc mn) ct_0).
Definition ct_ch (mn : option f64) : graph := unok empty_graph (ct_rebuild 1 (ct_1 mn)).
Definition ct_2 (mn : option f64) : graph := snd (update_new_metric 1 [1; 0; 2; 3] (ct_bc mn) (ct_ch mn)).
Lemma ct_called g k e : nth_error (edge_ids g) e = Some (Some k) ->
  (forall i, i < length (edge_ids g) -> i <> e -> nth_error (edge_ids g) i <> Some (Some k)) -> called_edge g k e.
Proof.
  intros A U. split; [apply idx_ok, A|]. intros e' H. apply idx_ok in H. destruct (Nat.eq_dec e' e) as [|N]; [assumption|].
  exfalso. apply (U e'); [apply nth_error_Some; congruence|exact N|exact H].
Qed.
Lemma ct_traced mn : mn = None \/ mn = Some (Fin (1 # 10)) ->
  traced lp_routing ct_rebuild ct_simulate (ct_bc mn) 0 0 ct_0 [(ct_0, [2; 1; 3]); (ct_ch mn, [1; 0; 2; 3])] (ct_2 mn).
Proof.
  assert (Hcl : forall g, edge_ids g = [Some 7; None; Some 8; Some 9] -> called_edge g 7 0 /\ called_edge g 8 2 /\ called_edge g 9 3).
  { intros g E. repeat split; try (apply idx_ok; rewrite E; reflexivity);
      (intros e' H; apply idx_ok in H; rewrite E in H; do 4 (destruct e' as [|e']; [try reflexivity; discriminate H|]); destruct e'; discriminate H). }
  intros Hmn. econstructor; [vm_compute; reflexivity| |eapply routing_routed; vm_compute; reflexivity|vm_compute; reflexivity| |].
  - split; [split; [reflexivity|intros; lia]|]. split; [discriminate|]. split; [|intros k x Hx; exists x; split; [reflexivity|exact Hx]].
    intros e He. cbn in He. do 3 (destruct e as [|e]; [eexists; eexists; split; vm_compute; reflexivity|]). lia.
  - destruct Hmn as [->| ->]; vm_compute; reflexivity.
  - econstructor; [| |eapply routing_routed; destruct Hmn as [->| ->]; vm_compute; reflexivity| | |constructor].
    + destruct Hmn as [->| ->]; vm_compute; reflexivity.
    + split; [split; [destruct Hmn as [->| ->]; reflexivity|intros; lia]|]. split; [destruct Hmn as [->| ->]; vm_compute; discriminate|]. split.
      * intros e He. assert (e < 4) by (destruct Hmn as [->| ->]; vm_compute in He; lia).
        do 4 (destruct e as [|e]; [destruct Hmn as [->| ->]; eexists; eexists; split; vm_compute; reflexivity|]). lia.
      * intros k x (e & [A _] & (ms & M & N)). exists x. split; [reflexivity|]. apply idx_ok in A. apply idx_ok in M.
        assert (E : edge_ids (ct_ch mn) = [Some 7; None; Some 8; Some 9]) by (destruct Hmn as [->| ->]; vm_compute; reflexivity).
        destruct (Hcl _ E) as (C7 & C8 & C9).
        destruct e as [|[|[|[|e]]]]; [| | |destruct Hmn as [->| ->]; vm_compute in A; discriminate A|destruct Hmn as [->| ->]; vm_compute in A; destruct e; discriminate A];
          [assert (k = 7) by (destruct Hmn as [->| ->]; vm_compute in A; congruence); subst k; exists 0
          |assert (k = 8) by (destruct Hmn as [->| ->]; vm_compute in A; congruence); subst k; exists 2
          |assert (k = 9) by (destruct Hmn as [->| ->]; vm_compute in A; congruence); subst k; exists 3]; (split; [assumption|]);
          (destruct Hmn as [->| ->]; vm_compute in M; injection M as <-; injection N as <-; eexists; split; vm_compute; reflexivity).
    + destruct Hmn as [->| ->]; vm_compute; reflexivity.
    + destruct Hmn as [->| ->]; vm_compute; reflexivity.
Qed.
Lemma ct_at : metric_at ct_0 "workload" 0.
Proof. split; [reflexivity|]. intros; lia. Qed.
Lemma ct_finite : finite_metric ct_0 0.
Proof. intros e He. cbn in He. do 3 (destruct e as [|e]; [eexists; eexists; split; vm_compute; reflexivity|]). lia. Qed.
Lemma ct_pulls mn : pulls (ct_bc mn).
Proof. exact I. Qed.
Lemma ct_old k : 7 <= k <= 9 -> value_of ct_0 0 k 1.
Proof.
  intros H. assert (E : k = 7 \/ k = 8 \/ k = 9) by lia.
  assert (G : forall e, e < 3 -> k = 7 + e -> value_of ct_0 0 k 1).
  { intros e He ->. exists e. split.
    - apply ct_called; [destruct e as [|[|[|e]]]; [reflexivity..|lia]|]. intros i Hi Hn. cbn in Hi. destruct e as [|[|[|e]]]; [..|lia];
        (destruct i as [|[|[|i]]]; try congruence; try lia; discriminate).
    - destruct e as [|[|[|e]]]; [eexists; split; vm_compute; reflexivity..|lia]. }
  destruct E as [->|[->| ->]]; [apply (G 0)|apply (G 1)|apply (G 2)]; lia.
Qed.
Lemma ct_used g ws k n ids : edge_ids g = ids -> used (g, ws) k n -> exists e, nth_error ids e = Some (Some k) /\ nth_error ws e = Some n.
Proof. intros <- (e & [A _] & B). apply idx_ok in A. exists e. auto. Qed.

(** without minimum: the edges 7, 8 and 9 are used 2, 1, 3 and then 1, 2, 3 times *)
Example C52_linear_case : pulls (ct_bc None) /\ bc_min (ct_bc None) = None /\ counts_edges ct_simulate /\ metric_at ct_0 "workload" 0 /\ finite_metric ct_0 0 /\
  traced lp_routing ct_rebuild ct_simulate (ct_bc None) 0 0 ct_0 [(ct_0, [2; 1; 3]); (ct_ch None, [1; 0; 2; 3])] (ct_2 None) /\
  value_of ct_0 0 7 1 /\ value_of ct_0 0 8 1 /\ value_of ct_0 0 9 1 /\
  map (fun k => Qred (ct_value (ct_2 None) k)) [7; 8; 9] =
    map (fun ns => Qred (weighted [12 # 51; 16 # 51] ns)) [[2; 1]; [1; 2]; [3; 3]].
Proof.
  split; [apply ct_pulls|]. split; [reflexivity|]. split; [exact ct_counts|]. split; [exact ct_at|]. split; [exact ct_finite|].
  split; [apply ct_traced; auto|]. split; [apply ct_old; lia|]. split; [apply ct_old; lia|]. split; [apply ct_old; lia|]. vm_compute. reflexivity.
Qed.
(** with minimum: edge 9 is used more often than edge 7 in both iterations *)
Example C52_monotone_case : let bc := ct_bc (Some (Fin (1 # 10))) in
  let steps := [(ct_0, [2; 1; 3]); (ct_ch (Some (Fin (1 # 10))), [1; 0; 2; 3])] in
  pulls bc /\ (exists q, bc_min bc = Some (Fin q)) /\ counts_edges ct_simulate /\ metric_at ct_0 "workload" 0 /\ finite_metric ct_0 0 /\
  traced lp_routing ct_rebuild ct_simulate bc 0 0 ct_0 steps (ct_2 (Some (Fin (1 # 10)))) /\
  value_of ct_0 0 7 1 /\ value_of ct_0 0 9 1 /\
  forall st n n', In st steps -> used st 7 n -> used st 9 n' -> n <= n'.
Proof.
  intros bc steps. split; [apply ct_pulls|]. split; [eexists; reflexivity|]. split; [exact ct_counts|]. split; [exact ct_at|]. split; [exact ct_finite|].
  split; [apply ct_traced; auto|]. split; [apply ct_old; lia|]. split; [apply ct_old; lia|].
  assert (E : edge_ids (ct_ch (Some (Fin (1 # 10)))) = [Some 7; None; Some 8; Some 9]) by (vm_compute; reflexivity).
  intros st n n' [<-|[<-|[]]] U U'.
  - destruct (ct_used _ _ _ _ _ eq_refl U) as (e & A & B). destruct (ct_used _ _ _ _ _ eq_refl U') as (e' & A' & B'). clear - A B A' B'.
    destruct e as [|[|[|e]]]; cbn in A, B; try discriminate A; [|destruct e; discriminate A].
    destruct e' as [|[|[|e']]]; cbn in A', B'; try discriminate A'; [|destruct e'; discriminate A']. injection B as <-. injection B' as <-. lia.
  - destruct (ct_used _ _ _ _ _ E U) as (e & A & B). destruct (ct_used _ _ _ _ _ E U') as (e' & A' & B'). clear - A B A' B'.
    destruct e as [|[|[|[|e]]]]; cbn in A, B; try discriminate A; [|destruct e; discriminate A].
    destruct e' as [|[|[|[|e']]]]; cbn in A', B'; try discriminate A'; [|destruct e'; discriminate A']. injection B as <-. injection B' as <-. lia.
Qed.

(** rebuilding nothing keeps the edges *)
Lemma ct_keeps : keeps_edges lp_rebuild "workload" 0.
Proof. intros i g ch H Hat Hne Hfin. injection H as <-. split; [exact Hat|]. split; [exact Hne|]. split; [exact Hfin|].
  intros k x Hx. exists x. split; [reflexivity|exact Hx]. Qed.
Example C52_run_case : pulls (ct_bc None) /\ keeps_edges lp_rebuild "workload" 0 /\ counts_edges ct_simulate /\
  metric_at ct_0 "workload" 0 /\ metrics ct_0 <> [] /\ finite_metric ct_0 0 /\
  exists g' t, run_balancing lp_routing lp_rebuild ct_simulate (fun _ _ _ => Ok tt) lp_store (ct_bc None) 1 ct_0 = Ok (g', [t]).
Proof.
  split; [apply ct_pulls|]. split; [exact ct_keeps|]. split; [exact ct_counts|]. split; [exact ct_at|]. split; [discriminate|]. split; [exact ct_finite|].
  do 2 eexists. vm_compute. reflexivity.
Qed.

(** finding: workloads are divided by the mean over all edges, including
    shortcuts, which are never used by flattened paths.  Hence, averaging gives
    iterations with more shortcuts more weight: edges used equally often
    altogether, while in both iterations 6 edges are used in total, get different
    metrics. *)
Theorem C52_average_refuted : exists routing_of rebuild simulate bc g steps g' k l y z,
  bc_method bc = Averaging /\ bc_min bc = None /\ counts_edges simulate /\ metric_at g (bc_metric bc) 0 /\ finite_metric g 0 /\
  traced routing_of rebuild simulate bc 0 0 g steps g' /\
  Forall (fun st => list_sum (snd st) = 6) steps /\
  Forall2 (fun st n => used st k n) steps [2; 1] /\ Forall2 (fun st n => used st l n) steps [1; 2] /\
  value_of g' 0 k y /\ value_of g' 0 l z /\ (y < z)%Q.
Proof.
  exists lp_routing, ct_rebuild, ct_simulate, (ct_bc None), ct_0, [(ct_0, [2; 1; 3]); (ct_ch None, [1; 0; 2; 3])], (ct_2 None), 7, 8.
  assert (C : forall g, edge_ids g = [Some 7; None; Some 8; Some 9] -> called_edge g 7 0 /\ called_edge g 8 2).
  { intros g E. split; (apply ct_called; rewrite E; [reflexivity|]); (intros i Hi Hn; destruct i as [|[|[|[|i]]]]; cbn in Hi; try congruence; try lia; discriminate). }
  assert (C0 : called_edge ct_0 7 0 /\ called_edge ct_0 8 1).
  { split; (apply ct_called; [reflexivity|]); (intros i Hi Hn; destruct i as [|[|[|i]]]; cbn in Hi; try congruence; try lia; discriminate). }
  destruct (C (ct_ch None) ltac:(vm_compute; reflexivity)) as [C7 C8]. destruct (C (ct_2 None) ltac:(vm_compute; reflexivity)) as [D7 D8]. destruct C0 as [E7 E8].
  do 2 eexists. split; [reflexivity|]. split; [reflexivity|]. split; [exact ct_counts|]. split; [exact ct_at|]. split; [exact ct_finite|].
  split; [apply ct_traced; auto|]. split; [repeat constructor|].
  split; [constructor; [exists 0; split; [exact E7|reflexivity]|constructor; [exists 0; split; [exact C7|reflexivity]|constructor]]|].
  split; [constructor; [exists 1; split; [exact E8|reflexivity]|constructor; [exists 2; split; [exact C8|reflexivity]|constructor]]|].
  split; [exists 0; split; [exact D7|eexists; split; vm_compute; reflexivity]|].
  split; [exists 2; split; [exact D8|eexists; split; vm_compute; reflexivity]|]. vm_compute. reflexivity.
Qed.
Print Assumptions C52_average_refuted.
