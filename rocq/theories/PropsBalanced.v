(** Property C56: what a finished balancing has written, and what is in it *)
From Coq Require Import String List Bool Arith NArith ZArith QArith Lia Lqa.
From Verif Require Import Base Lib F64 ProofText ModelText ModelConfig ModelGraph ModelBuild ModelParsing ModelFmi ModelDijkstra ModelRoutingCfg ModelBalancing
  ModelRoutePairs ModelSmarts ModelWriting ModelEvaluating ModelLoop ModelYaml ModelDocs ModelProgram SpecGenerate SpecBalancing SpecProgram ProofProgram ProofProgram2
  SpecBalanced ProofBalanced ExamplesDocs ExamplesProgram PropsLoop PropsContracted PropsProgram PropsRouted.
Import ListNotations.
Open Scope string_scope.
Open Scope list_scope.
Open Scope nat_scope.

(** *** The files *)

Lemma front_silent e a w w' rs : only_balancing a -> run_front e a w = (w', Ok rs) -> same_files w w'.
Proof.
  intros (H1 & H2 & H3 & H4 & H5 & _) H. destruct (file_at e w (a_cfg a)) as [t|] eqn:Ht.
  - destruct (triple_front e w a t Ht w (inv_refl _ _ _)) as [[_ I] _]. rewrite H in I. intros k. apply I; [auto|].
    intros (p & _ & Hp). inversion Hp; congruence.
  - assert (Hl := load_missing e (read_parsing (e_scalars e)) _ _ Ht). unfold run_front in H. apply next_ok in H.
    destruct H as (w1 & d & E & _). destruct Hl as [Hl _]. rewrite E in Hl. destruct (Hl d eq_refl).
Qed.

(** A balancing which has ended well, in a place with room: the files tell all of
    it.  There are as many iterations as updates have been asked for, and one
    more.  Each of them has read its configuration, its contracted graph and the
    route-pairs from files which are still there, and its results are still there,
    too.  The balanced graph has been written with all updates, but the last
    iteration's one.  No other file has been touched. *)
Theorem C56_documented e a w w' rs :
  only_balancing a -> (forall b, says e w (read_balancing (e_scalars e)) (a_cfg a) b -> room e w (a_cfg a) b) ->
  run e a w = (w', Ok rs) ->
  exists b d g steps s ch values last, says e w (read_balancing (e_scalars e)) (a_cfg a) b /\ (N.of_nat (length steps) + 1 = bd_num_iter b)%N /\
    says e w (read_parsing (e_scalars e)) (a_cfg a) d /\ graph_of e w d g /\
    documented_from e w' (a_cfg a) b 0 (d, g) steps s /\ balanced e w w' (a_cfg a) b s /\
    documented e w' (a_cfg a) b (length steps) s ch values last /\
    SpecProgram.kept w w' /\
    forall f, w_files w' f <> w_files w f -> w_files w f = None /\ exists x p, placed e w (a_cfg a) b x p /\ f = e_resolve e p.
Proof.
  intros Ho HR H. rewrite run_front_then in H. apply next_ok in H. destruct H as (w1 & rs1 & H1 & H).
  assert (S1 := front_silent e a w w1 rs1 Ho H1). destruct Ho as (_ & _ & _ & _ & _ & Ho). rewrite Ho in H. cbn [when] in H.
  apply next_ok in H. destruct H as (w2 & u & H2 & H). apply ret_ok in H. destruct H as [-> _].
  apply next_ok in H2. destruct H2 as (w3 & l & H2 & H). apply ret_ok in H. destruct H as [-> _].
  destruct (balancing_ok e w (a_cfg a) w1 w3 l HR S1 H2) as (b & d & g & steps & s & ch & values & A & B & C & D & E & F & G & K & P).
  exists b, d, g, steps, s, ch, values, (state_of l). repeat (split; [assumption|]). intros f Hf.
  destruct (w_files w f) as [t|] eqn:Ef; [rewrite (K _ _ Ef) in Hf; congruence|]. split; [reflexivity|].
  destruct (w_files w3 f) as [t|] eqn:Ef'; [eauto|congruence].
Qed.
Print Assumptions C56_documented.

(** The files determine the graphs and the workloads of all iterations. *)
Lemma moved_fun dir d d1 d2 : moved dir d d1 -> moved dir d d2 -> d1 = d2.
Proof.
  intros (ns & es & A & B & C & D & E & F) (ns' & es' & A' & B' & C' & D' & E' & F').
  destruct d1, d2. cbn in *. rewrite A in A'. injection A' as <- <-. congruence.
Qed.

Lemma steered_fun i ids m rc r1 r2 : steered i ids m rc r1 -> steered i ids m rc r2 -> r1 = r2.
Proof.
  destruct i; cbn [steered]; [|congruence]. intros (A & B & mi & C & C1 & D & E) (A' & B' & mi' & C' & C1' & D' & E').
  assert (mi' = mi).
  { destruct (lt_eq_lt_dec mi' mi) as [[L|L]|L]; [destruct (C1 _ L C')|exact L|destruct (C1' _ L C)]. }
  subst mi'. assert (X : rc_alphas r1 = rc_alphas r2).
  { assert (X : forall j, nth_error (rc_alphas r1) j = nth_error (rc_alphas r2) j) by (intros j; rewrite E, E'; reflexivity).
    clear -X. revert X. generalize (rc_alphas r2). induction (rc_alphas r1) as [|x l IH]; intros [|y l'] X; [reflexivity|discriminate (X 0)|discriminate (X 0)|].
    f_equal; [specialize (X 0); cbn in X; congruence|]. apply IH. intros j. apply (X (S j)). }
  destruct r1, r2. cbn in *. congruence.
Qed.

Lemma documented_fun e w cfg b i s ch values s' t ch2 values2 t' :
  documented e w cfg b i s ch values s' -> documented e w cfg b i t ch2 values2 t' -> ch2 = ch /\ values2 = values /\ t' = s'.
Proof.
  intros (tpl & wg & we & tg & te & c & tx & tc & pd & old & rc & rc' & pairs & paths & infos & loads & _ & _ & _ & _ & _ & _ & _ & _ &
      _ & _ & _ & _ & _ & _ & H15 & H16 & H17 & H18 & H19 & H20 & H21 & H22 & _)
    (tpl2 & wg2 & we2 & tg2 & te2 & c2 & tx2 & tc2 & pd2 & old2 & rc2 & rc2' & pairs2 & paths2 & infos2 & loads2 & _ & _ & _ & _ & _ & _ & _ & _ &
      _ & _ & _ & _ & _ & _ & G15 & G16 & G17 & G18 & G19 & G20 & G21 & G22 & _).
  assert (pd2 = pd) by (eapply says_fun; eauto). subst pd2. assert (Ef : fst t' = fst s') by (eapply moved_fun; eauto). rewrite Ef in G17.
  assert (ch2 = ch) by (eapply graph_of_fun; eauto). subst ch2.
  assert (X : (Some old2, rc2) = (Some old, rc)) by (eapply says_fun; [exact G18|exact H18]). injection X as -> ->.
  assert (rc2' = rc') by (eapply steered_fun; eauto). subst rc2'.
  assert (pairs2 = pairs). { destruct H20 as (x & X1 & X2), G20 as (y & Y1 & Y2). congruence. } subst pairs2.
  rewrite H21 in G21. injection G21 as <- <-. split; [reflexivity|]. split; [reflexivity|].
  destruct s', t'. cbn [fst snd] in *. congruence.
Qed.

(** The files alone determine the graphs which have been read, the workloads, and
    the graph after the updates. *)
Theorem C56_determined e w cfg b i s steps s' : documented_from e w cfg b i s steps s' ->
  forall t steps2 t', documented_from e w cfg b i t steps2 t' -> length steps2 = length steps ->
  steps2 = steps /\ (steps <> [] -> t' = s').
Proof.
  induction 1 as [i s|i s ch values s1 steps s2 D F IH]; intros t steps2 t' F2 L.
  - destruct steps2; [|discriminate]. split; [reflexivity|congruence].
  - inversion F2 as [|i2 t0 ch2 values2 t1 st2 t2 D2 F3]; subst; [discriminate|]. injection L as L.
    destruct (documented_fun _ _ _ _ _ _ _ _ _ _ _ _ _ D D2) as (-> & -> & ->).
    destruct (IH _ _ _ F3 L) as [-> X]. split; [reflexivity|]. intros _. destruct steps as [|st steps]; [|apply X; discriminate].
    inversion F; subst. inversion F3; subst. reflexivity.
Qed.
Print Assumptions C56_determined.

(** *** The balanced metric *)

(** the balanced metric [mi] is carried through the files: the first contracted
    graph has it, and every later one has the values which the update before has
    left, for all edges with an id *)
Fixpoint carried (bc : balancing_cfg) (mi i : nat) (g : graph) (steps : list (graph * list nat)) : Prop :=
  match steps with
  | [] => True
  | (ch, values) :: steps =>
      match i with
      | O => metric_at ch (bc_metric bc) mi /\ metrics ch <> [] /\ finite_metric ch mi
      | S _ => PropsContracted.kept (bc_metric bc) mi g ch
      end /\ length values = length (metrics ch) /\
      carried bc mi (S i) (snd (update_new_metric i values bc ch)) steps
  end.

(** the steps as functions of the iteration's number *)
Definition nth_rebuild (steps : list (graph * list nat)) (i : nat) (g : graph) : res graph :=
  match nth_error steps i with Some (ch, _) => Ok ch | None => Panic end.
Definition nth_simulate (steps : list (graph * list nat)) (i : nat) (g : graph) (rc : routing_cfg) : res (list nat) :=
  match nth_error steps i with
  | Some (_, ws) => if length ws =? length (metrics g) then Ok ws else Panic
  | None => Panic
  end.
Definition no_routing (g : graph) : res routing_cfg :=
  Ok {| rc_algo := ADijkstra; rc_alphas := map (fun _ => f0) (ec_ids (cfg_edges (g_cfg g))); rc_scales := [] |}.

Lemma nth_counts steps : counts_edges (nth_simulate steps).
Proof.
  intros i g rc ws H. unfold nth_simulate in H. destruct (nth_error steps i) as [[ch ws']|]; [|discriminate].
  destruct (Nat.eqb_spec (length ws') (length (metrics g))) as [E|]; [|discriminate]. injection H as <-. exact E.
Qed.

Lemma documented_update e w cfg b i s ch values s' :
  documented e w cfg b i s ch values s' -> update_new_metric i values (bd_cfg b) ch = (Ok tt, snd s').
Proof.
  intros (tpl & wg & we & tg & te & c & tx & tc & pd & old & rc & rc' & pairs & paths & infos & loads & _ & _ & _ & _ & _ & _ & _ & _ &
      _ & _ & _ & _ & _ & _ & _ & _ & _ & _ & _ & _ & _ & H22 & _). exact H22.
Qed.

Lemma nth_step all mi bc i g ch values g1 steps g' :
  nth_error all i = Some (ch, values) -> PropsContracted.kept (bc_metric bc) mi g ch -> length values = length (metrics ch) ->
  update_new_metric i values bc ch = (Ok tt, g1) ->
  traced no_routing (nth_rebuild all) (nth_simulate all) bc mi (S i) g1 steps g' ->
  traced no_routing (nth_rebuild all) (nth_simulate all) bc mi i g ((ch, values) :: steps) g'.
Proof.
  intros E0 K Lv Eu T.
  eapply traced_one with (rc := {| rc_algo := ADijkstra; rc_alphas := map (fun _ => f0) (ec_ids (cfg_edges (g_cfg ch))); rc_scales := [] |}).
  - unfold nth_rebuild. now rewrite E0.
  - exact K.
  - eexists. split; [reflexivity|]. split; [reflexivity|]. split; [reflexivity|]. destruct i; [|reflexivity]. exists mi.
    destruct K as (A & _). split; [exact A|]. split; [reflexivity|]. split; [|reflexivity]. cbn [rc_alphas]. destruct A as [A _].
    rewrite nth_error_map, A. reflexivity.
  - unfold nth_simulate. rewrite E0, Lv, Nat.eqb_refl. reflexivity.
  - exact Eu.
  - exact T.
Qed.

Lemma carried_later e w cfg b mi all i s steps s' :
  documented_from e w cfg b i s steps s' -> 0 < i -> (forall j, nth_error steps j = nth_error all (i + j)) ->
  carried (bd_cfg b) mi i (snd s) steps ->
  traced no_routing (nth_rebuild all) (nth_simulate all) (bd_cfg b) mi i (snd s) steps (snd s').
Proof.
  induction 1 as [i s|i s ch values s1 steps s2 D F IH]; intros Hi Hn Hc; [constructor|].
  cbn [carried] in Hc. destruct Hc as (Hk & Lv & Hc). apply documented_update in D. rewrite D in Hc. cbn [snd] in Hc.
  eapply nth_step; [|destruct i; [lia|exact Hk]|exact Lv|exact D|].
  - rewrite <- (Nat.add_0_r i), <- Hn. reflexivity.
  - apply IH; [lia| |exact Hc]. intros j. specialize (Hn (S j)). cbn [nth_error] in Hn. rewrite Hn. f_equal. lia.
Qed.

Lemma carried_traced e w cfg b mi s ch0 ws0 steps s' :
  documented_from e w cfg b 0 s ((ch0, ws0) :: steps) s' -> carried (bd_cfg b) mi 0 (snd s) ((ch0, ws0) :: steps) ->
  traced no_routing (nth_rebuild ((ch0, ws0) :: steps)) (nth_simulate ((ch0, ws0) :: steps)) (bd_cfg b) mi 0 ch0 ((ch0, ws0) :: steps) (snd s').
Proof.
  intros F Hc. inversion F as [|i2 t0 ch2 values2 s1 st2 t2 D F1]; subst. cbn [carried] in Hc. destruct Hc as ((A & B & C) & Lv & Hc).
  apply documented_update in D. rewrite D in Hc. cbn [snd] in Hc. eapply nth_step; [reflexivity| |exact Lv|exact D|].
  - split; [exact A|]. split; [exact B|]. split; [exact C|]. intros k x Hx. exists x. split; [reflexivity|exact Hx].
  - eapply carried_later; [exact F1|lia|reflexivity|exact Hc].
Qed.

(** Without minimum: in the graph which has been written, the balanced metric of
    every edge with an id is a weighted sum of the edge's workloads in the
    iterations before, as they have been written.  The weights are the same for
    all edges, and with averaging they are positive and nothing else counts. *)
Theorem C56_weights e w cfg b mi s ch0 ws0 rest s' :
  documented_from e w cfg b 0 s ((ch0, ws0) :: rest) s' -> carried (bd_cfg b) mi 0 (snd s) ((ch0, ws0) :: rest) ->
  pulls (bd_cfg b) -> bc_min (bd_cfg b) = None ->
  exists a cs, (0 <= a)%Q /\ Forall (fun c => (0 <= c)%Q) cs /\ length cs = S (length rest) /\
    (bc_method (bd_cfg b) = Averaging -> Forall (fun c => (0 < c)%Q) cs /\ (a == 0)%Q) /\
    forall k o, value_of ch0 mi k o ->
      exists ns y, Forall2 (fun st n => used st k n) ((ch0, ws0) :: rest) ns /\ value_of (snd s') mi k y /\ (y == a * o + weighted cs ns)%Q.
Proof.
  intros F Hc Hp Hm. assert (T := carried_traced _ _ _ _ _ _ _ _ _ _ F Hc). destruct Hc as ((A & B & C) & _ & _).
  destruct (C52_linear _ _ _ _ _ _ _ _ Hp Hm (nth_counts _) A C T) as (a & cs & Ha & Hcs & L & Hav & Hv).
  exists a, cs. split; [exact Ha|]. split; [exact Hcs|]. split; [exact L|]. split; [|exact Hv]. intros E. apply Hav; [exact E|discriminate].
Qed.
Print Assumptions C56_weights.

(** With or without minimum, averaging: an edge which has never been used more
    than another one doesn't have the larger metric in the balanced graph. *)
Theorem C56_fair e w cfg b mi s ch0 ws0 rest s' k l o p :
  documented_from e w cfg b 0 s ((ch0, ws0) :: rest) s' -> carried (bd_cfg b) mi 0 (snd s) ((ch0, ws0) :: rest) ->
  bc_method (bd_cfg b) = Averaging -> bc_min (bd_cfg b) = None \/ (exists q, bc_min (bd_cfg b) = Some (Fin q)) ->
  value_of ch0 mi k o -> value_of ch0 mi l p ->
  (forall st n n', In st ((ch0, ws0) :: rest) -> used st k n -> used st l n' -> n <= n') ->
  exists y z, value_of (snd s') mi k y /\ value_of (snd s') mi l z /\ (y <= z)%Q.
Proof.
  intros F Hc Em Hm Hk Hl Hu. assert (T := carried_traced _ _ _ _ _ _ _ _ _ _ F Hc). destruct Hc as ((A & B & C) & _ & _).
  eapply (C52_monotone _ _ _ _ _ _ _ _ k l o p); [unfold pulls; now rewrite Em|exact Hm|apply nth_counts|exact A|exact C|exact T|exact Hk|exact Hl| |exact Hu].
  right. split; [exact Em|discriminate].
Qed.
Print Assumptions C56_fair.

(** *** Cases *)

(** the results' directory is new *)
Definition new_world : world :=
  {| w_files := fun k => if String.eqb k (join bal_dir "config.yaml") then None else w_files bal_world k; w_ops := 0 |}.
Definition new_run := run bal_env bal_args new_world.

(** the places of the results *)
Definition files_of (b : balancing_doc) (i : nat) : list (part * string) :=
  let d := iteration_dir bal_env b i in
  let stats := stats_dir bal_env b i in
  [(PIteration i, join d "iteration.yaml"); (PGraph i, join d "graph.fmi"); (PEdges i, join d "edges-info.csv");
   (PContracted i, join d "graph.ch.fmi"); (PInfos i, join stats "edges-info.csv");
   (PWorkloads i, join stats "abs_workloads.csv"); (PVehicles i, join stats "smarts.xml")].
Definition places (b : balancing_doc) : list (part * string) :=
  [(PConfig, join bal_dir "config.yaml"); (PPairs, join bal_dir "10_000.route-pairs"); (PBalanced, join bal_dir "balanced_graph.fmi")] ++
  flat_map (files_of b) [0; 1; 2].

Definition bal_b : balancing_doc :=
  ltac:(let x := eval vm_compute in (read_balancing sc0 config_yaml) in match x with Ok ?b => exact b end).

Lemma read_as {A} (read : yaml -> res A) p t y a b : file_at bal_env new_world p = Some t -> e_yaml bal_env t = Some y -> read y = Ok a ->
  says bal_env new_world read p b -> b = a.
Proof. intros H1 H2 H3 (t' & y' & H4 & H5 & H6). congruence. Qed.
Ltac tell H := eapply read_as in H; [|vm_compute; reflexivity|vm_compute; reflexivity|vm_compute; reflexivity].

Lemma bal_says b : says bal_env new_world (read_balancing sc0) "config.yaml" b -> b = bal_b.
Proof. intros H. tell H. exact H. Qed.

Lemma bal_placed x p : placed bal_env new_world "config.yaml" bal_b x p -> In (x, p) (places bal_b).
Proof.
  assert (F : forall i, (N.of_nat i < bd_num_iter bal_b)%N -> forall y, In y (files_of bal_b i) -> In y (places bal_b)).
  { intros i Hi y Hy. apply in_or_app. right. apply in_flat_map. exists i. split; [|exact Hy]. change (bd_num_iter bal_b) with 3%N in Hi.
    assert (i = 0 \/ i = 1 \/ i = 2) as [->|[->| ->]] by lia; cbn; tauto. }
  assert (T : forall i, (N.of_nat i < bd_num_iter bal_b)%N ->
    (forall d, says bal_env new_world (read_writing_graph sc0) (template bal_b i) d -> gd_file d = "graph.fmi") /\
    (forall d, says bal_env new_world (read_writing_edges sc0) (template bal_b i) d -> ed_file d = "edges-info.csv")).
  { intros [|i] _; split; intros d Hd; tell Hd; rewrite Hd; reflexivity. }
  intros Hp. inversion Hp as [n Hn|r q n Hr Hq Hn|d n Hd Hn|i Hi|i d Hi Hd|i d Hi Hd|i Hi|i Hi|i Hi|i Hi]; clear Hp; subst x p.
  - injection Hn as <-. left. reflexivity.
  - tell Hr. rewrite Hr in Hq. injection Hq as <-. injection Hn as <-. right. left. reflexivity.
  - tell Hd. rewrite Hd in Hn. injection Hn as <-. right. right. left. reflexivity.
  - apply (F i Hi). left. reflexivity.
  - apply (T i Hi) in Hd. rewrite Hd. apply (F i Hi). right. left. reflexivity.
  - apply (T i Hi) in Hd. rewrite Hd. apply (F i Hi). right. right. left. reflexivity.
  - apply (F i Hi). right. right. right. left. reflexivity.
  - apply (F i Hi). right. right. right. right. left. reflexivity.
  - apply (F i Hi). right. right. right. right. right. left. reflexivity.
  - apply (F i Hi). right. right. right. right. right. right. left. reflexivity.
Qed.

Fixpoint apart (l : list (part * string)) : bool :=
  match l with
  | [] => true
  | x :: l => forallb (fun y => negb (String.eqb (snd x) (snd y))) l && apart l
  end.
Lemma apart_ok l : apart l = true -> forall x y p, In (x, p) l -> In (y, p) l -> x = y.
Proof.
  induction l as [|[z q] l IH]; intros H x y p Hx Hy; [destruct Hx|]. cbn [apart] in H. apply andb_prop in H. destruct H as [H1 H2].
  rewrite forallb_forall in H1. destruct Hx as [E|Hx], Hy as [E2|Hy]; [congruence| | |eauto].
  - injection E as -> ->. specialize (H1 _ Hy). cbn [snd] in H1. now rewrite String.eqb_refl in H1.
  - injection E2 as -> ->. specialize (H1 _ Hx). cbn [snd] in H1. now rewrite String.eqb_refl in H1.
Qed.

Lemma bal_room b : says bal_env new_world (read_balancing sc0) "config.yaml" b -> room bal_env new_world "config.yaml" b.
Proof.
  intros Hb. apply bal_says in Hb. subst b. split; [|split].
  - intros i Hi. destruct i as [|i]; vm_compute; discriminate.
  - intros x p Hp. apply bal_placed in Hp.
    assert (K : forallb (fun y => match w_files new_world (snd y) with None => true | Some _ => false end) (places bal_b) = true) by (vm_compute; reflexivity).
    rewrite forallb_forall in K. specialize (K _ Hp). cbn [snd] in K. change (w_files new_world p = None).
    destruct (w_files new_world p); [discriminate|reflexivity].
  - intros x y p q Hp Hq E. apply bal_placed in Hp. apply bal_placed in Hq. change (p = q) in E. subst q.
    eapply apart_ok; [|exact Hp|exact Hq]. vm_compute. reflexivity.
Qed.

(** the same without minimum; zeros aren't kept by reading, so all edges are used *)
Fixpoint without_min (y : yaml) : yaml :=
  match y with
  | YScalar p t => YScalar p t
  | YSeq l => YSeq (map without_min l)
  | YMap l => YMap ((fix go l := match l with
                                 | [] => []
                                 | x :: l => if String.eqb (fst x) "min_new_metric" then go l else (fst x, without_min (snd x)) :: go l
                                 end) l)
  end.
Definition free_map : text := T "6
4
5
0 0 1.5 2
1 1 1.5 3
2 2 2.5 3
3 3 2.5 2
7 0 1 1 0.5 1
8 1 2 1.25 0.5 2
9 0 3 2 0.75 1
6 2 3 0.5 0.25 1
5 3 2 0.75 0.5 1
".
Definition free_pairs : text := T "# pairs
4
0 2 2
0 3 3
1 3 1
3 2 4
".
Definition free_world : world :=
  {| w_files := fun k => if String.eqb k "resources/isle_of_man_2020-03-14/graph.fmi" then Some free_map
                         else if String.eqb k "resources/isle_of_man_2020-03-14/10_000.route-pairs" then Some free_pairs
                         else w_files new_world k; w_ops := 0 |}.
Definition free_env : env := {|
  e_resolve := e_resolve bal_env; e_fails := e_fails bal_env; e_torn := e_torn bal_env;
  e_yaml := fun t => option_map without_min (e_yaml bal_env t);
  e_scalars := e_scalars bal_env; e_pbf := e_pbf bal_env; e_parse_f64 := e_parse_f64 bal_env; e_show_f64 := e_show_f64 bal_env;
  e_show_ids := e_show_ids bal_env; e_hav := e_hav bal_env; e_dim := e_dim bal_env; e_chunk1 := e_chunk1 bal_env; e_chunk2 := e_chunk2 bal_env;
  e_pick := e_pick bal_env; e_fuel := e_fuel bal_env; e_tri := e_tri bal_env; e_tri_new := e_tri_new bal_env; e_tri_add := e_tri_add bal_env;
  e_tri_cells := e_tri_cells bal_env; e_solve := e_solve bal_env; e_rounds := e_rounds bal_env; e_sample := e_sample bal_env;
  e_work_off := e_work_off bal_env; e_contract := e_contract bal_env; e_date := e_date bal_env |}.
Definition free_b : balancing_doc :=
  ltac:(let x := eval vm_compute in (read_balancing sc0 (without_min config_yaml)) in match x with Ok ?b => exact b end).

(** what has been read and counted in an iteration, out of the files *)
Definition reread (e : env) (w : world) (b : balancing_doc) (i : nat) : res (graph * list nat * state) :=
  match read_in_ch_graph e bal_dir i w with
  | (_, Ok l) =>
      do r <- snd (load_routing e (ld_graph l) "config.yaml" w);
      do rc <- (match i with
                | O => do mi <- try_idx_of (ec_ids (cfg_edges (g_cfg (ld_graph l)))) (bc_metric (bd_cfg b));
                       do a <- set (rc_alphas (snd r)) mi f0;
                       Ok {| rc_algo := rc_algo (snd r); rc_alphas := a; rc_scales := rc_scales (snd r) |}
                | S _ => Ok (snd r)
                end);
      do ps <- snd (load_pairs e (fst r) w);
      do v <- e_work_off e (ld_graph l) rc ps (bd_threads b) (bd_seed b) i (md_smarts (bd_monitoring b));
      match update_new_metric i (fst v) (bd_cfg b) (ld_graph l) with
      | (Ok _, g) => Ok (ld_graph l, fst v, (ld_doc l, g))
      | _ => Panic
      end
  | _ => Panic
  end.
(** the files of both runs, and what is in them *)
Definition bal_end : world := fst new_run.
Definition free_end : world := fst (run free_env bal_args free_world).
Definition file_names (b : balancing_doc) : list string :=
  ["config.yaml"; bd_iter0 b; bd_iteri b; "resources/isle_of_man_2020-03-14/10_000.route-pairs"] ++ map snd (places b).
Definition table (w : world) : list (string * text) :=
  flat_map (fun p => match w_files w p with Some t => [(p, t)] | None => [] end) (file_names bal_b).
Definition bal_table := Eval vm_compute in table bal_end.
Definition free_table := Eval vm_compute in table free_end.

Ltac content r := let x := eval vm_compute in r in match x with Ok ?a => exact a end.
Definition bal_it0 : graph * list nat * state := ltac:(content (reread bal_env bal_end bal_b 0)).
Definition bal_it1 : graph * list nat * state := ltac:(content (reread bal_env bal_end bal_b 1)).
Definition free_it0 : graph * list nat * state := ltac:(content (reread free_env free_end free_b 0)).
Definition free_it1 : graph * list nat * state := ltac:(content (reread free_env free_end free_b 1)).
Definition bal_doc : parsing_doc := ltac:(content (read_parsing sc0 config_yaml)).
Definition bal_start : graph :=
  ltac:(content (fmi_graph (e_parse_f64 bal_env) (e_hav bal_env) (e_dim bal_env) (config_of bal_doc (map unmerged (gen_edges bal_doc))) 2 3 bal_map)).
Definition free_start : graph :=
  ltac:(content (fmi_graph (e_parse_f64 bal_env) (e_hav bal_env) (e_dim bal_env) (config_of bal_doc (map unmerged (gen_edges bal_doc))) 2 3 free_map)).

Ltac file T := apply T; vm_compute; reflexivity.
Fixpoint entry (l : list (string * text)) (p : string) : option text :=
  match l with [] => None | x :: l => if String.eqb p (fst x) then Some (snd x) else entry l p end.
Ltac said T := eexists; eexists; split; [file T|split; [vm_compute; reflexivity|vm_compute; reflexivity]].

Definition contraction (i : nat) : mch_doc :=
  match i with O => ltac:(content (mch_of free_b bal_dir 0)) | S _ => ltac:(content (mch_of free_b bal_dir 1)) end.
Definition steering (i : nat) : routing_cfg :=
  ltac:(content (do r <- read_routing_cfg sc0 (fun s => e_parse_f64 bal_env (list_ascii_of_string s)) (cfg_edges (g_cfg (fst (fst bal_it0)))) config_yaml;
                 Ok {| rc_algo := rc_algo (snd r); rc_alphas := match i with O => upd (rc_alphas (snd r)) 2 f0 | S _ => rc_alphas (snd r) end;
                       rc_scales := rc_scales (snd r) |})).
Ltac document T i rc :=
  do 5 eexists; exists (contraction i); do 5 eexists; exists rc; do 4 eexists;
  split; [file T|]; split; [file T|]; split; [said T|]; split; [vm_compute; reflexivity|]; split; [file T|];
  split; [said T|]; split; [vm_compute; reflexivity|]; split; [file T|];
  split; [vm_compute; reflexivity|]; split; [vm_compute; reflexivity|]; split; [vm_compute; reflexivity|];
  split; [file T|]; split; [vm_compute; reflexivity|]; split; [file T|];
  split; [said T|]; split; [do 2 eexists; split; [vm_compute; reflexivity|vm_compute; repeat split]|];
  split; [do 2 eexists; split; [file T|split; [repeat (apply Forall2_cons; [first [reflexivity|eexists; split; [file T|vm_compute; reflexivity]]|]); apply Forall2_nil|left; split; vm_compute; reflexivity]]|];
  split; [said T|];
  split; [first [reflexivity|split; [reflexivity|split; [reflexivity|exists 2; split; [reflexivity|split; [intros [|[|[|]]]; vm_compute; intros; congruence || lia|split; [vm_compute; lia|]]]]]; 
                 intros [|[|[|[|[|[|]]]]]]; reflexivity]|];
  split; [eexists; split; [file T|vm_compute; reflexivity]|];
  split; [vm_compute; reflexivity|]; split; [vm_compute; reflexivity|]; split; [vm_compute; reflexivity|];
  split; [file T|]; split; [file T|intros ? X; discriminate X].

Definition free_steps : list (graph * list nat) := [fst free_it0; fst free_it1].
Definition bal_steps : list (graph * list nat) := [fst bal_it0; fst bal_it1].
Lemma free_documented w : (forall p t, entry free_table p = Some t -> w_files w p = Some t) ->
  documented_from free_env w "config.yaml" free_b 0 (bal_doc, free_start) free_steps (snd free_it1).
Proof.
  intros T. apply (documented_cons _ _ _ _ _ _ _ _ (snd free_it0)); [document T 0 (steering 0)|].
  apply (documented_cons _ _ _ _ _ _ _ _ (snd free_it1)); [document T 1 (steering 1)|]. constructor.
Qed.
Lemma bal_documented w : (forall p t, entry bal_table p = Some t -> w_files w p = Some t) ->
  documented_from bal_env w "config.yaml" bal_b 0 (bal_doc, bal_start) bal_steps (snd bal_it1).
Proof.
  intros T. apply (documented_cons _ _ _ _ _ _ _ _ (snd bal_it0)); [document T 0 (steering 0)|].
  apply (documented_cons _ _ _ _ _ _ _ _ (snd bal_it1)); [document T 1 (steering 1)|]. constructor.
Qed.

Lemma entries_ok (f : string -> option text) l :
  forallb (fun x => match f (fst x) with Some t => text_eqb t (snd x) | None => false end) l = true ->
  forall p t, entry l p = Some t -> f p = Some t.
Proof.
  induction l as [|[q u] l IH]; intros H p t Ht; [discriminate|]. cbn [forallb fst snd] in H. apply andb_prop in H. destruct H as [H1 H2].
  cbn [entry fst snd] in Ht. destruct (String.eqb_spec p q) as [->|]; [|eauto]. injection Ht as <-.
  destruct (f q) as [v|]; [|discriminate]. apply ProofText.text_eqb_eq in H1. now subst.
Qed.
Lemma free_files p t : entry free_table p = Some t -> w_files free_end p = Some t.
Proof. apply entries_ok. vm_compute. reflexivity. Qed.
Lemma bal_files p t : entry bal_table p = Some t -> w_files bal_end p = Some t.
Proof. apply entries_ok. vm_compute. reflexivity. Qed.

(** graphs with the same edges whose metrics differ but in their fractions *)
Definition column (g : graph) (mi : nat) : list (option f64) := map (fun ms => nth_error ms mi) (metrics g).
Fixpoint alike (l l' : list (option f64)) : bool :=
  match l, l' with
  | [], [] => true
  | Some (Fin x) :: l, Some (Fin y) :: l' => Qeq_bool y x && alike l l'
  | _, _ => false
  end.
Lemma alike_nth l l' : alike l l' = true -> forall e x, nth_error l e = Some (Some (Fin x)) -> exists y, nth_error l' e = Some (Some (Fin y)) /\ (y == x)%Q.
Proof.
  revert l'. induction l as [|a l IH]; intros [|b l'] H e x Hx; try (destruct e; discriminate Hx).
  - destruct a as [[q| | |]|]; discriminate H.
  - cbn [alike] in H. destruct a as [[q| | |]|]; try discriminate H. destruct b as [[r| | |]|]; try discriminate H.
    apply andb_prop in H. destruct H as [H1 H2]. destruct e as [|e]; [|cbn [nth_error] in *; eauto]. injection Hx as <-. exists r. split; [reflexivity|].
    now apply Qeq_bool_iff.
Qed.
Lemma alike_finite g mi : alike (column g mi) (column g mi) = true -> finite_metric g mi.
Proof.
  intros H e He. assert (L : e < length (column g mi)) by (unfold column; now rewrite map_length).
  assert (F : forall l, alike l l = true -> forall e, e < length l -> exists x, nth_error l e = Some (Some (Fin x))).
  { clear. induction l as [|a l IH]; intros H e He; [cbn in He; lia|]. cbn [alike] in H. destruct a as [[q| | |]|]; try discriminate H.
    apply andb_prop in H. destruct e as [|e]; [exists q; reflexivity|]. apply IH; [apply H|cbn in He; lia]. }
  destruct (F _ H _ L) as [x Hx]. exists x. unfold column in Hx. rewrite nth_error_map in Hx.
  destruct (nth_error (metrics g) e) as [ms|] eqn:E; [|discriminate]. injection Hx as Hx. exists ms. split; [apply idx_ok, E|exact Hx].
Qed.
Lemma alike_kept id mi g ch : metric_at ch id mi -> metrics ch <> [] -> edge_ids g = edge_ids ch -> alike (column ch mi) (column ch mi) = true ->
  alike (column g mi) (column ch mi) = true -> PropsContracted.kept id mi g ch.
Proof.
  intros A B E F H. split; [exact A|]. split; [exact B|]. split; [apply alike_finite, F|]. intros k x (e & [C1 C2] & ms & M1 & M2).
  apply idx_ok in M1. destruct (alike_nth _ _ H e x) as (y & Hy & Q).
  { unfold column. rewrite nth_error_map, M1. cbn. now rewrite M2. }
  exists y. split; [exact Q|]. exists e. split.
  - unfold called_edge, edge_try_id in *. rewrite E in C1, C2. auto.
  - unfold column in Hy. rewrite nth_error_map in Hy. destruct (nth_error (metrics ch) e) as [ms'|] eqn:E'; [|discriminate].
    injection Hy as Hy. exists ms'. split; [apply idx_ok, E'|exact Hy].
Qed.

Ltac at_two := split; [vm_compute; reflexivity|intros [|[|?]] ?; [vm_compute; discriminate..|lia]].
Ltac carry := split; [split; [at_two|split; [discriminate|apply alike_finite; vm_compute; reflexivity]]|split; [vm_compute; reflexivity|]];
  split; [apply alike_kept; [at_two|discriminate|vm_compute; reflexivity..]|split; [vm_compute; reflexivity|exact I]].
Lemma free_carried : carried (bd_cfg free_b) 2 0 free_start free_steps.
Proof. carry. Qed.
Lemma bal_carried : carried (bd_cfg bal_b) 2 0 bal_start bal_steps.
Proof. carry. Qed.

(** The shipped documents for the Isle of Man, into a new directory: the program
    ends well, there is room, and two updates are documented. *)
Example C56_documented_case : only_balancing bal_args /\
  (forall b, says bal_env new_world (read_balancing (e_scalars bal_env)) (a_cfg bal_args) b -> room bal_env new_world (a_cfg bal_args) b) /\
  run bal_env bal_args new_world = (bal_end, Ok []) /\
  documented_from bal_env bal_end "config.yaml" bal_b 0 (bal_doc, bal_start) bal_steps (snd bal_it1) /\
  map snd bal_steps = [[2; 0; 3; 1; 4]; [0; 2; 1; 1; 4]] /\ bd_num_iter bal_b = 3%N.
Proof.
  split; [vm_compute; tauto|]. split; [exact bal_room|]. split; [|split; [apply bal_documented, bal_files|split; reflexivity]].
  assert (E : snd new_run = Ok []) by (vm_compute; reflexivity). rewrite <- E. unfold bal_end, new_run. apply surjective_pairing.
Qed.

(** without minimum: two updates, edge 5 has been used four times in both; the
    weights are the relative workloads' halves *)
Example C56_weights_case :
  documented_from free_env free_end "config.yaml" free_b 0 (bal_doc, free_start) free_steps (snd free_it1) /\
  carried (bd_cfg free_b) 2 0 free_start free_steps /\ pulls (bd_cfg free_b) /\ bc_min (bd_cfg free_b) = None /\
  map snd free_steps = [[2; 3; 3; 1; 4]; [2; 3; 3; 1; 4]] /\ edge_ids (snd (snd free_it1)) = [Some 7; Some 9; Some 8; Some 6; Some 5] /\
  map (option_map (fun x => match x with Fin q => Qred q | _ => 0%Q end)) (column (snd (snd free_it1)) 2) =
    map (fun ns => Some (Qred (weighted [5 # 26; 5 # 26] ns))) [[2; 2]; [3; 3]; [3; 3]; [1; 1]; [4; 4]].
Proof.
  split; [apply free_documented, free_files|]. split; [exact free_carried|]. split; [exact I|]. split; [reflexivity|]. split; [reflexivity|].
  split; [reflexivity|]. vm_compute. reflexivity.
Qed.

(** with the minimum 0.1: edge 6 has been used at most as often as edge 5 *)
Lemma called_at g k e ids : edge_ids g = ids -> nth_error ids e = Some (Some k) ->
  forallb (fun j => (j =? e) || negb (match nth_error ids j with Some (Some l) => l =? k | _ => false end)) (seq 0 (length ids)) = true ->
  called_edge g k e.
Proof.
  intros <- A U. split; [apply idx_ok, A|]. intros e' H. apply idx_ok in H. rewrite forallb_forall in U.
  assert (I : In e' (seq 0 (length (edge_ids g)))) by (apply in_seq; split; [lia|apply nth_error_Some; congruence]).
  specialize (U _ I). rewrite H, Nat.eqb_refl in U. destruct (Nat.eqb_spec e' e) as [|]; [assumption|discriminate].
Qed.
Ltac valued e := exists e; split; [eapply called_at; [vm_compute; reflexivity|reflexivity|reflexivity]|eexists; split; vm_compute; reflexivity].
Example C56_fair_case :
  documented_from bal_env bal_end "config.yaml" bal_b 0 (bal_doc, bal_start) bal_steps (snd bal_it1) /\
  carried (bd_cfg bal_b) 2 0 bal_start bal_steps /\ bc_method (bd_cfg bal_b) = Averaging /\ bc_min (bd_cfg bal_b) = Some (Fin (1 # 10)) /\
  value_of (fst (fst bal_it0)) 2 6 1 /\ value_of (fst (fst bal_it0)) 2 5 1 /\
  (forall st n n', In st bal_steps -> used st 6 n -> used st 5 n' -> n <= n') /\
  map (option_map (fun x => match x with Fin q => Qred q | _ => 0%Q end)) (column (snd (snd bal_it1)) 2) =
    map Some [25 # 51; 275 # 408; 285 # 272; 455 # 816; 455 # 204].
Proof.
  split; [apply bal_documented, bal_files|]. split; [exact bal_carried|]. split; [reflexivity|]. split; [reflexivity|].
  split; [valued 3|]. split; [valued 4|]. split; [|vm_compute; reflexivity].
  assert (L : forall g ws n n', edge_ids g = [Some 7; Some 9; Some 8; Some 6; Some 5] -> used (g, ws) 6 n -> used (g, ws) 5 n' ->
                nth_error ws 3 = Some n /\ nth_error ws 4 = Some n').
  { intros g ws n n' E U U'. destruct (ct_used _ _ _ _ _ E U) as (e & A & B). destruct (ct_used _ _ _ _ _ E U') as (e' & A' & B'). clear - A B A' B'.
    do 4 (destruct e as [|e]; [try discriminate A|]); [|destruct e as [|[|e]]; discriminate A].
    do 5 (destruct e' as [|e']; [try discriminate A'|]); [|destruct e'; discriminate A']. auto. }
  intros st n n' [<-|[<-|[]]] U U'.
  - destruct (L (fst (fst bal_it0)) (snd (fst bal_it0)) n n' eq_refl U U') as [E E']. injection E as <-. injection E' as <-. lia.
  - destruct (L (fst (fst bal_it1)) (snd (fst bal_it1)) n n' eq_refl U U') as [E E']. injection E as <-. injection E' as <-. lia.
Qed.
