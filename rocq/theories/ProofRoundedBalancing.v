(** Workers that calculate in `f64` work off any routes *)
From Coq Require Import String List Bool Arith ZArith QArith Lia NArith.
From Verif Require Import Base F64 Lib ModelApprox ModelUnits ModelConfig ModelGraph ModelBuild ModelDijkstra ModelExplorator ModelBalancing
  ModelHeap ModelRounded ModelRoundedHeap ModelRoundedExplorator ModelRoundedBalancing
  Spec SpecRouting SpecPaths SpecExplorator SpecCells SpecExploreEnds SpecBalancing SpecRounded SpecRoundedHeap SpecRoundedExplorator SpecRoundedBalancing
  ProofDijkstra ProofRouting ProofRounding64 ProofRoundedAny ProofRoundedExplorator ProofRoundedEnds ProofRoundedExploreEnds ProofRoundedWorks ProofRoundedExploreWorks
  PropsGraph PropsBalancing PropsExploring PropsCells PropsRounded PropsRoundedHeap PropsRoundedExplorator PropsRoundedAnswers.
Import ListNotations.
Open Scope list_scope.
Open Scope nat_scope.

(** without shortcuts, everything can be unpacked *)
Lemma flatten_plain g : (forall e, e < edge_count g FWD -> is_shortcut g e = Ok false) ->
  (forall e, e < edge_count g FWD -> exists ms, edge_metrics g e = Ok ms) ->
  forall stack top fuel acc costs, edges_exist g (top :: stack) -> length stack < fuel ->
  exists cs, flatten_loop g fuel top stack acc costs = Ok (acc ++ top :: stack, cs).
Proof.
  intros Hp Hm. induction stack as [|e stack IH]; intros top fuel acc costs He Hf; (destruct fuel as [|fuel]; [cbn [length] in Hf; lia|]); cbn [flatten_loop].
  - unfold sc_edges. rewrite (Hp top) by (apply He; now left). cbn [bind]. destruct (Hm top) as (ms & ->); [apply He; now left|]. cbn [bind]. eauto.
  - unfold sc_edges at 1. rewrite (Hp top) by (apply He; now left). cbn [bind]. destruct (Hm top) as (ms & ->); [apply He; now left|]. cbn [bind].
    destruct (IH e fuel (acc ++ [top]) (vadd_assign costs ms)) as (cs & ->); [intros x Hx; apply He; now right|cbn [length] in Hf; lia|].
    exists cs. now rewrite <- app_assoc.
Qed.
Lemma plain_unpackable g ff : (forall e, e < edge_count g FWD -> is_shortcut g e = Ok false) ->
  (forall e, e < edge_count g FWD -> exists ms, edge_metrics g e = Ok ms) ->
  (forall s l t, connects g s l t -> edges_exist g l) -> 2 * node_count g <= ff -> unpackable g ff.
Proof.
  intros Hp Hm Hc Hf s l t p Hl Hn Ep. specialize (Hc _ _ _ Hl). unfold flattens, flatten, try_flatten. rewrite Ep. destruct l as [|e l].
  - eexists. split; [reflexivity|]. intros e [].
  - destruct (flatten_plain g Hp Hm l e ff [] (repeat f0 (metric_dim g)) Hc) as (cs & ->); [cbn [length] in Hn; lia|]. cbn [bind].
    eexists. split; [reflexivity|]. exact Hc.
Qed.

Section Workers.
  Variables (hav : coord -> coord -> f64) (c : cfg) (ch1 ch2 : nat) (es : list proto_edge) (ns : list proto_node) (g0 g : graph).
  Hypotheses (H1 : 1 <= ch1) (H2 : 1 <= ch2) (E : build hav c ch1 ch2 es ns = Ok g0) (Hg : remeasured g0 g).
  Hypotheses (Hnn : nonneg_metrics g) (Hl : last_node_connected g) (Hn : node_count g <> 2).
  Variables (fuel ff : nat) (rc : routing_cfg) (routes : list route).
  Hypothesis (Hfuel : 2 + 2 * powers (edge_count g FWD) (node_count g) <= fuel).
  Hypothesis (Hdem : demanded g routes).
  Hypothesis (Hun : unpackable g ff).

  Let wf : wf_graph g := built_wf _ _ _ _ _ _ _ _ H1 H2 E Hg.
  Let rt : routable g := remeasured_routable _ _ _ _ _ _ _ _ H1 H2 E Hg Hl.

  Lemma rnew_ready : rready g dijkstra_new.
  Proof.
    split; [split; [constructor|]|].
    - intros H. exfalso. now apply Hn, Nat.eqb_eq.
    - intros _. unfold capacity. simpl. lia.
  Qed.
  Lemma rinto_node r s t : ends_of g r s t -> into_node g (fst r) = Ok (s, t) /\ s < node_count g /\ t < node_count g.
  Proof.
    intros [Hs Ht]. destruct Hg as (ms & mn & Lm & c1 & ids1 & im1 & Eg). split.
    - rewrite <- (into_node_ok _ _ _ _ _ _ _ H1 H2 E (fst r) s t); [rewrite Eg; reflexivity| |].
      + rewrite <- Hs, Eg. reflexivity.
      + rewrite <- Ht, Eg. reflexivity.
    - unfold node_id in Hs, Ht. apply idx_ok in Hs, Ht. unfold node_count. split; apply nth_error_Some; congruence.
  Qed.

  (** *** Dijkstra *)
  Section Dijkstra.
    Hypothesis (Halgo : forall i, rc_algo rc <> AExplorator i).

    Lemma rroute_works st o r : rready g st -> In r routes ->
      exists st' ps, rdijkstra_route ieee fuel g rc (st, o) r = Ok (st', {| oc_chosen := oc_chosen o ++ ps; oc_found := oc_found o ++ ones [ps] |}) /\
        rready g st' /\ served fuel g rc r ps /\ forall p, In p ps -> exists p', flattens g ff p p'.
    Proof.
      intros [[Hh Hr] Hc] Hin. destruct (Hdem r Hin) as (Hpos & s & t & Hends). destruct (rinto_node r s t Hends) as (Ei & Hs & Ht).
      unfold rdijkstra_route. rewrite Ei. cbn [bind fst snd].
      destruct (ofin_path_h_works u64 eta64 rnd64 top64 rounding64 top64_nonneg g fuel st rc s t wf rt Hnn Hh Hr Hc Hs Ht Halgo Hfuel) as (st' & a & Ec).
      change (ofin rnd64 top64) with ieee in Ec. rewrite Ec. cbn [bind fst snd].
      assert (Hready : rready g st') by (split; [exact (rcapacity_after _ _ _ _ _ _ _ _ _ Hh Hr Ec)|exact (rcapacity_fits _ _ _ _ _ _ _ _ _ Hh Hc Ec)]).
      destruct a as [p|].
      - destruct (any_path_h ieee g fuel st rc s t st' p eq_refl eq_refl wf Hh Hr Hs Ht Ec) as (A1 & A2 & _ & _ & _ & A6 & A7).
        destruct (snd r) as [|n] eqn:En; [lia|]. cbn [Nat.eqb]. exists st', (repeat p (S n)). split.
        { f_equal. f_equal. f_equal. f_equal. cbn [Nat.sub]. rewrite Nat.sub_0_r. clear. induction n as [|n IH]; cbn [repeat app]; auto. now rewrite IH. }
        split; auto. split.
        + exists s, t, st, st', (Some p). do 3 (split; [assumption|]). split; [now rewrite En|]. intros p' Hp'. apply repeat_spec in Hp'. subst p'. auto.
        + intros p' Hp'. apply repeat_spec in Hp'. subst p'. exact (Hun s _ t p A6 A7 eq_refl).
      - exists st', []. split; [cbn [ones flat_map app]; rewrite !app_nil_r; destruct o; reflexivity|]. split; auto. split; [|intros ? []].
        exists s, t, st, st', None. do 3 (split; [assumption|]). split; [reflexivity|intros ? []].
    Qed.

    Lemma rroutes_work rs : forall st o, rready g st -> incl rs routes ->
      exists st' pss, foldM (rdijkstra_route ieee fuel g rc) rs (st, o) = Ok (st', {| oc_chosen := oc_chosen o ++ concat pss; oc_found := oc_found o ++ ones pss |}) /\
        rready g st' /\ Forall2 (served fuel g rc) rs pss /\ forall ps p, In ps pss -> In p ps -> exists p', flattens g ff p p'.
    Proof.
      induction rs as [|r rs IH]; intros st o Hr Hin.
      - exists st, []. cbn [foldM concat ones flat_map]. rewrite !app_nil_r. destruct o. split; [reflexivity|]. split; auto. split; [constructor|intros ? ? []].
      - destruct (rroute_works st o r Hr (Hin r (or_introl eq_refl))) as (st1 & ps & E1 & R1 & S1 & F1). cbn [foldM]. rewrite E1. cbn [bind].
        destruct (IH st1 {| oc_chosen := oc_chosen o ++ ps; oc_found := oc_found o ++ ones [ps] |} R1) as (st2 & pss & E2 & R2 & S2 & F2).
        { intros x Hx. apply Hin. now right. }
        exists st2, (ps :: pss). rewrite E2. cbn [oc_chosen oc_found concat]. rewrite app_assoc. unfold ones at 3. cbn [flat_map]. fold (ones pss).
        rewrite <- (app_assoc (oc_found o)). unfold ones at 1. cbn [flat_map]. rewrite app_nil_r. split; [reflexivity|]. split; auto. split; [now constructor|].
        intros ps' p [<-|Hps] Hp; eauto.
    Qed.

    Lemma rdijkstra_works st w : rready g st -> incl (wk_routes w) routes ->
      exists st' o pss, rwork_with_dijkstra ieee fuel g rc st w = Ok (st', o) /\ rready g st' /\ oc_chosen o = concat pss /\
        Forall2 (served fuel g rc) (wk_routes w) pss /\ oc_found o = ones pss /\ forall ps p, In ps pss -> In p ps -> exists p', flattens g ff p p'.
    Proof.
      intros Hr Hin. destruct (rroutes_work (wk_routes w) st {| oc_chosen := []; oc_found := [] |} Hr Hin) as (st' & pss & A & B & C & D).
      eexists st', _, pss. unfold rwork_with_dijkstra. split; [exact A|]. cbn [oc_chosen oc_found app]. auto.
    Qed.

    Lemma rdijkstra_steady : steady g ff (rwork_with_dijkstra ieee fuel g rc) routes (rready g).
    Proof.
      split; [exact rnew_ready|]. intros st w Hr Hin. destruct (rdijkstra_works st w Hr Hin) as (st' & o & pss & A & B & C & _ & _ & D).
      exists st', o. split; auto. split; auto. intros p Hp. rewrite C in Hp. apply in_concat in Hp. destruct Hp as (ps & X & Y). eauto.
    Qed.
  End Dijkstra.

  (** *** Explorator *)
  Section Explorator.
    Variable T : Type.
    Variable tri_new : nat -> T.
    Variable tri_add : T -> list f64 -> option (T * nat).
    Variable tri_cells : T -> list (nat * list nat).
    Variable solve : list (list f64) -> list f64 -> option (list f64).
    Variable rounds : nat.
    Variable sample : nat -> nat -> nat -> nat.
    Hypothesis Hsample : forall seed k n, 0 < n -> sample seed k n < n.
    Hypotheses (Hal : aligned_metrics g) (H32 : metric_dim g < 32).
    Hypotheses (Hids : fresh_ids T tri_new tri_add) (Hcells : no_new_cells T tri_new tri_add tri_cells).
    Hypotheses (Htakes : takes_points T tri_add (considered_metrics (flags rc))) (Hsound : sound_cells T tri_new tri_add tri_cells (flags rc)).
    Hypotheses (Ha : length (rc_alphas rc) = metric_dim g) (Hsc : length (rc_scales rc) = metric_dim g).
    Hypothesis Hrounds : renough_rounds g <= rounds.
    Let xpl := rexplored fuel g rc T tri_new tri_add tri_cells solve rounds.
    Let xroute := rexplorator_route ieee fuel g rc T tri_new tri_add tri_cells solve rounds sample.

    Lemma inner_plain i : rc_algo (inner_cfg rc) <> AExplorator i.
    Proof. unfold inner_cfg. cbn. destruct (rc_algo rc) as [| |[]]; discriminate. Qed.

    Lemma rxroute_works seed st k o r : rready g st -> In r routes ->
      exists st' now found, xroute seed (st, k, o) r =
        Ok (st', k + length now, {| oc_chosen := oc_chosen o ++ now; oc_found := oc_found o ++ [length found] |}) /\ rready g st' /\ xpl r found /\
        (forall p, In p found -> exists p', flattens g ff p p') /\
        (found = [] /\ now = [] \/ found <> [] /\ length now = snd r /\
         forall i, i < snd r -> exists p, nth_error now i = Some p /\ nth_error found (sample seed (k + i) (length found)) = Some p).
    Proof.
      intros Hready Hin. destruct (Hdem r Hin) as (_ & s & t & Hends). destruct (rinto_node r s t Hends) as (Ei & Hs & Ht).
      unfold xroute, rexplorator_route. rewrite Ei. cbn [bind fst snd].
      destruct (rexploration_works u64 eta64 rnd64 top64 g fuel T tri_new tri_add tri_cells solve rounds (inner_cfg rc) s t st rounding64 top64_nonneg
        wf rt Hnn Hal H32 Hids Hcells Htakes Hsound Hready Hs Ht Ha Hsc inner_plain Hfuel Hrounds) as (st' & found & Ex & Hready').
      change (ofin rnd64 top64) with ieee in Ex. rewrite Ex. cbn [bind fst snd]. destruct Hready as [[Hh Hr] Hc].
      destruct (rrun_spec T tri_new tri_add tri_cells solve hav c ch1 ch2 es ns ieee fuel rounds g0 g _ s t st st' found eq_refl eq_refl Hids H1 H2 E Hg Hal Hh Hr Hs Ht Ex)
        as (st1 & tol & new & _ & _ & Hroad).
      assert (Hx : xpl r found).
      { exists s, t, st, st'. do 3 (split; [assumption|]). intros p Hp. destruct (Hroad p Hp) as ((( A & B & _ & _ & C & _) & _) & _). auto. }
      assert (Hf : forall p, In p found -> exists p', flattens g ff p p').
      { intros p Hp. destruct (Hroad p Hp) as (((_ & _ & _ & _ & C & _) & L) & _). exact (Hun s _ t p C L eq_refl). }
      clear Hroad Ex. destruct found as [|p0 others].
      - cbn [length Nat.ltb Nat.leb]. exists st', [], []. cbn [length]. rewrite app_nil_r, Nat.add_0_r.
        split; [reflexivity|]. split; [assumption|]. split; [exact Hx|]. split; [exact Hf|]. left. auto.
      - set (fd := p0 :: others) in *. assert (Hne : fd <> []) by (unfold fd; discriminate). replace (0 <? length fd) with true by reflexivity.
        destruct (draw_total ch1 ch2 g H1 H2 Hn sample Hsample seed (snd r) fd Hne k) as (now & Ed & Ln & Hi). rewrite Ed. cbn [bind]. exists st', now, fd. rewrite Ln.
        split; [reflexivity|]. split; [assumption|]. split; [exact Hx|]. split; [exact Hf|]. right. auto.
    Qed.

    Lemma rxroutes_work seed rs : forall st k o, rready g st -> incl rs routes ->
      exists st' k' now fs, foldM (xroute seed) rs (st, k, o) =
        Ok (st', k', {| oc_chosen := oc_chosen o ++ now; oc_found := oc_found o ++ map (@length path) fs |}) /\ rready g st' /\
        Forall2 xpl rs fs /\ drawn sample seed k (map snd rs) fs now /\
        forall found p, In found fs -> In p found -> exists p', flattens g ff p p'.
    Proof.
      induction rs as [|r rs IH]; intros st k o Hr Hin.
      - exists st, k, [], []. cbn. rewrite !app_nil_r. destruct o. split; [auto|]. split; [auto|]. split; [constructor|]. split; [constructor|intros ? ? []].
      - destruct (rxroute_works seed st k o r Hr (Hin r (or_introl eq_refl))) as (st1 & now & found & E1 & R1 & X1 & F1 & Hd).
        destruct (IH st1 (k + length now) {| oc_chosen := oc_chosen o ++ now; oc_found := oc_found o ++ [length found] |} R1)
          as (st2 & k2 & later & fs & E2 & R2 & X2 & D & F2); [intros x Hx; apply Hin; now right|].
        exists st2, k2, (now ++ later), (found :: fs). cbn [foldM]. rewrite E1. cbn [bind]. rewrite E2. cbn [oc_chosen oc_found map]. rewrite <- !app_assoc.
        split; [reflexivity|]. split; [auto|]. split; [now constructor|]. split; [|intros f p [<-|Hf] Hp; eauto]. destruct Hd as [[-> ->]|(Hne & Ln & Hi)].
        + cbn [app length] in *. rewrite Nat.add_0_r in D. now constructor.
        + rewrite Ln in D. constructor; auto.
    Qed.

    Lemma rexplorator_works st w : rready g st -> incl (wk_routes w) routes ->
      exists st' o fs, rwork_with_explorator ieee fuel g rc T tri_new tri_add tri_cells solve rounds sample st w = Ok (st', o) /\ rready g st' /\
        Forall2 xpl (wk_routes w) fs /\ oc_found o = map (@length path) fs /\ drawn sample (wk_seed w) 0 (map snd (wk_routes w)) fs (oc_chosen o) /\
        forall found p, In found fs -> In p found -> exists p', flattens g ff p p'.
    Proof.
      intros Hr Hin. destruct (rxroutes_work (wk_seed w) (wk_routes w) st 0 {| oc_chosen := []; oc_found := [] |} Hr Hin)
        as (st' & k & now & fs & A & B & C & D & F).
      unfold rwork_with_explorator. fold xroute. rewrite A. cbn [bind fst snd]. eexists st', _, fs. split; [reflexivity|]. auto 6.
    Qed.

    Lemma rexplorator_steady : steady g ff (rwork_with_explorator ieee fuel g rc T tri_new tri_add tri_cells solve rounds sample) routes (rready g).
    Proof.
      split; [exact rnew_ready|]. intros st w Hr Hin. destruct (rexplorator_works st w Hr Hin) as (st' & o & fs & A & B & _ & _ & D & F).
      exists st', o. split; auto. split; auto. intros p Hp. destruct (drawn_in _ _ _ _ _ _ _ D Hp) as (found & X & Y). eauto.
    Qed.
  End Explorator.
End Workers.
