(** From simulated queries to statements about paths; reuse of a Dijkstra *)
From Coq Require Import String List Bool Arith ZArith QArith Lia Lqa Permutation Sorted.
From Verif Require Import Base F64 Lib ModelUnits ModelConfig ModelGraph ModelBuild Spec ProofBuild ProofGraph ProofProps PropsGraph
  ModelDijkstra AbsSearch SpecRouting ProofDijkstra.
Import ListNotations.
Open Scope list_scope.
Open Scope nat_scope.

(** *** queues *)
Lemma pops_pick (pick : nat -> list costnode -> nat) k q v c d :
  nth_error q (pick k (map conc q)) = Some (v, c, d) -> pops q v c d (remove_nth (pick k (map conc q)) q).
Proof. intros H. now apply remove_nth_perm. Qed.
Lemma remove_nth_in {A} (l : list A) : forall i x, In x (remove_nth i l) -> In x l.
Proof. induction l as [|y l IH]; intros [|i] x H; simpl in *; auto. destruct H as [<-|H]; eauto. Qed.
Lemma near_pick delta (pick : nat -> list costnode -> nat) k q v c d : picks_min delta pick ->
  nth_error q (pick k (map conc q)) = Some (v, c, d) -> near_min delta q v c d (remove_nth (pick k (map conc q)) q).
Proof.
  intros [Hv Hm] H. split; [now apply pops_pick|]. intros e He. apply remove_nth_in in He.
  apply (map_nth_error conc) in H. destruct e as [[v' c'] d'].
  apply (Hm k (map conc q) _ c _ c' H eq_refl (in_map conc _ _ He)). reflexivity.
Qed.

(** *** built graphs *)
Lemma normalize_length g g' : normalize g = Ok g' -> length (metrics g') = length (metrics g).
Proof.
  unfold normalize. destruct (ec_normalized _); [|intros E; injection E as <-; auto].
  destruct (edge_count g FWD =? 0); [discriminate|]. destruct (existsb _ _); [discriminate|].
  intros E. apply bind_ok in E. destruct E as (ms & A & E). injection E as <-. simpl. now apply mapM_length in A.
Qed.

Lemma build_wf hav c ch1 ch2 es ns g :
  1 <= ch1 -> 1 <= ch2 -> build hav c ch1 ch2 es ns = Ok g -> wf_graph g.
Proof.
  intros H1 H2 E.
  assert (Hcnt : edge_count g BWD = edge_count g FWD).
  { destruct (build_spec _ _ _ _ _ _ _ H1 H2 E) as (b & g0 & K & _ & _ & Hcore & Hnet & _).
    rewrite !(net_edge_count g0 g) by auto. now rewrite !(core_edge_count es b c K g0 Hcore). }
  assert (Hlt : forall d e v, dst_idx g d e = Ok v -> e < edge_count g FWD).
  { intros d e v H. apply idx_ok in H. assert (e < edge_count g d) by (apply nth_error_Some; congruence).
    destruct d; auto. now rewrite <- Hcnt. }
  assert (Hm : length (metrics g) = edge_count g FWD).
  { destruct (build_normalized_split _ _ _ _ _ _ _ E) as (b & g0 & g1 & Eb & Hb & E0 & E1 & E2 & _).
    destruct (build_generated _ _ _ _ _ _ _ _ H1 H2 Hb E0 E1) as [_ Hl].
    rewrite (normalize_length _ _ E2), Hl. destruct (normalize_net _ _ E2) as [Hn _]. now rewrite (net_edge_count g1 g) by auto. }
  constructor; auto.
  - intros d v Hv. destruct (build_starting _ _ _ _ _ _ _ d v H1 H2 E Hv) as [[_ (l & A & B & C)]|[Hn Hp]].
    + left. eauto.
    + right. split; auto. intros e He. apply Hn. eauto.
  - intros d e v H. split.
    + destruct (C07_edge_ends _ _ _ _ _ _ _ e H1 H2 E (Hlt _ _ _ H)) as (_ & x & y & [A B] & Hx & Hy & _).
      destruct d; [assert (v = y) by congruence|assert (v = x) by congruence]; subst; auto.
    + apply (build_dst_total _ _ _ _ _ _ _ (opp d) e v H1 H2 E). now rewrite opp_opp.
  - destruct (build_nodes _ _ _ _ _ _ _ H1 H2 E) as (_ & _ & _ & A & _). exact A.
  - intros d e v H. apply Hlt in H. rewrite <- Hm in H.
    destruct (nth_error (metrics g) e) as [ms|] eqn:En; [|apply nth_error_None in En; lia].
    exists ms. now apply idx_ok.
  - intros d v l. now apply (build_starting_levels _ _ _ _ _ _ _ d v l H1 H2 E).
Qed.

Lemma routable_last hav c ch1 ch2 es ns g :
  1 <= ch1 -> 1 <= ch2 -> build hav c ch1 ch2 es ns = Ok g -> last_node_connected g -> routable g.
Proof.
  intros H1 H2 E Hl d v Hv Hp. destruct (Hl v Hv) as [(e & x & y & [A B] & Hx) (e' & x' & y' & [A' B'] & Hy)].
  destruct (build_starting _ _ _ _ _ _ _ d v H1 H2 E Hv) as [[_ (l & El & _)]|[Hn _]]; [congruence|].
  apply Hn. destruct d; simpl; eauto.
Qed.

(** *** arrays of a Dijkstra between two queries *)
Record clean (L : nat) (st : dijkstra) : Prop := mkClean {
  c_cost : forall d, length (get (dj_costs st) d) = L;
  c_pred : forall d, length (get (dj_preds st) d) = L;
  c_touch : forall d v, In v (get (dj_touched st) d) -> v < L;
  c_clean : forall d v, v < L -> ~ In v (get (dj_touched st) d) ->
    nth_error (get (dj_costs st) d) v = Some PInf /\ nth_error (get (dj_preds st) d) v = Some None;
}.

Lemma clean_new : clean 0 dijkstra_new.
Proof.
  constructor.
  - intros []; reflexivity.
  - intros []; reflexivity.
  - intros [] v [].
  - intros d v Hv. lia.
Qed.

Lemma relax_edge_clean L enq d e v nc st st' : clean L st -> relax_edge enq d e v nc st = Ok st' ->
  clean L st' /\ dj_ch st' = dj_ch st.
Proof.
  intros H E. unfold relax_edge in E. apply bind_ok in E. destruct E as (old & E0 & E).
  destruct (fltb nc old); [|injection E as <-; auto].
  apply bind_ok in E. destruct E as (ps & Eps & E). apply bind_ok in E. destruct E as (cs & Ecs & E).
  injection E as <-. split; [|reflexivity].
  apply set_ok in Eps. destruct Eps as [Hv ->]. apply set_ok in Ecs. destruct Ecs as [Hv' ->].
  constructor; cbn [dj_costs dj_preds dj_touched]; intros d'; rewrite !get_put; destruct (dir_eqb_spec d d') as [<-|Hd];
    try apply H.
  - rewrite upd_length. apply H.
  - rewrite upd_length. apply H.
  - intros x Hx. apply in_app_or in Hx. destruct Hx as [Hx|[<-|[]]]; [now apply (c_touch _ _ H d)|].
    now rewrite (c_cost _ _ H) in Hv'.
  - intros x Hx Hn. assert (x <> v) by (intros ->; apply Hn; apply in_or_app; right; now left).
    rewrite !nth_error_upd_neq by auto. apply (c_clean _ _ H); auto. intros Hi. apply Hn. apply in_or_app. now left.
Qed.

Lemma relax_clean L g alphas enq c es : forall st st', clean L st -> relax g alphas enq c es st = Ok st' ->
  clean L st' /\ dj_ch st' = dj_ch st.
Proof.
  induction es as [|e es IH]; intros st st' H E; cbn [relax] in E; [injection E as <-; auto|].
  apply bind_ok in E. destruct E as (v & _ & E). apply bind_ok in E. destruct E as (down & _ & E).
  destruct down; [injection E as <-; auto|].
  apply bind_ok in E. destruct E as (ms & _ & E). apply bind_ok in E. destruct E as (st1 & E1 & E).
  destruct (relax_edge_clean _ _ _ _ _ _ _ _ H E1) as [H1 C1]. destruct (IH _ _ H1 E) as [H2 C2]. split; [auto|congruence].
Qed.

Lemma iteration_clean L g alphas st best c st' best' : clean L st -> iteration g alphas st best c = Ok (st', best') ->
  clean L st' /\ dj_ch st' = dj_ch st.
Proof.
  intros H E. unfold iteration in E. apply bind_ok in E. destruct E as (imp & _ & E).
  destruct imp; cbn [negb] in E; [|injection E as <- _; auto].
  apply bind_ok in E. destruct E as (st1 & E1 & E).
  assert (H1 : clean L st1 /\ dj_ch st1 = dj_ch st).
  { unfold visit in E1. destruct (dj_ch st) eqn:Ec; [injection E1 as <-; auto|].
    apply bind_ok in E1. destruct E1 as (v & _ & E1). injection E1 as <-. split; [constructor; apply H|auto]. }
  destruct H1 as [H1 C1]. apply bind_ok in E. destruct E as ([b1 over] & _ & E). destruct over.
  - injection E as <- _. split; [constructor; apply H1|auto].
  - apply bind_ok in E. destruct E as (es & _ & E). apply bind_ok in E. destruct E as (st2 & E2 & E). injection E as <- _.
    destruct (relax_clean _ _ _ _ _ _ _ _ H1 E2). split; [auto|congruence].
Qed.

Lemma search_clean pick L g alphas fuel : forall k st best st' best', clean L st ->
  search pick g alphas fuel k st best = Ok (st', best') -> clean L st'.
Proof.
  induction fuel as [|fuel IH]; intros k st best st' best' H E; cbn [search] in E.
  - destruct (dj_queue st); [injection E as <- _; auto|discriminate].
  - destruct (dj_queue st) as [|c0 q0]; [injection E as <- _; auto|].
    apply bind_ok in E. destruct E as (cn & _ & E).
    assert (H0 : forall q, clean L (with_queue st q)) by (intros; constructor; apply H).
    destruct (has_found _); [injection E as <- _; auto|].
    apply bind_ok in E. destruct E as ([st1 b1] & E1 & E). cbn [fst snd] in E.
    eapply IH; [|exact E]. eapply iteration_clean; [apply H0|eauto].
Qed.

Lemma start_clean L s t st st' : clean L st -> start s t st = Ok st' -> clean L st' /\ dj_ch st' = dj_ch st.
Proof.
  intros H E. unfold start in E. apply bind_ok in E. destruct E as (cf & Ef & E). apply bind_ok in E. destruct E as (cb & Eb & E).
  injection E as <-. split; [|reflexivity].
  apply set_ok in Ef. destruct Ef as [Hs ->]. apply set_ok in Eb. destruct Eb as [Ht ->].
  pose proof (c_cost _ _ H FWD) as LF. pose proof (c_cost _ _ H BWD) as LB. simpl in LF, LB.
  constructor; cbn [dj_costs dj_preds dj_touched].
  - intros []; simpl; now rewrite upd_length.
  - apply H.
  - intros [] v; simpl; intros Hv; apply in_app_or in Hv; destruct Hv as [Hv|[<-|[]]]; try lia.
    + now apply (c_touch _ _ H FWD).
    + now apply (c_touch _ _ H BWD).
  - intros d v Hv Hn.
    assert (Hn' : ~ In v (get (dj_touched st) d) /\ v <> match d with FWD => s | BWD => t end).
    { split; intros Hx; apply Hn; destruct d; simpl in *; apply in_or_app; subst; simpl; auto. }
    destruct Hn' as [Hn1 Hn2]. destruct (c_clean _ _ H d v Hv Hn1) as [A B]. split; auto.
    destruct d; simpl in *; rewrite nth_error_upd_neq; auto.
Qed.

Lemma list_ext {A} (l l' : list A) : length l = length l' ->
  (forall i, i < length l -> nth_error l i = nth_error l' i) -> l = l'.
Proof.
  revert l'. induction l as [|x l IH]; intros [|y l'] Hl H; simpl in *; try discriminate; auto.
  assert (E := H 0 ltac:(lia)). simpl in E. injection E as <-. f_equal. apply IH; [lia|].
  intros i Hi. apply (H (S i)). lia.
Qed.
Lemma nth_repeat {A} (x : A) n i : i < n -> nth_error (repeat x n) i = Some x.
Proof. revert i. induction n; intros [|i] H; simpl; try lia; auto. apply IHn. lia. Qed.
Lemma resize_length {A} n (x : A) l : length (resize n x l) = n.
Proof. unfold resize. rewrite app_length, firstn_length, repeat_length. lia. Qed.
Lemma nth_resize {A} n (x : A) l i : i < n ->
  nth_error (resize n x l) i = if i <? length l then nth_error l i else Some x.
Proof.
  intros Hi. unfold resize. destruct (Nat.ltb_spec i (length l)) as [Hl|Hl].
  - rewrite nth_error_app1 by (rewrite firstn_length; lia).
    revert n i Hi Hl. clear. induction l as [|y l IH]; intros [|n] [|i] Hi Hl; simpl in *; try lia; auto. apply IH; lia.
  - rewrite nth_error_app2 by (rewrite firstn_length; lia). apply nth_repeat. rewrite firstn_length. lia.
Qed.

Lemma reset_spec touched : forall cs ps cs' ps', length ps = length cs ->
  reset_touched touched cs ps = Ok (cs', ps') ->
  length cs' = length cs /\ length ps' = length cs /\ (forall v, In v touched -> v < length cs) /\
  forall v, v < length cs ->
    (In v touched -> nth_error cs' v = Some PInf /\ nth_error ps' v = Some None) /\
    (~ In v touched -> nth_error cs' v = nth_error cs v /\ nth_error ps' v = nth_error ps v).
Proof.
  induction touched as [|i touched IH]; intros cs ps cs' ps' Hl E.
  - injection E as <- <-. split; [auto|]. split; [auto|]. split; [intros v []|]. intros v _. split; [intros []|auto].
  - unfold reset_touched in E. cbn [foldM fst snd] in E. apply bind_ok in E. destruct E as (acc & E0 & E).
    apply bind_ok in E0. destruct E0 as (c1 & E1 & E0). apply bind_ok in E0. destruct E0 as (p1 & E2 & E0). injection E0 as <-.
    apply set_ok in E1. destruct E1 as [Hi ->]. apply set_ok in E2. destruct E2 as [Hi' ->].
    destruct (IH (upd cs i PInf) (upd ps i None) cs' ps') as (A & B & C & D); [now rewrite !upd_length|exact E|].
    rewrite upd_length in *. split; [auto|]. split; [auto|]. split; [intros v [<-|Hv]; auto|].
    intros v Hv. destruct (D v Hv) as [D1 D2].
    destruct (in_dec Nat.eq_dec v touched) as [Hin|Hni].
    + split; [auto|]. intros Hn. exfalso. apply Hn. now right.
    + destruct (D2 Hni) as [D3 D4]. destruct (Nat.eq_dec i v) as [<-|Hne].
      * split; [|intros Hn; exfalso; apply Hn; now left]. intros _. rewrite D3, D4. split; apply nth_error_upd_eq; lia.
      * rewrite !nth_error_upd_neq in * by auto. split; [intros [->|Hx]; [congruence|contradiction]|auto].
Qed.
Lemma reset_total touched : forall cs ps, length ps = length cs -> (forall v, In v touched -> v < length cs) ->
  exists r, reset_touched touched cs ps = Ok r.
Proof.
  induction touched as [|i touched IH]; intros cs ps Hl H; [eexists; reflexivity|].
  unfold reset_touched. cbn [foldM fst snd].
  assert (i < length cs) by (apply H; now left). rewrite !set_lt by lia. cbn [bind].
  apply (IH (upd cs i PInf) (upd ps i None)); rewrite !upd_length; auto. intros v Hv. apply H. now right.
Qed.

(** arrays without any trace of former queries *)
Definition blank (ch : bool) (K : nat) (vis : two (list bool)) : dijkstra :=
  {| dj_ch := ch; dj_queue := []; dj_costs := mkTwo (repeat PInf K) (repeat PInf K);
     dj_preds := mkTwo (repeat None K) (repeat None K); dj_visited := vis;
     dj_found := mkTwo false false; dj_touched := mkTwo [] [] |}.

Definition new_size (L n : nat) : nat := if 2 =? n then L else n.
Definition new_visited (ch : bool) (n : nat) (vis : two (list bool)) : two (list bool) :=
  if ch then vis else mkTwo (repeat false n) (repeat false n).

Lemma map_const_repeat {A B} (x : B) (l : list A) : map (fun _ => x) l = repeat x (length l).
Proof. induction l; simpl; congruence. Qed.

(** one direction *)
Lemma init_dir_arrays L n cs ps touched cs' ps' :
  length cs = L -> length ps = L ->
  (forall v, v < L -> ~ In v touched -> nth_error cs v = Some PInf /\ nth_error ps v = Some None) ->
  reset_touched touched (if 2 =? n then cs else resize n PInf cs) (if 2 =? n then ps else resize n None ps) = Ok (cs', ps') ->
  cs' = repeat PInf (new_size L n) /\ ps' = repeat None (new_size L n).
Proof.
  intros Lc Lp H E.
  assert (Hl1 : length (if 2 =? n then cs else resize n PInf cs) = new_size L n)
    by (unfold new_size; destruct (2 =? n); auto; apply resize_length).
  assert (Hl2 : length (if 2 =? n then ps else resize n None ps) = new_size L n)
    by (unfold new_size; destruct (2 =? n); auto; apply resize_length).
  destruct (reset_spec _ _ _ _ _ (eq_trans Hl2 (eq_sym Hl1)) E) as (A & B & _ & D). rewrite Hl1 in *.
  assert (Hv : forall v, v < new_size L n -> nth_error cs' v = Some PInf /\ nth_error ps' v = Some None).
  { intros v Hv. destruct (D v Hv) as [D1 D2]. destruct (in_dec Nat.eq_dec v touched) as [Hin|Hni]; [auto|].
    destruct (D2 Hni) as [-> ->]. unfold new_size in Hv. destruct (2 =? n); [apply H; auto; lia|].
    rewrite !nth_resize by auto. rewrite Lc, Lp. destruct (Nat.ltb_spec v L); auto. }
  split; apply list_ext; rewrite ?repeat_length; auto; intros i Hi; rewrite nth_repeat by lia; apply Hv; lia.
Qed.

Lemma init_query_spec L n ch st st0 : clean L st -> init_query n (with_ch st ch) = Ok st0 ->
  st0 = blank ch (new_size L n) (new_visited ch n (dj_visited st)).
Proof.
  intros H E. unfold init_query in E. apply bind_ok in E. destruct E as (st1 & E1 & E).
  apply bind_ok in E. destruct E as (st2 & E2 & E). injection E as <-.
  unfold init_dir in E1. apply bind_ok in E1. destruct E1 as ([cf pf] & Ef & E1). cbn [with_ch dj_costs dj_preds dj_touched fst snd] in *.
  destruct (init_dir_arrays L n _ _ _ _ _ (c_cost _ _ H FWD) (c_pred _ _ H FWD) (c_clean _ _ H FWD) Ef) as [-> ->].
  injection E1 as <-. unfold init_dir in E2. apply bind_ok in E2. destruct E2 as ([cb pb] & Eb & E2).
  cbn [dj_ch dj_costs dj_preds dj_touched dj_visited dj_found dj_queue fst snd] in *.
  change (get (put (dj_costs st) FWD (repeat PInf (new_size L n))) BWD) with (get (dj_costs st) BWD) in *.
  change (get (put (dj_preds st) FWD (repeat None (new_size L n))) BWD) with (get (dj_preds st) BWD) in *.
  change (get (put (dj_touched st) FWD []) BWD) with (get (dj_touched st) BWD) in *.
  destruct (init_dir_arrays L n _ _ _ _ _ (c_cost _ _ H BWD) (c_pred _ _ H BWD) (c_clean _ _ H BWD) Eb) as [-> ->].
  injection E2 as <-. unfold with_queue, blank, new_visited.
  cbn [dj_ch dj_costs dj_preds dj_touched dj_visited dj_found dj_queue put fw bw]. f_equal.
  destruct ch; auto. cbn [get put fw bw]. f_equal; rewrite map_const_repeat, resize_length; reflexivity.
Qed.

Lemma init_query_total L n ch st : clean L st -> (forall d v, In v (get (dj_touched st) d) -> v < new_size L n) ->
  exists st0, init_query n (with_ch st ch) = Ok st0.
Proof.
  intros H Ht. unfold init_query, init_dir. cbn [with_ch dj_ch dj_costs dj_preds dj_touched dj_visited dj_found dj_queue].
  assert (Hlen : forall A d (x : A) l, length (get l d) = L -> length (if 2 =? n then get l d else resize n x (get l d)) = new_size L n)
    by (intros; unfold new_size; destruct (2 =? n); auto; apply resize_length).
  destruct (reset_total (get (dj_touched st) FWD) (if 2 =? n then get (dj_costs st) FWD else resize n PInf (get (dj_costs st) FWD))
              (if 2 =? n then get (dj_preds st) FWD else resize n None (get (dj_preds st) FWD))) as ([cf pf] & Ef).
  - now rewrite !Hlen by apply H.
  - intros v Hv. rewrite Hlen by apply H. eauto.
  - rewrite Ef. cbn [bind dj_ch dj_costs dj_preds dj_touched dj_visited dj_found dj_queue fst snd].
    change (get (put (dj_costs st) FWD cf) BWD) with (get (dj_costs st) BWD) in *.
    change (get (put (dj_preds st) FWD pf) BWD) with (get (dj_preds st) BWD) in *.
    change (get (put (dj_touched st) FWD []) BWD) with (get (dj_touched st) BWD) in *.
    destruct (reset_total (get (dj_touched st) BWD) (if 2 =? n then get (dj_costs st) BWD else resize n PInf (get (dj_costs st) BWD))
                (if 2 =? n then get (dj_preds st) BWD else resize n None (get (dj_preds st) BWD))) as ([cb pb] & Eb).
    + now rewrite !Hlen by apply H.
    + intros v Hv. rewrite Hlen by apply H. eauto.
    + rewrite Eb. cbn [bind]. eauto.
Qed.

Lemma blank_clean ch K vis : clean K (blank ch K vis).
Proof.
  constructor; intros d.
  - destruct d; simpl; now rewrite repeat_length.
  - destruct d; simpl; now rewrite repeat_length.
  - destruct d; intros v [].
  - intros v Hv _. destruct d; simpl; split; now apply nth_repeat.
Qed.

(** compute_best_path on an object that satisfies the invariant *)
Lemma compute_split pick fuel st g rc s t :
  compute_best_path pick fuel st g rc s t =
  if existsb (fun a => fltb a f0) (rc_alphas rc) then Ok (st, None)
  else
    do ch <- match rc_algo rc with ADijkstra => Ok false | ACHDijkstra => Ok true | AExplorator _ => Panic end;
    do st0 <- init_query (node_count g) (with_ch st ch);
    query g (rc_alphas rc) s t pick fuel st0.
Proof. reflexivity. Qed.

Lemma query_clean g alphas s t pick fuel L st0 st' r : clean L st0 -> query g alphas s t pick fuel st0 = Ok (st', r) ->
  clean L st'.
Proof.
  intros H E. unfold query in E. apply bind_ok in E. destruct E as (st1 & E1 & E).
  apply bind_ok in E. destruct E as ([st2 b2] & E2 & E). cbn [fst snd] in E.
  destruct (start_clean _ _ _ _ _ H E1) as [H1 _]. pose proof (search_clean _ _ _ _ _ _ _ _ _ _ H1 E2) as H2.
  destruct b2 as [[m b]|]; [|injection E as <- _; auto].
  apply bind_ok in E. destruct E as (f & _ & E). apply bind_ok in E. destruct E as (bb & _ & E).
  apply bind_ok in E. destruct E as (sid & _ & E). apply bind_ok in E. destruct E as (tid & _ & E). now injection E as <- _.
Qed.

Lemma history_clean st : history st -> clean (capacity st) st.
Proof.
  assert (Hcap : forall L st, clean L st -> clean (capacity st) st).
  { intros L st0 H. unfold capacity. pose proof (c_cost _ _ H FWD) as E. simpl in E. now rewrite E. }
  induction 1 as [|pick fuel st g rc s t st' r Hh IH E]; [apply clean_new|].
  rewrite compute_split in E. destruct (existsb _ _); [now injection E as <- _|].
  apply bind_ok in E. destruct E as (ch & _ & E). apply bind_ok in E. destruct E as (st0 & E0 & E).
  rewrite (init_query_spec _ _ _ _ _ IH E0) in E.
  eapply Hcap. eapply query_clean; [|exact E]. apply blank_clean.
Qed.

Lemma blank_fresh g ch K vis : node_count g <= K -> (ch = false -> vis = mkTwo (repeat false (node_count g)) (repeat false (node_count g))) ->
  fresh g ch (blank ch K vis).
Proof.
  intros HK Hv. constructor; cbn [blank dj_ch dj_costs dj_preds dj_visited dj_found dj_queue]; auto.
  - intros [] v Hx; simpl; apply nth_repeat; lia.
  - intros [] v Hx; simpl; apply nth_repeat; lia.
  - intros Hc [] v Hx; rewrite (Hv Hc); simpl; now apply nth_repeat.
  - intros []; reflexivity.
Qed.

(** the flag of the algorithm *)
Definition is_ch (a : routing_algo) : bool := match a with ACHDijkstra => true | _ => false end.

(** a query that does not panic while preparing works on blank arrays *)
Lemma compute_ok pick fuel st g rc s t x :
  history st -> roomy st g -> Forall not_negative (rc_alphas rc) ->
  compute_best_path pick fuel st g rc s t = Ok x ->
  exists st0, fresh g (is_ch (rc_algo rc)) st0 /\ query g (rc_alphas rc) s t pick fuel st0 = Ok x.
Proof.
  intros Hh Hr Ha E. rewrite compute_split in E.
  assert (Hn : existsb (fun a => fltb a f0) (rc_alphas rc) = false).
  { destruct (existsb _ _) eqn:Ex; auto. apply existsb_exists in Ex. destruct Ex as (a & Hin & Hlt).
    rewrite Forall_forall in Ha. apply Ha, not_lt_zero in Hin. congruence. }
  rewrite Hn in E. apply bind_ok in E. destruct E as (ch & Ech & E). apply bind_ok in E. destruct E as (st0 & E0 & E).
  assert (ch = is_ch (rc_algo rc)) by (destruct (rc_algo rc); inversion Ech; auto). subst ch.
  exists st0. split; auto. rewrite (init_query_spec _ _ _ _ _ (history_clean _ Hh) E0). apply blank_fresh.
  - unfold new_size. destruct (Nat.eqb_spec 2 (node_count g)) as [E2|]; auto.
    pose proof (Hr (eq_sym E2)). lia.
  - intros ->. reflexivity.
Qed.

(** *** source = destination *)
Section Same.
  Variable adj : dir -> nat -> list nat.
  Variable tgt : dir -> nat -> nat.
  Variable w : nat -> Q.
  Variable ch : bool.
  Variable root : dir -> nat.
  Hypothesis w_nonneg : forall d u e, In e (adj d u) -> (0 <= w e)%Q.
  Hypothesis near : forall d u e, In e (adj d u) -> tgt (opp d) e = u.
  Hypothesis same : root FWD = root BWD.

  Lemma root_same d d' : root d = root d'.
  Proof. destruct d, d'; congruence. Qed.

  Definition awaits (st : ast) (d : dir) : Prop :=
    In (root d, 0%Q, d) (que st) /\ (forall e, In e (que st) -> snd e = d -> e = (root d, 0%Q, d)) /\
    (forall v, vis st d v = false).

  Definition met (st : ast) : Prop := exists b, bst st = Some (root FWD, b) /\ (b == 0)%Q.

  Definition same_inv (st : ast) : Prop :=
    met st \/
    (bst st = None /\ forall d, awaits st d) \/
    (bst st = None /\ ch = false /\ exists d, awaits st d /\ vis st (opp d) (root d) = true).

  Lemma relax_keeps d u c es : forall st,
    bst (fold_left (relax1 tgt w ch d u c) es st) = bst st /\
    vis (fold_left (relax1 tgt w ch d u c) es st) = vis st /\
    (forall e, In e (que st) -> In e (que (fold_left (relax1 tgt w ch d u c) es st))) /\
    (forall e, In e (que (fold_left (relax1 tgt w ch d u c) es st)) -> In e (que st) \/ snd e = d).
  Proof.
    induction es as [|e es IH]; intros st; cbn [fold_left]; [repeat split; auto|].
    destruct (IH (relax1 tgt w ch d u c st e)) as (A & B & C & D).
    rewrite A, B, relax1_bst, relax1_vis. split; [auto|]. split; [auto|]. split.
    - intros x Hx. apply C. now apply relax1_que.
    - intros x Hx. destruct (D x Hx) as [Hx'|Hx']; auto. apply relax1_que_inv in Hx'. destruct Hx' as [Hx'| ->]; auto.
  Qed.

  Lemma iterate_same st v c d q' : inv adj tgt w root st -> same_inv st -> pops (que st) v c d q' ->
    same_inv (iterate adj tgt w ch st v c d q').
  Proof.
    intros Hi Hs Hp. destruct (pops_in _ _ _ _ _ Hp) as (Hin & Hsub & Hor).
    destruct (iterate_cases adj tgt w ch root st v c d q' Hi Hp) as (cv & Ev & Hle & Hcase).
    assert (Hroot : forall d, lab st d (root d) = Some 0%Q) by (intros; apply (i_root _ _ _ _ _ Hi)).
    destruct Hs as [(b & Eb & Hb)|Hs].
    - (* met already *)
      left. destruct Hcase as [(Hlt & ->)|[(Heq & m & b' & Eb' & Hlt & ->)|(Heq & Hc & ->)]]; [exists b; auto|exists b; auto|].
      destruct (relax_keeps d v c (adj d v) (enter ch (set_que st q') v c d)) as (A & _).
      exists b. rewrite A. split; auto. cbn [enter bst]. unfold new_best. cbn [set_que bst]. rewrite Eb.
      change (total (set_que st q') v) with (total st v). destruct (total st v) as [tt|] eqn:Et; auto.
      destruct (total_some _ _ _ Et) as (a1 & a2 & E1 & E2 & Ht).
      pose proof (lab_nonneg adj tgt w root w_nonneg st FWD v a1 Hi E1).
      pose proof (lab_nonneg adj tgt w root w_nonneg st BWD v a2 Hi E2).
      assert (Hq : qltb tt b = false) by (apply qltb_ge; rewrite Ht; lra). now rewrite Hq.
    - assert (Hnone : bst st = None) by (destruct Hs as [[? _]|[? _]]; auto).
      assert (Htot : total st (root FWD) = Some (0 + 0)%Q).
      { unfold total. rewrite (Hroot FWD). rewrite (root_same FWD BWD). now rewrite (Hroot BWD). }
      (* popping the awaited entry of direction [d] with the other side reached *)
      assert (Hmeet : v = root d -> c = 0%Q -> meets ch (set_que st q') d v = true ->
                same_inv (iterate adj tgt w ch st v c d q')).
      { intros Hv Hc Hm. left. rewrite Hv in Ev. rewrite Hroot in Ev. injection Ev as <-.
        destruct Hcase as [(Hlt & _)|[(Heq & m & b' & Eb' & _)|(Heq & _ & ->)]]; [rewrite Hc in Hlt; lra|congruence|].
        destruct (relax_keeps d v c (adj d v) (enter ch (set_que st q') v c d)) as (A & _).
        exists (0 + 0)%Q. rewrite A. split; [|lra]. cbn [enter bst]. unfold new_best. cbn [set_que bst]. rewrite Hnone, Hm.
        change (total (set_que st q') v) with (total st v). rewrite Hv, (root_same d FWD), Htot. reflexivity. }
      destruct Hs as [[_ Hw]|(_ & Hch & d0 & Hw & Hvis)].
      + assert (Hvc : (v, c, d) = (root d, 0%Q, d)) by (apply (Hw d); auto). injection Hvc as Hv Hc.
        assert (Hcc : ch = true \/ ch = false) by (destruct ch; auto). destruct Hcc as [Hch|Hch].
        * apply Hmeet; auto. unfold meets. rewrite Hch. cbn [set_que lab]. rewrite Hv, (root_same d (opp d)), Hroot. reflexivity.
        * right. right. rewrite Hv in Ev. rewrite Hroot in Ev. injection Ev as <-.
          destruct Hcase as [(Hlt & _)|[(Heq & m & b' & Eb' & _)|(Heq & _ & ->)]]; [rewrite Hc in Hlt; lra|congruence|].
          destruct (relax_keeps d v c (adj d v) (enter ch (set_que st q') v c d)) as (A & B & C & D).
          split; [|split; [auto|]].
          -- rewrite A. cbn [enter bst]. unfold new_best. cbn [set_que bst]. rewrite Hnone.
             unfold meets. rewrite Hch. cbn [set_que vis]. destruct (Hw (opp d)) as (_ & _ & Hf). now rewrite Hf.
          -- exists (opp d). rewrite B. cbn [enter vis]. destruct (Hw (opp d)) as (W1 & W2 & W3). split; [split; [|split]|].
             ++ apply C. cbn [enter que set_que]. destruct (Hor _ W1) as [E|E]; auto. injection E as _ _ E. now apply opp_neq in E.
             ++ intros e He Hse. destruct (D e He) as [He'|He'].
                ** cbn [enter que set_que] in He'. apply W2; auto.
                ** rewrite Hse in He'. now apply opp_neq in He'.
             ++ intros x. rewrite B. cbn [enter vis set_que]. rewrite up2_neq; auto. left. apply not_eq_sym, opp_neq.
             ++ rewrite opp_opp, (root_same (opp d) d), <- Hv. apply up2_eq.
      + destruct Hw as (W1 & W2 & W3). assert (Hdd : d = d0 \/ d = opp d0) by (destruct d, d0; auto). destruct Hdd as [->| ->].
        * assert (Hvc : (v, c, d0) = (root d0, 0%Q, d0)) by (apply W2; auto). injection Hvc as Hv Hc.
          apply Hmeet; auto. unfold meets. rewrite Hch. cbn [set_que vis]. now rewrite Hv.
        * right. right.
          assert (W1' : In (root d0, 0%Q, d0) q').
          { destruct (Hor _ W1) as [E|E]; auto. injection E as _ _ E. symmetry in E. now apply opp_neq in E. }
          destruct Hcase as [(Hlt & ->)|[(Heq & m & b' & Eb' & _)|(Heq & _ & ->)]]; [|congruence|].
          -- split; [auto|]. split; [auto|]. exists d0. split; [|auto]. split; [auto|]. split; [|auto].
             intros e He. apply W2. apply Hsub. exact He.
          -- destruct (relax_keeps (opp d0) v c (adj (opp d0) v) (enter ch (set_que st q') v c (opp d0))) as (A & B & C & D).
             split; [|split; [auto|]].
             ++ rewrite A. cbn [enter bst]. unfold new_best. cbn [set_que bst]. rewrite Hnone.
                unfold meets. rewrite Hch. cbn [set_que vis]. rewrite opp_opp. now rewrite W3.
             ++ exists d0. rewrite B. cbn [enter vis set_que]. split; [split; [|split]|].
                ** apply C. exact W1'.
                ** intros e He Hse. destruct (D e He) as [He'|He']; [apply W2; auto|].
                   rewrite Hse in He'. symmetry in He'. now apply opp_neq in He'.
                ** intros x. rewrite B. cbn [enter vis set_que]. rewrite up2_neq; auto. left. apply opp_neq.
                ** destruct (up2_cases (vis st) (opp d0) v true (opp d0) (root d0)) as [(_ & _ & ->)|[_ ->]]; auto.
  Qed.

  Lemma arun_same (P : list entry -> nat -> Q -> dir -> list entry -> Prop) st st' :
    (forall q v c d q', P q v c d q' -> pops q v c d q') ->
    arun adj tgt w ch P st st' -> inv adj tgt w root st -> same_inv st -> same_inv st'.
  Proof.
    intros HP Hr. induction Hr as [st He|st v c d q' st' Hp Hr IH]; intros Hi Hs; auto.
    apply HP in Hp. apply IH; [now apply iterate_inv|now apply iterate_same].
  Qed.

  Lemma run_same (P : list entry -> nat -> Q -> dir -> list entry -> Prop) st :
    (forall q v c d q', P q v c d q' -> pops q v c d q') ->
    arun adj tgt w ch P (init root) st -> met st /\ forall d, prd st d (root d) = None.
  Proof.
    intros HP Hr.
    destruct (arun_inv adj tgt w ch root w_nonneg near P HP _ _ Hr (init_inv adj tgt w root)
                (proj1 (init_inv2 adj tgt w ch root)) (proj2 (init_inv2 adj tgt w ch root))) as (Hi & Hi2 & _ & He).
    split; [|intros d; apply (i_root _ _ _ _ _ Hi)].
    assert (Hs : same_inv st).
    { clear Hi Hi2 He. assert (H0 : same_inv (init root)).
      { right. left. split; [reflexivity|]. intros d. split; [destruct d; simpl; auto|]. split; [|reflexivity].
        intros e [<-|[<-|[]]]; simpl; intros <-; reflexivity. }
      exact (arun_same P _ _ HP Hr (init_inv adj tgt w root) H0). }
    destruct Hs as [Hm|Hs]; auto. exfalso.
    assert (Hn : bst st = None) by (destruct Hs as [[? _]|[? _]]; auto).
    destruct He as [He|He].
    - destruct Hs as [[_ Hw]|(_ & _ & d & [Hw _] & _)]; [destruct (Hw FWD) as [Hq _]; rewrite He in Hq; destruct Hq|].
      rewrite He in Hw. destruct Hw.
    - specialize (He FWD). rewrite (j_flag _ _ Hi2 FWD Hn) in He. discriminate.
  Qed.
End Same.

(** *** in CH-mode the visited-arrays do not matter *)
Definition revisit (v : two (list bool)) (p : dijkstra * option (nat * f64)) : dijkstra * option (nat * f64) :=
  (with_visited (fst p) v, snd p).
Definition rmapv {A B} (f : A -> B) (r : res A) : res B :=
  match r with Ok x => Ok (f x) | Err e => Err e | Panic => Panic | Diverge => Diverge end.

Lemma relax_edge_visited v enq d e x nc st :
  relax_edge enq d e x nc (with_visited st v) = rmapv (fun s => with_visited s v) (relax_edge enq d e x nc st).
Proof.
  unfold relax_edge. cbn [with_visited dj_costs]. destruct (idx (get (dj_costs st) d) x); cbn [bind rmapv]; auto.
  destruct (fltb nc a); cbn [rmapv]; auto. cbn [with_visited dj_preds dj_costs dj_ch dj_queue dj_found dj_touched].
  destruct (set (get (dj_preds st) d) x (Some e)); cbn [bind rmapv]; auto.
  destruct (set (get (dj_costs st) d) x nc); cbn [bind rmapv]; auto.
Qed.
Lemma relax_edge_ch enq d e x nc st st' : relax_edge enq d e x nc st = Ok st' -> dj_ch st' = dj_ch st.
Proof.
  unfold relax_edge. intros E. apply bind_ok in E. destruct E as (old & _ & E). destruct (fltb nc old); [|now injection E as <-].
  apply bind_ok in E. destruct E as (a & _ & E). apply bind_ok in E. destruct E as (b & _ & E). now injection E as <-.
Qed.
Lemma relax_visited v g alphas enq c es : forall st,
  relax g alphas enq c es (with_visited st v) = rmapv (fun s => with_visited s v) (relax g alphas enq c es st).
Proof.
  induction es as [|e es IH]; intros st; cbn [relax]; [reflexivity|].
  destruct (dst_idx g (cn_dir c) e); cbn [bind rmapv]; auto. cbn [with_visited dj_ch].
  destruct (if dj_ch st then _ else Ok false) as [down| | |]; cbn [bind rmapv]; auto. destruct down; [reflexivity|].
  destruct (edge_metrics g e); cbn [bind rmapv]; auto. rewrite relax_edge_visited.
  destruct (relax_edge enq (cn_dir c) e a _ st) as [st1| | |]; cbn [bind rmapv]; auto.
Qed.
Lemma relax_ch g alphas enq c es : forall st st', relax g alphas enq c es st = Ok st' -> dj_ch st' = dj_ch st.
Proof.
  induction es as [|e es IH]; intros st st' E; cbn [relax] in E; [now injection E as <-|].
  apply bind_ok in E. destruct E as (v & _ & E). apply bind_ok in E. destruct E as (down & _ & E).
  destruct down; [now injection E as <-|].
  apply bind_ok in E. destruct E as (ms & _ & E). apply bind_ok in E. destruct E as (st1 & E1 & E).
  rewrite (IH _ _ E). eapply relax_edge_ch; eauto.
Qed.

Lemma iteration_visited v g alphas st best c : dj_ch st = true ->
  iteration g alphas (with_visited st v) best c = rmapv (revisit v) (iteration g alphas st best c) /\
  (forall x, iteration g alphas st best c = Ok x -> dj_ch (fst x) = true).
Proof.
  intros Hch. unfold iteration, has_improved. cbn [with_visited dj_costs].
  destruct (idx (get (dj_costs st) (cn_dir c)) (cn_idx c)) as [x| | |]; cbn [bind rmapv]; try (split; [auto|discriminate]).
  destruct (negb (fleb (cn_cost c) x)); [split; [auto|]; intros y E; injection E as <-; auto|].
  unfold visit. cbn [with_visited dj_ch]. rewrite Hch. cbn [bind].
  assert (Hm : meet (with_visited st v) best c = meet st best c).
  { unfold meet, is_meeting, total_cost. cbn [with_visited dj_ch dj_costs]. rewrite Hch. reflexivity. }
  rewrite Hm. destruct (meet st best c) as [[b1 over]| | |]; cbn [bind rmapv]; try (split; [auto|discriminate]).
  destruct over; [split; [reflexivity|intros y E; injection E as <-; auto]|].
  destruct (starting_from g (cn_dir c) (cn_idx c)); cbn [bind rmapv]; try (split; [auto|discriminate]).
  cbn [with_visited dj_ch]. rewrite Hch. change (with_visited st v) with (with_visited st v). rewrite relax_visited.
  destruct (relax g alphas _ c a st) as [st2| | |] eqn:E2; cbn [bind rmapv]; try (split; [auto|discriminate]).
  split; [reflexivity|]. intros y E. injection E as <-. cbn [fst]. rewrite (relax_ch _ _ _ _ _ _ _ E2). auto.
Qed.

Lemma search_visited v pick g alphas fuel : forall k st best, dj_ch st = true ->
  search pick g alphas fuel k (with_visited st v) best = rmapv (revisit v) (search pick g alphas fuel k st best).
Proof.
  induction fuel as [|fuel IH]; intros k st best Hch; cbn [search]; cbn [with_visited dj_queue].
  - destruct (dj_queue st); reflexivity.
  - destruct (dj_queue st) as [|c0 q0]; [reflexivity|].
    destruct (idx (c0 :: q0) (pick k (c0 :: q0))) as [c| | |]; cbn [bind rmapv]; auto.
    set (q' := remove_nth (pick k (c0 :: q0)) (c0 :: q0)).
    change (with_queue (with_visited st v) q') with (with_visited (with_queue st q') v).
    change (has_found (with_visited (with_queue st q') v)) with (has_found (with_queue st q')).
    destruct (has_found (with_queue st q')); [reflexivity|].
    destruct (iteration_visited v g alphas (with_queue st q') best c Hch) as [E Hc]. rewrite E.
    destruct (iteration g alphas (with_queue st q') best c) as [[st1 b1]| | |] eqn:E1; cbn [bind rmapv revisit fst snd]; auto.
    apply IH. apply (Hc _ eq_refl).
Qed.

Lemma query_visited v g alphas s t pick fuel st : dj_ch st = true ->
  rmapv snd (query g alphas s t pick fuel (with_visited st v)) = rmapv snd (query g alphas s t pick fuel st).
Proof.
  intros Hch. unfold query, start. cbn [with_visited dj_costs].
  destruct (set (fw (dj_costs st)) s f0); cbn [bind rmapv]; auto.
  destruct (set (bw (dj_costs st)) t f0); cbn [bind rmapv]; auto. cbn [with_visited dj_ch dj_queue dj_preds dj_visited dj_found dj_touched].
  match goal with |- context [search pick g alphas fuel 0 ?x None] =>
    match x with context [dj_visited st] => set (st1 := x) end end.
  match goal with |- context [search pick g alphas fuel 0 ?x None] =>
    match x with context [v] => change x with (with_visited st1 v) end end.
  rewrite search_visited by exact Hch.
  destruct (search pick g alphas fuel 0 st1 None) as [[st2 b2]| | |]; cbn [bind rmapv revisit fst snd]; auto.
  destruct b2 as [[m b]|]; cbn [rmapv]; auto. cbn [with_visited dj_preds].
  destruct (trace g (fw (dj_preds st2)) FWD fuel m); cbn [bind rmapv]; auto.
  destruct (trace g (bw (dj_preds st2)) BWD fuel m); cbn [bind rmapv]; auto.
  destruct (node_id g s); cbn [bind rmapv]; auto. destruct (node_id g t); cbn [bind rmapv]; auto.
Qed.
