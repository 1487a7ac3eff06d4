(** Proofs about the balancer's master and workers *)
From Coq Require Import String List Bool Arith ZArith QArith NArith Lia Permutation.
From Verif Require Import Base F64 ModelApprox ModelUnits ModelConfig ModelGraph ModelBuild ModelDijkstra ModelBalancing
  Lib Spec SpecBalancing.
Import ListNotations.
Open Scope string_scope.
Open Scope list_scope.
Open Scope nat_scope.

(** *** Work size *)
Lemma recv_size_bounds plus minus size fast i :
  (plus <= USIZE_MAX)%N -> (minus + plus <= USIZE_MAX)%N ->
  (minus <= size)%N -> (size <= USIZE_MAX - plus)%N ->
  exists size', recv_size plus minus size fast i = Ok size' /\ (minus <= size')%N /\ (size' <= USIZE_MAX - plus)%N.
Proof.
  intros Hp Hmp H1 H2. unfold recv_size. destruct (i =? 0); [|exists size; auto]. destruct fast.
  - unfold usub. rewrite (proj2 (N.leb_le _ _) Hp). cbn [bind]. unfold uadd.
    rewrite (proj2 (N.leb_le (size + plus) USIZE_MAX)) by lia. cbn [bind]. eexists. split; [reflexivity|]. lia.
  - unfold usub. rewrite (proj2 (N.leb_le _ _) H1). cbn [bind]. eexists. split; [reflexivity|]. lia.
Qed.

Lemma init_size_bounds init plus minus : (plus <= USIZE_MAX)%N -> (minus + plus <= USIZE_MAX)%N ->
  exists size, init_size init plus minus = Ok size /\ (minus <= size)%N /\ (size <= USIZE_MAX - plus)%N.
Proof.
  intros Hp Hmp. unfold init_size, usub. rewrite (proj2 (N.leb_le _ _) Hp). cbn [bind]. eexists. split; [reflexivity|].
  destruct (N.ltb_spec init minus).
  - destruct (N.ltb_spec (USIZE_MAX - plus) minus); lia.
  - destruct (N.ltb_spec (USIZE_MAX - plus) init); lia.
Qed.

(** *** Lists *)
Lemma sum_upd {A} (f : A -> nat) (l : list A) i x y : nth_error l i = Some y ->
  list_sum (map f (upd l i x)) + f y = list_sum (map f l) + f x.
Proof.
  revert i. induction l as [|a l IH]; intros [|i] H; simpl in *; try discriminate.
  - injection H as ->. lia.
  - specialize (IH i H). lia.
Qed.

Lemma flat_map_upd {A B} (f : A -> list B) (l : list A) i x y : nth_error l i = Some y ->
  Permutation (flat_map f (upd l i x) ++ f y) (flat_map f l ++ f x).
Proof.
  revert i. induction l as [|a l IH]; intros [|i] H; simpl in *; try discriminate.
  - injection H as ->. rewrite <- !app_assoc. rewrite (Permutation_app_comm (f x)), (Permutation_app_comm (f y)).
    rewrite <- !app_assoc. apply Permutation_app_head. apply Permutation_app_comm.
  - rewrite <- !app_assoc. apply Permutation_app_head. now apply IH.
Qed.

Lemma existsb_false {A} (f : A -> bool) l : existsb f l = false -> forall x, In x l -> f x = false.
Proof.
  intros H x Hx. destruct (f x) eqn:E; auto. assert (existsb f l = true) by (apply existsb_exists; eauto). congruence.
Qed.

Section Accounting.
  Variables (g : graph) (ff : nat) (job : dijkstra -> work -> res (dijkstra * outcome)).
  Variables (count : nat) (routes : list route) (collecting : bool) (fit : dijkstra -> Prop).
  Hypothesis Hsteady : steady g ff job routes fit.

  (** *** Counting *)
  Definition counted (ps : list path) (loads : list nat) : Prop :=
    length loads = edge_count g FWD /\
    forall e, e < edge_count g FWD -> nth_error loads e = Some (occurrences e ps).

  Lemma count_edges_spec es : forall loads, (forall e, In e es -> e < length loads) ->
    exists loads', count_edges es loads = Ok loads' /\ length loads' = length loads /\
      forall e n, nth_error loads e = Some n -> nth_error loads' e = Some (n + count_occ Nat.eq_dec es e).
  Proof.
    induction es as [|e es IH]; intros loads H.
    - exists loads. split; [reflexivity|]. split; auto. intros e n Hn. simpl. now rewrite Nat.add_0_r.
    - assert (He : e < length loads) by (apply H; simpl; auto).
      destruct (nth_error loads e) as [m|] eqn:Em; [|apply nth_error_None in Em; lia].
      unfold count_edges. cbn [foldM]. rewrite (proj2 (idx_ok loads e m) Em). cbn [bind]. rewrite set_lt by auto. cbn [bind].
      destruct (IH (upd loads e (m + 1))) as (l' & E & El & Hn).
      { intros e' He'. rewrite upd_length. apply H. simpl. auto. }
      unfold count_edges in E. rewrite E. exists l'. split; auto. rewrite upd_length in El. split; auto.
      intros e' n Hn'. simpl count_occ. destruct (Nat.eq_dec e e') as [->|Hne].
      + rewrite (Hn e' (m + 1)) by now rewrite nth_error_upd_eq. assert (n = m) by congruence. subst. f_equal. lia.
      + rewrite (Hn e' n) by now rewrite nth_error_upd_neq. reflexivity.
  Qed.

  Lemma occurrences_app e a b : occurrences e (a ++ b) = occurrences e a + occurrences e b.
  Proof. unfold occurrences. now rewrite flat_map_app, count_occ_app. Qed.

  (** flattened so far: loads and collected paths *)
  Definition absorbed (fl : list path) (loads : list nat) (paths : option (list path)) : Prop :=
    counted fl loads /\ paths = (if collecting then Some fl else None).

  Lemma absorb_spec o fl loads paths : absorbed fl loads paths ->
    (forall p, In p (oc_chosen o) -> exists p', flattens g ff p p') ->
    exists loads' paths' fl', absorb g ff o loads paths = Ok (loads', paths') /\
      Forall2 (flattens g ff) (oc_chosen o) fl' /\ absorbed (fl ++ fl') loads' paths'.
  Proof.
    unfold absorb. destruct o as [ps fd]. cbn [oc_chosen]. clear fd. revert fl loads paths.
    induction ps as [|p ps IH]; intros fl loads paths Ha Hf.
    - exists loads, paths, []. split; [reflexivity|]. split; [constructor|]. now rewrite app_nil_r.
    - destruct (Hf p) as (p' & Ep & Hp); [simpl; auto|]. cbn [foldM]. rewrite Ep. cbn [bind fst snd].
      destruct Ha as [[Hl Hc] Hpa].
      destruct (count_edges_spec (p_edges p') loads) as (l1 & E1 & Hl1 & Hn1).
      { intros e He. rewrite Hl. auto. }
      rewrite E1. cbn [bind].
      destruct (IH (fl ++ [p']) l1 (match paths with Some l => Some (l ++ [p']) | None => None end)) as (l2 & pa2 & fl2 & E2 & F2 & A2).
      + split.
        * split; [congruence|]. intros e He. rewrite (Hn1 e _ (Hc e He)). rewrite occurrences_app. unfold occurrences at 3.
          simpl. now rewrite app_nil_r.
        * rewrite Hpa. destruct collecting; auto.
      + intros q Hq. apply Hf. simpl. auto.
      + exists l2, pa2, (p' :: fl2). split; [exact E2|]. split; [constructor; [split|]; auto|].
        rewrite <- app_assoc in A2. exact A2.
  Qed.

  (** *** Invariant *)
  Definition cnt (i : nat) (ch : list (nat * outcome)) : nat := count_occ Nat.eq_dec (map fst ch) i.
  Definition inbox_routes (w : worker) : list route := flat_map wk_routes (w_inbox w).

  Definition worker_ok (s : sys) (i : nat) (w : worker) : Prop :=
    fit (w_dijkstra w) /\
    if w_open w then w_thread w = Running /\ length (w_inbox w) + cnt i (s_chan s) = 1
    else w_inbox w = [] /\ cnt i (s_chan s) = 0 /\ s_routes s = [] /\
         (w_thread w = Exited \/ w_thread w = Running /\ s_phase s = PJoin i).

  Definition phase_ok (s : sys) : Prop :=
    match s_phase s with
    | PTry | PWait => True
    | PJoin i => exists w, nth_error (s_workers s) i = Some w /\ w_open w = false
    | PDone => s_chan s = [] /\ forall w, In w (s_workers s) -> w_thread w = Exited
    | PErr | PPanic => False
    end.

  Record inv (log : list (work * outcome)) (s : sys) : Prop := mkInv {
    i_phase : phase_ok s;
    i_count : length (s_workers s) = count;
    i_size : (WORK_SIZE_MINUS <= s_size s)%N /\ (s_size s <= USIZE_MAX - WORK_SIZE_PLUS)%N;
    i_workers : forall i w, nth_error (s_workers s) i = Some w -> worker_ok s i w;
    i_chan : forall i o, In (i, o) (s_chan s) -> i < count /\ forall p, In p (oc_chosen o) -> exists p', flattens g ff p p';
    i_routes : Permutation routes (s_routes s ++ flat_map inbox_routes (s_workers s) ++ logged_routes log);
    i_paths : exists ab fl, Forall2 (flattens g ff) ab fl /\ absorbed fl (s_loads s) (s_paths s) /\
        Permutation (logged_paths log) (ab ++ flat_map (fun io => oc_chosen (snd io)) (s_chan s));
  }.

  (** number of steps left, at most *)
  Definition weight (w : worker) : nat :=
    3 * length (w_inbox w) + (if running w then 1 else 0) + (if w_open w then 1 else 0).
  Definition phase_weight (p : phase) : nat :=
    match p with PTry => 2 | PWait => 1 | PJoin _ => 3 | _ => 0 end.
  Definition measure (s : sys) : nat :=
    3 * length (s_routes s) + 2 * length (s_chan s) + list_sum (map weight (s_workers s)) + phase_weight (s_phase s).

  Lemma cnt_cons i j o ch : cnt i ((j, o) :: ch) = (if Nat.eq_dec j i then 1 else 0) + cnt i ch.
  Proof. unfold cnt. simpl. destruct (Nat.eq_dec j i); reflexivity. Qed.
  Lemma cnt_snoc i j o ch : cnt i (ch ++ [(j, o)]) = cnt i ch + (if Nat.eq_dec j i then 1 else 0).
  Proof. unfold cnt. rewrite map_app, count_occ_app. simpl. destruct (Nat.eq_dec j i); reflexivity. Qed.

  (** *** Receiving *)
  Lemma receive_inv log s (fast : bool) i o rest : inv log s -> s_chan s = (i, o) :: rest ->
    s_phase s = (if fast then PTry else PWait) ->
    inv log (receive g ff fast i o rest s) /\ measure (receive g ff fast i o rest s) < measure s.
  Proof.
    intros Hi Ech Ephase. destruct Hi as [Hph Hc [Hs1 Hs2] Hw Hch Hr (ab & fl & F & A & P)].
    unfold receive. destruct (recv_size_bounds WORK_SIZE_PLUS WORK_SIZE_MINUS (s_size s) fast i) as (sz & Esz & Hz1 & Hz2);
      [vm_compute; discriminate|vm_compute; discriminate|auto|auto|].
    rewrite Esz.
    destruct (Hch i o) as [Hlt Hfl]; [rewrite Ech; simpl; auto|].
    destruct (absorb_spec o fl (s_loads s) (s_paths s) A Hfl) as (lo & pa & fl' & Ea & F' & A').
    rewrite Ea.
    destruct (nth_error (s_workers s) i) as [w|] eqn:Ew; [|apply nth_error_None in Ew; lia].
    pose proof (Hw i w Ew) as Wi. destruct Wi as [Wf Wo].
    destruct (w_open w) eqn:Eo.
    2:{ destruct Wo as (_ & Wc & _). rewrite Ech, cnt_cons in Wc. destruct (Nat.eq_dec i i); [lia|congruence]. }
    destruct Wo as [Wt Wc]. rewrite Ech, cnt_cons in Wc. destruct (Nat.eq_dec i i) as [_|]; [|congruence].
    assert (Wi : w_inbox w = []) by (destruct (w_inbox w); [auto|simpl in Wc; lia]).
    assert (Wc0 : cnt i rest = 0) by lia.
    assert (Popen : s_routes s <> [] -> forall j v, nth_error (s_workers s) j = Some v -> w_open v = true).
    { intros Hne j v Hv. destruct (Hw j v Hv) as [_ Hj]. destruct (w_open v); auto. destruct Hj as (_ & _ & Hj & _). congruence. }
    assert (P' : Permutation (logged_paths log) ((ab ++ oc_chosen o) ++ flat_map (fun io => oc_chosen (snd io)) rest)).
    { rewrite P, Ech. cbn [flat_map snd]. now rewrite app_assoc. }
    unfold dispatch. cbn [s_workers s_routes s_size s_last s_loads s_paths s_chan s_seeds s_phase]. rewrite Ew, Eo. cbn [negb].
    destruct (0 <? length (s_routes s)) eqn:El.
    - apply Nat.ltb_lt in El. rewrite Wt.
      set (k := N.to_nat (N.min (N.of_nat (length (s_routes s))) (work_size sz (Some i)))).
      assert (Hk : 1 <= k <= length (s_routes s)).
      { unfold k. assert ((1 <= work_size sz (Some i))%N); [|lia].
        unfold work_size. unfold WORK_SIZE_MINUS in Hz1. destruct i as [|[|i]]; lia. }
      set (n := length (s_routes s) - k).
      set (wk := {| wk_routes := rev (skipn n (s_routes s)); wk_seed := s_seeds s |}).
      set (w' := {| w_open := true; w_thread := Running; w_inbox := w_inbox w ++ [wk]; w_dijkstra := w_dijkstra w |}).
      split.
      + constructor; cbn [s_workers s_routes s_size s_last s_loads s_paths s_chan s_seeds s_phase].
        * exact I.
        * now rewrite upd_length.
        * auto.
        * intros j v Hv. destruct (Nat.eq_dec j i) as [->|Hne].
          -- rewrite nth_error_upd_eq in Hv by (apply nth_error_Some; congruence). injection Hv as <-.
             split; [exact Wf|]. cbn [w' w_open w_thread w_inbox s_chan]. split; [reflexivity|]. rewrite Wi, Wc0. reflexivity.
          -- rewrite nth_error_upd_neq in Hv by auto. destruct (Hw j v Hv) as [Vf Vo]. split; auto.
             rewrite (Popen ltac:(destruct (s_routes s); [simpl in El; lia|discriminate]) j v Hv) in Vo |- *.
             rewrite Ech, cnt_cons in Vo. destruct (Nat.eq_dec i j); [congruence|]. exact Vo.
        * intros j q Hq. apply Hch. rewrite Ech. simpl. auto.
        * rewrite Hr. pose proof (flat_map_upd inbox_routes (s_workers s) i w' w Ew) as Hp.
          assert (Iw : inbox_routes w = []) by (unfold inbox_routes; now rewrite Wi).
          assert (Iw' : inbox_routes w' = rev (skipn n (s_routes s))).
          { unfold inbox_routes. cbn [w' w_inbox]. rewrite Wi. cbn [app flat_map wk wk_routes]. apply app_nil_r. }
          rewrite Iw, Iw', app_nil_r in Hp. rewrite Hp. rewrite <- (firstn_skipn n (s_routes s)) at 1.
          rewrite <- !app_assoc. apply Permutation_app_head. rewrite (Permutation_app_comm (skipn n (s_routes s))). rewrite <- !app_assoc.
          apply Permutation_app_head. rewrite Permutation_app_comm. apply Permutation_app_tail. apply Permutation_rev.
        * exists (ab ++ oc_chosen o), (fl ++ fl'). split; [now apply Forall2_app|]. split; auto.
      + unfold measure. cbn [s_workers s_routes s_size s_last s_loads s_paths s_chan s_seeds s_phase].
        pose proof (sum_upd weight (s_workers s) i w' w Ew) as Hsum.
        assert (Ww : weight w = 2) by (unfold weight, running; rewrite Wi, Wt, Eo; reflexivity).
        assert (Ww' : weight w' = 5) by (unfold weight, running; cbn [w' w_inbox w_thread w_open]; rewrite Wi; reflexivity).
        rewrite firstn_length. rewrite Ech. simpl length. rewrite Ephase. unfold n. destruct fast; simpl phase_weight; lia.
    - apply Nat.ltb_ge in El. assert (Er : s_routes s = []) by (destruct (s_routes s); [auto|simpl in El; lia]).
      set (w' := {| w_open := false; w_thread := w_thread w; w_inbox := w_inbox w; w_dijkstra := w_dijkstra w |}).
      split.
      + constructor; unfold with_phase, with_workers; cbn [s_workers s_routes s_size s_last s_loads s_paths s_chan s_seeds s_phase].
        * unfold phase_ok. cbn [s_phase s_workers]. exists w'. split; auto. apply nth_error_upd_eq. apply nth_error_Some. congruence.
        * now rewrite upd_length.
        * auto.
        * intros j v Hv. destruct (Nat.eq_dec j i) as [->|Hne].
          -- rewrite nth_error_upd_eq in Hv by (apply nth_error_Some; congruence). injection Hv as <-.
             split; [exact Wf|]. cbn [w_open w' w_thread w_inbox s_chan s_routes s_phase]. auto 6.
          -- rewrite nth_error_upd_neq in Hv by auto. destruct (Hw j v Hv) as [Vf Vo]. split; auto. cbn [s_chan s_routes s_phase].
             rewrite Ech, cnt_cons in Vo. destruct (Nat.eq_dec i j); [congruence|]. simpl in Vo. destruct (w_open v); auto.
             destruct Vo as (V1 & V2 & V3 & V4). split; auto. split; auto. split; auto. destruct V4 as [V4|[_ V4]]; auto.
             rewrite Ephase in V4. destruct fast; discriminate.
        * intros j q Hq. apply Hch. rewrite Ech. simpl. auto.
        * rewrite Hr. pose proof (flat_map_upd inbox_routes (s_workers s) i w' w Ew) as Hp.
          assert (Iw : inbox_routes w = []) by (unfold inbox_routes; now rewrite Wi).
          assert (Iw' : inbox_routes w' = []) by (unfold inbox_routes; cbn [w' w_inbox]; now rewrite Wi).
          rewrite Iw, Iw', !app_nil_r in Hp. now rewrite Hp.
        * exists (ab ++ oc_chosen o), (fl ++ fl'). split; [now apply Forall2_app|]. split; auto.
      + unfold measure, with_phase, with_workers. cbn [s_workers s_routes s_size s_last s_loads s_paths s_chan s_seeds s_phase].
        pose proof (sum_upd weight (s_workers s) i w' w Ew) as Hsum.
        assert (Ww : weight w = 2) by (unfold weight, running; rewrite Wi, Wt, Eo; reflexivity).
        assert (Ww' : weight w' = 1) by (unfold weight, running; cbn [w' w_inbox w_thread w_open]; rewrite Wi, Wt; reflexivity).
        rewrite Ech. simpl length. rewrite Ephase. destruct fast; simpl phase_weight; lia.
  Qed.

  Lemma not_running w s i : worker_ok s i w -> running w = false -> w_thread w = Exited /\ w_open w = false.
  Proof.
    intros [_ H] Hr. unfold running in Hr. destruct (w_open w).
    - destruct H as [H _]. rewrite H in Hr. discriminate.
    - destruct H as (_ & _ & _ & [H|[H _]]); auto. rewrite H in Hr. discriminate.
  Qed.

  Lemma master_inv log s s' : inv log s -> master_step g ff s = Some s' -> inv log s' /\ measure s' < measure s.
  Proof.
    intros Hi E. unfold master_step in E. destruct (s_phase s) eqn:Ep; try discriminate.
    - destruct (s_chan s) as [|[i o] rest] eqn:Ec; injection E as <-.
      + destruct Hi as [Hph Hc Hs Hw Hch Hr Hpa]. split.
        * constructor; auto; cbn; auto. intros i w Hn. destruct (Hw i w Hn) as [Wf Wo]. split; auto. cbn [s_chan s_routes s_phase with_phase].
          destruct (w_open w); auto. rewrite Ep in Wo. destruct Wo as (A & B & C & D). split; [auto|]. split; [auto|]. split; [auto|].
          destruct D as [D|[_ D]]; [auto|discriminate].
        * unfold measure. cbn [with_phase s_phase s_routes s_chan s_workers]. rewrite Ep. simpl phase_weight. lia.
      + apply receive_inv; auto.
    - destruct (s_chan s) as [|[i o] rest] eqn:Ec.
      + destruct (existsb running (s_workers s)) eqn:Er; [discriminate|]. injection E as <-.
        destruct Hi as [Hph Hc Hs Hw Hch Hr Hpa]. 
        assert (Hall : forall i w, nth_error (s_workers s) i = Some w -> w_thread w = Exited /\ w_open w = false).
        { intros i w Hn. apply (not_running w s i (Hw i w Hn)). eapply existsb_false; eauto. eapply nth_error_In; eauto. }
        split.
        * constructor; auto; cbn [with_phase s_phase s_routes s_chan s_workers s_size].
          -- split; auto. intros w Hin. apply In_nth_error in Hin. destruct Hin as (i & Hn). now apply (Hall i w).
          -- intros i w Hn. destruct (Hall i w Hn) as [A B]. destruct (Hw i w Hn) as [Wf Wo]. split; auto. rewrite B in *.
             cbn [s_chan s_routes]. destruct Wo as (W1 & W2 & W3 & _). auto.
        * unfold measure. cbn [with_phase s_phase s_routes s_chan s_workers]. rewrite Ep. simpl phase_weight. lia.
      + injection E as <-. apply receive_inv; auto.
    - destruct (nth_error (s_workers s) i) as [w|] eqn:Ew; [|discriminate].
      destruct Hi as [Hph Hc Hs Hw Hch Hr Hpa]. unfold phase_ok in Hph. rewrite Ep in Hph. destruct Hph as (w0 & E0 & Ho).
      assert (w0 = w) by congruence. subst w0.
      destruct (w_thread w) eqn:Et; [discriminate| |].
      + injection E as <-. split.
        * constructor; auto; cbn [with_phase s_phase s_routes s_chan s_workers s_size].
          -- exact I.
          -- intros j v Hn. destruct (Hw j v Hn) as [Wf Wo]. split; auto. cbn [s_chan s_routes s_phase].
             destruct (w_open v); auto. destruct Wo as (A & B & C & D). split; [auto|]. split; [auto|]. split; [auto|].
             destruct D as [D|[D1 D2]]; [auto|]. rewrite Ep in D2. injection D2 as <-. assert (v = w) by congruence. subst. congruence.
        * unfold measure. cbn [with_phase s_phase s_routes s_chan s_workers]. rewrite Ep. simpl phase_weight. lia.
      + exfalso. destruct (Hw i w Ew) as [_ Wo]. rewrite Ho in Wo. destruct Wo as (_ & _ & _ & [D|[D _]]); congruence.
  Qed.

  Lemma logged_routes_app a b : logged_routes (a ++ b) = logged_routes a ++ logged_routes b.
  Proof. apply flat_map_app. Qed.
  Lemma logged_paths_app a b : logged_paths (a ++ b) = logged_paths a ++ logged_paths b.
  Proof. apply flat_map_app. Qed.

  Lemma worker_inv log s s' i : inv log s -> worker_step job i s = Some s' ->
    inv (log ++ worked job (AWorker i) s) s' /\ measure s' < measure s.
  Proof.
    intros Hi E. unfold worker_step in E. destruct (nth_error (s_workers s) i) as [w|] eqn:Ew; [|discriminate].
    destruct (running w) eqn:Erun; [|discriminate]. destruct Hi as [Hph Hc Hs Hw Hch Hr Hpa].
    assert (Hlt : i < length (s_workers s)) by (apply nth_error_Some; congruence).
    pose proof (Hw i w Ew) as Wi. unfold worked. rewrite Ew. destruct (w_inbox w) as [|wk t] eqn:Ein.
    - destruct (w_open w) eqn:Eo; [discriminate|]. injection E as <-. rewrite app_nil_r. destruct Wi as [Wf Wo]. rewrite Eo in Wo.
      destruct Wo as (W1 & W2 & W3 & W4).
      assert (Hpj : s_phase s = PJoin i).
      { destruct W4 as [W4|[_ W4]]; auto. unfold running in Erun. rewrite W4 in Erun. discriminate. }
      split.
      + constructor; auto; cbn [with_workers s_phase s_routes s_chan s_workers s_size].
        * unfold phase_ok. cbn [with_workers s_phase s_workers]. rewrite Hpj. exists (with_thread w Exited). split; auto.
          now apply nth_error_upd_eq.
        * now rewrite upd_length.
        * intros j v Hn. destruct (Nat.eq_dec j i) as [->|Hne].
          -- rewrite nth_error_upd_eq in Hn by auto. injection Hn as <-. split; auto. cbn [with_thread w_open w_inbox w_thread s_chan s_routes].
             rewrite Eo. auto.
          -- rewrite nth_error_upd_neq in Hn by auto. exact (Hw j v Hn).
        * rewrite Hr. pose proof (flat_map_upd inbox_routes (s_workers s) i (with_thread w Exited) w Ew) as Hp.
          change (inbox_routes (with_thread w Exited)) with (inbox_routes w) in Hp.
          apply Permutation_app_inv_r in Hp. now rewrite Hp.
      + unfold measure. cbn [with_workers s_phase s_routes s_chan s_workers].
        pose proof (sum_upd weight (s_workers s) i (with_thread w Exited) w Ew) as Hsum. unfold weight at 2 4 in Hsum. rewrite Erun in Hsum.
        cbn [with_thread w_inbox w_open running w_thread] in Hsum. lia.
    - destruct Wi as [Wf Wo]. destruct (w_open w) eqn:Eo; [|destruct Wo as (W1 & _); congruence].
      destruct Wo as [Wt Wc]. rewrite Ein in Wc. simpl in Wc.
      assert (t = []) by (destruct t; [auto|simpl in Wc; lia]). subst t.
      destruct Hsteady as [_ Hst]. destruct (Hst (w_dijkstra w) wk) as (st & o & Ej & Hfit & Hfl); auto.
      { intros r Hr'. apply (Permutation_in r (Permutation_sym Hr)). apply in_or_app. right. apply in_or_app. left.
        apply in_flat_map. exists w. split; [eapply nth_error_In; eauto|]. unfold inbox_routes. rewrite Ein. simpl. now rewrite app_nil_r. }
      rewrite Ej in *. injection E as <-.
      set (w' := {| w_open := true; w_thread := Running; w_inbox := []; w_dijkstra := st |}).
      assert (Iw' : inbox_routes w' = []) by reflexivity.
      assert (Iw : inbox_routes w = wk_routes wk) by (unfold inbox_routes; rewrite Ein; simpl; apply app_nil_r).
      split.
      + constructor; cbn [s_phase s_routes s_chan s_workers s_size s_loads s_paths].
        * unfold phase_ok in *. cbn [s_phase s_workers s_chan]. destruct (s_phase s) as [| |j| | |] eqn:Ep; auto.
          -- destruct Hph as (v & Hv & Hvo). exists v. split; auto. rewrite nth_error_upd_neq; auto. intros ->. congruence.
          -- destruct Hph as [_ Hex]. exfalso. specialize (Hex w (nth_error_In _ _ Ew)). congruence.
        * now rewrite upd_length.
        * auto.
        * intros j v Hn. destruct (Nat.eq_dec j i) as [->|Hne].
          -- rewrite nth_error_upd_eq in Hn by auto. injection Hn as <-. split; auto. cbn [w_open w_inbox w_thread s_chan].
             split; auto. rewrite cnt_snoc. destruct (Nat.eq_dec i i); [simpl; lia|congruence].
          -- rewrite nth_error_upd_neq in Hn by auto. destruct (Hw j v Hn) as [Vf Vo]. split; auto. cbn [s_chan s_routes s_phase].
             rewrite cnt_snoc. destruct (Nat.eq_dec i j); [congruence|]. now rewrite Nat.add_0_r.
        * intros j q Hq. apply in_app_iff in Hq. destruct Hq as [Hq|[Hq|[]]]; [now apply Hch|]. injection Hq as <- <-. split; [lia|auto].
        * rewrite Hr. pose proof (flat_map_upd inbox_routes (s_workers s) i w' w Ew) as Hp. rewrite Iw, Iw', app_nil_r in Hp.
          rewrite <- Hp. apply Permutation_app_head. rewrite logged_routes_app. rewrite <- !app_assoc. apply Permutation_app_head.
          change (logged_routes [(wk, o)]) with (wk_routes wk ++ []). rewrite app_nil_r. apply Permutation_app_comm.
        * destruct Hpa as (ab & fl & F & A & P). exists ab, fl. split; auto. split; auto.
          rewrite logged_paths_app, P, flat_map_app. unfold logged_paths. cbn [flat_map snd]. rewrite !app_nil_r. now rewrite app_assoc.
      + unfold measure. cbn [s_phase s_routes s_chan s_workers].
        pose proof (sum_upd weight (s_workers s) i w' w Ew) as Hsum.
        assert (Ww : weight w = 5) by (unfold weight; rewrite Ein, Erun, Eo; reflexivity).
        assert (Ww' : weight w' = 2) by reflexivity.
        rewrite app_length. simpl length. fold w'. lia.
  Qed.

  Lemma fire_inv log s a s' : inv log s -> fire g ff job a s = Some s' ->
    inv (log ++ worked job a s) s' /\ measure s' < measure s.
  Proof.
    destruct a as [|i]; cbn [fire]; intros Hi E.
    - rewrite app_nil_r. now apply master_inv.
    - now apply worker_inv.
  Qed.

  Lemma runs_inv l s log0 log s' : runs g ff job l s log s' -> inv log0 s ->
    inv (log0 ++ log) s' /\ length l + measure s' <= measure s.
  Proof.
    intros R. revert log0. induction R as [s|a l s s1 s2 log E R IH]; intros log0 Hi.
    - rewrite app_nil_r. split; auto.
    - destruct (fire_inv _ _ _ _ Hi E) as [Hi' Hm]. destruct (IH _ Hi') as [Hi2 Hm2]. rewrite <- app_assoc in Hi2. split; auto. simpl. lia.
  Qed.

  (** *** Start *)
  Lemma map_nth_new n i w : nth_error (repeat new_worker n) i = Some w -> w = new_worker.
  Proof. intros H. apply nth_error_In in H. now apply repeat_spec in H. Qed.

  Lemma cnt_start n i : i < n -> cnt i (map (fun j => (j, no_outcome)) (seq 0 n)) = 1.
  Proof.
    intros H. unfold cnt. rewrite map_map, map_id. cbn [fst].
    apply NoDup_count_occ'; [apply seq_NoDup|]. apply in_seq. lia.
  Qed.

  Lemma spawned_inv s : spawned g count routes collecting = Ok s ->
    inv [] s /\ measure s = 3 * length routes + 4 * count + 2.
  Proof.
    unfold spawned. intros E. apply bind_ok in E. destruct E as (sz & Esz & E). injection E as <-.
    destruct (init_size_bounds INIT_WORK_SIZE WORK_SIZE_PLUS WORK_SIZE_MINUS) as (sz' & E' & H1 & H2); [vm_compute; discriminate|vm_compute; discriminate|].
    assert (sz' = sz) by congruence. subst sz'. split.
    - constructor; cbn [s_phase s_routes s_chan s_workers s_size s_loads s_paths].
      + exact I.
      + apply repeat_length.
      + auto.
      + intros i w Hn. assert (Hi : i < count) by (rewrite <- (repeat_length new_worker count); apply nth_error_Some; congruence).
        apply map_nth_new in Hn. subst w. split; [apply Hsteady|]. cbn [new_worker w_open w_thread w_inbox s_chan length].
        split; auto. now rewrite cnt_start.
      + intros i o Hin. apply in_map_iff in Hin. destruct Hin as (j & E & Hj). injection E as <- <-. apply in_seq in Hj. split; [lia|].
        intros p [].
      + cbn [logged_routes flat_map]. rewrite app_nil_r.
        replace (flat_map inbox_routes (repeat new_worker count)) with (@nil route).
        * rewrite app_nil_r. apply Permutation_rev.
        * induction count as [|n IH]; simpl; auto.
      + exists [], []. split; [constructor|]. split.
        * split; auto. split; [apply repeat_length|]. intros e He. unfold occurrences. simpl.
          rewrite (nth_error_nth' (repeat 0 (edge_count g FWD)) 0) by now rewrite repeat_length. now rewrite nth_repeat.
        * cbn [logged_paths flat_map app]. induction (seq 0 count) as [|x l IH]; simpl; auto.
    - unfold measure. cbn [s_phase s_routes s_chan s_workers phase_weight]. rewrite rev_length, map_length, seq_length.
      replace (list_sum (map weight (repeat new_worker count))) with (2 * count); [lia|].
      clear. induction count as [|n IH]; [reflexivity|]. cbn [repeat map list_sum fold_right]. change (weight new_worker) with 2.
      unfold list_sum in IH. lia.
  Qed.

  (** *** Progress *)
  Lemma progress log s : inv log s -> blocked g ff job s -> s_phase s = PDone.
  Proof.
    intros Hi Hb. destruct Hi as [Hph Hc Hs Hw Hch Hr Hpa].
    assert (Hworker : forall i w, nth_error (s_workers s) i = Some w -> w_thread w = Running -> w_open w = true /\ w_inbox w = []).
    { intros i w Hn Ht. specialize (Hb (AWorker i)). cbn [fire] in Hb. unfold worker_step in Hb. rewrite Hn in Hb.
      unfold running in Hb. rewrite Ht in Hb. destruct (w_inbox w) as [|wk t] eqn:Ein; [destruct (w_open w); [auto|discriminate]|].
      exfalso. destruct Hsteady as [_ Hst]. destruct (Hst (w_dijkstra w) wk) as (st & o & Ej & _); [apply (Hw i w Hn)| |rewrite Ej in Hb; discriminate].
      intros r Hr'. apply (Permutation_in r (Permutation_sym Hr)). apply in_or_app. right. apply in_or_app. left.
      apply in_flat_map. exists w. split; [eapply nth_error_In; eauto|]. unfold inbox_routes. rewrite Ein. simpl. apply in_or_app. auto. }
    pose proof (Hb AMaster) as Hm. cbn [fire] in Hm. unfold master_step in Hm. unfold phase_ok in Hph.
    destruct (s_phase s) as [| |i| | |] eqn:Ep; auto; try contradiction.
    - destruct (s_chan s) as [|[i o] rest]; discriminate.
    - destruct (s_chan s) as [|[i o] rest] eqn:Ec; [|discriminate]. destruct (existsb running (s_workers s)) eqn:Er; [|discriminate].
      exfalso. apply existsb_exists in Er. destruct Er as (w & Hin & Hrun). apply In_nth_error in Hin. destruct Hin as (i & Hn).
      assert (Ht : w_thread w = Running) by (unfold running in Hrun; destruct (w_thread w); auto; discriminate).
      destruct (Hworker i w Hn Ht) as [Ho Hin]. destruct (Hw i w Hn) as [_ Wo]. rewrite Ho in Wo. destruct Wo as [_ Wo].
      rewrite Hin, Ec in Wo. discriminate.
    - destruct Hph as (w & Hn & Ho). rewrite Hn in Hm. destruct (w_thread w) eqn:Et; [|discriminate|discriminate].
      destruct (Hworker i w Hn Et) as [Ho' _]. congruence.
  Qed.

  (** *** The end *)
  Lemma done_spec log s : 1 <= count -> inv log s -> s_phase s = PDone ->
    Permutation routes (logged_routes log) /\
    (forall w, In w (s_workers s) -> w_thread w = Exited /\ w_open w = false /\ w_inbox w = []) /\
    exists ab fl, Forall2 (flattens g ff) ab fl /\ Permutation (logged_paths log) ab /\ absorbed fl (s_loads s) (s_paths s).
  Proof.
    intros Hn Hi Ep. destruct Hi as [Hph Hc Hs Hw Hch Hr Hpa]. unfold phase_ok in Hph. rewrite Ep in Hph. destruct Hph as [Ec Hex].
    assert (Hall : forall i w, nth_error (s_workers s) i = Some w -> w_open w = false /\ w_inbox w = [] /\ s_routes s = []).
    { intros i w Hnth. pose proof (Hex w (nth_error_In _ _ Hnth)) as He. destruct (Hw i w Hnth) as [_ Wo]. destruct (w_open w).
      - destruct Wo as [Wo _]. congruence.
      - destruct Wo as (A & _ & B & _). auto. }
    split; [|split].
    - rewrite Hr. destruct (s_workers s) as [|w0 l] eqn:El; [simpl in Hc; lia|].
      destruct (Hall 0 w0 eq_refl) as (_ & _ & ->).
      assert (Ei : flat_map inbox_routes (w0 :: l) = []); [|rewrite Ei; reflexivity].
      assert (Hin : forall w, In w (w0 :: l) -> w_inbox w = []).
      { intros w Hw'. apply In_nth_error in Hw'. destruct Hw' as (i & Hi). now apply (Hall i w). }
      clear - Hin. induction (w0 :: l) as [|x xs IH]; auto. simpl. unfold inbox_routes at 1. rewrite (Hin x) by (simpl; auto).
      simpl. apply IH. intros w Hw. apply Hin. simpl. auto.
    - intros w Hin. split; [auto|]. apply In_nth_error in Hin. destruct Hin as (i & Hnth). destruct (Hall i w Hnth) as (A & B & _). auto.
    - destruct Hpa as (ab & fl & F & A & P). exists ab, fl. split; auto. rewrite Ec in P. simpl in P. rewrite app_nil_r in P. auto.
  Qed.

  (** *** What the logged work is *)
  Lemma logged_ok (P : work -> outcome -> Prop) :
    (forall st w st' o, fit st -> incl (wk_routes w) routes -> job st w = Ok (st', o) -> P w o) ->
    forall l s log log0 s', runs g ff job l s log s' -> inv log0 s -> forall w o, In (w, o) log -> P w o.
  Proof.
    intros HP l s log log0 s' R. revert log0. induction R as [s|a l s s1 s2 log E R IH]; intros log0 Hi w o Hin; [destruct Hin|].
    apply in_app_iff in Hin. destruct Hin as [Hin|Hin].
    - destruct a as [|i]; [destruct Hin|]. unfold worked in Hin.
      destruct (nth_error (s_workers s) i) as [v|] eqn:Ev; [|destruct Hin]. destruct (w_inbox v) as [|wk t] eqn:Ein; [destruct Hin|].
      destruct (job (w_dijkstra v) wk) as [[st o']| | |] eqn:Ej; try (destruct Hin; fail). destruct Hin as [Hin|[]]. injection Hin as <- <-.
      apply (HP (w_dijkstra v) wk st o'); auto.
      + apply (i_workers _ _ Hi i v Ev).
      + intros r Hr'. apply (Permutation_in r (Permutation_sym (i_routes _ _ Hi))). apply in_or_app. right. apply in_or_app. left.
        apply in_flat_map. exists v. split; [eapply nth_error_In; eauto|]. unfold inbox_routes. rewrite Ein. simpl. apply in_or_app. auto.
    - destruct (fire_inv _ _ _ _ Hi E) as [Hi' _]. eapply IH; eauto.
  Qed.

  (** *** A finishing run exists *)
  Lemma worker_dec s n : (exists i s', worker_step job i s = Some s') \/ forall i, i < n -> worker_step job i s = None.
  Proof.
    induction n as [|n [IH|IH]]; [right; lia|auto|]. destruct (worker_step job n s) as [s'|] eqn:E; [left; eauto|].
    right. intros i Hi. destruct (Nat.eq_dec i n) as [->|]; auto. apply IH. lia.
  Qed.

  Lemma step_or_done log s : inv log s -> s_phase s = PDone \/ exists a s', fire g ff job a s = Some s'.
  Proof.
    intros Hi. destruct (master_step g ff s) as [s'|] eqn:Em; [right; exists AMaster, s'; exact Em|].
    destruct (worker_dec s (length (s_workers s))) as [(i & s' & E)|H]; [right; exists (AWorker i), s'; exact E|].
    left. eapply progress; eauto. intros [|i]; cbn [fire]; auto. destruct (Nat.lt_ge_cases i (length (s_workers s))) as [Hl|Hg]; auto.
    unfold worker_step. rewrite (proj2 (nth_error_None _ _)); auto.
  Qed.

  Lemma completes : forall n s log, measure s <= n -> inv log s ->
    exists l log' s', runs g ff job l s log' s' /\ s_phase s' = PDone.
  Proof.
    induction n as [|n IH]; intros s log Hm Hi; (destruct (step_or_done log s Hi) as [Hd|(a & s1 & E)];
      [exists [], [], s; split; [constructor|auto]|destruct (fire_inv _ _ _ _ Hi E) as [Hi' Hlt]]); [lia|].
    destruct (IH s1 _ ltac:(lia) Hi') as (l & log' & s' & R & Hd). exists (a :: l), (worked job a s ++ log'), s'. split; auto.
    econstructor; eauto.
  Qed.
End Accounting.
