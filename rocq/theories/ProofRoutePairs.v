(** Lemmas about files of route pairs *)
From Coq Require Import String Ascii List Bool Arith NArith ZArith QArith Lia Permutation.
From Verif Require Import Base F64 ModelText ModelApprox ModelUnits ModelConfig ModelGraph ModelBuild ModelDijkstra ModelBalancing ModelFmi ModelRoutePairs Lib
  ProofText ProofGraph Spec ProofProps SpecRouting ProofDijkstra ProofRouting PropsGraph PropsRouting SpecBalancing PropsBalancing SpecFmi ProofFmi SpecRoutePairs.
Import ListNotations.
Open Scope string_scope.
Open Scope list_scope.
Open Scope nat_scope.

(** *** Parsing *)
Lemma describes_parsed l r : describes l r -> route_from_str l = Ok r.
Proof.
  destruct r as [[s d] n]. intros (E & Hs & Hd & Hn). cbn [fst snd] in *. unfold route_from_str. rewrite E.
  unfold fits_i64, fits_usize in *. rewrite !parse_i64_show by (unfold is_i64; lia). unfold show_nat.
  rewrite parse_usize_show by (unfold U64_MAX; lia). now rewrite Nat2N.id.
Qed.
Lemma describes_not_single l r : describes l r -> ~ single l.
Proof. intros [E _] [w Hw]. rewrite E in Hw. discriminate. Qed.
Lemma parse_routes_all file ls ds pre front la data rs tail :
  file_of ls file -> interleaved ls ds -> header ds pre (front ++ [la]) (data ++ tail) ->
  announces la (N.of_nat (length rs)) -> Forall2 describes data rs ->
  (N.of_nat (length ds) + N.of_nat (length rs) <= U64_MAX)%N -> (N.of_nat (length rs) * 24 <= I64_MAX)%N ->
  parse_routes file = Ok rs.
Proof.
  intros F H Hh Ha Fd Hmax Hcap. unfold parse_routes. rewrite (functional_of _ _ _ F H). unfold route_range.
  rewrite (take_counts_all _ _ _ _ Hh), counts_of_app, (counts_of_announced _ _ Ha), rev_app_distr. cbn [rev app].
  set (s := length pre + length (front ++ [la])). set (n := N.of_nat (length rs)) in *.
  assert (Hs : s <= length ds). { destruct Hh as (-> & _). unfold s. rewrite !app_length. lia. }
  unfold add_usize. destruct (N.leb_spec (N.of_nat s + n) U64_MAX); [|lia]. cbn [bind fst snd].
  unfold with_capacity. destruct (N.leb_spec ((N.of_nat s + n - N.of_nat s) * 24) I64_MAX) as [_|X]; [|replace (N.of_nat s + n - N.of_nat s)%N with n in X by lia; lia].
  cbn [bind]. rewrite parse_lines_range by lia. rewrite Nat.sub_0_r.
  assert (Ed : skipn s ds = data ++ tail).
  { destruct Hh as (-> & _). unfold s. rewrite app_assoc, <- app_length, skipn_app, skipn_all, Nat.sub_diag. reflexivity. }
  rewrite Ed. unfold n. rewrite Nat2N.id. rewrite <- (Forall2_len _ _ _ Fd), firstn_app, Nat.sub_diag, firstn_all, app_nil_r.
  apply mapM_ok. clear - Fd. induction Fd; constructor; auto using describes_parsed.
Qed.

Lemma route_from_str_iff l r : route_from_str l = Ok r <-> route_words l r.
Proof.
  unfold route_from_str, route_words. split.
  - intros H. destruct (words l) as [|a [|b [|c [|d ws]]]]; try discriminate.
    destruct (parse_i64 a) as [s|] eqn:Ea; [|discriminate]. destruct (parse_i64 b) as [t|] eqn:Eb; [|discriminate].
    destruct (parse_usize c) as [n|] eqn:Ec; [|discriminate]. injection H as <-. exists a, b, c, n. auto.
  - destruct r as [[s t] k]. cbn [fst snd]. intros (a & b & c & n & -> & -> & -> & -> & <-). reflexivity.
Qed.
Lemma parse_routes_iff file ls ds pre front la data tail rs :
  file_of ls file -> interleaved ls ds -> header ds pre (front ++ [la]) (data ++ tail) ->
  announces la (N.of_nat (length data)) ->
  (N.of_nat (length ds) + N.of_nat (length data) <= U64_MAX)%N -> (N.of_nat (length data) * 24 <= I64_MAX)%N ->
  (parse_routes file = Ok rs <-> Forall2 route_words data rs).
Proof.
  intros F H Hh Ha Hmax Hcap. unfold parse_routes. rewrite (functional_of _ _ _ F H). unfold route_range.
  rewrite (take_counts_all _ _ _ _ Hh), counts_of_app, (counts_of_announced _ _ Ha), rev_app_distr. cbn [rev app].
  set (s := length pre + length (front ++ [la])). set (n := N.of_nat (length data)) in *.
  assert (Hs : s <= length ds). { destruct Hh as (-> & _). unfold s. rewrite !app_length. lia. }
  unfold add_usize. destruct (N.leb_spec (N.of_nat s + n) U64_MAX); [|lia]. cbn [bind fst snd].
  unfold with_capacity. destruct (N.leb_spec ((N.of_nat s + n - N.of_nat s) * 24) I64_MAX) as [_|X]; [|replace (N.of_nat s + n - N.of_nat s)%N with n in X by lia; lia].
  cbn [bind]. rewrite parse_lines_range by lia. rewrite Nat.sub_0_r.
  assert (Ed : skipn s ds = data ++ tail).
  { destruct Hh as (-> & _). unfold s. rewrite app_assoc, <- app_length, skipn_app, skipn_all, Nat.sub_diag. reflexivity. }
  rewrite Ed. unfold n. rewrite Nat2N.id, firstn_app, Nat.sub_diag, firstn_all, app_nil_r. clear. split.
  - revert rs. induction data as [|l data IH]; intros rs E; simpl in E; [injection E as <-; constructor|].
    destruct (route_from_str l) as [r| | |] eqn:El; try discriminate. cbn [bind] in E.
    destruct (mapM route_from_str data) as [rs'| | |] eqn:Em; try discriminate. injection E as <-.
    constructor; [now apply route_from_str_iff|now apply IH].
  - intros F. apply mapM_ok. induction F; constructor; auto. now apply route_from_str_iff.
Qed.

(** *** Sorting *)
Lemma insert_pair_perm x l : Permutation (x :: l) (insert_pair x l).
Proof.
  induction l as [|y l IH]; auto. simpl. destruct (pair_leb x y); auto.
  rewrite perm_swap. now constructor.
Qed.
Lemma sort_pairs_perm l : Permutation l (sort_pairs l).
Proof. induction l as [|x l IH]; auto. simpl. rewrite <- insert_pair_perm. now constructor. Qed.
Definition pair_lt (a b : Z * Z) : Prop := ((fst a < fst b) \/ (fst a = fst b /\ snd a < snd b))%Z.
Lemma pair_leb_spec a b : if pair_leb a b then pair_lt a b \/ a = b else pair_lt b a.
Proof.
  destruct a as [a1 a2], b as [b1 b2]. unfold pair_leb, pair_lt. cbn [fst snd].
  destruct (Z.ltb_spec a1 b1); cbn [orb]; [lia|]. destruct (Z.eqb_spec a1 b1) as [->|]; cbn [andb]; [|lia].
  destruct (Z.leb_spec a2 b2); [|lia]. destruct (Z.eq_dec a2 b2) as [->|]; [auto|lia].
Qed.
Lemma pair_lt_trans a b c : pair_lt a b -> pair_lt b c -> pair_lt a c.
Proof. unfold pair_lt. lia. Qed.
Lemma ascending_cons a l : ascending (a :: l) <-> ascending l /\ forall b, In b l -> pair_lt a b.
Proof.
  revert a. induction l as [|b l IH]; intros a; [simpl; intuition|]. split.
  - intros [H1 H2]. split; auto. intros x [<-|Hx]; auto. apply IH in H2. apply pair_lt_trans with b; [exact H1|]. now apply (proj2 H2).
  - intros [H1 H2]. split; [apply H2; now left|auto].
Qed.
Lemma insert_pair_ascending x l : ascending l -> ~ In x l -> ascending (insert_pair x l).
Proof.
  induction l as [|y l IH]; intros Ha Hn; [exact I|]. pose proof (pair_leb_spec x y) as Hs. cbn [insert_pair]. destruct (pair_leb x y).
  - destruct Hs as [Hs| ->]; [|destruct Hn; now left]. apply ascending_cons. split; auto. intros b [<-|Hb]; auto.
    apply pair_lt_trans with y; auto. apply ascending_cons in Ha. now apply (proj2 Ha).
  - apply ascending_cons in Ha. destruct Ha as [Ha Hy]. apply ascending_cons. split.
    + apply IH; auto. intros H. apply Hn. now right.
    + intros b Hb. apply (Permutation_in _ (Permutation_sym (insert_pair_perm x l))) in Hb. destruct Hb as [<-|Hb]; auto.
Qed.
Lemma sort_pairs_ascending l : NoDup l -> ascending (sort_pairs l).
Proof.
  induction 1 as [|x l Hn Hd IH]; [exact I|]. cbn [sort_pairs fold_right]. apply insert_pair_ascending; auto.
  intros H. apply Hn. apply (Permutation_in _ (Permutation_sym (sort_pairs_perm l))). exact H.
Qed.

(** *** The loop *)
Lemma processed_in p l : processed_mem p l = true <-> In p l.
Proof.
  unfold processed_mem. rewrite existsb_exists. split.
  - intros (q & Hq & E). rewrite andb_true_iff, !Nat.eqb_eq in E. destruct p, q. cbn [fst snd] in E. destruct E as [-> ->]. exact Hq.
  - intros H. exists p. split; auto. now rewrite !Nat.eqb_refl.
Qed.

Section Loop.
  Variables (g : graph) (Hn : node_count g <> 2).
  Variables (pick : nat -> list costnode -> nat) (dfuel : nat) (rc : routing_cfg) (sample : nat -> nat) (all : bool) (max_count : nat).
  Let n := node_count g.
  Hypothesis Hsample : forall k, sample k < n.

  (** the pairs for which a new object finds a path *)
  Definition answered (p : nat * nat) : Prop :=
    exists st' q, compute_best_path pick dfuel dijkstra_new g rc (fst p) (snd p) = Ok (st', Some q).

  Definition unanswered (p : nat * nat) : Prop :=
    exists st', compute_best_path pick dfuel dijkstra_new g rc (fst p) (snd p) = Ok (st', None).

  Lemma next_pair_lt i : 0 < n -> i < n * n -> fst (next_pair sample all n i) < n /\ snd (next_pair sample all n i) < n.
  Proof.
    intros Hp Hi. unfold next_pair. destruct all; cbn [fst snd]; [|split; apply Hsample]. split; [|apply Nat.mod_upper_bound; lia].
    apply Nat.div_lt_upper_bound; lia.
  Qed.
  Lemma reuse_answer st s t st' o : dijkstra_fit g st -> compute_best_path pick dfuel st g rc s t = Ok (st', o) ->
    dijkstra_fit g st' /\ exists st2, compute_best_path pick dfuel dijkstra_new g rc s t = Ok (st2, o).
  Proof.
    intros [Hh Hcap] Ec. split; [split; [eapply history_query; eauto|eapply capacity_bound; eauto]|].
    pose proof (C21_reuse_partial pick dfuel st g rc s t Hh Hcap Hn) as Hre. rewrite Ec in Hre. cbn [answer snd] in Hre.
    destruct (compute_best_path pick dfuel dijkstra_new g rc s t) as [[st2 o2]| | |]; try discriminate. cbn [answer snd] in Hre. injection Hre as ->. eauto.
  Qed.

  (** the state after some attempts: [fi] are the found pairs of indices *)
  Record loop_inv (attempts : nat) (processed : list (nat * nat)) (st : dijkstra) (fi : list (nat * nat)) (found : list (Z * Z)) : Prop := {
    li_fit : dijkstra_fit g st;
    li_processed : forall p, In p processed <-> exists i, i < attempts /\ next_pair sample all n i = p;
    li_ids : Forall2 (fun i p => pair_of g (fst i) (snd i) p) fi found;
    li_nodup : NoDup fi;
    li_incl : incl fi processed;
    li_found : forall p, In p fi -> answered p;
    li_all : forall p, In p processed -> fst p <> snd p -> In p fi \/ unanswered p;
    li_count : length fi <= max_count;
  }.
  Lemma loop_inv_start : loop_inv 0 [] dijkstra_new [] [].
  Proof.
    split.
    - split; [constructor|]. unfold capacity. simpl. lia.
    - intros p. split; [intros []|]. intros (i & Hi & _). lia.
    - constructor.
    - constructor.
    - intros p [].
    - intros p [].
    - intros p [].
    - simpl. lia.
  Qed.
  Lemma processed_step attempts processed : (forall p, In p processed <-> exists i, i < attempts /\ next_pair sample all n i = p) ->
    forall p, In p (next_pair sample all n attempts :: processed) <-> exists i, i < S attempts /\ next_pair sample all n i = p.
  Proof.
    intros H p. cbn [In]. rewrite H. split.
    - intros [Hp|(i & Hi & Hp)]; [exists attempts|exists i]; split; auto; lia.
    - intros (i & Hi & Hp). destruct (Nat.eq_dec i attempts) as [->|]; [now left|]. right. exists i. split; [lia|auto].
  Qed.

  Lemma loop_spec fuel : forall attempts processed st fi found r, 0 < n ->
    loop_inv attempts processed st fi found ->
    pairs_loop pick dfuel sample fuel g rc all n max_count attempts (length fi) processed st found = Ok r ->
    exists attempts' processed' st' fi', loop_inv attempts' processed' st' fi' r /\ (length fi' = max_count \/ n * n <= attempts').
  Proof.
    induction fuel as [|fuel IH]; intros attempts processed st fi found r Hpos Hi El; [discriminate|]. cbn [pairs_loop] in El.
    destruct (Nat.ltb_spec (length fi) max_count) as [Hm|Hm]; cbn [andb] in El.
    2:{ injection El as ->. exists attempts, processed, st, fi. split; auto. left. pose proof (li_count _ _ _ _ _ Hi). lia. }
    destruct (Nat.ltb_spec attempts (n * n)) as [Ha|Ha].
    2:{ injection El as ->. exists attempts, processed, st, fi. auto. }
    pose proof (next_pair_lt attempts Hpos Ha) as [Hs Ht]. pose proof (processed_step _ _ (li_processed _ _ _ _ _ Hi)) as Hpr.
    destruct (next_pair sample all n attempts) as [s t] eqn:Enp. cbn [fst snd] in Hs, Ht.
    destruct (negb (s =? t) && negb (processed_mem (s, t) processed)) eqn:Eq.
    - rewrite andb_true_iff, !negb_true_iff, Nat.eqb_neq in Eq. destruct Eq as [Hne Hnp].
      assert (Hfresh : ~ In (s, t) processed) by (rewrite <- processed_in, Hnp; discriminate).
      apply bind_ok in El. destruct El as ([st1 o] & Ec & El). cbn [fst snd] in El.
      destruct (reuse_answer _ _ _ _ _ (li_fit _ _ _ _ _ Hi) Ec) as [Hf1 [st2 E2]]. destruct o as [q|].
      + apply bind_ok in El. destruct El as (sid & Esid & El). apply bind_ok in El. destruct El as (tid & Etid & El).
        replace (S (length fi)) with (length (fi ++ [(s, t)])) in El by (rewrite app_length; simpl; lia).
        apply IH in El; auto. split; auto.
        * apply Forall2_app; [apply (li_ids _ _ _ _ _ Hi)|]. constructor; [|constructor]. repeat split; auto.
        * apply (Permutation_NoDup (l := (s, t) :: fi)); [apply Permutation_cons_append|]. constructor; [|apply (li_nodup _ _ _ _ _ Hi)].
          intros H. apply Hfresh. now apply (li_incl _ _ _ _ _ Hi).
        * intros p Hp. rewrite in_app_iff in Hp. destruct Hp as [Hp|[<-|[]]]; [right; now apply (li_incl _ _ _ _ _ Hi)|now left].
        * intros p Hp. rewrite in_app_iff in Hp. destruct Hp as [Hp|[<-|[]]]; [now apply (li_found _ _ _ _ _ Hi)|]. exists st2, q. exact E2.
        * intros p Hp Hd. rewrite in_app_iff. destruct Hp as [<-|Hp]; [left; right; now left|].
          destruct (li_all _ _ _ _ _ Hi p Hp Hd) as [H|H]; auto.
        * rewrite app_length. simpl. lia.
      + apply IH in El; auto. destruct Hi as [A B C D F G K L]. split; auto.
        * intros p Hp. right. now apply F.
        * intros p [<-|Hp] Hd; [|now apply K]. right. exists st2. exact E2.
    - apply IH in El; auto. destruct Hi as [A B C D F G K L]. split; auto.
      + intros p Hp. right. now apply F.
      + intros p [<-|Hp] Hd; [|now apply K]. cbn [fst snd] in Hd. apply andb_false_iff in Eq. rewrite !negb_false_iff in Eq.
        destruct Eq as [Eq|Eq]; [apply Nat.eqb_eq in Eq; contradiction|]. apply processed_in in Eq. now apply K.
  Qed.

  (** the number of attempts bounds the loop's length *)
  Lemma loop_ends fuel : forall attempts successes processed st found,
    (forall st s t, dijkstra_fit g st -> s < n -> t < n -> compute_best_path pick dfuel st g rc s t <> Diverge) ->
    dijkstra_fit g st -> 0 < n -> n * n - attempts < fuel ->
    pairs_loop pick dfuel sample fuel g rc all n max_count attempts successes processed st found <> Diverge.
  Proof.
    induction fuel as [|fuel IH]; intros attempts successes processed st found Hc Hf Hpos Hfu; [lia|]. cbn [pairs_loop].
    destruct ((successes <? max_count) && (attempts <? n * n)) eqn:Eb; [|discriminate]. apply andb_true_iff in Eb. destruct Eb as [_ Ha].
    apply Nat.ltb_lt in Ha. pose proof (next_pair_lt attempts Hpos Ha) as [Hs Ht].
    destruct (next_pair sample all n attempts) as [s t]. cbn [fst snd] in Hs, Ht.
    assert (G : forall st successes processed found, dijkstra_fit g st ->
      pairs_loop pick dfuel sample fuel g rc all n max_count (S attempts) successes processed st found <> Diverge) by (intros; apply IH; auto; lia).
    destruct (negb (s =? t) && _); [|now apply G].
    destruct (compute_best_path pick dfuel st g rc s t) as [[st1 o]| | |] eqn:Ec; try discriminate; [|now apply Hc in Ec].
    cbn [bind fst snd]. destruct (reuse_answer _ _ _ _ _ Hf Ec) as [Hf1 _]. destruct o; [|now apply G].
    destruct (idx_lt (node_ids g) s Hs) as [a Ea]. destruct (idx_lt (node_ids g) t Ht) as [b Eb]. unfold node_id. rewrite Ea, Eb. cbn [bind]. now apply G.
  Qed.
  Lemma loop_total fuel : forall attempts successes processed st found,
    (forall st s t, dijkstra_fit g st -> s < n -> t < n -> exists st' o, compute_best_path pick dfuel st g rc s t = Ok (st', o)) ->
    dijkstra_fit g st -> 0 < n -> n * n - attempts < fuel ->
    exists r, pairs_loop pick dfuel sample fuel g rc all n max_count attempts successes processed st found = Ok r.
  Proof.
    induction fuel as [|fuel IH]; intros attempts successes processed st found Hc Hf Hpos Hfu; [lia|]. cbn [pairs_loop].
    destruct ((successes <? max_count) && (attempts <? n * n)) eqn:Eb; [|eauto]. apply andb_true_iff in Eb. destruct Eb as [_ Ha].
    apply Nat.ltb_lt in Ha. pose proof (next_pair_lt attempts Hpos Ha) as [Hs Ht].
    destruct (next_pair sample all n attempts) as [s t]. cbn [fst snd] in Hs, Ht.
    assert (G : forall st successes processed found, dijkstra_fit g st ->
      exists r, pairs_loop pick dfuel sample fuel g rc all n max_count (S attempts) successes processed st found = Ok r) by (intros; apply IH; auto; lia).
    destruct (negb (s =? t) && _); [|now apply G].
    destruct (Hc st s t Hf Hs Ht) as (st1 & o & Ec). rewrite Ec. cbn [bind fst snd]. destruct (reuse_answer _ _ _ _ _ Hf Ec) as [Hf1 _].
    destruct o; [|now apply G].
    destruct (idx_lt (node_ids g) s Hs) as [a Ea]. destruct (idx_lt (node_ids g) t Ht) as [b Eb]. unfold node_id. rewrite Ea, Eb. cbn [bind]. now apply G.
  Qed.

End Loop.

Section Ids.
  Variables (hav : coord -> coord -> f64) (c : cfg) (ch1 ch2 : nat) (es : list proto_edge) (ns : list proto_node) (g : graph).
  Hypotheses (H1 : 1 <= ch1) (H2 : 1 <= ch2) (E : build hav c ch1 ch2 es ns = Ok g).

  Lemma node_id_inj s t i : node_id g s = Ok i -> node_id g t = Ok i -> s = t.
  Proof.
    intros Hs Ht. destruct (C04_node_lookup _ _ _ _ _ _ _ H1 H2 E) as (_ & _ & _ & Hc).
    destruct (Hc _ _ Hs) as (co & l & _ & _ & E1). destruct (Hc _ _ Ht) as (co' & l' & _ & _ & E2). congruence.
  Qed.
  Lemma found_nodup fi found : Forall2 (fun i p => pair_of g (fst i) (snd i) p) fi found -> NoDup fi -> NoDup found.
  Proof.
    induction 1 as [|i p fi found Hp F IH]; intros Hd; [constructor|]. inversion Hd as [|? ? Hni Hd']; subst. constructor; auto.
    intros Hin. apply Hni. clear IH Hd Hd' Hni. induction F as [|j q fi found Hq F IH]; [destruct Hin|]. destruct Hin as [->|Hin]; [|right; now apply IH].
    left. destruct Hp as (_ & _ & _ & A & B), Hq as (_ & _ & _ & A' & B'). destruct i, j. cbn [fst snd] in *. f_equal; eapply node_id_inj; eauto.
  Qed.
End Ids.
