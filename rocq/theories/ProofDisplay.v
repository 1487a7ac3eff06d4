(** Lemmas about displaying a graph *)
From Coq Require Import String List Bool Arith ZArith Lia Sorted Permutation.
From Verif Require Import Base F64 ModelConfig ModelGraph ModelBuild ModelDisplay SpecDisplay Lib ProofStages ProofBuild ProofGraph ProofProps ProofRebuild ProofMetrics PropsGraph  ProofRouting.
Import ListNotations.
Open Scope list_scope.
Open Scope nat_scope.

(** *** the loop *)
Section Loop.
  Context {S L : Type} (n count : nat) (more : L) (entry : S -> nat -> res (S * L)).

  Definition loop_result (item : nat -> L) (i : nat) : list L :=
    if count <=? n then map item (seq i (count - i))
    else if i <? n then map item (seq i (n - 1 - i)) ++ [more; item (count - 1)] else [].

  Lemma up_to_ok (Inv : nat -> S -> Prop) item :
    (forall i j s, Inv i s -> i <= j -> Inv j s) ->
    (forall j s, j < count -> Inv j s -> exists s', entry s j = Ok (s', item j) /\ Inv (j + 1) s') ->
    forall steps i s, steps + i = n -> Inv i s -> up_to n count more entry steps i s = Ok (loop_result item i).
  Proof.
    intros Hm He. induction steps as [|k IH]; intros i s Hn Hi; cbn [up_to].
    - unfold loop_result. destruct (Nat.leb_spec count n).
      + replace (count - i) with 0 by lia. reflexivity.
      + destruct (Nat.ltb_spec i n); [lia|reflexivity].
    - destruct (Nat.ltb_spec i count).
      2:{ unfold loop_result. destruct (Nat.leb_spec count n); [|lia]. replace (count - i) with 0 by lia. reflexivity. }
      destruct (Nat.eqb_spec i (n - 1)) as [Ei|Ei].
      + destruct (He (count - 1) s) as (s' & E & Hs'); [lia|apply (Hm i); auto; lia|].
        rewrite E. cbn [bind]. assert (k = 0) as -> by lia. cbn [up_to bind]. cbn [andb]. f_equal.
        unfold loop_result. destruct (Nat.leb_spec count n), (Nat.ltb_spec (i + 1) count); try lia.
        * replace (count - i) with 1 by lia. cbn [seq map app]. do 2 f_equal. lia.
        * destruct (Nat.ltb_spec i n); [|lia]. replace (n - 1 - i) with 0 by lia. reflexivity.
      + destruct (He i s) as (s' & E & Hs'); auto.
        rewrite E. cbn [bind andb]. rewrite (IH (i + 1) s') by (auto; lia). cbn [bind app]. f_equal.
        unfold loop_result. destruct (Nat.leb_spec count n).
        * replace (count - i) with (Datatypes.S (count - (i + 1))) by lia. cbn [seq map]. replace (Datatypes.S i) with (i + 1) by lia. reflexivity.
        * destruct (Nat.ltb_spec i n), (Nat.ltb_spec (i + 1) n); try lia.
          replace (n - 1 - i) with (Datatypes.S (n - 1 - (i + 1))) by lia. cbn [seq map app]. replace (Datatypes.S i) with (i + 1) by lia. reflexivity.
  Qed.

  (** the last item is always looked at *)
  Lemma up_to_panic :
    (forall j s, j < count -> entry s j = Panic \/ exists s' l, entry s j = Ok (s', l)) ->
    (forall s, entry s (count - 1) = Panic) ->
    forall steps i s, steps + i = n -> i < n -> i < count -> up_to n count more entry steps i s = Panic.
  Proof.
    intros He Hl. induction steps as [|k IH]; intros i s Hn Hi Hc; [lia|]. cbn [up_to].
    destruct (Nat.ltb_spec i count); [|lia].
    destruct (Nat.eqb_spec i (n - 1)) as [Ei|Ei]; [now rewrite Hl|].
    destruct (Nat.eq_dec i (count - 1)) as [->|Hne]; [now rewrite Hl|].
    destruct (He i s H) as [E|(s' & l & E)]; rewrite E; [reflexivity|].
    cbn [bind]. rewrite IH by lia. reflexivity.
  Qed.
End Loop.

Lemma listing_ok {S L} count more (entry : S -> nat -> res (S * L)) (Inv : nat -> S -> Prop) item s :
  (forall i j s, Inv i s -> i <= j -> Inv j s) ->
  (forall j s, j < count -> Inv j s -> exists s', entry s j = Ok (s', item j) /\ Inv (j + 1) s') ->
  Inv 0 s ->
  exists ls, listing count more entry s = Ok ls /\ shown more (map item (seq 0 count)) ls.
Proof.
  intros A B C. unfold listing. rewrite (up_to_ok _ _ _ _ Inv item A B) by (auto; unfold lines_max; lia).
  eexists. split; [reflexivity|]. unfold loop_result, shown. rewrite map_length, seq_length.
  unfold lines_max. destruct (Nat.leb_spec count 20).
  - left. split; auto. now rewrite Nat.sub_0_r.
  - right. exists (map item (seq 0 19)), (map item (seq 19 (count - 20))), (item (count - 1)).
    split; [|split; [|split]].
    + change ([item (count - 1)]) with (map item [count - 1]). rewrite <- !map_app. f_equal.
      replace count with (19 + ((count - 20) + 1)) at 1 by lia. rewrite !seq_app. cbn [seq]. do 3 f_equal. lia.
    + now rewrite map_length, seq_length.
    + intros E. apply map_eq_nil in E. assert (length (seq 19 (count - 20)) = 0) by now rewrite E. rewrite seq_length in *. lia.
    + reflexivity.
Qed.

Lemma listing_unit {L} count more (entry : unit -> nat -> res (unit * L)) item :
  (forall j, j < count -> entry tt j = Ok (tt, item j)) ->
  exists ls, listing count more entry tt = Ok ls /\ shown more (map item (seq 0 count)) ls.
Proof.
  intros H. apply (listing_ok count more entry (fun _ _ => True) item); auto.
  intros j [] Hj _. exists tt. auto.
Qed.

(** items as a list, by choice of one for each number *)
Lemma enumerate_lines (P : nat -> dline -> Prop) n (entry : nat -> res (unit * dline)) :
  (forall j, j < n -> exists l, entry j = Ok (tt, l) /\ P j l) ->
  exists item, (forall j, j < n -> entry j = Ok (tt, item j)) /\ enumerates P n (map item (seq 0 n)).
Proof.
  intros H. exists (fun j => match entry j with Ok (_, l) => l | _ => DEmpty end). split.
  - intros j Hj. destruct (H j Hj) as (l & E & _). now rewrite E.
  - split; [now rewrite map_length, seq_length|]. intros i l E. rewrite nth_error_map in E.
    destruct (nth_error (seq 0 n) i) as [x|] eqn:Ex; [|discriminate]. cbn in E. injection E as <-.
    assert (i < n) by (rewrite <- (seq_length n 0); apply nth_error_Some; congruence).
    assert (x = i).
    { apply (nth_error_nth _ _ 0) in Ex. rewrite seq_nth in Ex by auto. simpl in Ex. auto. }
    subst x. destruct (H i H0) as (l & E & Hl). now rewrite E.
Qed.

Lemma listing_lines (P : nat -> dline -> Prop) n more (entry : unit -> nat -> res (unit * dline)) :
  (forall j, j < n -> exists l, entry tt j = Ok (tt, l) /\ P j l) ->
  exists items ls, listing n more entry tt = Ok ls /\ enumerates P n items /\ shown more items ls.
Proof.
  intros H. destruct (enumerate_lines P n (entry tt) H) as (item & A & B).
  destruct (listing_unit n more entry item A) as (ls & C & D). exists (map item (seq 0 n)), ls. auto.
Qed.

(** *** the places of the shortcuts *)
Fixpoint places {A} (k : nat) (l : list (option A)) : list nat :=
  match l with
  | [] => []
  | Some _ :: t => k :: places (S k) t
  | None :: t => places (S k) t
  end.

Lemma places_length {A} (l : list (option A)) : forall k, length (places k l) = length (somes l).
Proof. induction l as [|[x|] l IH]; intros k; simpl; auto. Qed.

Lemma places_ge {A} (l : list (option A)) : forall k e, In e (places k l) -> k <= e.
Proof.
  induction l as [|[x|] l IH]; intros k e; simpl; [tauto| |].
  - intros [->|H]; auto. apply IH in H. lia.
  - intros H. apply IH in H. lia.
Qed.

Lemma places_sorted {A} (l : list (option A)) : forall k, StronglySorted lt (places k l).
Proof.
  induction l as [|[x|] l IH]; intros k; simpl; auto; constructor; auto.
  apply Forall_forall. intros e H. apply places_ge in H. lia.
Qed.

Lemma places_in {A} (l : list (option A)) : forall k e,
  In e (places k l) <-> exists i p, e = k + i /\ nth_error l i = Some (Some p).
Proof.
  induction l as [|o l IH]; intros k e.
  - simpl. split; [tauto|]. intros ([|i] & p & _ & H); discriminate.
  - assert (R : (exists i p, e = k + i /\ nth_error (o :: l) i = Some (Some p)) <->
      (exists p, e = k /\ o = Some p) \/ exists i p, e = S k + i /\ nth_error l i = Some (Some p)).
    { split.
      - intros ([|i] & p & -> & H); simpl in H.
        + left. injection H as ->. exists p. split; auto; lia.
        + right. exists i, p. split; auto; lia.
      - intros [(p & -> & ->)|(i & p & -> & H)].
        + exists 0, p. split; auto; lia.
        + exists (S i), p. split; auto; lia. }
    rewrite R, <- IH. destruct o as [x|]; simpl.
    + split; [intros [<-|H]; eauto|intros [(p & -> & _)|H]; auto].
    + split; [auto|intros [(p & _ & H)|H]; [discriminate|auto]].
Qed.

Lemma places_before {A} (l : list (option A)) : forall k j,
  length (filter (fun e => e <? k + j) (places k l)) = length (somes (firstn j l)).
Proof.
  induction l as [|o l IH]; intros k j.
  - now rewrite firstn_nil.
  - destruct j as [|j].
    + cbn [firstn somes length]. assert (H : forall e, In e (places k (o :: l)) -> (e <? k + 0) = false).
      { intros e He. apply places_ge in He. apply Nat.ltb_ge. lia. }
      induction (places k (o :: l)) as [|a t IHt]; simpl; auto.
      rewrite (H a) by now left. apply IHt. intros; apply H; now right.
    + specialize (IH (S k) j). replace (S k + j) with (k + S j) in IH by lia.
      destruct o as [x|]; simpl; [|exact IH].
      destruct (Nat.ltb_spec k (k + S j)); [|lia]. simpl. now rewrite IH.
Qed.

Lemma places_nth {A} (l : list (option A)) : forall k n e, nth_error (places k l) n = Some e ->
  exists i p, e = k + i /\ nth_error l i = Some (Some p) /\ length (somes (firstn i l)) = n.
Proof.
  induction l as [|[x|] l IH]; intros k n e H; simpl in H.
  - destruct n; discriminate.
  - destruct n as [|n]; simpl in H.
    + injection H as <-. exists 0, x. repeat split; auto; lia.
    + destruct (IH _ _ _ H) as (i & p & -> & A1 & A2). exists (S i), p. simpl. rewrite A2. repeat split; auto; lia.
  - destruct (IH _ _ _ H) as (i & p & -> & A1 & A2). exists (S i), p. simpl. repeat split; auto; lia.
Qed.

Lemma sc_count_mono {A} (l : list (option A)) i j : i <= j -> sc_count l i <= sc_count l j.
Proof.
  unfold sc_count. revert i j. induction l as [|[x|] l IH]; intros [|i] [|j] H; simpl; try lia.
  - apply le_n_S, IH. lia.
  - apply IH. lia.
Qed.

Lemma skip_to_ok offs j t : forall fuel e, e <= t -> t - e < fuel ->
  (forall i, e <= i -> i < t -> exists o, nth_error offs i = Some o /\ o <= j) ->
  (exists o, nth_error offs t = Some o /\ j < o) -> skip_to fuel offs e j = Ok t.
Proof.
  induction fuel as [|f IH]; intros e He Hf H Ht; [lia|]. cbn [skip_to].
  destruct (Nat.eq_dec e t) as [->|Hne].
  - destruct Ht as (o & E & Ho). unfold idx. rewrite E. cbn [bind]. destruct (Nat.leb_spec o j); [lia|reflexivity].
  - destruct (H e) as (o & E & Ho); [lia|lia|]. unfold idx. rewrite E. cbn [bind].
    destruct (Nat.leb_spec o j); [|lia]. apply IH; [lia|lia| |auto]. intros i H1 H2. apply H; lia.
Qed.

(** *** what a built graph consists of *)
Record displayable (g : graph) (opts : list (option (nat * nat))) (srcs : dir -> list nat) : Prop := {
  dg_coords : length (node_coords g) = node_count g;
  dg_levels : length (node_levels g) = node_count g;
  dg_nodes : edge_count g FWD = 0 -> node_count g = 0;
  dg_bwd : edge_count g BWD = edge_count g FWD;
  dg_metrics : length (metrics g) = edge_count g FWD;
  dg_ids : length (edge_ids g) = edge_count g FWD;
  dg_opts : length opts = edge_count g FWD;
  dg_arr : sc_edges_arr g = somes opts;
  dg_len : length (sc_offsets g) = edge_count g FWD + 1;
  dg_offs : forall i, i <= edge_count g FWD -> nth_error (sc_offsets g) i = Some (sc_count opts i);
  dg_sorted : forall d, StronglySorted le (srcs d);
  dg_perm : forall d, Permutation (srcs d) (xwd_dsts g (opp d));
  dg_build : forall d, build_offsets (srcs d) = Ok (xwd_offsets g d);
}.

Lemma build_displayable hav c ch1 ch2 es ns g : 1 <= ch1 -> 1 <= ch2 -> build hav c ch1 ch2 es ns = Ok g ->
  exists opts srcs, displayable g opts srcs.
Proof.
  intros H1 H2 E. destruct (build_lengths _ _ _ _ _ _ _ H1 H2 E) as (Lids & Lco & Llv).
  assert (Lm : length (metrics g) = edge_count g FWD).
  { destruct (build_normalized_split _ _ _ _ _ _ _ E) as (b & g0 & g1 & Eb & Hb & E0 & E1 & E2 & _).
    destruct (build_generated _ _ _ _ _ _ _ _ H1 H2 Hb E0 E1) as [_ Hl].
    rewrite (normalize_length _ _ E2), Hl. destruct (normalize_net _ _ E2) as [Hn _]. now rewrite (net_edge_count g1 g) by auto. }
  destruct (build_spec _ _ _ _ _ _ _ H1 H2 E) as (b & g0 & K & Eb & Hb & Hcore & Hnet & _).
  assert (Hc : forall d, edge_count g d = length K)
    by (intros d; rewrite (net_edge_count g0 g) by auto; now rewrite (core_edge_count es b c K g0 Hcore)).
  assert (Hlo : length (sc_opts es (nb_node_ids b) (nb_levels b)) = length K)
    by (unfold sc_opts; now rewrite map_length, <- (cs_kept _ _ _ _ _ Hcore)).
  exists (sc_opts es (nb_node_ids b) (nb_levels b)),
    (fun d => match d with FWD => map b_src K | BWD => map c_dst (core_bwd (nb_levels b) K) end).
  constructor; auto.
  - intros H0. destruct (node_ids g) as [|x t] eqn:Ex; [unfold node_count; now rewrite Ex|exfalso].
    destruct (build_nodes _ _ _ _ _ _ _ H1 H2 E) as (_ & A & _).
    assert (Hin : In x (node_ids g)) by (rewrite Ex; now left). apply A in Hin. destruct Hin as (pe & Hpe & _).
    apply In_nth_error in Hpe. destruct Hpe as [p Hp].
    destruct (rep_of_spec es (nb_node_ids b) (nb_levels b) p pe Hp) as (k & Hk & _).
    rewrite Hc in H0. apply length_zero_iff_nil in H0. rewrite <- (cs_kept _ _ _ _ _ Hcore), H0 in Hk.
    destruct (rep_of es (nb_node_ids b) (nb_levels b) p); discriminate.
  - now rewrite !Hc.
  - now rewrite Hc.
  - rewrite (sn_se _ _ Hnet). apply (cs_sc_arr _ _ _ _ _ Hcore).
  - rewrite (sn_so _ _ Hnet), Hc. apply (cs_sc_len _ _ _ _ _ Hcore).
  - intros i Hi. rewrite Hc in Hi. rewrite (sn_so _ _ Hnet). now apply (cs_sc_offs _ _ _ _ _ Hcore).
  - intros [|].
    + rewrite (cs_kept _ _ _ _ _ Hcore). apply kept_src_sorted.
    + apply StronglySorted_map. eapply StronglySorted_impl; [|apply core_bwd_sorted].
      intros x y _ _ Hk. unfold bwd_key in Hk. apply key_le_src in Hk. tauto.
  - intros [|]; simpl.
    + now rewrite (sn_bd _ _ Hnet), (cs_bwd _ _ _ _ _ Hcore).
    + rewrite (sn_fd _ _ Hnet), (cs_fwd _ _ _ _ _ Hcore).
      rewrite <- (core_edges_map c_dst b_dst K) by reflexivity. apply Permutation_map, core_bwd_perm.
  - intros [|]; simpl.
    + rewrite (sn_fo _ _ Hnet). apply (cs_foffs _ _ _ _ _ Hcore).
    + rewrite (sn_bo _ _ Hnet). apply (cs_boffs _ _ _ _ _ Hcore).
Qed.

Section Shown.
  Context (g : graph) (opts : list (option (nat * nat))) (srcs : dir -> list nat) (Hg : displayable g opts srcs).

  Let scs := places 0 opts.

  Lemma scs_edges : shortcut_edges g scs.
  Proof.
    split; [apply places_sorted|]. intros e. unfold scs. rewrite places_in. split.
    - intros (i & p & -> & Hi). exists p. simpl.
      apply (sc_api g opts i (Some p)); auto; [apply (dg_arr _ _ _ Hg)|].
      intros k Hk. apply (dg_offs _ _ _ Hg). now rewrite <- (dg_opts _ _ _ Hg).
    - intros (p & Hp). exists e.
      assert (He : e < length opts).
      { unfold sc_edges, is_shortcut in Hp. apply bind_ok in Hp. destruct Hp as (x & Hp & _).
        apply bind_ok in Hp. destruct Hp as (hi & Hp & _). apply idx_ok in Hp.
        rewrite (dg_opts _ _ _ Hg). pose proof (dg_len _ _ _ Hg).
        assert (e + 1 < length (sc_offsets g)) by (apply nth_error_Some; congruence). lia. }
      destruct (nth_error opts e) as [o|] eqn:Eo; [|apply nth_error_None in Eo; lia].
      destruct (sc_api g opts e o) as [A _]; auto; [apply (dg_arr _ _ _ Hg)| |].
      { intros k Hk. apply (dg_offs _ _ _ Hg). now rewrite <- (dg_opts _ _ _ Hg). }
      exists p. split; auto. congruence.
  Qed.

  Lemma scs_count : length scs = length (sc_edges_arr g).
  Proof. unfold scs. now rewrite places_length, (dg_arr _ _ _ Hg). Qed.

  Lemma node_entries i : i < node_count g -> exists l, node_entry g tt i = Ok (tt, l) /\ node_line g i l.
  Proof.
    intros Hi. unfold node_entry, node_create, node_id, node_coord, node_level.
    destruct (idx_lt (node_ids g) i Hi) as (id & Ei).
    destruct (idx_lt (node_coords g) i) as (co & Ec); [now rewrite (dg_coords _ _ _ Hg)|].
    destruct (idx_lt (node_levels g) i) as (lv & El); [now rewrite (dg_levels _ _ _ Hg)|].
    rewrite Ei, Ec, El. cbn [bind n_id n_coord]. eexists. split; [reflexivity|].
    apply idx_ok in Ei, Ec. exists id, co. auto.
  Qed.

  Lemma edge_count_dir d : edge_count g d = edge_count g FWD.
  Proof. destruct d; auto. apply (dg_bwd _ _ _ Hg). Qed.

  Lemma edge_entries d j : j < edge_count g FWD ->
    exists l, edge_entry g d tt j = Ok (tt, l) /\ edge_line g scs d j l.
  Proof.
    intros Hj. unfold edge_entry, edge_try_id, dst_idx.
    destruct (idx_lt (xwd_dsts g (opp d)) j) as (src & Es); [fold (edge_count g (opp d)); now rewrite edge_count_dir|].
    destruct (idx_lt (metrics g) j) as (ms & Em); [now rewrite (dg_metrics _ _ _ Hg)|].
    destruct (idx_lt (edge_ids g) j) as (id & Ei); [now rewrite (dg_ids _ _ _ Hg)|].
    destruct (idx_lt (xwd_dsts g d) j) as (dst & Ed); [fold (edge_count g d); now rewrite edge_count_dir|].
    rewrite Es, Em, Ei. cbn [bind].
    rewrite (proj2 (idx_ok _ _ _) (dg_offs _ _ _ Hg j ltac:(lia))). cbn [bind]. rewrite Ed. cbn [bind].
    eexists. split; [reflexivity|]. exists id, src, ms, dst. unfold edge_try_id, dst_idx. rewrite Ei, Es, Ed.
    apply idx_ok in Em. repeat split; auto. f_equal.
    unfold scs. symmetry. exact (places_before opts 0 j).
  Qed.

  Lemma offsets_of d : length (xwd_offsets g d) = last (srcs d) 0 + 2 /\
    forall v, v <= last (srcs d) 0 + 1 -> nth_error (xwd_offsets g d) v = Some (starting_before g d v).
  Proof.
    destruct (build_offsets_spec _ (dg_sorted _ _ _ Hg d)) as (offs & E & A & B).
    rewrite (dg_build _ _ _ Hg) in E. injection E as <-. split; auto.
    intros v Hv. rewrite (B v Hv). f_equal. unfold count_lt, starting_before.
    assert (H : forall f (l l' : list nat), Permutation l l' -> length (filter f l) = length (filter f l')).
    { clear. intros f l l' H. induction H as [|x l l' H IH|x y l|l1 l2 l3 H1 IH1 H2 IH2]; simpl; auto.
      - destruct (f x); simpl; auto.
      - destruct (f x), (f y); simpl; auto.
      - congruence. }
    apply H, (dg_perm _ _ _ Hg).
  Qed.

  Lemma last_source d : last_offset g d (DLastOffset d (last (srcs d) 0 + 1) (edge_count g d)).
  Proof.
    destruct (last_ge _ 0 (dg_sorted _ _ _ Hg d) ltac:(intros; lia)) as [_ Hmax].
    pose proof (dg_perm _ _ _ Hg d) as Hp. exists (last (srcs d) 0). split; [|split; [|reflexivity]].
    - intros e w Hw. apply Hmax. apply idx_ok, nth_error_In in Hw. eapply Permutation_in; [symmetry; exact Hp|exact Hw].
    - destruct (srcs d) as [|a t] eqn:Es.
      + left. apply Permutation_nil in Hp. simpl. rewrite edge_count_dir, <- (edge_count_dir (opp d)).
        unfold edge_count. now rewrite Hp.
      + right. assert (Hin : In (last (a :: t) 0) (xwd_dsts g (opp d))).
        { eapply Permutation_in; [exact Hp|]. apply last_in. congruence. }
        apply In_nth_error in Hin. destruct Hin as [e He]. exists e. now apply idx_ok.
  Qed.

  Lemma all_start_before d : starting_before g d (last (srcs d) 0 + 1) = edge_count g d.
  Proof.
    destruct (last_source d) as (v & A & B & E). injection E as E.
    assert (v = last (srcs d) 0) by lia. subst v. unfold starting_before.
    rewrite edge_count_dir, <- (edge_count_dir (opp d)). unfold edge_count.
    assert (H : forall w, In w (xwd_dsts g (opp d)) -> (w <? last (srcs d) 0 + 1) = true).
    { intros w Hw. apply In_nth_error in Hw. destruct Hw as [e He]. apply Nat.ltb_lt.
      specialize (A e w (proj2 (idx_ok _ _ _) He)). lia. }
    induction (xwd_dsts g (opp d)) as [|a t IH]; simpl; auto. rewrite (H a) by now left. simpl.
    f_equal. apply IH. intros; apply H; now right.
  Qed.

  Lemma two_of_last d : one_of_last_two g d <-> node_count g <= last (srcs d) 0 + 2.
  Proof.
    destruct (last_source d) as (v & A & B & E). injection E as E.
    assert (v = last (srcs d) 0) by lia. subst v. split.
    - intros [H|(e & v & Hv & H)]; [lia|]. apply A in Hv. lia.
    - intros H. destruct B as [[B' B]|(e & He)].
      + left. rewrite edge_count_dir in B'. rewrite (dg_nodes _ _ _ Hg B'). lia.
      + right. eauto.
  Qed.

  Lemma offset_entries d j : node_count g <= last (srcs d) 0 + 2 -> j < node_count g ->
    exists l, offset_entry g d tt j = Ok (tt, l) /\ offset_line g d j l.
  Proof.
    intros H Hj. destruct (offsets_of d) as [_ B]. unfold offset_entry.
    rewrite (proj2 (idx_ok _ _ _) (B j ltac:(lia))). cbn [bind]. eexists. split; reflexivity.
  Qed.

  Lemma display_dir_ok d : one_of_last_two g d -> exists ls, display_dir g d = Ok ls /\ dir_part g scs d ls.
  Proof.
    intros H. apply two_of_last in H. unfold display_dir. rewrite edge_count_dir.
    destruct (listing_lines (edge_line g scs d) (edge_count g FWD) (DMoreEdges d) (edge_entry g d) (edge_entries d))
      as (es & es' & E1 & P1 & S1).
    destruct (listing_lines (offset_line g d) (node_count g) (DMoreOffsets d) (offset_entry g d))
      as (os & os' & E2 & P2 & S2); [intros j; now apply offset_entries|].
    rewrite E1, E2. cbn [bind]. destruct (offsets_of d) as [Hl Ho]. rewrite Hl.
    replace (last (srcs d) 0 + 2) with (S (last (srcs d) 0 + 1)) by lia.
    rewrite (proj2 (idx_ok _ _ _) (Ho (last (srcs d) 0 + 1) ltac:(lia))). cbn [bind].
    eexists. split; [reflexivity|]. exists es, es', os, os', (DLastOffset d (last (srcs d) 0 + 1) (edge_count g d)).
    rewrite all_start_before. split; [exact P1|]. split; [exact S1|]. split; [exact P2|]. split; [exact S2|].
    split; [apply last_source|reflexivity].
  Qed.

  Lemma display_dir_panic d : ~ one_of_last_two g d -> display_dir g d = Panic.
  Proof.
    intros H. rewrite two_of_last in H. unfold display_dir. rewrite edge_count_dir.
    destruct (listing_lines (edge_line g scs d) (edge_count g FWD) (DMoreEdges d) (edge_entry g d) (edge_entries d))
      as (es & es' & E1 & _). rewrite E1. cbn [bind].
    destruct (offsets_of d) as [Hl Ho]. unfold listing. rewrite up_to_panic; try (unfold lines_max; lia); auto.
    - intros j s Hj. unfold offset_entry, idx. destruct (nth_error (xwd_offsets g d) j); cbn [bind]; eauto.
    - intros s. unfold offset_entry, idx.
      destruct (nth_error (xwd_offsets g d) (node_count g - 1)) eqn:En; [|reflexivity].
      assert (node_count g - 1 < length (xwd_offsets g d)) by (apply nth_error_Some; congruence). lia.
  Qed.

  Lemma sc_place k : k < length scs -> exists e p, nth_error scs k = Some e /\ nth_error opts e = Some (Some p) /\
    sc_count opts e = k /\ e < edge_count g FWD.
  Proof.
    intros Hk. destruct (nth_error scs k) as [e|] eqn:Ee; [|apply nth_error_None in Ee; lia].
    destruct (places_nth opts 0 k e Ee) as (i & p & -> & A & B). exists i, p.
    split; auto. split; auto. split; auto. rewrite <- (dg_opts _ _ _ Hg). apply nth_error_Some. congruence.
  Qed.

  Lemma shortcut_entries k s : k < length scs -> s <= edge_count g FWD /\ sc_count opts s <= k ->
    exists e p, shortcut_entry g s k = Ok (e, DShortcut e k p) /\ shortcut_line g scs k (DShortcut e k p) /\
      e <= edge_count g FWD /\ sc_count opts e <= k + 1.
  Proof.
    intros Hk [Hs1 Hs2]. destruct (sc_place k Hk) as (e & p & A & B & C & D).
    pose proof (sc_count_S opts e (Some p) B) as HS. rewrite C in HS.
    assert (He : s <= e).
    { destruct (le_lt_dec s e); auto. pose proof (sc_count_mono opts (e + 1) s ltac:(lia)). lia. }
    exists e, p. unfold shortcut_entry.
    rewrite (skip_to_ok (sc_offsets g) k (e + 1)).
    - cbn [bind]. replace (e + 1) with (S e) by lia.
      rewrite (proj2 (idx_ok _ _ _) (dg_offs _ _ _ Hg e ltac:(lia))). cbn [bind]. rewrite C.
      rewrite (dg_arr _ _ _ Hg). rewrite <- C at 1.
      unfold sc_count at 1. rewrite (proj2 (idx_ok _ _ _) (somes_firstn_nth _ _ _ B)). cbn [bind].
      split; [reflexivity|]. split; [|split; lia]. exists e, p. split; auto. split; auto.
      apply (sc_api g opts e (Some p)); auto; [apply (dg_arr _ _ _ Hg)|].
      intros i Hi. apply (dg_offs _ _ _ Hg). now rewrite <- (dg_opts _ _ _ Hg).
    - lia.
    - rewrite (dg_len _ _ _ Hg). lia.
    - intros i Hi1 Hi2. exists (sc_count opts i). split; [apply (dg_offs _ _ _ Hg); lia|].
      pose proof (sc_count_mono opts i e ltac:(lia)). lia.
    - exists (k + 1). split; [|lia]. rewrite <- HS. apply (dg_offs _ _ _ Hg). lia.
  Qed.

  Lemma display_shortcuts_ok : exists ls, display_shortcuts g = Ok ls /\ shortcuts_part g scs ls.
  Proof.
    unfold display_shortcuts. rewrite <- scs_count. destruct (Nat.eqb_spec (length scs) 0) as [E|E].
    - exists [DNoShortcuts]. split; auto. unfold shortcuts_part. destruct scs; [auto|discriminate].
    - pose (item := fun k => match nth_error scs k with
        | Some e => match nth_error opts e with Some (Some p) => DShortcut e k p | _ => DEmpty end | None => DEmpty end).
      assert (Hi : forall k, k < length scs -> shortcut_line g scs k (item k) /\
        forall s, s <= edge_count g FWD /\ sc_count opts s <= k -> exists s', shortcut_entry g s k = Ok (s', item k) /\ s' <= edge_count g FWD /\ sc_count opts s' <= k + 1).
      { intros k Hk. destruct (sc_place k Hk) as (e & p & A & B & C & D).
        assert (Hitem : item k = DShortcut e k p) by (unfold item; now rewrite A, B).
        assert (Hany : forall s, s <= edge_count g FWD /\ sc_count opts s <= k -> shortcut_entry g s k = Ok (e, item k) /\ shortcut_line g scs k (item k) /\ e <= edge_count g FWD /\ sc_count opts e <= k + 1).
        { intros s Hs. destruct (shortcut_entries k s Hk Hs) as (e' & p' & A1 & (e2 & p2 & B1 & B2 & B3) & C1 & C2).
          injection B3 as <- <-. assert (e' = e) by congruence. subst e'.
          destruct (sc_api g opts e (Some p)) as [S1 _]; auto; [apply (dg_arr _ _ _ Hg)| |].
          { intros i Hi. apply (dg_offs _ _ _ Hg). now rewrite <- (dg_opts _ _ _ Hg). }
          assert (p' = p) by congruence. subst p'. rewrite Hitem. split; auto. split; auto. exists e, p. auto. }
        split.
        - apply (Hany 0). split; [lia|]. unfold sc_count. simpl. lia.
        - intros s Hs. exists e. destruct (Hany s Hs) as (X & _ & Y). auto. }
      destruct (listing_ok (length scs) DMoreShortcuts (shortcut_entry g)
        (fun k s => s <= edge_count g FWD /\ sc_count opts s <= k) item 0) as (ls & El & Sl).
      + intros i j s [A1 A2] H. split; lia.
      + intros j s Hj Hs. now apply (Hi j Hj).
      + split; [lia|]. unfold sc_count. simpl. lia.
      + exists ls. split; auto. unfold shortcuts_part. destruct scs as [|a t] eqn:Et; [simpl in E; lia|]. rewrite <- Et in *.
        exists (map item (seq 0 (length scs))). split; auto. split; [now rewrite map_length, seq_length|].
        intros i l Hl. rewrite nth_error_map in Hl. destruct (nth_error (seq 0 (length scs)) i) as [x|] eqn:Ex; [|discriminate].
        cbn in Hl. injection Hl as <-.
        assert (Hx : i < length scs) by (rewrite <- (seq_length (length scs) 0); apply nth_error_Some; congruence).
        apply (nth_error_nth _ _ 0) in Ex. rewrite seq_nth in Ex by auto. simpl in Ex. subst x. now apply Hi.
  Qed.

  Lemma display_ok : one_of_last_two g FWD -> one_of_last_two g BWD -> exists ls, display g = Ok ls /\ displays g ls.
  Proof.
    intros HF HB. unfold display.
    destruct (listing_lines (node_line g) (node_count g) DMoreNodes (node_entry g) node_entries) as (ns & ns' & E1 & P1 & S1).
    destruct (display_dir_ok FWD HF) as (f & E2 & P2). destruct (display_dir_ok BWD HB) as (b & E3 & P3).
    destruct display_shortcuts_ok as (sc & E4 & P4). rewrite E1, E2, E3, E4. cbn [bind].
    eexists. split; [reflexivity|]. exists scs, ns, ns', f, b, sc.
    pose proof scs_edges. repeat (split; auto).
  Qed.

  Lemma two_dec d : one_of_last_two g d \/ ~ one_of_last_two g d.
  Proof. rewrite two_of_last. lia. Qed.

  Lemma display_cases :
    (one_of_last_two g FWD /\ one_of_last_two g BWD /\ exists ls, display g = Ok ls /\ displays g ls) \/
    (~ (one_of_last_two g FWD /\ one_of_last_two g BWD) /\ display g = Panic).
  Proof.
    destruct (two_dec FWD) as [HF|HF].
    - destruct (two_dec BWD) as [HB|HB]; [left; split; auto; split; auto; now apply display_ok|].
      right. split; [tauto|]. unfold display.
      destruct (listing_lines (node_line g) (node_count g) DMoreNodes (node_entry g) node_entries) as (ns & ns' & E1 & _).
      destruct (display_dir_ok FWD HF) as (f & E2 & _). rewrite E1, E2, (display_dir_panic BWD HB). reflexivity.
    - right. split; [tauto|]. unfold display.
      destruct (listing_lines (node_line g) (node_count g) DMoreNodes (node_entry g) node_entries) as (ns & ns' & E1 & _).
      rewrite E1, (display_dir_panic FWD HF). reflexivity.
  Qed.
End Shown.
