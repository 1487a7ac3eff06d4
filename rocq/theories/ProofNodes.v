(** Proofs about nodes: collecting ids, inserting nodes, looking them up *)
From Coq Require Import String List Bool Arith ZArith Lia Permutation Sorted Sorting.
From Verif Require Import Base F64 Lib ModelApprox ModelUnits ModelConfig ModelGraph ModelBuild.
Import ListNotations.

(** *** Binary search for node ids *)

Lemma sorted_lt_nth ids i j x y :
  StronglySorted Z.lt ids -> nth_error ids i = Some x -> nth_error ids j = Some y ->
  i < j -> (x < y)%Z.
Proof. intros. eapply StronglySorted_nth; eauto. Qed.

Lemma sorted_lt_inj ids i j x :
  StronglySorted Z.lt ids -> nth_error ids i = Some x -> nth_error ids j = Some x -> i = j.
Proof.
  intros Hs Hi Hj. destruct (lt_eq_lt_dec i j) as [[H|H]|H]; auto;
    [pose proof (sorted_lt_nth _ _ _ _ _ Hs Hi Hj H) | pose proof (sorted_lt_nth _ _ _ _ _ Hs Hj Hi H)];
    lia.
Qed.

Lemma node_idx_from_spec ids id :
  StronglySorted Z.lt ids ->
  match node_idx_from ids id with
  | inl i => nth_error ids i = Some id
  | inr i => i <= length ids /\
             (forall j x, nth_error ids j = Some x -> (j < i <-> (x < id)%Z)) /\
             ~ In id ids
  end.
Proof.
  intros Hs. unfold node_idx_from.
  pose proof (binary_search_spec (cmp_at ids id) (length ids)) as H.
  assert (Hn : forall j, j < length ids -> exists x, nth_error ids j = Some x).
  { intros j Hj. destruct (nth_error ids j) eqn:E; eauto. apply nth_error_None in E. lia. }
  destruct (binary_search (cmp_at ids id) (length ids)) as [i|i].
  - destruct H as [H1 H2].
    + intros a b Hab Hb Hg. destruct (Hn b Hb) as [y Hy], (Hn a ltac:(lia)) as [x Hx].
      pose proof (sorted_lt_nth _ _ _ _ _ Hs Hx Hy Hab).
      unfold cmp_at in *. rewrite Hx in Hg. rewrite Hy. rewrite Z.compare_gt_iff in *. lia.
    + intros a b Hab Hb Hg. destruct (Hn b Hb) as [y Hy], (Hn a ltac:(lia)) as [x Hx].
      pose proof (sorted_lt_nth _ _ _ _ _ Hs Hx Hy Hab).
      unfold cmp_at in *. rewrite Hy in Hg. rewrite Hx. rewrite Z.compare_gt_iff in Hg.
      rewrite Z.compare_lt_iff. lia.
    + destruct (Hn i H1) as [x Hx]. unfold cmp_at in H2. rewrite Hx in *.
      apply Z.compare_eq in H2. congruence.
  - destruct H as (H1 & H2 & H3).
    + intros a b Hab Hb Hg. destruct (Hn b Hb) as [y Hy], (Hn a ltac:(lia)) as [x Hx].
      pose proof (sorted_lt_nth _ _ _ _ _ Hs Hx Hy Hab).
      unfold cmp_at in *. rewrite Hx in Hg. rewrite Hy. rewrite Z.compare_gt_iff in *. lia.
    + intros a b Hab Hb Hg. destruct (Hn b Hb) as [y Hy], (Hn a ltac:(lia)) as [x Hx].
      pose proof (sorted_lt_nth _ _ _ _ _ Hs Hx Hy Hab).
      unfold cmp_at in *. rewrite Hy in Hg. rewrite Hx. rewrite Z.compare_gt_iff in Hg.
      rewrite Z.compare_lt_iff. lia.
    + assert (Hk : forall j x, nth_error ids j = Some x -> (j < i <-> (x < id)%Z) /\ x <> id).
      { intros j x Hj. assert (Hjl : j < length ids) by (apply nth_error_Some; congruence).
        destruct (le_lt_dec i j) as [Hij|Hij].
        - specialize (H3 j Hij Hjl). unfold cmp_at in H3. rewrite Hj in H3.
          rewrite Z.compare_gt_iff in H3. lia.
        - specialize (H2 j Hij). unfold cmp_at in H2. rewrite Hj in H2.
          rewrite Z.compare_lt_iff in H2. lia. }
      split; [lia|]. split.
      * intros j x Hj. now apply Hk.
      * intros Hin. apply In_nth_error in Hin. destruct Hin as [j Hj].
        destruct (Hk j id Hj). lia.
Qed.

Lemma node_idx_from_found ids id i :
  StronglySorted Z.lt ids -> (node_idx_from ids id = inl i <-> nth_error ids i = Some id).
Proof.
  intros Hs. pose proof (node_idx_from_spec ids id Hs) as H. split; intros E.
  - now rewrite E in H.
  - destruct (node_idx_from ids id) as [j|j].
    + f_equal. eapply sorted_lt_inj; eauto.
    + destruct H as (_ & _ & H). exfalso. apply H. eapply nth_error_In; eauto.
Qed.

Lemma node_idx_from_in ids id :
  StronglySorted Z.lt ids -> In id ids ->
  exists i, node_idx_from ids id = inl i /\ nth_error ids i = Some id.
Proof.
  intros Hs Hin. apply In_nth_error in Hin. destruct Hin as [i Hi].
  exists i. split; auto. now apply node_idx_from_found.
Qed.

(** *** Collected node ids *)

Lemma containsZ_in x l : containsZ x l = true <-> In x l.
Proof.
  unfold containsZ. rewrite existsb_exists. split.
  - intros (y & Hy & E). apply Z.eqb_eq in E. now subst.
  - intros H. exists x. split; auto. apply Z.eqb_refl.
Qed.

Lemma push_node_ids_in ids s d x :
  In x (push_node_ids ids s d) <-> In x ids \/ x = s \/ x = d.
Proof.
  unfold push_node_ids. set (w := skipn (length ids - 2) ids).
  assert (Hw : forall y, In y w -> In y ids).
  { intros y Hy. rewrite <- (firstn_skipn (length ids - 2) ids). apply in_or_app. auto. }
  destruct (length ids <? 2).
  - rewrite in_app_iff. simpl. intuition congruence.
  - destruct (containsZ s w) eqn:Es; destruct (containsZ d w) eqn:Ed;
      rewrite ?in_app_iff; simpl;
      try (apply containsZ_in in Es); try (apply containsZ_in in Ed);
      intuition (subst; auto).
Qed.

Definition endpoint (es : list proto_edge) (x : Z) : Prop :=
  exists e, In e es /\ (x = pe_src e \/ x = pe_dst e).

Lemma insert_edges_node_ids es x :
  In x (eb_node_ids (insert_edges es)) <-> endpoint es x.
Proof.
  unfold insert_edges.
  enough (H : forall b, In x (eb_node_ids (fold_left eb_insert es b)) <->
                        In x (eb_node_ids b) \/ endpoint es x).
  { rewrite H. simpl. tauto. }
  induction es as [|e es IH]; intros b; simpl.
  - split; auto. intros [H|(e & [] & _)]. exact H.
  - rewrite IH. simpl. rewrite push_node_ids_in. unfold endpoint. simpl. split.
    + intros [[H|H]|(e' & H & H')]; eauto.
    + intros [H|(e' & [->|H] & H')]; eauto; try tauto.
Qed.

Lemma sortZ_sorted l : StronglySorted Z.le (sort_by Z.leb l).
Proof.
  eapply StronglySorted_impl; [|apply sort_by_sorted].
  - intros x y _ _ H. now apply Z.leb_le.
  - intros. destruct (Z.leb_spec x y); auto. right. apply Z.leb_le. lia.
  - intros x y z H1 H2. apply Z.leb_le in H1, H2. apply Z.leb_le. lia.
Qed.

Lemma eb_next_ids b :
  StronglySorted Z.lt (nb_node_ids (eb_next b)) /\
  (forall x, In x (nb_node_ids (eb_next b)) <-> In x (eb_node_ids b)).
Proof.
  simpl. destruct (dedupZ_spec (sort_by Z.leb (eb_node_ids b)) (sortZ_sorted _)) as [H1 H2].
  split; auto. intros x. rewrite H2. apply sort_by_in.
Qed.

(** *** Node insertions *)

(** invariant of a node builder reached from [eb_next] *)
Record nb_inv (es : list proto_edge) (b : node_builder) : Prop := {
  nbi_sorted : StronglySorted Z.lt (nb_node_ids b);
  nbi_ids : forall x, In x (nb_node_ids b) <-> endpoint es x;
  nbi_coords : length (nb_coords b) = length (nb_node_ids b);
  nbi_levels : length (nb_levels b) = length (nb_node_ids b);
  nbi_edges : nb_edges b = eb_edges (insert_edges es);
  nbi_scs : nb_shortcuts b = eb_shortcuts (insert_edges es);
}.

Lemma nb_inv_init es : nb_inv es (eb_next (insert_edges es)).
Proof.
  destruct (eb_next_ids (insert_edges es)) as [H1 H2].
  constructor; simpl; auto.
  - intros x. rewrite <- insert_edges_node_ids. apply H2.
  - apply repeat_length.
  - apply repeat_length.
Qed.

Lemma nth_error_lt {A} (l : list A) i x : nth_error l i = Some x -> i < length l.
Proof. intros H. apply nth_error_Some. congruence. Qed.

(** an insertion never fails; explicit result *)
Lemma nb_insert_eq es b n :
  nb_inv es b ->
  (exists i, nth_error (nb_node_ids b) i = Some (pn_id n) /\
    nb_insert b n =
      Ok ({| nb_node_ids := nb_node_ids b;
             nb_coords := upd (nb_coords b) i (Some (pn_coord n));
             nb_levels := match pn_level n with
                          | Some l => upd (nb_levels b) i l
                          | None => nb_levels b
                          end;
             nb_edges := nb_edges b; nb_shortcuts := nb_shortcuts b |}, true)) \/
  (~ In (pn_id n) (nb_node_ids b) /\ nb_insert b n = Ok (b, false)).
Proof.
  intros [Hs Hi Hc Hl He Hsc].
  pose proof (node_idx_from_spec (nb_node_ids b) (pn_id n) Hs) as H.
  unfold nb_insert. destruct (node_idx_from (nb_node_ids b) (pn_id n)) as [i|i].
  - left. exists i. split; auto. pose proof (nth_error_lt _ _ _ H) as Hlt.
    rewrite set_lt by lia. simpl.
    destruct (pn_level n).
    + rewrite set_lt by lia. reflexivity.
    + reflexivity.
  - right. split; auto. apply H.
Qed.

Lemma nb_insert_inv es b n b' r :
  nb_inv es b -> nb_insert b n = Ok (b', r) -> nb_inv es b'.
Proof.
  intros Hb E. pose proof Hb as [Hs Hi Hc Hl He Hsc].
  destruct (nb_insert_eq es b n Hb) as [(i & Hin & E')|[_ E']]; rewrite E' in E; inversion E; subst; auto.
  constructor; simpl; auto.
  - now rewrite upd_length.
  - destruct (pn_level n); rewrite ?upd_length; auto.
Qed.

Lemma insert_nodes_total es b ns :
  nb_inv es b -> exists b', insert_nodes b ns = Ok b' /\ nb_inv es b'.
Proof.
  unfold insert_nodes. revert b. induction ns as [|n ns IH]; intros b Hb; simpl; eauto.
  destruct (nb_insert_eq es b n Hb) as [(i & Hin & E)|[_ E]].
  - rewrite E. simpl. apply IH. eapply nb_insert_inv; eauto.
  - rewrite E. simpl. now apply IH.
Qed.

(** The specification of what a node ends up with after a history of
    insertions: the last matching one. *)
Fixpoint last_coord (id : Z) (ns : list proto_node) (acc : option coord) : option coord :=
  match ns with
  | [] => acc
  | n :: t => last_coord id t (if Z.eqb (pn_id n) id then Some (pn_coord n) else acc)
  end.
Fixpoint last_level (id : Z) (ns : list proto_node) (acc : nat) : nat :=
  match ns with
  | [] => acc
  | n :: t => last_level id t
                (if Z.eqb (pn_id n) id then match pn_level n with Some l => l | None => acc end
                 else acc)
  end.

Lemma insert_nodes_spec es b ns b' :
  nb_inv es b -> insert_nodes b ns = Ok b' ->
  nb_inv es b' /\ nb_node_ids b' = nb_node_ids b /\
  (forall i id, nth_error (nb_node_ids b) i = Some id ->
     exists c l, nth_error (nb_coords b) i = Some c /\ nth_error (nb_levels b) i = Some l /\
       nth_error (nb_coords b') i = Some (last_coord id ns c) /\
       nth_error (nb_levels b') i = Some (last_level id ns l)).
Proof.
  unfold insert_nodes. revert b. induction ns as [|n ns IH]; intros b Hb E; simpl in E.
  - inversion E; subst. split; auto. split; auto. intros i id Hi.
    pose proof (nth_error_lt _ _ _ Hi). destruct Hb as [_ _ Hc Hl _ _].
    destruct (nth_error (nb_coords b') i) eqn:E1; [|apply nth_error_None in E1; lia].
    destruct (nth_error (nb_levels b') i) eqn:E2; [|apply nth_error_None in E2; lia].
    simpl. eauto 10.
  - apply bind_ok in E. destruct E as (b1 & E1 & E2).
    apply bind_ok in E1. destruct E1 as ([b2 fl] & E1 & E1'). simpl in E1'. injection E1' as E1'. subst b1.
    pose proof (nb_insert_inv _ _ _ _ _ Hb E1) as Hb2.
    destruct (IH b2 Hb2 E2) as (H1 & H2 & H3).
    assert (Hids : nb_node_ids b2 = nb_node_ids b).
    { destruct (nb_insert_eq es b n Hb) as [(i & Hin & E')|[_ E']]; rewrite E' in E1; inversion E1; auto. }
    split; auto. split; [congruence|]. intros i id Hi.
    pose proof (nth_error_lt _ _ _ Hi) as Hlt.
    rewrite <- Hids in Hi. destruct (H3 i id Hi) as (c & l & Hc & Hl & Hc' & Hl').
    rewrite Hids in Hi. pose proof Hb as [Hsb _ Hcb Hlb _ _].
    destruct (nth_error (nb_coords b) i) as [c0|] eqn:Ec0; [|apply nth_error_None in Ec0; lia].
    destruct (nth_error (nb_levels b) i) as [l0|] eqn:El0; [|apply nth_error_None in El0; lia].
    exists c0, l0. split; auto. split; auto. cbn [last_coord last_level].
    destruct (nb_insert_eq es b n Hb) as [(j & Hj & E')|[Hno E']]; rewrite E' in E1; inversion E1; subst.
    + simpl in Hc, Hl. destruct (Z.eqb_spec (pn_id n) id) as [Heq|Hne].
      * assert (j = i) as -> by (eapply sorted_lt_inj; eauto; congruence).
        rewrite nth_error_upd_eq in Hc by lia. inversion Hc; subst.
        split; [assumption|].
        destruct (pn_level n) as [lv|].
        -- rewrite nth_error_upd_eq in Hl by lia. inversion Hl; subst. assumption.
        -- rewrite El0 in Hl. inversion Hl; subst. assumption.
      * assert (j <> i) by (intros ->; congruence).
        rewrite nth_error_upd_neq in Hc by auto. rewrite Ec0 in Hc. inversion Hc; subst.
        split; [assumption|].
        destruct (pn_level n) as [lv|].
        -- rewrite nth_error_upd_neq in Hl by auto. rewrite El0 in Hl. inversion Hl; subst. assumption.
        -- rewrite El0 in Hl. inversion Hl; subst. assumption.
    + simpl in Hc, Hl. destruct (Z.eqb_spec (pn_id n) id) as [Heq|Hne].
      * exfalso. apply Hno. rewrite Heq. eapply nth_error_In; eauto.
      * rewrite Ec0 in Hc. inversion Hc; subst. rewrite El0 in Hl. inversion Hl; subst. auto.
Qed.

(** coordinates check *)
Lemma all_coords_ok cs l : all_coords cs = Ok l <-> cs = map Some l.
Proof.
  revert l. induction cs as [|[c|] cs IH]; intros l; simpl.
  - split; intros H. inversion H; auto. destruct l; simpl in *; congruence.
  - rewrite bind_ok. split.
    + intros (a & Ha & E). inversion E; subst. simpl. f_equal. now apply IH.
    + destruct l; simpl; intros H; inversion H; subst. exists l. split; auto. now apply IH.
  - split; intros H; [discriminate|]. destruct l; discriminate.
Qed.

Lemma all_coords_cases cs :
  (exists l, all_coords cs = Ok l /\ cs = map Some l) \/
  ((exists m, all_coords cs = Err m) /\ In None cs).
Proof.
  induction cs as [|[c|] cs IH]; simpl.
  - left. exists []. auto.
  - destruct IH as [(l & E & ->)|[(m & E) Hin]]; rewrite E; simpl.
    + left. exists (c :: l). auto.
    + right. split; eauto.
  - right. split; eauto.
Qed.
