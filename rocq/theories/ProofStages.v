(** Proofs about the stages of GraphBuilder::finalize, each on its own *)
From Coq Require Import String List Bool Arith ZArith Lia Permutation Sorted Sorting.
From Verif Require Import Base F64 Lib ModelApprox ModelUnits ModelConfig ModelGraph ModelBuild ProofNodes.
Import ListNotations.

(** *** Chunks *)
Lemma chunk_loop_eq {A S} (f : S -> A -> res S) mc :
  1 <= mc -> forall fuel rl s, length rl <= fuel ->
  chunk_loop f fuel mc rl s = foldM f (rev rl) s.
Proof.
  intros Hmc. induction fuel; intros rl s Hl; destruct rl as [|a rl]; try reflexivity.
  - simpl in Hl. lia.
  - set (r := a :: rl) in *.
    set (keep := length r - Nat.min (length r) mc).
    change (chunk_loop f (Datatypes.S fuel) mc r s) with
      (do s' <- foldM f (rev (skipn keep r)) s; chunk_loop f fuel mc (firstn keep r) s').
    assert (Hr : length r = Datatypes.S (length rl)) by reflexivity.
    assert (Hk : keep < length r) by (unfold keep; lia).
    replace (rev r) with (rev (firstn keep r ++ skipn keep r)) by (now rewrite firstn_skipn).
    rewrite rev_app_distr, foldM_app.
    destruct (foldM f (rev (skipn keep r)) s); simpl; auto.
    apply IHfuel. rewrite firstn_length. lia.
Qed.

Lemma work_off_chunks_eq {A S} (f : S -> A -> res S) mc l s :
  1 <= mc -> work_off_chunks f mc l s = foldM f l s.
Proof.
  intros H. unfold work_off_chunks. rewrite chunk_loop_eq; auto.
  - now rewrite rev_involutive.
  - now rewrite rev_length.
Qed.

(** *** The inserted edges in the builder *)
Fixpoint somes {A} (l : list (option A)) : list A :=
  match l with
  | [] => []
  | Some x :: t => x :: somes t
  | None :: t => somes t
  end.

Lemma somes_app {A} (l1 l2 : list (option A)) : somes (l1 ++ l2) = somes l1 ++ somes l2.
Proof. induction l1 as [|[x|] l1 IH]; simpl; congruence. Qed.

Lemma somes_in {A} (l : list (option A)) x : In x (somes l) <-> In (Some x) l.
Proof.
  induction l as [|[y|] l IH]; simpl; [tauto| |].
  - rewrite IH. split; intros [H|H]; auto; try (inversion H; auto); left; congruence.
  - rewrite IH. split; auto. intros [H|H]; auto; discriminate.
Qed.

Lemma somes_firstn_nth {A} (l : list (option A)) i x :
  nth_error l i = Some (Some x) -> nth_error (somes l) (length (somes (firstn i l))) = Some x.
Proof.
  revert i. induction l as [|[y|] l IH]; intros [|i] H; simpl in *; try discriminate; auto.
  now inversion H.
Qed.

Lemma somes_firstn_S {A} (l : list (option A)) i o :
  nth_error l i = Some o ->
  somes (firstn (S i) l) = somes (firstn i l) ++ match o with Some x => [x] | None => [] end.
Proof.
  revert i. induction l as [|a l IH]; intros [|i] H; simpl in *; try discriminate.
  - inversion H; subst. destruct o; reflexivity.
  - rewrite (IH i H). destruct a; reflexivity.
Qed.

Lemma somes_firstn_le {A} (l : list (option A)) i j :
  i <= j -> length (somes (firstn i l)) <= length (somes (firstn j l)).
Proof.
  intros H. replace (firstn j l) with (firstn i l ++ firstn (j - i) (skipn i l)).
  - rewrite somes_app, app_length. lia.
  - replace j with (i + (j - i)) at 2 by lia.
    rewrite <- (firstn_skipn i l) at 3.
    destruct (le_lt_dec i (length l)).
    + rewrite firstn_app. rewrite firstn_length, Nat.min_l by lia.
      rewrite firstn_firstn, Nat.min_r by lia. f_equal. f_equal. lia.
    + rewrite (skipn_all2 l) by lia. rewrite firstn_nil, !app_nil_r.
      rewrite firstn_firstn, Nat.min_r by lia. reflexivity.
Qed.

Definition mkAof (es : list proto_edge) (i : nat) (e : proto_edge) : protoA :=
  {| a_idx := i; a_id := pe_id e; a_src := pe_src e; a_dst := pe_dst e;
     a_metrics := pe_metrics e;
     a_sc := match pe_sc e with
             | Some _ => Some (length (somes (map pe_sc (firstn i es))))
             | None => None
             end |}.

Definition as_of (es : list proto_edge) : list protoA :=
  map (fun p => mkAof es (fst p) (snd p)) (enumerate es).

Lemma enumerate_app1 {A} (l : list A) x : enumerate (l ++ [x]) = enumerate l ++ [(length l, x)].
Proof.
  unfold enumerate. rewrite app_length. simpl. rewrite seq_app. simpl.
  assert (H : forall s (l : list A), combine (seq s (length l) ++ [s + length l]) (l ++ [x]) =
                     combine (seq s (length l)) l ++ [(s + length l, x)]).
  { intros s l'. revert s. induction l'; intros s; simpl.
    - reflexivity.
    - f_equal. replace (s + S (length l')) with (S s + length l') by lia. apply IHl'. }
  exact (H 0 l).
Qed.

Lemma as_of_app1 es e : as_of (es ++ [e]) = as_of es ++ [mkAof es (length es) e].
Proof.
  unfold as_of. rewrite enumerate_app1, map_app. simpl. f_equal.
  - apply map_ext_in. intros [i x] Hin. apply enumerate_in in Hin.
    pose proof (nth_error_lt _ _ _ Hin). unfold mkAof. simpl. f_equal.
    destruct (pe_sc x); auto. rewrite firstn_app.
    replace (i - length es) with 0 by lia. simpl. now rewrite app_nil_r.
  - unfold mkAof. simpl. f_equal. f_equal. destruct (pe_sc e); auto.
    rewrite firstn_app, Nat.sub_diag. simpl. rewrite app_nil_r.
    rewrite firstn_all. reflexivity.
Qed.

Lemma as_of_length es : length (as_of es) = length es.
Proof. unfold as_of. now rewrite map_length, enumerate_length. Qed.

Lemma insert_edges_closed es :
  eb_edges (insert_edges es) = as_of es /\ eb_shortcuts (insert_edges es) = somes (map pe_sc es).
Proof.
  unfold insert_edges. induction es as [|e es [IH1 IH2]] using rev_ind; [split; reflexivity|].
  rewrite fold_left_app. simpl. rewrite IH1, IH2, as_of_app1, map_app, somes_app, as_of_length.
  split.
  - f_equal. f_equal. unfold mkAof. f_equal. destruct (pe_sc e); auto. now rewrite firstn_all.
  - simpl. destruct (pe_sc e); auto. now rewrite app_nil_r.
Qed.

Lemma as_of_nth es i e : nth_error es i = Some e -> nth_error (as_of es) i = Some (mkAof es i e).
Proof.
  intros H. unfold as_of. rewrite nth_error_map, enumerate_nth, H. reflexivity.
Qed.

(** *** ids to indices *)
Definition posn (ids : list Z) (id : Z) : nat :=
  match node_idx_from ids id with inl i => i | inr i => i end.

Lemma posn_nth ids id : StronglySorted Z.lt ids -> In id ids -> nth_error ids (posn ids id) = Some id.
Proof.
  intros Hs Hin. destruct (node_idx_from_in ids id Hs Hin) as (i & E & H).
  unfold posn. now rewrite E.
Qed.

Definition toB (ids : list Z) (a : protoA) : protoB :=
  {| b_idx := a_idx a; b_id := a_id a; b_src := posn ids (a_src a); b_dst := posn ids (a_dst a);
     b_metrics := a_metrics a; b_sc := a_sc a |}.

Lemma to_protoB_fold ids l acc :
  StronglySorted Z.lt ids -> (forall a, In a l -> In (a_src a) ids /\ In (a_dst a) ids) ->
  foldM (to_protoB ids) l acc = Ok (acc ++ map (toB ids) l).
Proof.
  intros Hs. revert acc. induction l as [|a l IH]; intros acc H; simpl.
  - now rewrite app_nil_r.
  - destruct (H a (or_introl eq_refl)) as [H1 H2].
    destruct (node_idx_from_in ids _ Hs H1) as (i & E1 & _).
    destruct (node_idx_from_in ids _ Hs H2) as (j & E2 & _).
    unfold to_protoB at 1. rewrite E1, E2. simpl. rewrite IH.
    + rewrite <- app_assoc. simpl. unfold toB, posn. rewrite E1, E2. reflexivity.
    + intros; apply H; now right.
Qed.

(** *** Sort keys *)
Lemma cmp_opt_eq a b : cmp_opt a b = Eq -> a = b.
Proof.
  destruct a, b; simpl; try discriminate; auto. intros H. apply Nat.compare_eq in H. congruence.
Qed.

Lemma cmp_opt_anti a b : cmp_opt b a = CompOpp (cmp_opt a b).
Proof. destruct a, b; simpl; auto. now rewrite Nat.compare_antisym. Qed.

Lemma cmp_opt_trans a b c : cmp_opt a b <> Gt -> cmp_opt b c <> Gt ->
  cmp_opt a c <> Gt /\ (cmp_opt a c = Eq -> cmp_opt a b = Eq /\ cmp_opt b c = Eq).
Proof.
  destruct a as [a|], b as [b|], c as [c|]; simpl; intros H1 H2; try tauto; try (split; congruence).
  repeat match goal with |- context[Nat.compare ?x ?y] => destruct (Nat.compare_spec x y) end;
  repeat match goal with H : context[Nat.compare ?x ?y] |- _ => destruct (Nat.compare_spec x y) end;
  try (split; [congruence|intros; split; congruence]); try lia; try congruence.
Qed.

Lemma cmp_key_eq x y : cmp_key x y = Eq -> x = y.
Proof.
  destruct x as [[[s1 l1] d1] i1], y as [[[s2 l2] d2] i2]. unfold cmp_key, then_cmp.
  destruct (Nat.compare_spec s1 s2); try discriminate.
  destruct (Nat.compare_spec l2 l1); try discriminate.
  destruct (Nat.compare_spec d1 d2); try discriminate.
  intros H'. apply cmp_opt_eq in H'. congruence.
Qed.

Lemma cmp_key_anti x y : cmp_key y x = CompOpp (cmp_key x y).
Proof.
  destruct x as [[[s1 l1] d1] i1], y as [[[s2 l2] d2] i2]. unfold cmp_key, then_cmp.
  rewrite (Nat.compare_antisym s1 s2), (Nat.compare_antisym l2 l1), (Nat.compare_antisym d1 d2),
    (cmp_opt_anti i1 i2).
  destruct (s1 ?= s2), (l2 ?= l1), (d1 ?= d2), (cmp_opt i1 i2); reflexivity.
Qed.

Lemma cmp_key_trans x y z :
  cmp_key x y <> Gt -> cmp_key y z <> Gt -> cmp_key x z <> Gt.
Proof.
  destruct x as [[[s1 l1] d1] i1], y as [[[s2 l2] d2] i2], z as [[[s3 l3] d3] i3].
  unfold cmp_key, then_cmp. intros H1 H2.
  pose proof (cmp_opt_trans i1 i2 i3) as Ht.
  destruct (Nat.compare_spec s1 s2), (Nat.compare_spec s2 s3); try congruence; subst;
    try (rewrite (proj2 (Nat.compare_lt_iff s1 s3)) by lia; congruence);
    try (rewrite (proj2 (Nat.compare_lt_iff s1 s2)) by lia; congruence);
    try (rewrite (proj2 (Nat.compare_lt_iff s2 s3)) by lia; congruence).
  rewrite Nat.compare_refl.
  destruct (Nat.compare_spec l2 l1), (Nat.compare_spec l3 l2); try congruence; subst;
    try (rewrite (proj2 (Nat.compare_lt_iff l3 l1)) by lia; congruence);
    try (rewrite (proj2 (Nat.compare_lt_iff l2 l1)) by lia; congruence);
    try (rewrite (proj2 (Nat.compare_lt_iff l3 l2)) by lia; congruence).
  rewrite Nat.compare_refl.
  destruct (Nat.compare_spec d1 d2), (Nat.compare_spec d2 d3); try congruence; subst;
    try (rewrite (proj2 (Nat.compare_lt_iff d1 d3)) by lia; congruence);
    try (rewrite (proj2 (Nat.compare_lt_iff d1 d2)) by lia; congruence);
    try (rewrite (proj2 (Nat.compare_lt_iff d2 d3)) by lia; congruence).
  rewrite Nat.compare_refl. now apply Ht.
Qed.

Definition key_le (x y : nat * nat * nat * option nat) : Prop := cmp_key x y <> Gt.

Lemma sort_by_key_sorted {A} (key : A -> nat * nat * nat * option nat) l :
  StronglySorted (fun x y => key_le (key x) (key y))
    (sort_by (fun x y => match cmp_key (key x) (key y) with Gt => false | _ => true end) l).
Proof.
  eapply StronglySorted_impl; [|apply sort_by_sorted].
  - intros x y _ _. unfold key_le. destruct (cmp_key (key x) (key y)); congruence.
  - intros x y. rewrite (cmp_key_anti (key x) (key y)).
    destruct (cmp_key (key x) (key y)); auto.
  - intros x y z H1 H2. pose proof (cmp_key_trans (key x) (key y) (key z)) as H.
    destruct (cmp_key (key x) (key y)); try discriminate;
      destruct (cmp_key (key y) (key z)); try discriminate;
      destruct (cmp_key (key x) (key z)); auto; exfalso; apply H; congruence.
Qed.

Lemma key_le_src s1 l1 d1 i1 s2 l2 d2 i2 :
  key_le (s1, l1, d1, i1) (s2, l2, d2, i2) ->
  s1 <= s2 /\ (s1 = s2 -> l2 <= l1) /\ (s1 = s2 -> l1 = l2 -> d1 <= d2) .
Proof.
  unfold key_le, cmp_key, then_cmp.
  destruct (Nat.compare_spec s1 s2), (Nat.compare_spec l2 l1), (Nat.compare_spec d1 d2);
    intros; repeat split; intros; try lia; try congruence.
Qed.

(** *** Remapping of shortcut indices *)
Lemma foldM_set_spec {A V} (key : A -> nat) (val : A -> V) ps acc0 :
  NoDup (map key ps) -> (forall p, In p ps -> key p < length acc0) ->
  exists acc, foldM (fun acc p => set acc (key p) (val p)) ps acc0 = Ok acc /\
    length acc = length acc0 /\
    (forall p, In p ps -> nth_error acc (key p) = Some (val p)) /\
    (forall j, ~ In j (map key ps) -> nth_error acc j = nth_error acc0 j).
Proof.
  revert acc0. induction ps as [|p ps IH]; intros acc0 Hnd Hlt; simpl.
  - exists acc0. repeat split; auto. intros p [].
  - simpl in Hnd. inversion Hnd as [|? ? Hn Hnd']; subst.
    rewrite set_lt by (apply Hlt; now left). simpl.
    destruct (IH (upd acc0 (key p) (val p)) Hnd') as (acc & E & Hl & H1 & H2).
    { intros q Hq. rewrite upd_length. apply Hlt. now right. }
    exists acc. split; auto. rewrite upd_length in Hl. split; auto. split.
    + intros q [<-|Hq]; auto. rewrite H2 by auto. apply nth_error_upd_eq. apply Hlt. now left.
    + intros j Hj. rewrite H2 by tauto. apply nth_error_upd_neq. tauto.
Qed.

Lemma new_indices_spec es :
  Permutation (map b_idx es) (seq 0 (length es)) ->
  exists ni, new_indices es = Ok ni /\ length ni = length es /\
    (forall j e, nth_error es j = Some e -> nth_error ni (b_idx e) = Some j).
Proof.
  intros Hp. unfold new_indices.
  assert (Hk : map (fun p : nat * protoB => b_idx (snd p)) (enumerate es) = map b_idx es).
  { rewrite <- (enumerate_snd es) at 2. rewrite map_map. reflexivity. }
  destruct (foldM_set_spec (fun p : nat * protoB => b_idx (snd p)) fst (enumerate es)
              (repeat 0 (length es))) as (ni & E & Hl & H1 & _).
  - rewrite Hk. eapply Permutation_NoDup; [symmetry; exact Hp|apply seq_NoDup].
  - intros [i e] Hin. simpl. rewrite repeat_length.
    assert (In (b_idx e) (seq 0 (length es))).
    { eapply Permutation_in; [exact Hp|]. rewrite <- Hk.
      apply in_map_iff. exists (i, e). auto. }
    apply in_seq in H. lia.
  - exists ni. split; auto. rewrite repeat_length in Hl. split; auto.
    intros j e Hj. apply (H1 (j, e)). now apply enumerate_in.
Qed.

(** generic shape of the two loops that rewrite shortcuts *)
Definition sc_map_step (h : nat * nat -> res (nat * nat)) (scs : list (nat * nat)) (e : protoB)
  : res (list (nat * nat)) :=
  match b_sc e with
  | None => Ok scs
  | Some k => do p <- idx scs k; do q <- h p; set scs k q
  end.

Lemma sc_map_spec h hh es scs :
  NoDup (somes (map b_sc es)) ->
  (forall e k, In e es -> b_sc e = Some k ->
     exists p, nth_error scs k = Some p /\ h p = Ok (hh p)) ->
  exists scs', foldM (sc_map_step h) es scs = Ok scs' /\ length scs' = length scs /\
    (forall e k p, In e es -> b_sc e = Some k -> nth_error scs k = Some p ->
        nth_error scs' k = Some (hh p)) /\
    (forall k, ~ In k (somes (map b_sc es)) -> nth_error scs' k = nth_error scs k).
Proof.
  revert scs. induction es as [|e es IH]; intros scs Hnd H; simpl.
  - exists scs. repeat split; auto. intros e k p [].
  - simpl in Hnd. unfold sc_map_step at 1. destruct (b_sc e) as [k|] eqn:Ek.
    + inversion Hnd as [|? ? Hn Hnd']; subst.
      destruct (H e k (or_introl eq_refl) Ek) as (p & Hp & Hh).
      assert (Hlt : k < length scs) by (apply nth_error_Some; congruence).
      rewrite (proj2 (idx_ok scs k p) Hp). simpl. rewrite Hh. simpl. rewrite set_lt by auto. simpl.
      destruct (IH (upd scs k (hh p)) Hnd') as (scs' & E & Hl & H1 & H2).
      { intros e' k' Hin Ek'. assert (k <> k').
        { intros ->. apply Hn. apply somes_in. rewrite <- Ek'. now apply in_map. }
        rewrite nth_error_upd_neq by auto. eapply H; eauto. now right. }
      exists scs'. split; auto. rewrite upd_length in Hl. split; auto. split.
      * intros e' k' p' [<-|Hin] Ek' Hp'.
        -- assert (k' = k) by congruence. subst. rewrite H2 by auto.
           rewrite nth_error_upd_eq by auto. congruence.
        -- eapply H1; eauto. assert (k <> k').
           { intros ->. apply Hn. apply somes_in. rewrite <- Ek'. now apply in_map. }
           now rewrite nth_error_upd_neq.
      * intros j Hj. rewrite H2; [|intros Hc; apply Hj; now right].
        apply nth_error_upd_neq. intros ->. apply Hj. now left.
    + destruct (IH scs Hnd) as (scs' & E & Hl & H1 & H2).
      { intros; eapply H; eauto. now right. }
      exists scs'. repeat split; auto. intros e' k p [<-|Hin] Ek' Hp; [congruence|eauto].
Qed.

Lemma remap_is_sc_map ni es scs :
  remap_shortcuts ni es scs =
  foldM (sc_map_step (fun p => do x <- idx ni (fst p); do y <- idx ni (snd p); Ok (x, y))) es scs.
Proof.
  unfold remap_shortcuts. revert scs. induction es as [|e es IH]; intros scs; simpl; auto.
  assert (E : match b_sc e with
     | None => Ok scs
     | Some k => do p <- idx scs k; do x <- idx ni (fst p); do y <- idx ni (snd p); set scs k (x, y)
     end = sc_map_step (fun p => do x <- idx ni (fst p); do y <- idx ni (snd p); Ok (x, y)) scs e).
  { unfold sc_map_step. destruct (b_sc e); auto. destruct (idx scs n); simpl; auto.
    destruct (idx ni (fst a)); simpl; auto. destruct (idx ni (snd a)); simpl; auto. }
  rewrite E. destruct (sc_map_step _ scs e); simpl; auto.
Qed.

Lemma correct_is_sc_map removed es scs :
  correct_shortcuts removed es scs =
  foldM (sc_map_step (fun p => Ok (dec_shortcut removed (fst p), dec_shortcut removed (snd p)))) es scs.
Proof. reflexivity. Qed.

(** *** Deduplication *)
Section DedupStage.
  Fixpoint rm_from (prev : protoB) (r : nat) (l : list protoB) : list nat :=
    match l with
    | [] => []
    | x :: t => if is_duplicate prev x then r :: rm_from prev (S r) t else rm_from x (S r) t
    end.
  Definition rm_of (l : list protoB) : list nat :=
    match l with [] => [] | x :: t => rm_from x 1 t end.

  Lemma dedup_loop rest : forall kept last junk removed r,
    r = length kept + 1 + length junk ->
    exists junk', foldM dedup_step (seq r (length rest))
        ((kept ++ [last]) ++ junk ++ rest, length kept + 1, removed) =
      Ok (((kept ++ [last]) ++ dedup_from is_duplicate last rest) ++ junk',
          length kept + 1 + length (dedup_from is_duplicate last rest),
          removed ++ rm_from last r rest) /\
      length junk' = length junk + length (rm_from last r rest).
  Proof.
    induction rest as [|x rest IH]; intros kept last junk removed r Hr.
    - simpl. exists junk. rewrite !app_nil_r. split; [|lia]. do 3 f_equal. lia.
    - cbn [length seq foldM]. unfold dedup_step at 1. cbv beta iota.
      assert (E0 : idx ((kept ++ [last]) ++ junk ++ x :: rest) (length kept + 1 - 1) = Ok last).
      { apply idx_ok. rewrite <- !app_assoc. rewrite nth_error_app2 by lia.
        replace (length kept + 1 - 1 - length kept) with 0 by lia. reflexivity. }
      assert (E1 : idx ((kept ++ [last]) ++ junk ++ x :: rest) r = Ok x).
      { apply idx_ok. rewrite app_assoc. rewrite nth_error_app2; rewrite !app_length; simpl; [|lia].
        replace (r - (length kept + 1 + length junk)) with 0 by lia. reflexivity. }
      rewrite E0, E1. simpl bind. destruct (is_duplicate last x) eqn:Ed.
      + cbn [bind]. destruct (IH kept last (junk ++ [x]) (removed ++ [r]) (S r)) as (junk' & E & Hl).
        { rewrite app_length. simpl. lia. }
        exists junk'. cbn [dedup_from rm_from]. rewrite Ed.
        replace ((kept ++ [last]) ++ junk ++ x :: rest) with ((kept ++ [last]) ++ (junk ++ [x]) ++ rest)
          by (rewrite <- !app_assoc; reflexivity).
        rewrite E. rewrite <- (app_assoc removed). simpl. split; auto.
        rewrite Hl, app_length. simpl. lia.
      + (* swap w r *)
        assert (Esw : swap ((kept ++ [last]) ++ junk ++ x :: rest) (length kept + 1) r =
                      Ok (((kept ++ [last]) ++ [x]) ++ match junk with [] => [] | j :: js => js ++ [j] end ++ rest)).
        { unfold swap. rewrite E1. destruct junk as [|j js].
          - simpl in Hr. assert (length kept + 1 = r) as -> by lia. simpl app at 2. rewrite E1. cbn [bind].
            rewrite set_lt by (rewrite !app_length; simpl; lia). cbn [bind].
            rewrite set_lt by (rewrite upd_length, !app_length; simpl; lia).
            assert (Hu : forall y, upd ((kept ++ [last]) ++ y :: rest) r x = (kept ++ [last]) ++ x :: rest).
            { intros y. replace r with (length (kept ++ [last])) by (rewrite app_length; simpl; lia).
              apply upd_app_mid. }
            change ([] ++ x :: rest) with (x :: rest).
            rewrite !Hu. rewrite <- !app_assoc. reflexivity.
          - assert (Ew : idx ((kept ++ [last]) ++ (j :: js) ++ x :: rest) (length kept + 1) = Ok j).
            { apply idx_ok. rewrite nth_error_app2; rewrite app_length; simpl; [|lia].
              rewrite Nat.sub_diag. reflexivity. }
            rewrite Ew. cbn [bind].
            rewrite set_lt by (rewrite !app_length; simpl; lia). cbn [bind].
            rewrite set_lt by (rewrite upd_length, !app_length; simpl in *; lia).
            replace (length kept + 1) with (length (kept ++ [last])) by (rewrite app_length; reflexivity).
            change ((j :: js) ++ x :: rest) with (j :: js ++ x :: rest). rewrite upd_app_mid.
            replace ((kept ++ [last]) ++ x :: js ++ x :: rest) with
              ((((kept ++ [last]) ++ [x]) ++ js) ++ x :: rest) by (rewrite <- !app_assoc; reflexivity).
            replace r with (length (((kept ++ [last]) ++ [x]) ++ js))
              by (rewrite !app_length; simpl in *; lia).
            rewrite upd_app_mid. rewrite <- !app_assoc. reflexivity. }
        rewrite Esw. cbn [bind].
        set (junk2 := match junk with [] => [] | j :: js => js ++ [j] end).
        assert (Hj2 : length junk2 = length junk).
        { unfold junk2. destruct junk; auto. rewrite app_length. simpl. lia. }
        destruct (IH (kept ++ [last]) x junk2 removed (S r)) as (junk' & E & Hl).
        { rewrite app_length. simpl. lia. }
        exists junk'. cbn [dedup_from rm_from]. rewrite Ed.
        replace (length kept + 1 + 1) with (length (kept ++ [last]) + 1)
          by (rewrite app_length; simpl; lia).
        rewrite E. split; [|lia].
        rewrite <- !app_assoc. simpl. do 3 f_equal. rewrite app_length. simpl. lia.
  Qed.

  Lemma rm_from_length prev r l :
    length (rm_from prev r l) + length (dedup_from is_duplicate prev l) = length l.
  Proof.
    revert prev r. induction l as [|x l IH]; intros prev r; simpl; auto.
    destruct (is_duplicate prev x); simpl; [pose proof (IH prev (S r))|pose proof (IH x (S r))]; lia.
  Qed.

  Lemma dedup_edges_eq es :
    dedup_edges es = Ok (dedup_by is_duplicate es, rm_of es).
  Proof.
    unfold dedup_edges. destruct es as [|x es]; [reflexivity|].
    destruct (dedup_loop es [] x [] [] 1 eq_refl) as (junk' & E & Hl).
    cbn [length]. replace (S (length es) - 1) with (length es) by lia.
    simpl app in E. cbn [length Nat.add] in E. rewrite E. cbn [bind].
    unfold dedup_by, rm_of. simpl in Hl.
    set (D := dedup_from is_duplicate x es) in *. set (R := rm_from x 1 es) in *.
    assert (Hf : firstn (length (x :: D ++ junk') - length R) (x :: D ++ junk') = x :: D).
    { change (x :: D ++ junk') with ((x :: D) ++ junk'). rewrite app_length, Hl.
      replace (length (x :: D) + length R - length R) with (length (x :: D)) by lia.
      rewrite firstn_app, Nat.sub_diag, firstn_all. simpl. now rewrite app_nil_r. }
    simpl app. now rewrite Hf.
  Qed.

  (** which position of the deduplicated list represents position i *)
  Definition count_le (R : list nat) (i : nat) : nat := length (filter (fun r => r <=? i) R).

  Lemma rm_from_ge prev r l x : In x (rm_from prev r l) -> r <= x.
  Proof.
    revert prev r. induction l as [|a l IH]; intros prev r; simpl; [tauto|].
    destruct (is_duplicate prev a); simpl.
    - intros [->|H]; [lia|]. apply IH in H. lia.
    - intros H. apply IH in H. lia.
  Qed.

  Lemma rm_from_sorted prev r l : StronglySorted lt (rm_from prev r l).
  Proof.
    revert prev r. induction l as [|a l IH]; intros prev r; simpl; [constructor|].
    destruct (is_duplicate prev a); auto. constructor; auto.
    rewrite Forall_forall. intros x Hx. apply rm_from_ge in Hx. lia.
  Qed.

  Lemma count_le_cons r R i : count_le (r :: R) i = (if r <=? i then 1 else 0) + count_le R i.
  Proof. unfold count_le. simpl. destruct (r <=? i); reflexivity. Qed.

  Lemma count_le_bound R lo i :
    StronglySorted lt R -> (forall r, In r R -> lo <= r) -> count_le R i <= S i - lo.
  Proof.
    intros Hs. revert lo. induction Hs as [|r R Hs IH Hf]; intros lo Hlo; [unfold count_le; cbn; lia|].
    rewrite Forall_forall in Hf. rewrite count_le_cons.
    assert (HI : count_le R i <= S i - S r).
    { apply IH. intros x Hx. specialize (Hf x Hx). lia. }
    pose proof (Hlo r (or_introl eq_refl)).
    destruct (Nat.leb_spec r i); lia.
  Qed.

  Lemma dec_shortcut_eq R i :
    StronglySorted lt R -> (forall r, In r R -> 1 <= r) -> dec_shortcut R i = i - count_le R i.
  Proof.
    intros Hs Hpos. unfold dec_shortcut. induction Hs as [|r R Hs IH Hf].
    - unfold count_le. simpl. lia.
    - simpl rev. rewrite fold_left_app. simpl.
      rewrite IH by (intros; apply Hpos; now right).
      rewrite count_le_cons.
      rewrite Forall_forall in Hf.
      assert (HB : count_le R i <= S i - S r).
      { apply count_le_bound; auto. }
      pose proof (Hpos r (or_introl eq_refl)) as Hr1.
      destruct (Nat.leb_spec r i) as [Hri|Hri];
        destruct (Nat.leb_spec r (i - count_le R i)); lia.
  Qed.

  Lemma count_le_lt R i : (forall r, In r R -> i < r) -> count_le R i = 0.
  Proof.
    intros H. unfold count_le. induction R as [|r R IH]; simpl; auto.
    pose proof (H r (or_introl eq_refl)). destruct (Nat.leb_spec r i); [lia|].
    apply IH. intros; apply H; now right.
  Qed.

  Lemma rep_from l : forall prev r j sx, nth_error l j = Some sx ->
    count_le (rm_from prev r l) (r + j) <= S j /\
    exists kx, nth_error (prev :: dedup_from is_duplicate prev l)
                         (S j - count_le (rm_from prev r l) (r + j)) = Some kx /\
               (kx = sx \/ is_duplicate kx sx = true).
  Proof.
    induction l as [|x l IH]; intros prev r j sx Hj; [destruct j; discriminate|].
    cbn [rm_from dedup_from]. destruct (is_duplicate prev x) eqn:Ed.
    - rewrite count_le_cons. replace (r <=? r + j) with true by (symmetry; apply Nat.leb_le; lia).
      destruct j as [|j].
      + simpl in Hj. inversion Hj; subst.
        rewrite count_le_lt.
        2:{ intros y Hy. apply rm_from_ge in Hy. lia. }
        split; [lia|]. exists prev. split; [reflexivity|]. now right.
      + simpl in Hj. destruct (IH prev (S r) j sx Hj) as (Hb & kx & Hk & Hd).
        replace (S r + j) with (r + S j) in * by lia.
        split; [lia|]. exists kx. split; auto.
    - destruct j as [|j].
      + simpl in Hj. inversion Hj; subst.
        rewrite count_le_lt.
        2:{ intros y Hy. apply rm_from_ge in Hy. lia. }
        split; [lia|]. exists sx. split; [reflexivity|]. now left.
      + simpl in Hj. destruct (IH x (S r) j sx Hj) as (Hb & kx & Hk & Hd).
        replace (S r + j) with (r + S j) in * by lia.
        split; [lia|]. exists kx. split; auto.
        replace (S (S j) - count_le (rm_from x (S r) l) (r + S j)) with
          (S (S j - count_le (rm_from x (S r) l) (r + S j))) by lia.
        exact Hk.
  Qed.

  Lemma orig_from l : forall prev r q kx,
    nth_error (dedup_from is_duplicate prev l) q = Some kx ->
    exists j, nth_error l j = Some kx /\ S j - count_le (rm_from prev r l) (r + j) = S q.
  Proof.
    induction l as [|x l IH]; intros prev r q kx Hq; [destruct q; discriminate|].
    cbn [rm_from dedup_from] in *. destruct (is_duplicate prev x) eqn:Ed.
    - destruct (IH prev (S r) q kx Hq) as (j & Hj & He).
      exists (S j). split; auto. rewrite count_le_cons.
      replace (r <=? r + S j) with true by (symmetry; apply Nat.leb_le; lia).
      replace (S r + j) with (r + S j) in He by lia. lia.
    - destruct q as [|q]; simpl in Hq.
      + inversion Hq; subst. exists 0. split; auto. rewrite count_le_lt; [lia|].
        intros y Hy. apply rm_from_ge in Hy. lia.
      + destruct (IH x (S r) q kx Hq) as (j & Hj & He).
        exists (S j). split; auto. replace (S r + j) with (r + S j) in He by lia.
        assert (count_le (rm_from x (S r) l) (r + S j) <= S (r + S j) - S r).
        { apply count_le_bound; [apply rm_from_sorted|]. intros y Hy. now apply rm_from_ge in Hy. }
        lia.
  Qed.

  Definition rep_pos (es : list protoB) (i : nat) : nat := dec_shortcut (rm_of es) i.

  Lemma rm_of_sorted es : StronglySorted lt (rm_of es).
  Proof. destruct es; [constructor|]. apply rm_from_sorted. Qed.
  Lemma rm_of_pos es r : In r (rm_of es) -> 1 <= r.
  Proof. destruct es; [intros []|]. apply rm_from_ge. Qed.

  Lemma rep_pos_spec es i sx :
    nth_error es i = Some sx ->
    exists kx, nth_error (dedup_by is_duplicate es) (rep_pos es i) = Some kx /\
               (kx = sx \/ is_duplicate kx sx = true).
  Proof.
    intros Hi. unfold rep_pos.
    rewrite dec_shortcut_eq; [|apply rm_of_sorted|apply rm_of_pos].
    destruct es as [|x es]; [destruct i; discriminate|]. cbn [dedup_by rm_of].
    destruct i as [|i].
    - simpl in Hi. inversion Hi; subst. exists sx. split; auto.
    - simpl in Hi. destruct (rep_from es x 1 i sx Hi) as (_ & kx & Hk & Hd).
      exists kx. split; auto.
  Qed.

  Lemma orig_pos_spec es q kx :
    nth_error (dedup_by is_duplicate es) q = Some kx ->
    exists i, nth_error es i = Some kx /\ rep_pos es i = q.
  Proof.
    intros Hq. unfold rep_pos. destruct es as [|x es]; [destruct q; discriminate|].
    cbn [dedup_by] in Hq. destruct q as [|q].
    - simpl in Hq. inversion Hq; subst. exists 0. split; auto.
      rewrite dec_shortcut_eq; [|apply rm_of_sorted|apply rm_of_pos]. lia.
    - simpl in Hq. destruct (orig_from es x 1 q kx Hq) as (j & Hj & He).
      exists (S j). split; auto.
      rewrite dec_shortcut_eq; [|apply rm_of_sorted|apply rm_of_pos]. exact He.
  Qed.

  Lemma dedup_from_incl prev l x :
    In x (dedup_from is_duplicate prev l) -> In x l.
  Proof.
    revert prev. induction l as [|a l IH]; intros prev; simpl; auto.
    destruct (is_duplicate prev a); simpl; intuition eauto.
  Qed.

  Lemma dedup_by_incl l x : In x (dedup_by is_duplicate l) -> In x l.
  Proof. destruct l; simpl; auto. intros [H|H]; auto. right. eapply dedup_from_incl; eauto. Qed.

  Lemma dedup_by_sorted R l : StronglySorted R l -> StronglySorted R (dedup_by is_duplicate l).
  Proof.
    destruct l as [|x l]; simpl; auto. intros H.
    revert x H. induction l as [|a l IH]; intros x H; simpl; auto.
    inversion H as [|? ? H2 H3]; subst. inversion H2; subst. inversion H3; subst.
    destruct (is_duplicate x a).
    - apply IH. constructor; auto.
    - specialize (IH a H2). constructor; auto.
      rewrite Forall_forall in *. intros y [<-|Hy]; auto.
      apply H7. eapply dedup_from_incl; eauto.
  Qed.

  (** neighbours of the result are no duplicates *)
  Lemma dedup_by_adjacent l i x y :
    nth_error (dedup_by is_duplicate l) i = Some x ->
    nth_error (dedup_by is_duplicate l) (S i) = Some y ->
    is_duplicate x y = false.
  Proof.
    destruct l as [|a l]; [destruct i; discriminate|]. cbn [dedup_by].
    revert a i x y. induction l as [|b l IH]; intros a i x y H1 H2; cbn [dedup_from] in *.
    - destruct i; discriminate.
    - destruct (is_duplicate a b) eqn:E.
      + eapply IH; eauto.
      + destruct i as [|i].
        * simpl in *. inversion H1; inversion H2; subst. exact E.
        * eapply IH; [exact H1|exact H2].
  Qed.
End DedupStage.

(** *** Storing metrics *)
Definition toC (e : protoB) : protoC :=
  {| c_src := b_src e; c_dst := b_dst e; c_idx := 0; c_id := b_id e |}.

Definition sc_pair (scs : list (nat * nat)) (e : protoB) : option (nat * nat) :=
  match b_sc e with
  | Some k => nth_error scs k
  | None => None
  end.

(** positions and values of the [Some] entries *)
Fixpoint somes_at {A} (i : nat) (l : list (option A)) : list (nat * A) :=
  match l with
  | [] => []
  | Some x :: t => (i, x) :: somes_at (S i) t
  | None :: t => somes_at (S i) t
  end.

Lemma store_fold scs l st :
  (forall e k, In e l -> b_sc e = Some k -> k < length scs) ->
  foldM (store_metrics scs) l st =
  Ok {| st_metrics := st_metrics st ++ map (fun e => map clamp_metric (b_metrics e)) l;
        st_edges := st_edges st ++ map toC l;
        st_scs := st_scs st ++ somes_at (st_idx st) (map (sc_pair scs) l);
        st_idx := st_idx st + length l |}.
Proof.
  revert st. induction l as [|e l IH]; intros st H.
  - simpl. rewrite !app_nil_r, Nat.add_0_r. destruct st; reflexivity.
  - cbn [foldM]. unfold store_metrics at 1. simpl map.
    destruct (b_sc e) as [k|] eqn:Ek.
    + assert (Hk : k < length scs) by (eapply H; eauto; now left).
      destruct (idx_lt scs k Hk) as [p Hp]. rewrite Hp. cbn [bind].
      rewrite IH by (intros; eapply H; eauto; now right). cbn [st_metrics st_edges st_scs st_idx].
      unfold sc_pair at 2. rewrite Ek. apply idx_ok in Hp. rewrite Hp. cbn [somes_at].
      rewrite <- !app_assoc. simpl. do 2 f_equal; try lia. do 3 f_equal. lia.
    + cbn [bind]. rewrite IH by (intros; eapply H; eauto; now right).
      cbn [st_metrics st_edges st_scs st_idx]. unfold sc_pair at 2. rewrite Ek. cbn [somes_at].
      rewrite <- !app_assoc. simpl. do 2 f_equal; try lia. f_equal. f_equal. lia.
Qed.

(** *** Shortcut offsets *)
Lemma somes_at_snd {A} i (l : list (option A)) : map snd (somes_at i l) = somes l.
Proof. revert i. induction l as [|[x|] l IH]; intros i; simpl; auto. now rewrite IH. Qed.

Lemma somes_at_length {A} i (l : list (option A)) : length (somes_at i l) = length (somes l).
Proof. rewrite <- (somes_at_snd i). now rewrite map_length. Qed.

Definition sc_count {A} (l : list (option A)) (i : nat) : nat := length (somes (firstn i l)).

Lemma sc_loop_spec opts_done opts new_scs offs :
  new_scs = somes_at 0 (opts_done ++ opts) ->
  length offs = length (opts_done ++ opts) + 1 ->
  (forall i, i < length opts_done -> nth_error offs i = Some (sc_count (opts_done ++ opts) i)) ->
  (forall i, length opts_done <= i -> i < length offs ->
      nth_error offs i = Some (length (somes (opts_done ++ opts)))) ->
  exists offs', sc_loop new_scs (length opts) (length opts_done) (length (somes opts_done)) offs
                        (somes opts_done) = Ok (offs', somes (opts_done ++ opts)) /\
    length offs' = length (opts_done ++ opts) + 1 /\
    (forall i, i <= length (opts_done ++ opts) ->
        nth_error offs' i = Some (sc_count (opts_done ++ opts) i)).
Proof.
  revert opts_done offs. induction opts as [|o opts IH]; intros od offs Hn Hl H1 H2.
  - simpl. rewrite app_nil_r in *. exists offs. split; auto. split; auto.
    intros i Hi. destruct (Nat.eq_dec i (length od)) as [->|].
    + rewrite H2 by lia. unfold sc_count. now rewrite firstn_all.
    + apply H1. lia.
  - cbn [length sc_loop].
    assert (Hlen : length new_scs = length (somes (od ++ o :: opts))) by (subst; apply somes_at_length).
    destruct (Nat.eqb_spec (length (somes od)) (length new_scs)) as [He|Hne].
    + (* no further shortcuts *)
      exists offs. rewrite Hlen, somes_app, app_length in He.
      assert (Hs : somes (o :: opts) = []) by (destruct (somes (o :: opts)); auto; simpl in He; lia).
      rewrite somes_app, Hs, app_nil_r. split; auto. split; auto.
      intros i Hi. destruct (le_lt_dec (length od) i).
      * rewrite H2 by lia. rewrite somes_app, Hs, app_nil_r. f_equal. unfold sc_count.
        rewrite firstn_app, somes_app, app_length.
        rewrite (firstn_all2 od) by lia.
        assert (somes (firstn (i - length od) (o :: opts)) = []).
        { pose proof (somes_firstn_le (o :: opts) (i - length od) (length (o :: opts))) as Hle.
          rewrite firstn_all, Hs in Hle. change (length (@nil (nat * nat))) with 0 in Hle.
          destruct (le_lt_dec (i - length od) (length (o :: opts))).
          - specialize (Hle ltac:(lia)). apply length_zero_iff_nil. lia.
          - rewrite firstn_all2 by lia. auto. }
        rewrite H. simpl. lia.
      * apply H1. lia.
    + (* position of the next shortcut *)
      assert (Hnx : exists p, nth_error new_scs (length (somes od)) = Some p /\
                (match o with Some x => p = (length od, x) | None => fst p <> length od end)).
      { subst new_scs. clear - Hne Hlen.
        assert (Ha : forall (l1 l2 : list (option (nat * nat))) i, somes_at i (l1 ++ l2) = somes_at i l1 ++ somes_at (i + length l1) l2).
        { induction l1 as [|[x|] l1 IH]; intros l2 i; simpl.
          - now rewrite Nat.add_0_r.
          - rewrite IH. do 3 f_equal. lia.
          - rewrite IH. do 2 f_equal. lia. }
        rewrite Ha. rewrite nth_error_app2 by (rewrite somes_at_length; lia).
        rewrite somes_at_length, Nat.sub_diag. simpl Nat.add.
        destruct o as [x|].
        - exists (length od, x). auto.
        - assert (Hex : somes_at (S (length od)) opts <> []).
          { intros Hc. apply Hne. rewrite Hlen, somes_app, app_length.
            assert (length (somes_at (S (length od)) opts) = 0) by now rewrite Hc.
            rewrite somes_at_length in H. simpl. lia. }
          cbn [somes_at]. destruct (somes_at (S (length od)) opts) as [|p q] eqn:E; [congruence|].
          exists p. split; auto.
          assert (Hge : forall (l : list (option (nat * nat))) i p, In p (somes_at i l) -> i <= fst p).
          { induction l as [|[y|] l IHl]; intros i p' Hp; simpl in Hp; [tauto| |].
            - destruct Hp as [<-|Hp]; simpl; auto. apply IHl in Hp. lia.
            - apply IHl in Hp. lia. }
          specialize (Hge opts (S (length od)) p). rewrite E in Hge.
          specialize (Hge (or_introl eq_refl)). lia. }
      destruct Hnx as (p & Hp & Hpo).
      rewrite (proj2 (idx_ok _ _ _) Hp). cbn [bind].
      assert (Hod : length od < length offs) by (rewrite Hl, app_length; simpl; lia).
      rewrite set_lt by auto. cbn [bind].
      assert (Eapp : od ++ o :: opts = (od ++ [o]) ++ opts) by (rewrite <- app_assoc; reflexivity).
      assert (Hcnt : sc_count (od ++ o :: opts) (length od) = length (somes od)).
      { unfold sc_count. rewrite firstn_app, firstn_all, Nat.sub_diag. simpl. now rewrite app_nil_r. }
      set (offs1 := upd offs (length od) (length (somes od))).
      assert (C1 : forall i, i < length (od ++ [o]) -> nth_error offs1 i = Some (sc_count ((od ++ [o]) ++ opts) i)).
      { intros i Hi. rewrite app_length in Hi. simpl in Hi. rewrite <- Eapp. unfold offs1.
        destruct (Nat.eq_dec i (length od)) as [->|].
        - rewrite nth_error_upd_eq by auto. now rewrite Hcnt.
        - rewrite nth_error_upd_neq by auto. apply H1. lia. }
      assert (C2 : forall i, length (od ++ [o]) <= i -> i < length offs1 ->
                 nth_error offs1 i = Some (length (somes ((od ++ [o]) ++ opts)))).
      { intros i Hi Hi2. rewrite app_length in Hi. simpl in Hi. rewrite <- Eapp. unfold offs1 in *.
        rewrite upd_length in Hi2. rewrite nth_error_upd_neq by lia. apply H2; lia. }
      destruct (IH (od ++ [o]) offs1) as (offs' & E & Hl' & H'); auto.
      { now rewrite <- Eapp. }
      { unfold offs1. rewrite upd_length, <- Eapp. exact Hl. }
      exists offs'. rewrite <- Eapp in *. split; [|split; auto].
      rewrite app_length in E. simpl in E. rewrite somes_app, app_length in E.
      destruct o as [x|]; simpl in E.
      * subst p. simpl fst. rewrite Nat.eqb_refl. simpl snd. exact E.
      * destruct (Nat.eqb_spec (length od) (fst p)); [congruence|].
        rewrite !Nat.add_0_r, app_nil_r in E. exact E.
Qed.

Lemma build_sc_spec (opts : list (option (nat * nat))) :
  exists offs, build_sc (somes_at 0 opts) (length opts) = Ok (offs, somes opts) /\
    length offs = length opts + 1 /\
    (forall i, i <= length opts -> nth_error offs i = Some (sc_count opts i)).
Proof.
  unfold build_sc.
  apply (sc_loop_spec [] opts (somes_at 0 opts) (repeat (length (somes_at 0 opts)) (length opts + 1))); auto.
  - apply repeat_length.
  - simpl. intros; lia.
  - simpl. intros i _ Hi. rewrite repeat_length in Hi. rewrite somes_at_length.
    rewrite nth_error_repeat by auto. reflexivity.
Qed.

(** *** Offsets *)
Definition count_lt (srcs : list nat) (v : nat) : nat := length (filter (fun s => s <? v) srcs).

Lemma count_lt_all srcs v : (forall s, In s srcs -> s < v) -> count_lt srcs v = length srcs.
Proof.
  intros H. unfold count_lt. induction srcs as [|s t IH]; simpl; auto.
  pose proof (H s (or_introl eq_refl)). destruct (Nat.ltb_spec s v); [|lia].
  simpl. f_equal. apply IH. intros; apply H; now right.
Qed.

Lemma count_lt_none srcs v : (forall s, In s srcs -> v <= s) -> count_lt srcs v = 0.
Proof.
  intros H. unfold count_lt. induction srcs as [|s t IH]; simpl; auto.
  pose proof (H s (or_introl eq_refl)). destruct (Nat.ltb_spec s v); [lia|].
  apply IH. intros; apply H; now right.
Qed.

Lemma last_ge srcs src : StronglySorted le srcs -> (forall s, In s srcs -> src <= s) ->
  src <= last srcs src /\ (forall s, In s srcs -> s <= last srcs src).
Proof.
  intros H. revert src. induction H as [|a l H IH Hf]; intros src Hs; simpl; auto.
  - split; auto. intros s [].
  - rewrite Forall_forall in Hf. destruct l as [|b l].
    + split; [apply Hs; now left|]. intros s Hi. simpl in Hi. destruct Hi as [->|[]]. lia.
    + destruct (IH src) as [H1 H2]. { intros s Hi. apply Hs. now right. }
      split; auto. intros s [->|Hi]; auto.
      specialize (Hf b (or_introl eq_refl)). specialize (H2 b (or_introl eq_refl)). lia.
Qed.

Lemma last_cons_default {A} (l : list A) a d d' : last (a :: l) d = last (a :: l) d'.
Proof. revert a. induction l; intros; simpl in *; auto. Qed.

Lemma offset_loop_spec srcs : forall src offset acc,
  StronglySorted le srcs -> (forall s, In s srcs -> src <= s) ->
  exists offs, offset_loop srcs src offset acc = Ok offs /\
    length offs = length acc + (last srcs src - src) + 1 /\
    (forall i, i < length acc -> nth_error offs i = nth_error acc i) /\
    (forall i, i <= last srcs src - src ->
        nth_error offs (length acc + i) = Some (offset + count_lt srcs (src + 1 + i))).
Proof.
  induction srcs as [|s t IH]; intros src offset acc Hs Hge.
  - simpl. exists (acc ++ [offset]). rewrite app_length. simpl. split; auto. split; [lia|]. split.
    + intros i Hi. now rewrite nth_error_app1.
    + intros i Hi. assert (i = 0) by lia. subst. rewrite nth_error_app2 by lia.
      replace (length acc + 0 - length acc) with 0 by lia. simpl.
      f_equal. unfold count_lt. simpl. lia.
  - inversion Hs as [|? ? Ht Hf]; subst. rewrite Forall_forall in Hf.
    pose proof (Hge s (or_introl eq_refl)) as Hss.
    cbn [offset_loop]. destruct (Nat.ltb_spec s src); [lia|].
    destruct (IH s (offset + 1) (push_n (s - src) offset acc) Ht Hf) as (offs & E & Hl & H1 & H2).
    exists offs. split; auto. unfold push_n in *. rewrite app_length, repeat_length in *.
    destruct (last_ge t s Ht Hf) as [Hlast Hlast'].
    assert (Elast : last (s :: t) src = last t s).
    { destruct t; [reflexivity|]. simpl last at 1. apply last_cons_default. }
    rewrite Elast. split; [lia|]. split.
    + intros i Hi. rewrite H1 by lia. now rewrite nth_error_app1.
    + intros i Hi. destruct (le_lt_dec (s - src) i) as [Hi2|Hi2].
      * replace (length acc + i) with (length acc + (s - src) + (i - (s - src))) by lia.
        rewrite H2 by lia. f_equal.
        replace (s + 1 + (i - (s - src))) with (src + 1 + i) by lia.
        unfold count_lt. simpl. destruct (Nat.ltb_spec s (src + 1 + i)); [simpl; lia|lia].
      * rewrite H1 by lia. rewrite nth_error_app2 by lia.
        rewrite nth_error_repeat by lia. f_equal.
        rewrite count_lt_none; [lia|].
        intros x [->|Hx]; [lia|]. specialize (Hf x Hx). lia.
Qed.

Lemma build_offsets_spec srcs :
  StronglySorted le srcs ->
  exists offs, build_offsets srcs = Ok offs /\ length offs = last srcs 0 + 2 /\
    (forall v, v <= last srcs 0 + 1 -> nth_error offs v = Some (count_lt srcs v)).
Proof.
  intros Hs. destruct (offset_loop_spec srcs 0 0 [0] Hs ltac:(intros; lia)) as (offs & E & Hl & H1 & H2).
  exists offs. split; auto. simpl length in *. split; [lia|].
  intros v Hv. destruct v as [|v].
  - rewrite H1 by lia. simpl. f_equal. symmetry. apply count_lt_none. intros; lia.
  - replace (S v) with (1 + v) by lia. rewrite H2 by lia. f_equal.
Qed.

(** the slice between two offsets is the sub-list with that key *)
Lemma sorted_filter_slice {A} (f : A -> nat) (l : list A) v :
  StronglySorted le (map f l) ->
  firstn (count_lt (map f l) (v + 1) - count_lt (map f l) v) (skipn (count_lt (map f l) v) l) =
  filter (fun x => f x =? v) l.
Proof.
  induction l as [|a l IH]; intros Hs; simpl.
  - reflexivity.
  - inversion Hs as [|? ? Hs' Hf]; subst. rewrite Forall_forall in Hf.
    specialize (IH Hs'). unfold count_lt in *. simpl.
    destruct (Nat.ltb_spec (f a) v), (Nat.ltb_spec (f a) (v + 1)), (Nat.eqb_spec (f a) v); try lia; simpl.
    + exact IH.
    + assert (E0 : length (filter (fun s => s <? v) (map f l)) = 0).
      { apply (count_lt_none (map f l) v). intros s Hsn. specialize (Hf s Hsn). lia. }
      rewrite E0 in *. rewrite Nat.sub_0_r in *. simpl in *. now rewrite IH.
    + assert (E0 : length (filter (fun s => s <? v + 1) (map f l)) = 0).
      { apply (count_lt_none (map f l) (v + 1)). intros s Hsn. specialize (Hf s Hsn). lia. }
      rewrite E0 in *. simpl in *. rewrite <- IH. reflexivity.
Qed.

Lemma mapM_idx_seq {A} (l : list A) lo n :
  lo + n <= length l -> mapM (idx l) (seq lo n) = Ok (firstn n (skipn lo l)).
Proof.
  revert lo. induction n; intros lo H; simpl; auto.
  destruct (idx_lt l lo ltac:(lia)) as [x Hx]. rewrite Hx. simpl.
  rewrite IHn by lia. simpl. apply idx_ok in Hx.
  assert (E : skipn lo l = x :: skipn (S lo) l).
  { clear - Hx. revert lo Hx. induction l; intros [|lo] Hx; simpl in *; try discriminate; auto.
    now inversion Hx. }
  rewrite E. reflexivity.
Qed.
