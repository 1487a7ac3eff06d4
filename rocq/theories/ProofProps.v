(** Lemmas tying the specification vocabulary to the built graph *)
From Coq Require Import String List Bool Arith ZArith QArith Qabs Lia Permutation Sorted.
From Verif Require Import Base F64 Lib ModelApprox ModelUnits ModelConfig ModelGraph ModelBuild
  ProofApprox ProofNodes ProofStages ProofBuild ProofGraph ProofOrder ProofMetrics Spec.
Import ListNotations.
Open Scope nat_scope.

Lemma keeps_ids_existsb c : keeps_edge_ids c -> existsb is_gen_edge_id (cfg_gen_edges c) = false.
Proof.
  intros H. destruct (existsb is_gen_edge_id (cfg_gen_edges c)) eqn:E; auto.
  apply existsb_exists in E. destruct E as (gc & Hin & E). destruct gc as [[] id| | | | | |]; try discriminate.
  exfalso. exact (H id Hin).
Qed.

Lemma idx_nth {A} (l : list A) i x : nth_error l i = Some x -> idx l i = Ok x.
Proof. intros H. unfold idx. now rewrite H. Qed.

Lemma last_coord_spec id ns : forall acc c, last_coord id ns acc = Some c ->
  (exists n, last_insertion ns n /\ pn_id n = id /\ pn_coord n = c) \/
  (acc = Some c /\ forall n, In n ns -> pn_id n <> id).
Proof.
  induction ns as [|n ns IH]; intros acc c E; simpl in E.
  - right. split; auto.
  - apply IH in E. destruct E as [(n' & (b & a & -> & Ha) & Hid & Hc)|[E H]].
    + left. exists n'. split; [exists (n :: b), a; auto|auto].
    + destruct (Z.eqb_spec (pn_id n) id) as [He|He].
      * injection E as <-. left. exists n. split; [|auto]. exists [], ns. split; auto.
        intros n' Hn'. rewrite He. auto.
      * right. split; auto. intros n' [<-|Hn']; auto.
Qed.

Lemma last_coord_none id ns : forall acc, last_coord id ns acc = None ->
  acc = None /\ forall n, In n ns -> pn_id n <> id.
Proof.
  induction ns as [|n ns IH]; intros acc E; simpl in E.
  - split; auto.
  - apply IH in E. destruct E as [E H]. destruct (Z.eqb_spec (pn_id n) id); [discriminate|].
    split; auto. intros n' [<-|Hn']; auto.
Qed.

Lemma last_coord_absent id ns : (forall n, In n ns -> pn_id n <> id) ->
  forall acc, last_coord id ns acc = acc.
Proof.
  induction ns as [|n ns IH]; intros H acc; simpl; auto.
  destruct (Z.eqb_spec (pn_id n) id) as [E|E]; [exfalso; apply (H n); auto; now left|].
  apply IH. intros; apply H; now right.
Qed.

Lemma last_level_spec id ns : forall acc,
  (exists before n after, ns = before ++ n :: after /\ pn_id n = id /\
     pn_level n = Some (last_level id ns acc) /\
     forall n', In n' after -> pn_id n' = id -> pn_level n' = None) \/
  (last_level id ns acc = acc /\ forall n, In n ns -> pn_id n = id -> pn_level n = None).
Proof.
  induction ns as [|n ns IH]; intros acc; simpl.
  - right. split; auto. intros n [].
  - match goal with |- context [last_level id ns ?a] => destruct (IH a) as [(b & m & a' & E & H1 & H2 & H3)|[E H]] end.
    + left. exists (n :: b), m, a'. rewrite E at 1. auto.
    + rewrite E. destruct (Z.eqb_spec (pn_id n) id) as [He|He].
      * destruct (pn_level n) as [l|] eqn:El.
        -- left. exists [], n, ns. auto.
        -- right. split; auto. intros n' [<-|Hn']; auto.
      * right. split; auto. intros n' [<-|Hn'] Hid; auto. contradiction.
Qed.

Lemma approx_eq_close x y : approx_eq x y = true <-> close x y.
Proof. apply approx_eq_iff. Qed.

Lemma dup_same_edge ids es p q pe qe :
  StronglySorted Z.lt ids ->
  In (pe_src pe) ids -> In (pe_dst pe) ids -> In (pe_src qe) ids -> In (pe_dst qe) ids ->
  is_duplicate (toB ids (mkAof es p pe)) (toB ids (mkAof es q qe)) = true <-> same_edge pe qe.
Proof.
  intros Hs H1 H2 H3 H4. unfold is_duplicate, same_edge, toB, mkAof; simpl.
  rewrite !andb_true_iff, !Nat.eqb_eq, approx_eq_vec_nth. split.
  - intros [[A [B C]] D]. apply posn_inj in B; auto. apply posn_inj in C; auto.
    repeat split; auto.
    + destruct (pe_id pe), (pe_id qe); simpl in A; try discriminate; auto.
      apply Nat.eqb_eq in A. congruence.
    + intros i a b Ha Hb. apply approx_eq_close. eapply D; eauto.
  - intros (A & B & C & D). rewrite A, B, C. repeat split; auto.
    + destruct (pe_id qe); simpl; auto. apply Nat.eqb_refl.
    + intros i a b Ha Hb. apply approx_eq_close. eapply D; eauto.
Qed.

(** everything about edges of a built graph in one statement *)
Lemma build_edges hav c ch1 ch2 es ns g :
  1 <= ch1 -> 1 <= ch2 -> build hav c ch1 ch2 es ns = Ok g ->
  exists rep orig : nat -> nat,
    (forall e, e < edge_count g FWD ->
       exists pe, nth_error es (orig e) = Some pe /\ rep (orig e) = e /\ same_ends g e pe /\
         (keeps_edge_ids c -> edge_try_id g e = Ok (pe_id pe)) /\
         (plain_metrics c -> exists ms, edge_metrics g e = Ok ms /\ Forall2 lifted (pe_metrics pe) ms) /\
         sc_edges g e = Ok (match pe_sc pe with
                            | Some (p, q) => Some (rep p, rep q)
                            | None => None
                            end)) /\
    (forall p pe, nth_error es p = Some pe ->
       rep p < edge_count g FWD /\
       exists pe', nth_error es (orig (rep p)) = Some pe' /\ (orig (rep p) = p \/ same_edge pe' pe)) /\
    (forall e pe pe', S e < edge_count g FWD ->
       nth_error es (orig e) = Some pe -> nth_error es (orig (S e)) = Some pe' -> ~ same_edge pe pe').
Proof.
  intros H1 H2 E. destruct (build_spec _ _ _ _ _ _ _ H1 H2 E)
    as (b & g0 & K & Eb & Hb & Hcore & Hnet & Hids & Heids & Hmet).
  assert (HK : K = kept_edges es (nb_node_ids b) (nb_levels b)) by apply (cs_kept _ _ _ _ _ Hcore).
  set (ids := nb_node_ids b) in *. set (levels := nb_levels b) in *.
  assert (Hcnt : edge_count g FWD = length K).
  { rewrite (net_edge_count g0 g) by auto. eapply core_edge_count; eauto. }
  assert (Hs : StronglySorted Z.lt ids) by apply (nbi_sorted _ _ Hb).
  assert (Hin : forall pe, In pe es -> In (pe_src pe) ids /\ In (pe_dst pe) ids).
  { intros pe Hpe. unfold ids. rewrite !(nbi_ids _ _ Hb). split; exists pe; auto. }
  exists (rep_of es ids levels),
         (fun e => match nth_error K e with Some k => b_idx k | None => 0 end).
  split; [|split].
  - intros e He. rewrite Hcnt in He.
    destruct (nth_error K e) as [k|] eqn:Ek; [|apply nth_error_None in Ek; lia].
    assert (HinK : In k K) by (eapply nth_error_In; eauto).
    destruct (core_in_edge es b c K g0 Hb Hcore k HinK) as (pe & Epe & Ekk & Es & Ed).
    exists pe. split; auto. split; [|split; [|split; [|split]]].
    + rewrite HK in Ek. destruct (orig_of_spec es ids levels e k Ek) as (pe' & _ & _ & Er). exact Er.
    + exists (b_src k), (b_dst k). split; [split|split].
      * rewrite (net_dst_idx g0 g) by auto. apply (core_dst es b c K g0 Hcore). eauto.
      * rewrite (net_dst_idx g0 g) by auto. apply (core_dst es b c K g0 Hcore). eauto.
      * unfold node_id. rewrite (sn_ids _ _ Hnet). now apply idx_nth.
      * unfold node_id. rewrite (sn_ids _ _ Hnet). now apply idx_nth.
    + intros Hk. destruct (Heids (keeps_ids_existsb _ Hk)) as [Hx _].
      unfold edge_try_id. rewrite Hx, (cs_eids _ _ _ _ _ Hcore). apply idx_nth.
      rewrite nth_error_map, Ek. simpl. rewrite Ekk. reflexivity.
    + intros (P1 & P2 & P3). destruct (Hmet P1 P2 P3) as [Hx _].
      exists (map clamp_metric (pe_metrics pe)). split.
      * unfold edge_metrics. rewrite Hx, (cs_metrics _ _ _ _ _ Hcore). apply idx_nth.
        rewrite nth_error_map, Ek. simpl. rewrite Ekk. reflexivity.
      * clear. induction (pe_metrics pe); simpl; constructor; auto. apply clamp_lifted.
    + destruct (net_sc g0 g e Hnet) as [-> _].
      destruct (core_sc es b c K g0 Hb Hcore e k Ek) as (pe' & Epe' & Hsc & _).
      assert (pe' = pe) by congruence. subst pe'. exact Hsc.
  - intros p pe Epe. destruct (rep_of_spec es ids levels p pe Epe) as (k & Ek & Hk).
    rewrite <- HK in Ek.
    split; [rewrite Hcnt; eapply nth_error_lt; eauto|].
    rewrite Ek. assert (HinK : In k K) by (eapply nth_error_In; eauto).
    destruct (core_in_edge es b c K g0 Hb Hcore k HinK) as (pe' & Epe' & Ekk & _ & _).
    exists pe'. split; auto. destruct Hk as [->|Hk]; [left; reflexivity|].
    right. rewrite Ekk in Hk.
    destruct (Hin pe) as [A1 A2]; [eapply nth_error_In; eauto|].
    destruct (Hin pe') as [B1 B2]; [eapply nth_error_In; eauto|].
    apply (dup_same_edge ids es (b_idx k) p pe' pe) in Hk; auto.
  - intros e pe pe' He Epe Epe' Hsame. rewrite Hcnt in He.
    destruct (nth_error K e) as [k|] eqn:Ek; [|apply nth_error_None in Ek; lia].
    destruct (nth_error K (S e)) as [k'|] eqn:Ek'; [|apply nth_error_None in Ek'; lia].
    assert (Hd : is_duplicate k k' = false).
    { rewrite HK in Ek, Ek'. unfold kept_edges in Ek, Ek'. eapply dedup_by_adjacent; eauto. }
    assert (HinK : In k K) by (eapply nth_error_In; eauto).
    assert (HinK' : In k' K) by (eapply nth_error_In; eauto).
    destruct (core_in_edge es b c K g0 Hb Hcore k HinK) as (x & Ex & Ekk & _ & _).
    destruct (core_in_edge es b c K g0 Hb Hcore k' HinK') as (y & Ey & Ekk' & _ & _).
    assert (x = pe) by congruence. assert (y = pe') by congruence. subst x y.
    destruct (Hin pe) as [A1 A2]; [eapply nth_error_In; eauto|].
    destruct (Hin pe') as [B1 B2]; [eapply nth_error_In; eauto|].
    rewrite Ekk, Ekk' in Hd.
    apply (dup_same_edge ids es (b_idx k) (b_idx k') pe pe' Hs A1 A2 B1 B2) in Hsame.
    unfold ids in Hsame. congruence.
Qed.

Lemma build_is_shortcut hav c ch1 ch2 es ns g e :
  1 <= ch1 -> 1 <= ch2 -> build hav c ch1 ch2 es ns = Ok g -> e < edge_count g FWD ->
  exists r, sc_edges g e = Ok r /\ is_shortcut g e = Ok (match r with Some _ => true | None => false end).
Proof.
  intros H1 H2 E He. destruct (build_spec _ _ _ _ _ _ _ H1 H2 E)
    as (b & g0 & K & Eb & Hb & Hcore & Hnet & _).
  rewrite (net_edge_count g0 g) in He by auto.
  rewrite (core_edge_count es b c K g0 Hcore) in He.
  destruct (nth_error K e) as [k|] eqn:Ek; [|apply nth_error_None in Ek; lia].
  destruct (net_sc g0 g e Hnet) as [-> ->].
  destruct (core_sc es b c K g0 Hb Hcore e k Ek) as (pe' & Epe' & Hsc & Hsc'). eauto.
Qed.

(** out-of-range edges: the accessors panic *)
Lemma build_starting hav c ch1 ch2 es ns g d v :
  1 <= ch1 -> 1 <= ch2 -> build hav c ch1 ch2 es ns = Ok g -> v < node_count g ->
  (exists e w, dst_idx g (opp d) e = Ok w /\ v <= w) /\
    (exists l, starting_from g d v = Ok l /\ NoDup l /\
       (forall e, In e l <-> dst_idx g (opp d) e = Ok v)) \/
  ~ (exists e w, dst_idx g (opp d) e = Ok w /\ v <= w) /\ starting_from g d v = Panic.
Proof.
  intros H1 H2 E Hv. destruct (build_spec _ _ _ _ _ _ _ H1 H2 E)
    as (b & g0 & K & Eb & Hb & Hcore & Hnet & _).
  assert (Hv0 : v < node_count g0) by (unfold node_count in *; now rewrite <- (sn_ids _ _ Hnet)).
  rewrite (net_starting g0 g) by auto.
  destruct (starting_spec es b c K g0 Hb Hcore d v Hv0) as [(A & l & B & C & D)|(A & B)].
  - left. split.
    + destruct A as (e & w & A1 & A2). exists e, w. rewrite (net_dst_idx g0 g) by auto. auto.
    + exists l. repeat split; auto.
      * intros Hi. rewrite (net_dst_idx g0 g) by auto. now apply D.
      * intros Hi. rewrite (net_dst_idx g0 g) in Hi by auto. now apply D.
  - right. split; auto. intros (e & w & A1 & A2). apply A. exists e, w.
    rewrite (net_dst_idx g0 g) in A1 by auto. auto.
Qed.

Lemma build_starting_levels hav c ch1 ch2 es ns g d v l :
  1 <= ch1 -> 1 <= ch2 -> build hav c ch1 ch2 es ns = Ok g -> starting_from g d v = Ok l ->
  StronglySorted (fun e f => forall x y lx ly,
       dst_idx g d e = Ok x -> dst_idx g d f = Ok y ->
       node_level g x = Ok lx -> node_level g y = Ok ly -> ly <= lx) l.
Proof.
  intros H1 H2 E El. destruct (build_spec _ _ _ _ _ _ _ H1 H2 E)
    as (b & g0 & K & Eb & Hb & Hcore & Hnet & _).
  rewrite (net_starting g0 g) in El by auto.
  pose proof (starting_levels es b c K g0 Hcore d v l El) as H.
  eapply StronglySorted_impl; [|exact H]. cbn beta. intros e f _ _ Hef x y lx ly.
  rewrite !(net_dst_idx g0 g), !(net_level g0 g) by auto. apply Hef.
Qed.

Lemma build_ids hav c ch1 ch2 es ns g :
  1 <= ch1 -> 1 <= ch2 -> build hav c ch1 ch2 es ns = Ok g -> ids_inverse g.
Proof.
  intros H1 H2 E. destruct (build_spec _ _ _ _ _ _ _ H1 H2 E)
    as (b & g0 & K & Eb & Hb & Hcore & Hnet & Hids & _).
  destruct Hids as [[A B]|[A B]].
  - pose proof (core_ids_inverse es b c K g0 Hcore) as H. unfold ids_inverse, edge_try_idx_from, edge_try_id in *.
    rewrite A, B. exact H.
  - eapply identity_ids_inverse; eauto.
Qed.

Lemma find_dst_spec g d dst es : forall r,
  find_dst g d dst es = Ok r ->
  match r with
  | Some e => In e es /\ dst_idx g d e = Ok dst
  | None => forall e, In e es -> dst_idx g d e <> Ok dst
  end.
Proof.
  induction es as [|e es IH]; intros r E; simpl in E.
  - injection E as <-. intros e [].
  - apply bind_ok in E. destruct E as (x & Ex & E). destruct (Nat.eqb_spec x dst) as [->|Hne].
    + injection E as <-. split; [now left|auto].
    + apply IH in E. destruct r as [r|].
      * destruct E. split; auto. now right.
      * intros e' [<-|He']; auto. congruence.
Qed.

Lemma find_dst_total g d dst es : (forall e, In e es -> exists x, dst_idx g d e = Ok x) ->
  exists r, find_dst g d dst es = Ok r.
Proof.
  induction es as [|e es IH]; intros H; simpl; eauto.
  destruct (H e) as [x ->]; [now left|]. cbn [bind]. destruct (x =? dst); eauto.
  apply IH. intros; apply H; now right.
Qed.

(** both endpoints exist or none does *)
Lemma build_dst_total hav c ch1 ch2 es ns g d e x :
  1 <= ch1 -> 1 <= ch2 -> build hav c ch1 ch2 es ns = Ok g -> dst_idx g (opp d) e = Ok x ->
  exists y, dst_idx g d e = Ok y.
Proof.
  intros H1 H2 E Hx. destruct (build_spec _ _ _ _ _ _ _ H1 H2 E)
    as (b & g0 & K & Eb & Hb & Hcore & Hnet & _).
  rewrite (net_dst_idx g0 g) in * by auto.
  apply (core_dst es b c K g0 Hcore) in Hx. destruct Hx as (k & Ek & _).
  eexists. apply (core_dst es b c K g0 Hcore). eauto.
Qed.

Lemma build_nodes hav c ch1 ch2 es ns g :
  1 <= ch1 -> 1 <= ch2 -> build hav c ch1 ch2 es ns = Ok g ->
  StronglySorted Z.lt (node_ids g) /\ (forall x, In x (node_ids g) <-> is_endpoint es x) /\
  length (node_coords g) = length (node_ids g) /\ length (node_levels g) = length (node_ids g) /\
  forall i id, nth_error (node_ids g) i = Some id ->
    (exists n, last_insertion ns n /\ pn_id n = id /\ node_coord g i = Ok (pn_coord n)) /\
    (exists l, node_level g i = Ok l /\ last_given_level ns id l).
Proof.
  intros H1 H2 E. destruct (build_spec _ _ _ _ _ _ _ H1 H2 E)
    as (b & g0 & K & Eb & Hb & Hcore & Hnet & _).
  assert (Hids : node_ids g = nb_node_ids b) by now rewrite (sn_ids _ _ Hnet), (cs_ids _ _ _ _ _ Hcore).
  assert (Hlev : node_levels g = nb_levels b) by now rewrite (sn_levels _ _ Hnet), (cs_levels _ _ _ _ _ Hcore).
  assert (Hco : nb_coords b = map Some (node_coords g)).
  { rewrite (sn_coords _ _ Hnet). apply (cs_coords _ _ _ _ _ Hcore). }
  destruct (insert_nodes_spec es _ ns b (nb_inv_init es) Eb) as (_ & Hnid & Hnodes).
  rewrite Hids. split; [apply (nbi_sorted _ _ Hb)|]. split; [apply (nbi_ids _ _ Hb)|].
  split; [|split].
  - rewrite <- (nbi_coords _ _ Hb), Hco. now rewrite map_length.
  - rewrite <- (nbi_levels _ _ Hb). now rewrite Hlev.
  - intros i id Hi. rewrite Hnid in Hi. destruct (Hnodes i id Hi) as (c0 & l0 & Hc0 & Hl0 & Hc & Hl).
    assert (c0 = None /\ l0 = 0) as [-> ->].
    { simpl in Hc0, Hl0. simpl in Hi. apply nth_error_lt in Hi.
      rewrite nth_error_repeat in Hc0, Hl0 by auto. split; congruence. }
    split.
    + rewrite Hco, nth_error_map in Hc. unfold node_coord, idx.
      destruct (nth_error (node_coords g) i) as [co|] eqn:Eco; [|discriminate]. simpl in Hc. injection Hc as Hc.
      symmetry in Hc. apply last_coord_spec in Hc. destruct Hc as [(n & A & B & C)|[A _]]; [|discriminate].
      exists n. rewrite C. auto.
    + exists (last_level id ns 0). split.
      * unfold node_level. rewrite Hlev. now apply idx_nth.
      * destruct (last_level_spec id ns 0) as [H|[H H']]; [now left|right; auto].
Qed.

(** a node without coordinates makes building fail *)
Lemma build_missing_coord hav c ch1 ch2 es ns id :
  is_endpoint es id -> (forall n, In n ns -> pn_id n <> id) ->
  exists m, build hav c ch1 ch2 es ns = Err m.
Proof.
  intros Hep Hno. destruct (insert_nodes_total es _ ns (nb_inv_init es)) as (b & Eb & Hb).
  destruct (insert_nodes_spec es _ ns b (nb_inv_init es) Eb) as (_ & Hnid & Hnodes).
  apply (nbi_ids _ _ (nb_inv_init es)) in Hep. apply In_nth_error in Hep. destruct Hep as [i Hi].
  destruct (Hnodes i id Hi) as (c0 & l0 & Hc0 & Hl0 & Hc & Hl).
  assert (c0 = None) as ->.
  { simpl in Hc0. simpl in Hi. apply nth_error_lt in Hi.
    rewrite nth_error_repeat in Hc0 by auto. congruence. }
  rewrite last_coord_absent in Hc by auto. apply nth_error_In in Hc.
  unfold build, finalize. rewrite Eb. cbn [bind]. unfold build_core.
  destruct (all_coords_cases (nb_coords b)) as [(l & _ & El)|[(m & ->) _]]; [|cbn [bind]; eauto].
  rewrite El in Hc. apply in_map_iff in Hc. destruct Hc as (x & Hx & _). discriminate.
Qed.

(** duplicate edge ids at different endpoints are an error *)
Lemma build_dup_ids hav c ch1 ch2 es ns p q pe qe i :
  1 <= ch1 -> 1 <= ch2 -> shortcuts_in_range es ->
  nth_error es p = Some pe -> nth_error es q = Some qe ->
  pe_id pe = Some i -> pe_id qe = Some i ->
  (pe_src pe <> pe_src qe \/ pe_dst pe <> pe_dst qe) ->
  exists m, build hav c ch1 ch2 es ns = Err m.
Proof.
  intros H1 H2 Hv Hp Hq Ip Iq Hne.
  destruct (insert_nodes_total es _ ns (nb_inv_init es)) as (b & Eb & Hb).
  unfold build, finalize. rewrite Eb. cbn [bind].
  destruct (build_core_total es b c ch1 ch2 H1 H2 Hb Hv) as [(g & Eg)|(m & ->)]; [|cbn [bind]; eauto].
  exfalso. pose proof (build_core_spec es b c ch1 ch2 g H1 H2 Hb Eg) as Hcore.
  set (ids := nb_node_ids b) in *. set (levels := nb_levels b) in *.
  destruct (rep_of_spec es ids levels p pe Hp) as (k & Ek & Hk).
  destruct (rep_of_spec es ids levels q qe Hq) as (k' & Ek' & Hk').
  assert (Hs : StronglySorted Z.lt ids) by apply (nbi_sorted _ _ Hb).
  assert (Hin : forall pe, In pe es -> In (pe_src pe) ids /\ In (pe_dst pe) ids).
  { intros e He. unfold ids. rewrite !(nbi_ids _ _ Hb). split; exists e; auto. }
  assert (HK : forall r x xe, nth_error es r = Some xe ->
     x = toB ids (mkAof es r xe) \/ is_duplicate x (toB ids (mkAof es r xe)) = true ->
     b_src x = posn ids (pe_src xe) /\ b_dst x = posn ids (pe_dst xe) /\ b_id x = pe_id xe).
  { intros r x xe _ [->|Hd]; [simpl; auto|]. unfold is_duplicate in Hd. simpl in Hd.
    rewrite !andb_true_iff, !Nat.eqb_eq in Hd. destruct Hd as [[A [B C]] _]. repeat split; auto.
    destruct (b_id x), (pe_id xe); simpl in A; try discriminate; auto. apply Nat.eqb_eq in A. congruence. }
  destruct (HK p k pe Hp Hk) as (A1 & A2 & A3). destruct (HK q k' qe Hq Hk') as (B1 & B2 & B3).
  destruct (core_ids_inverse es b c _ g Hcore) as [Hinv _].
  assert (C1 : edge_try_id g (rep_of es ids levels p) = Ok (Some i)).
  { unfold edge_try_id. rewrite (cs_eids _ _ _ _ _ Hcore). apply idx_nth.
    rewrite nth_error_map. fold ids levels. rewrite Ek. simpl. congruence. }
  assert (C2 : edge_try_id g (rep_of es ids levels q) = Ok (Some i)).
  { unfold edge_try_id. rewrite (cs_eids _ _ _ _ _ Hcore). apply idx_nth.
    rewrite nth_error_map. fold ids levels. rewrite Ek'. simpl. congruence. }
  apply Hinv in C1. apply Hinv in C2. rewrite C1 in C2. injection C2 as C2.
  rewrite C2, Ek' in Ek. injection Ek as <-.
  destruct (Hin pe) as [D1 D2]; [eapply nth_error_In; eauto|].
  destruct (Hin qe) as [D3 D4]; [eapply nth_error_In; eauto|].
  rewrite A1 in B1. rewrite A2 in B2. apply posn_inj in B1; auto. apply posn_inj in B2; auto.
  destruct Hne; auto.
Qed.
