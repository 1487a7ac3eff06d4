(** C46: which configurations are accepted, and that they have room for their
    metrics.  C47: what the lines of fmi-files mean. *)
From Coq Require Import String Ascii List Bool Arith NArith ZArith QArith Lia.
From Verif Require Import Base F64 ModelText ModelStreets ModelUnits ModelConfig ModelGraph ModelBuild ModelParsing ModelFmi Lib Spec
                          SpecGenerate SpecLines ProofText ProofLines ProofFmi Examples PropsGenerate.
Import ListNotations.
Open Scope string_scope.
Open Scope list_scope.
Open Scope nat_scope.

(** *** C46 *)
Lemma counted_filter {A} (f : A -> bool) (P : A -> Prop) : (forall x, f x = true <-> P x) ->
  forall l n, counted P l n <-> length (filter f l) = n.
Proof.
  intros H. induction l as [|x l IH]; intros n; cbn [filter].
  - split; [intros E; inversion E; reflexivity|]. intros <-. constructor.
  - split.
    + intros E. inversion E as [|? ? m Hp E'|? ? m Hp E']; subst; apply IH in E'.
      * apply H in Hp. rewrite Hp. simpl. lia.
      * destruct (f x) eqn:Ef; [apply H in Ef; contradiction|exact E'].
    + destruct (f x) eqn:Ef; cbn [length]; intros E.
      * destruct n as [|n]; [discriminate|]. constructor; [now apply H|]. apply IH. lia.
      * apply counted_no; [|now apply IH]. intros Hp. apply H in Hp. congruence.
Qed.
Lemma counted_adds gcs n : counted adds_one gcs n <-> list_sum (map added_metrics gcs) = n.
Proof.
  revert n. induction gcs as [|c gcs IH]; intros n; cbn [map list_sum fold_right].
  - split; [intros E; inversion E; reflexivity|]. intros <-. constructor.
  - split.
    + intros E. inversion E as [|? ? m Hp E'|? ? m Hp E']; subst; apply IH in E'; unfold list_sum in E';
        destruct c; cbn [adds_one added_metrics] in *; try tauto; lia.
    + intros E. destruct c; cbn [added_metrics] in E; try (destruct n as [|n]; [discriminate|]; apply counted_yes; [exact I|]; apply IH; unfold list_sum; lia);
        (apply counted_no; [cbn; tauto|]; apply IH; unfold list_sum; lia).
Qed.
Lemma is_shortcut_column c : is_shortcut_idx c = true <-> shortcut_column c.
Proof.
  unfold shortcut_column. split.
  - destruct c as [[] id| |]; try discriminate; eauto.
  - intros (id & [->| ->]); reflexivity.
Qed.
Lemma existsb_in {A} (f : A -> bool) (P : A -> Prop) l : (forall x, f x = true <-> P x) -> existsb f l = true <-> exists x, In x l /\ P x.
Proof. intros H. rewrite existsb_exists. split; intros (x & A1 & A2); exists x; (split; [auto|now apply H]). Qed.

(** the check accepts exactly the acceptable configurations, and refuses the
    others by an error *)
Theorem C46_accepted dim pc :
  (check_config dim pc = Ok tt <-> acceptable dim pc) /\
  (~ acceptable dim pc -> exists m, check_config dim pc = Err m).
Proof.
  assert (G : check_config dim pc = Ok tt <-> acceptable dim pc).
  { unfold check_config.
    assert (N : existsb is_node_id (pc_nodes pc) = true <-> exists id, In (NCMeta NNodeId id) (pc_nodes pc)).
    { rewrite existsb_exists. split; [intros ([[] id| |] & A1 & A2); try discriminate; eauto|intros (id & A1); eauto]. }
    assert (La : existsb is_latitude (pc_nodes pc) = true <-> exists id, In (NCMetric Latitude id) (pc_nodes pc)).
    { rewrite existsb_exists. split; [intros ([|[] id|] & A1 & A2); try discriminate; eauto|intros (id & A1); eauto]. }
    assert (Lo : existsb is_longitude (pc_nodes pc) = true <-> exists id, In (NCMetric Longitude id) (pc_nodes pc)).
    { rewrite existsb_exists. split; [intros ([|[] id|] & A1 & A2); try discriminate; eauto|intros (id & A1); eauto]. }
    split.
    - intros E. destruct (existsb is_node_id (pc_nodes pc)); [|discriminate]. destruct (existsb is_latitude (pc_nodes pc)); [|discriminate].
      destruct (existsb is_longitude (pc_nodes pc)); [|discriminate]. cbn [negb] in E.
      destruct (Nat.ltb_spec dim (length (ec_units (cfg_edges (pc_cfg pc))) + list_sum (map added_metrics (cfg_gen_edges (pc_cfg pc))))) as [|L]; [discriminate|].
      constructor; [now apply N|now apply La|now apply Lo| |].
      + exists (list_sum (map added_metrics (cfg_gen_edges (pc_cfg pc)))). split; [now apply counted_adds|exact L].
      + rewrite !(counted_filter _ _ is_shortcut_column). destruct (length (filter is_shortcut_idx (ec_categories (cfg_edges (pc_cfg pc))))) as [|[|[|k]]]; auto; discriminate.
    - intros [H1 H2 H3 (n & H4 & L) H5]. apply N in H1. apply La in H2. apply Lo in H3. rewrite H1, H2, H3. cbn [negb].
      apply counted_adds in H4. rewrite H4. destruct (Nat.ltb_spec dim (length (ec_units (cfg_edges (pc_cfg pc))) + n)); [lia|].
      rewrite !(counted_filter _ _ is_shortcut_column) in H5. destruct H5 as [-> | ->]; reflexivity. }
  split; [exact G|]. intros H. assert (H' : check_config dim pc <> Ok tt) by (intros E; now apply H, G). clear H G. revert H'. unfold check_config.
  repeat match goal with |- context [if ?b then _ else _] => destruct b end; eauto. congruence.
Qed.
Print Assumptions C46_accepted.

(** pbf-files provide less *)
Theorem C46_pbf dim pc : pbf_preprocess dim pc = Ok tt <-> acceptable dim pc /\ Forall way_provides (ec_categories (cfg_edges (pc_cfg pc))).
Proof.
  unfold pbf_preprocess. rewrite <- (proj1 (C46_accepted dim pc)).
  assert (S : forall c, pbf_supports c = true <-> way_provides c) by (intros [[] id|[] id|]; cbn; split; try discriminate; tauto).
  destruct (check_config dim pc) as [[]| | |]; cbn [bind]; try (split; [discriminate|intros [E _]; discriminate]).
  destruct (forallb pbf_supports (ec_categories (cfg_edges (pc_cfg pc)))) eqn:E.
  - split; auto. intros _. split; auto. apply Forall_forall. intros c Hc. apply S. rewrite forallb_forall in E. auto.
  - split; [discriminate|]. intros [_ F]. exfalso. rewrite (proj2 (forallb_forall pbf_supports _)) in E; [discriminate|].
    intros c Hc. apply S. rewrite Forall_forall in F. auto.
Qed.
Print Assumptions C46_pbf.

(** *** Edge lines *)
Lemma digit_small c d : digit c = Some d -> nat_of_ascii c <= 57 /\ 48 <= nat_of_ascii c.
Proof.
  unfold digit. destruct ((48 <=? nat_of_ascii c) && (nat_of_ascii c <=? 57)) eqn:E; [|discriminate]. apply andb_true_iff in E. destruct E as [A B].
  apply Nat.leb_le in A, B. lia.
Qed.
Lemma parse_small c t n : parse_usize (c :: t) = Some n -> nat_of_ascii c <= 57.
Proof.
  unfold parse_usize, parse_unsigned, split_sign. destruct (Ascii.eqb_spec c "+"%char) as [->|_].
  { intros _. apply Nat.leb_le. vm_compute. reflexivity. }
  assert (G : digits_value U64_MAX 0 (c :: t) = Some n -> nat_of_ascii c <= 57).
  { cbn [digits_value]. destruct (digit c) as [d|] eqn:Ed; [|discriminate]. intros _. apply digit_small in Ed. lia. }
  destruct (Ascii.eqb c "-"%char); [|exact G]. destruct t; [discriminate|exact G].
Qed.
Lemma parse_ch d : parse_usize (T "ch" ++ d) = None.
Proof. reflexivity. Qed.
Lemma edge_id_means w n : edge_id_of w = Some n <-> means_edge_id w n.
Proof.
  unfold edge_id_of, parse_edge_id, means_edge_id. split.
  - destruct (parse_usize w) as [k|] eqn:E; [intros H; injection H as <-; eauto|].
    destruct w as [|a [|b t]]; cbn [first_two bind]; try discriminate. cbn [skipn].
    assert (G : (if text_eqb [a; b] (T "ch") then match parse_usize t with Some n0 => Ok (N.to_nat n0) | None => Err "parsing the edge-id didn't work" end
                 else Err "parsing the edge-id didn't work") = Ok n -> exists k, N.to_nat k = n /\ (None = Some k \/ exists d, a :: b :: t = T "ch" ++ d /\ parse_usize d = Some k)).
    { destruct (text_eqb [a; b] (T "ch")) eqn:Et; [|discriminate]. apply text_eqb_eq in Et. destruct (parse_usize t) as [k|] eqn:Ek; [|discriminate].
      intros H. injection H as <-. exists k. split; auto. right. exists t. split; auto. change (a :: b :: t) with ([a; b] ++ t). now rewrite Et. }
    destruct t as [|c t].
    + cbn [bind]. intros H. apply G. destruct (text_eqb [a; b] (T "ch")); [|discriminate]. cbn in H |- *. discriminate.
    + destruct ((128 <=? nat_of_ascii c) && (nat_of_ascii c <=? 191)); cbn [bind]; [discriminate|]. intros H. apply G.
      destruct (text_eqb [a; b] (T "ch")); [|discriminate]. destruct (parse_usize (c :: t)); [|discriminate]. congruence.
  - intros (k & <- & [->|(d & -> & E)]); [reflexivity|]. rewrite parse_ch. change (T "ch" ++ d) with ("c"%char :: "h"%char :: d). cbn [first_two skipn].
    destruct d as [|c d]; [discriminate|]. pose proof (parse_small _ _ _ E) as L. destruct (Nat.leb_spec 128 (nat_of_ascii c)) as [L'|_]; [exfalso; clear -L L'; apply (Nat.nle_gt (nat_of_ascii c) 57) in L; auto; lia|].
    cbn [andb bind]. replace (text_eqb ["c"%char; "h"%char] (T "ch")) with true by reflexivity. now rewrite E.
Qed.
Lemma unset_spec w : unset w = true <-> w <> T "-1".
Proof.
  unfold unset, NO_SHORTCUT_IDX. destruct (text_eqb w (T "-1")) eqn:E; cbn [negb].
  - apply text_eqb_eq in E. split; [discriminate|congruence].
  - split; auto. intros _ ->. rewrite (proj2 (text_eqb_eq _ _) eq_refl) in E. discriminate.
Qed.
Lemma filter_unset_nil l : filter unset l = [] <-> Forall (fun w => w = T "-1") l.
Proof.
  induction l as [|w l IH]; cbn [filter]; [split; auto|]. destruct (unset w) eqn:E.
  - split; [discriminate|]. intros F. inversion F; subst. apply unset_spec in E. congruence.
  - rewrite IH. split; [|intros F; inversion F; auto]. intros F. constructor; auto. destruct (list_eq_dec ascii_dec w (T "-1")) as [|N]; auto.
    apply unset_spec in N. congruence.
Qed.
Lemma filter_unset_one l : forall w, filter unset l = [w] <-> exists a b, l = a ++ w :: b /\ w <> T "-1" /\ Forall (fun w => w = T "-1") a /\ Forall (fun w => w = T "-1") b.
Proof.
  intros w. induction l as [|x l IH]; cbn [filter].
  - split; [discriminate|]. intros (a & b & E & _). destruct a; discriminate.
  - destruct (unset x) eqn:E.
    + pose proof (proj1 (unset_spec _) E) as Hx. split.
      * intros H. injection H as -> H. apply filter_unset_nil in H. exists [], l. auto.
      * intros ([|y a] & b & H & Hw & Fa & Fb); injection H as -> ->; [apply filter_unset_nil in Fb; now rewrite Fb|]. inversion Fa; subst. congruence.
    + assert (Hx : x = T "-1") by (destruct (list_eq_dec ascii_dec x (T "-1")) as [|N]; auto; apply unset_spec in N; congruence).
      rewrite IH. split.
      * intros (a & b & -> & Hw & Fa & Fb). exists (x :: a), b. split; [reflexivity|]. split; auto.
      * intros ([|y a] & b & H & Hw & Fa & Fb); injection H as -> ->; [congruence|]. inversion Fa; subst. exists a, b. auto.
Qed.
Lemma shortcut_means l o : ones number None (filter unset l) o <-> means_shortcut l o.
Proof.
  unfold ones, means_shortcut. destruct o as [n|].
  - split.
    + intros [[_ E]|(w & z & E & _ & Ez & H)]; [discriminate|]. injection H as <-. apply filter_unset_one in E. destruct E as (a & b & E & Hw & Fa & Fb).
      unfold number in Ez. destruct (parse_usize w) as [k|] eqn:Ek; [|discriminate]. injection Ez as Ez. exists a, w, b, k. auto 8.
    + intros (a & w & b & k & E & Hw & Ek & En & Fa & Fb). right. exists w, n. split; [apply filter_unset_one; eauto 8|]. split; auto. unfold number. rewrite Ek. cbn. split; congruence.
  - split.
    + intros [[E _]|(w & z & _ & _ & _ & H)]; [now apply filter_unset_nil|discriminate].
    + intros F. left. split; auto. now apply filter_unset_nil.
Qed.
Lemma lasts_none {A} (f : text -> option A) l o : lasts f None l o <->
  Forall (fun w => exists y, f w = Some y) l /\ match o with None => l = [] | Some x => exists w, last_word l w /\ f w = Some x end.
Proof.
  unfold lasts. destruct o as [x|].
  - split; intros [F H]; (split; [auto|]).
    + destruct H as [[_ E]|(w & z & L & Ez & E)]; [discriminate|]. injection E as ->. eauto.
    + destruct H as (w & L & E). right. eauto.
  - split; intros [F H]; (split; [auto|]).
    + destruct H as [[E _]|(w & z & _ & _ & E)]; [auto|discriminate].
    + auto.
Qed.
Lemma ones_some {A} (f : text -> option A) l z : ones f None l (Some z) <-> exists w, l = [w] /\ f w = Some z.
Proof.
  unfold ones. split.
  - intros [[_ E]|(w & y & -> & _ & F & E)]; [discriminate|]. injection E as <-. eauto.
  - intros (w & -> & F). right. eauto 6.
Qed.
Lemma is_meta_named i c : In i [SrcId; DstId; EdgeId; ShortcutIdx0; ShortcutIdx1] -> is_meta i c = true <-> named_meta i c.
Proof.
  unfold named_meta. intros H. split.
  - intros E. destruct H as [<-|[<-|[<-|[<-|[<-|[]]]]]]; destruct c as [[] id| |]; try discriminate; eauto.
  - intros (id & ->). destruct H as [<-|[<-|[<-|[<-|[<-|[]]]]]]; reflexivity.
Qed.
Lemma is_metric_column c : is_metric c = true <-> metric_column c.
Proof. unfold metric_column. destruct c; cbn; split; try discriminate; eauto; intros (u0 & i0 & E); discriminate. Qed.

(** a line becomes an edge iff it describes one *)
Theorem C47_edge_line parse_f64 cs l e : edge_from_str parse_f64 cs l = Ok e <-> edge_line parse_f64 cs (words l) e.
Proof.
  assert (M : forall i, In i [SrcId; DstId; EdgeId; ShortcutIdx0; ShortcutIdx1] -> forall k,
    column_words (named_meta i) cs (words l) k <-> length cs <= length (words l) /\ k = pickw (is_meta i) cs (words l)).
  { intros i Hi k. apply column_pick. intros c. now apply is_meta_named. }
  assert (X : forall k, column_words metric_column cs (words l) k <-> length cs <= length (words l) /\ k = pickw is_metric cs (words l)).
  { intros k. apply column_pick. exact is_metric_column. }
  unfold edge_from_str. split.
  - intros E. apply bind_ok in E. destruct E as (a & Ea & E). apply edge_params_fields in Ea. destruct Ea as (F1 & F2 & F3 & F4 & F5 & F6 & F7 & xs & F8 & F9).
    cbn [ea_src ea_dst ea_id ea_sc0 ea_sc1 ea_metrics app] in *. destruct (ea_src a) as [s|]; [|discriminate]. destruct (ea_dst a) as [d|]; [|discriminate].
    injection E as <-. apply ones_some in F3, F4. destruct F3 as (w3 & L3 & F3). destruct F4 as (w4 & L4 & F4). constructor; cbn [pe_src pe_dst pe_id pe_metrics pe_sc].
    + exact F1.
    + exists w3. split; auto. apply M; [simpl; auto|]. auto.
    + exists w4. split; auto. apply M; [simpl; auto|]. auto.
    + exists (pickw is_metric cs (words l)). split; [now apply X|]. now rewrite F9.
    + apply lasts_none in F5. destruct F5 as [G1 G2]. exists (pickw (is_meta EdgeId) cs (words l)). split; [apply M; [simpl; auto|auto]|]. split.
      * eapply Forall_impl; [|exact G1]. intros w (y & Hy). exists y. now apply edge_id_means.
      * destruct (ea_id a); auto. destruct G2 as (w & L & Hw). exists w. split; auto. now apply edge_id_means.
    + apply shortcut_means in F6, F7. exists (pickw (is_meta ShortcutIdx0) cs (words l)), (pickw (is_meta ShortcutIdx1) cs (words l)), (ea_sc0 a), (ea_sc1 a).
      split; [apply M; [simpl; auto|auto]|]. split; [apply M; [simpl; auto 6|auto]|]. auto.
  - intros [H1 (w3 & C3 & H3) (w4 & C4 & H4) (xl & CX & HX) (il & CI & HI & HJ) (l0 & l1 & o0 & o1 & C0 & C1 & H5 & H6 & H7)].
    apply M in C3, C4, CI, C0, C1; try (simpl; auto 6). apply X in CX. destruct C3 as [Hlen C3]. destruct C4 as [_ C4]. destruct CI as [_ ->]. destruct C0 as [_ ->]. destruct C1 as [_ ->]. destruct CX as [_ ->].
    assert (G : edge_params parse_f64 (mkEdgeAcc [] None None None None None) cs (words l) =
                Ok (mkEdgeAcc (pe_metrics e) (pe_id e) (Some (pe_src e)) (Some (pe_dst e)) o0 o1)).
    { apply edge_params_fields. unfold fields. cbn [ea_src ea_dst ea_id ea_sc0 ea_sc1 ea_metrics app]. split; auto. split; auto.
      split; [apply ones_some; eauto|]. split; [apply ones_some; eauto|]. split; [|split; [now apply shortcut_means|split; [now apply shortcut_means|eauto]]].
      apply lasts_none. split; [eapply Forall_impl; [|exact HI]; intros w (y & Hy); exists y; now apply edge_id_means|].
      destruct (pe_id e); auto. destruct HJ as (w & L & Hw). exists w. split; auto. now apply edge_id_means. }
    rewrite G. cbn [bind ea_src ea_dst ea_id ea_sc0 ea_sc1 ea_metrics]. rewrite <- H7. destruct e; reflexivity.
Qed.
Print Assumptions C47_edge_line.

Lemma is_node_column c0 c : In c0 [NCMeta NNodeId ""; NCMetric Latitude ""; NCMetric Longitude ""; NCMeta NCHLevel ""] -> is_node c0 c = true <-> node_column c0 c.
Proof.
  intros H. destruct H as [<-|[<-|[<-|[<-|[]]]]]; destruct c as [[] id|[] id|]; cbn; split; try discriminate; auto; try tauto.
Qed.
Theorem C47_node_line parse_f64 cs l n : node_from_str parse_f64 cs l = Ok n <-> node_line parse_f64 cs (words l) n.
Proof.
  assert (M : forall c0, In c0 [NCMeta NNodeId ""; NCMetric Latitude ""; NCMetric Longitude ""; NCMeta NCHLevel ""] -> forall k,
    column_words (node_column c0) cs (words l) k <-> length cs <= length (words l) /\ k = pickw (is_node c0) cs (words l)).
  { intros i Hi k. apply column_pick. intros c. now apply is_node_column. }
  unfold node_from_str. split.
  - intros E. apply bind_ok in E. destruct E as (a & Ea & E). apply node_params_fields in Ea. destruct Ea as (F1 & F2 & F3 & F4 & F5 & F6).
    cbn [na_id na_lat na_lon na_level] in *. apply lasts_none in F3, F4, F5, F6.
    destruct (na_id a) as [i|]; [|discriminate]. destruct (na_lat a) as [la|]; [|discriminate]. destruct (na_lon a) as [lo|]; [|discriminate].
    injection E as <-. constructor; cbn [pn_id pn_coord pn_level lat lon].
    + exact F1.
    + eexists. split; [apply M; [simpl; auto|eauto]|exact F3].
    + eexists. split; [apply M; [simpl; auto|eauto]|exact F4].
    + eexists. split; [apply M; [simpl; auto|eauto]|exact F5].
    + eexists. split; [apply M; [simpl; auto 6|eauto]|]. destruct (na_level a); [exact F6|tauto].
  - intros [H1 (l1 & C1 & H2) (l2 & C2 & H3) (l3 & C3 & H4) (l4 & C4 & H5)].
    apply M in C1, C2, C3, C4; try (simpl; auto 6). destruct C1 as [Hlen ->]. destruct C2 as [_ ->]. destruct C3 as [_ ->]. destruct C4 as [_ ->].
    assert (G : node_params parse_f64 (words l) (mkNodeAcc None None None None) cs (words l) =
                Ok (mkNodeAcc (Some (pn_id n)) (Some (lat (pn_coord n))) (Some (lon (pn_coord n))) (pn_level n))).
    { apply node_params_fields. unfold nfields. cbn [na_id na_lat na_lon na_level]. rewrite !lasts_none. do 5 (split; [auto; try exact H2; try exact H3; try exact H4|]).
      destruct (pn_level n); [exact H5|]. rewrite H5. auto. }
    rewrite G. cbn [bind na_id na_lat na_lon na_level]. destruct n as [i [la lo] lev]. reflexivity.
Qed.
Print Assumptions C47_node_line.

(** an edge's line panics only in its id's column: the word is no number and
    its first two bytes cannot be taken *)
Definition cut (w : text) : Prop :=
  parse_usize w = None /\ (length w < 2 \/ exists a b c t, w = a :: b :: c :: t /\ 128 <= nat_of_ascii c <= 191).
Theorem C47_edge_panics parse_f64 cs l :
  edge_from_str parse_f64 cs l <> Diverge /\
  (edge_from_str parse_f64 cs l = Panic -> exists k id w, nth_error cs k = Some (CMeta EdgeId id) /\ nth_error (words l) k = Some w /\ cut w).
Proof.
  assert (F : forall w, first_two w <> Diverge /\ (first_two w = Panic -> length w < 2 \/ exists a b c t, w = a :: b :: c :: t /\ 128 <= nat_of_ascii c <= 191)
                        /\ forall m, first_two w <> Err m).
  { intros [|a [|b [|c t]]]; cbn [first_two]; try (split; [discriminate|split; [intros HH; try discriminate HH; simpl; auto; fail|discriminate]]).
    destruct ((128 <=? nat_of_ascii c) && (nat_of_ascii c <=? 191)) eqn:E; (split; [discriminate|split; [|discriminate]]); [|discriminate].
    intros _. right. exists a, b, c, t. split; auto. apply andb_true_iff in E. destruct E as [A B]. apply Nat.leb_le in A. apply Nat.leb_le in B. auto. }
  assert (G : forall cs ws a, edge_params parse_f64 a cs ws <> Diverge /\
    (edge_params parse_f64 a cs ws = Panic -> exists k id w, nth_error cs k = Some (CMeta EdgeId id) /\ nth_error ws k = Some w /\ cut w)).
  { clear cs l. induction cs as [|c cs IH]; intros ws a; cbn [edge_params]; [split; discriminate|]. destruct ws as [|w ws]; [split; discriminate|].
    assert (H : edge_param parse_f64 a c w <> Diverge /\ (edge_param parse_f64 a c w = Panic -> exists id, c = CMeta EdgeId id /\ cut w)).
    { destruct c as [[] id| |]; cbn [edge_param bind]; try (split; discriminate).
      - unfold parse_edge_id. destruct (parse_usize w) as [n|] eqn:Ew; cbn [bind]; [split; discriminate|].
        destruct (F w) as (F1 & F2 & F3). destruct (first_two w) as [two|m| |]; cbn [bind]; try congruence.
        + destruct (text_eqb two (T "ch")); [destruct (parse_usize (skipn 2 w))|]; cbn [bind]; split; discriminate.
        + split; [discriminate|]. intros _. exists id. split; auto. split; auto.
      - unfold parse_node_id. destruct (ea_src a); [|destruct (parse_i64 w)]; cbn [bind]; split; discriminate.
      - unfold parse_node_id. destruct (ea_dst a); [|destruct (parse_i64 w)]; cbn [bind]; split; discriminate.
      - unfold parse_sc_idx. destruct (text_eqb w NO_SHORTCUT_IDX); cbn [bind]; [split; discriminate|].
        destruct (parse_usize w); [destruct (ea_sc0 a)|]; cbn [bind]; split; discriminate.
      - unfold parse_sc_idx. destruct (text_eqb w NO_SHORTCUT_IDX); cbn [bind]; [split; discriminate|].
        destruct (parse_usize w); [destruct (ea_sc1 a)|]; cbn [bind]; split; discriminate.
      - destruct (parse_f64 w); split; discriminate. }
    destruct H as [H1 H2]. destruct (edge_param parse_f64 a c w) as [a'|m| |] eqn:E; cbn [bind]; try congruence.
    - destruct (IH ws a') as [I1 I2]. split; auto. intros Hp. destruct (I2 Hp) as (k & id & w' & K1 & K2 & K3). exists (S k), id, w'. auto.
    - split; discriminate.
    - split; [discriminate|]. intros _. destruct (H2 eq_refl) as (id & -> & Hc). exists 0, id, w. auto. }
  unfold edge_from_str. destruct (G cs (words l) (mkEdgeAcc [] None None None None None)) as [G1 G2].
  destruct (edge_params parse_f64 (mkEdgeAcc [] None None None None None) cs (words l)) as [a|m| |]; cbn [bind]; try congruence.
  - destruct (ea_src a); [destruct (ea_dst a)|]; split; discriminate.
  - split; discriminate.
  - split; [discriminate|auto].
Qed.
Print Assumptions C47_edge_panics.

(** a node's line panics only for wrong coordinates in lines too short for the
    error's message *)
Theorem C47_node_panics parse_f64 cs l :
  node_from_str parse_f64 cs l <> Diverge /\
  (node_from_str parse_f64 cs l = Panic -> exists k u id w, nth_error cs k = Some (NCMetric u id) /\ nth_error (words l) k = Some w /\ parse_f64 w = None /\
     (u = Latitude /\ length (words l) < 3 \/ u = Longitude /\ length (words l) < 4)).
Proof.
  assert (X : forall (ws : list text) i, idx ws i <> Diverge /\ (forall m, idx ws i <> Err m) /\ (idx ws i = Panic -> length ws <= i)).
  { intros ws i. unfold idx. destruct (nth_error ws i) eqn:E; (split; [discriminate|split; [discriminate|]]); [discriminate|]. intros _. now apply nth_error_None. }
  assert (G : forall cs ws a, node_params parse_f64 (words l) a cs ws <> Diverge /\
    (node_params parse_f64 (words l) a cs ws = Panic -> exists k u id w, nth_error cs k = Some (NCMetric u id) /\ nth_error ws k = Some w /\ parse_f64 w = None /\
     (u = Latitude /\ length (words l) < 3 \/ u = Longitude /\ length (words l) < 4))).
  { clear cs. induction cs as [|c cs IH]; intros ws a; cbn [node_params]; [split; discriminate|]. destruct ws as [|w ws]; [split; discriminate|].
    assert (H : node_param parse_f64 (words l) a c w <> Diverge /\ (node_param parse_f64 (words l) a c w = Panic -> exists u id, c = NCMetric u id /\ parse_f64 w = None /\
       (u = Latitude /\ length (words l) < 3 \/ u = Longitude /\ length (words l) < 4))).
    { destruct c as [[] id|[] id|]; cbn [node_param]; try (split; discriminate).
      - destruct (parse_i64 w); split; discriminate.
      - destruct (parse_usize w); split; discriminate.
      - destruct (parse_f64 w) eqn:Ew; [split; discriminate|]. destruct (X (words l) 2) as (X1 & X2 & X3). destruct (idx (words l) 2); cbn [bind]; try congruence; try (split; discriminate).
        split; [discriminate|]. intros _. specialize (X3 eq_refl). exists Latitude, id. split; auto. split; auto. left. split; auto. lia.
      - destruct (parse_f64 w) eqn:Ew; [split; discriminate|]. destruct (X (words l) 3) as (X1 & X2 & X3). destruct (idx (words l) 3); cbn [bind]; try congruence; try (split; discriminate).
        split; [discriminate|]. intros _. specialize (X3 eq_refl). exists Longitude, id. split; auto. split; auto. right. split; auto. lia. }
    destruct H as [H1 H2]. destruct (node_param parse_f64 (words l) a c w) as [a'|m| |] eqn:E; cbn [bind]; try congruence.
    - destruct (IH ws a') as [I1 I2]. split; auto. intros Hp. destruct (I2 Hp) as (k & u & id & w' & K). exists (S k), u, id, w'. auto.
    - split; discriminate.
    - split; [discriminate|]. intros _. destruct (H2 eq_refl) as (u & id & -> & Hc). exists 0, u, id, w. auto. }
  unfold node_from_str. destruct (G cs (words l) (mkNodeAcc None None None None)) as [G1 G2].
  destruct (node_params parse_f64 (words l) (mkNodeAcc None None None None) cs (words l)) as [a|m| |]; cbn [bind]; try congruence.
  - destruct (na_id a); [destruct (na_lat a); [destruct (na_lon a)|]|]; split; discriminate.
  - split; discriminate.
  - split; [discriminate|auto].
Qed.
Print Assumptions C47_node_panics.

(** such lines exist: a wrong coordinate panics instead of being reported *)
Theorem C47_reported_refuted : exists cs l, forall parse_f64, parse_f64 (T "north") = None ->
  words l = [T "north"; T "7"] /\ node_from_str parse_f64 cs l = Panic.
Proof.
  exists [NCMetric Latitude "lat"; NCMeta NNodeId "id"], (T "north 7"). intros pf H. split; [vm_compute; reflexivity|].
  unfold node_from_str. replace (words (T "north 7")) with [T "north"; T "7"] by (vm_compute; reflexivity). cbn [node_params node_param]. now rewrite H.
Qed.
Print Assumptions C47_reported_refuted.

(** *** Room for all metrics *)
Lemma same_length_nth {A} (l l' : list A) i x : i < length l -> (forall j, nth_error l' j = if j =? i then Some x else nth_error l j) -> length l' = length l.
Proof.
  intros Hi H. destruct (Nat.lt_trichotomy (length l') (length l)) as [L|[E|L]]; [exfalso|exact E|exfalso].
  - assert (E : nth_error l' (length l') = None) by (apply nth_error_None; lia). rewrite H in E. destruct (length l' =? i); [discriminate|]. apply nth_error_None in E. lia.
  - assert (E : nth_error l' (length l) <> None) by (apply nth_error_Some; lia). rewrite H in E. destruct (Nat.eqb_spec (length l) i); [lia|]. apply nth_error_Some in E. lia.
Qed.
Lemma steps_length hav g gcs g' : steps hav g gcs g' -> length (ids_of g) = length (units_of g) ->
  forall n, counted adds_one gcs n -> length (units_of g') = length (units_of g) + n.
Proof.
  induction 1 as [g|g g1 g2 gc gcs M St IH]; intros Hl n C.
  - inversion C. lia.
  - assert (One : forall u id R, adds_metric g g1 u id R -> length (units_of g1) = S (length (units_of g)) /\ length (ids_of g1) = length (units_of g1)).
    { intros u id R (-> & -> & _). rewrite !app_length. simpl. lia. }
    assert (G : length (ids_of g1) = length (units_of g1) /\
                (adds_one gc -> length (units_of g1) = S (length (units_of g))) /\ (~ adds_one gc -> length (units_of g1) = length (units_of g))).
    { destruct gc; cbn [adds_one meets_formula] in *.
      - destruct M as (-> & -> & _). tauto.
      - apply One in M. tauto.
      - destruct M as [_ M]. apply One in M. tauto.
      - apply One in M. tauto.
      - destruct M as (i & _ & (Hi & _ & Hd & Hu & _)). rewrite (same_length_nth _ _ _ _ Hi Hd). rewrite Hl in Hi. rewrite (same_length_nth _ _ _ _ Hi Hu). tauto.
      - apply One in M. tauto.
      - destruct M as (-> & -> & _). tauto. }
    destruct G as (G1 & G2 & G3). inversion C as [|? ? m Hp C'|? ? m Hp C']; subst; rewrite (IH G1 _ C'); [rewrite (G2 Hp)|rewrite (G3 Hp)]; lia.
Qed.
Lemma picked_length cs : forall ws, length cs <= length ws -> length (pickw is_metric cs ws) = length (metric_units cs).
Proof.
  induction cs as [|c cs IH]; intros ws L; [reflexivity|]. destruct ws as [|w ws]; [simpl in L; lia|]. simpl in L. cbn [pickw].
  destruct c; cbn [is_metric metric_units length]; rewrite IH; lia.
Qed.
Lemma parse_lines_in {A} (f : text -> res A) r ls : forall k xs x, parse_lines f r k ls = Ok xs -> In x xs -> exists l, In l ls /\ f l = Ok x.
Proof.
  induction ls as [|l ls IH]; intros k xs x E Hx; cbn [parse_lines] in E.
  - injection E as <-. destruct Hx.
  - destruct (in_range r k).
    + apply bind_ok in E. destruct E as (y & Ey & E). apply bind_ok in E. destruct E as (ys & Eys & E). injection E as <-.
      destruct Hx as [<-|Hx]; [exists l; simpl; auto|]. destruct (IH _ _ _ Eys Hx) as (l' & A1 & A2). exists l'. simpl; auto.
    + destruct (IH _ _ _ E Hx) as (l' & A1 & A2). exists l'. simpl; auto.
Qed.
Lemma way_metrics_length c ts cs : Forall way_provides cs -> length (way_metrics c ts cs) = length (metric_units cs).
Proof.
  unfold way_metrics. induction 1 as [|k cs Hk F IH]; [reflexivity|]. cbn [flat_map]. rewrite app_length, IH.
  destruct k as [[] id|[] id|]; cbn [way_provides] in Hk; try tauto; reflexivity.
Qed.
Lemma consecutive_metrics ms nodes : forall e, In e (consecutive ms nodes) -> pe_metrics e = ms.
Proof.
  induction nodes as [|a nodes IH]; intros e H; [destruct H|]. destruct nodes as [|b nodes]; [destruct H|].
  change (consecutive ms (a :: b :: nodes)) with ({| pe_id := None; pe_src := a; pe_dst := b; pe_metrics := ms; pe_sc := None |} :: consecutive ms (b :: nodes)) in H.
  destruct H as [<-|H]; [reflexivity|auto].
Qed.

Lemma built_room hav dim pc ch1 ch2 es ns g : 1 <= ch1 -> 1 <= ch2 -> build hav (pc_cfg pc) ch1 ch2 es ns = Ok g ->
  consistent_cfg (pc_cfg pc) -> fitting_edges (pc_cfg pc) es -> acceptable dim pc ->
  length (ids_of g) <= dim /\ forall e ms, edge_metrics g e = Ok ms -> length ms = length (ids_of g).
Proof.
  intros H1 H2 E [Hc1 Hc2] Hf [_ _ _ (n & Hn & L) _].
  assert (Hl : length (ec_ids (cfg_edges (pc_cfg pc))) = length (ec_units (cfg_edges (pc_cfg pc)))).
  { rewrite <- Hc1, <- Hc2. clear. induction (ec_categories (cfg_edges (pc_cfg pc))) as [|[] cs IH]; simpl; auto. }
  destruct (C39_built _ _ _ _ _ _ _ H1 H2 E Hl Hf) as ((D1 & D2 & D3) & g0 & g1 & (D0 & _) & I & U & _ & _ & S & I1 & U1 & _).
  pose proof (steps_length _ _ _ _ S D0 _ Hn) as S'. rewrite <- U1, U in S'. split; [lia|]. intros e ms Hm. rewrite (D3 e ms Hm). lia.
Qed.

(** a graph's edges have at most as many metrics as the program is compiled for *)
Theorem C46_room_fmi parse_f64 hav dim pc ch1 ch2 file g :
  1 <= ch1 -> 1 <= ch2 -> consistent_cfg (pc_cfg pc) -> fmi_graph parse_f64 hav dim pc ch1 ch2 file = Ok g ->
  length (ids_of g) <= dim /\ forall e ms, edge_metrics g e = Ok ms -> length ms = length (ids_of g).
Proof.
  intros H1 H2 Hc E. unfold fmi_graph in E. apply bind_ok in E. destruct E as ([es ns] & Ep & E). cbn [fst snd] in E.
  unfold fmi_parse, fmi_preprocess in Ep. apply bind_ok in Ep. destruct Ep as (r & Er & Ep). apply bind_ok in Er. destruct Er as ([] & Ec & Er).
  apply bind_ok in Ep. destruct Ep as (es' & Ees & Ep). apply bind_ok in Ep. destruct Ep as (ns' & _ & Ep). injection Ep as -> ->.
  apply (built_room hav dim pc ch1 ch2 es ns g H1 H2 E Hc); [|now apply C46_accepted].
  intros pe Hpe. unfold fmi_edges in Ees. destruct (parse_lines_in _ _ _ _ _ _ Ees Hpe) as (l & _ & El). apply C47_edge_line in El.
  destruct El as [_ _ _ (k & K & F) _ _]. apply (column_pick is_metric metric_column is_metric_column) in K. destruct K as [L ->].
  assert (Q : length (pickw is_metric (ec_categories (cfg_edges (pc_cfg pc))) (words l)) = length (pe_metrics pe)) by (clear -F; induction F; simpl; auto).
  rewrite <- Q, (picked_length _ _ L). destruct Hc as [_ <-]. reflexivity.
Qed.
Print Assumptions C46_room_fmi.
Theorem C46_room_pbf hav dim pc ch1 ch2 objs g :
  1 <= ch1 -> 1 <= ch2 -> consistent_cfg (pc_cfg pc) -> pbf_graph hav dim pc ch1 ch2 objs = Ok g ->
  length (ids_of g) <= dim /\ forall e ms, edge_metrics g e = Ok ms -> length ms = length (ids_of g).
Proof.
  intros H1 H2 Hc E. unfold pbf_graph in E. apply bind_ok in E. destruct E as ([] & Ep & E). apply C46_pbf in Ep. destruct Ep as [Ha Hw].
  apply (built_room hav dim pc ch1 ch2 _ _ g H1 H2 E Hc); [|exact Ha].
  intros pe Hpe. unfold pbf_edges in Hpe. apply in_flat_map in Hpe. destruct Hpe as (o & _ & Hpe). destruct o as [|nodes ts|]; try destruct Hpe.
  unfold way_edges in Hpe. destruct (length nodes <? 2); [destruct Hpe|]. destruct (street_from ts) as [c|]; [|destruct Hpe].
  destruct (negb _); [destruct Hpe|]. destruct (parse_oneway c ts) as [o v]. cbn zeta in Hpe. apply consecutive_metrics in Hpe.
  rewrite Hpe, (way_metrics_length _ _ _ Hw). destruct Hc as [_ <-]. reflexivity.
Qed.
Print Assumptions C46_room_pbf.

(** *** Examples *)
Definition ln_pc (gens : list gen_cat) : parse_cfg :=
  {| pc_vehicles := mkVehicle Car false;
     pc_nodes := [NCMetric Longitude "lon"; NCMeta NNodeId "id"; NCIgnored; NCMetric Latitude "lat"];
     pc_cfg := {| cfg_edges := {| ec_categories := [CMeta ShortcutIdx1 "b"; CMetric Kilometers "km"; CMeta SrcId "s"; CMeta EdgeId "e"; CMeta DstId "d"; CMeta ShortcutIdx0 "a"];
                                  ec_normalized := false; ec_units := [Kilometers]; ec_ids := ["km"] |};
                  cfg_nodes := []; cfg_gen_nodes := []; cfg_gen_edges := gens |} |}.
Definition ln_gens : list gen_cat := [GCustom UF64 "one" (Fin 1); GConvert Kilometers "km" Meters "m"; GCopy Meters "m" Kilometers "km2"].
Definition ln_file : text := T "2" ++ [LF] ++ T "3" ++ [LF] ++ T "4 7 x 2" ++ [LF] ++ T "3 8 y 1" ++ [LF] ++
  T "-1 5 7 3 8 -1" ++ [LF] ++ T "-1 6 8 ch4 7 -1 rest" ++ [LF] ++ T "1 9 7 5 7 0" ++ [LF].
Definition ln_f64 (s : text) : option f64 :=
  match s with [c] => option_map (fun d => Fin (inject_Z (Z.of_N d))) (digit c) | _ => None end.
Example C46_accepted_case : acceptable 3 (ln_pc ln_gens) /\ ~ acceptable 2 (ln_pc ln_gens).
Proof.
  split; [apply C46_accepted; vm_compute; reflexivity|]. intros H. apply C46_accepted in H. vm_compute in H. discriminate.
Qed.
Example C46_pbf_case : exists pc, pbf_preprocess 2 pc = Ok tt /\ pbf_preprocess 1 pc <> Ok tt /\ pbf_preprocess 3 (ln_pc ln_gens) <> Ok tt.
Proof.
  exists {| pc_vehicles := mkVehicle Car true; pc_nodes := [NCMeta NNodeId "id"; NCMetric Latitude "lat"; NCMetric Longitude "lon"];
     pc_cfg := {| cfg_edges := {| ec_categories := [CMeta SrcId "s"; CMetric KilometersPerHour "v"; CMeta DstId "d"; CMetric LaneCount "l"];
                                  ec_normalized := false; ec_units := [KilometersPerHour; LaneCount]; ec_ids := ["v"; "l"] |};
                  cfg_nodes := []; cfg_gen_nodes := []; cfg_gen_edges := [] |} |}.
  split; [reflexivity|]. split; vm_compute; discriminate.
Qed.
Example C46_room_fmi_case : consistent_cfg (pc_cfg (ln_pc ln_gens)) /\
  exists g, fmi_graph ln_f64 ex_hav 3 (ln_pc ln_gens) 2 1 ln_file = Ok g /\ ids_of g = ["m"; "one"; "km2"] /\ edge_count g FWD = 3.
Proof. split; [split; reflexivity|]. eexists. split; [vm_compute; reflexivity|]. split; reflexivity. Qed.
Example C46_room_pbf_case : exists pc objs g, consistent_cfg (pc_cfg pc) /\ pbf_graph ex_hav 3 pc 2 1 objs = Ok g /\ ids_of g = ["v"; "l"; "x"] /\ edge_count g FWD = 2.
Proof.
  exists {| pc_vehicles := mkVehicle Car true; pc_nodes := [NCMeta NNodeId "id"; NCMetric Latitude "lat"; NCMetric Longitude "lon"];
     pc_cfg := {| cfg_edges := {| ec_categories := [CMeta SrcId "s"; CMetric KilometersPerHour "v"; CMeta DstId "d"; CMetric LaneCount "l"];
                                  ec_normalized := false; ec_units := [KilometersPerHour; LaneCount]; ec_ids := ["v"; "l"] |};
                  cfg_nodes := []; cfg_gen_nodes := []; cfg_gen_edges := [GCustom UF64 "x" (Fin 1)] |} |},
    [OsmWay [7; 8]%Z [(T "highway", T "residential")]; OsmNode 7 1 2; OsmNode 8 3 4].
  eexists. split; [split; reflexivity|]. split; [vm_compute; reflexivity|]. split; reflexivity.
Qed.
Example C47_edge_line_case :
  edge_line ln_f64 (ec_categories (cfg_edges (pc_cfg (ln_pc [])))) (words (T " -1 6  8 ch4 7 -1 rest"))
    {| pe_id := Some 4; pe_src := 8; pe_dst := 7; pe_metrics := [Fin 6]; pe_sc := None |} /\
  edge_line ln_f64 (ec_categories (cfg_edges (pc_cfg (ln_pc [])))) (words (T "1 9 7 5 7 0"))
    {| pe_id := Some 5; pe_src := 7; pe_dst := 7; pe_metrics := [Fin 9]; pe_sc := Some (0, 1) |} /\
  ~ exists e, edge_line ln_f64 (ec_categories (cfg_edges (pc_cfg (ln_pc [])))) (words (T "1 9 7 c5 7 0")) e.
Proof.
  split; [apply C47_edge_line; vm_compute; reflexivity|]. split; [apply C47_edge_line; vm_compute; reflexivity|].
  intros (e & H). apply C47_edge_line in H. vm_compute in H. discriminate.
Qed.
Example C47_node_line_case :
  node_line ln_f64 (pc_nodes (ln_pc [])) (words (T "4 7 x 2")) {| pn_id := 7; pn_coord := mkCoord (Fin 2) (Fin 4); pn_level := None |}.
Proof. apply C47_node_line. vm_compute. reflexivity. Qed.
Example C47_panics_case : edge_from_str ln_f64 [CMeta EdgeId "e"] (T "x") = Panic /\
  node_from_str ln_f64 [NCMetric Longitude "lon"; NCMeta NNodeId "id"; NCMetric Latitude "lat"] (T "east 7 2") = Panic.
Proof. split; vm_compute; reflexivity. Qed.
