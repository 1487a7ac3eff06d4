(** Lemmas about reading written graphs *)
From Coq Require Import String Ascii List Bool Arith NArith ZArith Lia.
From Verif Require Import Base F64 ModelText ModelUnits ModelConfig ModelGraph ModelBuild Lib ProofText Spec SpecGenerate ProofGenerate
  ModelParsing ModelFmi SpecFmi ProofFmi ModelWriting SpecWriting PropsWriting SpecRoundtrip.
Import ListNotations.
Open Scope string_scope.
Open Scope list_scope.
Open Scope nat_scope.

Lemma show_nat_plain n : plain (show_nat n).
Proof. apply show_N_plain. Qed.
Lemma show_nat_functional n : is_line_functional (show_nat n) = true.
Proof. apply show_N_functional. Qed.
Lemma show_nat_not_minus n : text_eqb (show_nat n) NO_SHORTCUT_IDX = false.
Proof.
  destruct (text_eqb (show_nat n) NO_SHORTCUT_IDX) eqn:E; auto. apply text_eqb_eq in E.
  destruct (show_N_no_sign (N.of_nat n) "-" ["1"%char] E) as [_ H]. discriminate.
Qed.
Lemma parse_usize_nat n : (N.of_nat n <= U64_MAX)%N -> parse_usize (show_nat n) = Some (N.of_nat n).
Proof. apply parse_usize_show. Qed.

(** comments are dropped *)
Lemma functional_comment r s : ~ In LF r -> functional_lines (line (HASH :: r) ++ s) = functional_lines s.
Proof.
  intros H. unfold functional_lines, line. rewrite <- app_assoc. change ([LF] ++ s) with (LF :: s).
  rewrite lines_app by (intros [E|E]; [discriminate E|auto]). cbn [filter].
  assert (E : is_line_functional (strip_cr (HASH :: r)) = false); [|now rewrite E].
  unfold strip_cr. destruct (rev (HASH :: r)) as [|c l] eqn:El; [reflexivity|].
  destruct (Ascii.eqb_spec c CR) as [->|]; [|reflexivity].
  assert (Er : HASH :: r = rev l ++ [CR]) by (rewrite <- (rev_involutive (HASH :: r)), El; reflexivity).
  destruct (rev l) as [|d l']; [discriminate Er|]. injection Er as <- _. reflexivity.
Qed.

(** *** Cells *)
Definition good_cell (t : text) : Prop := plain t /\ is_line_functional t = true.
Lemma good_N n : good_cell (show_nat n).
Proof. split; [apply show_nat_plain|apply show_nat_functional]. Qed.
Lemma good_Z z : good_cell (show_Z z).
Proof. split; [apply show_Z_plain|apply show_Z_functional]. Qed.
Lemma good_ignored : good_cell IGNORE_STR.
Proof. split; [split; [discriminate|]|reflexivity]. constructor; [|constructor]. unfold graphic. vm_compute. lia. Qed.
Lemma good_no_sc : good_cell NO_SHORTCUT_IDX.
Proof. split; [split; [discriminate|]|reflexivity]. constructor; [|constructor; [|constructor]]; unfold graphic; vm_compute; lia. Qed.

Section Values.
  Variables (show_f64 : f64 -> text) (parse_f64 : text -> option f64).
  Variables (g : graph) (denorm : bool).
  Hypothesis Hval : forall x, written_value g denorm x -> survives show_f64 parse_f64 x.
  Hypothesis Hsize : machine_sized g.

  Lemma good_f64 x : written_value g denorm x -> good_cell (show_f64 x).
  Proof.
    intros H. destruct (Hval x H) as (_ & (c & t & E & Hc) & Hg). split; [split|].
    - rewrite E. discriminate.
    - apply Forall_forall. intros a Ha. now apply Hg.
    - rewrite E. cbn. destruct (Ascii.eqb_spec c HASH); [congruence|reflexivity].
  Qed.
  Lemma good_coord i c : node_coord g i = Ok c -> good_cell (show_f64 (lat c)) /\ good_cell (show_f64 (lon c)).
  Proof. intros H. split; apply good_f64; left; exists i, c; auto. Qed.

  Lemma meta_good e info t : meta_cell show_f64 g e info = Ok t -> good_cell t.
  Proof.
    assert (Hsc : forall o f, good_cell (sc_cell o f)) by (intros [p|] f; [apply good_N|apply good_no_sc]).
    destruct info; cbn [meta_cell]; intros H; repeat (apply bind_ok in H; destruct H as (? & ? & H)); injection H as <-;
      first [apply good_N|apply good_Z|apply Hsc|eapply good_coord; eassumption].
  Qed.
  Lemma cell_good e o t : edge_cell show_f64 g denorm e o = Ok t -> good_cell t.
  Proof.
    destruct o as [id|]; cbn [edge_cell]; [|intros H; injection H as <-; apply good_ignored].
    intros H. destruct (find_cell_called _ _ _ _ _ _ H) as [(info & _ & Hm)|(u & _ & Hm)]; [now apply meta_good in Hm|].
    destruct (metric_exported _ _ _ _ _ _ Hm) as (i & x & _ & Hx & ->). apply good_f64. right. eauto.
  Qed.

  (** *** Edges *)
  Definition src_of (e : nat) (z : Z) : Prop := exists s, dst_idx g BWD e = Ok s /\ node_id g s = Ok z.
  Definition dst_of (e : nat) (z : Z) : Prop := exists d, dst_idx g FWD e = Ok d /\ node_id g d = Ok z.

  Lemma called_unique id c c' : called g id c -> called g id c' -> c = c'.
  Proof. intros H H'. apply first_called_spec in H, H'. congruence. Qed.
  Lemma cell_meta e id info t : called g id (CMeta info id) -> edge_cell show_f64 g denorm e (Some id) = Ok t ->
    meta_cell show_f64 g e info = Ok t.
  Proof.
    intros Hc H. destruct (find_cell_called _ _ _ _ _ _ H) as [(i & Hc' & Hm)|(u & Hc' & _)]; pose proof (called_unique _ _ _ Hc Hc') as E; [|discriminate].
    now injection E as ->.
  Qed.
  Lemma cell_metric e id u t : called g id (CMetric u id) -> edge_cell show_f64 g denorm e (Some id) = Ok t ->
    exists i x, first_at (ids_of g) id i /\ exported_metric g denorm e i x /\ t = show_f64 x.
  Proof.
    intros Hc H. destruct (find_cell_called _ _ _ _ _ _ H) as [(i & Hc' & _)|(v & Hc' & Hm)]; pose proof (called_unique _ _ _ Hc Hc') as E; [discriminate|].
    now apply metric_exported in Hm.
  Qed.

  (** what the columns [cs] add to [a] *)
  Record adds (e : nat) (ids : list (option string)) (cs : list category) (a a' : edge_acc) : Prop := {
    ad_src : In SrcId (metas cs) -> exists z, ea_src a' = Some z /\ src_of e z;
    ad_src' : ~ In SrcId (metas cs) -> ea_src a' = ea_src a;
    ad_dst : In DstId (metas cs) -> exists z, ea_dst a' = Some z /\ dst_of e z;
    ad_dst' : ~ In DstId (metas cs) -> ea_dst a' = ea_dst a;
    ad_id : In EdgeId (metas cs) -> edge_try_id g e = Ok (ea_id a') /\ ea_id a' <> None;
    ad_id' : ~ In EdgeId (metas cs) -> ea_id a' = ea_id a;
    ad_sc0 : In ShortcutIdx0 (metas cs) -> exists o, sc_edges g e = Ok o /\ ea_sc0 a' = option_map fst o;
    ad_sc0' : ~ In ShortcutIdx0 (metas cs) -> ea_sc0 a' = ea_sc0 a;
    ad_sc1 : In ShortcutIdx1 (metas cs) -> exists o, sc_edges g e = Ok o /\ ea_sc1 a' = option_map snd o;
    ad_sc1' : ~ In ShortcutIdx1 (metas cs) -> ea_sc1 a' = ea_sc1 a;
    ad_metrics : exists xs, ea_metrics a' = ea_metrics a ++ xs /\
      Forall2 (fun id x => exists i, first_at (ids_of g) id i /\ exported_metric g denorm e i x) (metric_columns ids cs) xs;
  }.
  (** nothing that is still to come has been set *)
  Definition awaits (cs : list category) (a : edge_acc) : Prop :=
    (In SrcId (metas cs) -> ea_src a = None) /\ (In DstId (metas cs) -> ea_dst a = None) /\
    (In ShortcutIdx0 (metas cs) -> ea_sc0 a = None) /\ (In ShortcutIdx1 (metas cs) -> ea_sc1 a = None).

  Lemma parse_sc_cell o f : (forall p, o = Some p -> (N.of_nat (f p) <= U64_MAX)%N) ->
    parse_sc_idx None (sc_cell o f) = Ok (option_map f o).
  Proof.
    intros H. unfold parse_sc_idx, sc_cell. destruct o as [p|]; [|reflexivity].
    rewrite show_nat_not_minus, parse_usize_nat by auto. cbn. now rewrite Nat2N.id.
  Qed.

  Lemma metas_meta info id cs : metas (CMeta info id :: cs) = info :: metas cs.
  Proof. reflexivity. Qed.
  Lemma awaits_tail c cs a : awaits (c :: cs) a -> awaits cs a.
  Proof.
    intros (A & B & C & D). assert (G : forall x, In x (metas cs) -> In x (metas (c :: cs))).
    { intros x Hx. unfold metas. cbn [flat_map]. apply in_or_app. now right. }
    repeat split; intros H; [apply A|apply B|apply C|apply D]; now apply G.
  Qed.

  Lemma edge_params_retold e ids cs : Forall2 (read_as g) ids cs -> NoDup (metas cs) ->
    forall cells, Forall2 (fun o t => edge_cell show_f64 g denorm e o = Ok t) ids cells ->
    forall a, awaits cs a -> exists a', edge_params parse_f64 a cs cells = Ok a' /\ adds e ids cs a a'.
  Proof.
    induction 1 as [|o c ids cs Hr F IH]; intros Hnd cells Hc a Ha; inversion Hc as [|? t ? cells' Ht Hcs]; subst.
    { exists a. split; [reflexivity|]. constructor; cbn; try tauto. exists []. rewrite app_nil_r. split; [reflexivity|constructor]. }
    cbn [edge_params]. inversion Hr as [id id' info Hcl Hin|id id' u u' Hcl|o']; subst.
    - (* meta *)
      rewrite metas_meta in Hnd. inversion Hnd as [|? ? Hni Hnd']; subst.
      apply (cell_meta _ _ _ _ Hcl) in Ht.
      assert (G : exists a1, edge_param parse_f64 a (CMeta info id') t = Ok a1 /\ awaits cs a1 /\ ea_metrics a1 = ea_metrics a /\
        (if match info with SrcId => true | _ => false end then exists z, ea_src a1 = Some z /\ src_of e z else ea_src a1 = ea_src a) /\
        (if match info with DstId => true | _ => false end then exists z, ea_dst a1 = Some z /\ dst_of e z else ea_dst a1 = ea_dst a) /\
        (if match info with EdgeId => true | _ => false end then edge_try_id g e = Ok (ea_id a1) /\ ea_id a1 <> None else ea_id a1 = ea_id a) /\
        (if match info with ShortcutIdx0 => true | _ => false end then exists o, sc_edges g e = Ok o /\ ea_sc0 a1 = option_map fst o else ea_sc0 a1 = ea_sc0 a) /\
        (if match info with ShortcutIdx1 => true | _ => false end then exists o, sc_edges g e = Ok o /\ ea_sc1 a1 = option_map snd o else ea_sc1 a1 = ea_sc1 a)).
      { pose proof (awaits_tail _ _ _ Ha) as (A1 & A2 & A3 & A4).
        destruct Ha as (B1 & B2 & B3 & B4). rewrite metas_meta in B1, B2, B3, B4.
        destruct Hin as [<-|[<-|[<-|[<-|[<-|[]]]]]]; cbn [meta_cell] in Ht; repeat (apply bind_ok in Ht; destruct Ht as (? & ? & Ht));
          injection Ht as <-; cbn [edge_param].
        - match goal with H : edge_id g e = Ok ?i |- _ => unfold edge_id in H; apply bind_ok in H; destruct H as ([j|] & Hj & H); cbn in H; [injection H as ->|discriminate];
            unfold parse_edge_id; rewrite parse_usize_nat by exact (ms_edge_ids g Hsize _ _ Hj); cbn [bind] end.
          eexists. split; [reflexivity|]. cbn. rewrite Nat2N.id. unfold awaits; cbn. repeat split; auto. discriminate.
        - unfold parse_node_id. rewrite B1 by (now left).
          match goal with H : node_id g ?s = Ok ?z |- _ => rewrite parse_i64_show by exact (ms_ids g Hsize _ _ H) end. cbn [bind].
          eexists. split; [reflexivity|]. unfold awaits; cbn. repeat split; auto. + intros Hq; now apply Hni in Hq. + eexists. split; [reflexivity|]. eexists; eauto.
        - unfold parse_node_id. rewrite B2 by (now left).
          match goal with H : node_id g ?s = Ok ?z |- _ => rewrite parse_i64_show by exact (ms_ids g Hsize _ _ H) end. cbn [bind].
          eexists. split; [reflexivity|]. unfold awaits; cbn. repeat split; auto. + intros Hq; now apply Hni in Hq. + eexists. split; [reflexivity|]. eexists; eauto.
        - match goal with H : sc_edges g e = Ok ?o |- _ => rewrite B3 by (now left); rewrite parse_sc_cell by (intros [px py] Hpp; subst; exact (proj1 (ms_sc g Hsize _ _ _ H))) end.
          cbn [bind]. eexists. split; [reflexivity|]. unfold awaits; cbn. repeat split; auto. + intros Hq; now apply Hni in Hq. + eauto.
        - match goal with H : sc_edges g e = Ok ?o |- _ => rewrite B4 by (now left); rewrite parse_sc_cell by (intros [px py] Hpp; subst; exact (proj2 (ms_sc g Hsize _ _ _ H))) end.
          cbn [bind]. eexists. split; [reflexivity|]. unfold awaits; cbn. repeat split; auto. + intros Hq; now apply Hni in Hq. + eauto. }
      destruct G as (a1 & E1 & Hw & Em & G1 & G2 & G3 & G4 & G5). rewrite E1. cbn [bind].
      destruct (IH Hnd' _ Hcs a1 Hw) as (a' & E' & H'). exists a'. split; [exact E'|].
      assert (Hx : forall x, ~ In x (info :: metas cs) -> x <> info /\ ~ In x (metas cs)) by (intros x Hx; split; [intros ->; apply Hx; now left|intros H; apply Hx; now right]).
      destruct H' as [h1 h1' h2 h2' h3 h3' h4 h4' h5 h5' h6]. clear - Hni Hx Em G1 G2 G3 G4 G5 h1 h1' h2 h2' h3 h3' h4 h4' h5 h5' h6.
      constructor; rewrite ?metas_meta.
      + intros [->|H]; auto. rewrite h1' by auto. exact G1.
      + intros H. apply Hx in H. destruct H as [N H]. rewrite h1' by auto. destruct info; congruence.
      + intros [->|H]; auto. rewrite h2' by auto. exact G2.
      + intros H. apply Hx in H. destruct H as [N H]. rewrite h2' by auto. destruct info; congruence.
      + intros [->|H]; auto. rewrite h3' by auto. exact G3.
      + intros H. apply Hx in H. destruct H as [N H]. rewrite h3' by auto. destruct info; congruence.
      + intros [->|H]; auto. rewrite h4' by auto. exact G4.
      + intros H. apply Hx in H. destruct H as [N H]. rewrite h4' by auto. destruct info; congruence.
      + intros [->|H]; auto. rewrite h5' by auto. exact G5.
      + intros H. apply Hx in H. destruct H as [N H]. rewrite h5' by auto. destruct info; congruence.
      + rewrite Em in h6. exact h6.
    - (* metric *)
      destruct (cell_metric _ _ _ _ Hcl Ht) as (i & x & Hi & Hx & ->). cbn [edge_param].
      destruct (Hval x) as (Hp & _); [right; eauto|]. rewrite Hp. cbn [bind].
      destruct (IH Hnd _ Hcs (mkEdgeAcc (ea_metrics a ++ [x]) (ea_id a) (ea_src a) (ea_dst a) (ea_sc0 a) (ea_sc1 a))) as (a' & E' & H').
      { apply awaits_tail in Ha. exact Ha. }
      exists a'. split; [exact E'|]. destruct H' as [h1 h1' h2 h2' h3 h3' h4 h4' h5 h5' (xs & E & F')].
      constructor; auto. exists (x :: xs). split; [rewrite E; cbn [ea_metrics]; now rewrite <- app_assoc|]. cbn [metric_columns]. constructor; eauto.
    - (* ignored *)
      cbn [edge_param bind]. destruct (IH Hnd _ Hcs a (awaits_tail _ _ _ Ha)) as (a' & E' & H'). exists a'. split; [exact E'|].
      destruct H' as [h1 h1' h2 h2' h3 h3' h4 h4' h5 h5' h6]. constructor; auto.
      destruct h6 as (xs & E & F'). exists xs. split; [exact E|]. now destruct o.
  Qed.

  Lemma edge_retold e ids cs l : Forall2 (read_as g) ids cs -> readable cs ->
    Forall2 (fun o t => edge_cell show_f64 g denorm e o = Ok t) ids l -> words (spaced l) = l ->
    exists pe, edge_from_str parse_f64 cs (spaced l) = Ok pe /\ retold_edge g denorm ids cs e pe.
  Proof.
    intros Hr (Hnd & Hs & Hd) Hc Hw. unfold edge_from_str. rewrite Hw.
    destruct (edge_params_retold e ids cs Hr Hnd l Hc (mkEdgeAcc [] None None None None None)) as (a & Ea & H).
    { unfold awaits; cbn. auto. }
    rewrite Ea. cbn [bind]. destruct H as [h1 h1' h2 h2' h3 h3' h4 h4' h5 h5' (xs & Ex & Fx)]. cbn in *.
    destruct (h1 Hs) as (zs & -> & s & S1 & S2). destruct (h2 Hd) as (zd & -> & d & D1 & D2).
    eexists. split; [reflexivity|]. constructor; cbn.
    - exists s, d. split; [split; auto|]. auto.
    - intros H. now apply h3 in H.
    - auto.
    - intros H0 H1. destruct (h4 H0) as (o & Eo & E0). destruct (h5 H1) as (o' & Eo' & E1). assert (o' = o) as -> by congruence.
      rewrite E0, E1, Eo. destruct o as [[x y]|]; reflexivity.
    - intros [H|H]; [rewrite h4' by auto; reflexivity|rewrite h5' by auto; destruct (ea_sc0 a); reflexivity].
    - now rewrite Ex.
  Qed.

  (** *** Nodes *)
  Variable ncs : list node_cat.

  Lemma find_node_called i id c : node_called ncs id c ->
    find_node_cell show_f64 g i id ncs = (do n <- node_create g i; node_value show_f64 n c).
  Proof.
    intros (b & a & -> & B1 & B2 & Hk). induction b as [|x b IH]; cbn [app find_node_cell].
    - destruct Hk as [[j ->]|[u ->]]; cbn [node_cat_id]; now rewrite String.eqb_refl.
    - assert (Hrec : find_node_cell show_f64 g i id (b ++ c :: a) = (do n <- node_create g i; node_value show_f64 n c)).
      { apply IH; [intros c' Hc'; apply B1; now right|intros c' Hc'; apply B2; now right]. }
      destruct x as [j id'|u id'|]; cbn [node_cat_id]; auto; (destruct (String.eqb id' id) eqn:E; [apply String.eqb_eq in E; subst id'; exfalso|exact Hrec]).
      + exact (B1 _ (or_introl eq_refl) j eq_refl).
      + exact (B2 _ (or_introl eq_refl) u eq_refl).
  Qed.
  Lemma create_ok i n : node_create g i = Ok n -> node_id g i = Ok (n_id n) /\ node_coord g i = Ok (n_coord n) /\ node_level g i = Ok (n_level n) /\ n_idx n = i.
  Proof.
    unfold node_create. intros H. repeat (apply bind_ok in H; destruct H as (? & ? & H)). injection H as <-. cbn. auto.
  Qed.
  Lemma find_node_good i id : forall l t, find_node_cell show_f64 g i id l = Ok t -> good_cell t.
  Proof.
    induction l as [|c l IH]; intros t; cbn [find_node_cell]; [discriminate|].
    destruct (node_cat_id c) as [id'|]; [|apply IH]. destruct (String.eqb id' id); [|apply IH].
    intros H. apply bind_ok in H. destruct H as (n & Hn & H). apply create_ok in Hn. destruct Hn as (N1 & N2 & N3 & _).
    destruct c as [[]|[]|]; cbn in H; try discriminate; injection H as <-; first [apply good_N|apply good_Z|eapply good_coord; eassumption].
  Qed.
  Lemma node_cell_good i o t : node_cell show_f64 g ncs i o = Ok t -> good_cell t.
  Proof. destruct o as [id|]; cbn; [apply find_node_good|intros H; injection H as <-; apply good_ignored]. Qed.

  (** what the columns [cs] add to [a] *)
  Record node_adds (i : nat) (cs : list node_cat) (a a' : node_acc) : Prop := {
    na_id_new : In NNodeId (node_metas cs) -> exists z, na_id a' = Some z /\ node_id g i = Ok z;
    na_id_old : ~ In NNodeId (node_metas cs) -> na_id a' = na_id a;
    na_level_new : In NCHLevel (node_metas cs) -> exists l, na_level a' = Some l /\ node_level g i = Ok l;
    na_level_old : ~ In NCHLevel (node_metas cs) -> na_level a' = na_level a;
    na_lat_new : existsb is_latitude cs = true -> exists c, na_lat a' = Some (lat c) /\ node_coord g i = Ok c;
    na_lat_old : existsb is_latitude cs = false -> na_lat a' = na_lat a;
    na_lon_new : existsb is_longitude cs = true -> exists c, na_lon a' = Some (lon c) /\ node_coord g i = Ok c;
    na_lon_old : existsb is_longitude cs = false -> na_lon a' = na_lon a;
  }.
  Lemma node_cell_called i id c t : node_called ncs id c -> node_cell show_f64 g ncs i (Some id) = Ok t ->
    exists n, node_id g i = Ok (n_id n) /\ node_coord g i = Ok (n_coord n) /\ node_level g i = Ok (n_level n) /\ node_value show_f64 n c = Ok t.
  Proof.
    intros Hc H. cbn [node_cell] in H. rewrite (find_node_called i id c Hc) in H. apply bind_ok in H. destruct H as (n & Hn & H).
    apply create_ok in Hn. exists n. tauto.
  Qed.

  Lemma In_dec_meta (x : node_meta) l : In x l \/ ~ In x l.
  Proof. destruct (in_dec (fun a b : node_meta => ltac:(decide equality) : {a = b} + {a <> b}) x l); auto. Qed.

  Lemma node_params_retold all i ids cs : Forall2 (read_node_as ncs) ids cs ->
    forall cells, Forall2 (fun o t => node_cell show_f64 g ncs i o = Ok t) ids cells ->
    forall a, exists a', node_params parse_f64 all a cs cells = Ok a' /\ node_adds i cs a a'.
  Proof.
    induction 1 as [|o c ids cs Hr F IH]; intros cells Hc a; inversion Hc as [|? t ? cells' Ht Hcs]; subst.
    { exists a. split; [reflexivity|]. constructor; cbn; try tauto; discriminate. }
    cbn [node_params]. inversion Hr as [id id' info Hcl Hin|id id' u Hcl Hin|o']; subst.
    - destruct (node_cell_called _ _ _ _ Hcl Ht) as (n & N1 & N2 & N3 & Hv).
      destruct Hin as [-> | ->]; cbn [node_value] in Hv; injection Hv as <-; cbn [node_param].
      + rewrite parse_i64_show by exact (ms_ids g Hsize _ _ N1). cbn [bind].
        destruct (IH _ Hcs (mkNodeAcc (Some (n_id n)) (na_lat a) (na_lon a) (na_level a))) as (a' & E' & [h1 h1' h2 h2' h3 h3' h4 h4']).
        exists a'. split; [exact E'|]. cbn in *. constructor; cbn; auto.
        * intros _. destruct (In_dec_meta NNodeId (node_metas cs)) as [H|H]; [auto|]. rewrite h1' by auto. eauto.
        * intros H. exfalso. auto.
        * intros [H|H]; [discriminate|auto].
      + rewrite parse_usize_nat by exact (ms_levels g Hsize _ _ N3). cbn [bind]. rewrite Nat2N.id.
        destruct (IH _ Hcs (mkNodeAcc (na_id a) (na_lat a) (na_lon a) (Some (n_level n)))) as (a' & E' & [h1 h1' h2 h2' h3 h3' h4 h4']).
        exists a'. split; [exact E'|]. cbn in *. constructor; cbn; auto.
        * intros [H|H]; [discriminate|auto].
        * intros _. destruct (In_dec_meta NCHLevel (node_metas cs)) as [H|H]; [auto|]. rewrite h2' by auto. eauto.
        * intros H. exfalso. auto.
    - destruct (node_cell_called _ _ _ _ Hcl Ht) as (n & N1 & N2 & N3 & Hv).
      destruct Hin as [-> | ->]; cbn [node_value] in Hv; injection Hv as <-; cbn [node_param].
      + destruct (Hval (lat (n_coord n))) as (-> & _); [left; eauto|]. cbn [bind].
        destruct (IH _ Hcs (mkNodeAcc (na_id a) (Some (lat (n_coord n))) (na_lon a) (na_level a))) as (a' & E' & [h1 h1' h2 h2' h3 h3' h4 h4']).
        exists a'. split; [exact E'|]. cbn in *. constructor; cbn; auto.
        * intros _. destruct (existsb is_latitude cs) eqn:H; [auto|]. rewrite h3' by auto. eauto.
        * discriminate.
      + destruct (Hval (lon (n_coord n))) as (-> & _); [left; eauto|]. cbn [bind].
        destruct (IH _ Hcs (mkNodeAcc (na_id a) (na_lat a) (Some (lon (n_coord n))) (na_level a))) as (a' & E' & [h1 h1' h2 h2' h3 h3' h4 h4']).
        exists a'. split; [exact E'|]. cbn in *. constructor; cbn; auto.
        * intros _. destruct (existsb is_longitude cs) eqn:H; [auto|]. rewrite h4' by auto. eauto.
        * discriminate.
    - cbn [node_param bind]. destruct (IH _ Hcs a) as (a' & E' & [h1 h1' h2 h2' h3 h3' h4 h4']). exists a'. split; [exact E'|].
      constructor; auto.
  Qed.

  Lemma existsb_node_id cs : existsb is_node_id cs = true -> In NNodeId (node_metas cs).
  Proof.
    rewrite existsb_exists. intros (c & Hin & H). destruct c as [[] id| |]; try discriminate. unfold node_metas. apply in_flat_map.
    exists (NCMeta NNodeId id). split; [auto|now left].
  Qed.

  Lemma node_retold i ids cs l : Forall2 (read_node_as ncs) ids cs ->
    existsb is_node_id cs = true -> existsb is_latitude cs = true -> existsb is_longitude cs = true ->
    Forall2 (fun o t => node_cell show_f64 g ncs i o = Ok t) ids l -> words (spaced l) = l ->
    exists pn, node_from_str parse_f64 cs (spaced l) = Ok pn /\ retold_node g cs i pn.
  Proof.
    intros Hr Hi Hla Hlo Hc Hw. unfold node_from_str. rewrite Hw.
    destruct (node_params_retold l i ids cs Hr l Hc (mkNodeAcc None None None None)) as (a & Ea & [h1 h1' h2 h2' h3 h3' h4 h4']).
    rewrite Ea. cbn [bind]. destruct (h1 (existsb_node_id _ Hi)) as (z & -> & Hz). destruct (h3 Hla) as (c & -> & Hcc).
    destruct (h4 Hlo) as (c' & -> & Hcc'). assert (c' = c) as -> by congruence. eexists. split; [reflexivity|].
    constructor; cbn; auto.
    - destruct c; exact Hcc.
    - intros H. destruct (h2 H) as (lv & A & B). eauto.
  Qed.
End Values.

(** *** Rows *)
Lemma count_rows g sc row es : forall rows m, edge_rows g sc row es = Ok rows -> count_written g sc es = Ok m -> length rows = m /\ m <= length es.
Proof.
  induction es as [|e es IH]; intros rows m; cbn [edge_rows count_written]; [intros H H'; injection H as <-; injection H' as <-; auto|].
  destruct (is_written g sc e) as [b| | |]; cbn [bind]; try discriminate. intros H H'.
  apply bind_ok in H'. destruct H' as (n & Hn & H'). destruct b.
  - apply bind_ok in H. destruct H as (r & _ & H). apply bind_ok in H. destruct H as (rs & Hrs & H). injection H as <-. injection H' as <-.
    destruct (IH _ _ Hrs Hn). cbn [length]. lia.
  - injection H' as <-. destruct (IH _ _ H Hn). cbn [length]. lia.
Qed.

(** the rows' cells *)
Lemma rows_cells {A} (cell : A -> option string -> res text) ids (xs : list A) rows :
  Forall2 (fun x r => (do cells <- mapM (cell x) ids; Ok (line (spaced cells))) = Ok r) xs rows ->
  exists cellss, rows = map (fun cells => line (spaced cells)) cellss /\
    Forall2 (fun x cells => Forall2 (fun o t => cell x o = Ok t) ids cells) xs cellss.
Proof.
  induction 1 as [|x r xs rows Hr F (cs & -> & IH)]; [exists []; auto|].
  apply bind_ok in Hr. destruct Hr as (cells & Hc & Hr). injection Hr as <-. apply mapM_ok in Hc. exists (cells :: cs). split; [reflexivity|constructor; auto].
Qed.

Lemma good_row cells : Forall good_cell cells -> cells <> [] ->
  words (spaced cells) = cells /\ one_line (spaced cells) /\ is_line_functional (spaced cells) = true.
Proof.
  intros F Hne. assert (Fp : Forall plain cells) by (eapply Forall_impl; [|exact F]; intros t H; apply H). split; [now apply words_spaced|].
  split; [now apply printable_line, spaced_printable|]. destruct cells as [|c cells]; [congruence|].
  inversion F as [|? ? [Hp Hf] _]; subst. rewrite spaced_functional; [exact Hf|apply Hp].
Qed.

Lemma metas_length cs : length (metas cs) <= length cs.
Proof. induction cs as [|c cs IH]; [auto|]. unfold metas in *. cbn [flat_map length]. rewrite app_length. destruct c; cbn [length]; lia. Qed.
Lemma readable_length cs : readable cs -> 2 <= length cs.
Proof.
  intros (Hnd & Hs & Hd). pose proof (metas_length cs) as H. destruct (metas cs) as [|x [|y l]]; cbn [length] in *; [destruct Hs| |lia].
  destruct Hs as [->|[]]. destruct Hd as [Hd|[]]. discriminate.
Qed.
Lemma node_cats_length cs : existsb is_node_id cs = true -> existsb is_latitude cs = true -> 2 <= length cs.
Proof.
  destruct cs as [|c [|d cs]]; cbn [existsb length]; try discriminate; [|intros; lia].
  rewrite !orb_false_r. destruct c as [[]|[]|]; discriminate.
Qed.

Lemma functional_all ls : Forall (fun l => one_line l /\ is_line_functional l = true) ls -> functional_lines (concat (map line ls)) = ls.
Proof.
  intros F. rewrite <- (app_nil_r (concat _)), functional_concat by (eapply Forall_impl; [|exact F]; intros l H; apply H).
  change (functional_lines []) with (@nil text). rewrite app_nil_r. induction F as [|l ls [_ H] F IH]; [auto|]. cbn [filter]. rewrite H. now f_equal.
Qed.
Lemma functional_empty s : functional_lines (line [] ++ s) = functional_lines s.
Proof. reflexivity. Qed.

Lemma fmi_comments_dropped show_ids g w s : (forall l, ~ In LF (show_ids l)) ->
  functional_lines (concat (map line (fmi_comments show_ids g w)) ++ s) = functional_lines s.
Proof.
  intros H. unfold fmi_comments. cbn [map concat]. rewrite <- !app_assoc.
  assert (G : forall t r s, t = HASH :: r -> ~ In LF t -> functional_lines (line t ++ s) = functional_lines s).
  { intros t r s' -> Hn. apply functional_comment. intros Hi. apply Hn. now right. }
  assert (L : forall a, existsb (Ascii.eqb LF) a = false -> ~ In LF a).
  { intros a Ha Hi. rewrite <- not_true_iff_false in Ha. apply Ha. apply existsb_exists. exists LF. split; [auto|apply Ascii.eqb_refl]. }
  assert (LA : forall a b, ~ In LF a -> ~ In LF b -> ~ In LF (a ++ b)) by (intros a b Ha Hb Hi; apply in_app_or in Hi; tauto).
  erewrite G; [|reflexivity|apply L; reflexivity]. erewrite G; [|reflexivity|apply L; reflexivity]. erewrite G; [|reflexivity|apply L; reflexivity].
  erewrite G; [|reflexivity|apply LA; [apply L; reflexivity|apply H]]. erewrite G; [|reflexivity|apply LA; [apply L; reflexivity|apply H]].
  erewrite G; [|reflexivity|apply LA; [apply L; reflexivity|apply LA; [destruct (negb _ || _); apply L; reflexivity|apply L; reflexivity]]].
  reflexivity.
Qed.
