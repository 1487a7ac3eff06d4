(** What a run which ended well has read and written *)
From Coq Require Import String List Bool Arith NArith Lia.
From Verif Require Import Base Lib F64 ModelText ModelConfig ModelGraph ModelBuild ModelParsing ModelFmi ModelDijkstra ModelRoutingCfg ModelBalancing
  ModelRoutePairs ModelSmarts ModelWriting ModelEvaluating ModelYaml ModelDocs ModelProgram SpecProgram ProofProgram.
Import ListNotations.
Open Scope string_scope.
Open Scope list_scope.
Open Scope nat_scope.

Lemma next_ok {A B} (m : io A) (k : A -> io B) w w2 b :
  next m k w = (w2, Ok b) -> exists w1 a, m w = (w1, Ok a) /\ k a w1 = (w2, Ok b).
Proof. unfold next. destruct (m w) as [w1 [a|s| |]]; intros H; try discriminate. exists w1, a. auto. Qed.

Lemma lift_ok {A} (r : res A) w w' a : lift r w = (w', Ok a) -> w' = w /\ r = Ok a.
Proof. unfold lift. intros H. injection H as <- ->. auto. Qed.

Lemma ret_ok {A} (x : A) w w' a : ret x w = (w', Ok a) -> w' = w /\ x = a.
Proof. unfold ret. intros H. injection H as <- ->. auto. Qed.

Lemma same_refl w : same_files w w.
Proof. intros k. reflexivity. Qed.
Lemma same_trans w1 w2 w3 : same_files w1 w2 -> same_files w2 w3 -> same_files w1 w3.
Proof. intros H H' k. rewrite H'. apply H. Qed.
Lemma same_kept w w' : same_files w w' -> kept w w'.
Proof. intros H k t E. now rewrite H. Qed.
Lemma kept_refl w : kept w w.
Proof. intros k t E. exact E. Qed.
Lemma kept_trans w1 w2 w3 : kept w1 w2 -> kept w2 w3 -> kept w1 w3.
Proof. intros H H' k t E. apply H', H, E. Qed.

Lemma triple_kept {A} (m : io A) (Q : A -> Prop) w :
  triple (fun _ => False) (fun _ => True) w m Q -> kept w (fst (m w)).
Proof. intros H k t E. destruct (H w (inv_refl _ _ _)) as [[I _] _]. apply I; auto. Qed.

Section Files.
  Variable e : env.

  Lemma file_kept w w' p t : kept w w' -> file_at e w p = Some t -> file_at e w' p = Some t.
  Proof. intros H E. apply H, E. Qed.

  Lemma file_absent w w' p : kept w w' -> file_at e w' p = None -> file_at e w p = None.
  Proof. intros H E. destruct (file_at e w p) as [t|] eqn:E1; [|reflexivity]. rewrite (file_kept _ _ _ _ H E1) in E. discriminate. Qed.

  Lemma says_kept {A} w w' (read : yaml -> res A) p a : kept w w' -> says e w read p a -> says e w' read p a.
  Proof. intros H (t & y & H1 & H2 & H3). exists t, y. split; [eapply file_kept; eauto|auto]. Qed.

  Lemma says_back {A} w w' (read : yaml -> res A) p a t :
    kept w w' -> file_at e w p = Some t -> says e w' read p a -> says e w read p a.
  Proof.
    intros H Ht (t' & y & H1 & H2 & H3). rewrite (file_kept _ _ _ _ H Ht) in H1. injection H1 as <-. exists t, y. auto.
  Qed.

  Lemma read_ok fail p w w' t : (forall t, fail <> Ok t) -> read_file e fail p w = (w', Ok t) ->
    same_files w w' /\ file_at e w p = Some t.
  Proof.
    intros Hf H. apply next_ok in H. destruct H as (w1 & b & H1 & H). injection H1 as <- <-.
    destruct (e_fails e (w_ops w)).
    - apply lift_ok in H. destruct H as [_ H]. destruct (Hf _ H).
    - apply next_ok in H. destruct H as (w2 & o & H2 & H). injection H2 as <- <-. apply lift_ok in H. destruct H as [-> H].
      split; [intros k; reflexivity|]. unfold file_at. cbn in H. destruct (w_files w (e_resolve e p)); [congruence|]. destruct (Hf _ H).
  Qed.

  Lemma load_ok {A} (read : yaml -> res A) p w w' a : load e read p w = (w', Ok a) -> same_files w w' /\ says e w read p a.
  Proof.
    intros H. apply next_ok in H. destruct H as (w1 & x & H1 & H). apply lift_ok in H1. destruct H1 as [-> _].
    apply next_ok in H. destruct H as (w1 & t & H1 & H). apply read_ok in H1; [|discriminate]. destruct H1 as [S1 Ht].
    apply lift_ok in H. destruct H as [-> H]. split; [exact S1|]. destruct (e_yaml e t) as [y|] eqn:Ey; [|discriminate].
    exists t, y. auto.
  Qed.

  Lemma gens_ok cs : forall w w' gs, load_gens e cs w = (w', Ok gs) -> same_files w w' /\ Forall2 (with_rows e w) cs gs.
  Proof.
    assert (Hr : forall w w' c g, same_files w w' -> with_rows e w' c g -> with_rows e w c g).
    { intros w w' c g S1. destruct c; cbn; [auto|]. intros (t & Ht & E). exists t. unfold file_at in *. rewrite <- S1. auto. }
    induction cs as [|c cs IH]; cbn [load_gens]; intros w w' gs H.
    - apply ret_ok in H. destruct H as [-> <-]. split; [apply same_refl|constructor].
    - apply next_ok in H. destruct H as (w1 & g & H1 & H). apply next_ok in H. destruct H as (w2 & gs' & H2 & H).
      apply ret_ok in H. destruct H as [-> <-]. destruct (IH _ _ _ H2) as [S2 F].
      assert (S1 : same_files w w1 /\ with_rows e w c g).
      { destruct c; cbn [load_gen] in H1.
        - apply ret_ok in H1. destruct H1 as [-> <-]. split; [apply same_refl|reflexivity].
        - apply next_ok in H1. destruct H1 as (w3 & x & H3 & H1). apply lift_ok in H3. destruct H3 as [-> _].
          apply next_ok in H1. destruct H1 as (w3 & t & H3 & H1). apply read_ok in H3; [|discriminate]. destruct H3 as [S3 Ht].
          apply ret_ok in H1. destruct H1 as [-> <-]. split; [exact S3|]. exists t. auto. }
      destruct S1 as [S1 R]. split; [eapply same_trans; eauto|]. constructor; [exact R|].
      clear -F Hr S1. induction F; constructor; eauto.
  Qed.

  Lemma map_exts p x : find_supported_ext MAP_EXTS p = Ok x -> x = "fmi" \/ x = "pbf".
  Proof.
    unfold find_supported_ext. destruct (extension p) as [ext|]; [|discriminate]. cbn [MAP_EXTS find].
    destruct (text_eqb (T "pbf") (to_lower ext)); [intros H; injection H as <-; auto|].
    destruct (text_eqb (T "fmi") (to_lower ext)); [intros H; injection H as <-; auto|discriminate].
  Qed.

  Lemma parse_ok d w w' l : parse_graph e d w = (w', Ok l) -> same_files w w' /\ ld_doc l = d /\ graph_of e w d (ld_graph l).
  Proof.
    intros H. apply next_ok in H. destruct H as (w1 & x & H1 & H). apply lift_ok in H1. destruct H1 as [-> Hx].
    apply next_ok in H. destruct H as (w1 & u & H1 & H). apply lift_ok in H1. destruct H1 as [-> _].
    apply next_ok in H. destruct H as (w1 & t & H1 & H). apply read_ok in H1; [|discriminate]. destruct H1 as [S1 Ht].
    apply next_ok in H. destruct H as (w2 & gs & H2 & H). apply gens_ok in H2. destruct H2 as [S2 F].
    apply next_ok in H. destruct H as (w3 & g & H3 & H). apply lift_ok in H3. destruct H3 as [-> Hg].
    apply ret_ok in H. destruct H as [-> <-]. cbn [ld_doc ld_graph].
    split; [eapply same_trans; eauto|]. split; [reflexivity|]. exists t, gs. split; [exact Ht|]. split.
    - clear -F S1. induction F as [|c g cs gs R F IH]; constructor; [|exact IH]. destruct c; cbn in *; [exact R|].
      destruct R as (t & Ht & E). exists t. unfold file_at in *. rewrite <- S1. auto.
    - destruct (map_exts _ _ Hx) as [-> | ->]; [left|right]; auto.
  Qed.

  Lemma pairs_ok o w w' ps : load_pairs e o w = (w', Ok ps) -> same_files w w' /\ exists p, o = Some p /\ pairs_in e w p ps.
  Proof.
    destruct o as [p|]; cbn [load_pairs]; intros H; [|apply lift_ok in H; destruct H; discriminate].
    apply next_ok in H. destruct H as (w1 & x & H1 & H). apply lift_ok in H1. destruct H1 as [-> _].
    apply next_ok in H. destruct H as (w1 & t & H1 & H). apply read_ok in H1; [|discriminate]. destruct H1 as [S1 Ht].
    apply lift_ok in H. destruct H as [-> H]. split; [exact S1|]. exists p. split; [reflexivity|]. exists t. auto.
  Qed.

  Lemma new_ok p w w' u : must_be_new e p w = (w', Ok u) -> w' = w /\ file_at e w p = None.
  Proof.
    intros H. apply next_ok in H. destruct H as (w1 & x & H1 & H). apply next_ok in H1. destruct H1 as (w2 & o & H2 & H1).
    injection H2 as <- <-. apply ret_ok in H1. destruct H1 as [-> <-]. apply lift_ok in H. destruct H as [-> H].
    split; [reflexivity|]. unfold file_at. destruct (w_files w (e_resolve e p)); [discriminate|reflexivity].
  Qed.

  Lemma create_ok p c w w' u : create_new e p c w = (w', Ok u) -> kept w w' /\ exists t, c = Ok t /\ created e w w' p t.
  Proof.
    intros H. split.
    { assert (K := triple_kept (create_new e p c) (fun _ => True) w (triple_create e _ _ _ _ _ I)). now rewrite H in K. }
    apply next_ok in H. destruct H as (w1 & b & H1 & H). injection H1 as <- <-.
    destruct (e_fails e (w_ops w)); [apply lift_ok in H; destruct H; discriminate|].
    apply next_ok in H. destruct H as (w1 & o & H1 & H). injection H1 as <- <-. cbn [w_files] in H.
    destruct (w_files w (e_resolve e p)) eqn:E; [apply lift_ok in H; destruct H; discriminate|].
    apply next_ok in H. destruct H as (w1 & t & H1 & H). injection H1 as <- <-.
    apply next_ok in H. destruct H as (w1 & b & H1 & H). injection H1 as <- <-.
    destruct c as [c|s| |].
    - match type of H with (if ?b then _ else _) _ = _ => destruct b end.
      + apply next_ok in H. destruct H as (w1 & y & _ & H). apply lift_ok in H. destruct H; discriminate.
      + injection H as <- <-. exists c. split; [reflexivity|]. unfold created, file_at. cbn [w_files].
        split; [exact E|]. now rewrite String.eqb_refl.
    - apply next_ok in H. destruct H as (w1 & y & _ & H). apply lift_ok in H. destruct H; discriminate.
    - apply next_ok in H. destruct H as (w1 & y & _ & H). apply lift_ok in H. destruct H; discriminate.
    - apply next_ok in H. destruct H as (w1 & y & _ & H). apply lift_ok in H. destruct H; discriminate.
  Qed.

  Lemma created_kept w w1 w2 w3 p t : kept w w1 -> kept w2 w3 -> created e w1 w2 p t -> created e w w3 p t.
  Proof. intros H H' [A B]. split; [eapply file_absent; eauto|eapply file_kept; eauto]. Qed.

  Lemma write_graph_ok l d w w' u : write_graph e l d w = (w', Ok u) ->
    kept w w' /\ exists t, write_fmi (e_show_f64 e) (e_show_ids e) (ld_graph l) (node_cats (ld_doc l)) (gd_cfg d) = Ok t /\ created e w w' (gd_file d) t.
  Proof.
    intros H. apply next_ok in H. destruct H as (w1 & x & H1 & H). apply new_ok in H1. destruct H1 as [-> _].
    apply next_ok in H. destruct H as (w1 & y & H1 & H). apply lift_ok in H1. destruct H1 as [-> _]. now apply create_ok in H.
  Qed.

  Lemma edges_writer_ok g d w w' u : edges_writer e g d w = (w', Ok u) ->
    kept w w' /\ exists t, write_edges (e_show_f64 e) g (ed_cfg d) = Ok t /\ created e w w' (ed_file d) t.
  Proof.
    intros H. apply next_ok in H. destruct H as (w1 & y & H1 & H). apply lift_ok in H1. destruct H1 as [-> _]. now apply create_ok in H.
  Qed.

  Lemma write_edges_ok g d w w' u : write_edges_file e g d w = (w', Ok u) ->
    kept w w' /\ exists t, write_edges (e_show_f64 e) g (ed_cfg d) = Ok t /\ created e w w' (ed_file d) t.
  Proof.
    intros H. apply next_ok in H. destruct H as (w1 & x & H1 & H). apply new_ok in H1. destruct H1 as [-> _].
    now apply edges_writer_ok in H.
  Qed.

  Lemma write_pairs_ok l rc d w w' u : write_pairs_file e l rc d w = (w', Ok u) ->
    kept w w' /\ exists t, write_routes (e_pick e) (e_fuel e) (e_sample e (pr_seed d)) (e_fuel e) (ld_graph l) rc
                    (list_ascii_of_string (pd_map_file (ld_doc l))) (pr_seed d) (N.to_nat (pr_max d)) = Ok t /\ created e w w' (pr_file d) t.
  Proof.
    intros H. apply next_ok in H. destruct H as (w1 & x & H1 & H). apply new_ok in H1. destruct H1 as [-> _]. now apply create_ok in H.
  Qed.

  Lemma results_ok g dir m r w w' u : write_results e g dir m r w = (w', Ok u) -> exists infos loads,
    kept w w' /\
    write_evaluation (e_show_f64 e) g (ed_cfg (md_edges m)) (fst r) = Ok (infos, loads) /\
    created e w w' (join dir (ed_file (md_edges m))) infos /\ created e w w' (join dir ABS_WORKLOADS) loads /\
    (forall ps, snd r = Some ps -> exists t, write_smarts g ps = Ok t /\ created e w w' (join dir XML_FILE_NAME) t).
  Proof.
    intros H. apply next_ok in H. destruct H as (w1 & x & H1 & H).
    apply next_ok in H1. destruct H1 as (w2 & y & H2 & H1). apply edges_writer_ok in H2. cbn [ed_file ed_cfg] in H2.
    destruct H2 as (K2 & infos & Ei & Ci).
    destruct (edge_id_name (ec_categories (cfg_edges (g_cfg g)))) as [id|] eqn:Eid; [|apply lift_ok in H1; destruct H1; discriminate].
    apply next_ok in H1. destruct H1 as (w3 & z & H3 & H1). apply lift_ok in H3. destruct H3 as [-> _].
    apply create_ok in H1. destruct H1 as (K1 & loads & El & Cl).
    assert (K3 : kept w1 w' /\ forall ps, snd r = Some ps -> exists t, write_smarts g ps = Ok t /\ created e w1 w' (join dir XML_FILE_NAME) t).
    { destruct (snd r) as [ps|]; [apply create_ok in H; destruct H as (K & t & Et & C); split; [exact K|]; intros ps' E; injection E as <-; eauto|].
      apply ret_ok in H. destruct H as [-> _]. split; [apply kept_refl|discriminate]. }
    destruct K3 as [K3 Hs]. exists infos, loads. split; [eauto using kept_trans|]. split.
    { unfold write_evaluation. rewrite Ei. cbn [bind]. rewrite Eid, El. reflexivity. }
    split; [eapply created_kept; [apply kept_refl| |exact Ci]; eauto using kept_trans|].
    split; [eapply created_kept; [exact K2|exact K3|exact Cl]|].
    intros ps E. destruct (Hs ps E) as (t & Et & C). exists t. split; [exact Et|].
    eapply created_kept; [|apply kept_refl|exact C]. eauto using kept_trans.
  Qed.

  Lemma next_ext {A B} (m : io A) (k k' : A -> io B) w : (forall a w, k a w = k' a w) -> next m k w = next m k' w.
  Proof. intros H. unfold next. destruct (m w) as [w' [x| | |]]; auto. Qed.

  Lemma run_split a w : a_balancing a = false -> run e a w = run_front e a w.
  Proof.
    intros Hb. unfold run, run_front. rewrite Hb. do 5 (apply next_ext; intros ? ?).
    unfold next at 1. match goal with |- match ?m with _ => _ end = _ => destruct m as [w6 [r| | |]] end; reflexivity.
  Qed.
End Files.

Section Run.
  Variable e : env.

  Lemma front_ok a w w' rs : run_front e a w = (w', Ok rs) ->
    kept w w' /\ exists d g, says e w (read_parsing (e_scalars e)) (a_cfg a) d /\ graph_of e w d g /\ outputs e a w w' d g /\
    (a_evaluating a = true -> rs = []) /\
    (a_evaluating a = false -> a_routing a = false -> rs = []) /\
    (a_evaluating a = false -> a_routing a = true -> exists w1, kept w w1 /\ simply_routing e (a_cfg a) g w1 = (w', Ok rs)).
  Proof.
    intros H. assert (Kall : kept w w').
    { destruct (file_at e w (a_cfg a)) as [t0|] eqn:Ht.
      - assert (T := triple_front e w a t0 Ht w (inv_refl _ _ _)). rewrite H in T. destruct T as [[T _] _]. intros k t. apply T. auto.
      - destruct (load_missing e (read_parsing (e_scalars e)) (a_cfg a) w Ht) as [N _].
        apply next_ok in H. destruct H as (w1 & d & H1 & _). rewrite H1 in N. destruct (N d eq_refl). }
    split; [exact Kall|].
    apply next_ok in H. destruct H as (w1 & d & H1 & H). apply load_ok in H1. destruct H1 as [S1 Hd].
    apply next_ok in H. destruct H as (w2 & l & H2 & H). apply parse_ok in H2. destruct H2 as (S2 & El & Hg).
    assert (Ht : exists t0, file_at e w (a_cfg a) = Some t0) by (destruct Hd as (t & y & Ht & _); eauto).
    destruct Ht as [t0 Ht]. assert (K2 : kept w w2) by (apply same_kept; eauto using same_trans).
    assert (Hback : forall A w9 (read : yaml -> res A) x, kept w w9 -> says e w9 read (a_cfg a) x -> says e w read (a_cfg a) x).
    { intros A w9 read x K. eapply says_back; eauto. }
    apply next_ok in H. destruct H as (w3 & u3 & H3 & H).
    assert (G3 : kept w2 w3 /\ (a_graph a = true -> exists gd t, says e w (read_writing_graph (e_scalars e)) (a_cfg a) gd /\
      write_fmi (e_show_f64 e) (e_show_ids e) (ld_graph l) (node_cats d) (gd_cfg gd) = Ok t /\ created e w w3 (gd_file gd) t)).
    { destruct (a_graph a); cbn [when] in H3; [|apply ret_ok in H3; destruct H3 as [-> _]; split; [apply kept_refl|discriminate]].
      apply next_ok in H3. destruct H3 as (v & gd & L & H3). apply load_ok in L. destruct L as [S L].
      apply write_graph_ok in H3. destruct H3 as (K & t & E & C). rewrite El in E. split; [eauto using kept_trans, same_kept|].
      intros _. exists gd, t. split; [eapply Hback; eauto|]. split; [exact E|].
      eapply created_kept; [|apply kept_refl|exact C]. eauto using kept_trans, same_kept. }
    destruct G3 as [K3 G3].
    apply next_ok in H. destruct H as (w4 & u4 & H4 & H).
    assert (G4 : kept w3 w4 /\ (a_edges a = true -> exists ed t, says e w (read_writing_edges (e_scalars e)) (a_cfg a) ed /\
      write_edges (e_show_f64 e) (ld_graph l) (ed_cfg ed) = Ok t /\ created e w w4 (ed_file ed) t)).
    { destruct (a_edges a); cbn [when] in H4; [|apply ret_ok in H4; destruct H4 as [-> _]; split; [apply kept_refl|discriminate]].
      apply next_ok in H4. destruct H4 as (v & ed & L & H4). apply load_ok in L. destruct L as [S L].
      apply write_edges_ok in H4. destruct H4 as (K & t & E & C). split; [eauto using kept_trans, same_kept|].
      intros _. exists ed, t. split; [eapply Hback; [|exact L]; eauto using kept_trans|]. split; [exact E|].
      eapply created_kept; [|apply kept_refl|exact C]. eauto using kept_trans, same_kept. }
    destruct G4 as [K4 G4].
    apply next_ok in H. destruct H as (w5 & u5 & H5 & H).
    assert (G5 : kept w4 w5 /\ (a_pairs a = true -> exists o rc pd t,
      routing_says e w (a_cfg a) (ld_graph l) o rc /\ says e w (read_writing_pairs (e_scalars e)) (a_cfg a) pd /\
      write_routes (e_pick e) (e_fuel e) (e_sample e (pr_seed pd)) (e_fuel e) (ld_graph l) rc (list_ascii_of_string (pd_map_file d))
                 (pr_seed pd) (N.to_nat (pr_max pd)) = Ok t /\ created e w w5 (pr_file pd) t)).
    { destruct (a_pairs a); cbn [when] in H5; [|apply ret_ok in H5; destruct H5 as [-> _]; split; [apply kept_refl|discriminate]].
      apply next_ok in H5. destruct H5 as (v & rc & L & H5). apply load_ok in L. destruct L as [S L].
      apply next_ok in H5. destruct H5 as (v' & pd & L' & H5). apply load_ok in L'. destruct L' as [S' L'].
      apply write_pairs_ok in H5. destruct H5 as (K & t & E & C). rewrite El in E. split; [eauto using kept_trans, same_kept|].
      intros _. exists (fst rc), (snd rc), pd, t. split; [eapply Hback; [|unfold routing_says; rewrite <- surjective_pairing; exact L]; eauto using kept_trans|].
      split; [eapply Hback; [|exact L']; eauto 6 using kept_trans, same_kept|]. split; [exact E|].
      eapply created_kept; [|apply kept_refl|exact C]. eauto 7 using kept_trans, same_kept. }
    destruct G5 as [K5 G5]. exists d, (ld_graph l). split; [exact Hd|]. split.
    { destruct Hg as (t & gens & A & B & C). unfold file_at in A. rewrite S1 in A. exists t, gens. split; [exact A|]. split; [|exact C].
      clear -B S1. induction B as [|c g cs gs R F IH]; constructor; [|exact IH]. destruct c; cbn in *; [exact R|].
      destruct R as (t & Ht & E). exists t. unfold file_at in *. rewrite S1 in Ht. auto. }
    assert (K25 : kept w w5) by eauto 6 using kept_trans.
    assert (Kend : kept w5 w' /\ (a_evaluating a = true -> exists p rc ev pairs values paths infos loads,
    routing_says e w (a_cfg a) (ld_graph l) (Some p) rc /\ says e w (read_evaluating (e_scalars e)) (a_cfg a) ev /\
    pairs_in e w' p pairs /\
    e_work_off e (ld_graph l) rc pairs (ev_threads ev) (ev_seed ev) 0 (md_smarts (ev_monitoring ev)) = Ok (values, paths) /\
    write_evaluation (e_show_f64 e) (ld_graph l) (ed_cfg (md_edges (ev_monitoring ev))) values = Ok (infos, loads) /\
    created e w w' (join (ev_results ev) (ed_file (md_edges (ev_monitoring ev)))) infos /\
    created e w w' (join (ev_results ev) "abs_workloads.csv") loads /\
    (forall ps, paths = Some ps -> exists t, write_smarts (ld_graph l) ps = Ok t /\ created e w w' (join (ev_results ev) "smarts.xml") t)) /\
    (a_evaluating a = true -> rs = []) /\
    (a_evaluating a = false -> a_routing a = false -> rs = []) /\
    (a_evaluating a = false -> a_routing a = true -> exists w1, kept w w1 /\ simply_routing e (a_cfg a) (ld_graph l) w1 = (w', Ok rs))).
    { destruct (a_evaluating a).
      - apply next_ok in H. destruct H as (w6 & u6 & H6 & H). apply ret_ok in H. destruct H as [-> <-].
        apply next_ok in H6. destruct H6 as (v1 & rc & L1 & H6). apply load_ok in L1. destruct L1 as [S3 L1].
        apply next_ok in H6. destruct H6 as (v2 & ev & L2 & H6). apply load_ok in L2. destruct L2 as [S4 L2].
        apply next_ok in H6. destruct H6 as (v3 & x1 & N1 & H6). apply new_ok in N1. destruct N1 as [-> _].
        apply next_ok in H6. destruct H6 as (v3 & x2 & N1 & H6). apply new_ok in N1. destruct N1 as [-> _].
        apply next_ok in H6. destruct H6 as (v3 & x3 & N1 & H6). apply new_ok in N1. destruct N1 as [-> _].
        apply next_ok in H6. destruct H6 as (v3 & ps & P & H6). apply pairs_ok in P. destruct P as (S5 & p & Ep & (t & Hp & Hps)).
        apply next_ok in H6. destruct H6 as (v4 & r & R & H6). apply lift_ok in R. destruct R as [-> R].
        apply next_ok in H6. destruct H6 as (v5 & x4 & D & H6).
        assert (S6 : same_files v3 v5).
        { unfold create_dir in D. apply next_ok in D. destruct D as (v6 & b & D1 & D). injection D1 as <- <-. apply lift_ok in D. destruct D as [-> _].
          intros k. reflexivity. }
        assert (K6 : kept w5 v5) by (apply same_kept; eauto 6 using same_trans).
        apply results_ok in H6. destruct H6 as (infos & loads & K7 & E & C1 & C2 & C3).
        assert (Kv : kept w v5) by eauto using kept_trans.
        split; [eauto using kept_trans|]. split; [|repeat split; auto; discriminate].
        intros _. exists p, (snd rc), ev, ps, (fst r), (snd r), infos, loads. split.
        { eapply Hback; [|unfold routing_says; rewrite <- Ep, <- surjective_pairing; exact L1]. exact K25. }
        split; [eapply Hback; [|exact L2]; eauto using kept_trans, same_kept|]. split.
        { exists t. split; [|exact Hps]. apply K7. unfold file_at in Hp. apply (same_kept v2); [|exact Hp]. eauto using same_trans. }
        split; [rewrite <- surjective_pairing; exact R|]. split; [exact E|].
        split; [eapply created_kept; [exact Kv|apply kept_refl|exact C1]|].
        split; [eapply created_kept; [exact Kv|apply kept_refl|exact C2]|].
        intros qs Eq. destruct (C3 qs Eq) as (x & Ex & C4). exists x. split; [exact Ex|].
        eapply created_kept; [exact Kv|apply kept_refl|exact C4].
      - destruct (a_routing a).
        + split.
          * assert (K := triple_kept (simply_routing e (a_cfg a) (ld_graph l)) (fun _ => True) w5 (triple_routing e _ _ _ _ _)). now rewrite H in K.
          * repeat split; try discriminate. intros _ _. exists w5. auto.
        + apply ret_ok in H. destruct H as [-> <-]. split; [apply kept_refl|]. repeat split; auto; discriminate. }
    destruct Kend as (K6 & G6 & R1 & R2 & R3). split; [|repeat split; assumption]. constructor.
    - intros Ha. destruct (G3 Ha) as (gd & t & A & B & C). exists gd, t. split; [exact A|]. split; [exact B|].
      eapply created_kept; [apply kept_refl| |exact C]. eauto using kept_trans.
    - intros Ha. destruct (G4 Ha) as (gd & t & A & B & C). exists gd, t. split; [exact A|]. split; [exact B|].
      eapply created_kept; [apply kept_refl| |exact C]. eauto using kept_trans.
    - intros Ha. destruct (G5 Ha) as (o & rc & gd & t & A & A' & B & C). exists o, rc, gd, t. split; [exact A|]. split; [exact A'|]. split; [exact B|].
      eapply created_kept; [apply kept_refl| |exact C]. eauto using kept_trans.
    - exact G6.
  Qed.

  (** *** Running again *)
  Let F (k : string) : Prop := False.

  Lemma triple_there w0 p t : file_at e w0 p = Some t -> triple F F w0 (must_be_new e p) (fun _ => False).
  Proof.
    intros H w I. split; [apply (triple_new e F F w0 p w I)|]. intros u E.
    destruct (must_be_new e p w) as [w' r] eqn:Em. cbn [snd] in E. subst r. apply new_ok in Em. destruct Em as [_ N].
    destruct I as [I _]. unfold file_at in *. rewrite (I _ _ (fun f => f) H) in N. discriminate.
  Qed.

  Lemma says_fun {A} w (read : yaml -> res A) p a b : says e w read p a -> says e w read p b -> a = b.
  Proof. intros (t & y & H1 & H2 & H3) (t' & y' & G1 & G2 & G3). congruence. Qed.

  Lemma front_again a w w' rs w2 : run_front e a w = (w', Ok rs) -> kept w' w2 ->
    triple F F w2 (run_front e a)
      (fun _ => a_graph a = false /\ a_edges a = false /\ a_pairs a = false /\ a_evaluating a = false).
  Proof.
    intros H K. destruct (front_ok a w w' rs H) as (K0 & d & g & Hd & Hg & Ho & _).
    assert (Ht : exists t0, file_at e w (a_cfg a) = Some t0) by (destruct Hd as (t & y & Ht & _); eauto). destruct Ht as [t0 Ht].
    assert (Ht2 : file_at e w2 (a_cfg a) = Some t0) by (apply K, K0, Ht).
    assert (K2 : kept w w2) by eauto using kept_trans.
    assert (L : forall A (read : yaml -> res A), triple F F w2 (load e read (a_cfg a)) (says e w read (a_cfg a))).
    { intros A read. eapply triple_weak; [|eapply triple_load; [exact Ht2|auto]]. intros x. apply (says_back e w w2 read _ x t0 K2 Ht). }
    eapply triple_next; [apply triple_load'|]. intros d' _. eapply triple_next; [apply triple_parse|]. intros l _.
    apply triple_next with (P := fun _ => a_graph a = false).
    { destruct (a_graph a) eqn:Ea; cbn [when]; [|now apply triple_ret]. eapply triple_next; [apply L|]. intros gd Hgd.
      destruct (out_graph _ _ _ _ _ _ Ho Ea) as (gd' & t & A & B & C). assert (gd' = gd) by (eapply says_fun; eauto). subst gd'.
      destruct C as [_ C]. eapply triple_next; [eapply triple_there; eapply file_kept; [exact K|exact C]|]. intros ? []. }
    intros _ E1. apply triple_next with (P := fun _ => a_edges a = false).
    { destruct (a_edges a) eqn:Ea; cbn [when]; [|now apply triple_ret]. eapply triple_next; [apply L|]. intros gd Hgd.
      destruct (out_edges _ _ _ _ _ _ Ho Ea) as (gd' & t & A & B & C). assert (gd' = gd) by (eapply says_fun; eauto). subst gd'.
      destruct C as [_ C]. eapply triple_next; [eapply triple_there; eapply file_kept; [exact K|exact C]|]. intros ? []. }
    intros _ E2. apply triple_next with (P := fun _ => a_pairs a = false).
    { destruct (a_pairs a) eqn:Ea; cbn [when]; [|now apply triple_ret]. eapply triple_next; [apply triple_load'|]. intros rc _.
      eapply triple_next; [apply L|]. intros gd Hgd.
      destruct (out_pairs _ _ _ _ _ _ Ho Ea) as (o & rc' & gd' & t & _ & A & B & C). assert (gd' = gd) by (eapply says_fun; eauto). subst gd'.
      destruct C as [_ C]. eapply triple_next; [eapply triple_there; eapply file_kept; [exact K|exact C]|]. intros ? []. }
    intros _ E3. destruct (a_evaluating a) eqn:Ea.
    - apply triple_next with (P := fun _ => False); [|intros ? []].
      eapply triple_next; [apply triple_load'|]. intros rc _. eapply triple_next; [apply L|]. intros ev Hev.
      destruct (out_evaluation _ _ _ _ _ _ Ho Ea) as (p & rc' & ev' & pairs & values & paths & infos & loads & _ & A & _ & _ & _ & C & _).
      assert (ev' = ev) by (eapply says_fun; eauto). subst ev'.
      destruct C as [_ C]. eapply triple_next; [eapply triple_there; eapply file_kept; [exact K|exact C]|]. intros ? [].
    - destruct (a_routing a); [eapply triple_weak; [|apply triple_routing]|apply triple_ret]; auto.
  Qed.
End Run.

Lemma run_front_then e a w :
  run e a w = (let! rs <- run_front e a; let! _ <- when (a_balancing a) (let! _ <- balancing e (a_cfg a); ret tt); ret rs) w.
Proof.
  unfold run, run_front.
  assert (A : forall A B C (m : io A) (k : A -> io B) (f : B -> io C) v, next (next m k) f v = next m (fun x => next (k x) f) v).
  { intros. unfold next. destruct (m v) as [v' [x| | |]]; reflexivity. }
  rewrite !A. do 5 (apply next_ext; intros ? ?; rewrite ?A). reflexivity.
Qed.

(** *** The named files can be listed *)
Section Names.
  Variable e : env.

  Definition said {A} (w : world) (read : yaml -> res A) (p : string) : list A :=
    match file_at e w p with
    | Some t => match e_yaml e t with Some y => match read y with Ok a => [a] | _ => [] end | None => [] end
    | None => []
    end.

  Lemma said_iff {A} w (read : yaml -> res A) p a : In a (said w read p) <-> says e w read p a.
  Proof.
    unfold said, says. split.
    - destruct (file_at e w p) as [t|]; [|intros []]. destruct (e_yaml e t) as [y|] eqn:Ey; [|intros []].
      destruct (read y) as [b| | |] eqn:Er; intros []; subst; [|contradiction]. exists t, y. auto.
    - intros (t & y & -> & -> & ->). now left.
  Qed.

  Definition names (w : world) (a : args) : list string :=
    (if a_graph a then map gd_file (said w (read_writing_graph (e_scalars e)) (a_cfg a)) else []) ++
    (if a_edges a then map ed_file (said w (read_writing_edges (e_scalars e)) (a_cfg a)) else []) ++
    (if a_pairs a then map pr_file (said w (read_writing_pairs (e_scalars e)) (a_cfg a)) else []) ++
    (if a_evaluating a then
       concat (map (fun d => [join (ev_results d) (ed_file (md_edges (ev_monitoring d))); join (ev_results d) "abs_workloads.csv";
                              join (ev_results d) "smarts.xml"])
                   (said w (read_evaluating (e_scalars e)) (a_cfg a))) else []).

  Lemma names_iff w a p : In p (names w a) <-> named_output e w a p.
  Proof.
    unfold names. rewrite !in_app_iff. split.
    - intros [H|[H|[H|H]]].
      + destruct (a_graph a) eqn:Ea; [|destruct H]. apply in_map_iff in H. destruct H as (d & <- & H). apply said_iff in H. now constructor.
      + destruct (a_edges a) eqn:Ea; [|destruct H]. apply in_map_iff in H. destruct H as (d & <- & H). apply said_iff in H. now constructor.
      + destruct (a_pairs a) eqn:Ea; [|destruct H]. apply in_map_iff in H. destruct H as (d & <- & H). apply said_iff in H. now constructor.
      + destruct (a_evaluating a) eqn:Ea; [|destruct H]. apply in_concat in H. destruct H as (l & Hl & H). apply in_map_iff in Hl.
        destruct Hl as (d & <- & Hd). apply said_iff in Hd. destruct H as [<-|[<-|[<-|[]]]]; [now apply named_infos|now apply named_workloads|now apply named_smarts].
    - intros H. destruct H as [d E H|d E H|d E H|d E H|d E H|d E H]; apply said_iff in H; rewrite E.
      + left. now apply in_map.
      + right; left. now apply in_map.
      + right; right; left. now apply in_map.
      + right; right; right. apply in_concat. eexists. split; [apply in_map; exact H|cbn; auto].
      + right; right; right. apply in_concat. eexists. split; [apply in_map; exact H|cbn; auto].
      + right; right; right. apply in_concat. eexists. split; [apply in_map; exact H|cbn; auto].
  Qed.

  Lemma named_dec w a k : {exists p, k = e_resolve e p /\ named_output e w a p} + {~ exists p, k = e_resolve e p /\ named_output e w a p}.
  Proof.
    destruct (in_dec string_dec k (map (e_resolve e) (names w a))) as [H|H].
    - left. apply in_map_iff in H. destruct H as (p & <- & H). exists p. split; [reflexivity|]. now apply names_iff.
    - right. intros (p & -> & Hp). apply H. apply in_map. now apply names_iff.
  Qed.
End Names.
