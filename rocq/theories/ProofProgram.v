(** What the program does with files *)
From Coq Require Import String List Bool Arith NArith Lia.
From Verif Require Import Base Lib F64 ModelText ModelConfig ModelGraph ModelRoutingCfg ModelEvaluating ModelYaml ModelDocs ModelProgram SpecProgram.
Import ListNotations.
Open Scope string_scope.
Open Scope list_scope.
Open Scope nat_scope.

(** *** An invariant of the files: those in [O] may be overwritten, those in [N]
    may be created. *)
Definition inv (O N : string -> Prop) (w0 w : world) : Prop :=
  (forall k t, ~ O k -> w_files w0 k = Some t -> w_files w k = Some t) /\
  (forall k, ~ O k -> ~ N k -> w_files w k = w_files w0 k).

Definition triple {A} (O N : string -> Prop) (w0 : world) (m : io A) (Q : A -> Prop) : Prop :=
  forall w, inv O N w0 w -> inv O N w0 (fst (m w)) /\ forall a, snd (m w) = Ok a -> Q a.

Lemma inv_refl O N w : inv O N w w.
Proof. split; auto. Qed.

Lemma inv_weaken (O N O' N' : string -> Prop) w0 w :
  (forall k, O k -> O' k) -> (forall k, N k -> N' k) -> inv O N w0 w -> inv O' N' w0 w.
Proof. intros HO HN [A B]. split; intros; [apply A|apply B]; auto. Qed.

Lemma triple_ret {A} O N w0 (a : A) (Q : A -> Prop) : Q a -> triple O N w0 (ret a) Q.
Proof. intros H w I. split; [exact I|]. cbn. intros b E. injection E as <-. exact H. Qed.

Lemma triple_lift {A} O N w0 (r : res A) : triple O N w0 (lift r) (fun a => r = Ok a).
Proof. intros w I. split; [exact I|]. auto. Qed.

Lemma triple_lift' {A} O N w0 (r : res A) : triple O N w0 (lift r) (fun _ => True).
Proof. intros w I. split; [exact I|]. auto. Qed.

Lemma triple_next {A B} O N w0 (m : io A) (k : A -> io B) P Q :
  triple O N w0 m P -> (forall a, P a -> triple O N w0 (k a) Q) -> triple O N w0 (next m k) Q.
Proof.
  intros Hm Hk w I. unfold next. specialize (Hm w I). destruct (m w) as [w1 [a|s| |]]; cbn [fst snd] in *;
    try (split; [apply Hm|intros b E; discriminate]).
  destruct Hm as [I1 HP]. apply Hk; [now apply HP|exact I1].
Qed.

Lemma triple_weak {A} O N w0 (m : io A) (P Q : A -> Prop) :
  (forall a, P a -> Q a) -> triple O N w0 m P -> triple O N w0 m Q.
Proof. intros H Hm w I. destruct (Hm w I) as [A1 A2]. split; [exact A1|]. intros a E. apply H, A2, E. Qed.

Lemma triple_true {A} O N w0 (m : io A) (P : A -> Prop) : triple O N w0 m P -> triple O N w0 m (fun _ => True).
Proof. apply triple_weak. auto. Qed.

Lemma triple_if {A} O N w0 (b : bool) (m m' : io A) Q :
  (b = true -> triple O N w0 m Q) -> (b = false -> triple O N w0 m' Q) -> triple O N w0 (if b then m else m') Q.
Proof. destruct b; auto. Qed.

Lemma triple_put (O N : string -> Prop) w0 k t : O k -> triple O N w0 (put k t) (fun _ => True).
Proof.
  intros Hk w [A B]. split; [|auto]. cbn. split; intros j; cbn; destruct (String.eqb_spec j k) as [->|D]; auto; contradiction.
Qed.

Section Files.
  Variable e : env.

  Lemma triple_outside (O N : string -> Prop) w0 : triple O N w0 (outside e) (fun _ => True).
  Proof. intros w I. split; [exact I|auto]. Qed.

  Lemma triple_torn (O N : string -> Prop) w0 : triple O N w0 (torn e) (fun _ => True).
  Proof. intros w I. split; [exact I|auto]. Qed.

  Lemma triple_look (O N : string -> Prop) w0 p :
    triple O N w0 (look e p) (fun o => forall t, ~ O (e_resolve e p) -> file_at e w0 p = Some t -> o = Some t).
  Proof.
    intros w I. split; [exact I|]. cbn. intros o E. injection E as <-. intros t Ho Ht. apply (proj1 I); auto.
  Qed.

  Lemma triple_exists (O N : string -> Prop) w0 p : triple O N w0 (exists_ e p) (fun _ => True).
  Proof. eapply triple_next; [apply triple_look|]. intros o _. now apply triple_ret. Qed.

  Lemma triple_read (O N : string -> Prop) w0 fail p :
    (forall t, fail <> Ok t) ->
    triple O N w0 (read_file e fail p) (fun t => forall t', ~ O (e_resolve e p) -> file_at e w0 p = Some t' -> t = t').
  Proof.
    intros Hf. eapply triple_next; [apply triple_outside|]. intros b _. apply triple_if; intros _.
    - eapply triple_weak; [|apply triple_lift]. intros t E. exfalso. exact (Hf _ E).
    - eapply triple_next; [apply triple_look|]. intros o Ho. cbn beta in Ho. eapply triple_weak; [|apply triple_lift].
      intros t E t' H1 H2. specialize (Ho t' H1 H2). subst o. cbn in E. congruence.
  Qed.

  Lemma triple_load {A} (O N : string -> Prop) w0 (read : yaml -> res A) p t :
    file_at e w0 p = Some t -> ~ O (e_resolve e p) -> triple O N w0 (load e read p) (says e w0 read p).
  Proof.
    intros Ht Ho. eapply triple_next; [apply triple_lift'|]. intros x _.
    eapply triple_next; [apply triple_read; discriminate|]. intros t' H. specialize (H _ Ho Ht). subst t'.
    eapply triple_weak; [|apply triple_lift]. cbn. intros a E. destruct (e_yaml e t) as [y|] eqn:Ey; [|discriminate].
    exists t, y. auto.
  Qed.

  Lemma triple_load' {A} (O N : string -> Prop) w0 (read : yaml -> res A) p : triple O N w0 (load e read p) (fun _ => True).
  Proof.
    eapply triple_next; [apply triple_lift'|]. intros x _.
    eapply triple_next; [apply triple_read; discriminate|]. intros t' H. apply triple_lift'.
  Qed.

  Lemma triple_create (O N : string -> Prop) w0 p c : N (e_resolve e p) -> triple O N w0 (create_new e p c) (fun _ => True).
  Proof.
    intros Hn w I. split; [|auto]. unfold create_new, next, outside, look, lift, torn, put. cbn [fst snd w_files w_ops].
    destruct (e_fails e (w_ops w)); cbn [fst snd w_files w_ops]; [exact I|].
    destruct (w_files w (e_resolve e p)) as [t|] eqn:E; cbn [fst snd w_files w_ops]; [exact I|].
    assert (J : forall t n, inv O N w0 {| w_files := fun k => if String.eqb k (e_resolve e p) then Some t else w_files w k; w_ops := n |}).
    { intros t n. destruct I as [A B]. split; intros k; cbn.
      - intros t' Ho Hk. destruct (String.eqb_spec k (e_resolve e p)) as [->|D]; [|auto]. rewrite (A _ _ Ho Hk) in E. discriminate.
      - intros Ho Hk. destruct (String.eqb_spec k (e_resolve e p)) as [->|D]; [contradiction|auto]. }
    destruct c; cbn [fst snd w_files w_ops]; try apply J. destruct (e_fails e (S (w_ops w))); cbn [fst snd w_files w_ops]; apply J.
  Qed.

  Lemma triple_copy (O N : string -> Prop) w0 a b : O (e_resolve e b) -> triple O N w0 (copy_file e a b) (fun _ => True).
  Proof.
    intros Ho. eapply triple_next; [apply triple_outside|]. intros x _. apply triple_if; intros _; [apply triple_lift'|].
    eapply triple_next; [apply triple_look|]. intros [c|] _; [|apply triple_lift'].
    eapply triple_next; [apply triple_torn|]. intros t _. eapply triple_next; [apply triple_outside|]. intros y _.
    apply triple_if; intros _; [|now apply triple_put]. eapply triple_next; [now apply triple_put|]. intros u _. apply triple_lift'.
  Qed.

  Lemma triple_dir (O N : string -> Prop) w0 p : triple O N w0 (create_dir e p) (fun _ => True).
  Proof. eapply triple_next; [apply triple_outside|]. intros x _. apply triple_lift'. Qed.

  Lemma triple_gens (O N : string -> Prop) w0 cs : triple O N w0 (load_gens e cs) (fun _ => True).
  Proof.
    induction cs as [|c cs IH]; [now apply triple_ret|]. cbn [load_gens].
    apply triple_next with (P := fun _ => True).
    - destruct c; cbn [load_gen]; [now apply triple_ret|].
      eapply triple_next; [apply triple_lift'|]. intros x _. eapply triple_next; [apply triple_read; discriminate|].
      intros t _. now apply triple_ret.
    - intros g _. eapply triple_next; [apply IH|]. intros gs _. now apply triple_ret.
  Qed.

  Lemma triple_parse (O N : string -> Prop) w0 d : triple O N w0 (parse_graph e d) (fun l => ld_doc l = d).
  Proof.
    eapply triple_next; [apply triple_lift'|]. intros x _. eapply triple_next; [apply triple_lift'|]. intros y _.
    eapply triple_next; [apply triple_read; discriminate|]. intros t _. eapply triple_next; [apply triple_gens|]. intros gs _.
    eapply triple_next; [apply triple_lift'|]. intros g _. now apply triple_ret.
  Qed.

  Lemma triple_pairs (O N : string -> Prop) w0 o : triple O N w0 (load_pairs e o) (fun _ => True).
  Proof.
    destruct o; [|apply triple_lift']. eapply triple_next; [apply triple_lift'|]. intros x _.
    eapply triple_next; [apply triple_read; discriminate|]. intros t _. apply triple_lift'.
  Qed.

  Lemma triple_new (O N : string -> Prop) w0 p : triple O N w0 (must_be_new e p) (fun _ => True).
  Proof. eapply triple_next; [apply triple_exists|]. intros x _. apply triple_lift'. Qed.

  Lemma triple_graph_writer (O N : string -> Prop) w0 l d : N (e_resolve e (gd_file d)) -> triple O N w0 (graph_writer e l d) (fun _ => True).
  Proof. intros H. eapply triple_next; [apply triple_lift'|]. intros x _. now apply triple_create. Qed.
  Lemma triple_write_graph (O N : string -> Prop) w0 l d : N (e_resolve e (gd_file d)) -> triple O N w0 (write_graph e l d) (fun _ => True).
  Proof. intros H. eapply triple_next; [apply triple_new|]. intros x _. now apply triple_graph_writer. Qed.
  Lemma triple_edges_writer (O N : string -> Prop) w0 g d : N (e_resolve e (ed_file d)) -> triple O N w0 (edges_writer e g d) (fun _ => True).
  Proof. intros H. eapply triple_next; [apply triple_lift'|]. intros x _. now apply triple_create. Qed.
  Lemma triple_write_edges (O N : string -> Prop) w0 g d : N (e_resolve e (ed_file d)) -> triple O N w0 (write_edges_file e g d) (fun _ => True).
  Proof. intros H. eapply triple_next; [apply triple_new|]. intros x _. now apply triple_edges_writer. Qed.
  Lemma triple_write_pairs (O N : string -> Prop) w0 l rc d : N (e_resolve e (pr_file d)) -> triple O N w0 (write_pairs_file e l rc d) (fun _ => True).
  Proof. intros H. eapply triple_next; [apply triple_new|]. intros x _. now apply triple_create. Qed.

  Lemma triple_results (O N : string -> Prop) w0 g dir m r :
    N (e_resolve e (join dir (ed_file (md_edges m)))) -> N (e_resolve e (join dir ABS_WORKLOADS)) -> N (e_resolve e (join dir XML_FILE_NAME)) ->
    triple O N w0 (write_results e g dir m r) (fun _ => True).
  Proof.
    intros H1 H2 H3. apply triple_next with (P := fun _ => True).
    - eapply triple_next; [now apply triple_edges_writer|]. intros x _. destruct (edge_id_name _); [|apply triple_lift'].
      eapply triple_next; [apply triple_lift'|]. intros y _. now apply triple_create.
    - intros x _. destruct (snd r); [now apply triple_create|now apply triple_ret].
  Qed.

  (** *** The program without balancing *)
  Lemma triple_routing (O N : string -> Prop) w0 cfg g : triple O N w0 (simply_routing e cfg g) (fun _ => True).
  Proof.
    eapply triple_next; [apply triple_load'|]. intros rc _. eapply triple_next; [apply triple_pairs|]. intros ps _.
    eapply triple_next; [apply triple_lift'|]. intros r _. now apply triple_ret.
  Qed.

  Section Main.
    Variable w0 : world.
    Variable a : args.
    Variable t0 : text.
    Hypothesis Ht : file_at e w0 (a_cfg a) = Some t0.
    Let N (k : string) : Prop := exists p, k = e_resolve e p /\ named_output e w0 a p.
    Let O (k : string) : Prop := False.

    Lemma says_load {A} (read : yaml -> res A) : triple O N w0 (load e read (a_cfg a)) (says e w0 read (a_cfg a)).
    Proof. eapply triple_load; [exact Ht|]. intros []. Qed.

    Lemma triple_evaluating g : a_evaluating a = true -> triple O N w0 (evaluating_routing e (a_cfg a) g) (fun _ => True).
    Proof.
      intros Ha. eapply triple_next; [apply triple_load'|]. intros rc _. eapply triple_next; [apply says_load|]. intros d Hd.
      do 3 (eapply triple_next; [apply triple_new|]; intros ? _).
      eapply triple_next; [apply triple_pairs|]. intros ps _. eapply triple_next; [apply triple_lift'|]. intros r _.
      eapply triple_next; [apply triple_dir|]. intros ? _.
      apply triple_results; eexists; (split; [reflexivity|]); [eapply named_infos|eapply named_workloads|eapply named_smarts]; eauto.
    Qed.

    (** everything up to balancing *)
    Definition run_front : io (list report) :=
      let! d <- load e (read_parsing (e_scalars e)) (a_cfg a);
      let! l <- parse_graph e d;
      let! _ <- when (a_graph a) (
        let! d <- load e (read_writing_graph (e_scalars e)) (a_cfg a);
        write_graph e l d);
      let! _ <- when (a_edges a) (
        let! d <- load e (read_writing_edges (e_scalars e)) (a_cfg a);
        write_edges_file e (ld_graph l) d);
      let! _ <- when (a_pairs a) (
        let! rc <- load_routing e (ld_graph l) (a_cfg a);
        let! d <- load e (read_writing_pairs (e_scalars e)) (a_cfg a);
        write_pairs_file e l (snd rc) d);
      (if a_evaluating a then let! _ <- evaluating_routing e (a_cfg a) (ld_graph l); ret []
       else if a_routing a then simply_routing e (a_cfg a) (ld_graph l)
       else ret []).

    Lemma triple_front : triple O N w0 run_front (fun _ => True).
    Proof.
      eapply triple_next; [apply triple_load'|]. intros d _. eapply triple_next; [apply triple_parse|]. intros l _.
      apply triple_next with (P := fun _ => True).
      { apply triple_if; intros Ha; [|now apply triple_ret]. eapply triple_next; [apply says_load|]. intros d' Hd.
        apply triple_write_graph. exists (gd_file d'). split; [reflexivity|]. now apply named_graph. }
      intros ? _. apply triple_next with (P := fun _ => True).
      { apply triple_if; intros Ha; [|now apply triple_ret]. eapply triple_next; [apply says_load|]. intros d' Hd.
        apply triple_write_edges. exists (ed_file d'). split; [reflexivity|]. now apply named_edges. }
      intros ? _. apply triple_next with (P := fun _ => True).
      { apply triple_if; intros Ha; [|now apply triple_ret]. eapply triple_next; [apply triple_load'|]. intros rc _.
        eapply triple_next; [apply says_load|]. intros d' Hd.
        apply triple_write_pairs. exists (pr_file d'). split; [reflexivity|]. now apply named_pairs. }
      intros ? _. apply triple_if; intros Ha.
      - eapply triple_next; [now apply triple_evaluating|]. intros ? _. now apply triple_ret.
      - apply triple_if; intros _; [apply triple_routing|now apply triple_ret].
    Qed.
  End Main.

  (** without its configuration the program does nothing *)
  Lemma load_missing {A} (read : yaml -> res A) p w : file_at e w p = None ->
    (forall x, snd (load e read p w) <> Ok x) /\ forall k, w_files (fst (load e read p w)) k = w_files w k.
  Proof.
    intros H. unfold load, read_file, next, lift, outside, look. destruct (find_supported_ext CFG_EXTS p); cbn [fst snd w_files w_ops];
      try (split; [discriminate|reflexivity]).
    destruct (e_fails e (w_ops w)); cbn [fst snd w_files w_ops]; [split; [discriminate|reflexivity]|].
    unfold file_at in H. rewrite H. split; [discriminate|reflexivity].
  Qed.

  Lemma next_stop {A B} (m : io A) (k : A -> io B) w :
    (forall x, snd (m w) <> Ok x) -> fst (next m k w) = fst (m w) /\ forall y, snd (next m k w) <> Ok y.
  Proof.
    unfold next. destruct (m w) as [w' [x| | |]]; cbn; intros H; try (split; [reflexivity|discriminate]). destruct (H x eq_refl).
  Qed.

  Lemma run_missing a w : file_at e w (a_cfg a) = None -> same_files w (fst (run e a w)) /\ forall r, snd (run e a w) <> Ok r.
  Proof.
    intros H. destruct (load_missing (read_parsing (e_scalars e)) _ _ H) as [H1 H2].
    unfold run. match goal with |- same_files _ (fst (next ?m ?k w)) /\ _ => destruct (next_stop m k w H1) as [E1 E2] end. split; [|exact E2]. intros k. rewrite E1. apply H2.
  Qed.

  (** *** Balancing *)
  Section Balancing.
    Variable w0 : world.
    Variable a : args.
    Variable b : balancing_doc.
    Hypothesis Hb : says e w0 (read_balancing (e_scalars e)) (a_cfg a) b.
    Let O (k : string) : Prop := exists p, k = e_resolve e p /\ overwritable e w0 a p.
    Let N (k : string) : Prop := True.
    Let dir : string := dated_dir e b.

    Lemma triple_prepare : triple O N w0 (prepare_results e (a_cfg a) b) (fun d => d = dir).
    Proof.
      eapply triple_next; [apply triple_dir|]. intros ? _. destruct (file_name (a_cfg a)) as [n|] eqn:En; [|eapply triple_weak; [|apply triple_lift]; discriminate].
      eapply triple_next; [apply triple_copy|].
      - eexists. split; [reflexivity|]. eapply over_copy; eauto.
      - intros ? _. now apply triple_ret.
    Qed.

    Lemma triple_iteration iter l : triple O N w0 (iteration e (a_cfg a) b dir iter l) (fun _ => True).
    Proof.
      apply triple_next with (P := fun _ => True).
      { apply triple_if; intros _; [|now apply triple_ret]. eapply triple_next; [apply triple_load'|]. intros d _.
        destruct (file_name (gd_file d)); [|apply triple_lift']. now apply triple_write_graph. }
      intros ? _. apply triple_next with (P := fun _ => True).
      { eapply triple_next; [apply triple_dir|]. intros ? _. apply triple_copy. eexists. split; [reflexivity|]. eapply over_iteration; eauto. }
      intros ? _. apply triple_next with (P := fun _ => True).
      { eapply triple_next; [apply triple_load'|]. intros d _. eapply triple_next; [now apply triple_write_graph|]. intros ? _.
        eapply triple_next; [apply triple_load'|]. intros d' _. now apply triple_write_edges. }
      intros ? _. apply triple_next with (P := fun _ => True).
      { eapply triple_next; [apply triple_lift|]. intros c Hc. unfold mch_of in Hc. apply bind_ok in Hc. destruct Hc as (n & _ & Hc). injection Hc as <-.
        assert (Hw : forall t, triple O N w0 (put (e_resolve e (join (iter_dir dir iter) (mc_contracted (bd_mch b)))) t) (fun _ => True)).
        { intros t. apply triple_put. eexists. split; [reflexivity|]. eapply over_contracted; eauto. }
        eapply triple_next; [apply triple_outside|]. intros x _. apply triple_if; intros _; [apply triple_lift'|].
        eapply triple_next; [apply triple_look|]. intros o _. eapply triple_next; [apply triple_torn|]. intros t _.
        eapply triple_next; [apply triple_outside|]. intros y _. destruct (match o with Some _ => _ | None => _ end); [apply Hw|].
        apply triple_if; intros _; [|apply triple_lift']. eapply triple_next; [apply Hw|]. intros ? _. apply triple_lift'. }
      intros ? _. apply triple_next with (P := fun _ => True).
      { eapply triple_next; [apply triple_load'|]. intros d _. eapply triple_next; [apply triple_lift'|]. intros d' _.
        eapply triple_true. apply triple_parse. }
      intros ch _. apply triple_next with (P := fun _ => True).
      { eapply triple_next; [apply triple_load'|]. intros r _. destruct (fst r) as [old|]; [|apply triple_lift'].
        destruct (file_name old) as [n|] eqn:En; [|apply triple_lift']. apply triple_if; intros _; [|now apply triple_ret].
        do 2 (eapply triple_next; [apply triple_lift'|]; intros ? _). eapply triple_next; [apply triple_copy|].
        - eexists. split; [reflexivity|]. eapply over_copy; eauto.
        - intros ? _. now apply triple_ret. }
      intros r _. eapply triple_next; [apply triple_pairs|]. intros ps _. eapply triple_next; [apply triple_lift'|]. intros ws _.
      eapply triple_next; [apply triple_lift'|]. intros g _. eapply triple_next; [now apply triple_results|]. intros ? _. now apply triple_ret.
    Qed.

    Lemma triple_iterations todo iter l : triple O N w0 (iterations e (a_cfg a) b dir todo iter l) (fun _ => True).
    Proof.
      revert iter l. induction todo as [|todo IH]; intros iter l; [now apply triple_ret|]. cbn [iterations].
      eapply triple_next; [apply triple_iteration|]. intros l' _. apply IH.
    Qed.
  End Balancing.

  (** up to reading the document nothing is written, afterwards as above *)
  Lemma triple_balancing w0 a t0 : file_at e w0 (a_cfg a) = Some t0 ->
    forall w, inv (fun _ => False) (fun _ => True) w0 w ->
    inv (fun k => exists p, k = e_resolve e p /\ overwritable e w0 a p) (fun _ => True) w0 (fst (balancing e (a_cfg a) w)).
  Proof.
    intros Ht w I.
    set (O := fun k => exists p, k = e_resolve e p /\ overwritable e w0 a p).
    assert (J : forall w, inv (fun _ => False) (fun _ => True) w0 w -> inv O (fun _ => True) w0 w).
    { intros v. apply inv_weaken; [intros k []|auto]. }
    unfold balancing. unfold next at 1.
    destruct (triple_load' (fun _ => False) (fun _ => True) w0 (read_writing_graph (e_scalars e)) (a_cfg a) w I) as [I1 _].
    destruct (load e (read_writing_graph (e_scalars e)) (a_cfg a) w) as [w1 [d1| | |]]; cbn [fst snd] in *; try (now apply J).
    unfold next at 1.
    destruct (triple_load (fun _ => False) (fun _ => True) w0 (read_balancing (e_scalars e)) (a_cfg a) t0 Ht (fun f => f) w1 I1) as [I2 Hb].
    destruct (load e (read_balancing (e_scalars e)) (a_cfg a) w1) as [w2 [b| | |]]; cbn [fst snd] in *; try (now apply J).
    specialize (Hb b eq_refl).
    match goal with |- inv _ _ _ (fst (?m w2)) => assert (T : triple O (fun _ => True) w0 m (fun _ => True)); [|exact (proj1 (T w2 (J _ I2)))] end.
    eapply triple_next; [apply triple_load'|]. intros d _. eapply triple_next; [apply triple_parse|]. intros l _.
    eapply triple_next; [apply triple_load'|]. intros rc _. eapply triple_next; [exact (triple_prepare w0 a b Hb)|]. intros dir ->.
    exact (triple_iterations w0 a b Hb _ _ _).
  Qed.
End Files.
