(** Balancing leaves files which document all of it *)
From Coq Require Import String List Bool Arith NArith Lia.
From Verif Require Import Base Lib F64 ModelText ModelConfig ModelGraph ModelBuild ModelParsing ModelFmi ModelDijkstra ModelRoutingCfg ModelBalancing
  ModelRoutePairs ModelSmarts ModelWriting ModelEvaluating ModelYaml ModelDocs ModelProgram SpecGenerate SpecProgram ProofGenerate ProofProgram ProofProgram2 SpecBalanced.
Import ListNotations.
Open Scope string_scope.
Open Scope list_scope.
Open Scope nat_scope.

(** only this file has been written *)
Definition wrote (e : env) (w w' : world) (p : string) (t : text) : Prop :=
  file_at e w' p = Some t /\ forall k, k <> e_resolve e p -> w_files w' k = w_files w k.

Section Parts.
  Variable e : env.

  Lemma copy_ok p q w w' u : copy_file e p q w = (w', Ok u) ->
    exists t, file_at e w p = Some t /\ wrote e w w' q (if String.eqb (e_resolve e p) (e_resolve e q) then [] else t).
  Proof.
    unfold copy_file. intros H. apply next_ok in H. destruct H as (w1 & x & H1 & H). injection H1 as <- <-.
    destruct (e_fails e (w_ops w)); [apply lift_ok in H; destruct H; discriminate|].
    apply next_ok in H. destruct H as (w1 & o & H1 & H). injection H1 as <- <-. cbn [w_files] in H.
    destruct (w_files w (e_resolve e p)) as [c|] eqn:Ec; [|apply lift_ok in H; destruct H; discriminate].
    apply next_ok in H. destruct H as (w1 & t & H1 & H). injection H1 as <- <-.
    apply next_ok in H. destruct H as (w1 & x & H1 & H). injection H1 as <- <-. cbn [w_files w_ops] in H.
    destruct (e_fails e (S (w_ops w))).
    { apply next_ok in H. destruct H as (w1 & y & H1 & H). apply lift_ok in H. destruct H; discriminate. }
    injection H as <- <-. exists c. split; [exact Ec|]. split.
    - unfold file_at. cbn. now rewrite String.eqb_refl.
    - intros k Hk. cbn. now rewrite (proj2 (String.eqb_neq _ _) Hk).
  Qed.

  Lemma dir_ok p w w' u : create_dir e p w = (w', Ok u) -> same_files w w'.
  Proof.
    intros H. apply next_ok in H. destruct H as (w1 & x & H1 & H). injection H1 as <- <-. apply lift_ok in H. destruct H as [-> _].
    intros k. reflexivity.
  Qed.

  Lemma contract_ok b dir i w w' u : construct_ch_graph e b dir i w = (w', Ok u) ->
    exists c t tc, mch_of b dir i = Ok c /\ file_at e w (mc_graph c) = Some t /\ e_contract e c t = Some tc /\ wrote e w w' (mc_contracted c) tc.
  Proof.
    unfold construct_ch_graph. intros H. apply next_ok in H. destruct H as (w1 & c & H1 & H). apply lift_ok in H1. destruct H1 as [-> Hc].
    apply next_ok in H. destruct H as (w1 & x & H1 & H). injection H1 as <- <-.
    destruct (e_fails e (w_ops w)); [apply lift_ok in H; destruct H; discriminate|].
    apply next_ok in H. destruct H as (w1 & o & H1 & H). injection H1 as <- <-. cbn [w_files] in H.
    apply next_ok in H. destruct H as (w1 & t & H1 & H). injection H1 as <- <-.
    apply next_ok in H. destruct H as (w1 & x & H1 & H). injection H1 as <- <-. cbn [w_files w_ops] in H.
    destruct (w_files w (e_resolve e (mc_graph c))) as [tg|] eqn:Eg.
    - destruct (e_contract e c tg) as [tc|] eqn:Ec.
      + injection H as <- <-. exists c, tg, tc. split; [exact Hc|]. split; [exact Eg|]. split; [exact Ec|]. split.
        * unfold file_at. cbn. now rewrite String.eqb_refl.
        * intros k Hk. cbn. now rewrite (proj2 (String.eqb_neq _ _) Hk).
      + destruct (e_fails e (S (w_ops w))); [apply next_ok in H; destruct H as (w1 & y & H1 & H)|]; apply lift_ok in H; destruct H; discriminate.
    - destruct (e_fails e (S (w_ops w))); [apply next_ok in H; destruct H as (w1 & y & H1 & H)|]; apply lift_ok in H; destruct H; discriminate.
  Qed.
End Parts.

Section Balanced.
  Variable e : env.
  Variable w : world.
  Variable cfg : string.
  Variable b : balancing_doc.
  Hypothesis Hb : says e w (read_balancing (e_scalars e)) cfg b.
  Hypothesis Hroom : room e w cfg b.

  (** the files of the start are kept, and the others belong to parts which are
      done *)
  Definition grown (done : part -> Prop) (w1 : world) : Prop :=
    kept w w1 /\
    forall k t, w_files w1 k = Some t -> w_files w k = None -> exists x p, done x /\ placed e w cfg b x p /\ k = e_resolve e p.

  Lemma grown_weak (done done' : part -> Prop) w1 : (forall x, done x -> done' x) -> grown done w1 -> grown done' w1.
  Proof. intros H [K G]. split; [exact K|]. intros k t A B. destruct (G k t A B) as (x & p & C & D). exists x, p. auto. Qed.

  Lemma grown_same done w1 w2 : same_files w1 w2 -> grown done w1 -> grown done w2.
  Proof.
    intros S [K G]. split; [eapply kept_trans; [exact K|now apply same_kept]|]. intros k t A. rewrite S in A. eauto.
  Qed.

  (** files which have been created *)
  Lemma grown_inv (done done' : part -> Prop) (keys : list string) w1 w2 :
    grown done w1 -> (forall x, done x -> done' x) ->
    (forall k, In k keys -> exists x p, done' x /\ placed e w cfg b x p /\ k = e_resolve e p) ->
    inv (fun _ => False) (fun k => In k keys) w1 w2 -> kept w1 w2 /\ grown done' w2.
  Proof.
    intros [K G] Hd Hk [I1 I2]. assert (K' : kept w1 w2) by (intros k t; apply I1; auto). split; [exact K'|].
    split; [eapply kept_trans; eauto|]. intros k t A B. destruct (in_dec string_dec k keys) as [Hin|Hin]; [now apply Hk|].
    rewrite (I2 k (fun f => f) Hin) in A. destruct (G k t A B) as (x & p & C & D). exists x, p. auto.
  Qed.

  (** a file which may overwrite others *)
  Lemma grown_wrote (done : part -> Prop) y p w1 w2 t :
    grown done w1 -> placed e w cfg b y p -> ~ done y -> wrote e w1 w2 p t ->
    kept w1 w2 /\ grown (fun x => done x \/ x = y) w2.
  Proof.
    intros [K G] Hp Hn [W1 W2]. assert (N1 : w_files w1 (e_resolve e p) = None).
    { destruct (w_files w1 (e_resolve e p)) as [t1|] eqn:E; [|reflexivity].
      destruct (G _ _ E (proj1 (proj2 Hroom) _ _ Hp)) as (x & q & Hx & Hq & Eq).
      rewrite (proj2 (proj2 Hroom) _ _ _ _ Hp Hq Eq) in Hn. contradiction. }
    assert (K' : kept w1 w2).
    { intros k tk E. destruct (string_dec k (e_resolve e p)) as [->|D]; [congruence|]. now rewrite W2. }
    split; [exact K'|]. split; [eapply kept_trans; eauto|]. intros k tk A B.
    destruct (string_dec k (e_resolve e p)) as [->|D]; [exists y, p; auto|]. rewrite W2 in A by exact D.
    destruct (G k tk A B) as (x & q & C & D'). exists x, q. auto.
  Qed.

  (** the files of an iteration are not overwritten by later ones *)
  Lemma says_mono {A} w1 w2 (read : yaml -> res A) p a : kept w1 w2 -> says e w1 read p a -> says e w2 read p a.
  Proof. apply says_kept. Qed.
  Lemma rows_mono w1 w2 c g : kept w1 w2 -> with_rows e w1 c g -> with_rows e w2 c g.
  Proof. intros K. destruct c; cbn; [auto|]. intros (t & H & E). exists t. split; [now apply K|exact E]. Qed.
  Lemma graph_mono w1 w2 d g : kept w1 w2 -> graph_of e w1 d g -> graph_of e w2 d g.
  Proof.
    intros K (t & gens & H & F & R). exists t, gens. split; [now apply K|]. split; [|exact R].
    clear -K F. induction F; constructor; eauto using rows_mono.
  Qed.
  Lemma documented_mono w1 w2 i s ch values s' : kept w1 w2 -> documented e w1 cfg b i s ch values s' -> documented e w2 cfg b i s ch values s'.
  Proof.
    intros K (tpl & wg & we & tg & te & c & t & tc & pd & old & rc & rc' & pairs & paths & infos & loads & H1 & H2 & H3 & H4 & H5 & H6 & H7 & H8 &
      H9 & H10 & H11 & H12 & H13 & H14 & H15 & H16 & H17 & H18 & H19 & H20 & H21 & H22 & H23 & H24 & H25 & H26).
    exists tpl, wg, we, tg, te, c, t, tc, pd, old, rc, rc', pairs, paths, infos, loads.
    assert (F : forall p t, file_at e w1 p = Some t -> file_at e w2 p = Some t) by (intros p t0; apply K).
    repeat (split; [solve [auto | now apply F | eapply says_mono; eauto | eapply graph_mono; eauto
      | destruct H20 as (tp & P1 & P2); exists tp; split; [now apply F|exact P2]]|]).
    intros ps E. destruct (H26 ps E) as (ts & P1 & P2). exists ts. auto.
  Qed.

  (** the parts done before an iteration *)
  Definition before (i : nat) (x : part) : Prop :=
    match x with
    | PConfig => True
    | PPairs => 0 < i
    | PBalanced => (bd_num_iter b <= N.of_nat i)%N
    | PIteration j | PGraph j | PEdges j | PContracted j | PInfos j | PWorkloads j | PVehicles j => j < i
    end.

  (** the route-pairs have been copied *)
  Definition pairs_copied (i : nat) (w1 : world) : Prop :=
    0 < i -> forall r p n, says e w (read_routing (e_scalars e)) cfg r -> rd_pairs r = Some p -> file_name p = Some n ->
    exists t, file_at e w1 p = Some t /\ file_at e w1 (join (dated_dir e b) n) = Some t.

  Definition stored (w1 : world) (s : state) : Prop := balanced e w w1 cfg b s.

  Lemma cfg_there : exists t, file_at e w cfg = Some t.
  Proof. destruct Hb as (t & y & H & _). eauto. Qed.

  Lemma says_cfg {A} w1 (read : yaml -> res A) a : kept w w1 -> says e w1 read cfg a -> says e w read cfg a.
  Proof. intros K H. destruct cfg_there as [t Ht]. eapply says_back; eauto. Qed.

  Lemma store_ok i l w1 w2 u :
    grown (before i) w1 -> N.of_nat i = (bd_num_iter b - 1)%N -> store_graph e cfg (dated_dir e b) l w1 = (w2, Ok u) ->
    kept w1 w2 /\ grown (fun x => before i x \/ x = PBalanced) w2 /\ stored w2 (ld_doc l, ld_graph l).
  Proof.
    intros G Hi H. apply next_ok in H. destruct H as (w3 & d & H1 & H). apply load_ok in H1. destruct H1 as [S1 Hd].
    apply (says_cfg w1) in Hd; [|apply G]. apply (grown_same _ _ _ S1) in G.
    destruct (file_name (gd_file d)) as [n|] eqn:En; [|apply lift_ok in H; destruct H; discriminate].
    assert (I : inv (fun _ => False) (fun k => In k [e_resolve e (join (dated_dir e b) n)]) w3 w2).
    { assert (Tr := triple_write_graph e (fun _ => False) (fun k => In k [e_resolve e (join (dated_dir e b) n)]) w3 l
               {| gd_file := join (dated_dir e b) n; gd_cfg := gd_cfg d |} (or_introl eq_refl) w3 (inv_refl _ _ _)). rewrite H in Tr. apply Tr. }
    apply write_graph_ok in H. destruct H as (_ & t & Ht & Hc). cbn [gd_file gd_cfg] in *.
    assert (Hk : forall k, In k [e_resolve e (join (dated_dir e b) n)] ->
               exists x p, (before i x \/ x = PBalanced) /\ placed e w cfg b x p /\ k = e_resolve e p).
    { intros k [<-|[]]. exists PBalanced, (join (dated_dir e b) n). split; [auto|]. split; [eapply placed_balanced; eauto|reflexivity]. }
    destruct (grown_inv _ _ _ _ _ G (fun x h => or_introl h) Hk I) as [K' G'].
    split; [eapply kept_trans; [apply same_kept; exact S1|exact K']|]. split; [exact G'|].
    exists d, n, t. split; [exact Hd|]. split; [exact En|]. split; [exact Ht|]. apply Hc.
  Qed.

  Lemma moved_ok dir d d' : relocate dir d = Ok d' -> moved dir d d'.
  Proof.
    unfold relocate. destruct (pd_generating d) as [[ns es]|] eqn:E; cbn [expect bind]; [|discriminate]. intros H. injection H as <-.
    exists ns, es. cbn. rewrite E. repeat split.
  Qed.

  Lemma iteration_ok i l w1 w2 l' :
    (N.of_nat i < bd_num_iter b)%N -> grown (before i) w1 -> pairs_copied i w1 ->
    iteration e cfg b (dated_dir e b) i l w1 = (w2, Ok l') ->
    kept w1 w2 /\ grown (before (S i)) w2 /\ pairs_copied (S i) w2 /\
    (exists ch values, documented e w2 cfg b i (ld_doc l, ld_graph l) ch values (ld_doc l', ld_graph l')) /\
    (N.of_nat i = bd_num_iter b - 1 -> stored w2 (ld_doc l, ld_graph l))%N.
  Proof.
    intros Hi G HP H. unfold iteration in H. apply next_ok in H. destruct H as (wa & u & Ha & H).
    (* storing the balanced graph *)
    assert (A : kept w1 wa /\ grown (fun x => before i x \/ x = PBalanced) wa /\
                (N.of_nat i = bd_num_iter b - 1 -> stored wa (ld_doc l, ld_graph l))%N /\
                (before (S i) PBalanced \/ grown (before i) wa)).
    { destruct (N.eqb_spec (N.of_nat i) (bd_num_iter b - 1)) as [E|E].
      - destruct (store_ok i l w1 wa u G E Ha) as (K & G' & S'). split; [exact K|]. split; [exact G'|]. split; [auto|]. left. cbn. lia.
      - apply ret_ok in Ha. destruct Ha as [-> _]. split; [apply kept_refl|]. split; [eapply grown_weak; [|exact G]; auto|].
        split; [contradiction|]. now right. }
    destruct A as (Ka & Ga & Sa & Ba). clear Ha.
    (* all parts done during this iteration *)
    assert (Hdone : grown (fun x => before i x \/ (x = PBalanced /\ before (S i) PBalanced)) wa).
    { destruct Ba as [Ba|Ba]; [|eapply grown_weak; [|exact Ba]; auto]. eapply grown_weak; [|exact Ga]. intros x [Hx| ->]; auto. }
    set (d0 := fun x => before i x \/ (x = PBalanced /\ before (S i) PBalanced)) in *.
    assert (Hd0 : forall x, d0 x -> before (S i) x).
    { intros x [Hx|[-> Hx]]; [|exact Hx]. destruct x; cbn in *; lia. }
    (* the configuration of the iteration *)
    apply next_ok in H. destruct H as (wb & u1 & Hp & H). unfold prepare_iteration in Hp.
    apply next_ok in Hp. destruct Hp as (wa' & u2 & Hdir & Hp). apply dir_ok in Hdir.
    assert (Ga' := grown_same _ _ _ Hdir Hdone). assert (Ka' : kept w1 wa') by (eapply kept_trans; [exact Ka|now apply same_kept]).
    change (join (iter_dir (dated_dir e b) i) ITERATION_CFG) with (iteration_cfg e b i) in Hp.
    replace (if i =? 0 then bd_iter0 b else bd_iteri b) with (template b i) in Hp by (destruct i; reflexivity).
    apply copy_ok in Hp. destruct Hp as (tpl & Htpl & Wb).
    assert (Hw : file_at e w (template b i) = Some tpl).
    { destruct (file_at e w (template b i)) as [t0|] eqn:E; [|destruct (proj1 Hroom i Hi E)].
      rewrite <- Htpl. symmetry. now apply (proj1 Ga'). }
    assert (Hpl : placed e w cfg b (PIteration i) (iteration_cfg e b i)) by (now constructor).
    destruct (String.eqb_spec (e_resolve e (template b i)) (e_resolve e (iteration_cfg e b i))) as [E|_].
    { assert (X := proj1 (proj2 Hroom) _ _ Hpl). unfold file_at in X, Hw. rewrite <- E in X. congruence. }
    destruct (grown_wrote d0 (PIteration i) _ wa' wb tpl Ga' Hpl) as [Kb Gb]; [|exact Wb|].
    { intros [X|[X _]]; [cbn in X; lia|discriminate]. }
    assert (Tb : file_at e wb (template b i) = Some tpl) by (now apply Kb).
    assert (Ib : file_at e wb (iteration_cfg e b i) = Some tpl) by apply Wb.
    assert (Rd : forall w3 A (read : yaml -> res A) a, kept wb w3 -> says e w3 read (iteration_cfg e b i) a -> says e w read (template b i) a).
    { intros w3 A read a K (t & y & E1 & E2 & E3). assert (E4 : file_at e w3 (iteration_cfg e b i) = Some tpl) by (now apply K).
      rewrite E4 in E1. injection E1 as <-. exists tpl, y. auto. }
    (* graph and edges are written *)
    apply next_ok in H. destruct H as (we & u3 & Hm & H). unfold write_multi_ch_graph in Hm.
    apply next_ok in Hm. destruct Hm as (wb1 & gd & Hl & Hm). apply load_ok in Hl. destruct Hl as [Sb1 Hgd].
    assert (Hgd' := Rd wb _ _ _ (kept_refl wb) Hgd).
    apply next_ok in Hm. destruct Hm as (wc & u4 & Hg & Hm).
    change (iter_dir (dated_dir e b) i) with (iteration_dir e b i) in *.
    assert (Gb1 := grown_same _ _ _ Sb1 Gb).
    assert (Kc : kept wb1 wc /\ grown (fun x => (d0 x \/ x = PIteration i) \/ x = PGraph i) wc).
    { assert (I : inv (fun _ => False) (fun k => In k [e_resolve e (join (iteration_dir e b i) (gd_file gd))]) wb1 wc).
      { assert (Tr := triple_write_graph e (fun _ => False) (fun k => In k [e_resolve e (join (iteration_dir e b i) (gd_file gd))]) wb1 l
               {| gd_file := join (iteration_dir e b i) (gd_file gd); gd_cfg := gd_cfg gd |} (or_introl eq_refl) wb1 (inv_refl _ _ _)). rewrite Hg in Tr. apply Tr. }
      eapply grown_inv; [exact Gb1| | |exact I]; [auto|]. intros k [<-|[]]. exists (PGraph i). eexists. split; [auto|]. split; [|reflexivity].
      apply placed_graph; auto. }
    apply write_graph_ok in Hg. destruct Hg as (_ & tg & Htg & Hcg). cbn [gd_file gd_cfg] in *. destruct Kc as [Kc Gc].
    apply next_ok in Hm. destruct Hm as (wc1 & ed & Hl & Hm). apply load_ok in Hl. destruct Hl as [Sc1 Hed].
    assert (Kbc : kept wb wc) by (eapply kept_trans; [now apply same_kept|exact Kc]).
    assert (Hed' := Rd wc _ _ _ Kbc Hed). assert (Gc1 := grown_same _ _ _ Sc1 Gc).
    assert (Ke : kept wc1 we /\ grown (fun x => ((d0 x \/ x = PIteration i) \/ x = PGraph i) \/ x = PEdges i) we).
    { assert (I : inv (fun _ => False) (fun k => In k [e_resolve e (join (iteration_dir e b i) (ed_file ed))]) wc1 we).
      { assert (Tr := triple_write_edges e (fun _ => False) (fun k => In k [e_resolve e (join (iteration_dir e b i) (ed_file ed))]) wc1 (ld_graph l)
               {| ed_file := join (iteration_dir e b i) (ed_file ed); ed_cfg := ed_cfg ed |} (or_introl eq_refl) wc1 (inv_refl _ _ _)). rewrite Hm in Tr. apply Tr. }
      eapply grown_inv; [exact Gc1| | |exact I]; [auto|]. intros k [<-|[]]. exists (PEdges i). eexists. split; [auto|]. split; [|reflexivity].
      apply placed_edges; auto. }
    apply write_edges_ok in Hm. destruct Hm as (_ & te & Hte & Hce). cbn [ed_file ed_cfg] in *. destruct Ke as [Ke Ge].
    assert (Kce : kept wc we) by (eapply kept_trans; [now apply same_kept|exact Ke]).
    (* contracting *)
    apply next_ok in H. destruct H as (wf & u5 & Hch & H). apply contract_ok in Hch. destruct Hch as (c & t & tc & Hc & Ht & Htc & Wf).
    assert (Hcf : mc_graph c = join (iteration_dir e b i) (mc_graph (bd_mch b)) /\ mc_contracted c = join (iteration_dir e b i) (mc_contracted (bd_mch b)) /\
                  mc_dim (bd_mch b) = (mc_dim c + match i with O => 1 | S _ => 0 end)%N).
    { unfold mch_of in Hc. apply bind_ok in Hc. destruct Hc as (dim & Hdim & Hc). injection Hc as <-. cbn. split; [reflexivity|]. split; [reflexivity|].
      destruct i; cbn in Hdim.
      - destruct (N.eqb_spec (mc_dim (bd_mch b)) 0); [discriminate|]. injection Hdim as <-. lia.
      - injection Hdim as <-. lia. }
    destruct Hcf as (Cg & Cc & Cd).
    assert (Hpc : placed e w cfg b (PContracted i) (mc_contracted c)) by (rewrite Cc; now constructor).
    destruct (grown_wrote _ (PContracted i) _ we wf tc Ge Hpc) as [Kf Gf]; [|exact Wf|].
    { intros [[[[X|[X _]]|X]|X]|X]; try discriminate. cbn in X. lia. }
    (* reading *)
    apply next_ok in H. destruct H as (wg & ch & Hr & H). unfold read_in_ch_graph in Hr.
    apply next_ok in Hr. destruct Hr as (wf1 & pd & Hl & Hr). apply load_ok in Hl. destruct Hl as [Sf1 Hpd].
    assert (Kbf : kept wb wf) by (eauto using kept_trans). assert (Hpd' := Rd wf _ _ _ Kbf Hpd).
    apply next_ok in Hr. destruct Hr as (wf2 & pd' & Hrel & Hr). apply lift_ok in Hrel. destruct Hrel as [-> Hrel].
    apply moved_ok in Hrel. apply parse_ok in Hr. destruct Hr as (Sg & Edoc & Hch).
    change (iter_dir (dated_dir e b) i) with (iteration_dir e b i) in *.
    assert (Sfg : same_files wf wg) by (eapply same_trans; eauto).
    assert (Gg := grown_same _ _ _ Sfg Gf).
    assert (Hchg : graph_of e wg pd' (ld_graph ch)) by (eapply graph_mono; [apply same_kept; exact Sg|exact Hch]).
    (* routing *)
    apply next_ok in H. destruct H as (wh & rr & Hr & H). unfold read_in_routing, load_routing in Hr.
    apply next_ok in Hr. destruct Hr as (wg1 & r & Hl & Hr). apply load_ok in Hl. destruct Hl as [Sg1 Hrc]. destruct r as [o rc]. cbn [fst snd] in Hr.
    destruct o as [old|]; [|apply lift_ok in Hr; destruct Hr; discriminate].
    destruct (file_name old) as [n|] eqn:En; [|apply lift_ok in Hr; destruct Hr; discriminate].
    assert (Hrc' : routing_says e w cfg (ld_graph ch) (Some old) rc) by (eapply says_cfg; [apply (proj1 Gg)|exact Hrc]).
    assert (Hrd : exists rd, says e w (read_routing (e_scalars e)) cfg rd /\ rd_pairs rd = Some old).
    { destruct Hrc' as (t1 & y1 & E1 & E2 & E3). apply bind_ok in E3. destruct E3 as (rd & E3 & E4). apply bind_ok in E4. destruct E4 as (rc1 & _ & E4).
      injection E4 as E4 _. exists rd. split; [exists t1, y1; auto|exact E4]. }
    destruct Hrd as (rd & Hrd & Hold). assert (Gg1 := grown_same _ _ _ Sg1 Gg).
    set (d1 := fun x => ((((d0 x \/ x = PIteration i) \/ x = PGraph i) \/ x = PEdges i) \/ x = PContracted i)) in *.
    assert (Kw1g : kept w1 wg1).
    { eapply kept_trans; [exact Ka'|]. eapply kept_trans; [exact Kb|]. eapply kept_trans; [exact Kbf|]. eapply kept_trans; [apply same_kept; exact Sfg|now apply same_kept]. }
    assert (R : kept wg1 wh /\ grown (fun x => d1 x \/ x = PPairs) wh /\ fst rr = join (dated_dir e b) n /\
                steered i (ec_ids (cfg_edges (g_cfg (ld_graph ch)))) (bc_metric (bd_cfg b)) rc (snd rr) /\
                exists tp, file_at e wh old = Some tp /\ file_at e wh (join (dated_dir e b) n) = Some tp).
    { destruct i as [|i]; cbn [Nat.eqb] in Hr.
      - apply next_ok in Hr. destruct Hr as (wg2 & mi & Hmi & Hr). apply lift_ok in Hmi. destruct Hmi as [-> Hmi].
        apply next_ok in Hr. destruct Hr as (wg2 & al & Hal & Hr). apply lift_ok in Hal. destruct Hal as [-> Hal].
        apply next_ok in Hr. destruct Hr as (wg2 & u6 & Hcp & Hr). apply ret_ok in Hr. destruct Hr as [<- <-].
        apply copy_ok in Hcp. destruct Hcp as (tp & Htp & Wp).
        assert (Hpp : placed e w cfg b PPairs (join (dated_dir e b) n)) by (eapply placed_pairs; eauto).
        destruct (grown_wrote _ PPairs _ wg1 wh (if String.eqb (e_resolve e old) (e_resolve e (join (dated_dir e b) n)) then [] else tp) Gg1 Hpp) as [Kp Gp]; [|exact Wp|].
        { intros [[[[[X|[X _]]|X]|X]|X]|X]; try discriminate. cbn in X. lia. }
        split; [exact Kp|]. split; [exact Gp|]. split; [reflexivity|]. split.
        { cbn [steered snd rc_algo rc_scales rc_alphas]. split; [reflexivity|]. split; [reflexivity|].
          apply set_ok in Hal. destruct Hal as [Hlt ->]. assert (Hfst : first_at (ec_ids (cfg_edges (g_cfg (ld_graph ch)))) (bc_metric (bd_cfg b)) mi).
          { unfold try_idx_of in Hmi. destruct (position _ _) as [j|] eqn:Ej; [|discriminate]. injection Hmi as <-. now apply position_first in Ej. }
          exists mi. split; [apply Hfst|]. split; [apply Hfst|]. split; [exact Hlt|]. intros j. destruct (Nat.eqb_spec j mi) as [->|Dj]; [now apply nth_error_upd_eq|apply nth_error_upd_neq; congruence]. }
        exists tp. split; [now apply Kp|]. destruct Wp as [Wp _].
        destruct (String.eqb_spec (e_resolve e old) (e_resolve e (join (dated_dir e b) n))) as [E|_]; [|exact Wp].
        (* nothing is copied to itself *)
        exfalso. unfold file_at in Htp. rewrite E in Htp.
        destruct (proj2 Gg1 _ _ Htp (proj1 (proj2 Hroom) _ _ Hpp)) as (x & q & Hx & Hq & Eq).
        assert (X := proj2 (proj2 Hroom) _ _ _ _ Hpp Hq Eq). subst x. destruct Hx as [[[[[X|[X _]]|X]|X]|X]|X]; try discriminate. cbn in X. lia.
      - apply ret_ok in Hr. destruct Hr as [<- <-]. split; [apply kept_refl|]. split; [eapply grown_weak; [|exact Gg1]; auto|].
        split; [reflexivity|]. split; [reflexivity|]. destruct (HP (Nat.lt_0_succ i) rd old n Hrd Hold En) as (tp & T1 & T2).
        exists tp. split; now apply Kw1g. }
    destruct R as (Kh & Gh & Efst & Hst & tp & To & Tn).
    (* balancing *)
    unfold balance_graph in H. apply next_ok in H. destruct H as (wi & pairs & Hps & H). apply pairs_ok in Hps. destruct Hps as [Si (p & Ep & Hpairs)].
    injection Ep as <-. rewrite Efst in Hpairs.
    apply next_ok in H. destruct H as (wi1 & ws & Hws & H). apply lift_ok in Hws. destruct Hws as [-> Hws].
    apply next_ok in H. destruct H as (wi1 & g' & Hup & H). apply lift_ok in Hup. destruct Hup as [-> Hup].
    apply next_ok in H. destruct H as (wj & u7 & Hres & H). apply ret_ok in H. destruct H as [-> <-]. cbn [ld_doc ld_graph].
    assert (Gi := grown_same _ _ _ Si Gh).
    change (join (iter_dir (dated_dir e b) i) STATS_DIR) with (stats_dir e b i) in Hres.
    set (keys := [e_resolve e (join (stats_dir e b i) (ed_file (md_edges (bd_monitoring b)))); e_resolve e (join (stats_dir e b i) ABS_WORKLOADS); e_resolve e (join (stats_dir e b i) XML_FILE_NAME)]).
    assert (Ij : inv (fun _ => False) (fun k => In k keys) wi wj).
    { assert (Tr := triple_results e (fun _ => False) (fun k => In k keys) wi g' (stats_dir e b i) (bd_monitoring b) ws
                      (or_introl eq_refl) (or_intror (or_introl eq_refl)) (or_intror (or_intror (or_introl eq_refl))) wi (inv_refl _ _ _)).
      rewrite Hres in Tr. apply Tr. }
    destruct (grown_inv _ (before (S i)) keys wi wj Gi) as [Kj Gj]; [| |exact Ij|].
    { intros x [[[[[X|X]|X]|X]|X]|X]; [now apply Hd0| | | | |]; subst x; cbn; lia. }
    { intros k [<-|[<-|[<-|[]]]]; [exists (PInfos i)|exists (PWorkloads i)|exists (PVehicles i)]; eexists; (split; [cbn; lia|]); (split; [|reflexivity]); now constructor. }
    apply results_ok in Hres. destruct Hres as (infos & loads & _ & Hev & Ci & Cl & Cs).
    (* all together *)
    assert (Khj : kept wh wj) by (eapply kept_trans; [apply same_kept; exact Si|exact Kj]).
    assert (Kg1j : kept wg1 wj) by (eauto using kept_trans).
    assert (Kgj : kept wg wj) by (eapply kept_trans; [apply same_kept; exact Sg1|exact Kg1j]).
    assert (Kfj : kept wf wj) by (eapply kept_trans; [apply same_kept; exact Sfg|exact Kgj]).
    assert (Kej : kept we wj) by (eauto using kept_trans).
    assert (Kcj : kept wc wj) by (eauto using kept_trans).
    assert (Kbj : kept wb wj) by (eauto using kept_trans).
    assert (Kaj : kept wa wj) by (eapply kept_trans; [apply same_kept; exact Hdir|]; eauto using kept_trans).
    assert (Kwj : kept w wj) by apply Gj.
    split; [eauto using kept_trans|]. split; [exact Gj|]. split; [|split].
    - intros _ r0 p0 n0 H1 H2 H3. assert (r0 = rd) by (eapply says_fun; eauto). subst r0. assert (p0 = old) by congruence. subst p0.
      assert (n0 = n) by congruence. subst n0. exists tp. split; now apply Khj.
    - destruct ws as [values paths]. cbn [fst snd] in *. rewrite Edoc.
      assert (Hup' : update_new_metric i values (bd_cfg b) (ld_graph ch) = (Ok tt, g')).
      { destruct (update_new_metric i values (bd_cfg b) (ld_graph ch)) as [[[]| | |] g1]; try discriminate. injection Hup as <-. reflexivity. }
      exists (ld_graph ch), values, tpl, gd, ed, tg, te, c, t, tc, pd, old, rc, (snd rr), pairs, paths, infos, loads.
      split; [now apply Kbj|]. split; [now apply Kbj|]. split; [eapply says_kept; eauto|]. split; [exact Htg|]. split; [apply Kcj, Hcg|].
      split; [eapply says_kept; eauto|]. split; [exact Hte|]. split; [apply Kej, Hce|]. split; [exact Cg|]. split; [exact Cc|]. split; [exact Cd|].
      split; [now apply Kej|]. split; [exact Htc|]. split; [apply Kfj, Wf|]. split; [eapply says_kept; eauto|]. split; [exact Hrel|].
      split; [eapply graph_mono; [exact Kgj|exact Hchg]|]. split; [eapply says_kept; [exact Kwj|exact Hrc']|]. split; [exact Hst|].
      split. { destruct Hpairs as (t1 & P1 & P2). exists t1. split; [|exact P2]. rewrite Tn in P1. injection P1 as <-. now apply Khj. }
      split; [exact Hws|]. split; [exact Hup'|]. split; [exact Hev|]. split; [apply Ci|]. split; [apply Cl|].
      intros ps E. destruct (Cs ps E) as (ts & P1 & P2). exists ts. split; [exact P1|apply P2].
    - intros E. destruct (Sa E) as (d & n1 & t1 & P1 & P2 & P3 & P4). exists d, n1, t1. split; [exact P1|]. split; [exact P2|]. split; [exact P3|]. now apply Kaj.
  Qed.

  Definition state_of (l : loaded) : state := (ld_doc l, ld_graph l).

  Lemma stored_mono w1 w2 s : kept w1 w2 -> stored w1 s -> stored w2 s.
  Proof. intros K (d & n & t & H1 & H2 & H3 & H4). exists d, n, t. split; [exact H1|]. split; [exact H2|]. split; [exact H3|]. now apply K. Qed.

  Lemma documented_from_mono w1 w2 i s n s' : kept w1 w2 -> documented_from e w1 cfg b i s n s' -> documented_from e w2 cfg b i s n s'.
  Proof. intros K. induction 1; econstructor; eauto using documented_mono. Qed.

  (** all iterations but the last one, and the last one *)
  Lemma iterations_ok todo : forall i l w1 w2 l',
    (N.of_nat (i + S todo) = bd_num_iter b)%N -> grown (before i) w1 -> pairs_copied i w1 ->
    iterations e cfg b (dated_dir e b) (S todo) i l w1 = (w2, Ok l') ->
    kept w1 w2 /\ grown (before (i + S todo)) w2 /\
    exists steps s ch values, length steps = todo /\ documented_from e w2 cfg b i (state_of l) steps s /\ stored w2 s /\
      documented e w2 cfg b (i + todo) s ch values (state_of l').
  Proof.
    induction todo as [|todo IH]; intros i l w1 w2 l' Hn G P H; cbn [iterations] in H; apply next_ok in H; destruct H as (w3 & l1 & H1 & H).
    - apply ret_ok in H. destruct H as [-> <-]. destruct (iteration_ok i l w1 w3 l1) as (K & G' & _ & (ch & values & D) & St); [lia|exact G|exact P|exact H1|].
      split; [exact K|]. rewrite Nat.add_1_r, Nat.add_0_r. split; [exact G'|]. exists [], (state_of l), ch, values. split; [reflexivity|]. split; [constructor|]. split; [|exact D]. apply St. lia.
    - destruct (iteration_ok i l w1 w3 l1) as (K & G' & P' & (ch & values & D) & _); [lia|exact G|exact P|exact H1|].
      destruct (IH (S i) l1 w3 w2 l') as (K2 & G2 & steps & s & ch' & values' & Ln & D2 & S2 & L2); [|exact G'|exact P'|exact H|].
      { rewrite <- Hn. f_equal. lia. }
      split; [eapply kept_trans; eauto|]. replace (i + S (S todo)) with (S i + S todo) by lia. split; [exact G2|]. exists ((ch, values) :: steps), s, ch', values'.
      split; [cbn; now rewrite Ln|]. split; [econstructor; [eapply documented_mono; eauto|exact D2]|]. split; [exact S2|]. now replace (i + S todo) with (S i + todo) by lia.
  Qed.
End Balanced.

(** the whole of it *)
Lemma balancing_ok e w cfg w1 w2 l :
  (forall b, says e w (read_balancing (e_scalars e)) cfg b -> room e w cfg b) -> same_files w w1 ->
  balancing e cfg w1 = (w2, Ok l) ->
  exists b d g steps s ch values, says e w (read_balancing (e_scalars e)) cfg b /\ (N.of_nat (length steps) + 1 = bd_num_iter b)%N /\
    says e w (read_parsing (e_scalars e)) cfg d /\ graph_of e w d g /\
    documented_from e w2 cfg b 0 (d, g) steps s /\ balanced e w w2 cfg b s /\ documented e w2 cfg b (length steps) s ch values (state_of l) /\
    kept w w2 /\
    forall f t, w_files w2 f = Some t -> w_files w f = None -> exists x p, placed e w cfg b x p /\ f = e_resolve e p.
Proof.
  intros HR S0 H. unfold balancing in H.
  apply next_ok in H. destruct H as (wa & gd & H1 & H). apply load_ok in H1. destruct H1 as [Sa _].
  apply next_ok in H. destruct H as (wb & b & H1 & H). apply load_ok in H1. destruct H1 as [Sb Hb].
  apply next_ok in H. destruct H as (wc & d & H1 & H). apply load_ok in H1. destruct H1 as [Sc Hd].
  apply next_ok in H. destruct H as (wd & l0 & H1 & H). apply parse_ok in H1. destruct H1 as (Sd & Ed & Hg).
  apply next_ok in H. destruct H as (we & rc & H1 & H). apply load_ok in H1. destruct H1 as [Se _].
  apply next_ok in H. destruct H as (wf & dir & H1 & H). unfold prepare_results in H1.
  apply next_ok in H1. destruct H1 as (we1 & u & H2 & H1). apply dir_ok in H2.
  destruct (file_name cfg) as [n|] eqn:En; [|apply lift_ok in H1; destruct H1; discriminate].
  apply next_ok in H1. destruct H1 as (we2 & u2 & H3 & H1). apply ret_ok in H1. destruct H1 as [<- <-].
  assert (Back : forall v v', same_files v v' -> kept v' v) by (intros v v' X f t; now rewrite X).
  assert (Swa : same_files w wa) by (eapply same_trans; eauto). assert (Swb : same_files w wb) by (eapply same_trans; eauto).
  assert (Swc : same_files w wc) by (eapply same_trans; eauto).
  assert (Hb' : says e w (read_balancing (e_scalars e)) cfg b) by (eapply says_kept; [apply Back; exact Swa|exact Hb]).
  assert (Hd' : says e w (read_parsing (e_scalars e)) cfg d) by (eapply says_kept; [apply Back; exact Swb|exact Hd]).
  assert (Hg' : graph_of e w d (ld_graph l0)) by (eapply graph_mono; [apply Back; exact Swc|exact Hg]).
  assert (Swe : same_files w we1) by (repeat (eapply same_trans; [eassumption|]); apply same_refl).
  clear Back. specialize (HR b Hb').
  assert (G0 : grown e w cfg b (fun _ => False) we1).
  { split; [now apply same_kept|]. intros f t A B. rewrite Swe in A. congruence. }
  assert (Hp : placed e w cfg b PConfig (join (dated_dir e b) n)) by (now constructor).
  change (join (bd_results b) ("utc_" ++ e_date e)) with (dated_dir e b) in *.
  apply copy_ok in H3. destruct H3 as (t & _ & W).
  destruct (grown_wrote e w cfg b HR _ PConfig _ we1 wf _ G0 Hp (fun f => f) W) as [_ G1].
  assert (Pos : exists k, (N.of_nat k + 1 = bd_num_iter b)%N).
  { destruct Hb' as (tb & y & _ & _ & R). unfold read_balancing in R. apply bind_ok in R. destruct R as (f & _ & R).
    unfold required in R. destruct (f "balancing") as [y'|]; [|discriminate].
    do 12 (apply bind_ok in R; destruct R as (? & ? & R)). injection R as <-. cbn [bd_num_iter].
    match goal with |- context [(?x + 1)%N] => exists (N.to_nat x) end. rewrite N2Nat.id. reflexivity. }
  destruct Pos as [k Hk]. rewrite <- Hk in H. replace (N.to_nat (N.of_nat k + 1)) with (S k) in H by lia.
  destruct (iterations_ok e w cfg b Hb' HR k 0 l0 wf w2 l) as (_ & G2 & steps & s & ch & values & Ln & D & St & L); [lia| | |exact H|].
  { eapply grown_weak; [|exact G1]. intros x [[]| ->]. exact I. }
  { intros X. lia. }
  exists b, d, (ld_graph l0), steps, s, ch, values. rewrite Ln. split; [exact Hb'|]. split; [exact Hk|]. split; [exact Hd'|]. split; [exact Hg'|].
  split; [unfold state_of in D; now rewrite Ed in D|]. split; [exact St|]. split; [exact L|]. split; [apply G2|].
  intros f t0 A B. destruct (proj2 G2 f t0 A B) as (x & p & _ & C). exists x, p. exact C.
Qed.
