(** More lemmas about reading configuration documents: sections, strictness. *)
From Coq Require Import String Ascii List Bool Arith NArith Permutation Lia.
From Verif Require Import Base Lib F64 ModelUnits ModelConfig ModelText ModelStreets ModelDijkstra ModelParsing
  ModelWriting ModelBalancing ModelRoutingCfg ModelYaml ModelDocs SpecDocs ProofDocs.
Import ListNotations.
Open Scope string_scope.
Open Scope list_scope.
Open Scope nat_scope.

Lemma values_entries k l : values_of k l = entries k l.
Proof.
  unfold entries. induction l as [|[k' v] l IH]; cbn; [reflexivity|].
  destruct (string_dec k' k) as [->|N].
  - rewrite String.eqb_refl. cbn. now rewrite IH.
  - apply String.eqb_neq in N. now rewrite N.
Qed.

Lemma section_eq {A B} (r r' : yaml -> res A) (K : res A -> res B) k l l' :
  Forall2 (fun v v' => r v = r' v') (entries k l) (entries k l') ->
  bind (fields true false [k] (YMap l)) (fun f => K (required r (f k))) =
  bind (fields true false [k] (YMap l')) (fun f => K (required r' (f k))).
Proof.
  intro H. cbn [fields existsb andb orb]. rewrite (F2_len _ _ _ H).
  destruct (1 <? length (entries k l')); cbn [orb]; [reflexivity|]. cbn [bind].
  destruct H as [|v v' ? ? E _]; cbn [hd_error required]; [reflexivity|]. now rewrite E.
Qed.

Lemma agree_nil l l' : Forall2 (agree_at []) l l' -> l = l'.
Proof. induction 1 as [|a b l l' H _ IH]; [reflexivity|]. inversion H; subst. reflexivity. Qed.

Lemma section_agree {A B} (r : yaml -> res A) (K : res A -> res B) k y y' :
  agree_at [k] y y' ->
  bind (fields true false [k] y) (fun f => K (required r (f k))) =
  bind (fields true false [k] y') (fun f => K (required r (f k))).
Proof.
  intro H. inversion H as [|? ? l l' Hv]; subst. apply agree_nil in Hv. rewrite !values_entries in Hv.
  apply section_eq. rewrite Hv. clear. induction (entries k l'); constructor; auto.
Qed.

Lemma section_agree2 {A B} (r : yaml -> res A) (K : res A -> res B) j k y y' :
  agree_at [j; k] y y' ->
  bind (fields true false [j] y) (fun f => K (required (fun y => do f <- fields true false [k] y; required r (f k)) (f j))) =
  bind (fields true false [j] y') (fun f => K (required (fun y => do f <- fields true false [k] y; required r (f k)) (f j))).
Proof.
  intro H. inversion H as [|? ? l l' Hv]; subst. rewrite !values_entries in Hv.
  apply section_eq. revert Hv. generalize (entries j l) (entries j l'). clear.
  induction 1 as [|v v' l l' Hv _ IH]; constructor; [|assumption].
  exact (section_agree r (fun x => x) k v v' Hv).
Qed.

(** *** Strictness *)

Lemma named_in names k : named names k = true <-> In k names.
Proof.
  unfold named. rewrite existsb_exists. split.
  - intros (x & Hx & E). apply String.eqb_eq in E. now subst.
  - intro H. exists k. split; [assumption|]. apply String.eqb_refl.
Qed.

Lemma in_entries k v l : In (k, v) l -> In v (entries k l).
Proof.
  intro H. unfold entries. change v with (snd (k, v)). apply in_map, filter_In. split; [assumption|]. apply String.eqb_refl.
Qed.

Lemma fields_map seqs deny names l f :
  fields seqs deny names (YMap l) = Ok f ->
  (forall k, In k names -> length (entries k l) <= 1) /\ (deny = true -> incl (map fst l) names) /\
  (forall k, f k = hd_error (entries k l)).
Proof.
  cbn [fields]. destruct (deny && existsb _ l) eqn:D; [discriminate|].
  destruct (existsb _ names) eqn:U; [discriminate|]. intro E. injection E as <-. split; [|split; [|reflexivity]].
  - intros k Hk. destruct (1 <? length (entries k l)) eqn:L; [|now apply Nat.ltb_ge in L].
    assert (existsb (fun k => 1 <? length (entries k l)) names = true) by (apply existsb_exists; eauto). congruence.
  - intros -> k Hk. cbn [andb] in D. destruct (named names k) eqn:N; [now apply named_in|].
    apply in_map_iff in Hk. destruct Hk as (e & <- & He).
    assert (existsb (fun e => negb (named names (fst e))) l = true)
      by (apply existsb_exists; exists e; rewrite N; auto). congruence.
Qed.

Lemma entries_nodup l : (forall k, In k (map fst l) -> length (entries k l) <= 1) -> NoDup (map fst l).
Proof.
  induction l as [|[k v] l IH]; intro H; cbn; [constructor|]. constructor.
  - intro Hin. specialize (H k (or_introl eq_refl)). unfold entries in H. cbn in H. rewrite String.eqb_refl in H. cbn in H.
    apply in_map_iff in Hin. destruct Hin as ([k' v'] & Hk & He). cbn in Hk. subst k'. apply in_entries in He.
    unfold entries in He. destruct (map snd (filter _ l)); [destruct He|cbn in H; lia].
  - apply IH. intros k' Hk'. specialize (H k' (or_intror Hk')). unfold entries in *. cbn in H.
    destruct (String.eqb k k'); cbn in H; lia.
Qed.

Lemma fields_only seqs names y f : fields seqs true names y = Ok f -> only_keys names y.
Proof.
  destruct y as [| |l]; cbn [only_keys]; auto. intro E. apply fields_map in E. destruct E as (U & D & _).
  specialize (D eq_refl). split; [|assumption]. apply entries_nodup. auto.
Qed.

Lemma only_keys_incl a b y : only_keys a y -> incl a b -> only_keys b y.
Proof. destruct y; cbn; auto. intros [H1 H2] H. split; [assumption|]. eapply incl_tran; eassumption. Qed.

Lemma fields_at seqs deny names l f k v :
  fields seqs deny names (YMap l) = Ok f -> In k names -> In (k, v) l -> f k = Some v.
Proof.
  intros E Hk Hv. apply fields_map in E. destruct E as (U & _ & ->). specialize (U k Hk). apply in_entries in Hv.
  destruct (entries k l) as [|w [|]]; cbn in *; try lia. destruct Hv as [->|[]]. reflexivity.
Qed.

(** Every mapping reached by the path has only the allowed keys. *)
Definition strict1 (p : list step) (a : list string) (y : yaml) : Prop := forall n, reach p y n -> only_keys a n.

Lemma strict_here a y : only_keys a y -> strict1 [] a y.
Proof. intros H n R. inversion R; subst. assumption. Qed.

Lemma strict_req {A} (r : yaml -> res A) seqs deny names y f k p a x :
  fields seqs deny names y = Ok f -> In k names -> required r (f k) = Ok x ->
  (forall v x, r v = Ok x -> strict1 p a v) -> strict1 (Key k :: p) a y.
Proof.
  intros E Hk Hr H n R. inversion R as [|? ? l v ? Hv R'|]; subst.
  rewrite (fields_at _ _ _ _ _ _ _ E Hk Hv) in Hr. cbn in Hr. eapply H; eassumption.
Qed.

Lemma strict_opt {A} sc (r : yaml -> res A) seqs deny names y f k p a x :
  fields seqs deny names y = Ok f -> In k names -> optional sc r (f k) = Ok x ->
  (forall v x, r v = Ok x -> strict1 p a v) -> strict1 (Key k :: p) a y.
Proof.
  intros E Hk Hr H n R. inversion R as [|? ? l v ? Hv R'|]; subst.
  rewrite (fields_at _ _ _ _ _ _ _ E Hk Hv) in Hr. cbn in Hr. destruct (is_null sc v) eqn:N.
  - destruct v; try discriminate N. inversion R'; subst. exact I.
  - apply bind_ok in Hr. destruct Hr as (x' & Hr & _). eapply H; eassumption.
Qed.

Lemma strict_list {A} (r : yaml -> res A) y p a xs :
  read_list r y = Ok xs -> (forall v x, r v = Ok x -> strict1 p a v) -> strict1 (Each :: p) a y.
Proof.
  intros E H n R. inversion R as [| |? l v ? Hv R']; subst. cbn in E.
  revert xs E Hv. induction l as [|w l IH]; intros xs E Hv; [destruct Hv|]. cbn [mapM] in E.
  apply bind_ok in E. destruct E as (x & Ex & E). apply bind_ok in E. destruct E as (ys & Ey & _).
  destruct Hv as [->|Hv]; [eapply H; eassumption|]. eapply IH; eauto.
  econstructor; eassumption.
Qed.

Lemma strict_variant y k v p a :
  variant y = Ok v -> (forall w, snd v = Some w -> fst v = k -> strict1 p a w) -> strict1 (Key k :: p) a y.
Proof.
  intros E H n R. inversion R as [|? ? l w ? Hw R'|]; subst. cbn in E.
  destruct l as [|[k' w'] [|]]; try discriminate E. injection E as <-. destruct Hw as [Hw|[]]. injection Hw as -> ->.
  eapply H; try reflexivity. assumption.
Qed.

Ltac inv_ok :=
  repeat match goal with
         | [ H : bind _ _ = Ok _ |- _ ] =>
             let x := fresh "x" in let E := fresh "E" in apply bind_ok in H; destruct H as (x & E & H)
         end.

Ltac st_here := apply strict_here; eapply only_keys_incl; [eapply fields_only; eassumption|intros ? ?; cbn in *; tauto].
Ltac st_key :=
  first [ eapply strict_req; [eassumption|cbn; tauto|eassumption|cbv beta; intros ? ? ?]
        | eapply strict_opt; [eassumption|cbn; tauto|eassumption|cbv beta; intros ? ? ?] ].

Section Strict.
  Variable sc : scalars.

  Lemma strict_vehicles y d : read_vehicles sc y = Ok d -> strict1 [] ["category"; "are_drivers_picky"] y.
  Proof. unfold read_vehicles. intro H. inv_ok. st_here. Qed.
  Lemma strict_edges y d : read_edges sc y = Ok d -> strict1 [] ["will_normalize_metrics_by_mean"; "data"] y.
  Proof. unfold read_edges. intro H. inv_ok. st_here. Qed.
  Lemma strict_generating y d : read_generating sc y = Ok d -> strict1 [] ["nodes"; "edges"] y.
  Proof. unfold read_generating. intro H. inv_ok. st_here. Qed.

  Lemma strict_parsing y d : read_parsing sc y = Ok d -> strict parsing_keys y.
  Proof.
    unfold read_parsing. intros H p a n Hin.
    revert n. change (strict1 p a y). inv_ok.
    repeat (destruct Hin as [Hin|Hin]; [injection Hin as <- <-|]); [..|destruct Hin];
      st_key; unfold read_parsing_content in *; inv_ok.
    - st_here.
    - st_key. eapply strict_vehicles; eassumption.
    - st_key. eapply strict_edges; eassumption.
    - st_key. eapply strict_generating; eassumption.
  Qed.

  Lemma strict_edges_info b y d : read_edges_content sc b y = Ok d -> strict1 [] edges_info_keys y.
  Proof. unfold read_edges_content. intro H. inv_ok. st_here. Qed.
  Lemma strict_writing_edges y d : read_writing_edges sc y = Ok d -> strict writing_edges_keys y.
  Proof.
    unfold read_writing_edges. intros H p a n Hin. revert n. change (strict1 p a y). inv_ok.
    destruct Hin as [Hin|[]]. injection Hin as <- <-.
    st_key. inv_ok. st_key. eapply strict_edges_info; eassumption.
  Qed.
  Lemma strict_writing_graph y d : read_writing_graph sc y = Ok d -> strict writing_graph_keys y.
  Proof.
    unfold read_writing_graph. intros H p a n Hin. revert n. change (strict1 p a y). inv_ok.
    repeat (destruct Hin as [Hin|Hin]; [injection Hin as <- <-|]); [..|destruct Hin];
      st_key; inv_ok; st_key; unfold read_graph_content in *; inv_ok.
    - st_here.
    - st_key. unfold read_graph_edges in *. inv_ok. st_here.
  Qed.
  Lemma strict_writing_pairs y d : read_writing_pairs sc y = Ok d -> strict writing_pairs_keys y.
  Proof.
    unfold read_writing_pairs. intros H p a n Hin. revert n. change (strict1 p a y). inv_ok.
    destruct Hin as [Hin|[]]. injection Hin as <- <-.
    st_key. inv_ok. st_key. unfold read_pairs_content in *. inv_ok. st_here.
  Qed.

  Lemma strict_routing y d : read_routing sc y = Ok d -> strict routing_keys y.
  Proof.
    unfold read_routing. intros H p a n Hin. revert n. change (strict1 p a y). inv_ok.
    repeat (destruct Hin as [Hin|Hin]; [injection Hin as <- <-|]); [..|destruct Hin]; st_key; inv_ok.
    - st_here.
    - st_key. eapply strict_list; [eassumption|]. intros ? ? Hx. unfold read_entry in Hx. inv_ok. st_here.
    - st_key. unfold read_algo in *. inv_ok. eapply strict_variant; [eassumption|]. intros w Hw Hf.
      match goal with [ H : context [fst ?x] |- _ ] => rewrite Hf, Hw in H end. cbn in *. inv_ok. st_here.
  Qed.

  Lemma strict_mch_content b y d : read_mch_content sc b y = Ok d -> strict1 [] mch_keys y.
  Proof. unfold read_mch_content. intro H. inv_ok. st_here. Qed.
  Lemma strict_mch y d : read_mch sc y = Ok d -> strict mch_section_keys y.
  Proof.
    unfold read_mch. intros H p a n Hin. revert n. change (strict1 p a y). inv_ok.
    destruct Hin as [Hin|[]]. injection Hin as <- <-. st_key. eapply strict_mch_content; eassumption.
  Qed.

  Lemma strict_monitoring y d : read_monitoring sc y = Ok d ->
    strict1 [] ["export_vehicles_for_SMARTS"; "edges-info"] y /\ strict1 [Key "edges-info"] edges_info_keys y.
  Proof.
    unfold read_monitoring. intro H. inv_ok. split; [st_here|]. st_key. eapply strict_edges_info; eassumption.
  Qed.

  Lemma strict_balancing y d : read_balancing sc y = Ok d -> strict balancing_keys y.
  Proof.
    unfold read_balancing. intros H p a n Hin. revert n. change (strict1 p a y). inv_ok.
    repeat (destruct Hin as [Hin|Hin]; [injection Hin as <- <-|]); [..|destruct Hin]; st_key; inv_ok.
    - st_here.
    - st_key. unfold read_optimization in *. inv_ok. st_here.
    - st_key. unfold read_optimization in *. inv_ok. st_key. unfold read_method in *. inv_ok.
      eapply strict_variant; [eassumption|]. intros w Hw Hf.
      match goal with [ H : context [fst ?x] |- _ ] => rewrite Hf, Hw in H end. cbn in *. inv_ok. st_here.
    - st_key. eapply strict_mch_content; eassumption.
    - st_key. eapply strict_monitoring; eassumption.
    - st_key. eapply strict_monitoring; eassumption.
  Qed.

  Lemma strict_evaluating y d : read_evaluating sc y = Ok d -> strict evaluating_keys y.
  Proof.
    unfold read_evaluating. intros H p a n Hin. revert n. change (strict1 p a y). inv_ok.
    repeat (destruct Hin as [Hin|Hin]; [injection Hin as <- <-|]); [..|destruct Hin]; st_key; inv_ok.
    - st_here.
    - st_key. eapply strict_monitoring; eassumption.
    - st_key. eapply strict_monitoring; eassumption.
  Qed.
End Strict.
