(** Which configurations can be written down? *)
From Coq Require Import String Ascii List Bool Arith NArith Lia.
From Verif Require Import Base Lib F64 ModelUnits ModelConfig ModelText ModelStreets ModelDijkstra ModelParsing
  ModelWriting ModelBalancing ModelRoutingCfg ModelYaml ModelDocs SpecDocs ProofDocs ProofDocs2.
Import ListNotations.
Open Scope string_scope.
Open Scope list_scope.
Open Scope nat_scope.

(** *** Extensions *)

Lemma text_eqb_eq a b : text_eqb a b = true <-> a = b.
Proof.
  revert b. induction a as [|x a IH]; intros [|y b]; cbn; split; intro H; try reflexivity; try discriminate.
  - apply andb_true_iff in H. destruct H as [H1 H2]. apply Ascii.eqb_eq in H1. apply IH in H2. now subst.
  - injection H as -> ->. rewrite Ascii.eqb_refl. now apply IH.
Qed.

Lemma file_name_plain cur n : ~ In "/"%char n -> file_name_from cur n = cur ++ n.
Proof.
  revert cur. induction n as [|c n IH]; intros cur H; cbn; [now rewrite app_nil_r|].
  destruct (Ascii.eqb_spec c "/"%char) as [->|N]; [exfalso; apply H; now left|].
  rewrite IH by (intro; apply H; now right). now rewrite <- app_assoc.
Qed.

Lemma file_name_dir cur d n : ~ In "/"%char n -> file_name_from cur (d ++ "/"%char :: n) = n.
Proof.
  intro H. revert cur. induction d as [|c d IH]; intro cur; cbn.
  - now apply file_name_plain.
  - destruct (Ascii.eqb c "/"%char); apply IH.
Qed.

Lemma last_slash (s : text) : (~ In "/"%char s) \/ exists d n, s = d ++ "/"%char :: n /\ ~ In "/"%char n.
Proof.
  induction s as [|c s IH]; [left; intros []|].
  destruct IH as [H|(d & n & -> & H)].
  - destruct (Ascii.eqb_spec c "/"%char) as [->|N].
    + right. exists [], s. split; [reflexivity|assumption].
    + left. intros [E|E]; [now apply N|now apply H].
  - right. exists (c :: d), n. split; [reflexivity|assumption].
Qed.

Lemma dot_none before cur found s : ~ In "."%char s ->
  after_last_dot before cur found s = match found with Some (b, _) => Some (b, cur ++ s) | None => None end.
Proof.
  revert before cur. induction s as [|c s IH]; intros before cur H; cbn; [now rewrite app_nil_r|].
  destruct (Ascii.eqb_spec c "."%char) as [->|N]; [exfalso; apply H; now left|].
  rewrite IH by (intro; apply H; now right). now rewrite <- app_assoc.
Qed.

Lemma dot_some before cur found n e : ~ In "."%char e ->
  after_last_dot before cur found (n ++ "."%char :: e) = Some (before ++ n, e).
Proof.
  intro H. revert before cur found. induction n as [|c n IH]; intros before cur found.
  - cbn. rewrite dot_none by assumption. now rewrite app_nil_r.
  - cbn [app after_last_dot]. destruct (Ascii.eqb c "."%char); rewrite IH; now rewrite <- app_assoc.
Qed.

Lemma last_dot (s : text) : (~ In "."%char s) \/ exists n e, s = n ++ "."%char :: e /\ ~ In "."%char e.
Proof.
  induction s as [|c s IH]; [left; intros []|].
  destruct IH as [H|(d & n & -> & H)].
  - destruct (Ascii.eqb_spec c "."%char) as [->|N].
    + right. exists [], s. split; [reflexivity|assumption].
    + left. intros [E|E]; [now apply N|now apply H].
  - right. exists (c :: d), n. split; [reflexivity|assumption].
Qed.

Lemma extension_spec path ext :
  extension path = Some ext ->
  exists dir name, list_ascii_of_string path = dir ++ name ++ ["."%char] ++ ext /\
    (dir = [] \/ exists d, dir = d ++ ["/"%char]) /\ ~ In "/"%char (name ++ ext) /\ name <> [] /\ ~ In "."%char ext.
Proof.
  unfold extension. cbv zeta. set (s := list_ascii_of_string path).
  assert (exists dir n, s = dir ++ n /\ (dir = [] \/ exists d, dir = d ++ ["/"%char]) /\ ~ In "/"%char n /\ file_name_from [] s = n)
    as (dir & n & Hs & Hd & Hn & ->).
  { destruct (last_slash s) as [H|(d & n & E & H)].
    - exists [], s. repeat split; auto. now rewrite file_name_plain.
    - exists (d ++ ["/"%char]), n. rewrite <- app_assoc. repeat split; auto; [right; now exists d|].
      rewrite E. now apply file_name_dir. }
  destruct (text_eqb n (T "..")); [discriminate|].
  destruct (last_dot n) as [H|(m & e & En & H)].
  - rewrite dot_none by assumption. discriminate.
  - subst n. rewrite dot_some by assumption. cbn [app]. destruct m as [|c m]; [discriminate|]. intro E. injection E as <-.
    exists dir, (c :: m). repeat split; auto; [|discriminate].
    intro X. apply Hn. apply in_app_iff in X. apply in_app_iff. destruct X as [X|X]; [now left|right; now right].
Qed.

Lemma extension_intro path dir name ext :
  list_ascii_of_string path = dir ++ name ++ ["."%char] ++ ext ->
  (dir = [] \/ exists d, dir = d ++ ["/"%char]) -> ~ In "/"%char (name ++ ext) -> name <> [] -> ~ In "."%char ext -> ext <> [] ->
  extension path = Some ext.
Proof.
  intros E Hd Hn Hne He Hee. unfold extension. cbv zeta. rewrite E.
  assert (N : ~ In "/"%char (name ++ "."%char :: ext)).
  { intro X. apply Hn. apply in_app_iff in X. apply in_app_iff. destruct X as [X|[X|X]]; [now left|discriminate|now right]. }
  assert (F : file_name_from [] (dir ++ name ++ ["."%char] ++ ext) = name ++ "."%char :: ext).
  { destruct Hd as [->|(d & ->)]; [cbn [app]; now rewrite file_name_plain|]. rewrite <- app_assoc. cbn [app]. now apply file_name_dir. }
  rewrite F. destruct (text_eqb _ _) eqn:T2.
  - apply text_eqb_eq in T2. destruct name as [|a [|b name]]; [contradiction| |].
    + cbn in T2. injection T2 as _ T2. contradiction.
    + apply (f_equal (@length ascii)) in T2. cbn in T2. rewrite app_length in T2. cbn in T2. lia.
  - rewrite dot_some by assumption. cbn [app]. destruct name; [contradiction|reflexivity].
Qed.

Lemma find_ext_ok exts path :
  (forall e, In e exts -> e <> "" /\ ~ In "."%char (list_ascii_of_string e)) ->
  (exists e, find_supported_ext exts path = Ok e) <-> has_extension exts path.
Proof.
  intro Hx. unfold find_supported_ext. split.
  - intros (e & H). destruct (extension path) as [ext|] eqn:E; [|discriminate].
    apply extension_spec in E. destruct E as (dir & name & E & Hd & Hn & Hne & _).
    destruct (find _ exts) as [e'|] eqn:F; [|discriminate]. apply find_some in F. destruct F as [Fi Fe]. apply text_eqb_eq in Fe.
    exists dir, name, ext, e'. repeat split; auto.
  - intros (dir & name & ext & e & E & Hd & Hn & Hne & He & Hl). destruct (Hx e He) as [Ne Nd].
    assert (extension path = Some ext) as ->.
    { eapply extension_intro; eauto.
      - intro X. apply Nd. rewrite <- Hl. unfold to_lower. change "."%char with (ModelText.lower "."%char). now apply in_map.
      - intros ->. cbn in Hl. destruct e; [contradiction|discriminate]. }
    destruct (find _ exts) as [e'|] eqn:F; [now exists e'|].
    exfalso. apply (find_none _ _ F) in He. rewrite Hl in He.
    assert (text_eqb (T e) (list_ascii_of_string e) = true) by now apply text_eqb_eq. congruence.
Qed.

(** *** Ids *)

Lemma id_occurs_in id cs : id_occurs id cs = true <-> In id (ids_of cs).
Proof.
  induction cs as [|c cs IH]; cbn; [split; [discriminate|intros []]|].
  destruct c as [i id'|u id'|]; cbn; [| |exact IH];
    (destruct (String.eqb_spec id id') as [->|N]; [split; auto|]; rewrite IH; split; [now right|intros [E|E]; [now subst|assumption]]).
Qed.

Lemma has_dup_ids cs : has_dup_id cs = false <-> NoDup (ids_of cs).
Proof.
  induction cs as [|c cs IH]; cbn; [split; [constructor|reflexivity]|].
  destruct c as [i id|u id|]; cbn; [| |exact IH];
    (pose proof (id_occurs_in id cs) as O; destruct (id_occurs id cs);
     [split; [discriminate|intro H; inversion H; subst; exfalso; now apply H2, O]|];
     rewrite IH; split; intro H; [constructor; [intro X; apply O in X; discriminate|assumption]|now inversion H]).
Qed.

Lemma metric_units_of cs : metric_units cs = map fst (metrics_of cs).
Proof. induction cs as [|[i d|u d|] cs IH]; cbn; [reflexivity|exact IH|now rewrite IH|exact IH]. Qed.
Lemma metric_ids_of cs : metric_ids cs = map snd (metrics_of cs).
Proof. induction cs as [|[i d|u d|] cs IH]; cbn; [reflexivity|exact IH|now rewrite IH|exact IH]. Qed.

Lemma combine_fst {A B} (l : list A) (m : list B) : length l = length m -> map fst (combine l m) = l.
Proof. revert m. induction l as [|a l IH]; intros [|b m] H; try discriminate; cbn; [reflexivity|]. rewrite IH; auto. Qed.
Lemma combine_snd {A B} (l : list A) (m : list B) : length l = length m -> map snd (combine l m) = m.
Proof. revert m. induction l as [|a l IH]; intros [|b m] H; try discriminate; cbn; [reflexivity|]. rewrite IH; auto. Qed.
Lemma combine_split' {A B} (l : list (A * B)) : combine (map fst l) (map snd l) = l.
Proof. induction l as [|[a b] l IH]; cbn; congruence. Qed.

Lemma read_list_all {A} (r : yaml -> res A) xs :
  (forall x, In x xs -> exists y, r y = Ok x) -> exists y, read_list r y = Ok xs.
Proof.
  intro H. assert (exists l, mapM r l = Ok xs) as [l El].
  { induction xs as [|x xs IH]; [now exists []|].
    destruct (H x (or_introl eq_refl)) as [y Ey]. destruct IH as [l El]; [intros; apply H; now right|].
    exists (y :: l). cbn [mapM]. rewrite Ey. cbn [bind]. now rewrite El. }
  now exists (YSeq l).
Qed.

Lemma read_list_inv {A} (r : yaml -> res A) y xs (P : A -> Prop) :
  read_list r y = Ok xs -> (forall y x, r y = Ok x -> P x) -> Forall P xs.
Proof.
  destruct y as [|l|]; cbn; try discriminate. intros E H. apply mapM_ok in E. induction E; constructor; eauto.
Qed.

Lemma keyword_inv {A} sc (t : list (string * A)) y a : keyword sc t y = Ok a -> In a (map snd t).
Proof.
  unfold keyword. intro H. apply bind_ok in H. destruct H as ([n o] & _ & H). cbn [fst snd] in H.
  destruct (find _ t) as [[k b]|] eqn:F; [|discriminate]. apply find_some in F. destruct F as [F _].
  assert (a = b) as ->.
  { unfold without_content in H. destruct o as [y'|]; [destruct (is_null sc y'); [|discriminate]|]; now injection H as <-. }
  change b with (snd (k, b)). now apply in_map.
Qed.

Lemma required_inv {A} (r : yaml -> res A) o a : required r o = Ok a -> exists y, o = Some y /\ r y = Ok a.
Proof. destruct o as [y|]; cbn; [eauto|discriminate]. Qed.
Lemma optional_inv {A} sc (r : yaml -> res A) o a :
  optional sc r o = Ok a -> a = None \/ exists x y, a = Some x /\ o = Some y /\ r y = Ok x.
Proof.
  destruct o as [y|]; cbn; [|intro H; injection H as <-; now left].
  destruct (is_null sc y); [intro H; injection H as <-; now left|].
  intro H. apply bind_ok in H. destruct H as (x & Hx & H). injection H as <-. right. eauto.
Qed.

Ltac inv_more :=
  repeat match goal with
         | [ H : required _ _ = Ok _ |- _ ] =>
             let y := fresh "y" in let F := fresh "F" in apply required_inv in H; destruct H as (y & F & H)
         | [ H : with_content _ ?o = Ok _ |- _ ] =>
             let y := fresh "y" in destruct o as [y|]; cbn [with_content] in H; [|discriminate H]
         | [ H : Ok _ = Ok _ |- _ ] => injection H as H
         | _ => progress inv_ok
         end.

Section Expressible.
  Variable sc : scalars.
  Hypothesis sc_ok : scalars_ok sc.

  Lemma read_node_inv y c : read_node sc y = Ok c -> node_expressible c.
  Proof.
    unfold read_node. intro H. apply bind_ok in H. destruct H as ([n o] & _ & H). cbn [fst snd] in H.
    destruct (String.eqb n "meta"); [|destruct (String.eqb n "metric"); [|destruct (String.eqb n "ignored"); [|discriminate]]].
    - inv_more. subst c. apply keyword_inv in E0. cbn in *. intuition congruence.
    - inv_more. subst c. apply keyword_inv in E0. cbn in *. intuition congruence.
    - unfold without_content in H. destruct o as [y'|]; [destruct (is_null sc y'); [|discriminate]|]; injection H as <-; exact I.
  Qed.

  Lemma read_edge_inv y c : read_edge sc y = Ok c -> edge_expressible c.
  Proof.
    unfold read_edge. intro H. apply bind_ok in H. destruct H as ([n o] & _ & H). cbn [fst snd] in H.
    destruct (String.eqb n "meta"); [|destruct (String.eqb n "metric"); [|destruct (String.eqb n "ignored"); [|discriminate]]].
    - inv_more. subst c. apply keyword_inv in E0. exact E0.
    - inv_more. subst c. exact I.
    - unfold without_content in H. destruct o as [y'|]; [destruct (is_null sc y'); [|discriminate]|]; injection H as <-; exact I.
  Qed.

  Lemma read_gen_node_inv y c : read_gen_node sc y = Ok c -> fst c = NNodeIdx.
  Proof.
    unfold read_gen_node. intro H. apply bind_ok in H. destruct H as ([n o] & _ & H). cbn [fst snd] in H.
    destruct (String.eqb n "meta"); [|discriminate]. inv_more. subst c. apply keyword_inv in E0. cbn in *. intuition.
  Qed.

  Lemma read_plain_inv {A} (v : string -> option A) y a : read_plain v y = Ok a -> exists t, v t = Some a.
  Proof.
    destruct y as [[|] t| |]; cbn; try discriminate. destruct (v t) eqn:E; [|discriminate].
    intro H. injection H as <-. eauto.
  Qed.

  Lemma read_gen_edge_inv y c : read_gen_edge sc y = Ok c -> gen_expressible sc c.
  Proof.
    unfold read_gen_edge. intro H. apply bind_ok in H. destruct H as ([n o] & _ & H). cbn [fst snd] in H.
    repeat match type of H with (if ?b then _ else _) = _ => destruct b end; try discriminate H;
      inv_more; try (subst c; exact I).
    - subst c. apply keyword_inv in E0. cbn in *. intuition (subst; discriminate).
    - subst c. cbn. apply optional_inv in E2. destruct E2 as [->|(d & y' & -> & _ & E2)]; [now left|].
      right. unfold read_f64 in E2. now apply read_plain_inv in E2.
  Qed.

  Lemma read_parsing_expressible y d : read_parsing sc y = Ok d -> expressible sc d.
  Proof.
    unfold read_parsing. intro H. inv_more. subst x0.
    unfold read_parsing_content in E0. inv_more. unfold edge_cfg_try_from in E8.
    destruct (has_dup_id (fst x5)) eqn:D; [discriminate|]. injection E8 as <-. subst d.
    unfold read_edges in E6. inv_more.
    constructor; cbn [pd_map_file pd_nodes pd_edges pd_generating ec_categories ec_units ec_ids].
    - apply (find_ext_ok MAP_EXTS).
      + intros e [<-|[<-|[]]]; (split; [discriminate|cbn; intuition discriminate]).
      + cbn in E1. eauto.
    - eapply read_list_inv; [eassumption|]. apply read_node_inv.
    - subst x5. cbn [fst]. eapply read_list_inv; [eassumption|]. apply read_edge_inv.
    - now apply has_dup_ids.
    - rewrite metric_units_of, metric_ids_of. apply combine_split'.
    - rewrite metric_units_of, metric_ids_of, !map_length. reflexivity.
    - intros ns es Hg. subst x6. apply optional_inv in E7. destruct E7 as [E7|(g & y' & Eg & _ & E7)]; [discriminate|].
      injection Eg as <-. unfold read_generating in E7. inv_more. subst. split.
      + eapply read_list_inv; [eassumption|]. apply read_gen_node_inv.
      + eapply read_list_inv; [eassumption|]. apply read_gen_edge_inv.
  Qed.

  (** documents of the categories *)
  Definition pair_doc (kind a b x y : string) : yaml := YMap [(kind, YMap [(a, quoted x); (b, quoted y)])].

  Lemma node_writable c : node_expressible c -> exists y, read_node sc y = Ok c.
  Proof.
    destruct c as [i id|u id|]; cbn.
    - intros [->| ->]; [exists (pair_doc "meta" "info" "id" "NodeId" id)|exists (pair_doc "meta" "info" "id" "CHLevel" id)]; reflexivity.
    - intros [->| ->]; [exists (pair_doc "metric" "unit" "id" "Latitude" id)|exists (pair_doc "metric" "unit" "id" "Longitude" id)]; reflexivity.
    - intros _. exists (quoted "ignored"). reflexivity.
  Qed.

  Definition unit_name (u : unit_info) : string :=
    match u with
    | Meters => "Meters" | Kilometers => "Kilometers" | Seconds => "Seconds" | Minutes => "Minutes" | Hours => "Hours"
    | KilometersPerHour => "KilometersPerHour" | LaneCount => "LaneCount" | UF64 => "F64"
    end.
  Lemma unit_keyword u : keyword sc unit_names (quoted (unit_name u)) = Ok u.
  Proof. destruct u; reflexivity. Qed.

  Lemma edge_writable c : edge_expressible c -> exists y, read_edge sc y = Ok c.
  Proof.
    destruct c as [i id|u id|]; cbn [edge_expressible].
    - intros [<-|[<-|[<-|[<-|[<-|[]]]]]];
        [exists (pair_doc "meta" "info" "id" "EdgeId" id)|exists (pair_doc "meta" "info" "id" "SrcId" id)
        |exists (pair_doc "meta" "info" "id" "DstId" id)|exists (pair_doc "meta" "info" "id" "ShortcutIdx0" id)
        |exists (pair_doc "meta" "info" "id" "ShortcutIdx1" id)]; reflexivity.
    - intros _. exists (pair_doc "metric" "unit" "id" (unit_name u) id). destruct u; reflexivity.
    - intros _. exists (quoted "ignored"). reflexivity.
  Qed.

  Lemma gen_node_writable c : fst c = NNodeIdx -> exists y, read_gen_node sc y = Ok c.
  Proof. destruct c as [i id]. cbn. intros ->. exists (pair_doc "meta" "info" "id" "NodeIdx" id). reflexivity. Qed.

  Definition ref_doc (u : unit_info) (id : string) : yaml := YMap [("unit", quoted (unit_name u)); ("id", quoted id)].
  Lemma ref_writable u id : read_metric_ref sc (ref_doc u id) = Ok (u, id).
  Proof. destruct u; reflexivity. Qed.

  Definition gen_meta_name (i : gen_meta) : string :=
    match i with
    | GEdgeId => "EdgeId" | GSrcIdx => "SrcIdx" | GSrcLat => "SrcLat" | GSrcLon => "SrcLon"
    | GDstIdx => "DstIdx" | GDstLat => "DstLat" | GDstLon => "DstLon" | _ => ""
    end.

  Lemma merge_ids_writable info : mapM (read_id sc false)
    (map (fun m => match m with MId id => YMap [("id", quoted id)] | MIgnored => quoted "ignored" end) info) =
    Ok (map (fun m => match m with MId id => Some id | MIgnored => None end) info).
  Proof. induction info as [|[id|] info IH]; [reflexivity| |]; cbn [map mapM]; now rewrite IH. Qed.

  Lemma bool_writable b : exists y, read_bool sc y = Ok b /\ is_null sc y = false.
  Proof.
    destruct b; [exists (plain "true")|exists (plain "false")]; unfold read_bool, read_plain, plain; cbn [is_null].
    - rewrite (so_true _ sc_ok). split; [reflexivity|]. eapply so_bool_null; [assumption|]. exact (so_true _ sc_ok).
    - rewrite (so_false _ sc_ok). split; [reflexivity|]. eapply so_bool_null; [assumption|]. exact (so_false _ sc_ok).
  Qed.

  Lemma gen_edge_writable c : gen_expressible sc c -> exists y, read_gen_edge sc y = Ok c.
  Proof.
    destruct c as [[i id|u id d|u id|fu fi tu ti|fu fi tu ti|ru ri au ai bu bi|]|from h e info]; cbn [gen_expressible].
    - intros [H0 H1]. exists (pair_doc "meta" "info" "id" (gen_meta_name i) id). destruct i; try contradiction; reflexivity.
    - intros [->|(t & Ht)].
      + exists (YMap [("custom", YMap [("unit", quoted (unit_name u)); ("id", quoted id)])]). destruct u; reflexivity.
      + exists (YMap [("custom", YMap [("unit", quoted (unit_name u)); ("id", quoted id); ("default", plain t)])]).
        pose proof (so_f64_null _ sc_ok _ _ Ht) as Hn.
        destruct u; cbn; rewrite Hn, Ht; reflexivity.
    - intros _. exists (pair_doc "haversine" "unit" "id" (unit_name u) id). destruct u; reflexivity.
    - intros _. exists (YMap [("copy", YMap [("from", ref_doc fu fi); ("to", ref_doc tu ti)])]). destruct fu, tu; reflexivity.
    - intros _. exists (YMap [("convert", YMap [("from", ref_doc fu fi); ("to", ref_doc tu ti)])]). destruct fu, tu; reflexivity.
    - intros _. exists (YMap [("calc", YMap [("result", ref_doc ru ri); ("a", ref_doc au ai); ("b", ref_doc bu bi)])]).
      cbn [read_gen_edge variant bind fst snd String.eqb Ascii.eqb Bool.eqb with_content].
      cbn -[read_metric_ref ref_doc]. rewrite !ref_writable. reflexivity.
    - intros [].
    - intros _. destruct (bool_writable h) as (hy & Hh & Hn).
      exists (YMap [("merge", YMap [("from", quoted from); ("with_header-line", hy); ("edge-id", quoted e);
        ("edges-info", YSeq (map (fun m => match m with MId id => YMap [("id", quoted id)] | MIgnored => quoted "ignored" end) info))])]).
      cbn -[read_bool is_null read_id]. rewrite Hn, Hh. cbn -[read_id]. rewrite merge_ids_writable. cbn [bind].
      do 2 f_equal. rewrite map_map. clear. induction info as [|[id|] info IH]; cbn; congruence.
  Qed.

  Lemma vehicles_writable v : exists y, read_vehicles sc y = Ok v /\ is_null sc y = false.
  Proof.
    destruct v as [c p]. destruct (bool_writable p) as (py & Hp & _).
    exists (YMap [("category", quoted (match c with Car => "Car" | Bicycle => "Bicycle" | Walker => "Pedestrian" end));
                  ("are_drivers_picky", py)]).
    split; [|reflexivity]. destruct c; cbn -[read_bool]; rewrite Hp; reflexivity.
  Qed.

  Lemma expressible_read d : expressible sc d -> exists y, read_parsing sc y = Ok d.
  Proof.
    intros [Hf Hn He Hu Hm Ha Hg]. destruct d as [file v ns [cs b us ids] g].
    cbn [pd_map_file pd_nodes pd_edges pd_generating ec_categories ec_units ec_ids] in *.
    destruct (vehicles_writable v) as (vy & Hv & Vn).
    destruct (read_list_all (read_node sc) ns) as (ny & Hny).
    { intros x Hx. apply node_writable. rewrite Forall_forall in Hn. auto. }
    destruct (read_list_all (read_edge sc) cs) as (ey & Hey).
    { intros x Hx. apply edge_writable. rewrite Forall_forall in He. auto. }
    destruct (bool_writable b) as (byy & Hb & Bn).
    assert (exists l, (forall k, In k l -> fst k = "generating") /\ length l <= 1 /\
              optional sc (read_generating sc) (hd_error (map snd l)) = Ok g) as (gl & Hgl & Hlen & Hgo).
    { destruct g as [[gn ge]|]; [|exists []; repeat split; [intros ? []|cbn; lia]].
      destruct (Hg gn ge eq_refl) as [G1 G2].
      destruct (read_list_all (read_gen_node sc) gn) as (gny & Hgny).
      { intros x Hx. apply gen_node_writable. rewrite Forall_forall in G1. auto. }
      destruct (read_list_all (read_gen_edge sc) ge) as (gey & Hgey).
      { intros x Hx. apply gen_edge_writable. rewrite Forall_forall in G2. auto. }
      exists [("generating", YMap [("nodes", gny); ("edges", gey)])]. repeat split.
      - intros k [<-|[]]. reflexivity.
      - cbn; lia.
      - cbn -[read_gen_node read_gen_edge read_list]. rewrite Hgny. cbn [bind]. rewrite Hgey. reflexivity. }
    destruct (proj2 (find_ext_ok MAP_EXTS file ltac:(intros e [<-|[<-|[]]]; (split; [discriminate|cbn; intuition discriminate]))) Hf)
      as (ext & Hext).
    exists (YMap [("parsing", YMap (("map-file", quoted file) :: ("vehicles", vy) :: ("nodes", ny) ::
       ("edges", YMap [("will_normalize_metrics_by_mean", byy); ("data", ey)]) :: gl))]).
    assert (C : edge_cfg_try_from cs (Some b) = Ok {| ec_categories := cs; ec_normalized := b; ec_units := us; ec_ids := ids |}).
    { unfold edge_cfg_try_from. apply has_dup_ids in Hu. rewrite Hu, metric_units_of, metric_ids_of, <- Hm.
      now rewrite combine_fst, combine_snd. }
    assert (P : read_parsing_content sc (YMap (("map-file", quoted file) :: ("vehicles", vy) :: ("nodes", ny) ::
       ("edges", YMap [("will_normalize_metrics_by_mean", byy); ("data", ey)]) :: gl)) =
       Ok {| pd_map_file := file; pd_vehicles := v; pd_nodes := ns;
             pd_edges := {| ec_categories := cs; ec_normalized := b; ec_units := us; ec_ids := ids |}; pd_generating := g |}).
    { destruct gl as [|[k gy] [|]]; [| |cbn in Hlen; lia].
      - cbn [map hd_error] in Hgo.
        cbn -[read_vehicles read_list read_bool is_null read_generating edge_cfg_try_from].
        rewrite Vn, Hv. cbn [bind]. rewrite Hny. cbn [bind]. rewrite Bn, Hb. cbn [bind]. rewrite Hey. cbn [bind fst snd].
        cbn [optional] in Hgo. injection Hgo as <-. rewrite C. reflexivity.
      - pose proof (Hgl _ (or_introl eq_refl)) as Hk. cbn in Hk. subst k. cbn [map hd_error snd] in Hgo.
        cbn -[read_vehicles read_list read_bool is_null read_generating edge_cfg_try_from].
        rewrite Vn, Hv. cbn [bind]. rewrite Hny. cbn [bind]. rewrite Bn, Hb. cbn [bind]. rewrite Hey. cbn [bind fst snd].
        cbn [optional] in Hgo. rewrite Hgo. cbn [bind]. rewrite C. reflexivity. }
    unfold read_parsing. cbn -[read_parsing_content find_supported_ext]. rewrite P. cbn [bind pd_map_file].
    change ["pbf"; "fmi"] with MAP_EXTS. rewrite Hext. reflexivity.
  Qed.
End Expressible.
