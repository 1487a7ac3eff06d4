(** Optional keys of configuration documents may be omitted. *)
From Coq Require Import String Ascii List Bool Arith NArith QArith Lia.
From Verif Require Import Base Lib F64 ModelUnits ModelConfig ModelText ModelStreets ModelDijkstra ModelParsing
  ModelWriting ModelBalancing ModelRoutingCfg ModelYaml ModelDocs SpecDocs ProofDocs ProofDocs2 ProofDocs3.
Import ListNotations.
Open Scope string_scope.
Open Scope list_scope.
Open Scope nat_scope.

Lemma entries_app k l1 l2 : entries k (l1 ++ l2) = entries k l1 ++ entries k l2.
Proof. unfold entries. now rewrite filter_app, map_app. Qed.
Lemma entries_cons k k' v l : entries k ((k', v) :: l) = if String.eqb k' k then v :: entries k l else entries k l.
Proof. unfold entries. cbn [filter fst]. destruct (String.eqb k' k); reflexivity. Qed.
Lemma entries_none k l : ~ In k (map fst l) -> entries k l = [].
Proof.
  induction l as [|[k' v] l IH]; [reflexivity|]. cbn [map fst]. intro H. rewrite entries_cons.
  destruct (String.eqb_spec k' k) as [->|]; [exfalso; apply H; now left|]. apply IH. intro. apply H. now right.
Qed.
Lemma named_in names k : In k names -> named names k = true.
Proof. intro H. unfold named. apply existsb_exists. exists k. split; [assumption|apply String.eqb_refl]. Qed.

Section Adds.
  Variables (seqs deny : bool) (names : list string).

  Lemma bind_here {A} k v y y' (K K' : (string -> option yaml) -> res A) :
    In k names -> adds [] k v y y' ->
    (forall f f', f k = None -> f' k = Some v -> (forall j, j <> k -> f' j = f j) -> K f = K' f') ->
    bind (fields seqs deny names y) K = bind (fields seqs deny names y') K'.
  Proof.
    intros Hk H HK. inversion H as [? ? l1 l2 Hn| |]; subst. clear H. cbn [fields].
    rewrite map_app, in_app_iff in Hn.
    assert (E1 : existsb (fun e => negb (named names (fst e))) (l1 ++ (k, v) :: l2) =
                 existsb (fun e => negb (named names (fst e))) (l1 ++ l2)).
    { rewrite !existsb_app. cbn [existsb fst]. now rewrite (named_in _ _ Hk). }
    rewrite E1. destruct (deny && _); [reflexivity|].
    assert (Ek : entries k (l1 ++ l2) = []) by (rewrite entries_app, !entries_none; tauto).
    assert (Ek' : entries k (l1 ++ (k, v) :: l2) = [v]).
    { rewrite entries_app, entries_cons, String.eqb_refl, !entries_none; tauto. }
    assert (Ej : forall j, j <> k -> entries j (l1 ++ (k, v) :: l2) = entries j (l1 ++ l2)).
    { intros j Hj. rewrite !entries_app, entries_cons. destruct (String.eqb_spec k j); [now subst|reflexivity]. }
    assert (E2 : existsb (fun j => 1 <? length (entries j (l1 ++ (k, v) :: l2))) names =
                 existsb (fun j => 1 <? length (entries j (l1 ++ l2))) names).
    { apply existsb_ext'. intros j _. destruct (string_dec j k) as [->|N]; [now rewrite Ek, Ek'|now rewrite Ej]. }
    rewrite E2. destruct (existsb (fun j => 1 <? length (entries j (l1 ++ l2))) names); [reflexivity|]. cbn [bind]. apply HK.
    - now rewrite Ek.
    - now rewrite Ek'.
    - intros j Hj. now rewrite Ej.
  Qed.

  Lemma bind_key {A} k' p k v y y' (K K' : (string -> option yaml) -> res A) :
    In k' names -> adds (Key k' :: p) k v y y' ->
    (forall f f' n n', f k' = Some n -> f' k' = Some n' -> adds p k v n n' -> (forall j, j <> k' -> f' j = f j) -> K f = K' f') ->
    bind (fields seqs deny names y) K = bind (fields seqs deny names y') K'.
  Proof.
    intros Hk H HK. inversion H as [|? ? ? ? n n' l1 l2 Hn|]; subst. clear H. cbn [fields].
    assert (E1 : existsb (fun e => negb (named names (fst e))) (l1 ++ (k', n') :: l2) =
                 existsb (fun e => negb (named names (fst e))) (l1 ++ (k', n) :: l2)).
    { rewrite !existsb_app. reflexivity. }
    rewrite E1. destruct (deny && _); [reflexivity|].
    assert (Ej : forall j, j <> k' -> entries j (l1 ++ (k', n') :: l2) = entries j (l1 ++ (k', n) :: l2)).
    { intros j Hj. rewrite !entries_app, !entries_cons. destruct (String.eqb_spec k' j); [now subst|reflexivity]. }
    assert (L : forall j, length (entries j (l1 ++ (k', n') :: l2)) = length (entries j (l1 ++ (k', n) :: l2))).
    { intro j. rewrite !entries_app, !entries_cons, !app_length. destruct (String.eqb k' j); reflexivity. }
    rewrite (existsb_ext' (fun j => 1 <? length (entries j (l1 ++ (k', n') :: l2)))
              (fun j => 1 <? length (entries j (l1 ++ (k', n) :: l2)))) by (intros; now rewrite L).
    destruct (existsb (fun j => 1 <? length (entries j (l1 ++ (k', n) :: l2))) names) eqn:D; [reflexivity|]. cbn [bind].
    assert (L1 : length (entries k' (l1 ++ (k', n) :: l2)) <= 1).
    { destruct (1 <? length (entries k' (l1 ++ (k', n) :: l2))) eqn:Lt; [|now apply Nat.ltb_ge in Lt].
      assert (existsb (fun j => 1 <? length (entries j (l1 ++ (k', n) :: l2))) names = true)
        by (apply existsb_exists; eauto). congruence. }
    rewrite entries_app, entries_cons, String.eqb_refl, app_length in L1. cbn in L1.
    assert (entries k' l1 = []) by (apply length_zero_iff_nil; lia).
    apply (HK _ _ n n'); [| |assumption|].
    - rewrite entries_app, entries_cons, String.eqb_refl, H. reflexivity.
    - rewrite entries_app, entries_cons, String.eqb_refl, H. reflexivity.
    - intros j Hj. now rewrite Ej.
  Qed.
End Adds.

Lemma variant_key {A} k' p k v y y' (K : string * option yaml -> res A) :
  adds (Key k' :: p) k v y y' ->
  (forall n n', adds p k v n n' -> K (k', Some n) = K (k', Some n')) ->
  bind (variant y) K = bind (variant y') K.
Proof.
  intros H HK. inversion H as [|? ? ? ? n n' l1 l2 Hn|]; subst. clear H.
  destruct l1 as [|[a b] [|? ?]]; [|reflexivity|reflexivity].
  destruct l2; [|reflexivity]. cbn. now apply HK.
Qed.

Lemma list_each {A} p k v y y' (r : yaml -> res A) :
  adds (Each :: p) k v y y' ->
  (forall n n', adds p k v n n' -> r n = r n') -> read_list r y = read_list r y'.
Proof.
  intros H Hr. inversion H as [| |? ? ? n n' l1 l2 Hn]; subst. cbn [read_list]. pose proof (Hr _ _ Hn) as E. clear - E.
  induction l1 as [|x l1 IH]; cbn [app mapM]; [now rewrite E|]. now rewrite IH.
Qed.

Lemma adds_not_null sc p k v y y' : adds p k v y y' -> is_null sc y = false /\ is_null sc y' = false.
Proof. intros []; split; reflexivity. Qed.

Lemma required_some {A} (r : yaml -> res A) y : required r (Some y) = r y.
Proof. reflexivity. Qed.
Lemma with_content_some {A} (r : yaml -> res A) y : with_content r (Some y) = r y.
Proof. reflexivity. Qed.
Lemma optional_some {A} sc (r : yaml -> res A) y : is_null sc y = false -> optional sc r (Some y) = do x <- r y; Ok (Some x).
Proof. cbn. intros ->. reflexivity. Qed.

(** the other fields are the same *)
Ltac others f' Ho := repeat match goal with |- context [f' ?j] => rewrite (Ho j) by discriminate end.

(** the entry is added to this mapping *)
Ltac here :=
  eapply bind_here; [|eassumption|]; [cbn; tauto|];
  let f := fresh "f" in let f' := fresh "f'" in let H0 := fresh "H0" in let H1 := fresh "H1" in let Ho := fresh "Ho" in
  intros f f' H0 H1 Ho; rewrite H0, H1; others f' Ho; clear Ho H0 H1.

(** it is added below this key *)
Ltac below :=
  eapply bind_key; [|eassumption|]; [cbn; tauto|];
  let f := fresh "f" in let f' := fresh "f'" in let n := fresh "n" in let n' := fresh "n'" in
  let H0 := fresh "H0" in let H1 := fresh "H1" in let Ho := fresh "Ho" in let Hn := fresh "Hn" in
  intros f f' n n' H0 H1 Hn Ho; rewrite H0, H1; others f' Ho; clear Ho H0 H1;
  rewrite ?required_some; try rewrite !optional_some by first [exact (proj1 (adds_not_null _ _ _ _ _ _ Hn))|exact (proj2 (adds_not_null _ _ _ _ _ _ Hn))].

Ltac branch :=
  eapply variant_key; [eassumption|];
  let n := fresh "n" in let n' := fresh "n'" in let Hn := fresh "Hn" in
  intros n n' Hn; cbn [fst snd String.eqb Ascii.eqb Bool.eqb]; rewrite !with_content_some.

(** [is] : the same reading further below *)
Ltac by_below is := let E := fresh "E" in pose proof is as E; rewrite E; reflexivity.

Section Defaults.
  Variable sc : scalars.
  Hypothesis so : scalars_ok sc.
  Hypothesis no : numbers_ok sc.

  Lemma opt_bool b t : t = (if b : bool then "true" else "false") -> optional sc (read_bool sc) (Some (plain t)) = Ok (Some b).
  Proof.
    intros ->. cbn. destruct b.
    - rewrite (so_bool_null _ so _ _ (so_true _ so)), (so_true _ so). reflexivity.
    - rewrite (so_bool_null _ so _ _ (so_false _ so)), (so_false _ so). reflexivity.
  Qed.
  Lemma opt_u64 t n : sc_u64 sc t = Some n -> optional sc (read_u64 sc) (Some (plain t)) = Ok (Some n).
  Proof. intro H. cbn. rewrite (so_u64_null _ so _ _ H), H. reflexivity. Qed.
  Lemma opt_f64 t x : sc_f64 sc t = Some x -> optional sc (read_f64 sc) (Some (plain t)) = Ok (Some x).
  Proof. intro H. cbn. rewrite (so_f64_null _ so _ _ H), H. reflexivity. Qed.
  Lemma opt_none {A} (r : yaml -> res A) : optional sc r None = Ok None.
  Proof. reflexivity. Qed.

  Ltac value :=
    rewrite ?opt_none, ?(opt_bool true "true" eq_refl), ?(opt_bool false "false" eq_refl),
      ?(opt_u64 _ _ (no_42 _ no)), ?(opt_u64 _ _ (no_4 _ no)), ?(opt_f64 _ _ (no_0 _ no)), ?(opt_f64 _ _ (no_accuracy _ no));
    cbn [bind or_else].

  Lemma bind_bind {A B C} (a : res A) (f : A -> res B) (g : B -> res C) : bind (bind a f) g = bind a (fun x => bind (f x) g).
  Proof. destruct a; reflexivity. Qed.

  Ltac steps :=
    repeat (first [reflexivity | rewrite !bind_bind | match goal with |- bind ?a _ = bind ?a _ => destruct a; cbn [bind]; [|reflexivity..] end]).

  Lemma omit_edges_content b path y y' k v :
    In (path, k, v) (edges_info_defaults []) -> adds path k v y y' ->
    read_edges_content sc b y = read_edges_content sc b y'.
  Proof.
    intros [E|[E|[]]] H; injection E as <- <- <-; unfold read_edges_content; here; value; steps.
  Qed.

  Lemma omit_graph_edges {A} path y y' k v (K : bool -> bool -> list (option string) -> res A) :
    In (path, k, v) (edges_info_defaults []) -> adds path k v y y' ->
    bind (read_graph_edges sc y) (fun es => K (or_else false (fst (fst es))) (or_else false (snd (fst es))) (snd es)) =
    bind (read_graph_edges sc y') (fun es => K (or_else false (fst (fst es))) (or_else false (snd (fst es))) (snd es)).
  Proof.
    intros [E|[E|[]]] H; injection E as <- <- <-; unfold read_graph_edges; rewrite !bind_bind;
      here; value; rewrite ?bind_bind; steps.
  Qed.

  Lemma omit_mch_content b path y y' k v :
    In (path, k, v) (mch_defaults []) -> adds path k v y y' ->
    read_mch_content sc b y = read_mch_content sc b y'.
  Proof.
    intros [E|[E|[E|[]]]] H; injection E as <- <- <-; unfold read_mch_content; here; value; steps.
    replace (optional sc (read_string sc b) (Some (quoted "99.8"))) with (@Ok (option string) (Some "99.8"))
      by (destruct b; reflexivity). steps.
  Qed.

  Lemma omit_monitoring path y y' k v :
    In (path, k, v) (monitoring_defaults []) -> adds path k v y y' -> read_monitoring sc y = read_monitoring sc y'.
  Proof.
    intros [E|[E|[E|[]]]] H; injection E as <- <- <-; unfold read_monitoring.
    - here. value. steps.
    - below. rewrite (omit_edges_content true [] n n' _ _ (or_introl eq_refl) Hn). reflexivity.
    - below. rewrite (omit_edges_content true [] n n' _ _ (or_intror (or_introl eq_refl)) Hn). reflexivity.
  Qed.

  Lemma omit_custom k v y y' :
    In (k, v) [("unit", quoted "F64"); ("default", plain "0.0")] -> adds [Key "custom"] k v y y' ->
    read_gen_edge sc y = read_gen_edge sc y'.
  Proof.
    intros [E|[E|[]]] H; injection E as <- <-; unfold read_gen_edge; branch; here; value; steps.
  Qed.

  Lemma omit_merge y y' :
    adds [Key "merge"] "with_header-line" (plain "true") y y' -> read_gen_edge sc y = read_gen_edge sc y'.
  Proof. intro H; unfold read_gen_edge; branch; here; value; steps. Qed.

  Lemma omit_edges y y' :
    adds [] "will_normalize_metrics_by_mean" (plain "false") y y' ->
    forall A (K : list category -> bool -> res A),
    bind (read_edges sc y) (fun es => K (fst es) (or_else false (snd es))) =
    bind (read_edges sc y') (fun es => K (fst es) (or_else false (snd es))).
  Proof. intros H A K. unfold read_edges. rewrite !bind_bind. here. value. rewrite ?bind_bind. steps. Qed.

  Lemma omit_generating k v kind y y' :
    (forall n n', adds [Key kind] k v n n' -> read_gen_edge sc n = read_gen_edge sc n') ->
    adds [Key "edges"; Each; Key kind] k v y y' -> read_generating sc y = read_generating sc y'.
  Proof.
    intros Hr H. unfold read_generating. below.
    rewrite (list_each _ _ _ _ _ (read_gen_edge sc) Hn Hr). reflexivity.
  Qed.

  Lemma content_generating k v kind y y' :
    (forall n n', adds [Key kind] k v n n' -> read_gen_edge sc n = read_gen_edge sc n') ->
    adds [Key "generating"; Key "edges"; Each; Key kind] k v y y' -> read_parsing_content sc y = read_parsing_content sc y'.
  Proof.
    intros Hr H. unfold read_parsing_content. below.
    rewrite (omit_generating _ _ _ _ _ Hr Hn). reflexivity.
  Qed.

  Lemma omit_content y y' k v p :
    In (Key "parsing" :: p, k, v) parsing_defaults -> adds p k v y y' -> read_parsing_content sc y = read_parsing_content sc y'.
  Proof.
    intros [E|[E|[E|[E|[E|[]]]]]] H; injection E as <- <- <-.
    - unfold read_parsing_content. here.
      replace (optional sc (read_vehicles sc) (Some (YMap [("category", quoted "Car"); ("are_drivers_picky", plain "true")])))
        with (@Ok (option vehicle_cfg) (Some {| vc_category := Car; vc_picky := true |})) by (cbn; now rewrite (so_true _ so)).
      value. steps.
    - unfold read_parsing_content. below.
      destruct (required (read_string sc false) (f "map-file")); cbn [bind]; [|reflexivity..].
      destruct (optional sc (read_vehicles sc) (f "vehicles")); cbn [bind]; [|reflexivity..].
      destruct (required (read_list (read_node sc)) (f "nodes")); cbn [bind]; [|reflexivity..].
      pose proof (omit_edges n n' Hn parsing_doc (fun cs b =>
        do g <- optional sc (read_generating sc) (f "generating");
        do ec <- edge_cfg_try_from cs (Some b);
        Ok {| pd_map_file := a; pd_vehicles := or_else {| vc_category := Car; vc_picky := true |} a0;
              pd_nodes := a1; pd_edges := ec; pd_generating := g |})) as E. cbn beta in E.
      assert (X : forall cs o, edge_cfg_try_from cs (Some (or_else false o)) = edge_cfg_try_from cs o) by (intros cs [[|]|]; reflexivity).
      destruct (read_edges sc n) as [es| | |], (read_edges sc n') as [es'| | |]; cbn [bind] in *; rewrite ?X in E; exact E.
    - eapply content_generating; [|eassumption]. intros n n'. apply omit_custom. now left.
    - eapply content_generating; [|eassumption]. intros n n'. apply omit_custom. right. now left.
    - eapply content_generating; [|eassumption]. intros n n'. apply omit_merge.
  Qed.

  Lemma omit_parsing : may_be_omitted parsing_defaults (read_parsing sc).
  Proof.
    intros p k v y y' Hin H.
    assert (exists q, p = Key "parsing" :: q) as [q ->].
    { destruct Hin as [E|[E|[E|[E|[E|[]]]]]]; injection E as <- _ _; eauto. }
    unfold read_parsing. below. rewrite (omit_content _ _ _ _ _ Hin Hn). reflexivity.
  Qed.

  Lemma omit_writing_edges : may_be_omitted writing_edges_defaults (read_writing_edges sc).
  Proof.
    intros p k v y y' [E|[E|[]]] H; injection E as <- <- <-; unfold read_writing_edges; below;
      (eapply bind_same; [|reflexivity]); below.
    - exact (omit_edges_content false [] n0 n'0 _ _ (or_introl eq_refl) Hn0).
    - exact (omit_edges_content false [] n0 n'0 _ _ (or_intror (or_introl eq_refl)) Hn0).
  Qed.

  Lemma omit_graph_content p k v y y' :
    In (p, k, v) (edges_info_defaults []) -> adds (Key "edges" :: p) k v y y' -> read_graph_content sc y = read_graph_content sc y'.
  Proof.
    intros Hin H. unfold read_graph_content. below.
    destruct (required (read_string sc false) (f "map-file")); cbn [bind]; [|reflexivity..].
    destruct (required (read_list (read_id sc false)) (f "nodes")); cbn [bind]; [|reflexivity..].
    exact (omit_graph_edges p n n' k v (fun s d ids => Ok {| gd_file := a; gd_cfg := {| gc_nodes := a0;
      gc_shortcuts := s; gc_denormalizing := d; gc_edges := ids |} |}) Hin Hn).
  Qed.

  Lemma omit_writing_graph : may_be_omitted writing_graph_defaults (read_writing_graph sc).
  Proof.
    intros p k v y y' [E|[E|[]]] H; injection E as <- <- <-; unfold read_writing_graph; below;
      (eapply bind_same; [|reflexivity]); below.
    - exact (omit_graph_content [] _ _ n0 n'0 (or_introl eq_refl) Hn0).
    - exact (omit_graph_content [] _ _ n0 n'0 (or_intror (or_introl eq_refl)) Hn0).
  Qed.

  Lemma omit_writing_pairs : may_be_omitted writing_pairs_defaults (read_writing_pairs sc).
  Proof.
    intros p k v y y' [E|[]] H; injection E as <- <- <-; unfold read_writing_pairs; below;
      (eapply bind_same; [|reflexivity]); below. unfold read_pairs_content. below.
    replace (read_random_or_all sc n1) with (read_random_or_all sc n'1); [reflexivity|].
    symmetry. unfold read_random_or_all. here. value. steps.
  Qed.

  Lemma omit_mch : may_be_omitted mch_section_defaults (read_mch sc).
  Proof.
    intros p k v y y' Hin H.
    assert (p = [Key "multi-ch-constructor"] /\ In ([], k, v) (mch_defaults [])) as [-> Hin'].
    { destruct Hin as [E|[E|[E|[]]]]; injection E as <- <- <-; cbn; tauto. }
    unfold read_mch. below. exact (omit_mch_content false [] n n' k v Hin' Hn).
  Qed.

  Lemma monitoring_in q p k v : In (p, k, v) (monitoring_defaults q) ->
    exists r, p = q ++ r /\ In (r, k, v) (monitoring_defaults []).
  Proof.
    intros [E|[E|[E|[]]]]; injection E as <- <- <-.
    - exists []. rewrite app_nil_r. cbn; tauto.
    - exists [Key "edges-info"]. cbn; tauto.
    - exists [Key "edges-info"]. cbn; tauto.
  Qed.

  Lemma omit_balancing : may_be_omitted balancing_defaults (read_balancing sc).
  Proof.
    intros p k v y y' Hin H. unfold balancing_defaults in Hin. rewrite !in_app_iff in Hin.
    destruct Hin as [[E|[E|[E|[]]]]|[Hin|Hin]]; try (injection E as <- <- <-).
    - unfold read_balancing. below. here. value. steps.
    - unfold read_balancing. below. here. value. steps.
    - unfold read_balancing. below. here. value. steps.
    - assert (p = [Key "balancing"; Key "multi-ch-constructor"] /\ In ([], k, v) (mch_defaults [])) as [-> Hin'].
      { destruct Hin as [E|[E|[E|[]]]]; injection E as <- <- <-; cbn; tauto. }
      unfold read_balancing. below. below. rewrite (omit_mch_content true [] n0 n'0 k v Hin' Hn0). reflexivity.
    - apply monitoring_in in Hin. destruct Hin as (r & -> & Hin). cbn [app] in H.
      unfold read_balancing. below. below. rewrite (omit_monitoring r n0 n'0 k v Hin Hn0). reflexivity.
  Qed.

  Lemma omit_evaluating : may_be_omitted evaluating_defaults (read_evaluating sc).
  Proof.
    intros p k v y y' Hin H. unfold evaluating_defaults in Hin. rewrite !in_app_iff in Hin.
    destruct Hin as [[E|[E|[]]]|Hin]; try (injection E as <- <- <-).
    - unfold read_evaluating. below. here. value. steps.
    - unfold read_evaluating. below. here. value. steps.
    - apply monitoring_in in Hin. destruct Hin as (r & -> & Hin). cbn [app] in H.
      unfold read_evaluating. below. below. rewrite (omit_monitoring r n0 n'0 k v Hin Hn0). reflexivity.
  Qed.

  (** the entries mean the same, whenever they are read *)
  Definition means_same (parse_f64 : string -> option f64) (a a' : res raw_entry) : Prop :=
    a = a' \/ exists e e', a = Ok e /\ a' = Ok e' /\ proto_entry_of parse_f64 e = proto_entry_of parse_f64 e'.

  Lemma omit_entry pf k v y y' :
    In (k, v) [("alpha", plain "1.0"); ("tolerated-scale", quoted "inf")] -> adds [] k v y y' ->
    means_same pf (read_entry sc y) (read_entry sc y').
  Proof.
    intros Hin H.
    assert (X : forall A (K : raw_entry -> res A),
      (forall e e', proto_entry_of pf e = proto_entry_of pf e' -> K e = K e') ->
      bind (read_entry sc y) K = bind (read_entry sc y') K).
    { intros A K HK. unfold read_entry. rewrite !bind_bind.
      destruct Hin as [E|[E|[]]]; injection E as <- <-; here; cbn beta.
      - rewrite (opt_f64 _ _ (no_1 _ no)). rewrite opt_none.
        destruct (required (read_string sc false) (f "id")) as [i| | |]; cbn [bind]; [|reflexivity..].
        destruct (optional sc (read_string sc false) (f "tolerated-scale")) as [t| | |]; cbn [bind]; [|reflexivity..].
        apply HK. reflexivity.
      - rewrite opt_none.
        destruct (required (read_string sc false) (f "id")) as [i| | |]; cbn [bind]; [|reflexivity..].
        destruct (optional sc (read_f64 sc) (f "alpha")) as [t| | |]; cbn [bind]; [|reflexivity..].
        apply HK. reflexivity. }
    pose proof (X proto_entry (proto_entry_of pf) ltac:(auto)) as E1.
    pose proof (X unit (fun _ => Ok tt) ltac:(auto)) as E2.
    destruct (read_entry sc y) as [e|m| |], (read_entry sc y') as [e'|m'| |]; cbn [bind] in *; try discriminate E2;
      try (left; congruence).
    right. exists e, e'. auto.
  Qed.

  Lemma omit_entries pf k v y y' :
    In (k, v) [("alpha", plain "1.0"); ("tolerated-scale", quoted "inf")] -> adds [Each] k v y y' ->
    read_list (read_entry sc) y = read_list (read_entry sc) y' \/
    exists l l', read_list (read_entry sc) y = Ok l /\ read_list (read_entry sc) y' = Ok l' /\
      mapM (proto_entry_of pf) l = mapM (proto_entry_of pf) l'.
  Proof.
    intros Hin H. inversion H as [| |? ? ? n n' l1 l2 Hn]; subst. cbn [read_list].
    pose proof (omit_entry pf k v n n' Hin Hn) as M. clear - M.
    induction l1 as [|x l1 IH]; cbn [app mapM].
    - destruct M as [->|(e & e' & -> & -> & Hp)]; [now left|]. cbn [bind].
      destruct (mapM (read_entry sc) l2) as [l| | |]; cbn [bind]; [|now left..].
      right. exists (e :: l), (e' :: l). repeat split. cbn [mapM]. now rewrite Hp.
    - destruct (read_entry sc x) as [e| | |]; cbn [bind]; [|now left..].
      destruct IH as [->|(l & l' & -> & -> & Hp)]; [now left|]. cbn [bind].
      right. exists (e :: l), (e :: l'). repeat split. cbn [mapM]. now rewrite Hp.
  Qed.

  Lemma omit_routing pf ec : may_be_omitted routing_defaults (read_routing_cfg sc pf ec).
  Proof.
    intros p k v y y' Hin H.
    assert (p = [Key "routing"; Key "metrics"; Each] /\ In (k, v) [("alpha", plain "1.0"); ("tolerated-scale", quoted "inf")])
      as [-> Hin'].
    { destruct Hin as [E|[E|[]]]; injection E as <- <- <-; cbn; tauto. }
    unfold read_routing_cfg, read_routing. rewrite !bind_bind. below. rewrite !bind_bind. below.
    rewrite !bind_bind. destruct (optional sc (read_string sc false) (f0 "route-pairs-file")); cbn [bind]; [|reflexivity..].
    rewrite !bind_bind. destruct (required (read_algo sc) (f0 "algorithm")); cbn [bind]; [|reflexivity..].
    rewrite !bind_bind. destruct (omit_entries pf k v n0 n'0 Hin' Hn0) as [->|(l & l' & -> & -> & Hp)]; [reflexivity|].
    cbn [bind rd_algo rd_metrics rd_pairs]. unfold routing_try_from. now rewrite Hp.
  Qed.
End Defaults.
