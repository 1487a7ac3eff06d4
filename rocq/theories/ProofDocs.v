(** Lemmas about reading configuration documents. *)
From Coq Require Import String Ascii List Bool Arith NArith Permutation Lia.
From Verif Require Import Base F64 ModelUnits ModelConfig ModelText ModelStreets ModelDijkstra ModelParsing
  ModelWriting ModelBalancing ModelRoutingCfg ModelYaml ModelDocs SpecDocs.
Import ListNotations.
Open Scope string_scope.
Open Scope list_scope.
Open Scope nat_scope.

(** *** The order of keys *)

Definition same_entry (a b : string * yaml) : Prop := fst a = fst b /\ same_doc (snd a) (snd b).

Inductive same_opt : option yaml -> option yaml -> Prop :=
| so_none : same_opt None None
| so_some y y' : same_doc y y' -> same_opt (Some y) (Some y').

Definition respects {A} (r : yaml -> A) : Prop := forall y y', same_doc y y' -> r y = r y'.

Lemma F2_len {A B} (R : A -> B -> Prop) l l' : Forall2 R l l' -> length l = length l'.
Proof. induction 1; cbn; congruence. Qed.

Lemma entries_same k m l' : Forall2 same_entry m l' -> Forall2 same_doc (entries k m) (entries k l').
Proof.
  unfold entries. induction 1 as [|a b m l' [He Hd] _ IH]; [constructor|].
  cbn. rewrite He. destruct (String.eqb (fst b) k); cbn; [constructor|]; assumption.
Qed.

Lemma entries_perm k l m : Permutation l m -> Permutation (entries k l) (entries k m).
Proof.
  unfold entries. intro H. apply Permutation_map.
  induction H as [|x l m _ IH|x y l|l m n _ IH1 _ IH2]; cbn.
  - constructor.
  - destruct (String.eqb (fst x) k); [constructor|]; assumption.
  - destruct (String.eqb (fst x) k), (String.eqb (fst y) k); try apply Permutation_refl; constructor.
  - eapply Permutation_trans; eassumption.
Qed.

Lemma existsb_perm {A} (f : A -> bool) l m : Permutation l m -> existsb f l = existsb f m.
Proof.
  induction 1 as [|x l m _ IH|x y l|l m n _ IH1 _ IH2]; cbn.
  - reflexivity.
  - now rewrite IH.
  - destruct (f x), (f y); reflexivity.
  - congruence.
Qed.

Lemma existsb_same (f : string -> bool) m l' :
  Forall2 same_entry m l' -> existsb (fun e => f (fst e)) m = existsb (fun e => f (fst e)) l'.
Proof. induction 1 as [|a b m l' [He _] _ IH]; cbn; [reflexivity|]. now rewrite He, IH. Qed.

Lemma existsb_ext' {A} (f g : A -> bool) l : (forall x, In x l -> f x = g x) -> existsb f l = existsb g l.
Proof.
  induction l as [|x l IH]; intro H; cbn; [reflexivity|].
  rewrite (H x (or_introl eq_refl)), IH; [reflexivity|]. intros y Hy. apply H. now right.
Qed.

Lemma F2_nth_error l l' i : Forall2 same_doc l l' -> same_opt (nth_error l i) (nth_error l' i).
Proof.
  intro H. revert i. induction H as [|a b l l' Hd _ IH]; intros [|i]; cbn; try constructor; try assumption. apply IH.
Qed.

Lemma fields_same {A} seqs deny names y y' (k : (string -> option yaml) -> res A) (k' : (string -> option yaml) -> res A) :
  same_doc y y' ->
  (forall f f', (forall n, In n names -> same_opt (f n) (f' n)) -> k f = k' f') ->
  bind (fields seqs deny names y) k = bind (fields seqs deny names y') k'.
Proof.
  intros H Hk. destruct H as [p t|l l' Hs|l m l' Hp Hs]; cbn [fields].
  - reflexivity.
  - rewrite (F2_len _ _ _ Hs). destruct (seqs && (length l' =? length names)); [|reflexivity].
    cbn [bind]. apply Hk. intros n _. destruct (position n names); [now apply F2_nth_error|constructor].
  - fold same_entry in Hs.
    assert (E : forall n, length (entries n l) = length (entries n l')).
    { intro n. rewrite (Permutation_length (entries_perm n l m Hp)). eapply F2_len. now apply entries_same. }
    assert (U : existsb (fun e => negb (named names (fst e))) l = existsb (fun e => negb (named names (fst e))) l').
    { rewrite (existsb_perm _ _ _ Hp). exact (existsb_same (fun n => negb (named names n)) m l' Hs). }
    rewrite U. destruct (deny && existsb (fun e => negb (named names (fst e))) l'); [reflexivity|].
    rewrite (existsb_ext' (fun n => 1 <? length (entries n l)) (fun n => 1 <? length (entries n l')) names)
      by (intros n _; now rewrite E).
    destruct (existsb (fun n => 1 <? length (entries n l')) names) eqn:D; [reflexivity|].
    cbn [bind]. apply Hk. intros n Hn.
    assert (L : length (entries n l') <= 1).
    { destruct (1 <? length (entries n l')) eqn:Lt; [|now apply Nat.ltb_ge in Lt].
      assert (existsb (fun n => 1 <? length (entries n l')) names = true)
        by (apply existsb_exists; exists n; split; assumption). congruence. }
    pose proof (entries_perm n l m Hp) as P. pose proof (entries_same n m l' Hs) as S.
    destruct (entries n l') as [|v' [|]]; [| |cbn in L; lia]; inversion S; subst.
    + destruct (entries n m); [|discriminate]. apply Permutation_sym, Permutation_nil in P. rewrite P. constructor.
    + match goal with [ E : Forall2 _ _ [] |- _ ] => inversion E; subst end.
      match goal with [ E : _ = entries n m |- _ ] => rewrite <- E in P end.
      apply Permutation_sym, Permutation_length_1_inv in P. rewrite P. cbn. now constructor.
Qed.

Lemma variant_same {A} y y' (k k' : string * option yaml -> res A) :
  same_doc y y' ->
  (forall n o o', same_opt o o' -> k (n, o) = k' (n, o')) ->
  bind (variant y) k = bind (variant y') k'.
Proof.
  intros H Hk. destruct H as [p t|l l' Hs|l m l' Hp Hs]; cbn [variant].
  - cbn [bind]. apply Hk. constructor.
  - reflexivity.
  - pose proof (F2_len _ _ _ Hs) as L. rewrite <- (Permutation_length Hp) in L.
    destruct l as [|[a v] [|? ?]]; destruct l' as [|[a' v'] [|? ?]]; try discriminate L; try reflexivity.
    apply Permutation_length_1_inv in Hp. subst m. inversion Hs as [|? ? ? ? [He Hd] _]; subst.
    cbn in He, Hd. subst a'. cbn [bind]. apply Hk. now constructor.
Qed.

Lemma bind_same {A B} (a a' : res A) (k k' : A -> res B) :
  a = a' -> (forall x, k x = k' x) -> bind a k = bind a' k'.
Proof. intros -> H. destruct a'; cbn; auto. Qed.

Lemma required_same {A} (r r' : yaml -> res A) o o' :
  same_opt o o' -> (forall y y', same_doc y y' -> r y = r' y') -> required r o = required r' o'.
Proof. intros [|y y' H] Hr; cbn; auto. Qed.

Lemma with_content_same {A} (r r' : yaml -> res A) o o' :
  same_opt o o' -> (forall y y', same_doc y y' -> r y = r' y') -> with_content r o = with_content r' o'.
Proof. intros [|y y' H] Hr; cbn; auto. Qed.

Lemma is_null_same sc : respects (is_null sc).
Proof. intros y y' H. destruct H; reflexivity. Qed.

Lemma optional_same {A} sc (r r' : yaml -> res A) o o' :
  same_opt o o' -> (forall y y', same_doc y y' -> r y = r' y') -> optional sc r o = optional sc r' o'.
Proof.
  intros [|y y' H] Hr; cbn; [reflexivity|]. rewrite (is_null_same sc _ _ H), (Hr _ _ H). reflexivity.
Qed.

Lemma without_content_same {A} sc (a : A) o o' : same_opt o o' -> without_content sc a o = without_content sc a o'.
Proof. intros [|y y' H]; cbn; [reflexivity|]. now rewrite (is_null_same sc _ _ H). Qed.

Lemma read_list_same {A} (r r' : yaml -> res A) y y' :
  same_doc y y' -> (forall y y', same_doc y y' -> r y = r' y') -> read_list r y = read_list r' y'.
Proof.
  intros H Hr. destruct H as [p t|l l' Hs|l m l' Hp Hs]; cbn; try reflexivity.
  induction Hs as [|a b l l' Hd _ IH]; cbn [mapM]; [reflexivity|]. now rewrite (Hr _ _ Hd), IH.
Qed.

Lemma read_string_same sc b : respects (read_string sc b).
Proof. intros y y' H. destruct H; reflexivity. Qed.
Lemma read_plain_same {A} (v : string -> option A) : respects (read_plain v).
Proof. intros y y' H. destruct H; reflexivity. Qed.

Lemma keyword_same {A} sc (t : list (string * A)) : respects (keyword sc t).
Proof.
  intros y y' H. unfold keyword. apply variant_same; [assumption|]. intros n o o' Ho. cbn [fst snd].
  destruct (find _ t) as [[? a]|]; [now apply without_content_same|reflexivity].
Qed.

Ltac ord_leaf :=
  match goal with
  | [ H : same_doc ?y ?y' |- read_string _ _ ?y = read_string _ _ ?y' ] => exact (read_string_same _ _ y y' H)
  | [ H : same_doc ?y ?y' |- read_bool _ ?y = read_bool _ ?y' ] => exact (read_plain_same _ y y' H)
  | [ H : same_doc ?y ?y' |- read_u64 _ ?y = read_u64 _ ?y' ] => exact (read_plain_same _ y y' H)
  | [ H : same_doc ?y ?y' |- read_f64 _ ?y = read_f64 _ ?y' ] => exact (read_plain_same _ y y' H)
  | [ H : same_doc ?y ?y' |- keyword _ _ ?y = keyword _ _ ?y' ] => exact (keyword_same _ _ y y' H)
  end.
Ltac ord_field := match goal with [ H : forall n, In n _ -> same_opt _ _ |- same_opt _ _ ] => apply H; cbn; tauto end.
Ltac ord :=
  repeat first
    [ reflexivity
    | ord_leaf
    | match goal with
      | [ |- bind (fields _ _ _ _) _ = bind (fields _ _ _ _) _ ] => apply fields_same; [assumption|intros]
      | [ |- bind (variant _) _ = bind (variant _) _ ] => apply variant_same; [assumption|intros; cbn [fst snd]]
      | [ |- bind _ _ = bind _ _ ] => apply bind_same; [|intros]
      | [ |- required _ _ = required _ _ ] => apply required_same; [ord_field|intros]
      | [ |- optional _ _ _ = optional _ _ _ ] => apply optional_same; [ord_field|intros]
      | [ |- with_content _ _ = with_content _ _ ] => apply with_content_same; [assumption|intros]
      | [ |- without_content _ _ _ = without_content _ _ _ ] => apply without_content_same; assumption
      | [ |- read_list _ _ = read_list _ _ ] => apply read_list_same; [assumption|intros]
      | [ |- (if ?b then _ else _) = (if ?b then _ else _) ] => destruct b
      end ].

Section Order.
  Variable sc : scalars.

  Lemma read_vehicles_same y y' : same_doc y y' -> read_vehicles sc y = read_vehicles sc y'.
  Proof. intro H. unfold read_vehicles. ord. Qed.
  Lemma read_node_same y y' : same_doc y y' -> read_node sc y = read_node sc y'.
  Proof. intro H. unfold read_node. ord. Qed.
  Lemma read_edge_same y y' : same_doc y y' -> read_edge sc y = read_edge sc y'.
  Proof. intro H. unfold read_edge. ord. Qed.
  Lemma read_edges_same y y' : same_doc y y' -> read_edges sc y = read_edges sc y'.
  Proof. intro H. unfold read_edges. ord. now apply read_edge_same. Qed.
  Lemma read_gen_node_same y y' : same_doc y y' -> read_gen_node sc y = read_gen_node sc y'.
  Proof. intro H. unfold read_gen_node. ord. Qed.
  Lemma read_metric_ref_same y y' : same_doc y y' -> read_metric_ref sc y = read_metric_ref sc y'.
  Proof. intro H. unfold read_metric_ref. ord. Qed.
  Lemma read_id_same b y y' : same_doc y y' -> read_id sc b y = read_id sc b y'.
  Proof. intro H. unfold read_id. ord. Qed.
  Lemma read_gen_edge_same y y' : same_doc y y' -> read_gen_edge sc y = read_gen_edge sc y'.
  Proof. intro H. unfold read_gen_edge. ord; first [now apply read_metric_ref_same | now apply read_id_same]. Qed.
  Lemma read_generating_same y y' : same_doc y y' -> read_generating sc y = read_generating sc y'.
  Proof. intro H. unfold read_generating. ord; [now apply read_gen_node_same | now apply read_gen_edge_same]. Qed.
  Lemma read_parsing_content_same y y' : same_doc y y' -> read_parsing_content sc y = read_parsing_content sc y'.
  Proof.
    intro H. unfold read_parsing_content. ord;
      [now apply read_vehicles_same | now apply read_node_same | now apply read_edges_same | now apply read_generating_same].
  Qed.
  Lemma read_parsing_same y y' : same_doc y y' -> read_parsing sc y = read_parsing sc y'.
  Proof. intro H. unfold read_parsing. ord. now apply read_parsing_content_same. Qed.

  Lemma read_edges_content_same b y y' : same_doc y y' -> read_edges_content sc b y = read_edges_content sc b y'.
  Proof. intro H. unfold read_edges_content. ord. now apply read_id_same. Qed.
  Lemma read_writing_edges_same y y' : same_doc y y' -> read_writing_edges sc y = read_writing_edges sc y'.
  Proof. intro H. unfold read_writing_edges. ord. now apply read_edges_content_same. Qed.
  Lemma read_graph_edges_same y y' : same_doc y y' -> read_graph_edges sc y = read_graph_edges sc y'.
  Proof. intro H. unfold read_graph_edges. ord. now apply read_id_same. Qed.
  Lemma read_writing_graph_same y y' : same_doc y y' -> read_writing_graph sc y = read_writing_graph sc y'.
  Proof.
    intro H. unfold read_writing_graph, read_graph_content. ord; [now apply read_id_same | now apply read_graph_edges_same].
  Qed.
  Lemma read_writing_pairs_same y y' : same_doc y y' -> read_writing_pairs sc y = read_writing_pairs sc y'.
  Proof. intro H. unfold read_writing_pairs, read_pairs_content, read_random_or_all. ord. Qed.
  Lemma read_entry_same y y' : same_doc y y' -> read_entry sc y = read_entry sc y'.
  Proof. intro H. unfold read_entry. ord. Qed.
  Lemma read_algo_same y y' : same_doc y y' -> read_algo sc y = read_algo sc y'.
  Proof. intro H. unfold read_algo. ord. Qed.
  Lemma read_routing_same y y' : same_doc y y' -> read_routing sc y = read_routing sc y'.
  Proof. intro H. unfold read_routing. ord; [now apply read_algo_same | now apply read_entry_same]. Qed.
  Lemma read_mch_content_same b y y' : same_doc y y' -> read_mch_content sc b y = read_mch_content sc b y'.
  Proof. intro H. unfold read_mch_content. ord. Qed.
  Lemma read_mch_same y y' : same_doc y y' -> read_mch sc y = read_mch sc y'.
  Proof. intro H. unfold read_mch. ord. now apply read_mch_content_same. Qed.
  Lemma read_monitoring_same y y' : same_doc y y' -> read_monitoring sc y = read_monitoring sc y'.
  Proof. intro H. unfold read_monitoring. ord. now apply read_edges_content_same. Qed.
  Lemma read_optimization_same y y' : same_doc y y' -> read_optimization sc y = read_optimization sc y'.
  Proof. intro H. unfold read_optimization, read_method. ord. Qed.
  Lemma read_balancing_same y y' : same_doc y y' -> read_balancing sc y = read_balancing sc y'.
  Proof.
    intro H. unfold read_balancing. ord;
      [now apply read_mch_content_same | now apply read_monitoring_same | now apply read_optimization_same].
  Qed.
  Lemma read_evaluating_same y y' : same_doc y y' -> read_evaluating sc y = read_evaluating sc y'.
  Proof. intro H. unfold read_evaluating. ord. now apply read_monitoring_same. Qed.
End Order.
