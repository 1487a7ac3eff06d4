(** Property C34: the lines of fmi-files *)
From Coq Require Import String Ascii List Bool Arith NArith ZArith QArith Lia.
From Verif Require Import Base F64 ModelText ModelUnits ModelConfig ModelGraph ModelBuild ModelParsing ModelStreets ModelFmi Lib ProofText SpecFmi ProofFmi.
Import ListNotations.
Open Scope string_scope.
Open Scope list_scope.
Open Scope nat_scope.

(** every text consists of lines, which are data lines with comments and empty
    lines in between *)
Theorem C34_every_file file : exists ls ds, file_of ls file /\ interleaved ls ds.
Proof.
  exists (lines file), (filter is_line_functional (lines file)). split; [apply (file_of_from file []); auto|]. now apply interleaved_filter.
Qed.
Print Assumptions C34_every_file.

(** ... in one way only *)
Theorem C34_lines_unique file ls ls' ds ds' :
  file_of ls file -> file_of ls' file -> interleaved ls ds -> interleaved ls' ds' -> ls = ls' /\ ds = ds'.
Proof.
  intros F F' H H'. apply file_of_lines in F, F'. rewrite interleaved_filter in H, H'. split; congruence.
Qed.
Print Assumptions C34_lines_unique.

(** the first [n] data lines after the header are read as nodes, the next [m]
    ones as edges *)
Theorem C34_ranges file ls ds pre front la lb data n m :
  file_of ls file -> interleaved ls ds ->
  header ds pre (front ++ [la; lb]) data -> announces la n -> announces lb m ->
  (N.of_nat (length ds) + n + m <= U64_MAX)%N ->
  exists r, fmi_ranges (functional_lines file) = Ok r /\
    forall parse_f64 pc,
      (forall xs, fmi_nodes parse_f64 pc r file = Ok xs <->
                  Forall2 (fun l x => node_from_str parse_f64 (pc_nodes pc) l = Ok x) (firstn (N.to_nat n) data) xs) /\
      (forall xs, fmi_edges parse_f64 pc r file = Ok xs <->
                  Forall2 (fun l x => edge_from_str parse_f64 (ec_categories (cfg_edges (pc_cfg pc))) l = Ok x)
                          (firstn (N.to_nat m) (skipn (N.to_nat n) data)) xs).
Proof.
  intros F H Hh Ha Hb Hmax. pose proof (functional_of _ _ _ F H) as Ef.
  unfold fmi_nodes, fmi_edges. rewrite Ef. clear F H Ef ls file.
  set (s := length pre + length (front ++ [la; lb])).
  exists {| node_lines := (N.of_nat s, (N.of_nat s + n)%N); edge_lines := ((N.of_nat s + n)%N, (N.of_nat s + n + m)%N) |}.
  assert (Hs : s <= length ds). { destruct Hh as (-> & _). unfold s. rewrite !app_length. lia. }
  split.
  - unfold fmi_ranges. rewrite (take_counts_all _ _ _ _ Hh). fold s.
    replace (front ++ [la; lb]) with (front ++ [la] ++ [lb]) by reflexivity.
    rewrite !counts_of_app, (counts_of_announced _ _ Ha), (counts_of_announced _ _ Hb), !rev_app_distr. cbn [rev app].
    unfold add_usize. destruct (N.leb_spec (N.of_nat s + n) U64_MAX); [|lia]. cbn [bind].
    destruct (N.leb_spec (N.of_nat s + n + m) U64_MAX); [|lia]. reflexivity.
  - intros pf pc. cbn [node_lines edge_lines].
    assert (Ed : skipn s ds = data).
    { destruct Hh as (-> & _). unfold s. rewrite app_assoc, <- app_length, skipn_app, skipn_all, Nat.sub_diag. reflexivity. }
    split; intros xs; rewrite <- mapM_ok.
    + rewrite parse_lines_range by lia. now rewrite Nat.sub_0_r, Ed.
    + replace (N.of_nat s + n)%N with (N.of_nat (s + N.to_nat n)) by lia. rewrite parse_lines_range by lia.
      rewrite Nat.sub_0_r, <- Ed, skipn_skipn'. reflexivity.
Qed.
Print Assumptions C34_ranges.

(** comments and empty lines change nothing *)
Theorem C34_noise parse_f64 dim pc file file' ls ls' ds :
  file_of ls file -> file_of ls' file' -> interleaved ls ds -> interleaved ls' ds ->
  fmi_parse parse_f64 dim pc file = fmi_parse parse_f64 dim pc file'.
Proof.
  intros F F' H H'. unfold fmi_parse, fmi_preprocess, fmi_edges, fmi_nodes.
  now rewrite (functional_of _ _ _ F H), (functional_of _ _ _ F' H').
Qed.
Print Assumptions C34_noise.

(** without two counts nothing is parsed *)
Theorem C34_counts_missing parse_f64 dim pc file ls ds pre hs data :
  file_of ls file -> interleaved ls ds ->
  (ds = pre ++ data /\ Forall (fun l => ~ single l) ds /\ hs = [] \/ header ds pre hs data) ->
  (forall a la b lb c n m, hs = a ++ la :: b ++ lb :: c -> announces la n -> announces lb m -> False) ->
  forall p, fmi_parse parse_f64 dim pc file <> Ok p.
Proof.
  intros F H Hd Hno p. unfold fmi_parse, fmi_preprocess. destruct (check_config dim pc); try discriminate. cbn [bind].
  assert (G : exists msg, fmi_ranges (functional_lines file) = Err msg); [|destruct G as [msg ->]; discriminate].
  rewrite (functional_of _ _ _ F H). unfold fmi_ranges.
  assert (G : exists k, take_counts false 0 [] ds = (k, counts_of hs)).
  { destruct Hd as [(_ & Fd & ->)|Hh]; [|eexists; exact (take_counts_all _ _ _ _ Hh)].
    exists (length ds). rewrite <- (app_nil_r ds) at 1. now rewrite take_counts_pre by auto. }
  destruct G as [k ->]. destruct (rev (counts_of hs)) as [|m [|n cs]] eqn:E; eauto. exfalso.
  assert (Ec : counts_of hs = rev cs ++ [n] ++ [m]).
  { rewrite <- (rev_involutive (counts_of hs)), E. cbn [rev]. now rewrite <- app_assoc. }
  clear - Ec Hno.
  assert (G : forall hs xs n ys, counts_of hs = xs ++ n :: ys -> exists a l b, hs = a ++ l :: b /\ announces l n /\ counts_of a = xs /\ counts_of b = ys).
  { clear. induction hs as [|h hs IH]; intros xs n ys E; [destruct xs; discriminate|].
    change (h :: hs) with ([h] ++ hs) in E. rewrite counts_of_app in E.
    assert (Hc : counts_of [h] = [] \/ exists k, announces h k /\ counts_of [h] = [k]).
    { unfold counts_of, announces. simpl. rewrite app_nil_r. destruct (words h) as [|w [|]]; auto. destruct (parse_usize w) eqn:Ew; eauto 6. }
    destruct Hc as [Hc|(k & Hk & Hc)]; rewrite Hc in E; cbn [app] in E.
    - destruct (IH _ _ _ E) as (a & l & b & -> & Hl & Ea & Eb). exists (h :: a), l, b. split; [reflexivity|]. split; [auto|]. split; [|auto].
      change (h :: a) with ([h] ++ a). now rewrite counts_of_app, Hc.
    - destruct xs as [|x xs]; injection E as -> E.
      + exists [], h, hs. auto.
      + destruct (IH _ _ _ E) as (a & l & b & -> & Hl & Ea & Eb). exists (h :: a), l, b. split; [reflexivity|]. split; [auto|]. split; [|auto].
        change (h :: a) with ([h] ++ a). rewrite counts_of_app, Hc. simpl. congruence. }
  destruct (G _ _ _ _ Ec) as (a & la & r & -> & Hla & _ & Er). destruct (G r [] m [] Er) as (b & lb & c & -> & Hlb & _).
  exact (Hno a la b lb c n m eq_refl Hla Hlb).
Qed.
Print Assumptions C34_counts_missing.

(** *** A file *)
Definition fmi_cfg : parse_cfg :=
  {| pc_vehicles := mkVehicle Car false;
     pc_nodes := [NCMeta NNodeId "id"; NCIgnored; NCMetric Latitude "lat"; NCMetric Longitude "lon"; NCMeta NCHLevel "level"];
     pc_cfg := {| cfg_edges := {| ec_categories := [CMeta SrcId "s"; CMeta DstId "d"; CMetric Meters "m"; CMeta ShortcutIdx0 "a"; CMeta ShortcutIdx1 "b"];
                                  ec_normalized := false; ec_units := [Meters]; ec_ids := ["m"] |};
                  cfg_nodes := [NMeta NNodeId "id"; NIgnored; NMetric "lat"; NMetric "lon"; NMeta NCHLevel "level"];
                  cfg_gen_nodes := []; cfg_gen_edges := [] |} |}.
(** numbers of one digit *)
Definition digit_f64 (s : text) : option f64 :=
  match s with
  | [c] => option_map (fun d => Fin (inject_Z (Z.of_N d))) (digit c)
  | _ => None
  end.
Definition fmi_header : list text := [T "# a comment"; T "Id : x"; T ""; T "4"; T "#2"; T "2"; T "3"].
Definition fmi_node_lines : list text := [T "7 x 1 2 0"; T "#"; T "-8 y 3 4 1"].
Definition fmi_edge_lines : list text := [T "7 -8 5 -1 -1"; T ""; T "-8 7 6 -1 -1"; T "7 7 9 0 1"].
Definition fmi_file (ls : list text) : text := concat (map line ls).
Definition fmi_lines : list text := fmi_header ++ fmi_node_lines ++ fmi_edge_lines ++ [T "not a line"].

Lemma fmi_file_of ls : forallb (fun l => negb (existsb (fun c => Ascii.eqb c LF || Ascii.eqb c CR) l)) ls = true -> file_of ls (fmi_file ls).
Proof.
  induction ls as [|l ls IH]; [constructor|]. cbn [forallb]. rewrite andb_true_iff, negb_true_iff. intros [Hl Hr].
  change (fmi_file (l :: ls)) with ((l ++ [LF]) ++ fmi_file ls). rewrite <- app_assoc.
  assert (G : forall c, In c l -> c <> LF /\ c <> CR).
  { intros c Hc. assert (E : ~ (Ascii.eqb c LF || Ascii.eqb c CR) = true).
    { intros E. rewrite <- not_true_iff_false in Hl. apply Hl. rewrite existsb_exists. eauto. }
    rewrite orb_true_iff, !Ascii.eqb_eq in E. tauto. }
  apply file_lf; [intros H; destruct (G LF H); congruence| |auto].
  intros l' ->. destruct (G CR) as [_ X]; [apply in_or_app; right; now left|now apply X].
Qed.

Example C34_case :
  file_of fmi_lines (fmi_file fmi_lines) /\ interleaved fmi_lines (filter is_line_functional fmi_lines) /\
  header (filter is_line_functional fmi_lines) [T "Id : x"] [T "4"; T "2"; T "3"]
         (filter is_line_functional (fmi_node_lines ++ fmi_edge_lines ++ [T "not a line"])) /\
  announces (T "2") 2 /\ announces (T "3") 3 /\
  fmi_parse digit_f64 1 fmi_cfg (fmi_file fmi_lines) =
    Ok ([{| pe_id := None; pe_src := 7; pe_dst := -8; pe_metrics := [Fin 5]; pe_sc := None |};
         {| pe_id := None; pe_src := -8; pe_dst := 7; pe_metrics := [Fin 6]; pe_sc := None |};
         {| pe_id := None; pe_src := 7; pe_dst := 7; pe_metrics := [Fin 9]; pe_sc := Some (0, 1)%nat |}]%Z,
        [{| pn_id := 7; pn_coord := mkCoord (Fin 1) (Fin 2); pn_level := Some 0%nat |};
         {| pn_id := -8; pn_coord := mkCoord (Fin 3) (Fin 4); pn_level := Some 1%nat |}]%Z).
Proof.
  split; [apply fmi_file_of; vm_compute; reflexivity|]. split; [now apply interleaved_filter|]. split.
  - split; [reflexivity|]. split; [discriminate|]. split; [|split].
    + constructor; [|constructor]. intros [w H]. vm_compute in H. discriminate.
    + constructor; [exists (T "4")|constructor; [exists (T "2")|constructor; [exists (T "3")|constructor]]]; vm_compute; reflexivity.
    + intros l rest H [w Hw]. vm_compute in H. injection H as <- _. vm_compute in Hw. discriminate.
  - split; [exists (T "2"); split; vm_compute; reflexivity|]. split; [exists (T "3"); split; vm_compute; reflexivity|].
    vm_compute. reflexivity.
Qed.

(** lines consisting of white space only are not ignored: such a line is taken
    for a data line *)
Theorem C34_blank_refuted : exists dim pc a b ds,
  (exists p, fmi_parse digit_f64 dim pc (fmi_file (a ++ b)) = Ok p) /\
  words (T "  ") = [] /\ interleaved (a ++ b) ds /\
  (exists msg, fmi_parse digit_f64 dim pc (fmi_file (a ++ T "  " :: b)) = Err msg).
Proof.
  exists 1, fmi_cfg, (fmi_header ++ fmi_node_lines), (fmi_edge_lines ++ [T "not a line"]). eexists.
  split; [eexists; vm_compute; reflexivity|]. split; [vm_compute; reflexivity|]. split; [apply interleaved_filter; reflexivity|].
  eexists. vm_compute. reflexivity.
Qed.
Print Assumptions C34_blank_refuted.

(** an edge's id of one character that is no number panics *)
Theorem C34_edge_id_panics : exists pc l, forall parse_f64,
  words l = [T "1"; T "2"; T "x"] /\ edge_from_str parse_f64 pc l = Panic.
Proof. exists [CMeta SrcId "s"; CMeta DstId "d"; CMeta EdgeId "e"], (T "1 2 x"). intros pf. split; vm_compute; reflexivity. Qed.
Print Assumptions C34_edge_id_panics.
