(** Property C54: what the program does with files *)
From Coq Require Import String Ascii List Bool Arith NArith Lia.
From Verif Require Import Base Lib F64 ModelText ModelConfig ModelGraph ModelYaml ModelDocs ModelProgram SpecProgram ProofProgram ProofProgram2
  ModelParsing ModelFmi ModelWriting ModelRoutingCfg ModelRoutePairs ExamplesDocs ExamplesProgram.
Import ListNotations.
Open Scope string_scope.
Open Scope list_scope.
Open Scope nat_scope.

(** Unless it balances, the program changes no file, whatever it ends with and
    whichever of its operations fail; and it creates no files but the ones its
    configuration names for what it has been asked for. *)
Theorem C54_untouched e a w : a_balancing a = false ->
  kept w (fst (run e a w)) /\
  forall k, w_files (fst (run e a w)) k <> w_files w k ->
    w_files w k = None /\ exists p, k = e_resolve e p /\ named_output e w a p.
Proof.
  intros Hb. destruct (file_at e w (a_cfg a)) as [t0|] eqn:Ht.
  - rewrite run_split by exact Hb.
    destruct (triple_front e w a t0 Ht w (inv_refl _ _ _)) as [[I1 I2] _]. split; [intros k t; apply I1; auto|].
    intros k D. split.
    + destruct (w_files w k) as [t|] eqn:E; [|reflexivity]. rewrite (I1 k t (fun f => f) E) in D. congruence.
    + (* names are decided by looking at the documents: only finitely many *)
      destruct (w_files w k) as [t|] eqn:E; [rewrite (I1 k t (fun f => f) E) in D; congruence|].
      destruct (named_dec e w a k) as [H|H]; [exact H|]. destruct D. rewrite <- E. apply I2; auto.
  - destruct (run_missing e a w Ht) as [S _]. split; [now apply same_kept|]. intros k D. destruct (D (S k)).
Qed.
Print Assumptions C54_untouched.

Definition run_all := run prog_env prog_args prog_world.
Definition texts (w : world) : list (option text) :=
  map (w_files w) ["cfg.yaml"; "in/map.fmi"; "readme"; "out/map.fmi"; "out/edges.csv"; "out/all.route-pairs"; "out/stats/edges-info.csv";
                   "out/stats/abs_workloads.csv"; "out/stats/smarts.xml"].

(** six files are created, the others are the same *)
Example C54_untouched_case :
  a_balancing prog_args = false /\ snd run_all = Ok [] /\
  firstn 3 (texts (fst run_all)) = firstn 3 (texts prog_world) /\
  skipn 3 (texts prog_world) = repeat None 6 /\ forallb (fun t => match t with Some _ => true | None => false end) (texts (fst run_all)) = true.
Proof. vm_compute. repeat split. Qed.

(** When balancing, the only files which may lose their text are copies in the
    dated directory of the results, the iterations' configurations, and what
    multi-ch is told to write. *)
Theorem C54_balancing e a w k t :
  w_files w k = Some t -> (forall p, overwritable e w a p -> k <> e_resolve e p) -> w_files (fst (run e a w)) k = Some t.
Proof.
  intros Hk Ho. destruct (file_at e w (a_cfg a)) as [t0|] eqn:Ht.
  - assert (A : forall w1, inv (fun _ => False) (fun _ => True) w w1 ->
                inv (fun k => exists p, k = e_resolve e p /\ overwritable e w a p) (fun _ => True) w w1).
    { intros w1. apply inv_weaken; [intros ? []|auto]. }
    assert (B : inv (fun k => exists p, k = e_resolve e p /\ overwritable e w a p) (fun _ => True) w (fst (run e a w))).
    { rewrite run_front_then. unfold next at 1.
      destruct (triple_front e w a t0 Ht w (inv_refl _ _ _)) as [I _].
      assert (I' : inv (fun _ => False) (fun _ => True) w (fst (run_front e a w))).
      { eapply inv_weaken; [| |exact I]; auto. }
      destruct (run_front e a w) as [w1 [rs| | |]]; cbn [fst] in *; try (now apply A).
      unfold next at 1. destruct (a_balancing a); cbn [when].
      - unfold next at 1. assert (J := triple_balancing e w a t0 Ht w1 I').
        destruct (balancing e (a_cfg a) w1) as [w2 [l| | |]]; exact J.
      - now apply A. }
    destruct B as [B _]. apply B; [|exact Hk]. intros (p & E & Hp). exact (Ho p Hp E).
  - destruct (run_missing e a w Ht) as [S _]. rewrite S. exact Hk.
Qed.
Print Assumptions C54_balancing.

(** two updates of the metric, with the documents shipped for the Isle of Man: a
    file in the dated directory is overwritten by the copy of the configuration,
    other files are kept *)
Definition run_bal := run bal_env bal_args bal_world.
Example C54_balancing_case :
  a_balancing bal_args = true /\ snd run_bal = Ok [] /\
  w_files bal_world "readme" = Some (T "hello") /\ w_files (fst run_bal) "readme" = Some (T "hello") /\
  (exists t, w_files bal_world (join bal_dir "config.yaml") = Some t /\ t <> T "config") /\
  w_files (fst run_bal) (join bal_dir "config.yaml") = Some (T "config") /\
  overwritable bal_env bal_world bal_args (join bal_dir "config.yaml").
Proof.
  repeat (split; [vm_compute; reflexivity|]). split; [eexists; split; [vm_compute; reflexivity|discriminate]|].
  split; [vm_compute; reflexivity|].
  destruct (read_balancing sc0 config_yaml) as [b| | |] eqn:E; try (vm_compute in E; discriminate).
  replace bal_dir with (dated_dir bal_env b).
  - apply over_copy with (p := "x/config.yaml"); [|reflexivity]. exists (T "config"), config_yaml. split; [reflexivity|]. split; [reflexivity|exact E].
  - vm_compute in E. injection E as <-. reflexivity.
Qed.

(** finding: a configuration which lies in the directory of the results is copied
    to itself and thereby emptied; the run fails because of it *)
Definition own_args : args :=
  {| a_cfg := join bal_dir "config.yaml"; a_graph := false; a_edges := false; a_pairs := false; a_routing := false; a_evaluating := false; a_balancing := true |}.
Definition own_world : world :=
  {| w_files := fun k => if String.eqb k (join bal_dir "config.yaml") then Some (T "config") else w_files bal_world k; w_ops := 0 |}.
Theorem C54_own_cfg_refuted : exists e a w w' m t, (forall n, e_fails e n = false) /\ run e a w = (w', Err m) /\
  file_at e w (a_cfg a) = Some t /\ t <> [] /\ file_at e w' (a_cfg a) = Some [].
Proof.
  exists bal_env, own_args, own_world, (fst (run bal_env own_args own_world)), "serde couldn't read", (T "config").
  split; [reflexivity|]. split; [|split; [reflexivity|split; [discriminate|vm_compute; reflexivity]]].
  assert (E : snd (run bal_env own_args own_world) = Err "serde couldn't read") by (vm_compute; reflexivity). rewrite <- E. apply surjective_pairing.
Qed.
Print Assumptions C54_own_cfg_refuted.

(** A run which has ended well, without balancing: it has used the graph of the
    map-file, and every file it was asked for has been created with the writer's
    text.  All is told by the files as they were before, but the pairs, which may
    have been written by the same run. *)
Theorem C54_complete e a w w' rs : a_balancing a = false -> run e a w = (w', Ok rs) ->
  exists d g, says e w (read_parsing (e_scalars e)) (a_cfg a) d /\ graph_of e w d g /\ outputs e a w w' d g.
Proof.
  intros Hb H. rewrite run_split in H by exact Hb. destruct (front_ok e a w w' rs H) as (_ & d & g & A & B & C & _).
  exists d, g. auto.
Qed.
Print Assumptions C54_complete.

Example C54_complete_case :
  a_balancing prog_args = false /\ snd (run prog_env prog_args prog_world) = Ok [] /\
  a_graph prog_args && a_edges prog_args && a_pairs prog_args && a_evaluating prog_args = true /\
  option_map string_of_list_ascii (w_files (fst run_all) "out/stats/abs_workloads.csv") = Some "edge-id num_routes
7 3
9 0
8 4
6 3
5 1
".
Proof. vm_compute. repeat split. Qed.

(** Asked for a file which it has created before, the program stops without
    changing any file, whatever happened to other files in the meantime. *)
Theorem C54_rerun e a w w' rs w2 : a_balancing a = false -> run e a w = (w', Ok rs) -> kept w' w2 ->
  same_files w2 (fst (run e a w2)) /\
  (a_graph a || a_edges a || a_pairs a || a_evaluating a = true -> forall rs', snd (run e a w2) <> Ok rs').
Proof.
  intros Hb H K. rewrite run_split in H by exact Hb. rewrite run_split by exact Hb.
  destruct (front_again e a w w' rs w2 H K w2 (inv_refl _ _ _)) as [[I1 I2] Q]. split; [intros k; apply I2; auto|].
  intros Ha rs' E. destruct (Q rs' E) as (E1 & E2 & E3 & E4). rewrite E1, E2, E3, E4 in Ha. discriminate.
Qed.
Print Assumptions C54_rerun.

Example C54_rerun_case :
  snd run_all = Ok [] /\ snd (run prog_env prog_args (fst run_all)) = Err "file does already exist" /\
  texts (fst (run prog_env prog_args (fst run_all))) = texts (fst run_all).
Proof. vm_compute. repeat split. Qed.

(** *** What doesn't hold *)

(** A run which fails may have created files: here the configuration has no
    section for the edges, which is found out after the graph has been written.
    The next run fails because of the file left behind. *)
Theorem C54_atomic_refuted :
  exists e a w m p, a_balancing a = false /\ (forall n, e_fails e n = false) /\
    snd (run e a w) = Err m /\ file_at e w p = None /\ file_at e (fst (run e a w)) p <> None /\
    snd (run e a (fst (run e a w))) = Err "file does already exist".
Proof.
  exists prog_env, {| a_cfg := "short.yaml"; a_graph := true; a_edges := true; a_pairs := false; a_routing := false; a_evaluating := false; a_balancing := false |},
    prog_world, "missing field", "out/map.fmi".
  split; [reflexivity|]. split; [reflexivity|]. split; [vm_compute; reflexivity|]. split; [reflexivity|]. split; [vm_compute; discriminate|vm_compute; reflexivity].
Qed.
Print Assumptions C54_atomic_refuted.

(** A graph whose last node has no leaving edge: writing all route-pairs panics
    and leaves a file which is not what the writer was to write. *)
Definition prog_world_end : world :=
  {| w_files := files [("cfg.yaml", T "all sections"); ("in/map.fmi", T "2
1
10 1.5 2
20 1.5 3
7 10 20 1
")]; w_ops := 0 |}.
Theorem C54_pairs_refuted :
  exists e a w p, a_balancing a = false /\ a_pairs a = true /\ (forall n, e_fails e n = false) /\
    snd (run e a w) = Panic /\ file_at e w p = None /\ file_at e (fst (run e a w)) p = Some (e_torn e 8).
Proof.
  exists prog_env, {| a_cfg := "cfg.yaml"; a_graph := false; a_edges := false; a_pairs := true; a_routing := false; a_evaluating := false; a_balancing := false |},
    prog_world_end, "out/all.route-pairs".
  repeat (split; [vm_compute; reflexivity|]). vm_compute. reflexivity.
Qed.
Print Assumptions C54_pairs_refuted.
