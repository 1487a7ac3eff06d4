(** C62: the command line and logging *)
From Coq Require Import String Ascii List Bool Arith Lia.
From Verif Require Import Base Lib ModelRoutingCfg ModelProgram ModelCmdline SpecCmdline ProofCmdline.
Import ListNotations.
Open Scope string_scope.
Open Scope list_scope.
Open Scope nat_scope.

(** What clap accepts starts the program, with the flags and the config as given,
    if the feature gpl is on or isn't needed; otherwise the program panics. *)
Theorem C62_start : forall gpl rust_log m l, accepted m l ->
  (gpl = true \/ m_balancing m = false /\ m_evaluating m = false ->
    exists ds a, begin gpl rust_log m = Ok (ds, a) /\ m_cfg m = Some (a_cfg a) /\
      (a_graph a, a_edges a, a_pairs a) = (m_graph m, m_edges m, m_pairs m) /\
      (a_routing a, a_balancing a, a_evaluating a) = (m_routing m, m_balancing m, m_evaluating m)) /\
  (gpl = false -> m_balancing m = true \/ m_evaluating m = true -> begin gpl rust_log m = Panic) /\
  (exists ds c, begin_multi_ch rust_log m = Ok (ds, c) /\ m_cfg m = Some c).
Proof.
  intros gpl rl m l Ha. destruct (accepted_level m l Ha) as (s & c & E1 & E2 & E3).
  unfold begin, begin_multi_ch, args_of. rewrite E1, E2. cbn [expect bind]. unfold init_logging. split; [|split].
  - intros H. assert (E : (m_balancing m || m_evaluating m) && negb gpl = false).
    { destruct H as [->|[-> ->]]; [apply andb_false_r|reflexivity]. }
    rewrite E, E3. eexists _, _. split; [reflexivity|]. split; [reflexivity|]. split; reflexivity.
  - intros -> H. assert (E : (m_balancing m || m_evaluating m) && negb false = true).
    { rewrite andb_true_r. apply orb_true_iff. exact H. }
    now rewrite E.
  - rewrite E3. eexists _, _. split; reflexivity.
Qed.
Print Assumptions C62_start.

Definition ex_matches (log : string) (balancing : bool) : matches :=
  mkMatches (Some log) (Some "config.yaml") true false false true balancing false.
Example C62_start_case : accepted (ex_matches "Debug" true) LDebug /\
  begin false None (ex_matches "Debug" true) = Panic /\
  (exists ds, begin true None (ex_matches "Debug" true) = Ok (ds, mkArgs "config.yaml" true false false true false true)).
Proof.
  split; [|split; [reflexivity|eexists; reflexivity]]. split; [|discriminate].
  exists "Debug", "DEBUG". split; [reflexivity|]. split; [simpl; auto|reflexivity].
Qed.

(** Without the environment-variable, the program's own modules log up to the
    level asked for, and all others up to warnings. *)
Theorem C62_levels : forall m l ds target x, accepted m l -> logs_by None m ds ->
  (own target -> (logged ds target x <-> within x l)) /\
  (~ own target -> (logged ds target x <-> within x LWarn)).
Proof.
  intros m l ds t x Ha E. apply (logs_dirs _ _ _ _ Ha) in E. subst ds. split; intros Ho; rewrite logged_governed; split.
  - intros (d & Hg & Hw). enough (d = (Some PKG_NAME, l)) by now subst.
    eapply governs_unique; [exact Hg|]. exists [(None, LWarn)], []. split; [reflexivity|]. split; [exact Ho|]. split; [|intros ? []].
    intros d' [<-|[]] _. apply Nat.le_0_l.
  - intros Hw. exists (Some PKG_NAME, l). split; [|exact Hw]. exists [(None, LWarn)], []. split; [reflexivity|]. split; [exact Ho|]. split; [|intros ? []].
    intros d' [<-|[]] _. apply Nat.le_0_l.
  - intros (d & Hg & Hw). enough (d = (None, LWarn)) by now subst.
    eapply governs_unique; [exact Hg|]. exists [], [(Some PKG_NAME, l)]. split; [reflexivity|]. split; [exact I|]. split; [intros ? []|].
    intros d' [<-|[]] Hab. contradiction.
  - intros Hw. exists (None, LWarn). split; [|exact Hw]. exists [], [(Some PKG_NAME, l)]. split; [reflexivity|]. split; [exact I|]. split; [intros ? []|].
    intros d' [<-|[]] Hab. contradiction.
Qed.
Print Assumptions C62_levels.

Example C62_levels_case : exists ds a, begin true None (ex_matches "info" true) = Ok (ds, a) /\
  enabled ds "osmgraphing::io::map" LInfo = true /\ enabled ds "osmgraphing::io::map" LDebug = false /\
  enabled ds "kissunits" LWarn = true /\ enabled ds "kissunits" LInfo = false.
Proof. eexists _, _. split; [reflexivity|]. repeat split; vm_compute; reflexivity. Qed.

(** The environment-variable consists of directives; what is written is read. *)
Theorem C62_environment : forall texts dss, Forall2 spells texts dss -> Forall (lacks ",") texts ->
  parse_filters (comma_separated texts) = concat dss.
Proof. exact filters_parsed. Qed.
Print Assumptions C62_environment.

Example C62_environment_case :
  Forall2 spells ["WARN"; "osmgraphing=info"; "kissunits"; "a=b=c"; ""]
    [[(None, LWarn)]; [(Some "osmgraphing", LInfo)]; [(Some "kissunits", LTrace)]; []; []] /\
  parse_filters "WARN,osmgraphing=info,kissunits,a=b=c," = [(None, LWarn); (Some "osmgraphing", LInfo); (Some "kissunits", LTrace)].
Proof.
  split; [|reflexivity]. repeat apply Forall2_cons; [..|apply Forall2_nil].
  - apply spells_level. exists "warn". split; [simpl; auto|reflexivity].
  - apply (spells_both "osmgraphing" "info" LInfo); [simpl; repeat split; discriminate|]. exists "info". split; [simpl; auto|reflexivity].
  - apply spells_name; [discriminate|simpl; repeat split; discriminate|].
    intros l H. apply says_level_of in H. discriminate.
  - apply (spells_more "a" "b" "c"); simpl; repeat split; discriminate.
  - apply spells_nothing.
Qed.

(** The environment-variable decides, if one of its directives is about the
    target; for the program's own modules, this directive has to name the crate. *)
Theorem C62_precedence_partial : forall text m l ds target x d, accepted m l -> logs_by (Some text) m ds ->
  governs (parse_filters text) target d -> (own target -> 11 <= letters d) ->
  (logged ds target x <-> within x (snd d)).
Proof.
  intros text m l ds t x d Ha E Hg Ho. apply (logs_dirs _ _ _ _ Ha) in E. subst ds. rewrite logged_governed.
  assert (H : governs ((None, LWarn) :: (Some PKG_NAME, l) :: parse_filters text) t d).
  { destruct Hg as (b & af & -> & Hd & Hb & Haf). exists ((None, LWarn) :: (Some PKG_NAME, l) :: b), af. split; [reflexivity|].
    split; [auto|]. split; [|auto]. intros d' [<-|[<-|Hin]] Hab; [apply Nat.le_0_l|exact (Ho Hab)|auto]. }
  split; [|intros Hw; eauto]. intros (d' & Hg' & Hw). now rewrite (governs_unique _ _ _ _ H Hg').
Qed.
Print Assumptions C62_precedence_partial.

Example C62_precedence_case :
  governs (parse_filters "warn,osmgraphing=info") "osmgraphing::io" (Some "osmgraphing", LInfo) /\
  exists ds a, begin true (Some "warn,osmgraphing=info") (ex_matches "trace" true) = Ok (ds, a) /\
    enabled ds "osmgraphing::io" LInfo = true /\ enabled ds "osmgraphing::io" LDebug = false /\
    enabled ds "kissunits" LInfo = false.
Proof.
  split.
  - exists [(None, LWarn)], []. split; [reflexivity|]. split; [exists "::io"; reflexivity|]. split; [|intros ? []].
    intros d' [<-|[]] _. apply Nat.le_0_l.
  - eexists _, _. split; [reflexivity|]. repeat split; vm_compute; reflexivity.
Qed.

(** That it always has precedence is not so: a level alone in the
    environment-variable doesn't change what the program's own modules log. *)
Theorem C62_precedence_refuted : exists text m l ds a target x, accepted m l /\ begin true (Some text) m = Ok (ds, a) /\
  governs (parse_filters text) target (None, LWarn) /\ own target /\ ~ within x LWarn /\ logged ds target x.
Proof.
  exists "warn", (ex_matches "info" true), LInfo. eexists _, _. exists "osmgraphing::io", LInfo.
  split; [split; [exists "info", "INFO"; split; [reflexivity|]; split; [simpl; auto|reflexivity]|discriminate]|].
  split; [reflexivity|]. split; [exists [], []; split; [reflexivity|]; split; [exact I|]; split; intros ? []|].
  split; [exists "::io"; reflexivity|]. split; [rewrite within_rank; simpl; lia|vm_compute; reflexivity].
Qed.
Print Assumptions C62_precedence_refuted.

(** A level alone changes nothing for the own modules, whichever it is. *)
Theorem C62_bare_level : forall word b m l ds target x, accepted m l -> says_level word b -> logs_by (Some word) m ds ->
  (own target -> (logged ds target x <-> within x l)) /\ (~ own target -> (logged ds target x <-> within x b)).
Proof.
  intros word b m l ds t x Ha Hb E. apply (logs_dirs _ _ _ _ Ha) in E. subst ds.
  assert (Eb : parse_filters word = [(None, b)]) by exact (filters_parsed [word] [[(None, b)]] (Forall2_cons _ _ (spells_level _ _ Hb) (Forall2_nil _)) (Forall_cons _ (says_no_comma _ _ Hb) (Forall_nil _))). rewrite Eb. split; intros Ho; rewrite logged_governed.
  - assert (H : governs [(None, LWarn); (Some PKG_NAME, l); (None, b)] t (Some PKG_NAME, l)).
    { exists [(None, LWarn)], [(None, b)]. split; [reflexivity|]. split; [exact Ho|].
      split; intros d' [<-|[]] _; apply Nat.leb_le; reflexivity. }
    split; [intros (d & Hg & Hw); now rewrite (governs_unique _ _ _ _ Hg H) in Hw|eauto].
  - assert (H : governs [(None, LWarn); (Some PKG_NAME, l); (None, b)] t (None, b)).
    { exists [(None, LWarn); (Some PKG_NAME, l)], []. split; [reflexivity|]. split; [exact I|].
      split; [|intros ? []]. intros d' [<-|[<-|[]]] Hab; [apply Nat.le_0_l|contradiction]. }
    split; [intros (d & Hg & Hw); now rewrite (governs_unique _ _ _ _ Hg H) in Hw|eauto].
Qed.
Print Assumptions C62_bare_level.

Example C62_bare_level_case : exists ds a, begin true (Some "debug") (ex_matches "warn" true) = Ok (ds, a) /\
  enabled ds "osmgraphing::io" LInfo = false /\ enabled ds "kissunits" LDebug = true.
Proof. eexists _, _. split; [reflexivity|]. split; vm_compute; reflexivity. Qed.

(** The crate of the binary `multi-ch-constructor` is `multi_ch_constructor`: what
    it says itself (`EXECUTE multi-ch-constructor`) is never logged, whatever
    level is asked for. *)
Theorem C62_own_info_refuted :
  (exists m, accepted m LTrace /\ exists ds c, begin_multi_ch None m = Ok (ds, c) /\ ~ logged ds "multi_ch_constructor" LInfo) /\
  (forall m l ds c, accepted m l -> begin_multi_ch None m = Ok (ds, c) -> ~ logged ds "multi_ch_constructor" LInfo).
Proof.
  assert (H : forall m l ds c, accepted m l -> begin_multi_ch None m = Ok (ds, c) -> ~ logged ds "multi_ch_constructor" LInfo).
  { intros m l ds c Ha. destruct (accepted_level m l Ha) as (s & c' & E1 & E2 & E3). unfold begin_multi_ch. rewrite E1, E2. cbn [expect bind].
    unfold init_logging. rewrite E3. intros [= <- _]. vm_compute. discriminate. }
  split; [|exact H]. exists (ex_matches "TRACE" false).
  assert (Ha : accepted (ex_matches "TRACE" false) LTrace).
  { split; [|discriminate]. exists "TRACE", "TRACE". split; [reflexivity|]. split; [simpl; auto|reflexivity]. }
  split; [exact Ha|]. eexists _, _. split; [reflexivity|]. eapply H; [exact Ha|reflexivity].
Qed.
Print Assumptions C62_own_info_refuted.
