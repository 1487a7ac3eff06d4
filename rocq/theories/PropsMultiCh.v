(** Properties of the calls of cmake and multi-ch *)
From Coq Require Import String Ascii List Bool Arith NArith QArith Lia.
From Verif Require Import Base F64 ModelText ModelYaml ModelDocs ModelMultiCh SpecMultiCh ProofText ExamplesDocs.
Import ListNotations.
Open Scope string_scope.
Open Scope list_scope.
Open Scope nat_scope.

Lemma show_usize_inj n m : show_usize n = show_usize m -> n = m.
Proof.
  unfold show_usize. intros H. apply (f_equal list_ascii_of_string) in H. rewrite !list_ascii_of_string_of_list_ascii in H.
  pose proof (parse_unsigned_show (N.max n m) n ltac:(lia)) as A. pose proof (parse_unsigned_show (N.max n m) m ltac:(lia)) as B.
  rewrite H in A. congruence.
Qed.
Lemma append_inj a : forall x y, (a ++ x = a ++ y)%string -> x = y.
Proof. induction a as [|c a IH]; cbn; intros x y H; auto. injection H. auto. Qed.

(** *** Settings *)

(** What multi-ch is told: each setting of the configuration, whatever strings
    are configured. *)
Theorem C59_settings c :
  let opts := options ["--threads"; "--text"; "--percent"; "--write"] (contract_args c) in
  given opts "--threads" (show_usize (mc_threads c)) /\ given opts "--text" (mc_graph c) /\
  given opts "--percent" (mc_ratio c) /\ given opts "--write" (mc_contracted c) /\
  set_if opts "--using-osm-ids" (mc_osm_ids c) /\ set_if opts "--external-edge-ids" (mc_external_ids c) /\
  forall k v, In (k, v) opts ->
    In k ["--threads"; "--text"; "--percent"; "--write"; "--using-osm-ids"; "--external-edge-ids"] \/
    k = "" /\ v = None /\ (mc_osm_ids c = false \/ mc_external_ids c = false).
Proof.
  destruct c as [g ct r d a t o e]. cbn [mc_graph mc_contracted mc_ratio mc_dim mc_accuracy mc_threads mc_osm_ids mc_external_ids]. cbv zeta.
  set (opts := options _ _).
  assert (E : opts = [("--threads", Some (show_usize t)); (if o then "--using-osm-ids" else "", None);
                      (if e then "--external-edge-ids" else "", None);
                      ("--text", Some g); ("--percent", Some r); ("--write", Some ct)]).
  { unfold opts, contract_args. destruct o, e; reflexivity. }
  clearbody opts. subst opts.
  assert (D : forall v : string, (forall k', In (k', Some v) [("--threads", Some (show_usize t)); (if o then "--using-osm-ids" else "", None);
                      (if e then "--external-edge-ids" else "", None); ("--text", Some g); ("--percent", Some r); ("--write", Some ct)] ->
                (k', v) = ("--threads", show_usize t) \/ (k', v) = ("--text", g) \/ (k', v) = ("--percent", r) \/ (k', v) = ("--write", ct))).
  { intros v k' H. cbn [In] in H. decompose [or] H; try tauto; try discriminate; match goal with E : _ = _ |- _ => inversion E; subst; auto end. }
  split; [|split; [|split; [|split; [|split; [|split]]]]].
  1-4: intros v; split; [intros H; apply D in H; decompose [or] H; congruence|intros ->; cbn [In]; auto 10].
  1-2: split; [|intros v H; apply D in H; decompose [or] H; congruence].
  - destruct o; cbn [In]; [tauto|]. split; [|discriminate]. intros H. decompose [or] H; try tauto; try discriminate. destruct e; discriminate.
  - destruct e; cbn [In]; [tauto|]. split; [|discriminate]. intros H. decompose [or] H; try tauto; try discriminate. destruct o; discriminate.
  - intros k v H. cbn [In] in H. decompose [or] H; try tauto; match goal with E : (_, _) = (_, _) |- _ => inversion E; subst end; try solve [left; cbn [In]; auto 10].
    + destruct o; [left; cbn; auto 10|right; auto].
    + destruct e; [left; cbn; auto 10|right; auto].
Qed.
Print Assumptions C59_settings.

(** What cmake is told: the number of metrics and the accuracy. *)
Theorem C59_defines o c w :
  In ("-D", Some w) (options ["-D"] (configure_args o c)) <->
  w = ("GRAPH_DIM=" ++ show_usize (mc_dim c))%string \/ w = ("COST_ACCURACY=" ++ o_show_f64 o (mc_accuracy c))%string.
Proof.
  unfold configure_args.
  change (options _ _) with [("-Bbuild", @None string); ("-D", Some ("GRAPH_DIM=" ++ show_usize (mc_dim c))%string);
                             ("-D", Some ("COST_ACCURACY=" ++ o_show_f64 o (mc_accuracy c))%string)].
  cbn [In]. split.
  - intros [H|[H|[H|[]]]]; [discriminate|injection H as <-; auto|injection H as <-; auto].
  - intros [-> | ->]; auto.
Qed.
Print Assumptions C59_defines.

(** The two command lines tell configurations apart (if numbers printed are
    told apart). *)
Theorem C59_tells o c c' : (forall x y, o_show_f64 o x = o_show_f64 o y -> x = y) ->
  contract_args c = contract_args c' -> configure_args o c = configure_args o c' -> c = c'.
Proof.
  intros Ho. unfold contract_args, configure_args. destruct c as [g ct r d a t p e], c' as [g' ct' r' d' a' t' p' e'].
  cbn [mc_graph mc_contracted mc_ratio mc_dim mc_accuracy mc_threads mc_osm_ids mc_external_ids].
  intros H1 H2. inversion H1 as [[A B C D E F]]. inversion H2 as [[G H]].
  apply show_usize_inj in A, G. apply Ho in H. subst.
  assert (p = p') by (destruct p, p'; auto; discriminate). assert (e = e') by (destruct e, e'; auto; discriminate). congruence.
Qed.
Print Assumptions C59_tells.

(** *** Calls *)

(** The calls made for a configuration, in the directories [d1] and [d2] *)
Definition mch_calls (o : outside_env) (c : mch_doc) (d1 d2 : string) : list call :=
  [mkCall "cmake" (Some d1) (configure_args o c); mkCall "cmake" (Some d2) ["--build"; "build"];
   mkCall "externals/multi-ch-constructor/build/multi-ch" None (contract_args c)].

(** Configuring, building and contracting are called in this order; each only
    if everything before has succeeded, the first two where the repository is.
    It ends well exactly if all three have succeeded, and otherwise with an
    error. *)
Theorem C59_calls o c before calls r : build_and_contract o c before = (calls, r) ->
  exists d1 d2 n, n <= 3 /\ calls = before ++ firstn n (mch_calls o c d1 d2) /\
    (forall k, k < n -> 0 < k -> o_status o (before ++ firstn k (mch_calls o c d1 d2)) = inl true) /\
    (0 < n -> o_canonical o before "externals/multi-ch-constructor" = inl d1) /\
    (1 < n -> o_canonical o (before ++ firstn 1 (mch_calls o c d1 d2)) "externals/multi-ch-constructor" = inl d2) /\
    (r = Ok tt <-> n = 3 /\ o_status o calls = inl true) /\
    (r <> Ok tt -> exists msg, r = Err msg /\
       match n with
       | 0 => o_canonical o before "externals/multi-ch-constructor" = inr msg
       | _ => o_status o calls = inr msg \/
              o_status o calls = inl false /\ (exists earlier k pre post, calls = earlier ++ [k] /\
                 msg = ("Failed: " ++ pre ++ c_program k ++ " " ++ String.concat " " (c_args k) ++ post)%string) \/
              n = 1 /\ o_status o calls = inl true /\ o_canonical o calls "externals/multi-ch-constructor" = inr msg
       end).
Proof.
  assert (Ap : forall s, (s ++ "")%string = s) by (induction s; cbn; congruence).
  unfold build_and_contract, mch_build, in_repo, mch_contract, execute, REPO_DIR.
  destruct (o_canonical o before "externals/multi-ch-constructor") as [d1|e1] eqn:C1.
  2:{ intros E. injection E as <- <-. exists "", "", 0. cbn [firstn]. rewrite app_nil_r. split; [lia|]. split; auto.
      split; [intros; lia|]. split; [lia|]. split; [lia|]. split; [split; [discriminate|intros [H _]; discriminate]|].
      intros _. eauto. }
  set (k1 := before ++ [_]).
  destruct (o_status o k1) as [[]|e2] eqn:S1.
  2:{ intros E. injection E as <- <-. exists d1, "", 1. cbn [firstn]. split; [lia|]. split; auto.
      split; [intros; lia|]. split; [auto|]. split; [lia|]. split; [split; [discriminate|intros [H _]; discriminate]|].
      intros _. eexists. split; [reflexivity|]. right. left. split; auto. exists before. eexists. exists "", "". rewrite Ap. split; reflexivity. }
  2:{ intros E. injection E as <- <-. exists d1, "", 1. cbn [firstn]. split; [lia|]. split; auto.
      split; [intros; lia|]. split; [auto|]. split; [lia|]. split; [split; [discriminate|intros [H _]; discriminate]|].
      intros _. eauto. }
  destruct (o_canonical o k1 "externals/multi-ch-constructor") as [d2|e2] eqn:C2.
  2:{ intros E. injection E as <- <-. exists d1, "", 1. cbn [firstn]. split; [lia|]. split; auto.
      split; [intros; lia|]. split; [auto|]. split; [lia|]. split; [split; [discriminate|intros [H _]; discriminate]|].
      intros _. eexists. split; [reflexivity|]. right. right. auto. }
  set (k2 := k1 ++ [_]).
  assert (E2 : k2 = before ++ firstn 2 (mch_calls o c d1 d2)) by (unfold k2, k1; rewrite <- app_assoc; reflexivity).
  assert (Hst : forall n, n <= 2 -> forall k, k < n -> 0 < k -> o_status o (before ++ firstn k (mch_calls o c d1 d2)) = inl true).
  { intros n Hn k Hk H0. replace k with 1 by lia. exact S1. }
  destruct (o_status o k2) as [[]|e3] eqn:S2.
  2:{ intros E. injection E as <- <-. exists d1, d2, 2. split; [lia|]. split; [exact E2|].
      split; [exact (Hst 2 (le_n 2))|]. split; [auto|]. split; [auto|]. split; [split; [discriminate|intros [H _]; discriminate]|].
      intros _. eexists. split; [reflexivity|]. right. left. split; auto. exists k1. eexists. exists "", "". rewrite Ap. split; reflexivity. }
  2:{ intros E. injection E as <- <-. exists d1, d2, 2. split; [lia|]. split; [exact E2|].
      split; [exact (Hst 2 (le_n 2))|]. split; [auto|]. split; [auto|]. split; [split; [discriminate|intros [H _]; discriminate]|].
      intros _. eauto. }
  intros E. injection E as E3 <-. exists d1, d2, 3. split; [lia|].
  assert (E3' : calls = before ++ firstn 3 (mch_calls o c d1 d2)) by (rewrite <- E3; unfold k2, k1; rewrite <- !app_assoc; reflexivity).
  split; [exact E3'|]. split.
  { intros k Hk H0. destruct (Nat.eq_dec k 2) as [->|]; [rewrite <- E2; exact S2|apply (Hst 2); lia]. }
  split; [auto|]. split; [auto|]. unfold REPO_DIR in E3. rewrite E3. split.
  - destruct (o_status o calls) as [[]|e]; split; auto; try (intros; discriminate); intros [_ H]; discriminate.
  - intros Hr. destruct (o_status o calls) as [[]|e] eqn:S3; [congruence| |eauto].
    eexists. split; [reflexivity|]. right. left. split; auto. exists k2. eexists. exists "./". eexists. split; [symmetry; exact E3|reflexivity].
Qed.
Print Assumptions C59_calls.

(** *** The program multi-ch-constructor *)

(** reading ends, well or with an error *)
Definition mild {A} (r : res A) : Prop := match r with Ok _ | Err _ => True | _ => False end.
Lemma mild_bind {A B} (r : res A) (k : A -> res B) : mild r -> (forall a, mild (k a)) -> mild (bind r k).
Proof. destruct r; cbn; auto. Qed.
Lemma read_mch_mild sc y : mild (read_mch sc y).
Proof.
  assert (Hf : forall a b names y, mild (fields a b names y)).
  { intros a b names z. unfold fields. repeat (match goal with |- mild (match ?x with _ => _ end) => destruct x | |- mild (if ?x then _ else _) => destruct x end; cbn; auto). }
  assert (Hs : forall b z, mild (read_string sc b z)) by (intros b [p t| |]; cbn; auto; destruct (_ && _); cbn; auto).
  assert (Hp : forall (A : Type) (v : string -> option A) z, mild (read_plain v z)) by (intros A v [[] t| |]; cbn; auto; destruct (v t); cbn; auto).
  assert (Hr : forall (A : Type) (rd : yaml -> res A) z, (forall z, mild (rd z)) -> mild (required rd z)) by (intros A rd [z|] H; cbn; auto).
  assert (Ho : forall (A : Type) (rd : yaml -> res A) z, (forall z, mild (rd z)) -> mild (optional sc rd z)).
  { intros A rd [z|] H; cbn; auto. destruct (is_null sc z); cbn; auto. apply mild_bind; auto. intros; cbn; auto. }
  unfold read_mch. apply mild_bind; auto. intros f. apply Hr. intros z. unfold read_mch_content.
  repeat (apply mild_bind; [auto; try (apply Hr); try (apply Ho); auto; unfold read_u64, read_f64, read_bool; auto|intros ?]). exact I.
Qed.

(** Without a readable configuration in a yaml-file, nothing is called and the
    program panics.  Otherwise, the calls are those for the configuration read;
    it ends well exactly if all three succeed, and panics if not. *)
Theorem C59_main o sc path doc calls r : mch_main o sc path doc = (calls, r) ->
  (r = Ok tt \/ r = Panic) /\
  ((exists y c, doc = Some y /\ read_mch sc y = Ok c /\ (exists ext, find_supported_ext ["yaml"] path = Ok ext) /\
      calls = fst (build_and_contract o c []) /\ (r = Ok tt <-> snd (build_and_contract o c []) = Ok tt)) \/
   calls = [] /\ r = Panic /\
   forall y, doc = Some y -> (exists ext, find_supported_ext ["yaml"] path = Ok ext) -> forall c, read_mch sc y <> Ok c).
Proof.
  pose proof (read_mch_mild sc) as Hm. unfold mch_main. destruct (find_supported_ext ["yaml"] path) as [ext|m| |] eqn:Ex; [destruct doc as [y|]; [specialize (Hm y); destruct (read_mch sc y) as [c|m| |] eqn:Ey|]| | |].
  { destruct (build_and_contract o c []) as [k r'] eqn:E. destruct (C59_calls o c [] k r' E) as (? & ? & ? & _ & _ & _ & _ & _ & _ & H).
    intros E2. assert (Hr : r' = Ok tt \/ exists m, r' = Err m).
    { destruct r' as [[]|m| |]; [now left|right; eauto| |]; destruct H as (m & Hm' & _); discriminate. }
    destruct Hr as [-> |(m & ->)]; injection E2 as <- <-.
    - split; auto. left. exists y, c. rewrite E. split; auto. split; auto. split; [eauto|]. split; auto. split; auto.
    - split; auto. left. exists y, c. rewrite E. split; auto. split; auto. split; [eauto|]. split; auto. split; intros; discriminate. }
  all: try (exfalso; exact Hm).
  all: try solve [exfalso; unfold find_supported_ext in Ex; destruct (extension path); [destruct (find _ _)|]; discriminate].
  all: intros E; injection E as <- <-; try congruence; split; auto; right; split; auto; split; auto;
    intros y' Hy [ext' He] c'; congruence.
Qed.
Print Assumptions C59_main.

(** resources/isle_of_man_2020-03-14/fmi_to_ch.yaml, where building succeeds
    and contracting does, or doesn't *)
Definition mch_env (good : bool) : outside_env :=
  {| o_canonical := fun _ p => inl (String.append "/home/" p);
     o_status := fun calls => inl ((length calls <? 3) || good);
     o_show_f64 := fun x => if feqb x (Fin (1 # 1000000)) then "0.000001" else "?" |}.
Example C59_case :
  mch_main (mch_env true) sc0 "fmi_to_ch.yaml" (Some fmi_to_ch_yaml) =
    ([mkCall "cmake" (Some "/home/externals/multi-ch-constructor") ["-Bbuild"; "-D"; "GRAPH_DIM=2"; "-D"; "COST_ACCURACY=0.000001"];
      mkCall "cmake" (Some "/home/externals/multi-ch-constructor") ["--build"; "build"];
      mkCall "externals/multi-ch-constructor/build/multi-ch" None
        ["--threads"; "4"; "--using-osm-ids"; "--external-edge-ids"; "--text"; "resources/isle_of_man_2020-03-14/graph_for_ch.fmi";
         "--percent"; "99.8"; "--write"; "resources/isle_of_man_2020-03-14/graph.ch.fmi"]], Ok tt) /\
  snd (mch_main (mch_env false) sc0 "fmi_to_ch.yaml" (Some fmi_to_ch_yaml)) = Panic /\
  length (fst (mch_main (mch_env false) sc0 "fmi_to_ch.yaml" (Some fmi_to_ch_yaml))) = 3 /\
  mch_main (mch_env true) sc0 "fmi_to_ch.json" (Some fmi_to_ch_yaml) = ([], Panic).
Proof. vm_compute. repeat split. Qed.

(** A flag which is off is passed as an empty argument, although no path is
    empty. *)
Theorem C59_empty_refuted : exists c, mc_graph c <> "" /\ mc_contracted c <> "" /\ mc_ratio c <> "" /\ In "" (contract_args c).
Proof.
  exists {| mc_graph := "graph.fmi"; mc_contracted := "graph.ch.fmi"; mc_ratio := "99.8"; mc_dim := 2%N; mc_accuracy := Fin 1; mc_threads := 4%N;
            mc_osm_ids := false; mc_external_ids := true |}.
  repeat split; try discriminate. cbn [contract_args mc_osm_ids mc_external_ids In]. auto.
Qed.
Print Assumptions C59_empty_refuted.
