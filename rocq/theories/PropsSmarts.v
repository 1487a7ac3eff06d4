(** Property C49: exporting paths for SMARTS *)
From Coq Require Import String Ascii List Bool Arith NArith ZArith QArith Lia.
From Verif Require Import Base F64 Lib ModelText ModelUnits ModelConfig ModelGraph ModelBuild Spec Examples
  ModelDijkstra SpecRouting SpecPaths PropsGraph ExamplesRouting ProofText ModelSmarts.
Import ListNotations.
Open Scope string_scope.
Open Scope list_scope.
Open Scope nat_scope.

(** *** Vocabulary *)

(** a vehicle: the ids of source and destination, and of the nodes passed *)
Record vehicle : Type := mkVehicle { v_src : Z; v_dst : Z; v_nodes : list Z }.

(** the lines for a vehicle *)
Definition vehicle_lines (v : vehicle) : list text :=
  (T "<vehicle id=""" ++ show_Z (v_src v) ++ T "->" ++ show_Z (v_dst v) ++ T """ type=""CAR"" start_time=""0.4"" driverProfile=""NORMAL"">")
  :: map (fun i => T "<node id=""" ++ show_Z i ++ T """/>") (v_nodes v) ++ [T "</vehicle>"].
(** the file for a list of vehicles *)
Definition vehicle_file (vs : list vehicle) : text :=
  concat (map (fun l => l ++ [LF])
    (T "<?xml version=""1.0"" encoding=""UTF-8""?>" :: T "<data>" :: concat (map vehicle_lines vs) ++ [T "</data>"])).

(** [ns] are the nodes passed by the path, from its source to its destination *)
Definition passes (g : graph) (p : path) (ns : list nat) : Prop :=
  length ns = S (length (p_edges p)) /\
  nth_error ns 0 = Some (p_src_idx p) /\ nth_error ns (length (p_edges p)) = Some (p_dst_idx p) /\
  forall i e, nth_error (p_edges p) i = Some e ->
    exists a b, nth_error ns i = Some a /\ nth_error ns (S i) = Some b /\ edge_from_to g e a b.

(** the vehicle drives along the path; it has no nodes if the path has no edges *)
Definition drives (g : graph) (p : path) (v : vehicle) : Prop :=
  node_id g (p_src_idx p) = Ok (v_src v) /\ node_id g (p_dst_idx p) = Ok (v_dst v) /\
  exists ns, passes g p ns /\
    match p_edges p with
    | [] => v_nodes v = []
    | _ => Forall2 (fun n i => node_id g n = Ok i) ns (v_nodes v)
    end.

(** *** The written file *)
Lemma smarts_nodes_rest g es : forall s t, connects g s es t ->
  forall ls, smarts_nodes g false es = Ok ls ->
  exists ns is, length ns = length es /\ last (s :: ns) 0 = t /\
    (forall i e, nth_error es i = Some e -> exists a b, nth_error (s :: ns) i = Some a /\ nth_error ns i = Some b /\ edge_from_to g e a b) /\
    Forall2 (fun n i => node_id g n = Ok i) ns is /\ ls = map smarts_node is.
Proof.
  induction es as [|e es IH]; intros s t C ls H; inversion C as [|? ? x ? ? Hx C']; subst; cbn [smarts_nodes] in H.
  - injection H as <-. exists [], []. split; [reflexivity|]. split; [reflexivity|]. split; [intros [|i] e He; discriminate|]. split; [constructor|reflexivity].
  - cbn [bind] in H. pose proof Hx as [_ Hd]. rewrite Hd in H. cbn [bind] in H.
    destruct (node_id g x) as [xi| | |] eqn:Ex; cbn [bind] in H; try discriminate.
    destruct (smarts_nodes g false es) as [rest| | |] eqn:Er; cbn [bind] in H; try discriminate. injection H as <-.
    destruct (IH x t C' rest eq_refl) as (ns & is & Ln & Hl & Hi & F & ->). exists (x :: ns), (xi :: is).
    split; [simpl; lia|]. split; [exact Hl|]. split; [|split; [now constructor|reflexivity]].
    intros [|i] e' He; cbn [nth_error] in He.
    + injection He as <-. exists s, x. auto.
    + destruct (Hi i e' He) as (a & b & A & B & C1). exists a, b. auto.
Qed.

Lemma last_nth {A} (l : list A) d x : nth_error (x :: l) (length l) = Some (last (x :: l) d).
Proof. revert x. induction l as [|y l IH]; intros x; [reflexivity|]. cbn [length]. change (nth_error (x :: y :: l) (S (length l))) with (nth_error (y :: l) (length l)).
  rewrite IH. reflexivity. Qed.

Lemma smarts_path_drives g p ls : connects g (p_src_idx p) (p_edges p) (p_dst_idx p) -> smarts_path g p = Ok ls ->
  exists v, drives g p v /\ ls = vehicle_lines v.
Proof.
  intros C H. unfold smarts_path in H.
  destruct (node_id g (p_src_idx p)) as [si| | |] eqn:Es; cbn [bind] in H; try discriminate.
  destruct (node_id g (p_dst_idx p)) as [di| | |] eqn:Ed; cbn [bind] in H; try discriminate.
  destruct (smarts_nodes g true (p_edges p)) as [ns| | |] eqn:En; cbn [bind] in H; try discriminate. injection H as <-.
  destruct (p_edges p) as [|e es] eqn:Ee.
  - cbn [smarts_nodes] in En. injection En as <-. inversion C; subst. exists (mkVehicle si di []).
    split; [|reflexivity]. split; [exact Es|]. split; [exact Ed|]. exists [p_src_idx p]. split; [|rewrite Ee; reflexivity].
    unfold passes. rewrite Ee. split; [reflexivity|]. split; [reflexivity|]. split; [simpl; congruence|]. intros [|i] e He; discriminate.
  - assert (exists rest, ns = smarts_node si :: rest /\ smarts_nodes g false (e :: es) = Ok rest) as (rest & -> & Er).
    { inversion C as [|? ? x ? ? Hx C']; subst. cbn [smarts_nodes] in En |- *. pose proof Hx as [Hs Hd]. rewrite Hs, Hd in En. cbn [bind] in En.
      rewrite Es in En. cbn [bind] in En |- *. rewrite Hd. cbn [bind]. destruct (node_id g x) as [xi| | |]; cbn [bind] in *; try discriminate.
      destruct (smarts_nodes g false es) as [r| | |]; cbn [bind] in *; try discriminate. injection En as <-. eexists. split; reflexivity. }
    destruct (smarts_nodes_rest g (e :: es) _ _ C rest Er) as (nds & is & Ln & Hl & Hi & F & ->).
    exists (mkVehicle si di (si :: is)). split; [|reflexivity]. split; [exact Es|]. split; [exact Ed|].
    exists (p_src_idx p :: nds). rewrite Ee. split; [|now constructor]. unfold passes. rewrite Ee. split; [simpl in *; lia|].
    split; [reflexivity|]. split; [|exact Hi]. rewrite <- Ln, <- Hl. apply last_nth.
Qed.

(** Whatever connected paths are exported: the file consists of one vehicle for
    each path, in the same order, which passes the nodes of its path. *)
Theorem C49_vehicles g ps file :
  (forall p, In p ps -> connects g (p_src_idx p) (p_edges p) (p_dst_idx p)) ->
  write_smarts g ps = Ok file ->
  exists vs, Forall2 (drives g) ps vs /\ file = vehicle_file vs.
Proof.
  intros C H. unfold write_smarts in H. destruct (mapM (smarts_path g) ps) as [ls| | |] eqn:E; cbn [bind] in H; try discriminate. injection H as <-.
  apply mapM_ok in E. assert (exists vs, Forall2 (drives g) ps vs /\ ls = map vehicle_lines vs) as (vs & F & ->).
  { induction E as [|p l ps ls Hp F IH]; [exists []; auto|]. destruct IH as (vs & F' & ->); [intros; apply C; simpl; auto|].
    destruct (smarts_path_drives g p l (C p (or_introl eq_refl)) Hp) as (v & D & ->). exists (v :: vs). auto. }
  exists vs. split; [exact F|]. reflexivity.
Qed.
Print Assumptions C49_vehicles.

(** Exporting succeeds for every list of paths of a built graph. *)
Theorem C49_succeeds hav c ch1 ch2 es ns g ps :
  1 <= ch1 -> 1 <= ch2 -> build hav c ch1 ch2 es ns = Ok g ->
  (forall p, In p ps -> p_src_idx p < node_count g /\ p_dst_idx p < node_count g /\ edges_exist g (p_edges p)) ->
  exists file, write_smarts g ps = Ok file.
Proof.
  intros H1 H2 E Hp. unfold write_smarts.
  assert (Hid : forall i, i < node_count g -> exists z, node_id g i = Ok z).
  { intros i Hi. unfold node_id. apply idx_lt. exact Hi. }
  assert (Hns : forall b l, edges_exist g l -> exists ls, smarts_nodes g b l = Ok ls).
  { intros b l. revert b. induction l as [|e l IH]; intros b Hl; [eexists; reflexivity|]. cbn [smarts_nodes].
    destruct (C07_edge_ends _ _ _ _ _ _ _ e H1 H2 E (Hl e (or_introl eq_refl))) as (_ & s & d & [Hs Hd] & Ls & Ld & _).
    rewrite Hs, Hd. cbn [bind]. destruct (Hid s Ls) as [zs ->]. cbn [bind]. destruct (Hid d Ld) as [zd ->].
    destruct (IH false) as [ls ->]; [intros e' He'; apply Hl; simpl; auto|]. destruct b; cbn [bind]; eauto. }
  assert (exists ls, mapM (smarts_path g) ps = Ok ls) as [ls ->]; [|cbn [bind]; eauto].
  induction ps as [|p ps IH]; [eexists; reflexivity|]. cbn [mapM]. destruct (Hp p (or_introl eq_refl)) as (A & B & C).
  unfold smarts_path at 1. destruct (Hid _ A) as [za ->]. destruct (Hid _ B) as [zb ->]. destruct (Hns true _ C) as [ls ->]. cbn [bind].
  destruct IH as [r ->]; [intros q Hq; apply Hp; simpl; auto|]. cbn [bind]. eauto.
Qed.
Print Assumptions C49_succeeds.

(** *** Reading the file *)
Lemma show_N_inj n m : show_N n = show_N m -> n = m.
Proof.
  intros H. pose proof (parse_unsigned_show (N.max n m) n ltac:(lia)) as A. pose proof (parse_unsigned_show (N.max n m) m ltac:(lia)) as B.
  rewrite H in A. congruence.
Qed.
Lemma show_Z_inj z w : show_Z z = show_Z w -> z = w.
Proof.
  assert (S : forall p n, "-"%char :: show_N (Npos p) <> show_N n).
  { intros p n H. symmetry in H. destruct (show_N_no_sign _ _ _ H) as [_ X]. discriminate X. }
  destruct z as [|p|p], w as [|q|q]; intros H; try reflexivity;
    try (exfalso; first [eapply S; exact H|eapply S; symmetry; exact H]); cbn [show_Z] in H.
  - apply show_N_inj in H. discriminate.
  - apply show_N_inj in H. discriminate.
  - apply show_N_inj in H. cbn in H. congruence.
  - injection H as H. apply show_N_inj in H. congruence.
Qed.
(** texts without a character are cut off by it *)
Lemma cut_inj (c : ascii) a : forall b x y, ~ In c a -> ~ In c b -> a ++ c :: x = b ++ c :: y -> a = b /\ x = y.
Proof.
  induction a as [|h a IH]; intros [|k b] x y Ha Hb H; cbn [app] in H.
  - injection H as H. auto.
  - injection H as H _. subst k. exfalso. apply Hb. now left.
  - injection H as H _. subst h. exfalso. apply Ha. now left.
  - injection H as -> H. destruct (IH b x y) as [-> ->]; auto; intros Hi; [apply Ha|apply Hb]; now right.
Qed.
Definition QUOTE : ascii := ascii_of_nat 34.
Lemma show_N_chars n ch : In ch (show_N n) -> 48 <= nat_of_ascii ch <= 57.
Proof.
  intros H. pose proof (show_N_all n) as F. rewrite Forall_forall in F. destruct (F _ H) as (d & Hd & ->). rewrite digit_char_nat by auto. lia.
Qed.
Lemma show_Z_chars z ch : In ch (show_Z z) -> ch = "-"%char \/ 48 <= nat_of_ascii ch <= 57.
Proof. destruct z; cbn [show_Z]; intros H; try (right; eapply show_N_chars; exact H). destruct H as [<-|H]; [auto|right; eapply show_N_chars; exact H]. Qed.
Lemma show_Z_no z ch : ch <> "-"%char -> nat_of_ascii ch < 48 \/ 57 < nat_of_ascii ch -> ~ In ch (show_Z z).
Proof. intros H1 H2 H. destruct (show_Z_chars _ _ H) as [E|E]; [auto|lia]. Qed.
Lemma app_cancel {A} (p : list A) a b : p ++ a = p ++ b -> a = b.
Proof. apply app_inv_head. Qed.

Lemma node_line_inj i j : T "<node id=""" ++ show_Z i ++ T """/>" = T "<node id=""" ++ show_Z j ++ T """/>" -> i = j.
Proof. intros H. apply app_cancel in H. apply app_inv_tail in H. now apply show_Z_inj. Qed.
(** the text before ">" in "a->b" ends with a minus sign *)
Lemma vehicle_line_inj s d s' d' tl : T "<vehicle id=""" ++ show_Z s ++ T "->" ++ show_Z d ++ tl = T "<vehicle id=""" ++ show_Z s' ++ T "->" ++ show_Z d' ++ tl ->
  s = s' /\ d = d'.
Proof.
  intros H. apply app_cancel in H. change (T "->") with ("-"%char :: ">"%char :: []) in H.
  replace (show_Z s ++ ["-"%char; ">"%char] ++ show_Z d ++ tl) with ((show_Z s ++ ["-"%char]) ++ ">"%char :: show_Z d ++ tl) in H by (rewrite <- app_assoc; reflexivity).
  replace (show_Z s' ++ ["-"%char; ">"%char] ++ show_Z d' ++ tl) with ((show_Z s' ++ ["-"%char]) ++ ">"%char :: show_Z d' ++ tl) in H by (rewrite <- app_assoc; reflexivity).
  assert (N : forall z, ~ In ">"%char (show_Z z ++ ["-"%char])).
  { intros z Hi. apply in_app_iff in Hi. destruct Hi as [Hi|[Hi|[]]]; [|discriminate]. revert Hi. apply show_Z_no; [discriminate|]. right. vm_compute. lia. }
  apply cut_inj in H; auto. destruct H as [A B]. apply app_inv_tail in A, B. split; now apply show_Z_inj.
Qed.

Lemma vehicle_lines_inj vs : forall vs', concat (map vehicle_lines vs) ++ [T "</data>"] = concat (map vehicle_lines vs') ++ [T "</data>"] -> vs = vs'.
Proof.
  assert (G : forall ns ns' r r', map (fun i => T "<node id=""" ++ show_Z i ++ T """/>") ns ++ T "</vehicle>" :: r =
                                  map (fun i => T "<node id=""" ++ show_Z i ++ T """/>") ns' ++ T "</vehicle>" :: r' -> ns = ns' /\ r = r').
  { induction ns as [|n ns IH]; intros [|n' ns'] r r' H; cbn [map app] in H.
    - injection H as H. auto.
    - injection H as H _. discriminate H.
    - injection H as H _. discriminate H.
    - pose proof (f_equal (@hd text []) H) as A. pose proof (f_equal (@tl text) H) as B. cbn [hd tl] in A, B. apply node_line_inj in A.
      destruct (IH _ _ _ B) as [-> ->]. subst. auto. }
  induction vs as [|[s d ns] vs IH]; intros [|[s' d' ns'] vs'] H; cbn [map concat app] in H; auto.
  - pose proof (f_equal (@hd text []) H) as A. cbn [hd vehicle_lines app] in A. discriminate A.
  - pose proof (f_equal (@hd text []) H) as A. cbn [hd vehicle_lines app] in A. discriminate A.
  - unfold vehicle_lines at 1 3 in H. cbn [v_src v_dst v_nodes] in H. rewrite <- !app_assoc in H.
    pose proof (f_equal (@hd text []) H) as A. pose proof (f_equal (@tl text) H) as B. cbn [hd tl app] in A, B.
    apply vehicle_line_inj in A. destruct A as [-> ->]. rewrite <- !app_assoc in B. cbn [app] in B. apply G in B. destruct B as [-> B]. f_equal. now apply IH.
Qed.

(** no line of the file contains a line feed *)
Lemma T_no_LF (l : text) : forallb (fun ch => negb (Ascii.eqb ch LF)) l = true -> ~ In LF l.
Proof. intros H Hi. rewrite forallb_forall in H. apply H in Hi. rewrite Ascii.eqb_refl in Hi. discriminate. Qed.
Lemma show_Z_no_LF z : ~ In LF (show_Z z).
Proof. apply show_Z_no; [discriminate|left; vm_compute; lia]. Qed.
Lemma vehicle_no_LF vs l : In l (concat (map vehicle_lines vs) ++ [T "</data>"]) -> ~ In LF l.
Proof.
  intros H. apply in_app_iff in H. destruct H as [H|[<-|[]]]; [|apply T_no_LF; reflexivity]. apply in_concat in H. destruct H as (ls & Hl & H).
  apply in_map_iff in Hl. destruct Hl as (v & <- & _). unfold vehicle_lines in H. destruct H as [<-|H].
  - rewrite !in_app_iff. pose proof (show_Z_no_LF (v_src v)). pose proof (show_Z_no_LF (v_dst v)).
    assert (forall t, forallb (fun ch => negb (Ascii.eqb ch LF)) (T t) = true -> ~ In LF (T t)) by (intros; now apply T_no_LF).
    intros [X|[X|[X|[X|X]]]]; try tauto; revert X; apply T_no_LF; reflexivity.
  - apply in_app_iff in H. destruct H as [H|[<-|[]]]; [|apply T_no_LF; reflexivity]. apply in_map_iff in H. destruct H as (i & <- & _).
    rewrite !in_app_iff. pose proof (show_Z_no_LF i). intros [X|[X|X]]; try tauto; revert X; apply T_no_LF; reflexivity.
Qed.
Lemma feeds_inj (ls : list text) : forall ls', Forall (fun l => ~ In LF l) ls -> Forall (fun l => ~ In LF l) ls' ->
  concat (map (fun l => l ++ [LF]) ls) = concat (map (fun l => l ++ [LF]) ls') -> ls = ls'.
Proof.
  induction ls as [|l ls IH]; intros [|l' ls'] F F' H; cbn [map concat] in H; auto.
  - destruct l'; discriminate.
  - destruct l; discriminate.
  - inversion F; inversion F'; subst. rewrite <- !app_assoc in H. cbn [app] in H. apply cut_inj in H; auto. destruct H as [-> H]. f_equal. auto.
Qed.
Lemma vehicle_file_inj vs vs' : vehicle_file vs = vehicle_file vs' -> vs = vs'.
Proof.
  intros H. unfold vehicle_file in H. apply feeds_inj in H.
  - pose proof (f_equal (fun l => tl (tl l)) H) as B. cbn [tl] in B. now apply vehicle_lines_inj.
  - constructor; [apply T_no_LF; reflexivity|]. constructor; [apply T_no_LF; reflexivity|]. apply Forall_forall. intros l Hl. eapply vehicle_no_LF; eauto.
  - constructor; [apply T_no_LF; reflexivity|]. constructor; [apply T_no_LF; reflexivity|]. apply Forall_forall. intros l Hl. eapply vehicle_no_LF; eauto.
Qed.

(** A file tells its vehicles: equal files come from paths with the same
    vehicles, even if written for different graphs. *)
Theorem C49_unambiguous g g' ps ps' file :
  (forall p, In p ps -> connects g (p_src_idx p) (p_edges p) (p_dst_idx p)) ->
  (forall p, In p ps' -> connects g' (p_src_idx p) (p_edges p) (p_dst_idx p)) ->
  write_smarts g ps = Ok file -> write_smarts g' ps' = Ok file ->
  exists vs, Forall2 (drives g) ps vs /\ Forall2 (drives g') ps' vs.
Proof.
  intros C C' H H'. destruct (C49_vehicles g ps file C H) as (vs & F & E). destruct (C49_vehicles g' ps' file C' H') as (vs' & F' & E').
  rewrite E in E'. apply vehicle_file_inj in E'. subst vs'. exists vs. auto.
Qed.
Print Assumptions C49_unambiguous.

(** *** Cases *)
Definition sm_path : path := path_new 0 0%Z 4 4%Z [0; 3; 5].
Definition sm_stay : path := path_new 2 2%Z 2 2%Z [].
Lemma sm_connects p : In p [sm_path; sm_stay; sm_path] -> connects rt_graph (p_src_idx p) (p_edges p) (p_dst_idx p).
Proof.
  assert (A : connects rt_graph 0 [0; 3; 5] 4).
  { apply connects_cons with 1; [vm_compute; auto|]. apply connects_cons with 3; [vm_compute; auto|].
    apply connects_cons with 4; [vm_compute; auto|]. constructor. }
  intros [<-|[<-|[<-|[]]]]; [exact A|constructor|exact A].
Qed.
Example C49_case : exists file,
  (forall p, In p [sm_path; sm_stay; sm_path] -> connects rt_graph (p_src_idx p) (p_edges p) (p_dst_idx p)) /\
  (forall p, In p [sm_path; sm_stay; sm_path] ->
     p_src_idx p < node_count rt_graph /\ p_dst_idx p < node_count rt_graph /\ edges_exist rt_graph (p_edges p)) /\
  write_smarts rt_graph [sm_path; sm_stay; sm_path] = Ok file /\
  file = vehicle_file [mkVehicle 0 4 [0; 1; 3; 4]%Z; mkVehicle 2 2 []; mkVehicle 0 4 [0; 1; 3; 4]%Z] /\
  firstn 22 (skipn 39 file) = T "<data>" ++ [LF] ++ T "<vehicle id=""0-".
Proof.
  eexists. split; [exact sm_connects|]. split; [|split; [vm_compute; reflexivity|split; vm_compute; reflexivity]].
  intros p [<-|[<-|[<-|[]]]]; (split; [vm_compute; lia|]); (split; [vm_compute; lia|]); intros e He; vm_compute in He |- *; lia.
Qed.

(** The nodes passed by a path from a node to itself are that node, but none is
    written for it. *)
Theorem C49_stay_refuted : exists hav c es ns g p vs,
  build hav c 2 3 es ns = Ok g /\ connects g (p_src_idx p) (p_edges p) (p_dst_idx p) /\ passes g p [p_src_idx p] /\
  write_smarts g [p] = Ok (vehicle_file vs) /\ map v_nodes vs = [[]].
Proof.
  exists ex_hav, (ex_cfg false), rt_es, rt_ns, rt_graph, sm_stay, [mkVehicle 2 2 []].
  split; [exact rt_build|]. split; [constructor|]. split; [|split; vm_compute; reflexivity].
  split; [reflexivity|]. split; [reflexivity|]. split; [reflexivity|]. intros [|i] e He; discriminate.
Qed.
Print Assumptions C49_stay_refuted.
