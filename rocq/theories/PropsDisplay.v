(** C61: displaying a graph (the text of `debug!("{}", graph)`) *)
From Coq Require Import String List Bool Arith ZArith QArith Lia Sorted.
From Verif Require Import Base F64 ModelConfig ModelGraph ModelBuild ModelDisplay SpecDisplay Spec Examples Lib ProofDisplay.
Import ListNotations.
Open Scope list_scope.
Open Scope nat_scope.

(** What is asked for determines the text. *)
Lemma shown_fun {L} (more : L) items a b : shown more items a -> shown more items b -> a = b.
Proof.
  intros [[H1 ->]|(f & r & x & E & Hf & Hr & ->)] [[H2 ->]|(f' & r' & x' & E' & Hf' & Hr' & ->)]; auto.
  - subst items. rewrite !app_length in H1. simpl in H1. destruct r'; [congruence|simpl in H1; lia].
  - subst items. rewrite !app_length in H2. simpl in H2. destruct r; [congruence|simpl in H2; lia].
  - subst items. rewrite !app_assoc in E'. apply app_inj_tail in E'. destruct E' as [E' ->].
    assert (f = f') as ->; auto.
    assert (G : firstn 19 (f ++ r) = firstn 19 (f' ++ r')) by now rewrite E'.
    rewrite !firstn_app, Hf, Hf', !Nat.sub_diag, !firstn_O, !app_nil_r, !firstn_all2 in G by lia. exact G.
Qed.

Lemma enumerates_fun (P : nat -> dline -> Prop) n a b : (forall i x y, P i x -> P i y -> x = y) ->
  enumerates P n a -> enumerates P n b -> a = b.
Proof.
  revert P n b. induction a as [|x a IH]; intros P n [|y b] HP [La Ha] [Lb Hb]; simpl in *; auto; try lia.
  f_equal.
  - eapply (HP 0); [apply (Ha 0)|apply (Hb 0)]; reflexivity.
  - apply (IH (fun i => P (S i)) (length a)).
    + intros i u v. apply HP.
    + split; [reflexivity|]. intros i l H. now apply (Ha (S i)).
    + split; [lia|]. intros i l H. now apply (Hb (S i)).
Qed.

Lemma ascending_fun : forall a b, StronglySorted lt a -> StronglySorted lt b -> (forall e : nat, In e a <-> In e b) -> a = b.
Proof.
  induction a as [|x a IH]; intros [|y b] Ha Hb H; auto.
  - exfalso. apply (proj2 (H y)). now left.
  - exfalso. apply (proj1 (H x)). now left.
  - inversion Ha as [|? ? Ha' Fa]; subst. inversion Hb as [|? ? Hb' Fb]; subst.
    rewrite Forall_forall in Fa, Fb.
    assert (x = y).
    { destruct (proj1 (H x) (or_introl eq_refl)) as [|Hx]; auto.
      destruct (proj2 (H y) (or_introl eq_refl)) as [|Hy]; auto.
      apply Fb in Hx. apply Fa in Hy. lia. }
    subst y. f_equal. apply IH; auto. intros e. split; intros He.
    + destruct (proj1 (H e) (or_intror He)) as [->|]; auto. apply Fa in He. lia.
    + destruct (proj2 (H e) (or_intror He)) as [->|]; auto. apply Fb in He. lia.
Qed.

Lemma shortcut_edges_fun g a b : shortcut_edges g a -> shortcut_edges g b -> a = b.
Proof. intros [A1 A2] [B1 B2]. apply ascending_fun; auto. intros e. now rewrite A2, B2. Qed.

Lemma last_offset_fun g d a b : last_offset g d a -> last_offset g d b -> a = b.
Proof.
  intros (v & A & B & ->) (v' & A' & B' & ->). f_equal.
  destruct B as [[B0 ->]|(e & B)], B' as [[B0' ->]|(e' & B')]; auto.
  - apply A in B'. lia.
  - apply A' in B. lia.
  - apply A in B'. apply A' in B. lia.
Qed.

Lemma dir_part_fun g scs d a b : dir_part g scs d a -> dir_part g scs d b -> a = b.
Proof.
  intros (es & es' & os & os' & lo & A1 & A2 & A3 & A4 & A5 & ->) (fs & fs' & ps & ps' & lp & B1 & B2 & B3 & B4 & B5 & ->).
  assert (es = fs) as ->.
  { eapply enumerates_fun; [|exact A1|exact B1]. intros i x y (id & s & m & t & X1 & X2 & X3 & X4 & ->) (id' & s' & m' & t' & Y1 & Y2 & Y3 & Y4 & ->). congruence. }
  assert (os = ps) as ->.
  { eapply enumerates_fun; [|exact A3|exact B3]. unfold offset_line. congruence. }
  rewrite (shown_fun _ _ _ _ A2 B2), (shown_fun _ _ _ _ A4 B4), (last_offset_fun _ _ _ _ A5 B5). reflexivity.
Qed.

Lemma displays_fun g a b : displays g a -> displays g b -> a = b.
Proof.
  intros (scs & ns & ns' & f & bb & sc & A1 & A2 & A3 & A4 & A5 & A6 & ->) (tcs & ms & ms' & f' & bb' & tc & B1 & B2 & B3 & B4 & B5 & B6 & ->).
  pose proof (shortcut_edges_fun _ _ _ A1 B1) as <-.
  assert (ns = ms) as ->.
  { eapply enumerates_fun; [|exact A2|exact B2]. intros i x y (id & s & X1 & X2 & ->) (id' & s' & Y1 & Y2 & ->). congruence. }
  rewrite (shown_fun _ _ _ _ A3 B3), (dir_part_fun _ _ _ _ _ A4 B4), (dir_part_fun _ _ _ _ _ A5 B5).
  assert (sc = tc) as ->; auto. unfold shortcuts_part in *. destruct scs as [|e t]; [congruence|].
  destruct A6 as (x & A6 & A7), B6 as (y & B6 & B7).
  assert (x = y) as ->; [|exact (shown_fun _ _ _ _ A7 B7)].
  eapply enumerates_fun; [|exact A6|exact B6]. intros i u v (e1 & p & X1 & X2 & ->) (e2 & p' & Y1 & Y2 & ->). congruence.
Qed.

(** If one of the last two nodes has a leaving edge, and one of them has an
    entering edge, then a built graph is displayed: its nodes, the edges in both
    directions, how many edges start before a node, and its shortcuts; of each
    kind at most 20, with a mark where some are left out. *)
Theorem C61_display : forall hav c ch1 ch2 es ns g ls, 1 <= ch1 -> 1 <= ch2 -> build hav c ch1 ch2 es ns = Ok g ->
  (display g = Ok ls <-> one_of_last_two g FWD /\ one_of_last_two g BWD /\ displays g ls).
Proof.
  intros hav c ch1 ch2 es ns g ls H1 H2 E. destruct (build_displayable _ _ _ _ _ _ _ H1 H2 E) as (opts & srcs & Hg).
  destruct (display_cases g opts srcs Hg) as [(A & B & ls' & C & D)|(A & B)]; split.
  - intros X. assert (ls = ls') by congruence. subst. auto.
  - intros (_ & _ & X). rewrite (displays_fun _ _ _ X D). exact C.
  - congruence.
  - tauto.
Qed.
Print Assumptions C61_display.

(** Otherwise displaying it panics. *)
Theorem C61_panics : forall hav c ch1 ch2 es ns g, 1 <= ch1 -> 1 <= ch2 -> build hav c ch1 ch2 es ns = Ok g ->
  (display g = Panic <-> ~ (one_of_last_two g FWD /\ one_of_last_two g BWD)) /\
  ((exists ls, display g = Ok ls) \/ display g = Panic).
Proof.
  intros hav c ch1 ch2 es ns g H1 H2 E. destruct (build_displayable _ _ _ _ _ _ _ H1 H2 E) as (opts & srcs & Hg).
  destruct (display_cases g opts srcs Hg) as [(A & B & ls' & C & D)|(A & B)]; split; eauto; split; auto; try tauto.
  intros X. congruence.
Qed.
Print Assumptions C61_panics.

(** a ring of 25 nodes with shortcuts over every second node *)
Definition ring_es : list proto_edge :=
  map (fun i => ex_edge i (Z.of_nat (100 + i)) (Z.of_nat (100 + (i + 1) mod 25)) 1 None) (seq 0 25) ++
  map (fun i => ex_edge (100 + i) (Z.of_nat (100 + 2 * i)) (Z.of_nat (100 + (2 * i + 2) mod 25)) 2 (Some (2 * i, 2 * i + 1))) (seq 0 12).
Definition ring_ns : list proto_node := map (fun i => ex_node (Z.of_nat (100 + i)) 1 (Some (i mod 2))) (seq 0 25).
Definition ring : graph := Eval vm_compute in unok empty_graph (build ex_hav (ex_cfg false) 1 1 ring_es ring_ns).

Definition is_node_line (l : dline) : bool := match l with DNode _ _ _ | DMoreNodes => true | _ => false end.
Definition is_edge_line (l : dline) : bool := match l with DEdge FWD _ _ _ _ _ _ | DMoreEdges FWD => true | _ => false end.
Definition is_sc_line (l : dline) : bool := match l with DShortcut _ _ _ | DMoreShortcuts | DNoShortcuts => true | _ => false end.

Example C61_ring_case : build ex_hav (ex_cfg false) 1 1 ring_es ring_ns = Ok ring /\
  one_of_last_two ring FWD /\ one_of_last_two ring BWD /\ node_count ring = 25 /\ edge_count ring FWD = 37 /\
  exists ls, display ring = Ok ls /\
    firstn 1 ls = [DCounts 25 37] /\
    skipn 18 (filter is_node_line ls) =
      [DNode 18 118 (mkCoord (Fin 1) (Fin 1)); DMoreNodes; DNode 24 124 (mkCoord (Fin 1) (Fin 1))] /\
    skipn 18 (filter is_edge_line ls) =
      [DEdge FWD (Some 12) 18 6 12 [Fin 1] 13; DMoreEdges FWD; DEdge FWD (Some 24) 36 12 24 [Fin 1] 0] /\
    In (DLastOffset BWD 25 37) ls /\
    firstn 2 (filter is_sc_line ls) = [DShortcut 1 0 (0, 2); DShortcut 4 1 (3, 5)] /\ length (filter is_sc_line ls) = 12.
Proof.
  split; [vm_compute; reflexivity|].
  split; [right; exists 36, 24; split; [vm_compute; reflexivity|vm_compute; lia]|].
  split; [right; exists 35, 24; split; [vm_compute; reflexivity|vm_compute; lia]|].
  split; [vm_compute; reflexivity|]. split; [vm_compute; reflexivity|].
  eexists. split; [vm_compute; reflexivity|]. repeat split; try (vm_compute; reflexivity).
  vm_compute. tauto.
Qed.

(** Logging does not change what is parsed, except that the program panics with
    `--log debug` where displaying does. *)
Theorem C61_logging : forall hav c ch1 ch2 es ns, 1 <= ch1 -> 1 <= ch2 ->
  parse_logged false (build hav c ch1 ch2 es ns) = build hav c ch1 ch2 es ns /\
  forall r, parse_logged true (build hav c ch1 ch2 es ns) = r ->
    r = build hav c ch1 ch2 es ns \/
    exists g, build hav c ch1 ch2 es ns = Ok g /\ r = Panic /\ ~ (one_of_last_two g FWD /\ one_of_last_two g BWD).
Proof.
  intros hav c ch1 ch2 es ns H1 H2. destruct (build hav c ch1 ch2 es ns) as [g|m| |] eqn:E; cbn [parse_logged bind].
  - split; [reflexivity|]. intros r <-. destruct (C61_panics _ _ _ _ _ _ _ H1 H2 E) as [A [(ls & B)|B]]; rewrite B; cbn [bind]; auto.
    right. exists g. tauto.
  - split; [reflexivity|]. auto.
  - split; [reflexivity|]. auto.
  - split; [reflexivity|]. auto.
Qed.
Print Assumptions C61_logging.

(** three nodes whose edges all leave the first *)
Definition star_es : list proto_edge := [ ex_edge 1 10 20 2 None; ex_edge 2 10 30 3 None ].
Definition star : graph := Eval vm_compute in unok empty_graph (build ex_hav (ex_cfg false) 1 1 star_es ex_ns).

Example C61_logging_case : parse_logged true (build ex_hav (ex_cfg false) 1 1 ring_es ring_ns) = Ok ring /\
  parse_logged true (build ex_hav (ex_cfg false) 1 1 star_es ex_ns) = Panic.
Proof. split; vm_compute; reflexivity. Qed.

(** That every graph which can be parsed can be displayed is not so. *)
Theorem C61_always_refuted : exists es ns g, build ex_hav (ex_cfg false) 1 1 es ns = Ok g /\ display g = Panic /\
  forall e v, dst_idx g BWD e = Ok v -> v = 0.
Proof.
  exists star_es, ex_ns, star. split; [vm_compute; reflexivity|]. split; [vm_compute; reflexivity|].
  intros [|[|[|e]]] v H; vm_compute in H; congruence.
Qed.
Print Assumptions C61_always_refuted.
