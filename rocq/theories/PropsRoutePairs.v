(** Properties C35 and C36: files of route pairs *)
From Coq Require Import String Ascii List Bool Arith NArith ZArith QArith Lia Permutation.
From Verif Require Import Base F64 ModelText ModelApprox ModelUnits ModelConfig ModelGraph ModelBuild ModelDijkstra ModelBalancing ModelFmi ModelRoutePairs Lib
  ProofText ProofGraph Spec Examples ProofProps SpecRouting ProofDijkstra ProofRouting ExamplesRouting PropsGraph PropsRouting SpecBalancing PropsBalancing
  SpecFmi ProofFmi PropsFmi SpecRoutePairs ProofRoutePairs.
Import ListNotations.
Open Scope string_scope.
Open Scope list_scope.
Open Scope nat_scope.

(** *** C35 *)

(** a file announcing as many routes as it describes yields them in order;
    further lines are not read *)
Theorem C35_parse file ls ds pre front la data rs tail :
  file_of ls file -> interleaved ls ds -> header ds pre (front ++ [la]) (data ++ tail) ->
  announces la (N.of_nat (length rs)) -> Forall2 describes data rs ->
  (N.of_nat (length ds) + N.of_nat (length rs) <= U64_MAX)%N -> (N.of_nat (length rs) * 24 <= I64_MAX)%N ->
  parse_routes file = Ok rs.
Proof. exact (parse_routes_all file ls ds pre front la data rs tail). Qed.
Print Assumptions C35_parse.

(** nothing else is accepted: every announced line has to consist of three
    numbers *)
Theorem C35_lines file ls ds pre front la data tail rs :
  file_of ls file -> interleaved ls ds -> header ds pre (front ++ [la]) (data ++ tail) ->
  announces la (N.of_nat (length data)) ->
  (N.of_nat (length ds) + N.of_nat (length data) <= U64_MAX)%N -> (N.of_nat (length data) * 24 <= I64_MAX)%N ->
  (parse_routes file = Ok rs <-> Forall2 route_words data rs).
Proof. exact (parse_routes_iff file ls ds pre front la data tail rs). Qed.
Print Assumptions C35_lines.
Example C35_lines_case :
  route_words (T "+4 05 6") (4%Z, 5%Z, 6) /\ parse_routes (fmi_file [T "1"; T "+4 05 6"]) = Ok [(4%Z, 5%Z, 6)] /\
  (exists msg, parse_routes (fmi_file [T "1"; T "4 5 6 7"]) = Err msg) /\ ~ exists r, route_words (T "4 5 6 7") r.
Proof.
  split; [do 4 eexists; vm_compute; repeat split; reflexivity|]. split; [vm_compute; reflexivity|]. split; [eexists; vm_compute; reflexivity|].
  intros (r & a & b & c & n & H & _). vm_compute in H. discriminate.
Qed.

(** comments and empty lines change nothing *)
Theorem C35_noise file file' ls ls' ds :
  file_of ls file -> file_of ls' file' -> interleaved ls ds -> interleaved ls' ds -> parse_routes file = parse_routes file'.
Proof. intros F F' H H'. unfold parse_routes. now rewrite (functional_of _ _ _ F H), (functional_of _ _ _ F' H'). Qed.
Print Assumptions C35_noise.

Lemma route_line_words r : words (route_line r) = [show_Z (fst (fst r)); show_Z (snd (fst r)); show_nat (snd r)] /\ one_line (route_line r) /\
  is_line_functional (route_line r) = true.
Proof.
  destruct r as [[s d] n]. unfold route_line, show_nat. cbn [fst snd].
  assert (F : Forall plain [show_Z s; show_Z d; show_N (N.of_nat n)]) by (constructor; [apply show_Z_plain|constructor; [apply show_Z_plain|constructor; [apply show_N_plain|constructor]]]).
  split; [now apply words_spaced|]. split; [now apply printable_line, spaced_printable|].
  rewrite spaced_functional by apply show_Z_plain. apply show_Z_functional.
Qed.
Lemma strip_comment s l : noise (strip_cr (T (String "#" (String " " s)) ++ l)).
Proof.
  right. unfold T. cbn [list_ascii_of_string app]. set (m := list_ascii_of_string s ++ l). clearbody m. clear s l.
  change ("#"%char :: " "%char :: m) with (HASH :: SPACE :: m).
  unfold strip_cr. destruct (rev (HASH :: SPACE :: m)) as [|c r] eqn:E; [eauto|]. destruct (Ascii.eqb c CR); [|eauto].
  assert (Er : HASH :: SPACE :: m = rev r ++ [c]). { rewrite <- (rev_involutive (HASH :: SPACE :: m)), E. reflexivity. }
  destruct (rev r) as [|x y] eqn:Ey; [discriminate|]. injection Er as <- _. eauto.
Qed.
Lemma noise_skip l s : ~ In LF l -> noise (strip_cr l) -> functional_lines (line l ++ s) = functional_lines s.
Proof.
  intros Hn H. unfold functional_lines, line. rewrite <- app_assoc. change ([LF] ++ s) with (LF :: s). rewrite lines_app by auto. cbn [filter].
  apply noise_functional in H. now rewrite H.
Qed.
Lemma LF_plain l : plain l -> ~ In LF l.
Proof. intros [_ F] H. rewrite Forall_forall in F. exact (graphic_not_LF _ (F _ H) eq_refl). Qed.
Lemma no_LF a b : existsb (fun c => Ascii.eqb c LF) a = false -> ~ In LF b -> ~ In LF (a ++ b).
Proof.
  intros Ha Hb. rewrite in_app_iff. intros [H|H]; auto. rewrite <- not_true_iff_false in Ha. apply Ha. rewrite existsb_exists.
  exists LF. split; auto.
Qed.
Lemma no_LF_in a : existsb (fun c => Ascii.eqb c LF) a = false -> ~ In LF a.
Proof. intros H. rewrite <- (app_nil_r a). apply no_LF; auto. Qed.
Lemma routes_functional path nodes edges seed pairs : ~ In LF path ->
  functional_lines (routes_text path nodes edges seed pairs) = show_nat (length pairs) :: map (fun p => route_line (p, 1)) pairs.
Proof.
  intros Hp. unfold routes_text. cbn [map concat app].
  rewrite noise_skip; [|apply no_LF; [reflexivity|exact Hp]|apply strip_comment].
  rewrite noise_skip; [|apply no_LF; [reflexivity|apply LF_plain, show_N_plain]|apply strip_comment].
  rewrite noise_skip; [|apply no_LF; [reflexivity|apply LF_plain, show_N_plain]|apply strip_comment].
  rewrite noise_skip; [|intros []|now left].
  rewrite noise_skip; [|apply no_LF_in; reflexivity|rewrite <- (app_nil_r (T "# route-count")); apply strip_comment].
  unfold functional_lines at 1. rewrite lines_line by (apply printable_line, plain_printable, show_N_plain). cbn [filter].
  unfold show_nat at 1. rewrite show_N_functional. fold (show_nat (length pairs)). f_equal. change (filter is_line_functional (lines ?x)) with (functional_lines x).
  rewrite noise_skip; [|intros []|now left].
  rewrite noise_skip; [|apply no_LF_in; reflexivity|].
  2:{ rewrite <- (app_nil_r (T _)). apply strip_comment. }
  rewrite noise_skip; [|apply no_LF; [reflexivity|apply LF_plain, show_N_plain]|apply strip_comment].
  rewrite <- (app_nil_r (concat _)). rewrite functional_concat.
  - change (functional_lines []) with (@nil text). rewrite app_nil_r.
    induction pairs as [|p pairs IH]; auto. cbn [map filter]. rewrite (proj2 (proj2 (route_line_words (p, 1)))). now f_equal.
  - rewrite Forall_forall. intros l Hl. apply in_map_iff in Hl. destruct Hl as (p & <- & _). apply route_line_words.
Qed.

(** what is written is read *)
Theorem C35_round_trip path nodes edges seed pairs :
  ~ In LF path -> Forall (fun p => fits_i64 (fst p) /\ fits_i64 (snd p)) pairs -> (N.of_nat (length pairs) * 24 < 2 ^ 63)%N ->
  parse_routes (routes_text path nodes edges seed pairs) = Ok (map (fun p => (p, 1)) pairs).
Proof.
  intros Hp Hf Hl. set (file := routes_text _ _ _ _ _). pose proof (routes_functional path nodes edges seed pairs Hp) as Ef. fold file in Ef.
  apply (C35_parse file (lines file) (functional_lines file) [] [] (show_nat (length pairs)) (map (fun p => route_line (p, 1)) pairs) _ []).
  - apply (file_of_from file []). auto.
  - now apply interleaved_filter.
  - rewrite Ef, app_nil_r. split; [reflexivity|]. split; [discriminate|]. split; [constructor|]. split.
    + constructor; [|constructor]. exists (show_nat (length pairs)). apply (words_spaced [_]). constructor; [apply show_N_plain|constructor].
    + intros l rest El. destruct pairs as [|p pairs]; [discriminate|]. cbn [map] in El.
      assert (l = route_line (p, 1)) as -> by congruence. intros [w Hw]. rewrite (proj1 (route_line_words (p, 1))) in Hw. discriminate.
  - exists (show_nat (length pairs)). rewrite map_length. split.
    + apply (words_spaced [_]). constructor; [apply show_N_plain|constructor].
    + apply parse_usize_show. unfold U64_MAX. lia.
  - clear - Hf. induction Hf as [|p pairs [Ha Hb] F IH]; [constructor|]. cbn [map]. constructor; auto.
    split; [apply route_line_words|]. cbn [fst snd]. split; [auto|]. split; [auto|]. unfold fits_usize. vm_compute. reflexivity.
  - rewrite Ef. cbn [length]. rewrite !map_length. unfold U64_MAX. lia.
  - rewrite map_length. unfold I64_MAX. lia.
Qed.
Print Assumptions C35_round_trip.

Definition routes_case : list (Z * Z) := [(-9223372036854775808, 7); (3, 9223372036854775807)]%Z.
Example C35_case : ~ In LF (T "/maps/a b#.fmi") /\ Forall (fun p => fits_i64 (fst p) /\ fits_i64 (snd p)) routes_case /\
  (N.of_nat (length routes_case) * 24 < 2 ^ 63)%N /\
  parse_routes (fmi_file [T "# routes"; T " 2 "; T ""; T "4 -5  3"; T "#1 2 3"; T "  6 6 0 "; T "not read"]) = Ok [(4, -5, 3%nat); (6, 6, 0%nat)]%Z.
Proof.
  split; [simpl; intuition discriminate|]. split; [repeat constructor; discriminate|]. split; vm_compute; reflexivity.
Qed.

(** lines consisting of white space only are not ignored *)
Theorem C35_blank_refuted : exists a b ds,
  words (T " ") = [] /\ interleaved (a ++ b) ds /\ (exists rs, parse_routes (fmi_file (a ++ b)) = Ok rs) /\
  exists msg, parse_routes (fmi_file (a ++ T " " :: b)) = Err msg.
Proof.
  exists [T "1"], [T "4 5 6"]. eexists. split; [vm_compute; reflexivity|]. split; [apply interleaved_filter; reflexivity|].
  split; eexists; vm_compute; reflexivity.
Qed.
Print Assumptions C35_blank_refuted.

(** a map-file whose path contains a line feed spoils the written file *)
Theorem C35_path_refuted : exists path nodes edges seed pairs,
  Forall (fun p => fits_i64 (fst p) /\ fits_i64 (snd p)) pairs /\ pairs <> [] /\
  parse_routes (routes_text path nodes edges seed pairs) = Ok [].
Proof.
  exists (T "a" ++ LF :: T "0" ++ LF :: T "b c"), 2, 1, 0%N, [(1, 2)]%Z.
  split; [repeat constructor; discriminate|]. split; [discriminate|]. vm_compute. reflexivity.
Qed.
Print Assumptions C35_path_refuted.

(** *** C36 *)
Section Written.
  Variables (hav : coord -> coord -> f64) (c : cfg) (ch1 ch2 : nat) (es : list proto_edge) (ns : list proto_node) (g : graph).
  Hypotheses (H1 : 1 <= ch1) (H2 : 1 <= ch2) (E : build hav c ch1 ch2 es ns = Ok g) (Hn : node_count g <> 2).
  Hypothesis (Hnn : nonneg_metrics g).
  Variables (pick : nat -> list costnode -> nat) (dfuel : nat) (rc : routing_cfg) (sample : nat -> nat) (wanted fuel : nat).
  Hypothesis (Hv : valid_pick pick) (Hsample : forall k, sample k < node_count g).

  Lemma written_loop l : route_pairs pick dfuel sample fuel g rc wanted = Ok l ->
    0 < node_count g /\ (N.of_nat (node_count g) * N.of_nat (node_count g) <= U64_MAX)%N /\
    exists attempts processed st fi found, l = sort_pairs found /\
    loop_inv g pick dfuel rc sample (node_count g * node_count g <=? wanted) (Nat.min (node_count g * node_count g) wanted) attempts processed st fi found /\
    (length fi = Nat.min (node_count g * node_count g) wanted \/ node_count g * node_count g <= attempts).
  Proof using Hn Hsample.
    clear H1 H2 E Hnn Hv.
    intros Er. unfold route_pairs in Er. apply bind_ok in Er. destruct Er as (possible & Ep & Er). unfold mul_usize in Ep.
    destruct (N.leb_spec (N.of_nat (node_count g) * N.of_nat (node_count g)) U64_MAX); [|discriminate]. injection Ep as <-.
    apply bind_ok in Er. destruct Er as ([] & _ & Er). destruct (Nat.eqb_spec (node_count g) 0) as [|Hz]; [discriminate|].
    apply bind_ok in Er. destruct Er as (found & El & Er). injection Er as <-. split; [lia|]. split; [auto|].
    destruct (loop_spec g Hn pick dfuel rc sample _ _ Hsample fuel 0 [] dijkstra_new [] [] found ltac:(lia) (loop_inv_start g Hn _ _ _ _ _ _) El)
      as (attempts & processed & st & fi & Hinv & Hend).
    exists attempts, processed, st, fi, found. auto.
  Qed.

  Lemma answered_reaches s t : s < node_count g -> t < node_count g -> answered g pick dfuel rc (s, t) -> reaches g (rc_alphas rc) s t /\
    (rc_algo rc = ACHDijkstra -> reaches_ch g (rc_alphas rc) s t).
  Proof.
    intros Hs Ht (st' & q & Ea). cbn [fst snd] in Ea.
    destruct (C16_real_path _ _ _ _ _ _ _ _ _ _ _ _ _ _ _ H1 H2 E Hnn history_new (new_roomy g Hn) Hs Ht Hv Ea)
      as (_ & _ & _ & _ & _ & Hc & (q' & Hq) & Hud).
    split; [exists (p_edges q), q'; auto|]. intros Hal. exists (p_edges q), q'. auto.
  Qed.

  Lemma written_sound l : route_pairs pick dfuel sample fuel g rc wanted = Ok l ->
    ascending l /\ NoDup l /\ length l <= wanted /\
    forall p, In p l -> exists s t, pair_of g s t p /\ reaches g (rc_alphas rc) s t /\ (rc_algo rc = ACHDijkstra -> reaches_ch g (rc_alphas rc) s t).
  Proof.
    intros Er. destruct (written_loop l Er) as (Hpos & _ & attempts & processed & st & fi & found & -> & Hi & _).
    pose proof (found_nodup _ _ _ _ _ _ _ H1 H2 E fi found (li_ids _ _ _ _ _ _ _ _ _ _ _ _ Hi) (li_nodup _ _ _ _ _ _ _ _ _ _ _ _ Hi)) as Hnd.
    split; [now apply sort_pairs_ascending|]. split; [exact (Permutation_NoDup (sort_pairs_perm found) Hnd)|]. split.
    - rewrite <- (Permutation_length (sort_pairs_perm found)), <- (Forall2_len _ _ _ (li_ids _ _ _ _ _ _ _ _ _ _ _ _ Hi)).
      pose proof (li_count _ _ _ _ _ _ _ _ _ _ _ _ Hi). lia.
    - intros p Hp. apply (Permutation_in _ (Permutation_sym (sort_pairs_perm found))) in Hp.
      apply In_nth_error in Hp. destruct Hp as [i Hp].
      assert (G : exists x, In x fi /\ pair_of g (fst x) (snd x) p).
      { pose proof (li_ids _ _ _ _ _ _ _ _ _ _ _ _ Hi) as F. clear - F Hp. revert i Hp. induction F as [|x q fi found Hx F IH]; intros i Hp; [destruct i; discriminate|].
        destruct i as [|i]; [injection Hp as ->; exists x; split; [now left|auto]|]. destruct (IH i Hp) as (y & Hy & Hq). exists y. split; [now right|auto]. }
      destruct G as ([s t] & Hx & Hpo). exists s, t. cbn [fst snd] in Hpo. split; [auto|].
      destruct Hpo as (Hs & Ht & _). apply answered_reaches; auto. exact (li_found _ _ _ _ _ _ _ _ _ _ _ _ Hi _ Hx).
  Qed.

  Lemma written_complete l : route_pairs pick dfuel sample fuel g rc wanted = Ok l -> node_count g * node_count g <= wanted ->
    forall s t p, pair_of g s t p -> In p l \/ unanswered g pick dfuel rc (s, t).
  Proof using Hn Hsample.
    clear H1 H2 E Hnn Hv.
    intros Er Hw s t p Hp. destruct (written_loop l Er) as (Hpos & _ & attempts & processed & st & fi & found & -> & Hi & Hend).
    assert (Hall : (node_count g * node_count g <=? wanted) = true) by (now apply Nat.leb_le). rewrite Hall in Hi.
    rewrite Nat.min_l in Hi, Hend by lia. destruct Hp as (Hs & Ht & Hne & Es & Et). set (n := node_count g) in *.
    assert (Hin : In (s, t) fi \/ unanswered g pick dfuel rc (s, t)).
    { destruct Hend as [Hlen|Hend].
      - assert (Hincl : incl (list_prod (seq 0 n) (seq 0 n)) fi).
        { apply NoDup_length_incl; [apply (li_nodup _ _ _ _ _ _ _ _ _ _ _ _ Hi)|rewrite prod_length, seq_length; lia|].
          intros [a b] Hab. pose proof (li_ids _ _ _ _ _ _ _ _ _ _ _ _ Hi) as F. clear - F Hab. apply in_prod_iff. rewrite !in_seq.
          assert (exists q, pair_of g a b q) as (q & A & B & _); [|unfold n; lia].
          induction F as [|x q fi found Hx F IH]; [destruct Hab|]. destruct Hab as [->|Hab]; [exists q; exact Hx|auto]. }
        left. apply Hincl, in_prod_iff. rewrite !in_seq. lia.
      - apply (li_all _ _ _ _ _ _ _ _ _ _ _ _ Hi); auto. apply (li_processed _ _ _ _ _ _ _ _ _ _ _ _ Hi). exists (s * n + t). split; [nia|].
        unfold next_pair. fold n. rewrite Nat.div_add_l, Nat.div_small, Nat.add_0_r by lia. rewrite Nat.add_comm, Nat.mod_add, Nat.mod_small by lia. reflexivity. }
    destruct Hin as [Hin|Hun]; [left|now right]. apply (Permutation_in _ (sort_pairs_perm found)).
    pose proof (li_ids _ _ _ _ _ _ _ _ _ _ _ _ Hi) as F. clear - F Hin Es Et. induction F as [|x q fi found Hx F IH]; [destruct Hin|].
    destruct Hin as [->|Hin]; [|right; auto]. left. destruct Hx as (_ & _ & _ & A & B). cbn [fst snd] in A, B. destruct p, q. cbn [fst snd] in *. congruence.
  Qed.
End Written.

(** the written pairs are ids of different nodes, the second being reachable
    from the first; no pair is written twice, at most as many as wanted *)
Theorem C36_pairs hav c ch1 ch2 es ns g pick dfuel rc sample wanted fuel l :
  1 <= ch1 -> 1 <= ch2 -> build hav c ch1 ch2 es ns = Ok g -> node_count g <> 2 -> nonneg_metrics g ->
  valid_pick pick -> (forall k, sample k < node_count g) ->
  route_pairs pick dfuel sample fuel g rc wanted = Ok l ->
  ascending l /\ NoDup l /\ length l <= wanted /\
  forall p, In p l -> exists s t, pair_of g s t p /\ reaches g (rc_alphas rc) s t /\ (rc_algo rc = ACHDijkstra -> reaches_ch g (rc_alphas rc) s t).
Proof.
  intros H1 H2 E Hn Hnn Hv Hs Er. exact (written_sound hav c ch1 ch2 es ns g H1 H2 E Hn Hnn pick dfuel rc sample wanted fuel Hv Hs l Er).
Qed.
Print Assumptions C36_pairs.

(** if all pairs are wanted, all pairs with a path are written *)
Theorem C36_complete hav c ch1 ch2 es ns g pick dfuel rc sample wanted fuel l :
  1 <= ch1 -> 1 <= ch2 -> build hav c ch1 ch2 es ns = Ok g -> node_count g <> 2 -> nonneg_metrics g ->
  Forall not_negative (rc_alphas rc) ->
  valid_pick pick -> (forall k, sample k < node_count g) ->
  route_pairs pick dfuel sample fuel g rc wanted = Ok l -> node_count g * node_count g <= wanted ->
  forall s t p, pair_of g s t p ->
    (rc_algo rc = ADijkstra -> reaches g (rc_alphas rc) s t -> In p l) /\
    (rc_algo rc = ACHDijkstra -> reaches_ch g (rc_alphas rc) s t -> In p l).
Proof.
  intros H1 H2 E Hn Hnn Ha Hv Hs Er Hw s t p Hp. pose proof Hp as (Hps & Hpt & _).
  destruct (written_complete g Hn pick dfuel rc sample wanted fuel Hs l Er Hw s t p Hp) as [Hin|[st Ec]]; [auto|]. cbn [fst snd] in Ec.
  split; intros Hal Hr; exfalso.
  - exact (proj1 (C17_found_iff _ _ _ _ _ _ _ _ _ _ _ _ _ _ _ H1 H2 E Hnn history_new (new_roomy g Hn) Hps Hpt Ha Hv Hal Ec) eq_refl Hr).
  - exact (proj1 (C17_found_iff_ch _ _ _ _ _ _ _ _ _ _ _ _ _ _ _ H1 H2 E Hnn history_new (new_roomy g Hn) Hps Hpt Ha Hv Hal Ec) eq_refl Hr).
Qed.
Print Assumptions C36_complete.

(** writing ends *)
Theorem C36_terminates hav c ch1 ch2 es ns g pick dfuel rc sample wanted fuel :
  1 <= ch1 -> 1 <= ch2 -> build hav c ch1 ch2 es ns = Ok g -> node_count g <> 2 -> nonneg_metrics g ->
  valid_pick pick -> (forall k, sample k < node_count g) ->
  2 + 2 * powers (edge_count g FWD) (node_count g) <= dfuel -> node_count g * node_count g < fuel ->
  route_pairs pick dfuel sample fuel g rc wanted <> Diverge.
Proof.
  intros H1 H2 E Hn Hnn Hv Hs Hd Hf. unfold route_pairs, mul_usize. destruct (N.leb _ U64_MAX); [|discriminate]. cbn [bind].
  unfold with_capacity. destruct (N.leb _ I64_MAX); [|discriminate]. cbn [bind]. destruct (Nat.eqb_spec (node_count g) 0) as [|Hz]; [discriminate|].
  set (all := _ <=? wanted). set (m := Nat.min _ wanted).
  assert (G : pairs_loop pick dfuel sample fuel g rc all (node_count g) m 0 0 [] dijkstra_new [] <> Diverge).
  { apply loop_ends; auto; [|split; [constructor|unfold capacity; simpl; lia]|lia|lia]. intros st s t [Hh _] Hss Htt.
    refine (C22_terminates hav c ch1 ch2 es ns g pick dfuel st rc s t H1 H2 E Hnn Hh _ Hss Htt Hv Hd). intros Ec. congruence. }
  destruct (pairs_loop _ _ _ _ _ _ _ _ _ _ _ _ _ _); try discriminate. congruence.
Qed.
Print Assumptions C36_terminates.

(** ... successfully, unless one of the panics of the searches or the writer is
    hit; see [C36_no_panic_refuted] *)
Theorem C36_total_partial hav c ch1 ch2 es ns g pick dfuel rc sample wanted fuel :
  1 <= ch1 -> 1 <= ch2 -> build hav c ch1 ch2 es ns = Ok g -> nonneg_metrics g -> last_node_connected g ->
  node_count g <> 0 -> node_count g <> 2 -> (N.of_nat (node_count g) < 2 ^ 29)%N ->
  Forall not_negative (rc_alphas rc) -> (forall i, rc_algo rc <> AExplorator i) ->
  valid_pick pick -> (forall k, sample k < node_count g) ->
  2 + 2 * powers (edge_count g FWD) (node_count g) <= dfuel -> node_count g * node_count g < fuel ->
  exists l, route_pairs pick dfuel sample fuel g rc wanted = Ok l.
Proof.
  intros H1 H2 E Hnn Hl Hz Hn Hsize Ha Hal Hv Hs Hd Hf.
  assert (Hsq : (N.of_nat (node_count g) * N.of_nat (node_count g) <= 2 ^ 58)%N).
  { change (2 ^ 58)%N with (2 ^ 29 * 2 ^ 29)%N. apply N.mul_le_mono; lia. }
  unfold route_pairs, mul_usize. destruct (N.leb_spec (N.of_nat (node_count g) * N.of_nat (node_count g)) U64_MAX) as [_|X]; [|unfold U64_MAX in X; lia].
  cbn [bind]. unfold with_capacity.
  destruct (N.leb_spec (N.of_nat (Nat.min (node_count g * node_count g) wanted) * 16) I64_MAX) as [_|X].
  2:{ exfalso. assert (N.of_nat (Nat.min (node_count g * node_count g) wanted) <= N.of_nat (node_count g) * N.of_nat (node_count g))%N.
      { rewrite <- Nat2N.inj_mul. lia. }
      unfold I64_MAX in X. lia. }
  cbn [bind]. destruct (Nat.eqb_spec (node_count g) 0) as [|_]; [contradiction|].
  set (all := _ <=? wanted). set (m := Nat.min _ wanted).
  destruct (loop_total g Hn pick dfuel rc sample all m Hs fuel 0 0 [] dijkstra_new []) as (r & ->); [|split; [constructor|unfold capacity; simpl; lia]|lia|lia|cbn [bind]; eauto].
  intros st s t [Hh Hcap] Hss Htt. refine (C17_total_partial hav c ch1 ch2 es ns g pick dfuel st rc s t H1 H2 E Hnn Hl Hh _ (fun _ => Hcap) Hss Htt Ha Hal Hv Hd). intros Ec. congruence.
Qed.
Print Assumptions C36_total_partial.

(** the file's contents are read as the pairs *)
Theorem C36_file pick dfuel sample fuel g rc path seed wanted file :
  ~ In LF path -> Forall fits_i64 (node_ids g) -> (N.of_nat wanted * 24 < 2 ^ 63)%N ->
  (forall l, route_pairs pick dfuel sample fuel g rc wanted = Ok l -> length l <= wanted /\ forall p, In p l -> exists s t, pair_of g s t p) ->
  write_routes pick dfuel sample fuel g rc path seed wanted = Ok file ->
  exists l, route_pairs pick dfuel sample fuel g rc wanted = Ok l /\ parse_routes file = Ok (map (fun p => (p, 1)) l).
Proof.
  intros Hp Hid Hw Hl Ew. unfold write_routes in Ew. apply bind_ok in Ew. destruct Ew as (l & El & Ew). injection Ew as <-.
  exists l. split; auto. destruct (Hl l El) as [Hlen Hin]. apply C35_round_trip; auto; [|lia].
  rewrite Forall_forall in *. intros p Hpl. destruct (Hin p Hpl) as (s & t & _ & _ & _ & Es & Et).
  apply idx_ok, nth_error_In in Es, Et. auto.
Qed.
Print Assumptions C36_file.

(** *** Examples *)
(** the graphs without nodes and with two nodes let the writer panic *)
Definition no_node_graph : graph := Eval vm_compute in
  match build ex_hav (ex_cfg false) 1 1 [] [] with Ok g => g | _ => pair_graph end.
Theorem C36_no_panic_refuted :
  (exists hav c es ns g, build hav c 1 1 es ns = Ok g /\
     forall pick dfuel sample fuel rc wanted, route_pairs pick dfuel sample fuel g rc wanted = Panic) /\
  (exists hav c es ns g rc, build hav c 1 1 es ns = Ok g /\ node_count g = 2 /\ last_node_connected g /\ nonneg_metrics g /\
     (exists l, connects g 0 l 1) /\
     forall pick dfuel sample fuel wanted, 4 <= wanted -> 2 <= fuel -> route_pairs pick dfuel sample fuel g rc wanted = Panic).
Proof.
  split.
  - exists ex_hav, (ex_cfg false), [], [], no_node_graph. split; [vm_compute; reflexivity|]. intros. vm_compute. reflexivity.
  - exists ex_hav, (ex_cfg false), pair_es, pair_ns, pair_graph, (ex_rc ADijkstra [Fin 1]). split; [exact pair_build|]. split; [reflexivity|].
    split; [apply last_connected_of; [exists 1, 1, 0|exists 0, 0, 1]; (split; [split; reflexivity|vm_compute; lia])|].
    split; [apply nonneg_of_list; vm_compute; repeat constructor; discriminate|].
    split; [exists [0]; econstructor; [split; reflexivity|constructor]|].
    intros pick dfuel sample fuel wanted Hw Hf. unfold route_pairs. change (mul_usize (node_count pair_graph) (node_count pair_graph)) with (Ok 4).
    cbn [bind]. rewrite Nat.min_l by lia. destruct (Nat.leb_spec 4 wanted); [|lia]. destruct fuel as [|[|fuel]]; [lia|lia|]. reflexivity.
Qed.
Print Assumptions C36_no_panic_refuted.

(** all pairs; three of them at random *)
Example C36_case :
  route_pairs lifo_pick 50 (fun _ => 0) 30 rt_graph (ex_rc ADijkstra [Fin 1]) 30 =
    Ok [(0, 1); (0, 2); (0, 3); (0, 4); (1, 2); (1, 3); (1, 4); (2, 3); (2, 4); (3, 2); (3, 4); (4, 2); (4, 3)]%Z /\
  route_pairs lifo_pick 50 (fun k => (k * k + 4) mod 5) 30 rt_graph (ex_rc ACHDijkstra [Fin 1]) 2 = Ok [(0, 3); (0, 4)]%Z /\
  node_count rt_graph <> 2 /\ nonneg_metrics rt_graph /\ last_node_connected rt_graph /\ valid_pick lifo_pick /\
  (forall k, (k * k + 4) mod 5 < node_count rt_graph).
Proof.
  split; [vm_compute; reflexivity|]. split; [vm_compute; reflexivity|]. split; [discriminate|]. split; [apply rt_nonneg|]. split; [apply C17_total_case|].
  split; [apply lifo_valid|]. intros k. apply Nat.mod_upper_bound. discriminate.
Qed.
