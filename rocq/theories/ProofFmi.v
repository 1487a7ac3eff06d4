(** Lemmas about the parsers of text files *)
From Coq Require Import String Ascii List Bool Arith NArith ZArith Lia.
From Verif Require Import Base F64 ModelText ModelUnits ModelConfig ModelGraph ModelBuild ModelParsing ModelFmi Lib ProofText SpecFmi.
Import ListNotations.
Open Scope string_scope.
Open Scope list_scope.
Open Scope nat_scope.

(** *** Lines *)
Lemma strip_cr_id l : (forall l', l <> l' ++ [CR]) -> strip_cr l = l.
Proof.
  intros H. unfold strip_cr. destruct (rev l) as [|c r] eqn:E; auto. destruct (Ascii.eqb_spec c CR) as [->|]; auto.
  exfalso. apply (H (rev r)). rewrite <- (rev_involutive l), E. reflexivity.
Qed.
Lemma strip_cr_app l : strip_cr (l ++ [CR]) = l.
Proof. unfold strip_cr. rewrite rev_app_distr. cbn [rev app]. rewrite Ascii.eqb_refl. apply rev_involutive. Qed.
Lemma lines_last l : ~ In LF l -> forall cur, lines_from cur l = match cur ++ l with [] => [] | _ => [cur ++ l] end.
Proof.
  induction l as [|c l IH]; intros Hn cur; [simpl; now rewrite app_nil_r|]. cbn [lines_from].
  destruct (Ascii.eqb_spec c LF) as [->|]; [destruct Hn; now left|]. rewrite IH by (intros H; apply Hn; now right).
  now rewrite <- app_assoc.
Qed.
Lemma file_of_lines ls file : file_of ls file -> lines file = ls.
Proof.
  induction 1 as [|l Hne Hn|l ls file Hn Hc F IH|l ls file Hn F IH].
  - reflexivity.
  - unfold lines. rewrite lines_last by auto. simpl. destruct l; congruence.
  - rewrite lines_app by auto. rewrite strip_cr_id by auto. now f_equal.
  - change (l ++ CR :: LF :: file) with (l ++ [CR] ++ LF :: file). rewrite app_assoc, lines_app.
    + rewrite strip_cr_app. now f_equal.
    + rewrite in_app_iff. intros [H|[H|[]]]; [auto|discriminate H].
Qed.
Lemma file_of_from s : forall cur, ~ In LF cur -> file_of (lines_from cur s) (cur ++ s).
Proof.
  induction s as [|c s IH]; intros cur Hn.
  - rewrite app_nil_r. cbn [lines_from]. destruct cur; [constructor|]. apply file_last; [discriminate|auto].
  - cbn [lines_from]. destruct (Ascii.eqb_spec c LF) as [->|Hc].
    + unfold strip_cr. destruct (rev cur) as [|d r] eqn:E.
      * apply file_lf; [auto| |exact (IH [] (fun H => H))]. intros l' ->. rewrite rev_app_distr in E. discriminate.
      * destruct (Ascii.eqb_spec d CR) as [->|Hd].
        -- assert (Ec : cur = rev r ++ [CR]) by (rewrite <- (rev_involutive cur), E; reflexivity).
           replace (cur ++ LF :: s) with (rev r ++ CR :: LF :: s) by (rewrite Ec, <- app_assoc; reflexivity).
           apply file_crlf; [|exact (IH [] (fun H => H))]. intros H. apply Hn. rewrite Ec, in_app_iff. now left.
        -- apply file_lf; [auto| |exact (IH [] (fun H => H))]. intros l' ->. rewrite rev_app_distr in E. injection E as <- _. congruence.
    + replace (cur ++ c :: s) with ((cur ++ [c]) ++ s) by (now rewrite <- app_assoc). apply IH.
      rewrite in_app_iff. intros [H|[H|[]]]; congruence.
Qed.

Lemma noise_functional l : noise l <-> is_line_functional l = false.
Proof.
  unfold noise, is_line_functional. destruct l as [|c l]; [split; auto|]. rewrite negb_false_iff, Ascii.eqb_eq. split.
  - intros [H|[r H]]; congruence.
  - intros ->. right. eauto.
Qed.
Lemma interleaved_filter ls ds : interleaved ls ds <-> filter is_line_functional ls = ds.
Proof.
  split.
  - induction 1 as [|l ls ds Hl H IH|l ls ds Hl H IH]; auto; cbn [filter].
    + apply noise_functional in Hl. now rewrite Hl.
    + rewrite noise_functional, not_false_iff_true in Hl. rewrite Hl. congruence.
  - intros <-. induction ls as [|l ls IH]; [constructor|]. cbn [filter]. destruct (is_line_functional l) eqn:E.
    + apply inter_data; auto. rewrite noise_functional. congruence.
    + apply inter_noise; auto. now apply noise_functional.
Qed.
Lemma functional_of file ls ds : file_of ls file -> interleaved ls ds -> functional_lines file = ds.
Proof. intros F H. unfold functional_lines. rewrite (file_of_lines _ _ F). now apply interleaved_filter. Qed.

(** *** Counts *)
Lemma single_dec l : {w | words l = [w]} + {~ single l}.
Proof.
  destruct (words l) as [|w [|]] eqn:E; [right|left; eauto|right]; intros [v Hv]; congruence.
Qed.
Lemma take_counts_pre pre ls : Forall (fun l => ~ single l) pre ->
  forall k cs, take_counts false k cs (pre ++ ls) = take_counts false (k + length pre) cs ls.
Proof.
  induction 1 as [|l pre Hl F IH]; intros k cs; [simpl; now rewrite Nat.add_0_r|].
  change ((l :: pre) ++ ls) with (l :: pre ++ ls). cbn [take_counts length].
  destruct (words l) as [|w [|]] eqn:E; try (rewrite IH; f_equal; lia). exfalso. apply Hl. now exists w.
Qed.
(** the numbers of the header's lines *)
Definition counts_of (hs : list text) : list N :=
  flat_map (fun l => match words l with [w] => match parse_usize w with Some n => [n] | None => [] end | _ => [] end) hs.
Lemma take_counts_header hs ls : Forall single hs ->
  forall t k cs, take_counts t k cs (hs ++ ls) = take_counts (t || (0 <? length hs)) (k + length hs) (cs ++ counts_of hs) ls.
Proof.
  induction 1 as [|l hs [w Hw] F IH]; intros t k cs.
  - simpl. now rewrite orb_false_r, Nat.add_0_r, app_nil_r.
  - change ((l :: hs) ++ ls) with (l :: hs ++ ls). cbn [take_counts length counts_of flat_map]. rewrite Hw, IH.
    change (0 <? S (length hs)) with true. rewrite orb_true_r. cbn [orb]. f_equal; [lia|]. fold (counts_of hs).
    destruct (parse_usize w); [now rewrite <- app_assoc|reflexivity].
Qed.
Lemma take_counts_stop data : (forall l rest, data = l :: rest -> ~ single l) -> forall k cs, take_counts true k cs data = (k, cs).
Proof.
  intros H k cs. destruct data as [|l rest]; auto. cbn [take_counts]. specialize (H l rest eq_refl).
  destruct (words l) as [|w [|]] eqn:E; auto. exfalso. apply H. now exists w.
Qed.
Lemma take_counts_all ds pre hs data : header ds pre hs data ->
  take_counts false 0 [] ds = (length pre + length hs, counts_of hs).
Proof.
  intros (-> & Hne & Fp & Fh & Hd). rewrite take_counts_pre by auto. rewrite take_counts_header by auto.
  destruct hs as [|h hs]; [congruence|]. change (false || (0 <? length (h :: hs))) with true. now rewrite take_counts_stop by auto.
Qed.
Lemma counts_of_app a b : counts_of (a ++ b) = counts_of a ++ counts_of b.
Proof. apply flat_map_app. Qed.
Lemma counts_of_announced l n : announces l n -> counts_of [l] = [n].
Proof. intros (w & Hw & Hn). unfold counts_of. simpl. now rewrite Hw, Hn. Qed.

(** *** Ranges *)
Lemma parse_lines_none {A} (f : text -> res A) r ls : forall k, (snd r <= N.of_nat k)%N -> parse_lines f r k ls = Ok [].
Proof.
  induction ls as [|l ls IH]; intros k H; auto. cbn [parse_lines]. unfold in_range.
  destruct (N.ltb_spec (N.of_nat k) (snd r)); [lia|]. rewrite andb_false_r. apply IH. lia.
Qed.
Lemma parse_lines_later {A} (f : text -> res A) a stop ls : forall k, S a <= k ->
  parse_lines f (N.of_nat a, stop) k ls = parse_lines f (N.of_nat (S a), stop) k ls.
Proof.
  induction ls as [|l ls IH]; intros k Hk; auto. cbn [parse_lines]. unfold in_range. cbn [fst snd].
  destruct (N.leb_spec (N.of_nat a) (N.of_nat k)); [|lia]. destruct (N.leb_spec (N.of_nat (S a)) (N.of_nat k)); [|lia].
  rewrite !IH by lia. reflexivity.
Qed.
Lemma parse_lines_range {A} (f : text -> res A) a n ls : forall k, k <= a ->
  parse_lines f (N.of_nat a, (N.of_nat a + n)%N) k ls = mapM f (firstn (N.to_nat n) (skipn (a - k) ls)).
Proof.
  revert a n. induction ls as [|l ls IH]; intros a n k H; [now rewrite skipn_nil, firstn_nil|].
  cbn [parse_lines]. unfold in_range. cbn [fst snd]. destruct (N.leb_spec (N.of_nat a) (N.of_nat k)) as [Hk|Hk].
  - assert (k = a) as -> by lia. rewrite Nat.sub_diag. cbn [skipn]. destruct (N.ltb_spec (N.of_nat a) (N.of_nat a + n)) as [Hn|Hn]; cbn [andb].
    + destruct (N.to_nat n) as [|n'] eqn:En; [lia|]. cbn [firstn mapM].
      assert (G : parse_lines f (N.of_nat a, (N.of_nat a + n)%N) (S a) ls = mapM f (firstn n' ls)); [|now rewrite G].
      specialize (IH (S a) (N.of_nat n') (S a) (Nat.le_refl _)). rewrite Nat.sub_diag in IH. cbn [skipn] in IH. rewrite Nat2N.id in IH. rewrite <- IH.
      replace (N.of_nat (S a) + N.of_nat n')%N with (N.of_nat a + n)%N by lia.
      apply parse_lines_later. lia.
    + assert (n = 0%N) as -> by lia. cbn [N.to_nat firstn mapM]. apply parse_lines_none. simpl. lia.
  - cbn [andb]. rewrite IH by lia. replace (a - k) with (S (a - S k)) by lia. reflexivity.
Qed.
Lemma skipn_skipn' {A} (l : list A) : forall a b, skipn a (skipn b l) = skipn (b + a) l.
Proof. induction l as [|x l IH]; intros a b; [now rewrite !skipn_nil|]. destruct b; [reflexivity|]. cbn [skipn Nat.add]. apply IH. Qed.
