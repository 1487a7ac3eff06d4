(** Lemmas about the text functions *)
From Coq Require Import String Ascii List Bool Arith NArith ZArith Lia.
From Verif Require Import Base ModelText.
Import ListNotations.
Open Scope list_scope.
Open Scope nat_scope.

Lemma text_eqb_eq a : forall b, text_eqb a b = true <-> a = b.
Proof.
  induction a as [|x a IH]; intros [|y b]; simpl; try (split; [discriminate|congruence]); [tauto|].
  rewrite andb_true_iff, Ascii.eqb_eq, IH. split; [intros [-> ->]; auto|intros H; injection H; auto].
Qed.

(** *** Lines *)
Lemma lines_from_app l : forall cur s, ~ In LF l -> lines_from cur (l ++ LF :: s) = strip_cr (cur ++ l) :: lines_from [] s.
Proof.
  induction l as [|c l IH]; intros cur s Hn; [simpl; now rewrite app_nil_r|]. cbn [app lines_from].
  destruct (Ascii.eqb_spec c LF) as [->|Hc]; [destruct Hn; simpl; auto|]. rewrite IH by (simpl in Hn; tauto). now rewrite <- app_assoc.
Qed.
Lemma lines_app l s : ~ In LF l -> lines (l ++ LF :: s) = strip_cr l :: lines s.
Proof. intros H. unfold lines. now rewrite lines_from_app. Qed.

(** a text that is one line *)
Definition one_line (l : text) : Prop := ~ In LF l /\ strip_cr l = l.
Lemma lines_line l s : one_line l -> lines (line l ++ s) = l :: lines s.
Proof. intros [H E]. unfold line. rewrite <- app_assoc. change ([LF] ++ s) with (LF :: s). now rewrite lines_app, E. Qed.
Lemma lines_concat ls : Forall one_line ls -> forall s, lines (concat (map line ls) ++ s) = ls ++ lines s.
Proof. induction 1 as [|l ls Hl F IH]; intros s; auto. simpl. now rewrite <- app_assoc, lines_line, IH. Qed.
Lemma functional_concat ls s : Forall one_line ls ->
  functional_lines (concat (map line ls) ++ s) = filter is_line_functional ls ++ functional_lines s.
Proof. intros F. unfold functional_lines. rewrite lines_concat by auto. apply filter_app. Qed.

(** *** Words *)

(** printable characters, none of which starts a white space *)
Definition graphic (c : ascii) : Prop := 33 <= nat_of_ascii c <= 126.
Definition plain (w : text) : Prop := w <> [] /\ Forall graphic w.

Lemma white_graphic c s : graphic c -> white white_spaces (c :: s) = 0.
Proof.
  intros H. unfold graphic in H. unfold white_spaces. cbn [white starts_with length].
  repeat match goal with |- context [nat_of_ascii c =? ?k] => destruct (Nat.eqb_spec (nat_of_ascii c) k); [lia|] end. reflexivity.
Qed.
Lemma white_space_char s : white white_spaces (SPACE :: s) = 1.
Proof. reflexivity. Qed.

Lemma words_from_graphic w : Forall graphic w -> forall cur s, words_from 0 cur (w ++ s) = words_from 0 (cur ++ w) s.
Proof.
  induction 1 as [|c w Hc F IH]; intros cur s; [simpl; now rewrite app_nil_r|].
  change ((c :: w) ++ s) with (c :: w ++ s). cbn [words_from]. rewrite white_graphic by auto. rewrite IH. now rewrite <- app_assoc.
Qed.
Lemma words_spaced ws : Forall plain ws -> words (spaced ws) = ws.
Proof.
  unfold words. induction 1 as [|w ws [Hne Hw] F IH]; [reflexivity|]. destruct ws as [|v ws].
  - cbn [spaced]. rewrite <- (app_nil_r w) at 1. rewrite words_from_graphic by auto. simpl. destruct w; [congruence|reflexivity].
  - change (spaced (w :: v :: ws)) with (w ++ SPACE :: spaced (v :: ws)). rewrite words_from_graphic by auto.
    cbn [words_from app]. rewrite white_space_char. destruct w as [|c w]; [congruence|]. now rewrite IH.
Qed.

Lemma graphic_not_LF c : graphic c -> c <> LF.
Proof. intros H ->. unfold graphic in H. vm_compute in H. lia. Qed.
Lemma graphic_not_CR c : graphic c -> c <> CR.
Proof. intros H ->. unfold graphic in H. vm_compute in H. lia. Qed.

(** a line of printable characters and spaces *)
Definition printable (c : ascii) : Prop := graphic c \/ c = SPACE.
Lemma printable_line l : Forall printable l -> one_line l.
Proof.
  intros F. rewrite Forall_forall in F. split.
  - intros H. destruct (F _ H) as [G|G]; [now apply graphic_not_LF in G|discriminate G].
  - unfold strip_cr. destruct (rev l) as [|c r] eqn:E; auto. destruct (Ascii.eqb_spec c CR) as [->|_]; auto. exfalso.
    destruct (F CR) as [G|G]; [apply in_rev; rewrite E; simpl; auto| |discriminate G]. now apply graphic_not_CR in G.
Qed.
Lemma plain_printable w : plain w -> Forall printable w.
Proof. intros [_ F]. eapply Forall_impl; [|exact F]. intros c Hc. now left. Qed.
Lemma spaced_printable ws : Forall plain ws -> Forall printable (spaced ws).
Proof.
  induction 1 as [|w ws Hw F IH]; [constructor|]. destruct ws as [|v ws]; [now apply plain_printable|].
  change (spaced (w :: v :: ws)) with (w ++ SPACE :: spaced (v :: ws)).
  apply Forall_app. split; [now apply plain_printable|]. constructor; [now right|auto].
Qed.
(** the line's first word decides whether it is functional *)
Lemma spaced_functional w ws : w <> [] -> is_line_functional (spaced (w :: ws)) = is_line_functional w.
Proof. intros Hw. destruct w as [|c w]; [congruence|]. destruct ws; reflexivity. Qed.

(** *** Numbers *)
Lemma digit_char_nat d : (d < 10)%N -> nat_of_ascii (digit_char d) = 48 + N.to_nat d.
Proof. intros H. unfold digit_char. apply nat_ascii_embedding. lia. Qed.
Lemma digit_char_digit d : (d < 10)%N -> digit (digit_char d) = Some d.
Proof.
  intros H. unfold digit. rewrite digit_char_nat by auto.
  destruct (Nat.leb_spec 48 (48 + N.to_nat d)); [|lia]. destruct (Nat.leb_spec (48 + N.to_nat d) 57); [|lia]. cbn [andb].
  f_equal. lia.
Qed.
Lemma digit_char_graphic d : (d < 10)%N -> graphic (digit_char d).
Proof. intros H. unfold graphic. rewrite digit_char_nat by auto. lia. Qed.

(** a digit *)
Definition is_digit (c : ascii) : Prop := exists d, digit c = Some d.

Lemma show_digits_all fuel : forall n, (n < 10 ^ N.of_nat (S fuel))%N -> Forall (fun c => exists d, (d < 10)%N /\ c = digit_char d) (show_digits fuel n).
Proof.
  induction fuel as [|fu IH]; intros n H; cbn [show_digits].
  - constructor; [|constructor]. exists n. split; [exact H|reflexivity].
  - destruct (N.ltb_spec n 10); [constructor; [exists n; auto|constructor]|].
    apply Forall_app. split.
    + apply IH. apply N.div_lt_upper_bound; [lia|]. rewrite <- N.pow_succ_r'. rewrite <- Nat2N.inj_succ. exact H.
    + constructor; [|constructor]. exists (n mod 10)%N. split; auto. apply N.mod_lt. lia.
Qed.
Lemma size_bound n : (n < 10 ^ N.of_nat (S (N.to_nat (N.size n))))%N.
Proof.
  rewrite Nat2N.inj_succ, N2Nat.id. pose proof (N.size_gt n).
  assert (2 ^ N.size n <= 10 ^ N.size n)%N by (apply N.pow_le_mono_l; lia).
  assert (10 ^ N.size n < 10 ^ N.succ (N.size n))%N by (apply N.pow_lt_mono_r; lia). lia.
Qed.
Lemma show_N_all n : Forall (fun c => exists d, (d < 10)%N /\ c = digit_char d) (show_N n).
Proof. apply show_digits_all, size_bound. Qed.
Lemma show_digits_ne fuel n : show_digits fuel n <> [].
Proof. destruct fuel; simpl; [discriminate|]. destruct (N.ltb _ _); [discriminate|]. intros H. apply app_eq_nil in H. destruct H. discriminate. Qed.
Lemma show_N_ne n : show_N n <> [].
Proof. apply show_digits_ne. Qed.
Lemma show_N_plain n : plain (show_N n).
Proof.
  split; [apply show_N_ne|]. eapply Forall_impl; [|apply show_N_all]. intros c (d & Hd & ->). now apply digit_char_graphic.
Qed.

(** reading digits from left to right *)
Lemma digits_value_app max a : forall acc b, digits_value max acc (a ++ b) =
  match digits_value max acc a with Some v => digits_value max v b | None => None end.
Proof.
  induction a as [|c a IH]; intros acc b; auto. cbn [app digits_value]. destruct (digit c); auto. destruct (N.leb _ _); auto.
Qed.
Lemma digits_show max fuel : forall n, (n < 10 ^ N.of_nat (S fuel))%N -> (n <= max)%N -> digits_value max 0 (show_digits fuel n) = Some n.
Proof.
  assert (G : forall n, (n < 10)%N -> (n <= max)%N -> digits_value max 0 [digit_char n] = Some n).
  { intros n Hn Hm. cbn [digits_value]. rewrite digit_char_digit by auto. cbn [N.mul N.add]. destruct (N.leb_spec n max); [auto|lia]. }
  induction fuel as [|fu IH]; intros n H Hm; cbn [show_digits].
  - apply G; [exact H|auto].
  - destruct (N.ltb_spec n 10); [apply G; auto|]. rewrite digits_value_app. pose proof (N.div_mod n 10 ltac:(discriminate)) as Hdm.
    rewrite IH.
    + cbn [digits_value]. rewrite digit_char_digit by (apply N.mod_lt; lia).
      replace (n / 10 * 10 + n mod 10)%N with n by lia. destruct (N.leb_spec n max); [auto|lia].
    + apply N.div_lt_upper_bound; [lia|]. rewrite <- N.pow_succ_r', <- Nat2N.inj_succ. exact H.
    + assert (n / 10 <= n)%N by (apply N.div_le_upper_bound; lia). lia.
Qed.

Lemma show_N_no_sign n c t : show_N n = c :: t -> Ascii.eqb c "+" = false /\ Ascii.eqb c "-" = false.
Proof.
  intros E. pose proof (show_N_all n) as F. rewrite E in F. inversion F as [|? ? (d & Hd & ->) _]; subst.
  assert (forall a, nat_of_ascii a < 48 -> Ascii.eqb (digit_char d) a = false).
  { intros a Ha. destruct (Ascii.eqb_spec (digit_char d) a) as [<-|]; auto. rewrite digit_char_nat in Ha by auto. lia. }
  split; apply H; vm_compute; lia.
Qed.
Lemma split_sign_show signed n : split_sign signed (show_N n) = Some (false, show_N n).
Proof.
  destruct (show_N n) as [|c t] eqn:E; [now apply show_N_ne in E|]. destruct (show_N_no_sign n c t E) as [E1 E2].
  unfold split_sign. now rewrite E1, E2.
Qed.
Lemma parse_unsigned_show max n : (n <= max)%N -> parse_unsigned max (show_N n) = Some n.
Proof. intros H. unfold parse_unsigned. rewrite split_sign_show. apply digits_show; auto. apply size_bound. Qed.
Lemma parse_usize_show n : (n <= U64_MAX)%N -> parse_usize (show_N n) = Some n.
Proof. apply parse_unsigned_show. Qed.

(** the values of i64 *)
Definition is_i64 (z : Z) : Prop := (- 2 ^ 63 <= z <= 2 ^ 63 - 1)%Z.
Lemma parse_i64_show z : is_i64 z -> parse_i64 (show_Z z) = Some z.
Proof.
  intros H. unfold is_i64 in H. assert (Hp : (2 ^ 63)%Z = Z.of_N (I64_MAX + 1)) by reflexivity.
  assert (Hq : (2 ^ 63 - 1)%Z = Z.of_N I64_MAX) by reflexivity. unfold parse_i64.
  assert (G : forall n, (n <= I64_MAX)%N -> match split_sign true (show_N n) with
    | Some (true, ds) => option_map (fun n => (- Z.of_N n)%Z) (digits_value (I64_MAX + 1) 0 ds)
    | Some (false, ds) => option_map Z.of_N (digits_value I64_MAX 0 ds)
    | None => None end = Some (Z.of_N n)).
  { intros n Hn. rewrite split_sign_show. unfold show_N. rewrite digits_show by (auto; apply size_bound). reflexivity. }
  destruct z as [|p|p].
  - reflexivity.
  - unfold show_Z. rewrite G; [reflexivity|lia].
  - cbn [show_Z]. unfold split_sign. cbn [Ascii.eqb Bool.eqb].
    destruct (show_N (N.pos p)) as [|c t] eqn:E; [now apply show_N_ne in E|]. rewrite <- E.
    unfold show_N. rewrite digits_show; [reflexivity|apply size_bound|]. lia.
Qed.
Lemma show_Z_plain z : plain (show_Z z).
Proof.
  destruct z as [|p|p]; [apply show_N_plain|apply show_N_plain|]. split; [discriminate|]. cbn [show_Z].
  constructor; [unfold graphic; vm_compute; lia|]. apply show_N_plain.
Qed.

(** numbers start functional lines *)
Lemma show_N_functional n : is_line_functional (show_N n) = true.
Proof.
  destruct (show_N n) as [|c t] eqn:E; [now apply show_N_ne in E|]. pose proof (show_N_all n) as F. rewrite E in F.
  inversion F as [|? ? (d & Hd & ->) _]; subst. unfold is_line_functional.
  destruct (Ascii.eqb_spec (digit_char d) HASH) as [Hx|]; auto. apply (f_equal nat_of_ascii) in Hx. rewrite digit_char_nat in Hx by auto.
  change (nat_of_ascii HASH) with 35 in Hx. lia.
Qed.
Lemma show_Z_functional z : is_line_functional (show_Z z) = true.
Proof. destruct z; [apply show_N_functional|apply show_N_functional|reflexivity]. Qed.
