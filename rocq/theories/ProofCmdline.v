(** Which directive decides *)
From Coq Require Import String Ascii List Bool Arith Lia.
From Verif Require Import Base Lib ModelRoutingCfg ModelProgram ModelCmdline SpecCmdline.
Import ListNotations.
Open Scope string_scope.
Open Scope list_scope.
Open Scope nat_scope.

Lemma prefix_app n t : String.prefix n t = true <-> exists rest, t = (n ++ rest)%string.
Proof.
  revert t. induction n as [|a n IH]; intros t.
  - split; [intros _; exists t; reflexivity|intros _; destruct t; reflexivity].
  - destruct t as [|b t]; [split; [discriminate|intros [r E]; discriminate]|].
    cbn [String.prefix String.append]. destruct (Ascii.ascii_dec a b) as [->|Hn].
    + split.
      * intros E. apply IH in E. destruct E as [r ->]. now exists r.
      * intros [r E]. apply IH. injection E as E. now exists r.
    + split; [discriminate|]. intros [r E]. injection E as E1 _. congruence.
Qed.
Lemma applies_about t d : applies t d = true <-> about t d.
Proof. unfold applies, about. destruct (fst d); [apply prefix_app|tauto]. Qed.
Lemma about_dec t d : about t d \/ ~ about t d.
Proof. destruct (applies t d) eqn:E; [left; now apply applies_about|right; intros H; apply applies_about in H; congruence]. Qed.

Fixpoint ascending (l : list directive) : Prop :=
  match l with
  | [] => True
  | d :: r => (forall x, In x r -> dir_len d <= dir_len x) /\ ascending r
  end.
Lemma insert_in d l x : In x (insert_dir d l) <-> x = d \/ In x l.
Proof.
  induction l as [|y r IH]; simpl; [intuition congruence|]. destruct (dir_len d <=? dir_len y); simpl; [intuition congruence|].
  rewrite IH. intuition congruence.
Qed.
Lemma insert_ascending d l : ascending l -> ascending (insert_dir d l).
Proof.
  induction l as [|y r IH]; intros H; [simpl; split; [intros ? []|exact I]|]. destruct H as [H1 H2]. cbn [insert_dir].
  destruct (Nat.leb_spec (dir_len d) (dir_len y)) as [Hle|Hlt].
  - split; [|split; assumption]. intros x Hx. destruct Hx as [<-|Hx]; [assumption|]. specialize (H1 x Hx). lia.
  - split; [|auto]. intros x Hx. apply insert_in in Hx. destruct Hx as [->|Hx]; [lia|auto].
Qed.
Lemma sort_ascending l : ascending (sort_dirs l).
Proof. induction l as [|d r IH]; simpl; [auto|now apply insert_ascending]. Qed.

Lemma find_app {A} (f : A -> bool) a b : find f (a ++ b) = match find f a with Some x => Some x | None => find f b end.
Proof. induction a as [|x a IH]; simpl; [reflexivity|]. destruct (f x); auto. Qed.

Lemma find_insert t d l : ascending l ->
  find (applies t) (rev (insert_dir d l)) =
  match find (applies t) (rev l) with
  | Some x => if applies t d && (dir_len x <? dir_len d) then Some d else Some x
  | None => if applies t d then Some d else None
  end.
Proof.
  induction l as [|y r IH]; intros H; [reflexivity|]. destruct H as [H1 H2]. cbn [insert_dir].
  destruct (Nat.leb_spec (dir_len d) (dir_len y)) as [Hle|Hlt].
  - cbn [rev]. rewrite (find_app _ (rev r ++ [y]) [d]). destruct (find (applies t) (rev r ++ [y])) as [x|] eqn:E; [|reflexivity].
    assert (Hx : dir_len d <= dir_len x).
    { apply find_some in E. destruct E as [E _]. apply in_app_or in E. destruct E as [E|[<-|[]]]; [|auto].
      apply in_rev in E. specialize (H1 x E). lia. }
    destruct (Nat.ltb_spec (dir_len x) (dir_len d)); [lia|]. now rewrite andb_false_r.
  - cbn [rev]. rewrite !find_app, (IH H2). destruct (find (applies t) (rev r)) as [x|] eqn:E.
    + destruct (applies t d && (dir_len x <? dir_len d)); reflexivity.
    + cbn [find]. destruct (applies t d) eqn:Ed; [|destruct (applies t y); reflexivity].
      destruct (applies t y); [|reflexivity]. cbn [andb]. destruct (Nat.ltb_spec (dir_len y) (dir_len d)); [reflexivity|lia].
Qed.

Lemma chosen_governs t ds :
  match find (applies t) (rev (sort_dirs ds)) with
  | Some d => governs ds t d
  | None => forall d, In d ds -> ~ about t d
  end.
Proof.
  induction ds as [|d r IH]; [intros d []|]. cbn [sort_dirs]. rewrite find_insert by apply sort_ascending.
  destruct (find (applies t) (rev (sort_dirs r))) as [x|].
  - destruct IH as (b & a & -> & Hx & Hb & Ha).
    destruct (applies t d) eqn:Ed; cbn [andb]; [destruct (Nat.ltb_spec (dir_len x) (dir_len d)) as [Hlt|Hge]|].
    + exists [], (b ++ x :: a). split; [reflexivity|]. split; [now apply applies_about|]. split; [intros ? []|].
      change (dir_len x < dir_len d) with (letters x < letters d) in Hlt.
      intros d' Hin Hab. apply in_app_or in Hin. destruct Hin as [Hin|[<-|Hin]]; [specialize (Hb d' Hin Hab); lia|exact Hlt|].
      specialize (Ha d' Hin Hab). lia.
    + exists (d :: b), a. split; [reflexivity|]. split; [auto|]. split; [|auto].
      intros d' [<-|Hin] Hab; [exact Hge|auto].
    + exists (d :: b), a. split; [reflexivity|]. split; [auto|]. split; [|auto].
      intros d' [<-|Hin] Hab; [|auto]. apply applies_about in Hab. congruence.
  - destruct (applies t d) eqn:Ed.
    + exists [], r. split; [reflexivity|]. split; [now apply applies_about|]. split; [intros ? []|].
      intros d' Hin Hab. now destruct (IH d' Hin).
    + intros d' [<-|Hin] Hab; [apply applies_about in Hab; congruence|now apply (IH d')].
Qed.

Lemma governs_unique ds t d d' : governs ds t d -> governs ds t d' -> d = d'.
Proof.
  intros (b & a & E & Hd & Hb & Ha) (b' & a' & E' & Hd' & Hb' & Ha'). subst ds. revert b' E' Hb'.
  induction b as [|x b IH]; intros [|x' b'] E' Hb'; simpl in E'.
  - now injection E'.
  - injection E' as <- E'. assert (H1 := Hb' d (or_introl eq_refl) Hd).
    assert (H2 : letters d' < letters d) by (apply Ha; [rewrite E'; apply in_or_app; right; now left|auto]). lia.
  - injection E' as <- E'. assert (H1 := Hb x (or_introl eq_refl) Hd').
    assert (H2 : letters d < letters x) by (apply Ha'; [rewrite <- E'; apply in_or_app; right; now left|auto]). lia.
  - injection E' as <- E'. eapply IH; eauto; intros; [apply Hb|apply Hb']; auto; now right.
Qed.

Lemma within_rank l m : within l m <-> rank l <= rank m.
Proof.
  unfold within, by_detail. split.
  - intros (less & more & E & H).
    do 6 (destruct less as [|x less]; [injection E as <- <-; destruct l; cbn [In] in H; try (exfalso; intuition congruence); apply Nat.leb_le; reflexivity|cbn [app] in E; injection E as <- E]).
    destruct less; discriminate.
  - intros H. destruct m; [exists []|exists [LOff]|exists [LOff; LError]|exists [LOff; LError; LWarn]|exists [LOff; LError; LWarn; LInfo]|exists [LOff; LError; LWarn; LInfo; LDebug]];
      (eexists; split; [reflexivity|]); destruct l; cbn [In rank] in *; intuition (try congruence; try lia).
Qed.
Lemma logged_governed ds t l : logged (sort_dirs ds) t l <-> exists d, governs ds t d /\ within l (snd d).
Proof.
  unfold logged, enabled. pose proof (chosen_governs t ds) as H. destruct (find _ _) as [d|].
  - split.
    + intros E. exists d. split; [auto|]. now apply within_rank, Nat.leb_le.
    + intros (d' & Hg & Hw). rewrite (governs_unique _ _ _ _ H Hg). now apply Nat.leb_le, within_rank.
  - split; [discriminate|]. intros (d & (b & a & -> & Hd & _) & _). exfalso. apply (H d); [apply in_or_app; right; now left|auto].
Qed.

(** *** case *)
Lemma lower_upper_ascii a : lower_ascii (upper_ascii a) = lower_ascii a.
Proof. destruct a as [[] [] [] [] [] [] [] []]; reflexivity. Qed.
Lemma lower_upper s : lower (upper s) = lower s.
Proof. induction s as [|a s IH]; simpl; [reflexivity|]. now rewrite lower_upper_ascii, IH. Qed.
Lemma level_of_upper s : level_of (upper s) = level_of s.
Proof. unfold level_of. now rewrite lower_upper. Qed.
Lemma level_same a b : same_letters a b -> level_of a = level_of b.
Proof. unfold same_letters, level_of. now intros ->. Qed.
Lemma offered_level n l : In (n, l) offered -> level_of n = Some l.
Proof. intros [E|[E|[E|[E|[E|[]]]]]]; injection E as <- <-; reflexivity. Qed.

(** *** what the environment-variable says *)
Lemma split_lacks c s : lacks c s -> split_at_char c s = [s].
Proof.
  induction s as [|a s IH]; intros H; [reflexivity|]. destruct H as [Ha H]. cbn [split_at_char].
  destruct (Ascii.eqb_spec a c); [contradiction|]. now rewrite IH.
Qed.
Lemma split_app c s r : lacks c s -> split_at_char c (s ++ String c r)%string = s :: split_at_char c r.
Proof.
  induction s as [|a s IH]; intros H.
  - cbn [append split_at_char]. now rewrite Ascii.eqb_refl.
  - destruct H as [Ha H]. cbn [append split_at_char]. destruct (Ascii.eqb_spec a c); [contradiction|]. now rewrite IH.
Qed.
Lemma lacks_app c a b : lacks c a -> lacks c b -> lacks c (a ++ b)%string.
Proof. induction a as [|x a IH]; simpl; [auto|]. intros [H1 H2] H3. split; auto. Qed.
Lemma says_level_of s l : says_level s l <-> level_of s = Some l.
Proof.
  split.
  - intros (w & Hin & Hs). rewrite (level_same _ _ Hs).
    destruct Hin as [E|[E|[E|[E|[E|[E|[]]]]]]]; injection E as <- <-; reflexivity.
  - unfold level_of. intros H.
    repeat match type of H with (if String.eqb ?a ?b then _ else _) = _ => destruct (String.eqb_spec a b) as [E|_] in H;
      [injection H as <-; exists b; split; [simpl; tauto|exact E]|] end. discriminate.
Qed.
Lemma lower_lacks c s : lower_ascii c = c -> (forall a, lower_ascii a = c -> a = c) -> lacks c (lower s) <-> lacks c s.
Proof.
  intros H1 H2. induction s as [|a s IH]; simpl; [tauto|]. rewrite IH. split; intros [A B]; (split; [|assumption]); intros E; apply A; [now rewrite E|auto].
Qed.
Lemma lower_eq_only a : lower_ascii a = "="%char -> a = "="%char.
Proof. destruct a as [[] [] [] [] [] [] [] []]; intros H; try reflexivity; discriminate. Qed.
Lemma says_lacks s l : says_level s l -> lacks "=" s /\ s <> "".
Proof.
  intros (w & Hin & Hs). unfold same_letters in Hs. split.
  - apply (lower_lacks "="); [reflexivity|exact lower_eq_only|]. rewrite Hs.
    destruct Hin as [E|[E|[E|[E|[E|[E|[]]]]]]]; injection E as <- <-; simpl; repeat split; discriminate.
  - intros ->. destruct Hin as [E|[E|[E|[E|[E|[E|[]]]]]]]; injection E as <- <-; discriminate.
Qed.
Lemma lower_comma_only a : lower_ascii a = ","%char -> a = ","%char.
Proof. destruct a as [[] [] [] [] [] [] [] []]; intros H; try reflexivity; discriminate. Qed.
Lemma says_no_comma s l : says_level s l -> lacks "," s.
Proof.
  intros (w & Hin & Hs). unfold same_letters in Hs. apply (lower_lacks ","); [reflexivity|exact lower_comma_only|]. rewrite Hs.
  destruct Hin as [E|[E|[E|[E|[E|[E|[]]]]]]]; injection E as <- <-; simpl; repeat split; discriminate.
Qed.
Lemma split_some c s : exists h r, split_at_char c s = h :: r.
Proof. destruct s as [|a s]; simpl; [eauto|]. destruct (Ascii.eqb a c); [eauto|]. destruct (split_at_char c s); eauto. Qed.
Lemma not_level s : (forall l, ~ says_level s l) -> level_of s = None.
Proof. intros H. destruct (level_of s) as [l|] eqn:E; [|reflexivity]. apply says_level_of in E. now destruct (H l). Qed.
Lemma nonempty_eqb s : s <> "" -> String.eqb s "" = false.
Proof. intros H. now apply String.eqb_neq. Qed.

Lemma spells_parsed s ds : spells s ds -> match parse_directive s with Some d => [d] | None => [] end = ds.
Proof.
  intros [x l H|n Hn He Hl|n x l Hn H|n Hn| |n x Hn Hx Hne Hl|n x r Hn Hx]; unfold parse_directive.
  - destruct (says_lacks _ _ H) as [He Hne]. rewrite split_lacks by auto. rewrite nonempty_eqb by auto. apply says_level_of in H. now rewrite H.
  - rewrite split_lacks by auto. rewrite nonempty_eqb by auto. now rewrite not_level.
  - destruct (says_lacks _ _ H) as [He Hne]. change ("=" ++ x)%string with (String "=" x). rewrite split_app, split_lacks by auto.
    rewrite nonempty_eqb by auto. apply says_level_of in H. now rewrite H.
  - rewrite split_app by auto. reflexivity.
  - reflexivity.
  - change ("=" ++ x)%string with (String "=" x). rewrite split_app, split_lacks by auto. rewrite nonempty_eqb by auto. now rewrite not_level.
  - change ("=" ++ x ++ "=" ++ r)%string with (String "=" (x ++ String "=" r)). rewrite split_app by auto. rewrite split_app by auto.
    destruct (split_some "=" r) as (h & t & ->). reflexivity.
Qed.
Lemma filters_parsed texts dss : Forall2 spells texts dss -> Forall (lacks ",") texts ->
  parse_filters (comma_separated texts) = concat dss.
Proof.
  unfold parse_filters. intros H. induction H as [|x ds r dss' Hx Hr IH]; intros Hc; [reflexivity|]. inversion Hc as [|? ? Hd Hc']; subst.
  destruct r as [|y r].
  - inversion Hr; subst. cbn [comma_separated]. rewrite split_lacks by auto. cbn [flat_map concat]. now rewrite (spells_parsed _ _ Hx).
  - change (comma_separated (x :: y :: r)) with (x ++ String "," (comma_separated (y :: r)))%string.
    rewrite split_app by auto. cbn [flat_map concat]. rewrite (spells_parsed _ _ Hx). f_equal. now apply IH.
Qed.

(** *** start *)
Lemma accepted_level m l : accepted m l -> exists s c, m_log m = Some s /\ m_cfg m = Some c /\ level_of (upper s) = Some l.
Proof.
  intros [(s & n & E & Hin & Hs) Hc]. destruct (m_cfg m) as [c|]; [|congruence]. exists s, c. split; [auto|]. split; [auto|].
  rewrite level_of_upper, (level_same _ _ Hs). now apply offered_level.
Qed.
Lemma logs_dirs rl m l ds : accepted m l -> logs_by rl m ds ->
  ds = sort_dirs ((None, LWarn) :: (Some PKG_NAME, l) :: match rl with Some s => parse_filters s | None => [] end).
Proof.
  intros Ha. destruct (accepted_level m l Ha) as (s & c & E1 & E2 & E3). intros [(gpl & a & E)|(c' & E)].
  - revert E. unfold begin, args_of. rewrite E1, E2. cbn [expect bind].
    destruct (_ && _); [discriminate|]. unfold init_logging. rewrite E3. now intros [= <- _].
  - revert E. unfold begin_multi_ch. rewrite E1, E2. cbn [expect bind]. unfold init_logging. rewrite E3. now intros [= <- _].
Qed.
