(** Properties C32 and C33: ways and streets *)
From Coq Require Import String Ascii List Bool Arith NArith ZArith QArith Lia.
From Verif Require Import Base F64 ModelText ModelStreets ModelUnits ModelConfig ModelGraph ModelBuild ModelParsing Lib ProofText SpecStreets.
Import ListNotations.
Open Scope string_scope.
Open Scope list_scope.
Open Scope nat_scope.

(** *** Trimming *)
Lemma trim_front_blank enc : (forall c s, blank c -> white enc (c :: s) = 1) -> forall pre s, Forall blank pre ->
  trim_front enc 0 (pre ++ s) = trim_front enc 0 s.
Proof.
  intros He pre s F. induction F as [|c pre Hc F IH]; auto. cbn [app trim_front]. rewrite He by auto. exact IH.
Qed.
Lemma trim_front_graphic enc c s : white enc (c :: s) = 0 -> trim_front enc 0 (c :: s) = c :: s.
Proof. intros E. cbn [trim_front]. now rewrite E. Qed.
Lemma white_singles enc rest c s :
  forallb (fun p => length p =? 1) enc = true -> In [nat_of_ascii c] enc -> white (enc ++ rest) (c :: s) = 1.
Proof.
  induction enc as [|p enc IH]; [intros _ []|]. cbn [forallb app]. rewrite andb_true_iff. intros [Hp He] Hin.
  destruct p as [|x [|]]; try discriminate. cbn [white starts_with length].
  destruct (Nat.eqb_spec (nat_of_ascii c) x) as [_|Hx]; [reflexivity|]. cbn [andb]. apply IH; [exact He|].
  destruct Hin as [E|Hin]; [congruence|exact Hin].
Qed.
Lemma white_misses enc c s :
  graphic c -> forallb (fun p => match p with x :: _ => (x <? 33) || (126 <? x) | [] => false end) enc = true -> white enc (c :: s) = 0.
Proof.
  intros H. unfold graphic in H. induction enc as [|p enc IH]; [reflexivity|]. cbn [forallb]. rewrite andb_true_iff. intros [Hp He].
  destruct p as [|x p]; [discriminate|]. cbn [white starts_with].
  destruct (Nat.eqb_spec (nat_of_ascii c) x) as [Hx|_]; [|exact (IH He)].
  rewrite orb_true_iff, !Nat.ltb_lt in Hp. lia.
Qed.
Lemma blank_single c : blank c -> In [nat_of_ascii c] [[9]; [10]; [11]; [12]; [13]; [32]].
Proof.
  intros H. assert (G : nat_of_ascii c = 9 \/ nat_of_ascii c = 10 \/ nat_of_ascii c = 11 \/ nat_of_ascii c = 12 \/ nat_of_ascii c = 13 \/ nat_of_ascii c = 32)
    by (unfold blank in H; lia).
  clear H. generalize dependent (nat_of_ascii c). intros n H. simpl. intuition congruence.
Qed.
Lemma white_blank c s : blank c -> white white_spaces (c :: s) = 1.
Proof. intros H. apply (white_singles [[9]; [10]; [11]; [12]; [13]; [32]] (skipn 6 white_spaces)); [reflexivity|]. now apply blank_single. Qed.
Lemma white_blank_rev c s : blank c -> white (map (@rev nat) white_spaces) (c :: s) = 1.
Proof.
  intros H. apply (white_singles [[9]; [10]; [11]; [12]; [13]; [32]] (map (@rev nat) (skipn 6 white_spaces))); [reflexivity|]. now apply blank_single.
Qed.
Lemma white_graphic_rev c s : graphic c -> white (map (@rev nat) white_spaces) (c :: s) = 0.
Proof. intros H. apply white_misses; [exact H|reflexivity]. Qed.

(** the first and last byte of [w] are printable *)
Definition solid (w : text) : Prop :=
  exists c d r l, graphic c /\ graphic d /\ w = c :: r /\ w = l ++ [d].
Lemma trim_padded pre w post : Forall blank pre -> Forall blank post -> solid w -> trim (pre ++ w ++ post) = w.
Proof.
  intros Fp Fq (c & d & r & l & Hc & Hd & Ew & El). unfold trim.
  rewrite trim_front_blank by (auto using white_blank). rewrite Ew at 1. cbn [app].
  rewrite trim_front_graphic by (now apply white_graphic). change (c :: r ++ post) with ((c :: r) ++ post). rewrite <- Ew, rev_app_distr.
  rewrite trim_front_blank by (auto using white_blank_rev, Forall_rev). rewrite El at 1. rewrite rev_app_distr. cbn [rev app].
  rewrite trim_front_graphic by (now apply white_graphic_rev). change (d :: rev l) with ([d] ++ rev l).
  rewrite rev_app_distr. cbn [rev app]. rewrite rev_involutive. auto.
Qed.

Lemma lower_variant c d : upper_or_lower c d -> ~ (65 <= nat_of_ascii d <= 90) -> lower c = d.
Proof.
  intros [->|[Hd Hc]] Hn; unfold lower.
  - destruct (Nat.leb_spec 65 (nat_of_ascii d)); [|auto]. destruct (Nat.leb_spec (nat_of_ascii d) 90); [lia|auto].
  - destruct (Nat.leb_spec 65 (nat_of_ascii c)); [|lia]. destruct (Nat.leb_spec (nat_of_ascii c) 90); [|lia]. cbn [andb].
    rewrite Hc. apply ascii_nat_embedding.
Qed.
(** no upper-case letters *)
Definition small (s : text) : Prop := Forall (fun d => ~ (65 <= nat_of_ascii d <= 90)) s.
Lemma to_lower_variant m : forall s, Forall2 upper_or_lower m s -> small s -> to_lower m = s.
Proof.
  induction m as [|c m IH]; intros s F Fs; inversion F; subst; auto. inversion Fs; subst. simpl. f_equal; [now apply lower_variant|auto].
Qed.
Lemma variant_graphic c d : upper_or_lower c d -> graphic d -> graphic c.
Proof. unfold graphic. intros [->|[H E]] G; [auto|lia]. Qed.
Lemma variant_solid m s : Forall2 upper_or_lower m s -> solid s -> solid m.
Proof.
  intros F (c & d & r & l & Hc & Hd & -> & El). inversion F as [|c' ? m' ? Hcc F']; subst.
  rewrite El in F. apply Forall2_app_inv_r in F. destruct F as (l1 & l2 & _ & F2 & Em). inversion F2 as [|d' ? ? ? Hdd F3]; subst.
  inversion F3; subst. exists c', d', m', l1. split; [eapply variant_graphic; eauto|]. split; [eapply variant_graphic; eauto|]. auto.
Qed.
Lemma variant_normal v s : variant_of v s -> small s -> solid s -> to_lower (trim v) = s.
Proof.
  intros (pre & mid & post & -> & F1 & F2 & F) Hs Hso. rewrite trim_padded; auto; [now apply to_lower_variant|]. eapply variant_solid; eauto.
Qed.

(** *** C33: streets *)

(** every speed is at least 5 km/h *)
Lemma speed_rows s r : lookup s speed_names = Some r -> match r with Kmh n => 5 <= n | _ => True end.
Proof.
  assert (G : forall rows : list (string * speed), forallb (fun kr => match snd kr with Kmh n => 5 <=? n | _ => true end) rows = true ->
    lookup s rows = Some r -> match r with Kmh n => 5 <= n | _ => True end).
  { induction rows as [|[k v] rows IH]; [discriminate|]. cbn [forallb lookup snd]. rewrite andb_true_iff. intros [H1 H2].
    destruct (text_eqb s (T k)); [|now apply IH]. intros E. injection E as ->. destruct r; auto. now apply Nat.leb_le. }
  apply G. vm_compute. reflexivity.
Qed.
Lemma default_min c : 5 <= default_speed c.
Proof. destruct c; simpl; lia. Qed.

Theorem C33_min_speed c ts : (5 <= parse_maxspeed c ts)%N.
Proof.
  unfold parse_maxspeed, MIN_KMH. pose proof (default_min c). destruct (tag _ ts) as [v|]; [|lia].
  destruct (parse_u16 v); [lia|]. destruct (lookup _ speed_names) as [[n|c'|]|] eqn:E; try lia.
  - apply speed_rows in E. lia.
  - pose proof (default_min c'). lia.
Qed.
Print Assumptions C33_min_speed.

(** ... also in every edge of a way *)
Theorem C33_edge_speed pc nodes ts e i id :
  nth_error (ec_categories (cfg_edges (pc_cfg pc))) i = Some (CMetric KilometersPerHour id) ->
  (forall c, In c (ec_categories (cfg_edges (pc_cfg pc))) -> pbf_supports c = true) ->
  In e (way_edges pc nodes ts) ->
  exists q, nth_error (pe_metrics e) (length (metric_ids (firstn i (ec_categories (cfg_edges (pc_cfg pc)))))) = Some (Fin q) /\ (5 <= q)%Q.
Proof.
  intros Ei Hs. unfold way_edges. destruct (_ <? 2); [intros []|]. destruct (street_from ts) as [c|]; [|intros []].
  destruct (negb _); [intros []|]. destruct (parse_oneway c ts) as [o r].
  assert (G : forall ms l e, In e (consecutive ms l) -> pe_metrics e = ms).
  { intros ms l. induction l as [|a l IH]; [intros e' []|]. intros e' He. destruct l as [|b l]; [destruct He|].
    destruct He as [<-|He]; [reflexivity|]. exact (IH e' He). }
  intros He. rewrite (G _ _ _ He). clear G He. set (ks := ec_categories _) in *. clearbody ks.
  exists (inject_Z (Z.of_N (parse_maxspeed c ts))). split.
  - clear - Ei Hs. revert i Ei. induction ks as [|k ks IH]; intros i Ei; [destruct i; discriminate|]. unfold way_metrics. cbn [flat_map].
    destruct i as [|i]; [injection Ei as ->; reflexivity|]. cbn [nth_error] in Ei. specialize (IH (fun c Hc => Hs c (or_intror Hc)) i Ei).
    cbn [firstn]. pose proof (Hs k (or_introl eq_refl)) as Hk. destruct k as [inf id'|u id'|]; [exact IH| |exact IH].
    destruct u; try discriminate; exact IH.
  - pose proof (C33_min_speed c ts). change 5%Q with (inject_Z 5). rewrite <- Zle_Qle. lia.
Qed.
Print Assumptions C33_edge_speed.

(** numbers are taken as they are, if the tag is just a number *)
Theorem C33_number c ts n : (n < 65536)%N -> tag (T "maxspeed") ts = Some (show_N n) -> parse_maxspeed c ts = N.max 5 n.
Proof. intros H E. unfold parse_maxspeed. rewrite E. unfold parse_u16. rewrite parse_unsigned_show; [reflexivity|]. unfold U16_MAX. lia. Qed.
Print Assumptions C33_number.
Example C33_speed_case : parse_maxspeed Residential [(T "maxspeed", T "3")] = 5%N /\ parse_maxspeed Residential [(T "maxspeed", T "120")] = 120%N /\
  parse_maxspeed Residential [(T "maxspeed", T " DE:Walk ")] = 15%N /\ parse_maxspeed Primary [(T "maxspeed", T "50;100")] = 100%N /\
  parse_maxspeed Primary [(T "maxspeed", T "99999")] = 100%N /\ parse_maxspeed Path [] = 15%N.
Proof. vm_compute. repeat split. Qed.

(** a number with white space around it is no number: the default is used *)
Theorem C33_padded_refuted : exists c ts, tag (T "maxspeed") ts = Some (T " 30") /\ parse_maxspeed c ts = 130%N.
Proof. exists Motorway, [(T "maxspeed", T " 30")]. split; vm_compute; reflexivity. Qed.
Print Assumptions C33_padded_refuted.

Theorem C33_picky c v : is_for c v true = true -> is_for c v false = true.
Proof. destruct v, c; intros H; exact H || reflexivity. Qed.
Print Assumptions C33_picky.
Example C33_picky_case : is_for Primary Bicycle true = false /\ is_for Primary Bicycle false = true /\ is_for Tertiary Bicycle true = true.
Proof. repeat split. Qed.

Theorem C33_default_speed c : default_speed c = documented_speed c.
Proof. destruct c; reflexivity. Qed.
Print Assumptions C33_default_speed.

(** Admission agrees with the documented table.  Missing: service roads for cars
    and undefined roads, see below. *)
Theorem C33_table_partial c v picky :
  (c, v) <> (Service, Car) -> c <> Road -> is_for c v picky = admits (documented_for c v) picky.
Proof. intros H1 H2. destruct v, c; try congruence; destruct picky; reflexivity. Qed.
Print Assumptions C33_table_partial.
Example C33_table_case : is_for Track Car false = true /\ is_for Track Car true = false /\ documented_for Track Car = Unusual.
Proof. repeat split. Qed.

(** service roads are documented as usable but uncomfortable for cars, undefined
    roads for everybody; the code never admits them *)
Theorem C33_table_refuted : exists c v,
  documented_for c v = Unusual /\ is_for c v false <> admits (documented_for c v) false.
Proof. exists Service, Car. split; [reflexivity|discriminate]. Qed.
Print Assumptions C33_table_refuted.
Theorem C33_road_refuted v picky : documented_for Road v = Unusual /\ is_for Road v picky = false.
Proof. destruct v, picky; split; reflexivity. Qed.
Print Assumptions C33_road_refuted.

(** *** C32: ways *)
Lemma consecutive_length ms l : length (consecutive ms l) = length l - 1.
Proof.
  induction l as [|a l IH]; auto. destruct l as [|b l]; auto. change (consecutive ms (a :: b :: l)) with
    ({| pe_id := None; pe_src := a; pe_dst := b; pe_metrics := ms; pe_sc := None |} :: consecutive ms (b :: l)). simpl length in *. rewrite IH. lia.
Qed.
Lemma consecutive_nth ms l : forall i a b, nth_error l i = Some a -> nth_error l (S i) = Some b ->
  nth_error (consecutive ms l) i = Some {| pe_id := None; pe_src := a; pe_dst := b; pe_metrics := ms; pe_sc := None |}.
Proof.
  induction l as [|x l IH]; intros i a b Ha Hb; [destruct i; discriminate|]. destruct l as [|y l]; [destruct i; discriminate Hb|].
  destruct i as [|i]; [injection Ha as ->; injection Hb as ->; reflexivity|]. exact (IH i a b Ha Hb).
Qed.
Lemma nth_error_rev {A} (l : list A) i : i < length l -> nth_error (rev l) i = nth_error l (length l - 1 - i).
Proof.
  intros Hi. destruct l as [|d l']; [simpl in Hi; lia|]. set (l := d :: l') in *.
  rewrite (nth_error_nth' (rev l) d) by (rewrite rev_length; auto). rewrite rev_nth by auto.
  rewrite (nth_error_nth' l d) by lia. f_equal. f_equal. lia.
Qed.

Lemma nth_error_firstn {A} (l : list A) : forall n i, i < n -> nth_error (firstn n l) i = nth_error l i.
Proof. induction l as [|x l IH]; intros n i Hi; [now rewrite firstn_nil|]. destruct n; [lia|]. destruct i; [reflexivity|]. apply IH. lia. Qed.

Theorem C32_way pc nodes ts c oneway reverse :
  2 <= length nodes -> street_from ts = Some c -> is_for c (vc_category (pc_vehicles pc)) (vc_picky (pc_vehicles pc)) = true ->
  parse_oneway c ts = (oneway, reverse) ->
  let es := way_edges pc nodes ts in
  let m := length nodes - 1 in
  length es = (if oneway then m else m + m) /\
  forall i, i < m -> exists a b, driven reverse nodes i = Some a /\ driven reverse nodes (S i) = Some b /\
    joins (nth_error es i) a b /\
    (oneway = false -> joins (nth_error es (m + (m - 1 - i))) b a).
Proof.
  intros Hn Hs Hf Ho. cbv zeta. unfold way_edges. destruct (Nat.ltb_spec (length nodes) 2); [lia|]. rewrite Hs, Hf, Ho. cbn [negb].
  set (ms := way_metrics c ts _). set (l := if reverse then rev nodes else nodes).
  assert (Hl : length l = length nodes) by (unfold l; destruct reverse; [apply rev_length|auto]).
  assert (Hd : forall i, i < length nodes -> nth_error l i = driven reverse nodes i).
  { intros i Hi. unfold l, driven. destruct reverse; [now apply nth_error_rev|auto]. }
  split.
  - rewrite consecutive_length, app_length, rev_length. destruct oneway; [simpl; lia|]. rewrite firstn_length. lia.
  - intros i Hi.
    destruct (nth_error l i) as [a|] eqn:Ea; [|apply nth_error_None in Ea; lia].
    destruct (nth_error l (S i)) as [b|] eqn:Eb; [|apply nth_error_None in Eb; lia].
    exists a, b. rewrite <- !Hd by lia. split; auto. split; auto. split.
    + eexists. split; [apply consecutive_nth; rewrite nth_error_app1 by lia; eauto|]. auto.
    + intros ->. eexists. split; [apply consecutive_nth with (a := b) (b := a)|auto].
      * destruct (Nat.eq_dec (S i) (length nodes - 1)) as [E|E].
        -- rewrite nth_error_app1 by lia. replace (length nodes - 1 + (length nodes - 1 - 1 - i)) with (S i) by lia. auto.
        -- rewrite nth_error_app2 by lia. rewrite nth_error_rev by (rewrite firstn_length; lia). rewrite firstn_length.
           rewrite nth_error_firstn by lia. rewrite <- Eb. f_equal. lia.
      * rewrite nth_error_app2 by lia. rewrite nth_error_rev by (rewrite firstn_length; lia). rewrite firstn_length.
        rewrite nth_error_firstn by lia. rewrite <- Ea. f_equal. lia.
Qed.
Print Assumptions C32_way.

(** no edges otherwise *)
Theorem C32_none pc nodes ts :
  (length nodes < 2 \/ street_from ts = None \/
   exists c, street_from ts = Some c /\ is_for c (vc_category (pc_vehicles pc)) (vc_picky (pc_vehicles pc)) = false) ->
  way_edges pc nodes ts = [].
Proof.
  unfold way_edges. intros H. destruct (Nat.ltb_spec (length nodes) 2) as [|Hn]; auto. destruct H as [H|[->|(c & -> & ->)]]; [lia|auto|auto].
Qed.
Print Assumptions C32_none.

(** all edges of a way have the same metrics, and neither ids nor shortcuts *)
Theorem C32_metrics pc nodes ts e e' :
  In e (way_edges pc nodes ts) -> In e' (way_edges pc nodes ts) ->
  pe_metrics e = pe_metrics e' /\ pe_id e = None /\ pe_sc e = None.
Proof.
  assert (G : forall ms l e, In e (consecutive ms l) -> pe_metrics e = ms /\ pe_id e = None /\ pe_sc e = None).
  { intros ms l. induction l as [|a l IH]; [intros x []|]. intros x He. destruct l as [|b l]; [destruct He|].
    destruct He as [<-|He]; [auto|]. exact (IH x He). }
  unfold way_edges. destruct (_ <? 2); [intros []|]. destruct (street_from ts) as [c|]; [|intros []].
  destruct (negb _); [intros []|]. destruct (parse_oneway c ts) as [o r]. intros H H'.
  destruct (G _ _ _ H) as (-> & A & B). destruct (G _ _ _ H') as (-> & _). auto.
Qed.
Print Assumptions C32_metrics.

(** the edges of a file are those of its ways, in order *)
Theorem C32_file pc objs objs' nodes ts :
  pbf_edges pc (objs ++ OsmWay nodes ts :: objs') = pbf_edges pc objs ++ way_edges pc nodes ts ++ pbf_edges pc objs' /\
  (forall id la lo, pbf_edges pc (objs ++ OsmNode id la lo :: objs') = pbf_edges pc objs ++ pbf_edges pc objs') /\
  pbf_edges pc [] = [].
Proof.
  unfold pbf_edges. split; [|split; [|reflexivity]].
  - rewrite flat_map_app. reflexivity.
  - intros id la lo. rewrite flat_map_app. reflexivity.
Qed.
Print Assumptions C32_file.

(** *** Oneway tags *)
Lemma lookup_row {A} s (rows : list (string * A)) r : lookup s rows = Some r -> exists k, In (k, r) rows /\ s = T k.
Proof.
  induction rows as [|[k v] rows IH]; [discriminate|]. cbn [lookup]. destruct (text_eqb s (T k)) eqn:E.
  - intros H. injection H as ->. apply text_eqb_eq in E. exists k. simpl. auto.
  - intros H. destruct (IH H) as (k' & Hin & Ek). exists k'. simpl. auto.
Qed.

(** checks a literal: lower case, printable ends, and its row of the table *)
Definition checked {A} (eqb : A -> A -> bool) (rows : list (string * A)) (r : A) (k : string) : bool :=
  match T k with
  | [] => false
  | c :: _ =>
      match rev (T k) with
      | [] => false
      | d :: _ =>
          let g x := (33 <=? nat_of_ascii x) && (nat_of_ascii x <=? 126) in
          g c && g d && forallb (fun x => negb ((65 <=? nat_of_ascii x) && (nat_of_ascii x <=? 90))) (T k) &&
          match lookup (T k) rows with Some r' => eqb r r' | None => false end
      end
  end.
Lemma checked_ok {A} eqb rows (r : A) k : (forall x y, eqb x y = true -> x = y) -> checked eqb rows r k = true ->
  small (T k) /\ solid (T k) /\ lookup (T k) rows = Some r.
Proof.
  intros He. unfold checked. destruct (T k) as [|c t] eqn:Ek; [discriminate|]. rewrite <- Ek.
  destruct (rev (T k)) as [|d l] eqn:Er; [discriminate|]. rewrite !andb_true_iff. intros [[[[H1 H2] [H3 H4]] H5] H6].
  apply Nat.leb_le in H1, H2, H3, H4. split; [|split].
  - unfold small. rewrite forallb_forall in H5. apply Forall_forall. intros x Hx. specialize (H5 x Hx). apply negb_true_iff in H5.
    intros [A1 A2]. apply Nat.leb_le in A1, A2. rewrite A1, A2 in H5. discriminate.
  - exists c, d, t, (rev l). split; [split; auto|]. split; [split; auto|]. split; auto.
    rewrite <- (rev_involutive (T k)), Er. reflexivity.
  - destruct (lookup (T k) rows) as [r'|]; [|discriminate]. f_equal. symmetry. auto.
Qed.

Theorem C32_oneway c ts v s :
  tag (T "oneway") ts = Some v -> variant_of v (T s) ->
  (In s oneway_values -> parse_oneway c ts = (true, false)) /\
  (In s reverse_values -> parse_oneway c ts = (true, true)).
Proof.
  intros Et Hv. unfold parse_oneway. rewrite Et.
  assert (G : forall r vals, forallb (checked (fun x y => Bool.eqb (fst x) (fst y) && Bool.eqb (snd x) (snd y)) oneway_names r) vals = true ->
    In s vals -> lookup (to_lower (trim v)) oneway_names = Some r).
  { intros r vals Hall Hin. rewrite forallb_forall in Hall. specialize (Hall s Hin). apply checked_ok in Hall.
    - destruct Hall as (A & B & C). rewrite (variant_normal _ _ Hv A B). exact C.
    - intros [a b] [a' b']. simpl. rewrite andb_true_iff. intros [X Y]. apply eqb_prop in X, Y. congruence. }
  split; intros Hin.
  - now rewrite (G (true, false) oneway_values eq_refl Hin).
  - now rewrite (G (true, true) reverse_values eq_refl Hin).
Qed.
Print Assumptions C32_oneway.

(** all other ways are driven in both directions, but for one misspelled value *)
Theorem C32_both_ways c ts :
  (tag (T "oneway") ts = None \/
   exists v, tag (T "oneway") ts = Some v /\ ~ In (to_lower (trim v)) (map T (oneway_values ++ reverse_values ++ ["´-1"]))) ->
  parse_oneway c ts = (false, false).
Proof.
  unfold parse_oneway. intros [->|(v & -> & Hn)]; auto. destruct (lookup _ oneway_names) as [r|] eqn:E; auto.
  apply lookup_row in E. destruct E as (k & Hin & Ek). rewrite Ek in Hn. clear Ek.
  repeat (destruct Hin as [Hin|Hin]; [injection Hin as <- <-; try reflexivity; exfalso; apply Hn; simpl; tauto|]). destruct Hin.
Qed.
Print Assumptions C32_both_ways.

Theorem C32_reverse_oneway c ts : snd (parse_oneway c ts) = true -> fst (parse_oneway c ts) = true.
Proof.
  unfold parse_oneway. destruct (tag _ ts); [|discriminate]. destruct (lookup _ oneway_names) as [r|] eqn:E; [|discriminate].
  apply lookup_row in E. destruct E as (k & Hin & _).
  repeat (destruct Hin as [Hin|Hin]; [injection Hin as _ <-; simpl; auto; discriminate|]). destruct Hin.
Qed.
Print Assumptions C32_reverse_oneway.

(** *** Street types *)
Definition street_eqb (x y : option street) : bool :=
  match x, y with
  | Some a, Some b => if string_dec (highway_value a) (highway_value b) then true else false
  | None, None => true
  | _, _ => false
  end.
Lemma street_eqb_eq x y : street_eqb x y = true -> x = y.
Proof. destruct x as [a|], y as [b|]; try discriminate; auto. destruct a, b; simpl; intros H; try discriminate; reflexivity. Qed.

Lemma highway_row ts v s r :
  tag (T "highway") ts = Some v ->
  (exists mid post, v = mid ++ post /\ Forall blank post /\ Forall2 upper_or_lower mid (T s)) ->
  checked street_eqb street_names r ("highway:" ++ s)%string = true -> street_from ts = r.
Proof.
  intros Et (mid & post & -> & Fp & Fm) Hc. apply checked_ok in Hc; [|exact street_eqb_eq]. destruct Hc as (A & B & C).
  assert (Ea : T ("highway:" ++ s)%string = T "highway:" ++ T s).
  { unfold T. generalize "highway:". intros p. induction p as [|x p IH]; [reflexivity|]. simpl. now rewrite IH. }
  assert (Hv : variant_of (T "highway:" ++ mid ++ post) (T ("highway:" ++ s)%string)).
  { exists [], (T "highway:" ++ mid), post. split; [now rewrite <- app_assoc|]. split; [constructor|]. split; [auto|]. rewrite Ea.
    apply Forall2_app; [|auto]. generalize (T "highway:"). intros l. induction l; constructor; auto. now left. }
  unfold street_from. rewrite Et. unfold street_from_str. rewrite (variant_normal _ _ Hv A B), C. now destruct r.
Qed.

(** Ways have the street type their highway value names, whatever the case of
    its letters and the white space after it. *)
Theorem C33_street ts mid post :
  tag (T "highway") ts = Some (mid ++ post) -> Forall blank post ->
  (forall c, Forall2 upper_or_lower mid (T (highway_value c)) -> street_from ts = Some c) /\
  (forall s, In s foot_values -> Forall2 upper_or_lower mid (T s) -> street_from ts = Some Pedestrian) /\
  (forall s, In s no_streets -> Forall2 upper_or_lower mid (T s) -> street_from ts = None).
Proof.
  intros Et Fp.
  assert (G : forall s r, Forall2 upper_or_lower mid (T s) -> checked street_eqb street_names r ("highway:" ++ s)%string = true -> street_from ts = r).
  { intros s r Fm Hc. apply (highway_row ts (mid ++ post) s r Et); [exists mid, post; auto|exact Hc]. }
  split; [|split].
  - intros c Fm. apply (G _ _ Fm). destruct c; vm_compute; reflexivity.
  - intros s Hin Fm. apply (G _ _ Fm).
    assert (Ha : forallb (fun s => checked street_eqb street_names (Some Pedestrian) ("highway:" ++ s)%string) foot_values = true) by (vm_compute; reflexivity).
    rewrite forallb_forall in Ha. exact (Ha s Hin).
  - intros s Hin Fm. apply (G _ _ Fm).
    assert (Ha : forallb (fun s => checked street_eqb street_names None ("highway:" ++ s)%string) no_streets = true) by (vm_compute; reflexivity).
    rewrite forallb_forall in Ha. exact (Ha s Hin).
Qed.
Print Assumptions C33_street.
Example C33_street_case : tag (T "highway") [(T "oneway", T "no"); (T "highway", T "Motorway_LINK ")] = Some (T "Motorway_LINK" ++ T " ") /\
  Forall blank (T " ") /\ Forall2 upper_or_lower (T "Motorway_LINK") (T (highway_value MotorwayLink)) /\
  street_from [(T "highway", T "hello")] = None /\ street_from [] = None.
Proof.
  split; [reflexivity|]. split; [constructor; [left; reflexivity|constructor]|]. split; [|split; reflexivity].
  unfold T. simpl. repeat (constructor; [first [left; reflexivity|right; vm_compute; lia]|]). constructor.
Qed.

(** White space before the value is not removed: trimming comes after
    prepending the key. *)
Theorem C33_street_refuted : exists ts v, tag (T "highway") ts = Some v /\ variant_of v (T (highway_value Motorway)) /\ street_from ts = None.
Proof.
  exists [(T "highway", T " motorway")], (T " motorway"). split; [reflexivity|]. split; [|vm_compute; reflexivity].
  exists (T " "), (T "motorway"), []. split; [reflexivity|]. split; [constructor; [left; reflexivity|constructor]|]. split; [constructor|].
  unfold T. simpl. repeat (constructor; [left; reflexivity|]). constructor.
Qed.
Print Assumptions C33_street_refuted.

(** *** A small file *)
Definition pbf_cfg (v : vehicle) : parse_cfg :=
  {| pc_vehicles := mkVehicle v true;
     pc_nodes := [NCMeta NNodeId "id"; NCMetric Latitude "lat"; NCMetric Longitude "lon"];
     pc_cfg := {| cfg_edges := {| ec_categories := [CMeta SrcId "s"; CMetric KilometersPerHour "v"; CMeta DstId "d"; CMetric LaneCount "l"];
                                  ec_normalized := false; ec_units := [KilometersPerHour; LaneCount]; ec_ids := ["v"; "l"] |};
                  cfg_nodes := [NMeta NNodeId "id"; NMetric "lat"; NMetric "lon"]; cfg_gen_nodes := []; cfg_gen_edges := [] |} |}.
Definition pbf_tags (h o : string) : tags := [(T "highway", T h); (T "oneway", T o)].

Example C32_case :
  map (fun e => (pe_src e, pe_dst e)) (way_edges (pbf_cfg Car) [7; 8; 9]%Z (pbf_tags "Residential" "no")) = [(7, 8); (8, 9); (9, 8); (8, 7)]%Z /\
  map (fun e => (pe_src e, pe_dst e)) (way_edges (pbf_cfg Car) [7; 8; 9]%Z (pbf_tags "trunk" " YES ")) = [(7, 8); (8, 9)]%Z /\
  map (fun e => (pe_src e, pe_dst e, pe_metrics e)) (way_edges (pbf_cfg Car) [7; 8; 9]%Z (pbf_tags "motorway" "-1")) =
    [(9, 8, [Fin 130; Fin 3]); (8, 7, [Fin 130; Fin 3])]%Z /\
  way_edges (pbf_cfg Walker) [7; 8; 9]%Z (pbf_tags "motorway" "-1") = [] /\ way_edges (pbf_cfg Car) [7]%Z (pbf_tags "motorway" "-1") = [] /\
  street_from (pbf_tags "trunk" " YES ") = Some Trunk /\ variant_of (T " YES ") (T "yes").
Proof.
  do 6 (split; [vm_compute; reflexivity|]). exists (T " "), (T "YES"), (T " "). split; [reflexivity|].
  assert (Forall blank (T " ")) by (constructor; [left; reflexivity|constructor]). split; [auto|]. split; [auto|].
  unfold T. simpl. repeat (constructor; [right; vm_compute; lia|]). constructor.
Qed.
