(** Properties C38 (units) and C40 (routing configuration) *)
From Coq Require Import String Ascii List Bool Arith ZArith QArith Lia Field Qfield.
From Verif Require Import Base F64 ModelUnits ModelConfig ModelGraph ModelBuild ModelDijkstra ModelRoutingCfg Lib
  Spec SpecGenerate SpecConfig ProofGenerate.
Import ListNotations.
Open Scope string_scope.
Open Scope list_scope.
Open Scope nat_scope.

(** ** C38 *)
Lemma fdiv_fz x (p : positive) : fdiv x (fz (Zpos p)) = match x with Fin q => Fin (q / inject_Z (Zpos p)) | _ => x end.
Proof. destruct x; simpl; auto. Qed.
Lemma fmul_fz x (p : positive) : fmul x (fz (Zpos p)) = match x with Fin q => Fin (q * inject_Z (Zpos p)) | _ => x end.
Proof. destruct x; simpl; auto. Qed.
Lemma same_value_refl x : same_value x x.
Proof. destruct x; simpl; auto. reflexivity. Qed.

(** conversion succeeds exactly between units of a kind or with the raw unit *)
Theorem C38_defined u w x :
  (exists y, try_convert u w x = Ok y) <-> measures u = measures w \/ measures u = Raw \/ measures w = Raw.
Proof.
  unfold try_convert. destruct u, w; simpl; split; intros H;
    try (destruct H as [y H]; discriminate); try (now eauto);
    destruct H as [H|[H|H]]; discriminate.
Qed.
Print Assumptions C38_defined.
(** it never panics or diverges *)
Theorem C38_total u w x : (exists y, try_convert u w x = Ok y) \/ (exists m, try_convert u w x = Err m).
Proof. unfold try_convert. destruct (convert_opt u w x); eauto. Qed.
Print Assumptions C38_total.
(** it keeps the amount between units of a kind and the number with the raw unit *)
Theorem C38_amount u w x y : try_convert u w x = Ok y ->
  (measures u = measures w -> same_amount x u y w) /\
  (measures u = Raw \/ measures w = Raw -> y = x).
Proof.
  unfold try_convert.
  destruct u, w; cbn [convert_opt]; intros H; try discriminate; injection H as <-;
    rewrite ?fdiv_fz, ?fmul_fz;
    (split; [intros Hk; try discriminate Hk; clear Hk; destruct x; cbn [same_amount size]; auto; try field; try reflexivity
            |intros [Hk|Hk]; try discriminate Hk; try reflexivity]).
Qed.
Print Assumptions C38_amount.

Lemma same_amount_back x u y w z : same_amount x u y w -> same_amount y w z u -> same_value x z.
Proof.
  assert (Hs : forall u, ~ (size u == 0)%Q) by (intros []; discriminate).
  destruct x, y; cbn [same_amount]; try contradiction; destruct z; cbn [same_amount same_value]; auto; try contradiction.
  intros A B. rewrite B in A. apply Qmult_inj_r in A; auto.
Qed.
(** there and back *)
Theorem C38_round_trip u w x y : try_convert u w x = Ok y ->
  exists z, try_convert w u y = Ok z /\ same_value x z.
Proof.
  intros H. assert (D : measures u = measures w \/ measures u = Raw \/ measures w = Raw)
    by (apply (C38_defined u w x); eauto).
  destruct (proj2 (C38_defined w u y)) as [z Hz]. { destruct D as [D|[D|D]]; auto. }
  exists z. split; auto. destruct (C38_amount _ _ _ _ H) as [A B]. destruct (C38_amount _ _ _ _ Hz) as [A' B'].
  destruct D as [D|D].
  - exact (same_amount_back _ _ _ _ _ (A D) (A' (eq_sym D))).
  - rewrite (B' (proj1 (or_comm _ _) D)), (B D). apply same_value_refl.
Qed.
Print Assumptions C38_round_trip.
(** via another unit or directly, as long as the raw unit is not involved *)
Theorem C38_via u v w x y z : measures u <> Raw -> measures v <> Raw -> measures w <> Raw ->
  try_convert u v x = Ok y -> try_convert v w y = Ok z ->
  exists z', try_convert u w x = Ok z' /\ same_value z z'.
Proof.
  intros Hu Hv Hw H1 H2.
  assert (D1 := proj1 (C38_defined u v x) (ex_intro _ _ H1)).
  assert (D2 := proj1 (C38_defined v w y) (ex_intro _ _ H2)).
  assert (K1 : measures u = measures v) by tauto. assert (K2 : measures v = measures w) by tauto.
  destruct (proj2 (C38_defined u w x)) as [z' Hz]; [left; congruence|]. exists z'. split; auto.
  destruct (C38_amount _ _ _ _ H1) as [A _]. destruct (C38_amount _ _ _ _ H2) as [B _].
  destruct (C38_amount _ _ _ _ Hz) as [C _]. specialize (A K1). specialize (B K2). specialize (C (eq_trans K1 K2)).
  assert (Hs : forall u, ~ (size u == 0)%Q) by (intros []; discriminate).
  destruct x, y; cbn [same_amount] in A; try contradiction; destruct z; cbn [same_amount] in B; try contradiction;
    destruct z'; cbn [same_amount] in C; try contradiction; cbn [same_value]; auto.
  rewrite A in C. rewrite B in C. apply Qmult_inj_r in C; auto.
Qed.
Print Assumptions C38_via.
Example C38_via_case :
  try_convert Seconds Minutes (Fin 90) = Ok (Fin (90 / 60)) /\
  exists z, try_convert Minutes Hours (Fin (90 / 60)) = Ok (Fin z) /\ (z == 1 # 40)%Q.
Proof. split; [reflexivity|]. eexists. split; [reflexivity|reflexivity]. Qed.
(** the raw unit forgets what was measured *)
Theorem C38_via_raw_refuted :
  exists u v w x y z, try_convert u v x = Ok y /\ try_convert v w y = Ok z /\
    forall z', try_convert u w x = Ok z' -> ~ same_value z z'.
Proof.
  exists Meters, UF64, Kilometers, (Fin 1), (Fin 1), (Fin 1). split; [reflexivity|]. split; [reflexivity|].
  intros z' H. injection H as <-. discriminate.
Qed.
Print Assumptions C38_via_raw_refuted.

(** calculating: only durations and speeds from kilometers *)
Theorem C38_calc_defined r ua a ub b :
  (exists y, try_calc r ua a ub b = Ok y) <->
  ua = Kilometers /\ ((ub = KilometersPerHour /\ measures r = Time) \/ (ub = Hours /\ r = KilometersPerHour)).
Proof.
  split.
  - intros [y H]. unfold try_calc in H. destruct r; try discriminate; destruct ua; try discriminate;
      destruct ub; try discriminate; auto.
  - intros (-> & [[-> H]|[-> ->]]); [destruct r; try discriminate|]; unfold try_calc; eauto.
Qed.
Print Assumptions C38_calc_defined.
(** distance = speed * time *)
Theorem C38_calc_duration r a b y : ~ (b == 0)%Q ->
  try_calc r Kilometers (Fin a) KilometersPerHour (Fin b) = Ok y ->
  exists t, y = Fin t /\ (a == b * (t * size r / size Hours))%Q.
Proof.
  intros Hb H. unfold try_calc in H.
  assert (E : fdiv (Fin a) (Fin b) = Fin (a / b)).
  { simpl. unfold qsign. destruct (Qcompare_spec b 0) as [Q|Q|Q]; auto. contradiction. }
  destruct r; try discriminate; rewrite E in H; injection H as <-; (eexists; split; [reflexivity|]);
    cbn [size]; unfold inject_Z; field; repeat split; auto; discriminate.
Qed.
Print Assumptions C38_calc_duration.
Theorem C38_calc_speed a b y : ~ (b == 0)%Q ->
  try_calc KilometersPerHour Kilometers (Fin a) Hours (Fin b) = Ok y ->
  exists v, y = Fin v /\ (a == v * b)%Q.
Proof.
  intros Hb H. unfold try_calc in H.
  assert (E : fdiv (Fin a) (Fin b) = Fin (a / b)).
  { simpl. unfold qsign. destruct (Qcompare_spec b 0) as [Q|Q|Q]; auto. contradiction. }
  rewrite E in H. injection H as <-. eexists. split; [reflexivity|]. field. auto.
Qed.
Print Assumptions C38_calc_speed.
Example C38_calc_case :
  exists y v, try_calc Minutes Kilometers (Fin 5) KilometersPerHour (Fin 50) = Ok (Fin y) /\ (y == 6)%Q /\
    try_calc KilometersPerHour Kilometers (Fin 5) Hours (Fin (1 # 10)) = Ok (Fin v) /\ (v == 50)%Q.
Proof. eexists. eexists. repeat split; reflexivity. Qed.
(** without speed the duration is infinite or not a number *)
Theorem C38_calc_no_speed r a y :
  try_calc r Kilometers (Fin a) KilometersPerHour (Fin 0) = Ok y -> y = PInf \/ y = NInf \/ y = NaN.
Proof.
  unfold try_calc, fdiv, qsign. destruct r; try discriminate; simpl;
    destruct (a ?= 0)%Q; intros H; injection H as <-; simpl; auto.
Qed.
Print Assumptions C38_calc_no_speed.
(** the panicking variant panics exactly when there is no conversion *)
Theorem C38_convert u w x :
  (exists y, convert u w x = Ok y /\ try_convert u w x = Ok y) \/
  (convert u w x = Panic /\ ~ (measures u = measures w \/ measures u = Raw \/ measures w = Raw)).
Proof.
  destruct (C38_total u w x) as [(y & H)|(m & H)].
  - left. exists y. unfold convert. now rewrite H.
  - right. unfold convert. rewrite H. split; auto. intros D. apply (C38_defined u w x) in D. destruct D. congruence.
Qed.
Print Assumptions C38_convert.

(** ** C40 *)
Lemma entry_scale_value p s x : entry_scale p s = Ok x <-> scale_value p s x.
Proof.
  unfold entry_scale, scale_value. destruct s as [t|].
  - destruct (String.eqb_spec (lower t) "inf") as [E|E]; cbn [orb].
    + split; [intros H; injection H as <-; auto|intros [[_ ->]|(H & _)]; [reflexivity|contradiction]].
    + destruct (String.eqb_spec (lower t) "infinity") as [E'|E'].
      * split; [intros H; injection H as <-; auto|intros [[_ ->]|(_ & H & _)]; [reflexivity|contradiction]].
      * destruct (p (lower t)) as [y|].
        -- split; [intros H; injection H as <-; auto|intros [[[H|H] _]|(_ & _ & H)]; congruence].
        -- split; [discriminate|intros [[[H|H] _]|(_ & _ & H)]; congruence].
  - split; [intros H; injection H as <-; auto|intros ->; reflexivity].
Qed.
Lemma try_idx_first ids id i : try_idx_of ids id = Ok i <-> first_at ids id i.
Proof.
  rewrite <- position_first. unfold try_idx_of. destruct (position id ids); split; intros H; inversion H; auto.
Qed.
Lemma first_dec ids id : (exists i, first_at ids id i) \/ (~ In id ids /\ exists m, try_idx_of ids id = Err m).
Proof.
  unfold try_idx_of. destruct (position id ids) as [i|] eqn:E.
  - left. exists i. now apply position_first.
  - right. split; [|eauto]. intros Hin. revert E. clear -Hin. induction ids as [|x t IH]; simpl in *; [contradiction|].
    destruct (String.eqb_spec x id); [discriminate|]. destruct Hin as [|Hin]; [congruence|].
    destruct (position id t); [discriminate|]. intros _. now apply IH.
Qed.
Lemma first_in ids id i : first_at ids id i -> In id ids.
Proof. intros [H _]. eapply nth_error_In; eauto. Qed.

(** the state after any entries *)
Definition rank (ids : list string) (es : list proto_entry) (i : nat) (s : list f64 * list f64) : Prop :=
  ((forall e, In e es -> ~ first_at ids (pe_rid e) i) ->
     nth_error (fst s) i = Some f0 /\ nth_error (snd s) i = Some PInf) /\
  (forall before e after, es = before ++ e :: after -> first_at ids (pe_rid e) i ->
     (forall e', In e' after -> ~ first_at ids (pe_rid e') i) ->
     nth_error (fst s) i = Some (pe_alpha e) /\ nth_error (snd s) i = Some (pe_scale e)).
Lemma set_entries ids dim es : length ids = dim ->
  match foldM (set_entry ids) es (repeat f0 dim, repeat PInf dim) with
  | Ok s => length (fst s) = dim /\ length (snd s) = dim /\ (forall i, i < dim -> rank ids es i s) /\
            forall e, In e es -> In (pe_rid e) ids
  | Err _ => exists e, In e es /\ ~ In (pe_rid e) ids
  | _ => False
  end.
Proof.
  intros Hd. induction es as [|e es IH] using rev_ind.
  - cbn [foldM fst snd]. rewrite !repeat_length. repeat split; auto.
    + now apply nth_error_repeat. + now apply nth_error_repeat.
    + intros. destruct before; discriminate. + destruct before; discriminate. + intros e [].
  - rewrite foldM_app. destruct (foldM (set_entry ids) es _) as [s|m| |]; cbn [bind]; try contradiction.
    2:{ destruct IH as (e' & A & B). exists e'. split; auto. apply in_or_app. auto. }
    destruct IH as (L1 & L2 & R & K). cbn [foldM]. unfold set_entry.
    destruct (first_dec ids (pe_rid e)) as [(j & Hj)|(Hn & m & ->)]; cbn [bind].
    2:{ exists e. split; auto. apply in_or_app. right. now left. }
    rewrite (proj2 (try_idx_first _ _ _) Hj). cbn [bind].
    pose proof (first_lt _ _ _ Hj) as Lj. rewrite Hd in Lj.
    rewrite !set_lt by lia. cbn [bind fst snd]. rewrite !upd_length. split; auto. split; auto. split.
    + intros i Hi. destruct (R i Hi) as [R1 R2]. split.
      * intros H. destruct (Nat.eq_dec j i) as [->|Hne].
        -- exfalso. apply (H e); auto. apply in_or_app. right. now left.
        -- cbn [fst snd]. rewrite !nth_error_upd_neq by auto. apply R1. intros e' He'. apply H. apply in_or_app. auto.
      * intros before e0 after E Hf Ha. cbn [fst snd].
        destruct after as [|a after] using rev_ind.
        -- apply app_inj_tail in E. destruct E as [-> ->]. rewrite (first_fun _ _ _ _ Hj Hf).
           rewrite !nth_error_upd_eq by lia. auto.
        -- clear IHafter. rewrite app_comm_cons, app_assoc in E. apply app_inj_tail in E. destruct E as [-> ->].
           assert (Hne : j <> i). { intros ->. apply (Ha a); auto. apply in_or_app. right. now left. }
           rewrite !nth_error_upd_neq by auto. apply (R2 before e0 after); auto.
           intros e' He'. apply Ha. apply in_or_app. auto.
    + intros e' He'. apply in_app_or in He'. destruct He' as [He'|[<-|[]]]; auto. now apply first_in in Hj.
Qed.

Lemma Forall2_split {A B} (R : A -> B -> Prop) l1 x l2 l' : Forall2 R (l1 ++ x :: l2) l' ->
  exists m1 y m2, l' = m1 ++ y :: m2 /\ Forall2 R l1 m1 /\ R x y /\ Forall2 R l2 m2.
Proof.
  intros H. apply Forall2_app_inv_l in H. destruct H as (m1 & m2 & H1 & H2 & ->).
  inversion H2; subst. eauto 10.
Qed.
Lemma Forall2_in_l {A B} (R : A -> B -> Prop) l l' y : Forall2 R l l' -> In y l' -> exists x, In x l /\ R x y.
Proof.
  induction 1; intros Hin; [destruct Hin|]. destruct Hin as [<-|Hin]; [exists x; split; auto; now left|].
  destruct (IHForall2 Hin) as (z & A1 & A2). exists z. split; auto. now right.
Qed.
Lemma mapM_entries p rs :
  match mapM (proto_entry_of p) rs with
  | Ok es => Forall2 (fun r e => pe_rid e = re_id r /\ pe_alpha e = alpha_value (re_alpha r) /\
                                 scale_value p (re_scale r) (pe_scale e)) rs es
  | Err _ => exists r, In r rs /\ forall x, ~ scale_value p (re_scale r) x
  | _ => False
  end.
Proof.
  induction rs as [|r rs IH]; cbn [mapM].
  - constructor.
  - unfold proto_entry_of at 1. destruct (entry_scale p (re_scale r)) as [x|m| |] eqn:E; cbn [bind].
    + destruct (mapM (proto_entry_of p) rs) as [es|m| |]; cbn [bind]; try contradiction.
      * constructor; auto. cbn. repeat split; auto. now apply entry_scale_value.
      * destruct IH as (r' & A & B). exists r'. split; auto. now right.
    + exists r. split; [now left|]. intros x Hx. apply entry_scale_value in Hx. congruence.
    + unfold entry_scale in E. destruct (re_scale r); [|discriminate]. destruct (_ || _); [discriminate|].
      destruct (p _); discriminate.
    + unfold entry_scale in E. destruct (re_scale r); [|discriminate]. destruct (_ || _); [discriminate|].
      destruct (p _); discriminate.
Qed.

(** accepted iff all metrics are known and all scales are numbers; otherwise an
    error *)
Theorem C40_accepted p ec algo rs : length (ec_ids ec) = length (ec_units ec) ->
  ((exists rc, routing_try_from p ec algo rs = Ok rc) <->
   forall r, In r rs -> In (re_id r) (ec_ids ec) /\ exists x, scale_value p (re_scale r) x) /\
  ((exists rc, routing_try_from p ec algo rs = Ok rc) \/ exists m, routing_try_from p ec algo rs = Err m).
Proof.
  intros Hl. unfold routing_try_from, routing_from_proto.
  pose proof (mapM_entries p rs) as M. destruct (mapM (proto_entry_of p) rs) as [es|m| |]; cbn [bind]; try contradiction.
  - pose proof (set_entries (ec_ids ec) (length (ec_units ec)) es Hl) as S.
    destruct (foldM _ _ _) as [s|m| |]; cbn [bind]; try contradiction.
    + split; [|left; eauto]. split; [|eauto]. intros _ r Hr. destruct S as (_ & _ & _ & K).
      destruct (In_nth_error _ _ Hr) as (n & Hn). destruct (Forall2_nth _ _ _ _ _ M Hn) as (e & He & A & _ & B).
      rewrite <- A. split; eauto. apply K. eapply nth_error_In; eauto.
    + split; [|right; eauto]. split; [intros [rc H]; discriminate|]. intros H. exfalso.
      destruct S as (e & He & Hn). destruct (Forall2_in_l _ _ _ _ M He) as (r & Hr & A & _).
      apply Hn. rewrite A. now apply H.
  - split; [|right; eauto]. split; [intros [rc H]; discriminate|]. intros H. exfalso.
    destruct M as (r & Hr & Hx). destruct (H r Hr) as [_ [x Hs]]. now apply (Hx x).
Qed.
Print Assumptions C40_accepted.

(** the last mention counts; unmentioned metrics get 0 and infinity *)
Theorem C40_config p ec algo rs rc : length (ec_ids ec) = length (ec_units ec) ->
  routing_try_from p ec algo rs = Ok rc ->
  rc_algo rc = algo /\ length (rc_alphas rc) = length (ec_units ec) /\ length (rc_scales rc) = length (ec_units ec) /\
  forall i, i < length (ec_units ec) ->
    ((forall r, In r rs -> ~ mentions (ec_ids ec) i r) ->
       nth_error (rc_alphas rc) i = Some (Fin 0) /\ nth_error (rc_scales rc) i = Some PInf) /\
    (forall before r after, rs = before ++ r :: after -> mentions (ec_ids ec) i r ->
       (forall r', In r' after -> ~ mentions (ec_ids ec) i r') ->
       nth_error (rc_alphas rc) i = Some (alpha_value (re_alpha r)) /\
       exists x, nth_error (rc_scales rc) i = Some x /\ scale_value p (re_scale r) x).
Proof.
  intros Hl. unfold routing_try_from, routing_from_proto, mentions.
  pose proof (mapM_entries p rs) as M. destruct (mapM (proto_entry_of p) rs) as [es|m| |]; cbn [bind]; try discriminate.
  pose proof (set_entries (ec_ids ec) (length (ec_units ec)) es Hl) as S.
  destruct (foldM _ _ _) as [s|m| |]; cbn [bind]; try discriminate. intros H. injection H as <-. cbn.
  destruct S as (L1 & L2 & R & _). split; auto. split; auto. split; auto.
  intros i Hi. destruct (R i Hi) as [R1 R2]. split.
  - intros Hno. apply R1. intros e He. destruct (Forall2_in_l _ _ _ _ M He) as (r & Hr & A & _).
    rewrite A. now apply Hno.
  - intros before r after -> Hm Ha. destruct (Forall2_split _ _ _ _ _ M) as (m1 & e & m2 & -> & M1 & (A & B & C) & M2).
    destruct (R2 m1 e m2 eq_refl) as [Q1 Q2].
    + now rewrite A.
    + intros e' He'. destruct (Forall2_in_l _ _ _ _ M2 He') as (r' & Hr' & A' & _). rewrite A'. now apply Ha.
    + rewrite <- B. split; eauto.
Qed.
Print Assumptions C40_config.
Definition ex_parse (s : string) : option f64 := if String.eqb s "1.5" then Some (Fin (3 # 2)) else None.
Definition ex_ec : edge_cfg :=
  {| ec_categories := [CMetric Kilometers "km"; CMetric Hours "h"; CMetric UF64 "x"]; ec_normalized := false;
     ec_units := [Kilometers; Hours; UF64]; ec_ids := ["km"; "h"; "x"] |}.
Example C40_case :
  routing_try_from ex_parse ex_ec ACHDijkstra
    [ {| re_id := "x"; re_alpha := Some (Fin 7); re_scale := Some "1.5" |};
      {| re_id := "km"; re_alpha := None; re_scale := Some "INF" |};
      {| re_id := "x"; re_alpha := Some (Fin 2); re_scale := None |} ] =
    Ok {| rc_algo := ACHDijkstra; rc_alphas := [Fin 1; Fin 0; Fin 2]; rc_scales := [PInf; PInf; PInf] |} /\
  (exists m, routing_try_from ex_parse ex_ec ADijkstra
    [ {| re_id := "m"; re_alpha := None; re_scale := None |} ] = Err m) /\
  (exists m, routing_try_from ex_parse ex_ec ADijkstra
    [ {| re_id := "km"; re_alpha := None; re_scale := Some "much" |} ] = Err m).
Proof. split; [reflexivity|]. split; eexists; reflexivity. Qed.
