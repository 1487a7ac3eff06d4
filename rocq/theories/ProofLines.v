(** Lemmas about the lines of fmi-files *)
From Coq Require Import String Ascii List Bool Arith NArith ZArith Lia.
From Verif Require Import Base F64 ModelText ModelStreets ModelUnits ModelConfig ModelGraph ModelBuild ModelParsing ModelFmi Lib ProofText SpecGenerate SpecLines.
Import ListNotations.
Open Scope string_scope.
Open Scope list_scope.
Open Scope nat_scope.

(** *** Columns as a function *)
Fixpoint pickw {A} (f : A -> bool) (cs : list A) (ws : list text) : list text :=
  match cs, ws with
  | c :: cs, w :: ws => if f c then w :: pickw f cs ws else pickw f cs ws
  | _, _ => []
  end.
Lemma column_pick {A} (f : A -> bool) (P : A -> Prop) : (forall c, f c = true <-> P c) ->
  forall cs ws l, column_words P cs ws l <-> length cs <= length ws /\ l = pickw f cs ws.
Proof.
  intros H. induction cs as [|c cs IH]; intros ws l.
  - split; [intros E; inversion E; subst; split; [simpl; lia|reflexivity]|]. intros [_ ->]. constructor.
  - split.
    + intros E. inversion E as [|? ? w ws' l' Hc E'|? ? w ws' l' Hc E']; subst; apply IH in E'; destruct E' as [A1 ->]; (split; [simpl; lia|]); cbn [pickw].
      * apply H in Hc. now rewrite Hc.
      * destruct (f c) eqn:Ef; [apply H in Ef; contradiction|reflexivity].
    + intros [Hl ->]. destruct ws as [|w ws]; [simpl in Hl; lia|]. cbn [pickw]. assert (Hr : column_words P cs ws (pickw f cs ws)) by (apply IH; split; [simpl in Hl; lia|reflexivity]).
      destruct (f c) eqn:Ef; constructor; auto; [now apply H|]. intros Hp. apply H in Hp. congruence.
Qed.

(** *** Fields set once, or overwritten *)
Definition ones {A} (f : text -> option A) (o : option A) (l : list text) (o' : option A) : Prop :=
  (l = [] /\ o' = o) \/ exists w z, l = [w] /\ o = None /\ f w = Some z /\ o' = Some z.
Definition lasts {A} (f : text -> option A) (o : option A) (l : list text) (o' : option A) : Prop :=
  Forall (fun w => exists z, f w = Some z) l /\ ((l = [] /\ o' = o) \/ exists w z, last_word l w /\ f w = Some z /\ o' = Some z).
Lemma ones_cons {A} (f : text -> option A) o w l o' : ones f o (w :: l) o' <-> o = None /\ exists z, f w = Some z /\ ones f (Some z) l o'.
Proof.
  unfold ones. split.
  - intros [[E _]|(w' & z & E & -> & F & ->)]; [discriminate|]. injection E as -> ->. split; auto. exists z. auto.
  - intros (-> & z & F & [[-> ->]|(w' & z' & _ & E & _)]); [|discriminate]. right. exists w, z. auto.
Qed.
Lemma lasts_cons {A} (f : text -> option A) o w l o' : lasts f o (w :: l) o' <-> exists z, f w = Some z /\ lasts f (Some z) l o'.
Proof.
  unfold lasts, last_word. split.
  - intros (F & [[E _]|(w' & z & (l' & E) & Fz & ->)]); [discriminate|]. inversion F as [|? ? (z0 & Fw) F']; subst. exists z0. split; auto. split; auto.
    destruct l' as [|w0 l'].
    + injection E as -> ->. left. split; auto. congruence.
    + injection E as -> ->. right. exists w', z. split; [exists l'; auto|]. auto.
  - intros (z & Fw & F & H). split; [constructor; eauto|]. right. destruct H as [[-> ->]|(w' & z' & (l' & ->) & Fz & ->)].
    + exists w, z. split; [exists []; auto|]. auto.
    + exists w', z'. split; [exists (w :: l'); auto|]. auto.
Qed.
Lemma ones_nil {A} (f : text -> option A) o o' : ones f o [] o' <-> o' = o.
Proof. unfold ones. split; [intros [[_ E]|(w & z & E & _)]; [auto|discriminate]|auto]. Qed.
Lemma lasts_nil {A} (f : text -> option A) o o' : lasts f o [] o' <-> o' = o.
Proof.
  unfold lasts, last_word. split; [intros (_ & [[_ E]|(w & z & (l' & E) & _)]); [auto|destruct l'; discriminate]|]. intros ->. split; [constructor|auto].
Qed.

(** *** Edge lines *)
Definition is_meta (i : edge_meta) (c : category) : bool :=
  match c, i with
  | CMeta EdgeId _, EdgeId | CMeta SrcId _, SrcId | CMeta DstId _, DstId
  | CMeta ShortcutIdx0 _, ShortcutIdx0 | CMeta ShortcutIdx1 _, ShortcutIdx1 => true
  | _, _ => false
  end.
Definition is_metric (c : category) : bool := match c with CMetric _ _ => true | _ => false end.
Definition number (w : text) : option nat := option_map N.to_nat (parse_usize w).
Definition edge_id_of (w : text) : option nat := match parse_edge_id w with Ok n => Some n | _ => None end.
Definition unset (w : text) : bool := negb (text_eqb w NO_SHORTCUT_IDX).

Section Lines.
  Variable parse_f64 : text -> option f64.

  Definition fields (a : edge_acc) (cs : list category) (ws : list text) (a' : edge_acc) : Prop :=
    Forall readable cs /\ length cs <= length ws /\
    ones parse_i64 (ea_src a) (pickw (is_meta SrcId) cs ws) (ea_src a') /\
    ones parse_i64 (ea_dst a) (pickw (is_meta DstId) cs ws) (ea_dst a') /\
    lasts edge_id_of (ea_id a) (pickw (is_meta EdgeId) cs ws) (ea_id a') /\
    ones number (ea_sc0 a) (filter unset (pickw (is_meta ShortcutIdx0) cs ws)) (ea_sc0 a') /\
    ones number (ea_sc1 a) (filter unset (pickw (is_meta ShortcutIdx1) cs ws)) (ea_sc1 a') /\
    exists xs, Forall2 (fun w x => parse_f64 w = Some x) (pickw is_metric cs ws) xs /\ ea_metrics a' = ea_metrics a ++ xs.

  Lemma edge_params_fields cs : forall ws a a', edge_params parse_f64 a cs ws = Ok a' <-> fields a cs ws a'.
  Proof.
    induction cs as [|c cs IH]; intros ws a a'.
    - cbn [edge_params]. unfold fields. cbn [pickw filter]. rewrite !ones_nil, !lasts_nil. split.
      + intros E. injection E as <-. split; [constructor|]. split; [simpl; lia|]. do 5 (split; [reflexivity|]). exists []. rewrite app_nil_r. split; [constructor|reflexivity].
      + intros (_ & _ & E1 & E2 & E3 & E4 & E5 & xs & F & E6). inversion F; subst. rewrite app_nil_r in E6. destruct a, a'; cbn in *. congruence.
    - destruct ws as [|w ws].
      + cbn [edge_params]. split; [discriminate|]. intros (_ & Hl & _). simpl in Hl. lia.
      + cbn [edge_params]. assert (Hlen : length (c :: cs) <= length (w :: ws) <-> length cs <= length ws) by (simpl; lia).
        assert (Hrd : Forall readable (c :: cs) <-> readable c /\ Forall readable cs) by (split; [intros F; inversion F; auto|intros [? ?]; constructor; auto]).
        unfold fields. rewrite Hlen, Hrd. clear Hlen Hrd.
        destruct c as [i id|u id|]; [destruct i| |]; cbn [edge_param pickw is_meta is_metric readable bind];
          try (split; [discriminate|intros [[[] _] _]]).
        * (* EdgeId *)
          rewrite lasts_cons. unfold edge_id_of at 1. destruct (parse_edge_id w) as [n| | |]; cbn [bind];
            try (split; [discriminate|intros (_ & _ & _ & _ & (z & E & _) & _); discriminate]).
          rewrite IH. unfold fields. cbn [ea_id ea_src ea_dst ea_sc0 ea_sc1 ea_metrics].
          split; [intros (A & B & C & D & E & R); split; [auto|]; split; [auto|]; split; [auto|]; split; [auto|]; split; [eauto|auto]|].
          intros ((_ & A) & B & C & D & (z & Ez & E) & R). injection Ez as <-. auto 10.
        * (* SrcId *)
          rewrite ones_cons. unfold parse_node_id. destruct (ea_src a) as [s|] eqn:Es;
            [split; [discriminate|intros (_ & _ & (E & _) & _); discriminate]|].
          destruct (parse_i64 w) as [z|]; [|split; [discriminate|intros (_ & _ & (_ & z & E & _) & _); discriminate]].
          cbn [bind]. rewrite IH. unfold fields. cbn [ea_id ea_src ea_dst ea_sc0 ea_sc1 ea_metrics].
          split; [intros (A & B & C & R); split; [auto|]; split; [auto|]; split; [split; [auto|eauto]|auto]|].
          intros ((_ & A) & B & (_ & z' & Ez & C) & R). injection Ez as <-. auto 10.
        * (* DstId *)
          rewrite ones_cons. unfold parse_node_id. destruct (ea_dst a) as [s|] eqn:Es;
            [split; [discriminate|intros (_ & _ & _ & (E & _) & _); discriminate]|].
          destruct (parse_i64 w) as [z|]; [|split; [discriminate|intros (_ & _ & _ & (_ & z & E & _) & _); discriminate]].
          cbn [bind]. rewrite IH. unfold fields. cbn [ea_id ea_src ea_dst ea_sc0 ea_sc1 ea_metrics].
          split; [intros (A & B & C & D & R); split; [auto|]; split; [auto|]; split; [auto|]; split; [split; [auto|eauto]|auto]|].
          intros ((_ & A) & B & C & (_ & z' & Ez & D) & R). injection Ez as <-. auto 10.
        * (* ShortcutIdx0 *)
          unfold parse_sc_idx. cbn [filter]. unfold unset at 1. destruct (text_eqb w NO_SHORTCUT_IDX); cbn [negb bind].
          { destruct a as [x1 x2 x3 x4 x5 x6]; cbn [ea_id ea_src ea_dst ea_sc0 ea_sc1 ea_metrics] in *. rewrite IH. unfold fields. cbn [ea_id ea_src ea_dst ea_sc0 ea_sc1 ea_metrics]. tauto. }
          rewrite ones_cons. unfold number at 1. destruct (parse_usize w) as [n|]; cbn [option_map];
            [|split; [discriminate|intros (_ & _ & _ & _ & _ & (_ & z & E & _) & _); discriminate]].
          destruct (ea_sc0 a) as [s|] eqn:Es; [split; [discriminate|intros (_ & _ & _ & _ & _ & (E & _) & _); discriminate]|].
          cbn [bind]. rewrite IH. unfold fields. cbn [ea_id ea_src ea_dst ea_sc0 ea_sc1 ea_metrics].
          split; [intros (A & B & C & D & E & F & R); do 5 (split; [auto|]); split; [split; [auto|eauto]|auto]|].
          intros ((_ & A) & B & C & D & E & (_ & z' & Ez & F) & R). injection Ez as <-. auto 10.
        * (* ShortcutIdx1 *)
          unfold parse_sc_idx. cbn [filter]. unfold unset at 2. destruct (text_eqb w NO_SHORTCUT_IDX); cbn [negb bind].
          { destruct a as [x1 x2 x3 x4 x5 x6]; cbn [ea_id ea_src ea_dst ea_sc0 ea_sc1 ea_metrics] in *. rewrite IH. unfold fields. cbn [ea_id ea_src ea_dst ea_sc0 ea_sc1 ea_metrics]. tauto. }
          rewrite ones_cons. unfold number at 2. destruct (parse_usize w) as [n|]; cbn [option_map];
            [|split; [discriminate|intros (_ & _ & _ & _ & _ & _ & (_ & z & E & _) & _); discriminate]].
          destruct (ea_sc1 a) as [s|] eqn:Es; [split; [discriminate|intros (_ & _ & _ & _ & _ & _ & (E & _) & _); discriminate]|].
          cbn [bind]. rewrite IH. unfold fields. cbn [ea_id ea_src ea_dst ea_sc0 ea_sc1 ea_metrics].
          split; [intros (A & B & C & D & E & F & G & R); do 6 (split; [auto|]); split; [split; [auto|eauto]|auto]|].
          intros ((_ & A) & B & C & D & E & F & (_ & z' & Ez & G) & R). injection Ez as <-. auto 10.
        * (* metric *)
          destruct (parse_f64 w) as [x|] eqn:Ex; cbn [bind].
          2:{ split; [discriminate|]. intros (_ & _ & _ & _ & _ & _ & _ & xs & F & _). inversion F; subst. congruence. }
          rewrite IH. unfold fields. cbn [ea_id ea_src ea_dst ea_sc0 ea_sc1 ea_metrics].
          split.
          { intros (A & B & C & D & E & F & G & xs & Fx & Em). do 7 (split; [auto|]). exists (x :: xs). rewrite <- app_assoc in Em. split; [constructor; auto|auto]. }
          intros ((_ & A) & B & C & D & E & F & G & xs & Fx & Em). do 7 (split; [auto|]). inversion Fx as [|? y ? ys Ey Fy]; subst. exists ys. split; [auto|].
          rewrite <- app_assoc. assert (x = y) by congruence. subst. exact Em.
        * (* ignored *)
          rewrite IH. unfold fields. tauto.
  Qed.

  (** *** Node lines *)
  Definition is_node (c0 c : node_cat) : bool :=
    match c0, c with
    | NCMeta NNodeId _, NCMeta NNodeId _ | NCMeta NCHLevel _, NCMeta NCHLevel _
    | NCMetric Latitude _, NCMetric Latitude _ | NCMetric Longitude _, NCMetric Longitude _ => true
    | _, _ => false
    end.
  Definition nfields (a : node_acc) (cs : list node_cat) (ws : list text) (a' : node_acc) : Prop :=
    Forall node_readable cs /\ length cs <= length ws /\
    lasts parse_i64 (na_id a) (pickw (is_node (NCMeta NNodeId "")) cs ws) (na_id a') /\
    lasts parse_f64 (na_lat a) (pickw (is_node (NCMetric Latitude "")) cs ws) (na_lat a') /\
    lasts parse_f64 (na_lon a) (pickw (is_node (NCMetric Longitude "")) cs ws) (na_lon a') /\
    lasts number (na_level a) (pickw (is_node (NCMeta NCHLevel "")) cs ws) (na_level a').
  Lemma node_params_fields all cs : forall ws a a', node_params parse_f64 all a cs ws = Ok a' <-> nfields a cs ws a'.
  Proof.
    induction cs as [|c cs IH]; intros ws a a'.
    - cbn [node_params]. unfold nfields. cbn [pickw]. rewrite !lasts_nil. split.
      + intros E. injection E as <-. split; [constructor|]. split; [simpl; lia|]. auto.
      + intros (_ & _ & E1 & E2 & E3 & E4). destruct a, a'; cbn in *. congruence.
    - destruct ws as [|w ws].
      + cbn [node_params]. split; [discriminate|]. intros (_ & Hl & _). simpl in Hl. lia.
      + cbn [node_params]. assert (Hlen : length (c :: cs) <= length (w :: ws) <-> length cs <= length ws) by (simpl; lia).
        assert (Hrd : Forall node_readable (c :: cs) <-> node_readable c /\ Forall node_readable cs) by (split; [intros F; inversion F; auto|intros [? ?]; constructor; auto]).
        unfold nfields. rewrite Hlen, Hrd. clear Hlen Hrd.
        destruct c as [i id|u id|]; [destruct i|destruct u|]; cbn [node_param pickw is_node node_readable bind];
          try (split; [discriminate|intros [[[] _] _]]).
        * rewrite lasts_cons. destruct (parse_i64 w) as [z|]; cbn [bind]; [|split; [discriminate|intros (_ & _ & (z & E & _) & _); discriminate]].
          rewrite IH. unfold nfields. cbn [na_id na_lat na_lon na_level].
          split; [intros (A & B & C & R); do 2 (split; [auto|]); split; [eauto|auto]|].
          intros ((_ & A) & B & (z' & Ez & C) & R). injection Ez as <-. auto.
        * rewrite lasts_cons. unfold number at 1. destruct (parse_usize w) as [z|]; cbn [bind option_map];
            [|split; [discriminate|intros (_ & _ & _ & _ & _ & (z & E & _)); discriminate]].
          rewrite IH. unfold nfields. cbn [na_id na_lat na_lon na_level].
          split; [intros (A & B & C & D & E & R); do 5 (split; [auto|]); eauto|].
          intros ((_ & A) & B & C & D & E & (z' & Ez & R)). injection Ez as <-. auto 8.
        * rewrite lasts_cons. destruct (parse_f64 w) as [z|]; cbn [bind].
          2:{ split; [destruct (idx all 2); discriminate|intros (_ & _ & _ & (z & E & _) & _); discriminate]. }
          rewrite IH. unfold nfields. cbn [na_id na_lat na_lon na_level].
          split; [intros (A & B & C & D & R); do 3 (split; [auto|]); split; [eauto|auto]|].
          intros ((_ & A) & B & C & (z' & Ez & D) & R). injection Ez as <-. auto.
        * rewrite lasts_cons. destruct (parse_f64 w) as [z|]; cbn [bind].
          2:{ split; [destruct (idx all 3); discriminate|intros (_ & _ & _ & _ & (z & E & _) & _); discriminate]. }
          rewrite IH. unfold nfields. cbn [na_id na_lat na_lon na_level].
          split; [intros (A & B & C & D & E & R); do 4 (split; [auto|]); split; [eauto|auto]|].
          intros ((_ & A) & B & C & D & (z' & Ez & E) & R). injection Ez as <-. auto 8.
        * rewrite IH. unfold nfields. tauto.
  Qed.
End Lines.
