(** Lemmas about matrices *)
From Coq Require Import List Bool Arith Lia QArith.
From Verif Require Import Base F64 Lib ModelAlgebra SpecRouting SpecCells.
Import ListNotations.
Open Scope nat_scope.

Lemma concat_length nr nc : forall rows, table nr nc rows -> length (concat rows) = nr * nc.
Proof.
  intros rows [<- H]. induction rows as [|r rows IH]; [reflexivity|]. cbn [concat length]. rewrite app_length.
  rewrite (H r (or_introl eq_refl)), IH by (intros x Hx; apply H; now right). lia.
Qed.

Lemma concat_nth nc : forall (rows : list (list f64)) i j r, (forall x, In x rows -> length x = nc) -> j < nc -> nth_error rows i = Some r ->
  nth_error (concat rows) (i * nc + j) = nth_error r j.
Proof.
  induction rows as [|r0 rows IH]; intros i j r H Hj E; [now destruct i|].
  pose proof (H r0 (or_introl eq_refl)) as Hr0. destruct i as [|i]; cbn [nth_error concat] in *.
  - injection E as ->. cbn. rewrite nth_error_app1; [reflexivity|lia].
  - rewrite nth_error_app2 by lia. replace (S i * nc + j - length r0) with (i * nc + j) by lia.
    apply IH; auto. intros x Hx. apply H. now right.
Qed.

Lemma from_rows_ok nr nc rows : 0 < nr -> table nr nc rows ->
  exists m, from_rows rows = Ok m /\ mx_rows m = nr /\ mx_cols m = nc /\ length (mx_data m) = nr * nc /\
    forall k x, nth_error (mx_data m) k = Some x <-> k < nr * nc /\ entry rows (k mod nr) (k / nr) x.
Proof.
  intros Hnr Ht. pose proof (concat_length _ _ _ Ht) as Hc. destruct Ht as [Hl Hr].
  unfold from_rows. destruct (idx_lt rows 0) as (r0 & E0); [lia|]. rewrite E0. cbn [bind].
  apply idx_ok in E0. rewrite (Hr r0 (nth_error_In _ _ E0)), Hl. unfold from_row_slice. rewrite Hc, Nat.eqb_refl.
  set (f := fun k => nth (k mod nr * nc + k / nr) (concat rows) NaN).
  assert (Hb : forall k, k < nr * nc -> k mod nr < nr /\ k / nr < nc).
  { intros k Hk. split; [apply Nat.mod_upper_bound; lia|apply Nat.div_lt_upper_bound; lia]. }
  assert (Hn : forall k, k < nr * nc -> nth_error (concat rows) (k mod nr * nc + k / nr) = Some (f k)).
  { intros k Hk. destruct (Hb k Hk). apply nth_error_nth'. rewrite Hc.
    apply Nat.lt_le_trans with (S (k mod nr) * nc); [lia|]. apply Nat.mul_le_mono_r. lia. }
  rewrite (mapM_total _ f); [|intros k Hk; apply in_seq in Hk; apply idx_ok; apply Hn; lia].
  cbn [bind]. eexists. split; [reflexivity|]. cbn [mx_rows mx_cols mx_data].
  split; [reflexivity|]. split; [reflexivity|]. split; [now rewrite map_length, seq_length|].
  intros k x. split.
  - intros E. assert (Hk : k < nr * nc).
    { assert (H : k < length (map f (seq 0 (nr * nc)))) by (apply nth_error_Some; congruence). now rewrite map_length, seq_length in H. }
    split; auto. destruct (Hb k Hk) as [H1 H2].
    destruct (nth_error rows (k mod nr)) as [r|] eqn:Er; [|apply nth_error_None in Er; lia].
    exists r. split; auto. rewrite <- (concat_nth nc rows (k mod nr) (k / nr) r Hr H2 Er). rewrite Hn by auto.
    rewrite nth_error_map, (nth_error_nth' _ 0) in E by (rewrite seq_length; auto).
    rewrite seq_nth in E by auto. exact E.
  - intros [Hk (r & Er & Ex)]. destruct (Hb k Hk) as [H1 H2].
    rewrite nth_error_map, (nth_error_nth' _ 0), seq_nth by (rewrite ?seq_length; auto). cbn [option_map Nat.add].
    rewrite <- Hn by auto. now rewrite (concat_nth nc rows (k mod nr) (k / nr) r Hr H2 Er).
Qed.

(** when building a matrix panics *)
Lemma from_rows_iff rows : (exists m, from_rows rows = Ok m) <->
  exists r0, nth_error rows 0 = Some r0 /\ length (concat rows) = length rows * length r0.
Proof.
  unfold from_rows. split.
  - intros (m & E). apply bind_ok in E. destruct E as (r0 & E0 & E). apply idx_ok in E0. exists r0. split; auto.
    unfold from_row_slice in E. destruct (Nat.eqb_spec (length (concat rows)) (length rows * length r0)); [auto|discriminate].
  - intros (r0 & E0 & El). apply idx_ok in E0. rewrite E0. cbn [bind]. unfold from_row_slice. rewrite El, Nat.eqb_refl.
    rewrite (mapM_total _ (fun k => nth (k mod length rows * length r0 + k / length rows) (concat rows) NaN)).
    + cbn [bind]. eauto.
    + intros k Hk. apply in_seq in Hk. apply idx_ok, nth_error_nth'. rewrite El.
      assert (Hr : 0 < length rows) by (destruct rows; [discriminate|cbn; lia]).
      assert (H1 : k mod length rows < length rows) by (apply Nat.mod_upper_bound; lia).
      assert (H2 : k / length rows < length r0) by (apply Nat.div_lt_upper_bound; lia).
      apply Nat.lt_le_trans with (S (k mod length rows) * length r0); [lia|]. apply Nat.mul_le_mono_r. lia.
Qed.

Lemma index2_spec nr nc rows m i j x : 0 < nr -> table nr nc rows -> from_rows rows = Ok m ->
  (index2 m i j = Ok x <-> nc * j + i < nr * nc /\ entry rows ((nc * j + i) mod nr) ((nc * j + i) / nr) x).
Proof.
  intros Hn Ht E. destruct (from_rows_ok nr nc rows Hn Ht) as (m' & E' & _ & Ec & _ & H). assert (m' = m) by congruence. subst m'.
  unfold index2. rewrite Ec, idx_ok. apply H.
Qed.

Lemma index1_spec nr nc rows m k x : 0 < nr -> table nr nc rows -> from_rows rows = Ok m ->
  (index1 m k = Ok x <-> k < nr * nc /\ entry rows (k mod nr) (k / nr) x).
Proof.
  intros Hn Ht E. destruct (from_rows_ok nr nc rows Hn Ht) as (m' & E' & _ & Ec & _ & H). assert (m' = m) by congruence. subst m'.
  unfold index1. rewrite idx_ok. apply H.
Qed.

Lemma square_at n i j : i < n -> (n * j + i) mod n = i /\ (n * j + i) / n = j.
Proof.
  intros H. split.
  - rewrite Nat.add_comm, Nat.mul_comm, Nat.mod_add by lia. now apply Nat.mod_small.
  - rewrite Nat.mul_comm, Nat.div_add_l by lia. rewrite (Nat.div_small i n) by auto. lia.
Qed.

Lemma square_index n rows m i j x : table n n rows -> from_rows rows = Ok m -> i < n -> j < n ->
  (index2 m i j = Ok x <-> entry rows i j x).
Proof.
  intros Ht E Hi Hj. rewrite (index2_spec n n rows m i j x) by (auto; lia). destruct (square_at n i j Hi) as [-> ->].
  split; [tauto|]. intros H. split; auto. apply Nat.lt_le_trans with (n * S j); [lia|]. apply Nat.mul_le_mono_l. lia.
Qed.
