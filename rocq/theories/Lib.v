(** Lemmas about the vocabulary of Base.v *)
From Coq Require Import List Arith ZArith Bool Lia Permutation Sorted Sorting.
From Verif Require Import Base.
Import ListNotations.

Lemma bind_ok {A B} (r : res A) (k : A -> res B) b :
  bind r k = Ok b <-> exists a, r = Ok a /\ k a = Ok b.
Proof.
  destruct r; simpl; split; intros H; try discriminate; eauto;
    destruct H as (a' & H1 & H2); inversion H1; subst; auto.
Qed.

Lemma idx_ok {A} (l : list A) i x : idx l i = Ok x <-> nth_error l i = Some x.
Proof. unfold idx. destruct (nth_error l i); split; intros H; inversion H; auto. Qed.

Lemma idx_lt {A} (l : list A) i : i < length l -> exists x, idx l i = Ok x.
Proof.
  intros H. destruct (nth_error l i) eqn:E.
  - exists a. now apply idx_ok.
  - apply nth_error_None in E. lia.
Qed.

Lemma idx_res {A} (l : list A) i :
  (exists x, idx l i = Ok x /\ i < length l) \/ (idx l i = Panic /\ length l <= i).
Proof.
  destruct (le_lt_dec (length l) i).
  - right. split; auto. unfold idx. apply nth_error_None in l0. now rewrite l0.
  - left. destruct (idx_lt l i l0) as [x Hx]. eauto.
Qed.

Lemma idx_cons_S {A} (l : list A) x i : idx (x :: l) (S i) = idx l i.
Proof. reflexivity. Qed.

Lemma idx_map {A B} (f : A -> B) l i :
  idx (map f l) i = match idx l i with Ok x => Ok (f x) | _ => Panic end.
Proof.
  unfold idx. rewrite nth_error_map. destruct (nth_error l i); reflexivity.
Qed.

Lemma upd_length {A} (l : list A) i x : length (upd l i x) = length l.
Proof. revert i. induction l; intros [|i]; simpl; auto. Qed.

Lemma nth_error_upd_eq {A} (l : list A) i x :
  i < length l -> nth_error (upd l i x) i = Some x.
Proof.
  revert i. induction l; intros [|i] H; simpl in *; try lia; auto. apply IHl. lia.
Qed.

Lemma nth_error_upd_neq {A} (l : list A) i j x :
  i <> j -> nth_error (upd l i x) j = nth_error l j.
Proof.
  revert i j. induction l; intros [|i] [|j] H; simpl in *; auto; try congruence.
Qed.

Lemma nth_error_upd {A} (l : list A) i j x :
  nth_error (upd l i x) j =
  if (i =? j) && (i <? length l) then Some x else nth_error l j.
Proof.
  destruct (Nat.eqb_spec i j); simpl.
  - subst. destruct (Nat.ltb_spec j (length l)).
    + now apply nth_error_upd_eq.
    + assert (nth_error (upd l j x) j = None) as -> by
        (apply nth_error_None; rewrite upd_length; lia).
      symmetry. apply nth_error_None. lia.
  - now apply nth_error_upd_neq.
Qed.

Lemma set_ok {A} (l : list A) i x l' :
  set l i x = Ok l' <-> i < length l /\ l' = upd l i x.
Proof.
  unfold set. destruct (Nat.ltb_spec i (length l)); split; intros E.
  - inversion E; auto.
  - destruct E; subst; auto.
  - discriminate.
  - destruct E; lia.
Qed.

Lemma set_lt {A} (l : list A) i x : i < length l -> set l i x = Ok (upd l i x).
Proof. intros H. apply set_ok. auto. Qed.

Lemma upd_app_mid {A} (l1 l2 : list A) y x :
  upd (l1 ++ y :: l2) (length l1) x = l1 ++ x :: l2.
Proof. induction l1; simpl; congruence. Qed.

Lemma Forall2_len {A B} (R : A -> B -> Prop) l l' : Forall2 R l l' -> length l = length l'.
Proof. induction 1; simpl; auto. Qed.

Lemma Forall2_nth {A B} (R : A -> B -> Prop) l l' i x :
  Forall2 R l l' -> nth_error l i = Some x -> exists y, nth_error l' i = Some y /\ R x y.
Proof.
  intros H. revert i. induction H; intros [|i] E; simpl in *; try discriminate; eauto.
  injection E as <-. eauto.
Qed.

(** mapM *)
Lemma mapM_ok {A B} (f : A -> res B) l l' :
  mapM f l = Ok l' <-> Forall2 (fun x y => f x = Ok y) l l'.
Proof.
  revert l'. induction l; intros l'; simpl.
  - split; intros H; inversion H; subst; auto.
  - rewrite bind_ok. split.
    + intros (y & Hy & H). apply bind_ok in H. destruct H as (ys & Hys & H).
      inversion H; subst. constructor; auto. now apply IHl.
    + intros H. inversion H; subst. exists y. split; auto.
      apply bind_ok. exists l'0. split; auto. now apply IHl.
Qed.

Lemma mapM_length {A B} (f : A -> res B) l l' : mapM f l = Ok l' -> length l' = length l.
Proof. intros H. apply mapM_ok in H. symmetry. now apply Forall2_len in H. Qed.

Lemma mapM_total {A B} (f : A -> res B) (h : A -> B) l :
  (forall x, In x l -> f x = Ok (h x)) -> mapM f l = Ok (map h l).
Proof.
  induction l; simpl; intros H; auto.
  rewrite H by auto. simpl. rewrite IHl by auto. reflexivity.
Qed.

Lemma foldM_app {A S} (f : S -> A -> res S) l1 l2 s :
  foldM f (l1 ++ l2) s = do s' <- foldM f l1 s; foldM f l2 s'.
Proof.
  revert s. induction l1; intros s; simpl; auto.
  destruct (f s a); simpl; auto.
Qed.

(** generic invariant rule for [foldM] over successful runs *)
Lemma foldM_inv {A S} (f : S -> A -> res S) (P : S -> Prop) l s s' :
  P s -> (forall s x t, In x l -> P s -> f s x = Ok t -> P t) ->
  foldM f l s = Ok s' -> P s'.
Proof.
  revert s. induction l; simpl; intros s Hs Hstep E.
  - inversion E; subst; auto.
  - apply bind_ok in E. destruct E as (t & E1 & E2).
    eapply IHl; [| |exact E2]; eauto.
Qed.

(** enumerate *)
Lemma enumerate_length {A} (l : list A) : length (enumerate l) = length l.
Proof. unfold enumerate. rewrite combine_length, seq_length. lia. Qed.

Lemma combine_seq_nth {A} (l : list A) s i :
  nth_error (combine (seq s (length l)) l) i =
  match nth_error l i with Some x => Some (s + i, x) | None => None end.
Proof.
  revert s i. induction l; intros s [|i]; simpl; auto.
  - f_equal. f_equal. lia.
  - rewrite IHl. destruct (nth_error l i); auto. do 2 f_equal. lia.
Qed.

Lemma enumerate_nth {A} (l : list A) i :
  nth_error (enumerate l) i =
  match nth_error l i with Some x => Some (i, x) | None => None end.
Proof. apply combine_seq_nth. Qed.

Lemma enumerate_snd {A} (l : list A) : map snd (enumerate l) = l.
Proof.
  unfold enumerate. generalize 0. induction l; intros s; simpl; auto. now rewrite IHl.
Qed.

Lemma enumerate_fst {A} (l : list A) : map fst (enumerate l) = seq 0 (length l).
Proof.
  unfold enumerate. generalize 0. induction l; intros s; simpl; auto. now rewrite IHl.
Qed.

Lemma enumerate_in {A} (l : list A) i x :
  In (i, x) (enumerate l) <-> nth_error l i = Some x.
Proof.
  split; intros H.
  - apply In_nth_error in H. destruct H as [j H]. rewrite enumerate_nth in H.
    destruct (nth_error l j) eqn:E; inversion H; subst; auto.
  - apply nth_error_In with (n := i). rewrite enumerate_nth, H. reflexivity.
Qed.

(** sorting *)
Section SortLemmas.
  Context {A : Type} (leb : A -> A -> bool).

  Lemma insert_sorted_perm x l : Permutation (insert_sorted leb x l) (x :: l).
  Proof.
    induction l; simpl; auto. destruct (leb x a); auto.
    rewrite IHl. apply perm_swap.
  Qed.

  Lemma sort_by_perm l : Permutation (sort_by leb l) l.
  Proof.
    induction l; simpl; auto. rewrite insert_sorted_perm. now constructor.
  Qed.

  Lemma sort_by_length l : length (sort_by leb l) = length l.
  Proof. apply Permutation_length, sort_by_perm. Qed.

  Lemma sort_by_in l x : In x (sort_by leb l) <-> In x l.
  Proof.
    split; intros H.
    - eapply Permutation_in; [apply sort_by_perm|exact H].
    - eapply Permutation_in; [symmetry; apply sort_by_perm|exact H].
  Qed.

  Hypothesis total : forall x y, leb x y = true \/ leb y x = true.
  Hypothesis trans : forall x y z, leb x y = true -> leb y z = true -> leb x z = true.

  Lemma insert_sorted_sorted x l :
    StronglySorted (fun a b => leb a b = true) l ->
    StronglySorted (fun a b => leb a b = true) (insert_sorted leb x l).
  Proof.
    induction l; intros H; simpl.
    - repeat constructor.
    - inversion H; subst. destruct (leb x a) eqn:E.
      + constructor; auto. constructor; auto.
        eapply Forall_impl; [|exact H3]. intros; eauto.
      + constructor; auto.
        assert (leb a x = true) by (destruct (total a x); congruence).
        rewrite Forall_forall in *. intros y Hy.
        apply (Permutation_in y (insert_sorted_perm x l)) in Hy.
        destruct Hy; subst; auto.
  Qed.

  Lemma sort_by_sorted l : StronglySorted (fun a b => leb a b = true) (sort_by leb l).
  Proof.
    induction l; simpl; [constructor|]. now apply insert_sorted_sorted.
  Qed.
End SortLemmas.

(** a sorted permutation is unique when the order is antisymmetric on the elements *)
Lemma sorted_perm_unique {A} (R : A -> A -> Prop) (l1 l2 : list A) :
  (forall x y, In x l1 -> In y l1 -> R x y -> R y x -> x = y) ->
  StronglySorted R l1 -> StronglySorted R l2 -> Permutation l1 l2 -> l1 = l2.
Proof.
  revert l2. induction l1; intros l2 Ha H1 H2 Hp.
  - apply Permutation_nil in Hp. now subst.
  - destruct l2 as [|b l2].
    + symmetry in Hp. apply Permutation_nil in Hp. discriminate.
    + inversion H1; subst. inversion H2; subst.
      assert (a = b) as ->.
      { rewrite Forall_forall in *.
        assert (Ia : In a (b :: l2)) by (eapply Permutation_in; eauto; now left).
        assert (Ib : In b (a :: l1)) by (eapply Permutation_in; [symmetry; eauto|now left]).
        destruct Ia as [->|Ia]; auto. destruct Ib as [->|Ib]; auto.
        apply Ha; simpl; auto. }
      f_equal. apply IHl1; auto.
      * intros. apply Ha; simpl; auto.
      * eapply Permutation_cons_inv; eauto.
Qed.

(** StronglySorted and positions *)
Lemma StronglySorted_nth {A} (R : A -> A -> Prop) l i j x y :
  StronglySorted R l -> i < j -> nth_error l i = Some x -> nth_error l j = Some y -> R x y.
Proof.
  intros H. revert i j. induction H; intros i j Hij Hi Hj.
  - destruct i; discriminate.
  - destruct i, j; try lia; simpl in *.
    + inversion Hi; subst. rewrite Forall_forall in H0. apply H0.
      eapply nth_error_In; eauto.
    + eapply IHStronglySorted; [|exact Hi|exact Hj]. lia.
Qed.

Lemma StronglySorted_app_inv {A} (R : A -> A -> Prop) l1 l2 :
  StronglySorted R (l1 ++ l2) ->
  StronglySorted R l1 /\ StronglySorted R l2 /\ (forall x y, In x l1 -> In y l2 -> R x y).
Proof.
  induction l1; simpl; intros H.
  - split; [constructor|]. split; auto. intros x y [].
  - inversion H; subst. destruct (IHl1 H2) as (S1 & S2 & Hc).
    rewrite Forall_forall in H3. repeat split; auto.
    + constructor; auto. rewrite Forall_forall. intros. apply H3, in_or_app. auto.
    + intros x y [->|Hx] Hy; auto. apply H3, in_or_app. auto.
Qed.

Lemma StronglySorted_map {A B} (f : A -> B) (R : B -> B -> Prop) l :
  StronglySorted (fun x y => R (f x) (f y)) l -> StronglySorted R (map f l).
Proof.
  induction 1; simpl; constructor; auto. now apply Forall_map.
Qed.

Lemma StronglySorted_impl {A} (R S : A -> A -> Prop) l :
  (forall x y, In x l -> In y l -> R x y -> S x y) -> StronglySorted R l -> StronglySorted S l.
Proof.
  intros Himp H. induction H; constructor.
  - apply IHStronglySorted. intros; apply Himp; simpl; auto.
  - rewrite Forall_forall in *. intros. apply Himp; simpl; auto.
Qed.

(** dedup_by on Z: strictly increasing afterwards, same elements *)
Lemma dedup_from_in (p : Z) l x :
  In x (dedup_from Z.eqb p l) -> In x l.
Proof.
  revert p. induction l; simpl; intros p H; auto.
  destruct (Z.eqb_spec p a); auto.
  - right. eauto.
  - destruct H; auto. right. eauto.
Qed.

Lemma dedup_from_spec p l :
  StronglySorted Z.le (p :: l) ->
  StronglySorted Z.lt (p :: dedup_from Z.eqb p l) /\
  (forall x, In x (p :: l) -> In x (p :: dedup_from Z.eqb p l)).
Proof.
  revert p. induction l as [|a l IH]; intros p H; simpl.
  - split; auto. repeat constructor.
  - inversion H; subst. inversion H3; subst.
    destruct (Z.eqb_spec p a).
    + subst. destruct (IH a H2) as [S I]. split; auto.
      intros x [->|[->|Hx]]; simpl; auto. apply I. now right.
    + destruct (IH a H2) as [S I]. inversion S; subst.
      split.
      * constructor; auto. constructor; [lia|].
        rewrite Forall_forall in *. intros y Hy. specialize (H7 y Hy). lia.
      * intros x [->|Hx]; simpl; auto. right. apply (I x Hx).
Qed.

Lemma dedupZ_spec l :
  StronglySorted Z.le l ->
  StronglySorted Z.lt (dedup_by Z.eqb l) /\ (forall x, In x (dedup_by Z.eqb l) <-> In x l).
Proof.
  destruct l as [|a l]; simpl; intros H.
  - split; [constructor|tauto].
  - destruct (dedup_from_spec a l H) as [S I]. split; auto.
    intros x. split; intros Hx; [|now apply I].
    destruct Hx; auto. right. eapply dedup_from_in; eauto.
Qed.

(** binary search *)
Section BinarySearch.
  Variable cmp : nat -> comparison.
  Variable len : nat.
  (** the compared sequence is sorted *)
  Hypothesis gt_up : forall i j, i < j -> j < len -> cmp i = Gt -> cmp j = Gt.
  Hypothesis lt_down : forall i j, i < j -> j < len -> cmp j <> Gt -> cmp i = Lt.

  Lemma bs_loop_inv fuel base size :
    size <= fuel -> 1 <= size -> base + size <= len ->
    (base = 0 \/ cmp base <> Gt) ->
    (forall j, base + size <= j -> j < len -> cmp j = Gt) ->
    let r := bs_loop cmp fuel base size in
    r < len /\ (r = 0 \/ cmp r <> Gt) /\ (forall j, r < j -> j < len -> cmp j = Gt).
  Proof.
    revert base size. induction fuel; intros base size Hf H1 Hl Hb Hu; [lia|].
    cbn [bs_loop]. destruct (Nat.leb_spec size 1).
    - assert (size = 1) by lia. subst. cbv zeta.
      split; [lia|]. split; auto. intros j Hj Hjl. apply Hu; lia.
    - assert (Hh : size / 2 < size) by (apply Nat.div_lt; lia).
      assert (Hh1 : 1 <= size / 2) by (apply Nat.div_le_lower_bound; lia).
      cbv zeta. destruct (cmp (base + size / 2)) eqn:E.
      + apply IHfuel; try lia. right; congruence. intros; apply Hu; lia.
      + apply IHfuel; try lia. right; congruence. intros; apply Hu; lia.
      + apply IHfuel; try lia; auto.
        intros j Hj Hjl. destruct (Nat.eq_dec j (base + size / 2)); [subst; auto|].
        assert (size = size / 2 + (size - size / 2)) by lia.
        destruct (le_lt_dec j (base + size / 2)).
        * (* size - half >= half, so j is between *)
          assert (size / 2 <= size - size / 2).
          { pose proof (Nat.div_mod size 2 ltac:(lia)). lia. }
          assert (j = base + size / 2) by lia. congruence.
        * eapply gt_up; [|exact Hjl|exact E]. lia.
  Qed.

  Lemma binary_search_spec :
    match binary_search cmp len with
    | inl i => i < len /\ cmp i = Eq
    | inr i => i <= len /\ (forall j, j < i -> cmp j = Lt) /\
               (forall j, i <= j -> j < len -> cmp j = Gt)
    end.
  Proof.
    unfold binary_search. destruct (Nat.eqb_spec len 0).
    - split; [lia|]. split; intros; lia.
    - destruct (bs_loop_inv len 0 len ltac:(lia) ltac:(lia) ltac:(lia) (or_introl eq_refl)
                  ltac:(intros; lia)) as (H1 & H2 & H3).
      set (r := bs_loop cmp len 0 len) in *.
      destruct (cmp r) eqn:E; auto.
      + split; [lia|]. split.
        * intros j Hj. destruct (Nat.eq_dec j r) as [->|]; [assumption|].
          apply lt_down with (j := r); try lia. congruence.
        * intros j Hj Hjl. apply H3; lia.
      + destruct H2 as [H2|H2]; [|congruence]. rewrite H2 in *. split; [lia|]. split; [intros; lia|].
        intros j Hj Hjl. destruct (Nat.eq_dec j 0); [congruence|]. apply H3; lia.
  Qed.
End BinarySearch.
