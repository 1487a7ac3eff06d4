(** Lemmas about the queue: it loses nothing, and its root is a minimum up to
    an error that grows with the number of operations *)
From Coq Require Import String List Bool Arith ZArith QArith Lia Lqa Permutation.
From Verif Require Import Base Lib ProofNodes ModelHeap.
Import ListNotations.
Open Scope list_scope.
Open Scope nat_scope.

(** *** positions *)
Definition parent (k : nat) : nat := (k - 1) / 2.
(** [i] is [k] or above [k] *)
Inductive over (i : nat) : nat -> Prop :=
| over_refl : over i i
| over_step k : 0 < k -> over i (parent k) -> over i k.

Lemma parent_lt k : 0 < k -> parent k < k.
Proof. intros H. unfold parent. apply Nat.div_lt_upper_bound; lia. Qed.
Lemma over_le i k : over i k -> i <= k.
Proof. induction 1 as [|k Hk _ IH]; [lia|]. pose proof (parent_lt k Hk). lia. Qed.
Lemma over_root k : over 0 k.
Proof.
  induction k as [k IH] using lt_wf_ind. destruct k as [|k]; [constructor|]. apply over_step; [lia|]. apply IH. apply parent_lt. lia.
Qed.
Lemma over_trans i j k : over i j -> over j k -> over i k.
Proof. intros H. induction 1 as [|k Hk _ IH]; [auto|]. apply over_step; auto. Qed.
Lemma parent_left i : parent (2 * i + 1) = i.
Proof. unfold parent. replace (2 * i + 1 - 1) with (i * 2) by lia. apply Nat.div_mul. lia. Qed.
Lemma parent_right i : parent (S (2 * i + 1)) = i.
Proof. unfold parent. symmetry. apply (Nat.div_unique _ 2 i 1); lia. Qed.
Lemma parent_child i k : 0 < k -> parent k = i -> k = 2 * i + 1 \/ k = S (2 * i + 1).
Proof.
  intros Hk <-. unfold parent. pose proof (Nat.div_mod (k - 1) 2 ltac:(lia)) as H. pose proof (Nat.mod_upper_bound (k - 1) 2 ltac:(lia)). lia.
Qed.
(** what is below [i] is below one of its children *)
Lemma over_child i k : over i k -> k = i \/ over (2 * i + 1) k \/ over (S (2 * i + 1)) k.
Proof.
  induction 1 as [|k Hk _ IH]; [auto|]. right. destruct IH as [E|[H|H]].
  - destruct (parent_child i k Hk E) as [->| ->]; [left|right]; constructor.
  - left. now apply over_step.
  - right. now apply over_step.
Qed.
Lemma over_up i k : over i k -> i <> k -> 0 < k /\ over i (parent k).
Proof. intros H N. destruct H; [congruence|auto]. Qed.
(** two positions above a third one are one above the other *)
Lemma over_linear i j k : over i k -> over j k -> over i j \/ over j i.
Proof.
  induction 1 as [|k Hk H IH]; intros Hj; [auto|]. destruct (Nat.eq_dec j k) as [->|N].
  - left. now apply over_step.
  - apply IH. apply (over_up j k Hj N).
Qed.
Lemma over_antisym i k : over i k -> over k i -> i = k.
Proof. intros H1 H2. apply over_le in H1, H2. lia. Qed.

Section Heap.
  Variable A : Type.
  Variable le : A -> A -> bool.
  Variable key : A -> Q.
  Variable P : A -> Prop.
  Variable eps : Q.
  Hypothesis eps_nonneg : (0 <= eps)%Q.
  Hypothesis le_true : forall x y, P x -> P y -> le x y = true -> (key y <= key x + eps)%Q.
  Hypothesis le_false : forall x y, P x -> P y -> le x y = false -> (key x <= key y + eps)%Q.

  Lemma write_length (l : list A) : forall i x, length (write l i x) = length l.
  Proof. induction l as [|y l IH]; intros [|i] x; simpl; auto. Qed.
  Lemma nth_write (l : list A) : forall i x k, i < length l ->
    nth_error (write l i x) k = if i =? k then Some x else nth_error l k.
  Proof.
    induction l as [|y l IH]; intros [|i] x [|k] H; simpl in *; try lia; auto. apply IH. lia.
  Qed.
  Lemma write_perm (l : list A) : forall i x y, nth_error l i = Some y -> Permutation (y :: write l i x) (x :: l).
  Proof.
    induction l as [|z l IH]; intros [|i] x y H; try discriminate.
    - injection H as ->. apply perm_swap.
    - cbn [write]. rewrite perm_swap. rewrite (IH i x y H). apply perm_swap.
  Qed.
  Lemma write_write (l : list A) : forall i x y, write (write l i x) i y = write l i y.
  Proof. induction l as [|z l IH]; intros [|i] x y; simpl; auto. now rewrite IH. Qed.
  Lemma write_forall (l : list A) : forall i x, Forall P l -> P x -> Forall P (write l i x).
  Proof. induction l as [|z l IH]; intros [|i] x H Hx; cbn [write]; auto; inversion H; subst; constructor; auto. Qed.
  Lemma nth_write_self (l : list A) : forall i y, nth_error l i = Some y -> write l i y = l.
  Proof. induction l as [|z l IH]; intros [|i] y H; try discriminate; [injection H as ->; reflexivity|]. simpl. f_equal. now apply IH. Qed.

  (** *** contents *)
  (** with the hole's content replaced by [x] *)
  Lemma sift_up_perm fuel : forall h pos x, pos < length h -> pos <= fuel -> Permutation (sift_up le fuel h pos x) (write h pos x).
  Proof.
    induction fuel as [|fu IH]; intros h pos x Hp Hf; [destruct pos; [reflexivity|lia]|]. cbn [sift_up]. destruct pos as [|pos]; [reflexivity|].
    set (q := S pos) in *. change ((q - 1) / 2) with (parent q). pose proof (parent_lt q ltac:(lia)) as Hl.
    destruct (nth_error h (parent q)) as [p|] eqn:Ep; [|apply nth_error_None in Ep; lia].
    destruct (le x p); [reflexivity|]. rewrite IH by (rewrite ?write_length; lia).
    apply (Permutation_cons_inv (a := p)). rewrite (write_perm (write h q p) (parent q) x p).
    2: { rewrite nth_write by lia. destruct (Nat.eqb_spec q (parent q)); [lia|auto]. }
    destruct (nth_error h q) as [y|] eqn:Ey; [|apply nth_error_None in Ey; lia].
    apply (Permutation_cons_inv (a := y)). rewrite perm_swap. rewrite (write_perm h q p y Ey), perm_swap.
    rewrite (perm_swap p y). now rewrite (write_perm h q x y Ey).
  Qed.
  Lemma sift_up_length fuel h pos x : pos < length h -> pos <= fuel -> length (sift_up le fuel h pos x) = length h.
  Proof. intros H1 H2. rewrite (Permutation_length (sift_up_perm fuel h pos x H1 H2)). apply write_length. Qed.
  Lemma heap_push_perm x h : Permutation (heap_push le x h) (x :: h).
  Proof.
    unfold heap_push. rewrite sift_up_perm; [|rewrite app_length; simpl; lia|lia].
    assert (H : write (h ++ [x]) (length h) x = h ++ [x]).
    { apply nth_write_self. rewrite nth_error_app2 by lia. now rewrite Nat.sub_diag. }
    rewrite H. symmetry. apply Permutation_cons_append.
  Qed.
  Lemma sift_down_perm fuel : forall h pos h1 pos1 y, pos < length h -> sift_down le fuel h pos = (h1, pos1) ->
    pos1 < length h1 /\ length h1 = length h /\ Permutation (write h1 pos1 y) (write h pos y).
  Proof.
    induction fuel as [|fu IH]; intros h pos h1 pos1 y Hp E; cbn [sift_down] in E; [injection E as <- <-; auto|].
    set (ch := 2 * pos + 1) in *.
    assert (M : forall c z, nth_error h c = Some z -> pos < c -> Permutation (write (write h pos z) c y) (write h pos y)).
    { intros c z Hz Hc. pose proof (nth_error_lt h c z Hz) as Hl.
      apply (Permutation_cons_inv (a := z)). rewrite (write_perm (write h pos z) c y z).
      2: { rewrite nth_write by auto. destruct (Nat.eqb_spec pos c); [lia|auto]. }
      destruct (nth_error h pos) as [w|] eqn:Ew; [|apply nth_error_None in Ew; lia].
      apply (Permutation_cons_inv (a := w)). rewrite perm_swap. rewrite (write_perm h pos z w Ew), perm_swap.
      rewrite (perm_swap z w). now rewrite (write_perm h pos y w Ew). }
    destruct (nth_error h ch) as [a|] eqn:Ea; [|injection E as <- <-; auto].
    pose proof (nth_error_lt h ch a Ea) as La.
    destruct (nth_error h (S ch)) as [b|] eqn:Eb.
    - pose proof (nth_error_lt h (S ch) b Eb) as Lb.
      destruct (le a b).
      + destruct (IH (write h pos b) (S ch) h1 pos1 y ltac:(rewrite write_length; lia) E) as (A1 & A2 & A3).
        rewrite write_length in A2. split; [auto|]. split; [auto|]. rewrite A3. apply M; [auto|lia].
      + destruct (IH (write h pos a) ch h1 pos1 y ltac:(rewrite write_length; lia) E) as (A1 & A2 & A3).
        rewrite write_length in A2. split; [auto|]. split; [auto|]. rewrite A3. apply M; [auto|lia].
    - injection E as <- <-. rewrite write_length. split; [auto|]. split; [auto|]. apply M; [auto|lia].
  Qed.
  Lemma heap_pop_perm h x h' : heap_pop le h = Some (x, h') -> Permutation h (x :: h') /\ nth_error h 0 = Some x.
  Proof.
    destruct h as [|a t]; [discriminate|]. cbn [heap_pop]. intros E.
    destruct (rev t) as [|y r] eqn:Er.
    - injection E as <- <-. assert (t = []) as -> by (rewrite <- (rev_involutive t), Er; reflexivity). auto.
    - assert (Et : t = rev r ++ [y]) by (rewrite <- (rev_involutive t), Er; reflexivity).
      assert (Eh : a :: t = (a :: rev r) ++ [y]) by now rewrite Et.
      rewrite Eh, removelast_last in E. destruct (sift_down le (length (a :: rev r)) (a :: rev r) 0) as [h1 pos] eqn:Es.
      injection E as <- <-. split; [|reflexivity]. rewrite Eh.
      destruct (sift_down_perm (length (a :: rev r)) (a :: rev r) 0 h1 pos y ltac:(simpl; lia) Es) as (A1 & A2 & A3).
      rewrite sift_up_perm by lia. rewrite A3. cbn [write]. rewrite <- Permutation_cons_append. apply perm_swap.
  Qed.
  Lemma heap_pop_none h : heap_pop le h = None <-> h = [].
  Proof.
    split; [|intros ->; reflexivity]. destruct h as [|a t]; [auto|]. cbn [heap_pop]. destruct (rev t); [discriminate|].
    destruct (sift_down _ _ _ _). discriminate.
  Qed.

  (** *** the order *)
  Definition bounded (B : Q) (h : list A) : Prop :=
    forall i k x y, over i k -> nth_error h i = Some x -> nth_error h k = Some y -> (key x <= key y + B)%Q.
  (** apart from the content of [pos] *)
  Definition bounded_at (pos : nat) (B : Q) (h : list A) : Prop :=
    forall i k x y, i <> pos -> k <> pos -> over i k -> nth_error h i = Some x -> nth_error h k = Some y -> (key x <= key y + B)%Q.

  Lemma sift_up_bounded B fuel : forall h pos x, (0 <= B)%Q -> pos < length h -> pos <= fuel -> Forall P h -> P x ->
    bounded_at pos B h ->
    (forall k y, k <> pos -> over pos k -> nth_error h k = Some y -> (key x <= key y + B + eps)%Q) ->
    bounded (B + eps) (sift_up le fuel h pos x).
  Proof.
    intros h pos x HB. revert h pos x. induction fuel as [|fu IH]; intros h pos x Hp Hf HP Hx Hb Hlow.
    - destruct pos; [|lia]. cbn [sift_up]. intros i k a b Ho Ha Hk. rewrite nth_write in Ha, Hk by auto.
      destruct (Nat.eqb_spec 0 i) as [<-|Ni]; destruct (Nat.eqb_spec 0 k) as [<-|Nk].
      + injection Ha as <-. injection Hk as <-. lra.
      + injection Ha as <-. specialize (Hlow k b ltac:(lia) Ho Hk). lra.
      + apply over_le in Ho. lia.
      + specialize (Hb i k a b ltac:(lia) ltac:(lia) Ho Ha Hk). lra.
    - cbn [sift_up]. destruct pos as [|pos].
      { intros i k a b Ho Ha Hk. rewrite nth_write in Ha, Hk by auto.
        destruct (Nat.eqb_spec 0 i) as [<-|Ni]; destruct (Nat.eqb_spec 0 k) as [<-|Nk].
        + injection Ha as <-. injection Hk as <-. lra.
        + injection Ha as <-. specialize (Hlow k b ltac:(lia) Ho Hk). lra.
        + apply over_le in Ho. lia.
        + specialize (Hb i k a b ltac:(lia) ltac:(lia) Ho Ha Hk). lra. }
      set (q := S pos) in *. change ((q - 1) / 2) with (parent q). pose proof (parent_lt q ltac:(lia)) as Hl.
      destruct (nth_error h (parent q)) as [p|] eqn:Ep; [|apply nth_error_None in Ep; lia].
      assert (Pp : P p) by (rewrite Forall_forall in HP; apply HP; eapply nth_error_In; eauto).
      destruct (le x p) eqn:El.
      + intros i k a b Ho Ha Hk. rewrite nth_write in Ha, Hk by auto.
        destruct (Nat.eqb_spec q i) as [<-|Ni]; destruct (Nat.eqb_spec q k) as [<-|Nk].
        * injection Ha as <-. injection Hk as <-. lra.
        * injection Ha as <-. specialize (Hlow k b ltac:(lia) Ho Hk). lra.
        * injection Hk as <-. destruct (over_up i q Ho ltac:(lia)) as [_ Hu].
          pose proof (le_true x p Hx Pp El). pose proof (Hb i (parent q) a p ltac:(lia) ltac:(lia) Hu Ha Ep). lra.
        * specialize (Hb i k a b ltac:(lia) ltac:(lia) Ho Ha Hk). lra.
      + pose proof (le_false x p Hx Pp El) as Hxp. apply IH; auto.
        * rewrite write_length. lia.
        * lia.
        * now apply write_forall.
        * intros i k a b Ni Nk Ho Ha Hk. rewrite nth_write in Ha, Hk by auto.
          destruct (Nat.eqb_spec q i) as [<-|Ni']; destruct (Nat.eqb_spec q k) as [<-|Nk'].
          -- injection Ha as <-. injection Hk as <-. lra.
          -- injection Ha as <-. apply (Hb (parent q) k p b ltac:(lia) ltac:(lia)); auto.
             eapply over_trans; [|exact Ho]. apply over_step; [lia|constructor].
          -- injection Hk as <-. destruct (over_up i q Ho ltac:(lia)) as [_ Hu]. apply (Hb i (parent q) a p ltac:(lia) ltac:(lia)); auto.
          -- apply (Hb i k a b); auto.
        * intros k y Nk Ho Hk. rewrite nth_write in Hk by auto. destruct (Nat.eqb_spec q k) as [<-|Nk'].
          -- injection Hk as <-. lra.
          -- pose proof (Hb (parent q) k p y ltac:(lia) ltac:(lia) Ho Ep Hk). lra.
  Qed.

  Lemma heap_push_bounded B h x : (0 <= B)%Q -> Forall P h -> P x -> bounded B h -> bounded (B + eps) (heap_push le x h).
  Proof.
    intros HB HP Hx Hb. unfold heap_push. apply sift_up_bounded; auto.
    - rewrite app_length. simpl. lia.
    - apply Forall_app. auto.
    - intros i k a b Ni Nk Ho Ha Hk. pose proof (nth_error_lt _ _ _ Hk) as L1. pose proof (nth_error_lt _ _ _ Ha) as L2.
      rewrite app_length in L1, L2. cbn [length] in L1, L2. rewrite nth_error_app1 in Ha by lia. rewrite nth_error_app1 in Hk by lia.
      apply (Hb i k a b); auto.
    - intros k y Nk Ho Hk. pose proof (nth_error_lt _ _ _ Hk) as H. rewrite app_length in H. simpl in H. apply over_le in Ho. lia.
  Qed.

  (** the hole at [pos]: below it nothing has changed yet *)
  Record sinking (B : Q) (h : list A) (pos : nat) : Prop := {
    sk_below : forall i k x y, over pos i -> i <> pos -> over i k -> nth_error h i = Some x -> nth_error h k = Some y -> (key x <= key y + B)%Q;
    sk_above : forall i k x y, over i pos -> i <> pos -> over pos k -> k <> pos -> nth_error h i = Some x -> nth_error h k = Some y -> (key x <= key y + B)%Q;
    sk_all : bounded_at pos (B + eps) h;
  }.

  Lemma sinking_step B h pos c z : (0 <= B)%Q -> sinking B h pos -> nth_error h c = Some z -> 0 < c -> parent c = pos ->
    (forall s y, 0 < s -> parent s = pos -> nth_error h s = Some y -> (key z <= key y + eps)%Q) ->
    sinking B (write h pos z) c.
  Proof.
    intros HB [S1 S2 S3] Hz Hc Hpar Hs. pose proof (parent_lt c Hc) as Hl. pose proof (nth_error_lt h c z Hz) as Hlen.
    assert (Hpc : over pos c) by (apply over_step; [auto|rewrite Hpar; constructor]).
    assert (Hlp : pos < length h) by lia.
    constructor.
    - intros i k x y Hci Ni Ho Hx Hy. pose proof (over_le _ _ Hci). pose proof (over_le _ _ Ho). rewrite nth_write in Hx, Hy by auto.
      destruct (Nat.eqb_spec pos i); [lia|]. destruct (Nat.eqb_spec pos k); [lia|].
      apply (S1 i k x y); [eapply over_trans; eauto|lia|auto..].
    - intros i k x y Hic Ni Hck Nk Hx Hy. pose proof (over_le _ _ Hck). rewrite nth_write in Hx, Hy by auto.
      destruct (Nat.eqb_spec pos k); [lia|]. destruct (Nat.eqb_spec pos i) as [<-|Np].
      + injection Hx as <-. apply (S1 c k z y); [auto|lia|auto..].
      + destruct (over_up i c Hic Ni) as [_ Hu]. rewrite Hpar in Hu. apply (S2 i k x y); [auto|lia|eapply over_trans; eauto|lia|auto..].
    - intros i k x y Ni Nk Ho Hx Hy. rewrite nth_write in Hx, Hy by auto.
      destruct (Nat.eqb_spec pos i) as [<-|Np]; destruct (Nat.eqb_spec pos k) as [<-|Np'].
      + injection Hx as <-. injection Hy as <-. lra.
      + injection Hx as <-.
        assert (G : forall s, 0 < s -> parent s = pos -> over s k -> (key z <= key y + (B + eps))%Q).
        { intros s Hs0 Hsp Hsk. pose proof (over_le _ _ Hsk). pose proof (nth_error_lt _ _ _ Hy).
          destruct (nth_error h s) as [w|] eqn:Ew; [|apply nth_error_None in Ew; lia].
          pose proof (Hs s w Hs0 Hsp Ew). pose proof (parent_lt s Hs0).
          assert ((key w <= key y + B)%Q); [|lra].
          apply (S1 s k w y); [apply over_step; [auto|rewrite Hsp; constructor]|lia|auto..]. }
        destruct (over_child pos k Ho) as [E|[E|E]]; [lia| |].
        * apply (G (2 * pos + 1)); [lia|apply parent_left|auto].
        * apply (G (S (2 * pos + 1))); [lia|apply parent_right|auto].
      + injection Hy as <-. assert ((key x <= key z + B)%Q); [|lra]. apply (S2 i c x z); [auto|lia|auto|lia|auto..].
      + apply (S3 i k x y); auto.
  Qed.

  Lemma sift_down_sinking B fuel : forall h pos h1 pos1, (0 <= B)%Q -> Forall P h -> pos < length h -> length h <= fuel + pos ->
    sinking B h pos -> sift_down le fuel h pos = (h1, pos1) ->
    Forall P h1 /\ bounded_at pos1 (B + eps) h1 /\ (forall k y, k <> pos1 -> over pos1 k -> nth_error h1 k <> Some y).
  Proof.
    intros h pos h1 pos1 HB. revert h pos h1 pos1.
    assert (Leaf : forall (h : list A) pos, nth_error h (2 * pos + 1) = None -> forall k y, k <> pos -> over pos k -> nth_error h k <> Some y).
    { intros h pos Hn k y Nk Ho Hk. apply nth_error_None in Hn. pose proof (nth_error_lt _ _ _ Hk).
      destruct (over_child pos k Ho) as [E|[E|E]]; [lia| |]; apply over_le in E; lia. }
    induction fuel as [|fu IH]; intros h pos h1 pos1 HP Hp Hf Hk E; [lia|]. cbn [sift_down] in E. set (c := 2 * pos + 1) in *.
    destruct (nth_error h c) as [a|] eqn:Ea.
    2: { injection E as <- <-. split; [auto|]. split; [apply (sk_all _ _ _ Hk)|]. now apply Leaf. }
    pose proof (nth_error_lt h c a Ea) as La.
    assert (Pa : P a) by (rewrite Forall_forall in HP; apply HP; eapply nth_error_In; eauto).
    destruct (nth_error h (S c)) as [b|] eqn:Eb.
    - pose proof (nth_error_lt h (S c) b Eb) as Lb.
      assert (Pb : P b) by (rewrite Forall_forall in HP; apply HP; eapply nth_error_In; eauto).
      destruct (le a b) eqn:El.
      + pose proof (le_true a b Pa Pb El). apply (IH (write h pos b) (S c)) in E; auto; try (rewrite write_length; lia); [now apply write_forall|].
        apply (sinking_step B h pos (S c) b); auto; [lia|apply parent_right|].
        intros s y Hs Hsp Hy. destruct (parent_child _ _ Hs Hsp) as [->| ->]; fold c in Hy.
        * assert (y = a) by congruence. subst. auto.
        * assert (y = b) by congruence. subst. lra.
      + pose proof (le_false a b Pa Pb El). apply (IH (write h pos a) c) in E; auto; try (rewrite write_length; lia); [now apply write_forall|].
        apply (sinking_step B h pos c a); auto; [lia|apply parent_left|].
        intros s y Hs Hsp Hy. destruct (parent_child _ _ Hs Hsp) as [->| ->]; fold c in Hy.
        * assert (y = a) by congruence. subst. lra.
        * assert (y = b) by congruence. subst. auto.
    - injection E as <- <-. split; [now apply write_forall|].
      assert (Hk' : sinking B (write h pos a) c).
      { apply (sinking_step B h pos c a); auto; [lia|apply parent_left|].
        intros s y Hs Hsp Hy. destruct (parent_child _ _ Hs Hsp) as [->| ->]; fold c in Hy; [|congruence].
        assert (y = a) by congruence. subst. lra. }
      split; [apply (sk_all _ _ _ Hk')|]. apply Leaf.
      apply nth_error_None in Eb. apply nth_error_None. rewrite write_length. lia.
  Qed.

  Lemma bounded_root B h x y : bounded B h -> nth_error h 0 = Some x -> In y h -> (key x <= key y + B)%Q.
  Proof. intros Hb Hx Hy. apply In_nth_error in Hy. destruct Hy as [k Hk]. apply (Hb 0 k x y); auto. apply over_root. Qed.

  Lemma heap_pop_bounded B h x h' : (0 <= B)%Q -> Forall P h -> bounded B h -> heap_pop le h = Some (x, h') ->
    bounded (B + 2 * eps) h' /\ (forall y, In y h -> (key x <= key y + B)%Q).
  Proof.
    intros HB HP Hb E. destruct (heap_pop_perm _ _ _ E) as [_ Hx]. split; [|intros y; now apply bounded_root].
    destruct h as [|a t]; [discriminate|]. cbn [heap_pop] in E. destruct (rev t) as [|y r] eqn:Er.
    - injection E as <- <-. intros i k u w _ Hu. destruct i; discriminate.
    - assert (Et : t = rev r ++ [y]) by (rewrite <- (rev_involutive t), Er; reflexivity).
      assert (Eh : a :: t = (a :: rev r) ++ [y]) by now rewrite Et.
      rewrite Eh, removelast_last in E. destruct (sift_down le (length (a :: rev r)) (a :: rev r) 0) as [h1 pos] eqn:Es.
      injection E as _ <-.
      rewrite Eh in HP. apply Forall_app in HP. destruct HP as [HP Hy]. inversion Hy as [|? ? Py _]; subst.
      assert (Hk : sinking B (a :: rev r) 0).
      { assert (Hin : forall i u, nth_error (a :: rev r) i = Some u -> nth_error (a :: rev r ++ [y]) i = Some u).
        { intros i u Hu. change (a :: rev r ++ [y]) with ((a :: rev r) ++ [y]). rewrite nth_error_app1; [auto|].
          apply nth_error_lt in Hu. exact Hu. }
        constructor.
        - intros i k u w _ _ Ho Hu Hw. apply (Hb i k u w); auto.
        - intros i k u w H N. apply over_le in H. lia.
        - intros i k u w _ _ Ho Hu Hw. assert ((key u <= key w + B)%Q); [|lra]. apply (Hb i k u w); auto. }
      destruct (sift_down_perm (length (a :: rev r)) (a :: rev r) 0 h1 pos y ltac:(simpl; lia) Es) as (A1 & A2 & _).
      destruct (sift_down_sinking B (length (a :: rev r)) (a :: rev r) 0 h1 pos HB HP ltac:(simpl; lia) ltac:(lia) Hk Es) as (B1 & B2 & B3).
      assert (G : bounded (B + eps + eps) (sift_up le pos h1 pos y)).
      { apply sift_up_bounded; auto; [lra|].
        intros k w Nk Ho Hw. exfalso. exact (B3 k w Nk Ho Hw). }
      intros i k u w Ho Hu Hw. specialize (G i k u w Ho Hu Hw). lra.
  Qed.
End Heap.
