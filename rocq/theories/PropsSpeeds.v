(** Property C33, continued: speed limits given as lists or in miles per hour *)
From Coq Require Import String Ascii List Bool Arith NArith ZArith QArith Lia.
From Verif Require Import Base F64 ModelText ModelStreets Lib ProofText SpecStreets PropsStreets.
Import ListNotations.
Open Scope string_scope.
Open Scope list_scope.
Open Scope nat_scope.

(** separators of alternatives *)
Definition separators : list string := [";"; "; "; ","; ", "; "|"].
(** a mile, in millimetres *)
Definition mile : Z := 1609344.
(** [x] km/h and [m] miles per hour differ by at most 6 km/h *)
Definition about_mph (x m : N) : Prop := (Z.abs (Z.of_N x * 1000000 - Z.of_N m * mile) <= 6 * 1000000)%Z.

(** *** Reading literals *)
Definition is_digit (c : ascii) : bool := match digit c with Some _ => true | None => false end.
Fixpoint span (s : text) : text * text :=
  match s with
  | c :: t => if is_digit c then let r := span t in (c :: fst r, snd r) else ([], s)
  | [] => ([], [])
  end.
Fixpoint value (acc : N) (s : text) : N :=
  match s with
  | c :: t => match digit c with Some d => value (acc * 10 + d) t | None => acc end
  | [] => acc
  end.
Lemma value_digits max s : forall acc n, digits_value max acc s = Some n -> value acc s = n.
Proof.
  induction s as [|c s IH]; intros acc n H; cbn [digits_value value] in *; [congruence|].
  destruct (digit c); [|discriminate]. destruct (_ <=? _)%N; [|discriminate]. now apply IH.
Qed.
Lemma value_show n : value 0 (show_N n) = n.
Proof. apply (value_digits n). unfold show_N. apply digits_show; [apply size_bound|lia]. Qed.
Lemma show_is_digit n : Forall (fun c => is_digit c = true) (show_N n).
Proof. eapply Forall_impl; [|apply show_N_all]. intros c (d & Hd & ->). unfold is_digit. now rewrite digit_char_digit. Qed.
Lemma span_app a b : Forall (fun c => is_digit c = true) a -> match b with c :: _ => is_digit c = false | [] => True end -> span (a ++ b) = (a, b).
Proof.
  intros F H. induction F as [|c a Hc F IH]; cbn [app span].
  - destruct b as [|c b]; [reflexivity|]. cbn [span]. now rewrite H.
  - now rewrite Hc, IH.
Qed.

(** a text with something but a digit behind its first byte is no number *)
Lemma no_digits max x c y : is_digit c = false -> forall acc, digits_value max acc (x ++ c :: y) = None.
Proof.
  intros Hc. induction x as [|d x IH]; intros acc; cbn [app digits_value].
  - unfold is_digit in Hc. now destruct (digit c).
  - destruct (digit d); [|reflexivity]. destruct (_ <=? _)%N; auto.
Qed.
Lemma no_number max x c y : x <> [] -> is_digit c = false -> parse_unsigned max (x ++ c :: y) = None.
Proof.
  intros Hx Hc. unfold parse_unsigned. destruct x as [|d x]; [congruence|]. cbn [app split_sign].
  destruct (Ascii.eqb d "+"); [|destruct (Ascii.eqb d "-")].
  - destruct (x ++ c :: y) eqn:E; [destruct x; discriminate|]. rewrite <- E. now apply no_digits.
  - destruct (x ++ c :: y) eqn:E; [destruct x; discriminate|]. rewrite <- E. exact (no_digits max (d :: x) c y Hc 0%N).
  - exact (no_digits max (d :: x) c y Hc 0%N).
Qed.

(** a number followed by something else: the row of the table decides *)
Lemma speed_row c ts v n tail :
  tag (T "maxspeed") ts = Some v -> variant_of v (show_N n ++ tail) ->
  (exists d t l e, tail = d :: t /\ tail = l ++ [e] /\ is_digit d = false /\ ~ (97 <= nat_of_ascii d <= 122) /\ graphic e) -> small tail ->
  parse_maxspeed c ts = match lookup (show_N n ++ tail) speed_names with
                        | Some (Kmh k) => N.of_nat k
                        | Some (DefaultOf c') => N.of_nat (default_speed c')
                        | Some OwnDefault | None => N.of_nat (default_speed c)
                        end.
Proof.
  intros Et Hv (d & t & l & e & E1 & E2 & Hd & Hlow & He) Hs. unfold parse_maxspeed. rewrite Et.
  assert (Hg : Forall graphic (show_N n)) by apply show_N_plain.
  assert (Hne : show_N n <> []) by apply show_N_ne.
  rewrite (variant_normal v (show_N n ++ tail)); [|exact Hv| |].
  - replace (parse_u16 v) with (@None N); [reflexivity|]. symmetry. destruct Hv as (pre & mid & post & -> & _ & _ & F).
    rewrite E1 in F. apply Forall2_app_inv_r in F. destruct F as (m1 & m2 & F1 & F2 & ->). inversion F2 as [|d' ? m2' ? Hdd F3]; subst m2.
    assert (d' = d) as -> by (destruct Hdd as [Hdd|[Hdd _]]; [auto|contradiction]).
    replace (pre ++ (m1 ++ d :: m2') ++ post) with ((pre ++ m1) ++ d :: (m2' ++ post)) by now rewrite <- !app_assoc.
    apply no_number; [|exact Hd]. intros E. apply app_eq_nil in E. destruct E as [_ ->]. inversion F1 as [Ex|]. congruence.
  - apply Forall_app. split; [|exact Hs]. eapply Forall_impl; [|apply show_N_all]. intros x (k & Hk & ->). rewrite digit_char_nat by auto. lia.
  - destruct (show_N n) as [|x r] eqn:Ex; [congruence|]. exists x, e, (r ++ tail), ((x :: r) ++ l). inversion Hg; subst x0 l0.
    split; [auto|]. split; [auto|]. split; [reflexivity|]. rewrite E2 at 1. now rewrite app_assoc.
Qed.

(** *** Alternatives *)
Definition pair_of (s : text) : option (N * N) :=
  let (a, r) := span s in
  match r with
  | d :: x :: r' =>
      if (nat_of_ascii x =? 32) then Some (value 0 a, value 0 r') else Some (value 0 a, value 0 (x :: r'))
  | _ => None
  end.
Lemma pair_of_show a b sep : In sep separators -> pair_of (show_N a ++ T sep ++ show_N b) = Some (a, b).
Proof.
  intros Hin. pose proof (show_is_digit b) as Fb. destruct (show_N b) as [|x r] eqn:Eb; [now apply show_N_ne in Eb|]. inversion Fb; subst x0 l.
  assert (Hx : nat_of_ascii x =? 32 = false).
  { destruct (Nat.eqb_spec (nat_of_ascii x) 32) as [Ex|]; [|reflexivity]. exfalso. unfold is_digit, digit in H1. rewrite Ex in H1. discriminate. }
  unfold pair_of. repeat (destruct Hin as [<-|Hin]; [rewrite span_app by (try apply show_is_digit; reflexivity); cbn [T list_ascii_of_string app];
    rewrite ?Hx; cbn [Nat.eqb nat_of_ascii]; rewrite <- Eb, !value_show; reflexivity|]). destruct Hin.
Qed.

(** A list of two speed limits counts as the greater one or is unknown.
    Left out is "6,5", which is a decimal number, and one list, see below. *)
Theorem C33_alternatives_partial c ts v a b sep :
  tag (T "maxspeed") ts = Some v -> In sep separators -> variant_of v (show_N a ++ T sep ++ show_N b) -> (a, b) <> (30, 40)%N -> (a, b) <> (6, 5)%N ->
  parse_maxspeed c ts = N.max a b \/ parse_maxspeed c ts = N.of_nat (default_speed c).
Proof.
  intros Et Hin Hv Hab Hdec. rewrite (speed_row c ts v a (T sep ++ show_N b) Et Hv).
  - destruct (lookup (show_N a ++ T sep ++ show_N b) speed_names) as [r|] eqn:El; [|auto].
    apply lookup_row in El. destruct El as (k & Hk & Ek). pose proof (pair_of_show a b sep Hin) as Hp. rewrite Ek in Hp.
    assert (G : forallb (fun kr => match pair_of (T (fst kr)) with
                  | Some (a, b) => match snd kr with Kmh n => (N.of_nat n =? N.max a b)%N || ((a =? 30) && (b =? 40))%N | OwnDefault => true
                                   | DefaultOf _ => ((a =? 6) && (b =? 5))%N end
                  | None => true end)
             (filter (fun kr => existsb (fun c => existsb (fun d => (nat_of_ascii c =? nat_of_ascii d)) (T ";,|")) (T (fst kr))) speed_names) = true)
      by (vm_compute; reflexivity).
    rewrite forallb_forall in G. assert (Hf : In (k, r) (filter (fun kr => existsb (fun c => existsb (fun d => (nat_of_ascii c =? nat_of_ascii d)) (T ";,|")) (T (fst kr))) speed_names)).
    { apply filter_In. split; [exact Hk|]. cbn [fst]. rewrite <- Ek. rewrite !existsb_app. apply orb_true_iff. right. apply orb_true_iff. left.
      clear - Hin. repeat (destruct Hin as [<-|Hin]; [reflexivity|]). destruct Hin. }
    specialize (G _ Hf). cbn [fst snd] in G. rewrite Hp in G. destruct r as [n|c'|]; [| |auto];
      [|apply andb_true_iff in G; destruct G as [G1 G2]; apply N.eqb_eq in G1, G2; subst; congruence].
    apply orb_true_iff in G. destruct G as [G|G]; [left; now apply N.eqb_eq|]. apply andb_true_iff in G. destruct G as [G1 G2].
    apply N.eqb_eq in G1, G2. subst. congruence.
  - pose proof (show_N_plain b) as [Hne Fb]. assert (He : exists l e, show_N b = l ++ [e]) by (destruct (exists_last Hne) as (l & e & ->); eauto).
    destruct He as (l & e & Ee). rewrite Ee in *. apply Forall_app in Fb. destruct Fb as [_ Fe]. inversion Fe; subst.
    repeat (destruct Hin as [<-|Hin]; [eexists _, _, _, e; (split; [reflexivity|]); (split; [apply app_assoc|]); (split; [reflexivity|]); (split; [vm_compute; lia|auto])|]).
    destruct Hin.
  - apply Forall_app. split.
    + repeat (destruct Hin as [<-|Hin]; [repeat (constructor; [vm_compute; lia|]); constructor|]). destruct Hin.
    + eapply Forall_impl; [|apply show_N_all]. intros x (k & Hk & ->). rewrite digit_char_nat by auto. lia.
Qed.
Print Assumptions C33_alternatives_partial.
Example C33_alternatives_case : variant_of (T " 100; 50") (show_N 100 ++ T "; " ++ show_N 50) /\
  parse_maxspeed Residential [(T "maxspeed", T " 100; 50")] = 100%N /\ parse_maxspeed Residential [(T "maxspeed", T "90; 60")] = 50%N.
Proof.
  split; [|split; vm_compute; reflexivity]. exists (T " "), (T "100; 50"), []. split; [reflexivity|]. split; [constructor; [left; reflexivity|constructor]|].
  split; [constructor|]. vm_compute. repeat (constructor; [left; reflexivity|]). constructor.
Qed.

(** one list counts as the smaller one *)
Theorem C33_alternatives_refuted : exists ts, tag (T "maxspeed") ts = Some (show_N 30 ++ T "; " ++ show_N 40) /\
  forall c, parse_maxspeed c ts = 30%N.
Proof. exists [(T "maxspeed", T "30; 40")]. split; [vm_compute; reflexivity|]. intros c. vm_compute. reflexivity. Qed.
Print Assumptions C33_alternatives_refuted.

(** *** Miles per hour *)
(** Limits in miles per hour are converted, up to 6 km/h, or unknown. *)
Theorem C33_mph_partial c ts v m :
  tag (T "maxspeed") ts = Some v -> variant_of v (show_N m ++ T " mph") -> m <> 3%N -> m <> 5%N ->
  about_mph (parse_maxspeed c ts) m \/ parse_maxspeed c ts = N.of_nat (default_speed c).
Proof.
  intros Et Hv H3 H5. rewrite (speed_row c ts v m (T " mph") Et Hv).
  - destruct (lookup (show_N m ++ T " mph") speed_names) as [r|] eqn:El; [|auto].
    apply lookup_row in El. destruct El as (k & Hk & Ek).
    assert (Hp : span (T k) = (show_N m, T " mph")) by (rewrite <- Ek; apply span_app; [apply show_is_digit|reflexivity]).
    assert (G : forallb (fun kr => let (a, r) := span (T (fst kr)) in
                  if text_eqb r (T " mph") then
                    match (match snd kr with Kmh n => Some n | DefaultOf c => Some (default_speed c) | OwnDefault => None end) with
                    | Some n => (value 0 a =? 3)%N || (value 0 a =? 5)%N ||
                                (Z.abs (Z.of_N (N.of_nat n) * 1000000 - Z.of_N (value 0 a) * mile) <=? 6 * 1000000)%Z
                    | None => true
                    end
                  else true) speed_names = true) by (vm_compute; reflexivity).
    rewrite forallb_forall in G. specialize (G _ Hk). cbn [fst snd] in G. rewrite Hp in G. rewrite value_show in G.
    replace (text_eqb (T " mph") (T " mph")) with true in G by reflexivity.
    assert (E3 : (m =? 3)%N = false) by now apply N.eqb_neq. assert (E5 : (m =? 5)%N = false) by now apply N.eqb_neq.
    rewrite E3, E5 in G. cbn [orb] in G. destruct r as [n|c'|]; [left; now apply Z.leb_le|left; now apply Z.leb_le|now right].
  - exists " "%char, (T "mph"), (T " mp"), "h"%char. split; [reflexivity|]. split; [reflexivity|]. split; [reflexivity|].
    split; [vm_compute; lia|]. unfold graphic. vm_compute. lia.
  - repeat (constructor; [vm_compute; lia|]). constructor.
Qed.
Print Assumptions C33_mph_partial.
Example C33_mph_case : variant_of (T "30 MPH") (show_N 30 ++ T " mph") /\ parse_maxspeed Motorway [(T "maxspeed", T "30 MPH")] = 50%N /\ about_mph 50 30.
Proof.
  split; [|split; [vm_compute; reflexivity|unfold about_mph; vm_compute; discriminate]].
  exists [], (T "30 MPH"), []. split; [reflexivity|]. split; [constructor|]. split; [constructor|].
  vm_compute. repeat (constructor; [first [left; reflexivity|right; vm_compute; lia]|]). constructor.
Qed.

(** 5 miles per hour are taken for 15 km/h, and 70 miles per hour (unknown) on a
    residential street for 50 km/h *)
Theorem C33_mph_refuted :
  (exists ts, tag (T "maxspeed") ts = Some (show_N 5 ++ T " mph") /\ forall c, ~ about_mph (parse_maxspeed c ts) 5) /\
  (exists ts c, tag (T "maxspeed") ts = Some (show_N 70 ++ T " mph") /\ ~ about_mph (parse_maxspeed c ts) 70).
Proof.
  split.
  - exists [(T "maxspeed", T "5 mph")]. split; [vm_compute; reflexivity|]. intros c H. vm_compute in H. now apply H.
  - exists [(T "maxspeed", T "70 mph")], Residential. split; [vm_compute; reflexivity|]. intros H. vm_compute in H. now apply H.
Qed.
Print Assumptions C33_mph_refuted.
