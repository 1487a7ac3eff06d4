(** Vocabulary of the command line's properties *)
From Coq Require Import String Ascii List Bool Arith.
From Verif Require Import Base ModelRoutingCfg ModelProgram ModelCmdline.
Import ListNotations.
Open Scope string_scope.
Open Scope list_scope.
Open Scope nat_scope.

(** the same letters, ignoring the case *)
Definition same_letters (a b : string) : Prop := lower a = lower b.

(** the levels one may ask for, as declared *)
Definition offered : list (string * level) :=
  [("TRACE", LTrace); ("DEBUG", LDebug); ("INFO", LInfo); ("WARN", LWarn); ("ERROR", LError)].

(** what clap lets through, according to the declarations: one of the offered
    levels (`INFO` if none is given) and a config *)
Definition accepted (m : matches) (l : level) : Prop :=
  (exists s n, m_log m = Some s /\ In (n, l) offered /\ same_letters s n) /\ m_cfg m <> None.

(** a directive is about a target *)
Definition about (target : string) (d : directive) : Prop :=
  match fst d with None => True | Some n => exists rest, target = (n ++ rest)%string end.
(** how many letters a directive names *)
Definition letters (d : directive) : nat := match fst d with Some n => String.length n | None => 0 end.

(** [d] governs the records of a target: of those about it, it names the most
    letters, and of several ones it is the last *)
Definition governs (ds : list directive) (target : string) (d : directive) : Prop :=
  exists before after, ds = before ++ d :: after /\ about target d /\
    (forall d', In d' before -> about target d' -> letters d' <= letters d) /\
    (forall d', In d' after -> about target d' -> letters d' < letters d).

(** records of this target and level are logged *)
Definition logged (ds : list directive) (target : string) (l : level) : Prop := enabled ds target l = true.
(** at most as detailed; in the order of their detail the levels are: *)
Definition by_detail : list level := [LOff; LError; LWarn; LInfo; LDebug; LTrace].
Definition within (l max : level) : Prop := exists less more, by_detail = less ++ max :: more /\ ~ In l more.

(** the program's own modules: their paths start with the crate's name *)
Definition own (target : string) : Prop := exists rest, target = ("osmgraphing" ++ rest)%string.

(** one of the binaries, started with these arguments and this
    environment-variable, logs by these directives *)
Definition logs_by (rust_log : option string) (m : matches) (ds : list directive) : Prop :=
  (exists gpl a, begin gpl rust_log m = Ok (ds, a)) \/ (exists c, begin_multi_ch rust_log m = Ok (ds, c)).

(** the words for levels *)
Definition words_for_levels : list (string * level) :=
  [("off", LOff); ("error", LError); ("warn", LWarn); ("info", LInfo); ("debug", LDebug); ("trace", LTrace)].
Definition says_level (s : string) (l : level) : Prop := exists w, In (w, l) words_for_levels /\ same_letters s w.

Fixpoint lacks (c : ascii) (s : string) : Prop :=
  match s with
  | EmptyString => True
  | String a t => a <> c /\ lacks c t
  end.

(** how a directive is written, and what is no directive *)
Inductive spells : string -> list directive -> Prop :=
| spells_level s l : says_level s l -> spells s [(None, l)]
| spells_name n : n <> "" -> lacks "=" n -> (forall l, ~ says_level n l) -> spells n [(Some n, LTrace)]
| spells_both n s l : lacks "=" n -> says_level s l -> spells (n ++ "=" ++ s)%string [(Some n, l)]
| spells_open n : lacks "=" n -> spells (n ++ "=")%string [(Some n, LTrace)]
| spells_nothing : spells "" []
| spells_unknown n s : lacks "=" n -> lacks "=" s -> s <> "" -> (forall l, ~ says_level s l) -> spells (n ++ "=" ++ s)%string []
| spells_more n s r : lacks "=" n -> lacks "=" s -> spells (n ++ "=" ++ s ++ "=" ++ r)%string [].

(** directives are separated by commas *)
Fixpoint comma_separated (l : list string) : string :=
  match l with
  | [] => ""
  | [x] => x
  | x :: r => (x ++ "," ++ comma_separated r)%string
  end.
