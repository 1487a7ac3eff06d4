(** The command line and logging.

    clap (2.33) and env_logger (0.6) are modelled by their documented behaviour:
    clap answers with values that meet the declarations ([accepted] in
    SpecCmdline.v); env_logger keeps a list of directives. *)
From Coq Require Import String Ascii List Bool Arith.
From Verif Require Import Base Lib ModelRoutingCfg ModelProgram.
Import ListNotations.
Open Scope string_scope.
Open Scope list_scope.
Open Scope nat_scope.

(** *** levels *)
(** models: log::LevelFilter (src/helpers/mod.rs:55); log::Level is the same
    without [LOff]. *)
Inductive level : Type := LOff | LError | LWarn | LInfo | LDebug | LTrace.
(** models: the order of log's levels (src/helpers/mod.rs:55). *)
Definition rank (l : level) : nat :=
  match l with LOff => 0 | LError => 1 | LWarn => 2 | LInfo => 3 | LDebug => 4 | LTrace => 5 end.

(** models: LevelFilter::from_str of log (src/helpers/mod.rs:58), which ignores
    the case. *)
Definition level_of (s : string) : option level :=
  let l := lower s in
  if String.eqb l "off" then Some LOff
  else if String.eqb l "error" then Some LError
  else if String.eqb l "warn" then Some LWarn
  else if String.eqb l "info" then Some LInfo
  else if String.eqb l "debug" then Some LDebug
  else if String.eqb l "trace" then Some LTrace
  else None.

(** models: `to_ascii_uppercase` (src/helpers/mod.rs:58). *)
Definition upper_ascii (a : ascii) : ascii :=
  let n := nat_of_ascii a in
  if (97 <=? n) && (n <=? 122) then ascii_of_nat (n - 32) else a.
Fixpoint upper (s : string) : string :=
  match s with
  | EmptyString => EmptyString
  | String a t => String (upper_ascii a) (upper t)
  end.

(** *** env_logger *)
(** models: Directive of env_logger: a prefix of targets, or none, and the level
    (src/helpers/mod.rs:55, :65, :67, :71). *)
Definition directive : Type := option string * level.

(** models: cutting a text at every [c], as `str::split` in env_logger's
    parse_spec (src/helpers/mod.rs:71). *)
Fixpoint split_at_char (c : ascii) (s : string) : list string :=
  match s with
  | EmptyString => [EmptyString]
  | String a t =>
      if Ascii.eqb a c then EmptyString :: split_at_char c t
      else match split_at_char c t with
           | h :: r => String a h :: r
           | [] => [String a EmptyString]
           end
  end.

(** models: env_logger's parse_spec (src/helpers/mod.rs:71) for a specification
    without a regular expression; blanks around levels aren't trimmed. *)
Definition parse_directive (s : string) : option directive :=
  match split_at_char "=" s with
  | [p] => if String.eqb p "" then None
           else match level_of p with Some l => Some (None, l) | None => Some (Some p, LTrace) end
  | [p; v] => if String.eqb v "" then Some (Some p, LTrace)
              else match level_of v with Some l => Some (Some p, l) | None => None end
  | _ => None
  end.
Definition parse_filters (s : string) : list directive :=
  flat_map (fun x => match parse_directive x with Some d => [d] | None => [] end) (split_at_char "," s).

(** models: the length env_logger's build sorts directives by
    (src/helpers/mod.rs:78). *)
Definition dir_len (d : directive) : nat := match fst d with Some n => String.length n | None => 0 end.
(** models: the stable sort in env_logger's build (src/helpers/mod.rs:78). *)
Fixpoint insert_dir (d : directive) (l : list directive) : list directive :=
  match l with
  | [] => [d]
  | x :: r => if dir_len d <=? dir_len x then d :: l else x :: insert_dir d r
  end.
Fixpoint sort_dirs (l : list directive) : list directive :=
  match l with
  | [] => []
  | d :: r => insert_dir d (sort_dirs r)
  end.

(** models: does the directive apply to records of [target]; env_logger's enabled
    (src/helpers/mod.rs:78). *)
Definition applies (target : string) (d : directive) : bool :=
  match fst d with None => true | Some n => String.prefix n target end.
(** models: env_logger's enabled: the last directive that applies decides
    (src/helpers/mod.rs:78). *)
Definition enabled (sorted : list directive) (target : string) (l : level) : bool :=
  match find (applies target) (rev sorted) with
  | Some d => rank l <=? rank (snd d)
  | None => false
  end.

(** models: `env!("CARGO_PKG_NAME")`, Cargo.toml:4 (src/helpers/mod.rs:67). *)
Definition PKG_NAME : string := "osmgraphing".

(** models: src/helpers/mod.rs:51-82 (init_logging), without the style:
    [rust_log] is the environment-variable; the result are the sorted
    directives. *)
Definition init_logging (max_log_level : string) (modules : list string) (rust_log : option string)
  : res (list directive) :=
  match level_of (upper max_log_level) with
  | None => Err ("The provided max-log-level " ++ max_log_level ++ " is not supported.")%string
  | Some l =>
      Ok (sort_dirs ((None, LWarn) :: map (fun m => (Some m, l)) modules ++ [(Some PKG_NAME, l)] ++
                     match rust_log with Some s => parse_filters s | None => [] end))
  end.

(** *** the command line *)
(** models: clap::ArgMatches for the declarations of
    src/bin/osmgraphing/mod.rs:324-458 (parse_cmdline). *)
Record matches : Type := mkMatches {
  m_log : option string;
  m_cfg : option string;
  m_graph : bool;
  m_edges : bool;
  m_pairs : bool;
  m_routing : bool;
  m_balancing : bool;
  m_evaluating : bool;
}.

(** models: src/bin/osmgraphing/mod.rs:491-521 (CmdlineArgs::try_from) and
    :523-529 (check_for_activated_feature); [gpl] is the feature. No argument is
    declared with the id is_explorating, so it is never present. *)
Definition args_of (gpl : bool) (m : matches) : res (string * args) :=
  do log <- expect (m_log m);
  do cfg <- expect (m_cfg m);
  if (m_balancing m || m_evaluating m) && negb gpl then Err "Please activate cargo-feature gpl."
  else Ok (log, mkArgs cfg (m_graph m) (m_edges m) (m_pairs m) (m_routing m) (m_evaluating m) (m_balancing m)).

(** models: src/bin/osmgraphing/mod.rs:39-52 (main, until run is called); an
    error is a panic. *)
Definition begin (gpl : bool) (rust_log : option string) (m : matches) : res (list directive * args) :=
  match args_of gpl m with
  | Ok (log, a) =>
      match init_logging log [] rust_log with
      | Ok ds => Ok (ds, a)
      | _ => Panic
      end
  | _ => Panic
  end.

(** models: src/bin/multi-ch-constructor.rs:8-13, :31-81, :90-107 (main, until
    run is called); it has two arguments only. *)
Definition begin_multi_ch (rust_log : option string) (m : matches) : res (list directive * string) :=
  do log <- expect (m_log m);
  do cfg <- expect (m_cfg m);
  match init_logging log [] rust_log with
  | Ok ds => Ok (ds, cfg)
  | _ => Panic
  end.
