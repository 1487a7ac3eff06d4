(** Model of src/multi_ch_constructor/mod.rs and src/bin/multi-ch-constructor.rs:
    the external programs called for building and running multi-ch *)
From Coq Require Import String Ascii List Bool Arith NArith.
From Verif Require Import Base F64 ModelText ModelYaml ModelDocs.
Import ListNotations.
Open Scope string_scope.
Open Scope list_scope.
Open Scope nat_scope.

(** A call of an external program (std::process::Command as used in
    src/multi_ch_constructor/mod.rs:27-31, :37-41, :74-78): the program, the
    directory to call it in if it isn't the current one, and its arguments. *)
Record call : Type := mkCall { c_program : string; c_dir : option string; c_args : list string }.

(** What surrounds the calls (src/multi_ch_constructor/mod.rs:11-88).  All of it
    is arbitrary, and may depend on what has been called before. *)
Record outside_env : Type := mkOutside {
  (** `std::fs::canonicalize`: the directory, or the error *)
  o_canonical : list call -> string -> string + string;
  (** `Command::status`: has the last call succeeded, or the error of the
      operating system if it couldn't be started *)
  o_status : list call -> bool + string;
  (** Display for f64 *)
  o_show_f64 : f64 -> string;
}.

(** models: Display for usize, as string. *)
Definition show_usize (n : N) : string := string_of_list_ascii (show_N n).

(** models: src/multi_ch_constructor/mod.rs:9. *)
Definition REPO_DIR : string := "externals/multi-ch-constructor".

Section MultiCh.
  Variable o : outside_env.

  (** models: `Command::new(p).current_dir(d).args(a).status()?.success()` of
      src/multi_ch_constructor/mod.rs:27-34, :37-44 and :74-86; the calls so far
      come first. *)
  Definition execute (c : call) (failed : string) (calls : list call) : list call * res unit :=
    let calls := calls ++ [c] in
    (calls, match o_status o calls with
            | inl true => Ok tt
            | inl false => Err failed
            | inr e => Err e
            end).

  (** models: src/multi_ch_constructor/mod.rs:28, :38 (`fs::canonicalize(..)?`). *)
  Definition in_repo (args : list string) (calls : list call) : list call * res unit :=
    match o_canonical o calls REPO_DIR with
    | inl d => execute (mkCall "cmake" (Some d) args) ("Failed: cmake " ++ String.concat " " args)%string calls
    | inr e => (calls, Err e)
    end.

  (** models: src/multi_ch_constructor/mod.rs:12-25 (cmd_args). *)
  Definition configure_args (c : mch_doc) : list string :=
    ["-Bbuild"; "-D"; ("GRAPH_DIM=" ++ show_usize (mc_dim c))%string; "-D"; ("COST_ACCURACY=" ++ o_show_f64 o (mc_accuracy c))%string].

  (** models: src/multi_ch_constructor/mod.rs:11-47 (build). *)
  Definition mch_build (c : mch_doc) (calls : list call) : list call * res unit :=
    match in_repo (configure_args c) calls with
    | (calls, Ok tt) => in_repo ["--build"; "build"] calls
    | r => r
    end.

  (** models: src/multi_ch_constructor/mod.rs:51-72 (cmd_args). *)
  Definition contract_args (c : mch_doc) : list string :=
    ["--threads"; show_usize (mc_threads c);
     if mc_osm_ids c then "--using-osm-ids" else "";
     if mc_external_ids c then "--external-edge-ids" else "";
     "--text"; mc_graph c; "--percent"; mc_ratio c; "--write"; mc_contracted c].

  (** models: src/multi_ch_constructor/mod.rs:50-88 (construct_ch_graph). *)
  Definition mch_contract (c : mch_doc) (calls : list call) : list call * res unit :=
    execute (mkCall (REPO_DIR ++ "/build/multi-ch")%string None (contract_args c))
      ("Failed: ./externals/multi-ch-constructor/build/multi-ch " ++ String.concat " " (contract_args c) ++ String LF
       "Maybe you have a graph-file with edges defined by the nodes' ids, but the multi-ch-constructor needs the nodes' indices.")%string calls.

  (** models: src/bin/osmgraphing/balancing/mod.rs:197-198 and
      src/bin/multi-ch-constructor.rs:25-26. *)
  Definition build_and_contract (c : mch_doc) (calls : list call) : list call * res unit :=
    match mch_build c calls with
    | (calls, Ok tt) => mch_contract c calls
    | r => r
    end.

  (** models: src/bin/multi-ch-constructor.rs:7-29 (main and run, without
      logging) and src/multi_ch_constructor/configs.rs:50-77 (try_from_yaml):
      [doc] is what is found in the file, if it can be opened and is a yaml-file.
      An error is a panic of main. *)
  Definition mch_main (sc : scalars) (path : string) (doc : option yaml) : list call * res unit :=
    let r := match find_supported_ext ["yaml"] path with
             | Ok _ => match doc with
                       | Some y => match read_mch sc y with
                                   | Ok c => build_and_contract c []
                                   | Err e => ([], Err e)
                                   | Panic => ([], Panic)
                                   | Diverge => ([], Diverge)
                                   end
                       | None => ([], Err "Couldn't read the configuration")
                       end
             | Err e => ([], Err e)
             | Panic => ([], Panic)
             | Diverge => ([], Diverge)
             end in
    match r with
    | (calls, Err _) => (calls, Panic)
    | r => r
    end.
End MultiCh.
