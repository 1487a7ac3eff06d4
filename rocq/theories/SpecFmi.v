(** Vocabulary for text files *)
From Coq Require Import String Ascii List Bool Arith NArith ZArith.
From Verif Require Import Base F64 ModelText.
Import ListNotations.
Open Scope string_scope.
Open Scope list_scope.
Open Scope nat_scope.

(** [file] consists of the given lines, each ended by a line feed (perhaps
    after a carriage return), the last one perhaps by the file's end *)
Inductive file_of : list text -> text -> Prop :=
| file_empty : file_of [] []
| file_last l : l <> [] -> ~ In LF l -> file_of [l] l
| file_lf l ls file : ~ In LF l -> (forall l', l <> l' ++ [CR]) -> file_of ls file -> file_of (l :: ls) (l ++ LF :: file)
| file_crlf l ls file : ~ In LF l -> file_of ls file -> file_of (l :: ls) (l ++ CR :: LF :: file).

(** comments and empty lines *)
Definition noise (l : text) : Prop := l = [] \/ exists r, l = HASH :: r.

(** [ls] are the lines [ds] with comments and empty lines in between *)
Inductive interleaved : list text -> list text -> Prop :=
| inter_nil : interleaved [] []
| inter_noise l ls ds : noise l -> interleaved ls ds -> interleaved (l :: ls) ds
| inter_data l ls ds : ~ noise l -> interleaved ls ds -> interleaved (l :: ls) (l :: ds).

(** lines of one word *)
Definition single (l : text) : Prop := exists w, words l = [w].

(** [ds] consists of some lines of other than one word, the header's lines of
    one word, and the lines [data], the first of which has other than one word *)
Definition header (ds pre hs data : list text) : Prop :=
  ds = pre ++ hs ++ data /\ hs <> [] /\
  Forall (fun l => ~ single l) pre /\ Forall single hs /\
  (forall l rest, data = l :: rest -> ~ single l).

(** a line's only word announces the number [n] *)
Definition announces (l : text) (n : N) : Prop := exists w, words l = [w] /\ parse_usize w = Some n.
