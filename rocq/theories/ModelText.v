(** Model of the text functions of Rust's standard library used when files are
    read and written.

    Text is a list of bytes ([ascii]), the UTF-8 encoding of the Rust string.
    Files are assumed to be valid UTF-8: `BufRead::lines` fails otherwise, and
    the code unwraps its results. *)
From Coq Require Import String Ascii List Bool Arith NArith ZArith.
From Verif Require Import Base.
Import ListNotations.
Open Scope string_scope.
Open Scope list_scope.
Open Scope nat_scope.

Definition text : Type := list ascii.

(** the bytes of a literal *)
Definition T (s : string) : text := list_ascii_of_string s.

(** equality of texts, for comparing with literals *)
Fixpoint text_eqb (a b : text) : bool :=
  match a, b with
  | [], [] => true
  | x :: a, y :: b => Ascii.eqb x y && text_eqb a b
  | _, _ => false
  end.

(** the line feed, carriage return and number sign *)
Definition LF : ascii := ascii_of_nat 10.
Definition CR : ascii := ascii_of_nat 13.
Definition HASH : ascii := "#"%char.
Definition SPACE : ascii := " "%char.

(** *** Lines *)

(** models: the end of a line found by std::io::BufRead::lines, where a
    carriage return before the line feed belongs to the line's end. *)
Definition strip_cr (l : text) : text :=
  match rev l with
  | c :: r => if Ascii.eqb c CR then rev r else l
  | [] => l
  end.

(** models: std::io::BufRead::lines; [cur] are the bytes of the current line. *)
Fixpoint lines_from (cur s : text) : list text :=
  match s with
  | [] => match cur with [] => [] | _ => [cur] end
  | c :: s => if Ascii.eqb c LF then strip_cr cur :: lines_from [] s else lines_from (cur ++ [c]) s
  end.
Definition lines (s : text) : list text := lines_from [] s.

(** models: src/helpers/mod.rs:7-9 (is_line_functional). *)
Definition is_line_functional (l : text) : bool :=
  match l with
  | [] => false
  | c :: _ => negb (Ascii.eqb c HASH)
  end.

(** models: the functional lines of a file, e.g.
    src/io/parsing/network/graph/fmi.rs:47-51. *)
Definition functional_lines (file : text) : list text := filter is_line_functional (lines file).

(** *** White space *)

(** the encodings of the characters with Unicode's property White_Space, which
    are those of char::is_whitespace: U+0009-U+000D, U+0020, U+0085, U+00A0,
    U+1680, U+2000-U+200A, U+2028, U+2029, U+202F, U+205F, U+3000 *)
Definition white_spaces : list (list nat) :=
  [[9]; [10]; [11]; [12]; [13]; [32]; [194; 133]; [194; 160]; [225; 154; 128];
   [226; 128; 128]; [226; 128; 129]; [226; 128; 130]; [226; 128; 131]; [226; 128; 132]; [226; 128; 133];
   [226; 128; 134]; [226; 128; 135]; [226; 128; 136]; [226; 128; 137]; [226; 128; 138];
   [226; 128; 168]; [226; 128; 169]; [226; 128; 175]; [226; 129; 159]; [227; 128; 128]].

(** does the text start with the given bytes? *)
Fixpoint starts_with (p : list nat) (s : text) : bool :=
  match p, s with
  | [], _ => true
  | x :: p, c :: s => (nat_of_ascii c =? x) && starts_with p s
  | _ :: _, [] => false
  end.

(** the number of bytes of the white space at the text's start, 0 if there is
    none; [enc] are the encodings *)
Fixpoint white (enc : list (list nat)) (s : text) : nat :=
  match enc with
  | [] => 0
  | p :: enc => if starts_with p s then length p else white enc s
  end.

(** models: str::trim_start; [skip] are the remaining bytes of the current white
    space.  Used with reversed encodings for the end of a text. *)
Fixpoint trim_front (enc : list (list nat)) (skip : nat) (s : text) : text :=
  match s with
  | [] => []
  | c :: t =>
      match skip with
      | S k => trim_front enc k t
      | O => match white enc s with
             | O => s
             | S k => trim_front enc k t
             end
      end
  end.

(** models: str::trim. *)
Definition trim (s : text) : text :=
  rev (trim_front (map (@rev nat) white_spaces) 0 (rev (trim_front white_spaces 0 s))).

(** models: str::split_whitespace; [cur] are the bytes of the current word,
    [skip] the remaining bytes of the current white space. *)
Fixpoint words_from (skip : nat) (cur s : text) : list text :=
  match s with
  | [] => match cur with [] => [] | _ => [cur] end
  | c :: t =>
      match skip with
      | S k => words_from k cur t
      | O => match white white_spaces s with
             | O => words_from 0 (cur ++ [c]) t
             | S k => match cur with
                      | [] => words_from k [] t
                      | _ => cur :: words_from k [] t
                      end
             end
      end
  end.
Definition words (s : text) : list text := words_from 0 [] s.

(** *** Letters *)

(** models: u8::to_ascii_lowercase. *)
Definition lower (c : ascii) : ascii :=
  let n := nat_of_ascii c in
  if (65 <=? n) && (n <=? 90) then ascii_of_nat (n + 32) else c.
(** models: str::to_ascii_lowercase. *)
Definition to_lower (s : text) : text := map lower s.

(** *** Numbers *)

(** a decimal digit's value *)
Definition digit (c : ascii) : option N :=
  let n := nat_of_ascii c in
  if (48 <=? n) && (n <=? 57) then Some (N.of_nat (n - 48)) else None.

(** models: the loop of core::num::from_str_radix for radix 10; a value above
    [max] is an overflow, whatever digits follow. *)
Fixpoint digits_value (max : N) (acc : N) (s : text) : option N :=
  match s with
  | [] => Some acc
  | c :: t =>
      match digit c with
      | None => None
      | Some d => let v := (acc * 10 + d)%N in
                  if (v <=? max)%N then digits_value max v t else None
      end
  end.

(** models: the sign's handling of core::num::from_str_radix; the result is
    the number's sign and digits. *)
Definition split_sign (signed : bool) (s : text) : option (bool * text) :=
  match s with
  | [] => None
  | c :: t =>
      if Ascii.eqb c "+" then match t with [] => None | _ => Some (false, t) end
      else if Ascii.eqb c "-" then
        match t with
        | [] => None
        | _ => if signed then Some (true, t) else Some (false, s)
        end
      else Some (false, s)
  end.

(** models: str::parse for an unsigned integer type with the given maximum. *)
Definition parse_unsigned (max : N) (s : text) : option N :=
  match split_sign false s with
  | Some (_, ds) => digits_value max 0 ds
  | None => None
  end.

(** the maxima of u16, usize (64 bits) and i64 *)
Definition U16_MAX : N := (2 ^ 16 - 1)%N.
Definition U64_MAX : N := (2 ^ 64 - 1)%N.
Definition I64_MAX : N := (2 ^ 63 - 1)%N.

(** models: str::parse::<u16>, ::<usize> and ::<i64>. *)
Definition parse_u16 (s : text) : option N := parse_unsigned U16_MAX s.
Definition parse_usize (s : text) : option N := parse_unsigned U64_MAX s.
Definition parse_i64 (s : text) : option Z :=
  match split_sign true s with
  | Some (true, ds) => option_map (fun n => (- Z.of_N n)%Z) (digits_value (I64_MAX + 1) 0 ds)
  | Some (false, ds) => option_map Z.of_N (digits_value I64_MAX 0 ds)
  | None => None
  end.

(** the digit of a number below 10 *)
Definition digit_char (d : N) : ascii := ascii_of_nat (48 + N.to_nat d).

(** models: Display for unsigned integers.  The fuel is the number of binary
    digits, of which there are at least as many as decimal ones. *)
Fixpoint show_digits (fuel : nat) (n : N) : text :=
  match fuel with
  | O => [digit_char n]
  | S fu => if (n <? 10)%N then [digit_char n] else show_digits fu (n / 10) ++ [digit_char (n mod 10)]
  end.
Definition show_N (n : N) : text := show_digits (N.to_nat (N.size n)) n.
Definition show_nat (n : nat) : text := show_N (N.of_nat n).
(** models: Display for i64. *)
Definition show_Z (z : Z) : text :=
  match z with
  | Zneg p => "-"%char :: show_N (Npos p)
  | _ => show_N (Z.to_N z)
  end.

(** models: writeln! of a text. *)
Definition line (s : text) : text := s ++ [LF].
(** columns separated by spaces *)
Fixpoint spaced (ws : list text) : text :=
  match ws with
  | [] => []
  | [w] => w
  | w :: t => w ++ SPACE :: spaced t
  end.
