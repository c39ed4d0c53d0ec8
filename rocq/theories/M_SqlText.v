(** Model of the text level of /repo/sql.py: alias sanitizing, suffixes.

    Python [str] is modelled by Coq [string] (sequences of 8-bit characters).
    Simplification: code points above 255 are not modelled. *)
From Coq Require Import List String Ascii Bool Arith NArith Lia.
From Coq Require Import DecimalString DecimalN.
Import ListNotations.
Local Open Scope string_scope.
Local Open Scope list_scope.

Definition chars := list ascii.
Definition to_chars : string -> chars := list_ascii_of_string.
Definition of_chars : chars -> string := string_of_list_ascii.

(** sql.py:76  [special = set(...)]: the special characters. *)
Definition special_chars : chars :=
  to_chars " `~!@#$%^&*()-=+[]{}\|;:'"",.<>/?".
Definition special (c : ascii) : bool := existsb (Ascii.eqb c) special_chars.

Definition underscore : ascii := "_"%char.

(** sql.py:79-95  the [escape] dictionary; characters that are not special map to
    themselves ([escape.get(c, c)]). *)
Definition escape_char (c : ascii) : chars :=
  if negb (special c) then [c] else
  if Ascii.eqb c "!" then to_chars "_not_" else
  if Ascii.eqb c "$" then to_chars "_macro_" else
  if Ascii.eqb c "@" then to_chars "_at_" else
  if Ascii.eqb c "%" then to_chars "_pct_" else
  if Ascii.eqb c "^" then to_chars "_to_the_power_" else
  if Ascii.eqb c "*" then to_chars "_times_" else
  if Ascii.eqb c ")" then [] else
  if Ascii.eqb c "-" then to_chars "_minus_" else
  if Ascii.eqb c "=" then to_chars "_equals_" else
  if Ascii.eqb c "+" then to_chars "_plus_" else
  if Ascii.eqb c "." then to_chars "_point_" else
  if Ascii.eqb c "/" then to_chars "_divides_" else
  if Ascii.eqb c ">" then to_chars "_greater_than_" else
  if Ascii.eqb c "<" then to_chars "_smaller_than_" else
  [underscore].

(** Python's [str.lstrip(ch)] / [str.strip(ch)] for one character. *)
Fixpoint lstrip (ch : ascii) (l : chars) : chars :=
  match l with
  | [] => []
  | c :: t => if Ascii.eqb c ch then lstrip ch t else l
  end.
Definition strip (ch : ascii) (l : chars) : chars :=
  rev (lstrip ch (rev (lstrip ch l))).

(** Python's [s.replace('__', '_')]: leftmost, non overlapping, one pass. *)
Fixpoint replace_uu (l : chars) : chars :=
  match l with
  | [] => []
  | c :: t =>
      if Ascii.eqb c underscore then
        match t with
        | d :: t' => if Ascii.eqb d underscore then underscore :: replace_uu t'
                     else c :: replace_uu t
        | [] => [c]
        end
      else c :: replace_uu t
  end.

(** [str.isdigit()] of one (ASCII) character. *)
Definition is_digit (c : ascii) : bool :=
  let n := N_of_ascii c in (48 <=? n)%N && (n <=? 57)%N.

(** sql.py:74-103 [escape_alias].  [None] is the IndexError raised by [res[0]] when nothing
    is left. *)
Definition escape_chars (a : chars) : option chars :=
  match a with
  | [] => Some []
  | _ =>
    if negb (existsb special a) then Some a else
    let res := replace_uu (strip " " (strip underscore (flat_map escape_char a))) in
    match res with
    | [] => None
    | c :: _ => if is_digit c then Some (to_chars "col_" ++ res) else Some res
    end
  end.
Definition escape_alias (a : string) : option string :=
  option_map of_chars (escape_chars (to_chars a)).

(** [str(int)] for nonnegative ints and [int(str)] on digit strings. *)
Definition str_of_N (n : N) : chars := to_chars (NilZero.string_of_uint (N.to_uint n)).
Definition N_of_str (l : chars) : option N :=
  option_map N.of_uint (NilZero.uint_of_string (of_chars l)).

(** [re.search(r'([0-9]+)$', alias)]: splits off the maximal trailing run of digits.
    Simplification: [$] also matches before a final newline in Python, not here. *)
Fixpoint span_digits (l : chars) : chars * chars :=
  match l with
  | c :: t => if is_digit c then let (d, r) := span_digits t in (c :: d, r) else ([], l)
  | [] => ([], [])
  end.
Definition split_suffix (l : chars) : chars * chars :=   (* (stem, digits) *)
  let (d, r) := span_digits (rev l) in (rev r, rev d).

(** sql.py:57-66 [add_suffix]. *)
Definition add_suffix_chars (a : chars) : chars :=
  let a := strip "`" a in
  let (stem, digits) := split_suffix a in
  match digits with
  | [] => a ++ to_chars "_1"
  | _ => match N_of_str digits with
         | Some n => stem ++ str_of_N (n + 1)
         | None => a (* unreachable: [digits] consists of digits *)
         end
  end.
Definition add_suffix (a : string) : string := of_chars (add_suffix_chars (to_chars a)).
