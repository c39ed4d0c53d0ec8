(** What a WITH clause means, for C82. *)
From Coq Require Import List Bool String Ascii.
Import ListNotations.
Open Scope string_scope.
Open Scope list_scope.

(** A name is a word: letters, digits and underscores. *)
Definition letters : list ascii := list_ascii_of_string "abcdefghijklmnopqrstuvwxyzABCDEFGHIJKLMNOPQRSTUVWXYZ0123456789_".
Definition is_word (w : string) : Prop := w <> "" /\ forall c, In c (list_ascii_of_string w) -> In c letters.
(** The words of a text and the characters between them *)
Inductive piece := Word (w : string) | Other (c : ascii).
Fixpoint pieces (t : string) : list piece :=
  match t with
  | EmptyString => []
  | String c t' => if in_dec ascii_dec c letters then match pieces t' with Word w :: r => Word (String c w) :: r | r => Word (String c "") :: r end else Other c :: pieces t'
  end.
Definition mentions (t w : string) : Prop := In (Word w) (pieces t).

(** A WITH clause is a list of names and texts; a name in a text stands for the table of that name among the tables before.  The meaning of a
    table is its text with all these names replaced by their tables, in parentheses. *)
Definition clause := list (string * string).
Inductive meant := Same (p : piece) | Open | Close.
Fixpoint table_named {A} (a : string) (d : list (string * A)) : option A :=
  match d with [] => None | (k, v) :: d' => if string_dec k a then Some v else table_named a d' end.
Definition expand (before : list (string * list meant)) (t : string) : list meant :=
  flat_map (fun p => match p with
                     | Word w => match table_named w before with Some m => Open :: m ++ [Close] | None => [Same (Word w)] end
                     | Other c => [Same (Other c)]
                     end) (pieces t).
Definition meanings (d : clause) : list (string * list meant) := fold_left (fun before at_ => before ++ [(fst at_, expand before (snd at_))]) d [].
Definition names (d : clause) : list string := List.map fst d.

(** Every name is a word and occurs once; no text mentions its own name or a later one. *)
Definition well_named (d : clause) : Prop :=
  NoDup (names d) /\ (forall a, In a (names d) -> is_word a) /\
  forall d1 a t d2 w, d = d1 ++ (a, t) :: d2 -> mentions t w -> ~ In w (a :: names d2).
