(** Auxiliary columns: utils.py 564-696. *)
From Coq Require Import String Ascii List Bool Arith.
Import ListNotations.
Open Scope string_scope.
Open Scope list_scope.
(** str(c).startswith(prefix) *)
Definition starts_with (p s : string) : bool := String.prefix p s.
(** 573-577 get_unique_prefix: the while loop, with fuel; [unique_prefix] gives it enough (proved in L_AuxCols) *)
Fixpoint prefix_loop (fuel : nat) (p : string) (columns : list string) : option string :=
  if existsb (starts_with p) columns
  then match fuel with O => None | S f => prefix_loop f (p ++ ":")%string columns end
  else Some p.
Definition unique_prefix (columns : list string) : option string :=
  prefix_loop (S (fold_right (fun c m => Nat.max (String.length c) m) 0 columns)) "meterstick_tmp:" columns.

Section Aux.
(** columns (and numbers, which broadcast), functions given as operators *)
Context {C F : Type}.
Inductive binop := Add | Sub | Mul | Div | Pow.
Inductive fn := Op (o : binop) | Fn (f : F).
(** 590-600: a column name, a number (as its str()), or a tuple *)
Inductive aux := AStr (s : string) | ANum (text : string) | ATup (l : aux) (f : fn) (r : aux).
Variable apply : binop -> C -> C -> C.
Variable call : F -> C -> C -> C.
Variable number : string -> C.
(** a frame: its columns, by name *)
Definition frame := list (string * C).
Fixpoint get (df : frame) (name : string) : option C :=
  match df with [] => None | (n, c) :: df' => if String.eqb n name then Some c else get df' name end.
(** 664-679: the name *)
Definition op_name (o : binop) (a b : string) : string :=
  match o with
  | Add => "(" ++ a ++ " + " ++ b ++ ")"
  | Sub => "(" ++ a ++ " - " ++ b ++ ")"
  | Mul => "(" ++ a ++ " * " ++ b ++ ")"
  | Div => "(" ++ a ++ " / " ++ b ++ ")"
  | Pow => "POWER(" ++ a ++ ", " ++ b ++ ")"
  end%string.
Definition commutes (o : binop) : bool := match o with Add | Mul => true | _ => false end.
(** 661-662: sorted(((name0, col0), (name1, col1))).  When the names are equal the columns are compared: the same
    object or numbers compare fine (df[c] twice is the same object: pandas caches it), a computed Series raises. *)
Definition comparable (a b : aux) : bool :=
  match a, b with AStr _, AStr _ | ANum _, ANum _ => true | _, _ => false end.
Definition sort2 (a b : aux) (x y : string * C) : option ((string * C) * (string * C)) :=
  match String.compare (fst x) (fst y) with
  | Lt => Some (x, y)
  | Gt => Some (y, x)
  | Eq => if comparable a b then Some (x, y) else None
  end.
(** 624-681 parse_auxiliary_col; None: it raises *)
Fixpoint parse (df : frame) (e : aux) : option (string * C) :=
  match e with
  | AStr s => match get df s with Some c => Some (s, c) | None => None end
  | ANum t => Some (t, number t)
  | ATup a f b =>
      match parse df a, parse df b with
      | Some x, Some y =>
          match f with
          | Fn g => Some ("lambda"%string, call g (snd x) (snd y))
          | Op o =>
              if commutes o
              then match sort2 a b x y with
                   | Some (x', y') => Some (op_name o (fst x') (fst y'), apply o (snd x') (snd y'))
                   | None => None
                   end
              else Some (op_name o (fst x) (fst y), apply o (snd x) (snd y))
          end
      | _, _ => None
      end
  end.
Definition has (df : frame) (name : string) : bool := match get df name with Some _ => true | None => false end.
(** 614-616: while name in df: name += '_' (fuel: the number of columns) *)
Fixpoint fresh_loop (fuel : nat) (name : string) (df : frame) : string :=
  if has df name then match fuel with O => name | S f => fresh_loop f (name ++ "_")%string df end else name.
(** 608-620 add_auxiliary_cols, one column: df with the column, and its name *)
Definition add_col (prefix : string) (df : frame) (e : aux) : option (frame * string) :=
  match parse df e with
  | None => None
  | Some (n, res) =>
      let name := (prefix ++ n)%string in
      let name := if String.eqb name (prefix ++ "lambda") then fresh_loop (List.length df) name df else name in
      Some (if has df name then df else df ++ [(name, res)], name)
  end.
Fixpoint add_cols (prefix : string) (df : frame) (es : list aux) : option (frame * list string) :=
  match es with
  | [] => Some (df, [])
  | e :: es' =>
      match add_col prefix df e with
      | None => None
      | Some (df', n) => match add_cols prefix df' es' with Some (df'', ns) => Some (df'', n :: ns) | None => None end
      end
  end.
End Aux.
Arguments aux : clear implicits.
Arguments fn : clear implicits.
Arguments frame : clear implicits.
