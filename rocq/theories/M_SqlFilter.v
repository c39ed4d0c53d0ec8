(** Model of filters: sql.py [Filter], [Filters] and metrics.py [Metric.where]. *)
From Coq Require Import List String Ascii Bool Arith NArith Lia.
From Verif Require Import M_SqlText.
Import ListNotations.
Local Open Scope list_scope.

(** Python [str.upper] on ASCII. *)
Definition upper_char (c : ascii) : ascii :=
  let n := N_of_ascii c in
  if ((97 <=? n) && (n <=? 122))%N then ascii_of_N (n - 32) else c.
Definition upper (l : chars) : chars := map upper_char l.

Fixpoint starts_with (p l : chars) : bool :=
  match p, l with
  | [], _ => true
  | a :: p', b :: l' => Ascii.eqb a b && starts_with p' l'
  | _ :: _, [] => false
  end.
(** Python [p in l]. *)
Fixpoint contains (p l : chars) : bool :=
  starts_with p l || match l with [] => false | _ :: t => contains p t end.

Definition eq_char : ascii := "="%char.
(** [s.replace('==', '=')]. *)
Fixpoint replace_eqeq (l : chars) : chars :=
  match l with
  | [] => []
  | c :: t =>
      if Ascii.eqb c eq_char then
        match t with
        | d :: t' => if Ascii.eqb d eq_char then eq_char :: replace_eqeq t'
                     else c :: replace_eqeq t
        | [] => [c]
        end
      else c :: replace_eqeq t
  end.

(** sql.py:171-185 [Filter(cond).__str__]. *)
Definition filter_str (cond : chars) : chars :=
  let cond := replace_eqeq cond in
  match cond with
  | [] => []
  | _ => if contains (to_chars " OR ") (upper cond)
         then to_chars "(" ++ cond ++ to_chars ")" else cond
  end.

Definition chars_eqb (a b : chars) : bool := String.eqb (of_chars a) (of_chars b).
Definition chars_leb (a b : chars) : bool := String.leb (of_chars a) (of_chars b).

(** Python [sorted] on strings. *)
Fixpoint insert (x : chars) (l : list chars) : list chars :=
  match l with
  | [] => [x]
  | y :: t => if chars_leb x y then x :: l else y :: insert x t
  end.
Definition sorted (l : list chars) : list chars := fold_right insert [] l.

Fixpoint join_chars (sep : chars) (l : list chars) : chars :=
  match l with
  | [] => []
  | [a] => a
  | a :: t => a ++ sep ++ join_chars sep t
  end.

(** sql.py:148-155 [SqlComponents.add]: skip empty or already present members. *)
Definition filters_add (fs : list chars) (f : chars) : list chars :=
  match f with
  | [] => fs
  | _ => if existsb (chars_eqb f) fs then fs else fs ++ [f]
  end.
Definition filters_of (l : list chars) : list chars := fold_left filters_add l [].

(** sql.py:191-202 [Filters.where] and [Filters.__str__]. *)
Definition filters_str (fs : list chars) : chars :=
  join_chars (to_chars " AND ") (sorted (map filter_str fs)).

(** metrics.py:255-262 [Metric.where]: the string given to df.query. *)
Definition metric_where (ws : list chars) : chars :=
  match ws with
  | [w] => w
  | _ => join_chars (to_chars " and ")
           (map (fun w => to_chars "(" ++ w ++ to_chars ")") (sorted ws))
  end.
