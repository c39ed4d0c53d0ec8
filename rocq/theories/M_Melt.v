(** melt, unmelt and remove_empty_level: utils.py 39-125. *)
From Coq Require Import String List Bool Arith.
Import ListNotations.
Open Scope string_scope.
Open Scope list_scope.
Section Melt.
(** index values and cells; falsy: not v; zero: the label pandas gives to a single row; None: nan *)
Context {V : Type}.
Variable veqb : V -> V -> bool.
Variable falsy : V -> bool.
Variable zero : V.
Local Notation cell := (option V).
(** An unmelted frame: index level names and labels; per metric its sub-columns (a flat frame has one,
    called "Value" here) with a cell per label. *)
Record wide := { w_levels : list (option string); w_index : list (list V); w_flat : bool; w_cols : list (string * list (string * list cell)) }.
(** A melted frame: the levels after "Metric", the columns, the rows in order. *)
Record long := { l_levels : list (option string); l_cols : list string; l_rows : list (string * list V * list cell) }.
Fixpoint lookup {A} (n : string) (l : list (string * A)) : option A :=
  match l with [] => None | (m, a) :: l' => if String.eqb m n then Some a else lookup n l' end.
Fixpoint unique (l : list string) : list string :=
  match l with [] => [] | x :: l' => x :: filter (fun y => negb (String.eqb x y)) (unique l') end.
(** 60-69: pd.concat([df[n] for n in names], keys=names): the columns are the union, missing cells nan *)
Definition melt_raw (w : wide) : long :=
  let cols := unique (List.concat (List.map (fun m => List.map fst (snd m)) (w_cols w))) in
  {| l_levels := w_levels w; l_cols := cols;
     l_rows := List.concat (List.map (fun m => List.map (fun il => (fst m, snd il,
                 List.map (fun c => match lookup c (snd m) with Some cells => nth (fst il) cells None | None => None end) cols))
                 (combine (seq 0 (List.length (w_index w))) (w_index w))) (w_cols w)) |}.
(** 113-125: drops the unnamed levels with one value that is falsy *)
Definition empty_level (i : nat) (name : option string) (rows : list (list V)) : bool :=
  match name with
  | Some _ => false
  | None => match rows with
            | [] => false
            | r :: _ => match nth_error r i with
                        | Some v => falsy v && forallb (fun r' => match nth_error r' i with Some v' => veqb v v' | None => false end) rows
                        | None => false
                        end
            end
  end.
Definition keep {A} (drop : list bool) (l : list A) : list A :=
  List.map snd (filter (fun p => negb (fst p)) (combine drop l)).
Definition remove_empty_level (l : long) : long :=
  let drop := List.map (fun p => empty_level (fst p) (snd p) (List.map (fun r => snd (fst r)) (l_rows l)))
                (combine (seq 0 (List.length (l_levels l))) (l_levels l)) in
  {| l_levels := keep drop (l_levels l); l_cols := l_cols l; l_rows := List.map (fun r => (fst (fst r), keep drop (snd (fst r)), snd r)) (l_rows l) |}.
(** 39-70; None: raises (nothing to concatenate) *)
Definition melt (w : wide) : option long :=
  match w_cols w with [] => None | _ => Some (remove_empty_level (melt_raw w)) end.
Fixpoint label_eqb (a b : list V) : bool :=
  match a, b with [], [] => true | x :: a', y :: b' => veqb x y && label_eqb a' b' | _, _ => false end.
Fixpoint index_eqb (a b : list (list V)) : bool :=
  match a, b with [], [] => true | x :: a', y :: b' => label_eqb x y && index_eqb a' b' | _, _ => false end.
Fixpoint unique_labels (l : list (list V)) : list (list V) :=
  match l with [] => [] | x :: l' => x :: filter (fun y => negb (label_eqb x y)) (unique_labels l') end.
(** df.loc[n] *)
Definition block (l : long) (n : string) : list (list V * list cell) :=
  List.map (fun r => (snd (fst r), snd r)) (filter (fun r => String.eqb (fst (fst r)) n) (l_rows l)).
(** pd.concat(axis=1): the common index, or the union of the indexes *)
Definition join_index (is : list (list (list V))) : list (list V) :=
  match is with [] => [] | i :: is' => if forallb (index_eqb i) is' then i else unique_labels (List.concat is) end.
Fixpoint find_row (lab : list V) (b : list (list V * list cell)) : option (list cell) :=
  match b with [] => None | (x, cs) :: b' => if label_eqb x lab then Some cs else find_row lab b' end.
Definition column (idx : list (list V)) (j : nat) (b : list (list V * list cell)) : list cell :=
  if index_eqb idx (List.map fst b) then List.map (fun r => nth j (snd r) None) b
  else List.map (fun lab => match find_row lab b with Some cs => nth j cs None | None => None end) idx.
(** 73-110 *)
Definition unmelt (l : long) : option wide :=
  match l_rows l with
  | [] => None
  | _ =>
    let flat := match l_cols l with [c] => String.eqb c "Value" | _ => false end in
    match l_levels l with
    | [] => (* 101: df.stack(0).T *)
        Some {| w_levels := [None]; w_index := [[zero]]; w_flat := flat;
                w_cols := List.map (fun r => (fst (fst r), combine (l_cols l) (List.map (fun c => [c]) (snd r)))) (l_rows l) |}
    | levels =>
        let names := unique (List.map (fun r => fst (fst r)) (l_rows l)) in
        let idx := join_index (List.map (fun n => List.map fst (block l n)) names) in
        Some {| w_levels := levels; w_index := idx; w_flat := flat;
                w_cols := List.map (fun n => (n, List.map (fun jc => (snd jc, column idx (fst jc) (block l n)))
                                                  (combine (seq 0 (List.length (l_cols l))) (l_cols l)))) names |}
    end
  end.
End Melt.
Arguments wide : clear implicits.
Arguments long : clear implicits.
