(** [Datasources.extend] and the nesting of queries with WITH clauses in [Sql.__init__]: sql.py 679-691, 713-735.  A WITH table is its text ([str(d.table)]);
    [Datasources.add] is M_SqlColumns.ds_add on tables that are text. *)
From Coq Require Import List Bool String Ascii Arith NArith.
From Verif Require Import M_SqlText M_SqlColumns.
Import ListNotations.
Open Scope string_scope.
Open Scope list_scope.

(** [\w] of Python's [re], for ASCII *)
Definition word_char (c : ascii) : bool :=
  let n := N_of_ascii c in
  is_digit c || ((65 <=? n)%N && (n <=? 90)%N) || ((97 <=? n)%N && (n <=? 122)%N) || (n =? 95)%N.
(** A text, cut where [\b] matches: maximal runs of word characters, and the other characters. *)
Inductive tok := W (w : chars) | P (c : ascii).
Fixpoint cut (l : chars) : list tok :=
  match l with
  | [] => []
  | c :: l' => if word_char c then match cut l' with W w :: r => W (c :: w) :: r | r => W [c] :: r end else P c :: cut l'
  end.
Definition paste (l : list tok) : chars := flat_map (fun t => match t with W w => w | P c => [c] end) l.
(** [re.sub(r'\b%s\b' % old, new, text)], 689-690, for an alias of word characters.  (The guard [original_alias in str(d2)] of 688 only skips
    substitutions that change nothing; it is left out.) *)
Definition rename_tok (old new : string) (t : tok) : tok :=
  match t with W w => if String.eqb (of_chars w) old then W (to_chars new) else W w | P c => P c end.
Definition sub_word (old new text : string) : string := of_chars (paste (List.map (rename_tok old new) (cut (to_chars text)))).

Definition as_tables (d : list (string * string)) : dsources := List.map (fun at_ => (fst at_, TText (snd at_))) d.
Definition no_heap : heap := fun _ => mkCol "" None false 0.
(** 681-691.  The loop, with the number of rounds left; it also collects the aliases that the tables get. *)
Fixpoint extend_loop (n : nat) (d : dsources) (todo : list (string * string)) : res (dsources * list string) :=
  match n, todo with
  | S n', (a, t) :: todo' =>
      bind (ds_add (List.length d + 2) no_heap d a (TText t)) (fun x =>
      let todo'' := if String.eqb a (snd x) then todo' else List.map (fun bt => (fst bt, sub_word a (snd x) (snd bt))) todo' in
      bind (extend_loop n' (fst x) todo'') (fun y => Ok (fst y, snd x :: snd y)))
  | _, _ => Ok (d, [])
  end.
Definition ds_extend (d : dsources) (other : list (string * string)) : res (dsources * list string) := extend_loop (List.length other) d other.

(** 719-726: the query [text], whose WITH tables are [inner], becomes the FROM of a query with the WITH tables [outer].  The alias that from_data gets, and
    the WITH tables of the result. *)
Definition nest (outer : dsources) (inner : list (string * string)) (text : string) : res (string * dsources) :=
  bind (ds_add (List.length inner + 2) no_heap (as_tables inner) "NoNameTable" (TText text)) (fun x =>
  let merged := List.map (fun at_ => (fst at_, match snd at_ with TText s => s | TSql _ => "" end)) (fst x) in
  bind (ds_extend outer merged) (fun y => Ok (snd x, fst y))).
