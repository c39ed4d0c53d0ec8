(** How a condition is read: NOT binds tighter than AND, AND tighter than OR, parentheses
    group; keywords in any case; quoted text is opaque.  Shared by SQL and df.query.
    Not covered: escaped quotes, BETWEEN ... AND, comparison of a parenthesized expression. *)
From Coq Require Import List String Ascii Bool Arith NArith.
From Verif Require Import M_SqlText M_SqlFilter.
Import ListNotations.
Local Open Scope list_scope.

Inductive tok := TWord (w : chars) | TLP | TRP | TAnd | TOr | TNot.

Definition is_space (c : ascii) : bool :=
  existsb (Ascii.eqb c) [" "%char; ascii_of_nat 9; ascii_of_nat 10; ascii_of_nat 13].
Definition is_quote (c : ascii) : bool :=
  existsb (Ascii.eqb c) ["'"%char; """"%char; "`"%char].

Definition classify (w : chars) : tok :=
  let u := of_chars (upper w) in
  if String.eqb u "AND" then TAnd else if String.eqb u "OR" then TOr
  else if String.eqb u "NOT" then TNot else TWord w.
(** [cur] is the current word, reversed. *)
Definition flush (cur : chars) : list tok :=
  match cur with [] => [] | _ => [classify (rev cur)] end.

Fixpoint lex (cur : chars) (q : option ascii) (l : chars) : option (list tok) :=
  match l with
  | [] => match q with Some _ => None | None => Some (flush cur) end
  | c :: t =>
      match q with
      | Some qc => lex (c :: cur) (if Ascii.eqb c qc then None else q) t
      | None =>
          if is_quote c then lex (c :: cur) (Some c) t
          else if is_space c then option_map (app (flush cur)) (lex [] None t)
          else if Ascii.eqb c "(" then option_map (fun r => flush cur ++ TLP :: r) (lex [] None t)
          else if Ascii.eqb c ")" then option_map (fun r => flush cur ++ TRP :: r) (lex [] None t)
          else lex (c :: cur) None t
      end
  end.

Inductive bexp := BAtom (ws : list tok) | BNot (b : bexp) | BAnd (a b : bexp) | BOr (a b : bexp).

(** The rest of an atom, e.g. [> 5] or [IN (1, 2)]. *)
Fixpoint p_atom (depth : nat) (ts : list tok) : option (list tok * list tok) :=
  match ts with
  | [] => match depth with O => Some ([], []) | _ => None end
  | t :: r =>
      match depth, t with
      | O, TWord _ => option_map (fun x => (t :: fst x, snd x)) (p_atom O r)
      | _, TLP => option_map (fun x => (t :: fst x, snd x)) (p_atom (S depth) r)
      | O, _ => Some ([], ts)
      | S d, TRP => option_map (fun x => (t :: fst x, snd x)) (p_atom d r)
      | S d, _ => option_map (fun x => (t :: fst x, snd x)) (p_atom depth r)
      end
  end.

Fixpoint p_expr (f : nat) (ts : list tok) : option (bexp * list tok) :=
  match f with
  | O => None
  | S f =>
      match p_conj f ts with
      | Some (e, TOr :: r) =>
          option_map (fun x => (BOr e (fst x), snd x)) (p_expr f r)
      | x => x
      end
  end
with p_conj (f : nat) (ts : list tok) : option (bexp * list tok) :=
  match f with
  | O => None
  | S f =>
      match p_unary f ts with
      | Some (e, TAnd :: r) =>
          option_map (fun x => (BAnd e (fst x), snd x)) (p_conj f r)
      | x => x
      end
  end
with p_unary (f : nat) (ts : list tok) : option (bexp * list tok) :=
  match f with
  | O => None
  | S f =>
      match ts with
      | TNot :: r => option_map (fun x => (BNot (fst x), snd x)) (p_unary f r)
      | TLP :: r => match p_expr f r with
                    | Some (e, TRP :: r2) => Some (e, r2)
                    | _ => None
                    end
      | TWord w :: r => option_map (fun x => (BAtom (TWord w :: fst x), snd x)) (p_atom O r)
      | _ => None
      end
  end.

(** The text [s] reads as the boolean expression [e]. *)
Definition reads_as (s : chars) (e : bexp) : Prop :=
  exists ts f, lex [] None s = Some ts /\ p_expr f ts = Some (e, []).

(** Kleene's three-valued logic, as in SQL ([None] is NULL); on two-valued atoms it is the
    usual logic of df.query. *)
Definition not3 (a : option bool) : option bool := option_map negb a.
Definition and3 (a b : option bool) : option bool :=
  match a, b with
  | Some false, _ | _, Some false => Some false
  | Some true, Some true => Some true
  | _, _ => None
  end.
Definition or3 (a b : option bool) : option bool := not3 (and3 (not3 a) (not3 b)).
Fixpoint eval (v : list tok -> option bool) (e : bexp) : option bool :=
  match e with
  | BAtom ws => v ws
  | BNot b => not3 (eval v b)
  | BAnd a b => and3 (eval v a) (eval v b)
  | BOr a b => or3 (eval v a) (eval v b)
  end.
Definition all3 (l : list (option bool)) : option bool := fold_right and3 (Some true) l.
