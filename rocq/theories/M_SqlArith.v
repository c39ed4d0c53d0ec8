(** Model of arithmetic on SQL columns, sql.py:313-399.

    The generated text is modelled as its token sequence (the code separates operators by
    spaces and operands never fuse with them).  A leaf expression such as [SUM(x)] is one
    opaque token that keeps its text, because [add_parenthesis_if_needed] looks for '+' and '-'
    anywhere in the text. *)
From Coq Require Import List String Ascii Bool.
From Verif Require Import M_SqlText.
Import ListNotations.

Inductive atok :=
| KLeaf (text : string)           (* column expression *)
| KNum (text : string)            (* unsigned number literal *)
| KPlus | KMinus | KMul | KDiv | KLP | KRP | KComma | KEq
| KNull | KIf | KPower | KSqrt.

(** A combination of columns as the user (or [CompositeMetric]) writes it.  [ALeaf] is a column
    whose expression is a single name or function call; constants are Python numbers, given
    by sign and text of the magnitude. *)
Inductive aexp :=
| ALeaf (text : string)
| AAdd (a b : operand) | ASub (a b : operand) | AMul (a b : operand) | ADiv (a b : operand)
| APow (a b : operand) | ASqrt (a : aexp) | ANeg (a : aexp)
with operand := OCol (e : aexp) | OConst (neg : bool) (text : string).

Definition has_pm_char (s : string) : bool :=
  existsb (fun c => Ascii.eqb c "+" || Ascii.eqb c "-") (to_chars s).
(** ['+' in expression or '-' in expression], sql.py:395. *)
Definition has_pm (ts : list atok) : bool :=
  existsb (fun t => match t with
                    | KPlus | KMinus => true
                    | KLeaf s | KNum s => has_pm_char s
                    | _ => false end) ts.

(** [str(number)]. *)
Definition const_toks (neg : bool) (s : string) : list atok :=
  if neg then [KMinus; KNum s] else [KNum s].

(** sql.py:389-399 [add_parenthesis_if_needed] for a Column. *)
Definition paren_if_needed (ts : list atok) : list atok :=
  if has_pm ts then KLP :: ts ++ [KRP] else ts.

(** sql.py:27 [SAFE_DIVIDE]. *)
Definition safe_divide (numer denom : list atok) : list atok :=
  [KIf; KLP; KLP] ++ denom ++ [KRP; KEq; KNum "0"; KComma; KNull; KComma; KLP] ++
  numer ++ [KRP; KDiv; KLP] ++ denom ++ [KRP; KRP].

(** sql.py:313-387: [__add__], [__radd__], [__sub__], ..., [__rpow__]: the [expression]. *)
Fixpoint gen (e : aexp) : list atok :=
  match e with
  | ALeaf s => [KLeaf s]
  | AAdd a b => gen_par a ++ KPlus :: gen_par b
  | ASub a b => gen_par a ++ KMinus :: gen_par b
  | AMul a b => gen_par a ++ KMul :: gen_par b
  | ADiv a b => safe_divide (gen_raw a) (gen_raw b)
  | APow a b => [KPower; KLP] ++ gen_raw a ++ KComma :: gen_raw b ++ [KRP]
  | ASqrt a => [KSqrt; KLP] ++ gen a ++ [KRP]
  | ANeg a => KMinus :: paren_if_needed (gen a)
  end
with gen_par (o : operand) : list atok :=     (* through add_parenthesis_if_needed *)
  match o with OCol e => paren_if_needed (gen e) | OConst n s => const_toks n s end
with gen_raw (o : operand) : list atok :=     (* getattr(other, 'expression', other) *)
  match o with OCol e => gen e | OConst n s => const_toks n s end.
