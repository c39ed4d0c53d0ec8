(** Specification for C15: the value of an arithmetic combination, and the value a SQL engine
    gives to a text: unary minus binds tighter than [*] and [/], these tighter than [+] and [-],
    all left associative.  NULL ([None]) is contagious. *)
From Coq Require Import List String Reals.
From Verif Require Import M_SqlArith.
Import ListNotations.
Local Open Scope R_scope.

Definition val := option R.
Definition lift2 (f : R -> R -> R) (a b : val) : val :=
  match a, b with Some x, Some y => Some (f x y) | _, _ => None end.
Definition vadd := lift2 Rplus.
Definition vsub := lift2 Rminus.
Definition vmul := lift2 Rmult.
Definition vneg (a : val) : val := option_map Ropp a.
(** Division, NULL for a zero denominator. *)
Definition vdiv (a b : val) : val :=
  match a, b with
  | Some x, Some y => if Req_EM_T y 0 then None else Some (x / y)
  | _, _ => None
  end.
Definition bind2 (f : R -> R -> val) (a b : val) : val :=
  match a, b with Some x, Some y => f x y | _, _ => None end.

Section Semantics.
  Variable leaf : string -> val.        (* value of a column *)
  Variable num : string -> R.           (* value of a number literal *)
  Variable power : R -> R -> val.       (* SAFE.POWER *)
  Variable sqrtv : R -> val.            (* SAFE.SQRT *)

  Fixpoint value (e : aexp) : val :=
    match e with
    | ALeaf s => leaf s
    | AAdd a b => vadd (ovalue a) (ovalue b)
    | ASub a b => vsub (ovalue a) (ovalue b)
    | AMul a b => vmul (ovalue a) (ovalue b)
    | ADiv a b => vdiv (ovalue a) (ovalue b)
    | APow a b => bind2 power (ovalue a) (ovalue b)
    | ASqrt a => match value a with Some x => sqrtv x | None => None end
    | ANeg a => vneg (value a)
    end
  with ovalue (o : operand) : val :=
    match o with
    | OCol e => value e
    | OConst n s => Some (if n then - num s else num s)
    end.

  (** IF(a = b, c, d): NULL conditions take the last branch. *)
  Definition sql_if_eq (a b c d : val) : val :=
    match a, b with
    | Some x, Some y => if Req_EM_T x y then c else d
    | _, _ => d
    end.

  (** The parser-evaluator; [f] bounds the recursion. *)
  Fixpoint p_add (f : nat) (ts : list atok) : option (val * list atok) :=
    match f with O => None | S f =>
      match p_mul f ts with Some (v, r) => p_add_tail f v r | None => None end end
  with p_add_tail (f : nat) (v : val) (ts : list atok) : option (val * list atok) :=
    match f with O => None | S f =>
      match ts with
      | KPlus :: r => match p_mul f r with Some (w, r') => p_add_tail f (vadd v w) r' | None => None end
      | KMinus :: r => match p_mul f r with Some (w, r') => p_add_tail f (vsub v w) r' | None => None end
      | _ => Some (v, ts)
      end end
  with p_mul (f : nat) (ts : list atok) : option (val * list atok) :=
    match f with O => None | S f =>
      match p_un f ts with Some (v, r) => p_mul_tail f v r | None => None end end
  with p_mul_tail (f : nat) (v : val) (ts : list atok) : option (val * list atok) :=
    match f with O => None | S f =>
      match ts with
      | KMul :: r => match p_un f r with Some (w, r') => p_mul_tail f (vmul v w) r' | None => None end
      | KDiv :: r => match p_un f r with Some (w, r') => p_mul_tail f (vdiv v w) r' | None => None end
      | _ => Some (v, ts)
      end end
  with p_un (f : nat) (ts : list atok) : option (val * list atok) :=
    match f with O => None | S f =>
      match ts with
      | KMinus :: r => match p_un f r with Some (v, r') => Some (vneg v, r') | None => None end
      | KLeaf s :: r => Some (leaf s, r)
      | KNum s :: r => Some (Some (num s), r)
      | KNull :: r => Some (None, r)
      | KLP :: r => match p_add f r with Some (v, KRP :: r') => Some (v, r') | _ => None end
      | KSqrt :: KLP :: r =>
          match p_add f r with
          | Some (v, KRP :: r') => Some (match v with Some x => sqrtv x | None => None end, r')
          | _ => None end
      | KPower :: KLP :: r =>
          match p_add f r with
          | Some (v, KComma :: r1) =>
              match p_add f r1 with Some (w, KRP :: r') => Some (bind2 power v w, r') | _ => None end
          | _ => None end
      | KIf :: KLP :: r =>
          match p_add f r with
          | Some (a, KEq :: r1) =>
              match p_add f r1 with
              | Some (b, KComma :: r2) =>
                  match p_add f r2 with
                  | Some (c, KComma :: r3) =>
                      match p_add f r3 with
                      | Some (d, KRP :: r4) => Some (sql_if_eq a b c d, r4)
                      | _ => None end
                  | _ => None end
              | _ => None end
          | _ => None end
      | _ => None
      end end.

  (** The text [ts] evaluates to [v]: so for every large enough recursion bound. *)
  Definition evaluates_to (ts : list atok) (v : val) : Prop :=
    exists f0, forall f, (f0 <= f)%nat -> p_add f ts = Some (v, []).
End Semantics.
