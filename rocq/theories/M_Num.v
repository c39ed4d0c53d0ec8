(** Floating point cells with exact arithmetic.

    A cell of a pandas column of dtype float: a finite number, NaN (also "missing"), or an
    infinity.  Finite arithmetic is exact (stdlib R) instead of rounded; overflow does not occur
    and the sign of zero is not kept (x / 0 is +inf for x > 0, as for numpy's 0.0). *)
From Coq Require Import Reals List Bool.
Import ListNotations.
Open Scope R_scope.

Inductive num := Fin (r : R) | NaN | PInf | NInf.

Definition is_nan (x : num) : bool := match x with NaN => true | _ => false end.
Definition neg_inf (b : bool) : num := if b then NInf else PInf.

(** numpy float addition, subtraction, multiplication, true division. *)
Definition xadd (x y : num) : num :=
  match x, y with
  | NaN, _ | _, NaN => NaN
  | Fin a, Fin b => Fin (a + b)
  | PInf, NInf | NInf, PInf => NaN
  | PInf, _ | _, PInf => PInf
  | NInf, _ | _, NInf => NInf
  end.
Definition xopp (x : num) : num :=
  match x with Fin a => Fin (- a) | NaN => NaN | PInf => NInf | NInf => PInf end.
Definition xsub (x y : num) : num := xadd x (xopp y).
(** inf with the sign of r; NaN for r = 0 *)
Definition inf_times (neg : bool) (r : R) : num :=
  if Req_EM_T r 0 then NaN else neg_inf (xorb neg (if Rlt_dec r 0 then true else false)).
Definition xmul (x y : num) : num :=
  match x, y with
  | NaN, _ | _, NaN => NaN
  | Fin a, Fin b => Fin (a * b)
  | PInf, Fin b | Fin b, PInf => inf_times false b
  | NInf, Fin b | Fin b, NInf => inf_times true b
  | PInf, PInf | NInf, NInf => PInf
  | PInf, NInf | NInf, PInf => NInf
  end.
Definition xdiv (x y : num) : num :=
  match x, y with
  | NaN, _ | _, NaN => NaN
  | Fin a, Fin b => if Req_EM_T b 0 then inf_times false a else Fin (a / b)
  | Fin _, _ => Fin 0
  | PInf, Fin b => neg_inf (if Rlt_dec b 0 then true else false)
  | NInf, Fin b => neg_inf (if Rlt_dec b 0 then false else true)
  | _, _ => NaN
  end.
(** numpy's log: NaN for negative numbers, -inf for 0 *)
Definition xlog (x : num) : num :=
  match x with
  | Fin a => if Rlt_dec 0 a then Fin (ln a) else if Req_EM_T a 0 then NInf else NaN
  | PInf => PInf
  | NInf | NaN => NaN
  end.
(** comparison: every comparison with NaN is False *)
Definition xlt (x y : num) : bool :=
  match x, y with
  | NaN, _ | _, NaN => false
  | Fin a, Fin b => if Rlt_dec a b then true else false
  | NInf, NInf => false
  | NInf, _ => true
  | _, PInf => match x with PInf => false | _ => true end
  | _, _ => false
  end.

(** pandas' sum: missing values are skipped, the sum of nothing is 0 *)
Definition xsum (l : list num) : num :=
  fold_right (fun x acc => if is_nan x then acc else xadd x acc) (Fin 0) l.

(** The finite values of a column, in order (for stating results). *)
Fixpoint finite_values (l : list num) : list R :=
  match l with [] => [] | Fin r :: l' => r :: finite_values l' | _ :: l' => finite_values l' end.
(** No infinity in the column: every cell is a number or missing. *)
Definition no_inf (x : num) : Prop := x <> PInf /\ x <> NInf.
Fixpoint Rsum (l : list R) : R := match l with [] => 0 | x :: l' => x + Rsum l' end.
