(** Specification of C44 and C45. *)
From Coq Require Import String List.
From Verif Require Import M_AuxCols.
Fixpoint colons (k : nat) : string := match k with O => "" | S k' => (":" ++ colons k')%string end.
Section Eval.
Context {C F : Type}.
Variable apply : binop -> C -> C -> C.
Variable call : F -> C -> C -> C.
Variable number : string -> C.
Notation frame := (frame C).
(** the column an expression stands for *)
Fixpoint eval (df : frame) (e : aux F) : option C :=
  match e with
  | AStr s => get df s
  | ANum t => Some (number t)
  | ATup a f b =>
      match eval df a, eval df b with
      | Some x, Some y => Some (match f with Op o => apply o x y | Fn g => call g x y end)
      | _, _ => None
      end
  end.
End Eval.
