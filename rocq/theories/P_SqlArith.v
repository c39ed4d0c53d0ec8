(** Property C15: arithmetic on SQL columns keeps precedence. *)
From Coq Require Import List String Reals Lra.
From Verif Require Import M_SqlArith S_SqlArith L_SqlArith.
Import ListNotations.

(** Whatever the columns, constants and power functions are, the generated text evaluates, in
    exact arithmetic, to the combination of the operands' values; in particular a division
    by zero is NULL and NULL is contagious (see [value], [vdiv] in S_SqlArith). *)
Theorem C15_text_evaluates_to_value : forall leaf num power sqrtv, num "0"%string = 0%R ->
  forall e, evaluates_to leaf num power sqrtv (gen e) (value leaf num power sqrtv e).
Proof. exact gen_evaluates. Qed.
Print Assumptions C15_text_evaluates_to_value.

(** The value of a text is unique. *)
Theorem C15_value_is_unique : forall leaf num power sqrtv ts v w,
  evaluates_to leaf num power sqrtv ts v -> evaluates_to leaf num power sqrtv ts w -> v = w.
Proof. exact evaluates_unique. Qed.
Print Assumptions C15_value_is_unique.

(** (sum(x) - (count(y) - 2)) * -sum(z) *)
Example C15_example :
  gen (AMul (OCol (ASub (OCol (ALeaf "SUM(x)"))
                        (OCol (ASub (OCol (ALeaf "COUNT(y)")) (OConst false "2")))))
            (OCol (ANeg (ALeaf "SUM(z)"))))
  = [KLP; KLeaf "SUM(x)"; KMinus; KLP; KLeaf "COUNT(y)"; KMinus; KNum "2"; KRP; KRP; KMul;
     KLP; KMinus; KLeaf "SUM(z)"; KRP].
Proof. reflexivity. Qed.
Example C15_hypothesis_satisfiable : (fun s : string => if String.eqb s "0" then 0%R else 1%R) "0"%string = 0%R.
Proof. reflexivity. Qed.
