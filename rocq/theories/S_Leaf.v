(** Textbook statistics of a list of rows; [x], [y], [w], [f] read a number from a row. *)
From Coq Require Import Reals List.
From Verif Require Import M_Num M_Frame M_Leaf.
Import ListNotations.
Open Scope R_scope.

Section Textbook.
  Context {A : Type}.
  Definition sum_of (f : A -> R) (rows : list A) : R := Rsum (List.map f rows).
  Definition size (rows : list A) : R := INR (List.length rows).
  Definition mean_of (x : A -> R) rows := sum_of x rows / size rows.
  Definition wmean_of (w x : A -> R) rows := sum_of (fun r => w r * x r) rows / sum_of w rows.
  (** sum of w (x - mean x)(y - mean y) *)
  Definition wcross (w x y : A -> R) rows :=
    sum_of (fun r => w r * ((x r - wmean_of w x rows) * (y r - wmean_of w y rows))) rows.
  Definition cross (x y : A -> R) rows := wcross (fun _ => 1) x y rows.
End Textbook.

(** The column [c] has a number in every row; the number. *)
Definition complete (c : colx) (rows : table) : Prop := Forall (fun r => exists a, cellx c r = Fin a) rows.
Definition num_of (x : num) : R := match x with Fin a => a | _ => 0 end.
Definition at_ (c : colx) (r : drow) : R := num_of (cellx c r).
(** The column has numbers or missing values only. *)
Definition no_infinity (c : colx) (rows : table) : Prop := Forall (fun r => no_inf (cellx c r)) rows.
(** Leaves of a tree. *)
Fixpoint leaves (t : etree) : list leafm :=
  match t with
  | ELeaf l => [l] | ENum _ => []
  | EAdd a b | ESub a b | EMul a b | EDiv a b => leaves a ++ leaves b
  | ESqrt a | ESq a => leaves a
  end.
(** The table in which the leaf's native computation and its equivalent agree. *)
Definition comparable (l : leafm) (rows : table) : Prop :=
  match l with
  | LVar c ddof None | LSD c ddof None | LCV c ddof => no_infinity c rows /\ (ddof = 0 \/ ddof = 1)%Z
  | LCorr a b None => complete a rows /\ complete b rows
  | _ => True
  end.
(** [a] and [b] are missing in the same rows. *)
Definition same_missing (a b : colx) (rows : table) : Prop :=
  Forall (fun r => cellx a r = NaN <-> cellx b r = NaN) rows.
