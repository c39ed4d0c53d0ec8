(** Nxx in binary64 arithmetic, without split_by: diversity.py 245-255 with the Distribution of
    operations.py 215-225.  [SpecFloat] is the executable specification of IEEE 754 in the
    standard library; binary64 has 53 bits of precision and maximal exponent 1024.  pandas'
    cumsum without groupby is numpy's, which adds from left to right. *)
From Coq Require Import ZArith List Floats.SpecFloat.
Import ListNotations.
Open Scope Z_scope.

Definition b64_add := SFadd 53 1024.
Definition b64_div := SFdiv 53 1024.
Definition b64_mul := SFmul 53 1024.
(** an integer as binary64 (exact below 2^53) *)
Definition b64_of_Z (z : Z) : spec_float := binary_normalize 53 1024 z 0 false.

Definition fsum (l : list spec_float) : spec_float := fold_left b64_add l (b64_of_Z 0).
Fixpoint fcumsum (acc : spec_float) (l : list spec_float) : list spec_float :=
  match l with [] => [] | x :: l' => b64_add acc x :: fcumsum (b64_add acc x) l' end.
Fixpoint finsert_desc (x : spec_float) (l : list spec_float) : list spec_float :=
  match l with [] => [x] | y :: l' => if SFltb y x then x :: l else y :: finsert_desc x l' end.
Definition fsort_desc (l : list spec_float) : list spec_float := fold_right finsert_desc [] l.
Definition nxx_binary64 (share : spec_float) (values : list spec_float) : nat :=
  let dist := List.map (fun v => b64_div v (fsum values)) values in
  List.length (filter (fun c => SFltb c share) (fcumsum (b64_of_Z 0) (fsort_desc dist))) + 1.
