(** The resampling queries of Bootstrap and PoissonBootstrap: operations.py 3550-3700 and 2884-3113.
    Tables are lists of rows (a query has no order; every order is a list). *)
From Coq Require Import Reals List Bool String Arith ZArith.
From Verif Require Import M_Frame.
Import ListNotations.
Open Scope list_scope.

(** CEILING *)
Definition ceiling (x : R) : Z := (- Int_part (- x))%Z.

Section ByRow.
  Context {A : Type}.
  Variable part : A -> option (list string).   (* labels in split_by; None = one of them is NULL *)
  Variable cond : A -> option bool.            (* the global filter; None = NULL *)
  Variable rand : nat -> nat -> R.             (* RAND() of resample i, row j *)

  Definition obool_eqb (a b : option bool) : bool :=
    match a, b with Some x, Some y => Bool.eqb x y | None, None => true | _, _ => false end.
  Definition opart_eqb (a b : option (list string)) : bool :=
    match a, b with Some x, Some y => key_eqb x y | None, None => true | _, _ => false end.
  (** PARTITION BY split_by, meterstick_resample_idx, filter (3592-3596); rows with a NULL label are put
      together here, they are dropped by USING anyway *)
  Definition same_partition (a b : A) : bool := opart_eqb (part a) (part b) && obool_eqb (cond a) (cond b).
  (** 3597-3599 ROW_NUMBER() *)
  Fixpoint number_from (seen : list A) (t : list A) : list (A * nat) :=
    match t with
    | [] => []
    | r :: t' => (r, S (List.length (filter (same_partition r) seen))) :: number_from (r :: seen) t'
    end.
  Definition row_numbers (t : list A) : list (A * nat) := number_from [] t.
  (** 3600-3605 CEILING(RAND() * COUNT( * ) OVER ...) *)
  Definition random_rows (i : nat) (t : list A) : list (A * Z) :=
    List.map (fun jr => (snd jr, ceiling (rand i (fst jr) * INR (List.length (filter (same_partition (snd jr)) t)))))
             (combine (seq 0 (List.length t)) t).
  (** 3617-3640 a JOIN b USING (split_by, meterstick_resample_idx, row number, filter): NULLs are not equal *)
  Definition joins (a b : A) : bool :=
    match part a, part b, cond a, cond b with
    | Some p, Some q, Some x, Some y => key_eqb p q && Bool.eqb x y
    | _, _, _, _ => false
    end.
  Definition joined (i : nat) (t : list A) : list A :=
    flat_map (fun a => List.map fst (filter (fun b => joins (fst a) (fst b) && Z.eqb (Z.of_nat (snd b)) (snd a)) (row_numbers t)))
             (random_rows i t).
  (** 3642-3646 WHERE meterstick_bs_filter *)
  Definition is_true (x : option bool) : bool := match x with Some true => true | _ => false end.
  Definition bootstrap_by_row (i : nat) (t : list A) : list A := filter (fun r => is_true (cond r)) (joined i t).
End ByRow.

(** bootstrap_by_unit, 3652-3711: the candidates are resampled by row, without a filter, and joined
    back to the table. *)
Section ByUnit.
  Context {A : Type}.
  Variable part : A -> option (list string).
  Variable unit : A -> option string.          (* None = NULL *)
  Variable cond : A -> option bool.
  Variable rand : nat -> nat -> R.
  Definition candidate := (option (list string) * option string)%type.
  Definition cand_dec (a b : candidate) : {a = b} + {a <> b}.
  Proof. repeat decide equality. Defined.
  (** 3680-3682: SELECT ... WHERE global_filter GROUP BY split_by, unit *)
  Definition candidates (t : list A) : list candidate :=
    nodup cand_dec (List.map (fun r => (part r, unit r)) (filter (fun r => is_true (cond r)) t)).
  (** 3699-3707: LEFT JOIN table USING (split_by, unit) WHERE global_filter.  A candidate with a NULL joins
      nothing; the row of NULLs it leaves is not modelled. *)
  Definition of_candidate (c : candidate) (r : A) : bool :=
    match c, part r, unit r with
    | (Some k, Some u), Some k', Some u' => key_eqb k k' && String.eqb u u'
    | _, _, _ => false
    end.
  Definition bootstrap_by_unit (i : nat) (t : list A) : list A :=
    flat_map (fun c => filter (fun r => of_candidate c r && is_true (cond r)) t)
             (bootstrap_by_row (fun c : candidate => fst c) (fun _ => Some true) rand i (candidates t)).
End ByUnit.

(** The Poisson weight of a uniform number, 3043-3077: rows with a number not above the first cutoff are
    dropped by WHERE (weight 0), the CASE gives the others 1..18.  The literals are read as exact
    decimals. *)
Definition cutoff0 : R := 0.36787944117144245.
Definition cutoffs : list R :=
  [0.7357588823428847; 0.9196986029286058; 0.9810118431238462; 0.9963401531726563; 0.9994058151824183;
   0.999916758850712; 0.9999897508033253; 0.999998874797402; 0.9999998885745217; 0.9999999899522336;
   0.9999999991683892; 0.9999999999364022; 0.9999999999954802; 0.9999999999997; 0.9999999999999813;
   0.9999999999999989; 0.9999999999999999]%R.
Fixpoint case_weight (k : nat) (cs : list R) (u : R) : nat :=
  match cs with
  | [] => k
  | c :: cs' => if Rle_dec u c then k else case_weight (S k) cs' u
  end.
Definition poisson_weight (u : R) : nat := if Rlt_dec cutoff0 u then case_weight 1 cutoffs u else 0.
