(** models.py: linear models fitted from sufficient statistics ("magic" mode).

    A row of the table DataToFit (models.py 378-383) is the list of its k regressors and its y.  Cells are exact
    reals (no NULLs: AVG columns over different NULL patterns are outside this model).  One slice of split_by is
    one list of rows; groupby(split_by).apply (models.py 477-483) runs the algorithm on each slice's row of
    statistics. *)
From Coq Require Import Reals List Arith Bool.
From Verif Require Import M_Num M_Frame L_Fsum.
Import ListNotations.
Open Scope R_scope.
Open Scope list_scope.

Notation row := (list R * R)%type.
Definition feat (i : nat) (r : row) : R := nth i (fst r) 0.
Definition resp (r : row) : R := snd r.
(** SQL AVG over the rows of the slice *)
Definition avg (f : row -> R) (rows : list row) : R := Rsum (map f rows) / INR (List.length rows).

(** Names of the columns of the statistics: x{i}, x{i}x{j}, y, x{i}y, n_obs. *)
Inductive skey := KX (i : nat) | KXX (i j : nat) | KY | KXY (i : nat) | KN.
Definition skey_eqb (a b : skey) : bool :=
  match a, b with
  | KX i, KX j => Nat.eqb i j
  | KXX i j, KXX i' j' => Nat.eqb i i' && Nat.eqb j j'
  | KY, KY | KN, KN => true
  | KXY i, KXY j => Nat.eqb i j
  | _, _ => false
  end.
Notation stats := (list (skey * R)).
(** row[name] of a pandas row; None is a KeyError *)
Fixpoint get (s : stats) (k : skey) : option R :=
  match s with
  | [] => None
  | (k', v) :: s' => if skey_eqb k' k then Some v else get s' k
  end.
Fixpoint get_all (s : stats) (ks : list skey) : option (list R) :=
  match ks with
  | [] => Some []
  | k :: ks' => match get s k, get_all s ks' with Some v, Some vs => Some (v :: vs) | _, _ => None end
  end.

(** for i in range(n): for j in range(i, n): (i, j); also numpy's triu_indices(n) *)
Definition triu (n : nat) : list (nat * nat) :=
  flat_map (fun i => map (fun j => (i, j)) (seq i (n - i))) (seq 0 n).

(** models.py 316-334: the selected columns in order (normalize = False) *)
Definition stat_cols (k : nat) (fit_intercept include_n_obs : bool) : list skey :=
  (if fit_intercept then map KX (seq 0 k) else [])
  ++ map (fun p => KXX (fst p) (snd p)) (triu k)
  ++ (if fit_intercept then [KY] else [])
  ++ map KXY (seq 0 k)
  ++ (if include_n_obs then [KN] else []).
(** the value the query returns for each of them *)
Definition stat_value (rows : list row) (c : skey) : R :=
  match c with
  | KX i => avg (feat i) rows
  | KXX i j => avg (fun r => feat i r * feat j r) rows
  | KY => avg resp rows
  | KXY i => avg (fun r => feat i r * resp r) rows
  | KN => INR (List.length rows)
  end.
Definition suff_stats (k : nat) (fit_intercept include_n_obs : bool) (rows : list row) : stats :=
  map (fun c => (c, stat_value rows c)) (stat_cols k fit_intercept include_n_obs).

Notation mat := (nat -> nat -> R).
(** models.py 550-566 symmetrize_triangular: int(floor(sqrt(2 * len))), the shape check, the assignment to the
    upper triangle of a zero matrix, and sym + sym.T - diag. None is the ValueError. *)
Fixpoint assign (pos : list (nat * nat)) (els : list R) (i j : nat) : R :=
  match pos, els with
  | (a, b) :: pos', e :: els' => if Nat.eqb a i && Nat.eqb b j then e else assign pos' els' i j
  | _, _ => 0
  end.
Definition symmetrize (els : list R) : option (nat * mat) :=
  let n := Nat.sqrt (2 * List.length els) in
  if Nat.eqb (n * (n + 1)) (2 * List.length els) then
    let u := assign (triu n) els in
    Some (n, fun i j => u i j + u j i - (if Nat.eqb i j then u i j else 0))
  else None.

(** models.py 569-608 construct_matrix_from_elements.  n is read off the last column name x{n-1}y. *)
Definition last_key (s : stats) : option skey :=
  match rev (map fst s) with
  | KN :: c :: _ => Some c
  | c :: _ => Some c
  | [] => None
  end.
Definition construct_matrix (s : stats) (fit_intercept : bool) : option (nat * mat * list R) :=
  match last_key s with
  | Some (KXY m) =>
      let n := S m in
      let xx := (if fit_intercept then map KX (seq 0 n) else []) ++ map (fun p => KXX (fst p) (snd p)) (triu n) in
      let xy := (if fit_intercept then [KY] else []) ++ map KXY (seq 0 n) in
      match get_all s xx, get_all s xy with
      | Some els, Some b =>
          match symmetrize (if fit_intercept then 1 :: els else els) with
          | Some (d, A) => Some (d, A, b)
          | None => None
          end
      | _, _ => None
      end
  | _ => None
  end.

(** np.linalg.solve as a relation: w is a solution of the d equations A w = b.  (LAPACK's rounding, and the
    LinAlgError for a singular matrix, are not modelled.) *)
Definition solves (d : nat) (A : mat) (b : nat -> R) (w : list R) : Prop :=
  List.length w = d /\ forall i, (i < d)%nat -> fsum d (fun j => A i j * nth j w 0) = b i.

(** models.py 486-511, Ridge (alpha) and LinearRegression (which calls Ridge with alpha 0, 199-209) without
    normalization: the system that is solved *)
Definition ridge_system (s : stats) (fit_intercept : bool) (alpha : R) : option (nat * mat * list R) :=
  match construct_matrix s fit_intercept, get s KN with
  | Some (d, A, b), Some n_obs =>
      let penalty := fun i j => if Nat.eqb i j then (if fit_intercept && Nat.eqb i 0 then 0 else 1) else 0 in
      Some (d, (fun i j => A i j + alpha / n_obs * penalty i j), b)
  | _, _ => None
  end.
(** models.py 514-547 compute_coef_for_normalize_ridge *)
Definition centered (s : stats) (a b ab : skey) : option R :=
  match get s ab, get s a, get s b with Some v, Some x, Some y => Some (v - x * y) | _, _, _ => None end.
Fixpoint mapM {A B} (f : A -> option B) (l : list A) : option (list B) :=
  match l with
  | [] => Some []
  | a :: l' => match f a, mapM f l' with Some b, Some bs => Some (b :: bs) | _, _ => None end
  end.
Definition normalized_system (k : nat) (s : stats) (alpha : R) : option (nat * mat * list R) :=
  match mapM (fun p => centered s (KX (fst p)) (KX (snd p)) (KXX (fst p) (snd p))) (triu k),
        mapM (fun i => centered s (KX i) KY (KXY i)) (seq 0 k) with
  | Some els, Some b =>
      match symmetrize els with
      | Some (d, A) => Some (d, (fun i j => A i j + alpha * (if Nat.eqb i j then A i i else 0)), b)
      | None => None
      end
  | _, _ => None
  end.
Definition dot (a b : list R) : R := Rsum (map (fun p => fst p * snd p) (combine a b)).

(** models.py 486-547 compute_ridge_coefs: [w] (intercept first) is what it returns *)
Definition ridge_coefs (k : nat) (fit_intercept normalize : bool) (alpha : R) (s : stats) (w : list R) : Prop :=
  if fit_intercept && normalize then
    exists d A b c ym xm, normalized_system k s alpha = Some (d, A, b) /\ solves d A (fun i => nth i b 0) c
      /\ get s KY = Some ym /\ get_all s (map KX (seq 0 k)) = Some xm /\ w = (ym - dot c xm) :: c
  else exists d A b, ridge_system s fit_intercept alpha = Some (d, A, b) /\ solves d A (fun i => nth i b 0) w.
(** Ridge.compute_on_sql_magic_mode, models.py 257-265, on one slice *)
Definition ridge_magic k fit_intercept normalize alpha (rows : list row) : list R -> Prop :=
  ridge_coefs k fit_intercept normalize alpha (suff_stats k fit_intercept true rows).
(** LinearRegression.compute_on_sql_magic_mode, models.py 199-209 *)
Definition linear_magic k fit_intercept normalize (rows : list row) : list R -> Prop :=
  ridge_magic k fit_intercept normalize 0 rows.

(** models.py 886-887 *)
Definition soft_thresholding (x thresh : R) : R := Rmax (x - thresh) 0 + Rmin (x + thresh) 0.
