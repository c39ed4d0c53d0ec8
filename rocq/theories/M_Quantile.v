(** Quantile: metrics.py 2060-2320.  The weighted quantile of one slice, in pandas and in the query, and the
    offset of the unweighted query. *)
From Coq Require Import Reals List Bool ZArith Floats.SpecFloat.
From Verif Require Import M_Num M_NxxFloat.
Import ListNotations.
Open Scope list_scope.
Open Scope R_scope.

(** groupby(var)[weight].sum() / SELECT var, SUM(weight) GROUP BY var ORDER BY var: the distinct values
    in order, each with its total weight.  Values and weights are exact reals. *)
Fixpoint add_weight (v w : R) (pts : list (R * R)) : list (R * R) :=
  match pts with
  | [] => [(v, w)]
  | (v', w') :: pts' => if Rlt_dec v v' then (v, w) :: pts
                        else if Req_EM_T v v' then (v', w + w') :: pts' else (v', w') :: add_weight v w pts'
  end.
Definition aggregate (rows : list (R * R)) : list (R * R) := fold_right (fun r => add_weight (fst r) (snd r)) [] rows.
(** 2115: groupby drops missing values of var; sum skips missing weights but keeps the group *)
Fixpoint pandas_rows (rows : list (num * num)) : list (R * R) :=
  match rows with
  | (Fin v, Fin w) :: rows' => (v, w) :: pandas_rows rows'
  | (Fin v, NaN) :: rows' => (v, 0) :: pandas_rows rows'
  | _ :: rows' => pandas_rows rows'
  | [] => []
  end.
(** 2229-2232: WHERE var IS NOT NULL AND weight IS NOT NULL *)
Fixpoint sql_rows (rows : list (num * num)) : list (R * R) :=
  match rows with
  | (Fin v, Fin w) :: rows' => (v, w) :: sql_rows rows'
  | _ :: rows' => sql_rows rows'
  | [] => []
  end.
(** 2117-2121, 2243-2252: (cumsum - 0.5 * weight) / sum, next to the value *)
Definition total (pts : list (R * R)) : R := Rsum (List.map snd pts).
Fixpoint knots_from (acc W : R) (pts : list (R * R)) : list (R * R) :=
  match pts with
  | [] => []
  | (v, w) :: pts' => ((acc + w - 0.5 * w) / W, v) :: knots_from (acc + w) W pts'
  end.
Definition knots (pts : list (R * R)) : list (R * R) := knots_from 0 (total pts) pts.
(** np.interp(q, xp, fp) for increasing xp, 2106: the value of the last knot not above q, the slope to the
    next one; constant outside. *)
Fixpoint interp (q : R) (ks : list (R * R)) : R :=
  match ks with
  | [] => 0
  | (k, v) :: ks' =>
      match ks' with
      | [] => v
      | (k', v') :: _ => if Rle_dec q k then v else if Rlt_dec q k' then (v' - v) / (k' - k) * (q - k) + v else interp q ks'
      end
  end.
Definition pandas_quantile (q : R) (rows : list (num * num)) : R := interp q (knots (aggregate (pandas_rows rows))).
(** 2256-2279, 2289-2304: LAG and LEAD of the ordered knots; the sum of
    IF((prev IS NULL AND q < w) OR (next IS NULL AND q > w), v, IF(q BETWEEN w AND next, interp, 0)); a comparison
    with NULL is not true. *)
Definition sql_term (first : bool) (q k v : R) (next : option (R * R)) : R :=
  if (first && (if Rlt_dec q k then true else false)) ||
     (match next with None => (if Rlt_dec k q then true else false) | Some _ => false end)
  then v
  else match next with
       | Some (k', v') => if Rle_dec k q then if Rle_dec q k' then (v' * (q - k) + (k' - q) * v) / (k' - k) else 0 else 0
       | None => 0
       end.
Fixpoint sql_sum (first : bool) (q : R) (ks : list (R * R)) : R :=
  match ks with
  | [] => 0
  | (k, v) :: ks' => sql_term first q k v (hd_error ks') + sql_sum false q ks'
  end.
Definition sql_quantile (q : R) (rows : list (num * num)) : R := sql_sum true q (knots (aggregate (sql_rows rows))).

(** 2139-2158: int(100 * quantile) in binary64; the literal k/100 is the float nearest to k/100, which is
    the correctly rounded quotient. *)
Definition truncate (f : spec_float) : option Z :=
  match f with
  | S754_zero _ => Some 0%Z
  | S754_finite s m e => let a := match e with Z0 => Zpos m | Zpos p => (Zpos m * 2 ^ Zpos p)%Z | Zneg p => (Zpos m / 2 ^ Zpos p)%Z end in
                         Some (if s then Z.opp a else a)
  | _ => None
  end.
Definition percent_literal (k : Z) : spec_float := b64_div (b64_of_Z k) (b64_of_Z 100).
Definition sql_offset (q : spec_float) : option Z := truncate (b64_mul (b64_of_Z 100) q).
