(** models.py 611-918: Lasso and ElasticNet from sufficient statistics (magic mode), on one slice. *)
From Coq Require Import Reals List Arith Bool.
From Verif Require Import M_Num M_Frame L_Fsum M_Models.
Import ListNotations.
Open Scope R_scope.
Open Scope list_scope.

Notation vec := (nat -> R).

(** models.py 385-456 get_data with normalize: AverageValueTable, DataCentered, NormSquaredValueTable,
    DataNormalized; POWER(s, 0.5) is the square root. *)
Definition data_centered (k : nat) (rows : list row) : list row :=
  map (fun r => (map (fun i => feat i r - avg (feat i) rows) (seq 0 k), resp r)) rows.
Definition norm_squared (rows : list row) (i : nat) : R := Rsum (map (fun r => feat i r ^ 2) rows).
Definition data_normalized (k : nat) (rows : list row) : list row :=
  let c := data_centered k rows in
  map (fun r => (map (fun i => feat i r / sqrt (norm_squared c i)) (seq 0 k), resp r)) c.
(** models.py 335-342: with normalize the averages of x are not queried; columns of zeros are put in front *)
Definition normalized_stats (k : nat) (rows : list row) : stats :=
  map (fun i => (KX i, 0)) (seq 0 k)
  ++ map (fun c => (c, stat_value (data_normalized k rows) c))
       (map (fun p => KXX (fst p) (snd p)) (triu k) ++ [KY] ++ map KXY (seq 0 k)).

(** models.py 791-824 center_x: the updated statistics *)
Definition or0 (o : option R) : R := match o with Some v => v | None => 0 end.
Definition center_x (s : stats) (n : nat) : stats :=
  map (fun cv => match cv with
                 | (KX i, v) => (KX i, if Nat.ltb i n then 0 else v)
                 | (KXX i j, v) => (KXX i j, if Nat.ltb i n && Nat.leb i j && Nat.ltb j n
                                             then v - or0 (get s (KX i)) * or0 (get s (KX j)) else v)
                 | (KXY i, v) => (KXY i, if Nat.ltb i n then v - or0 (get s (KX i)) * or0 (get s KY) else v)
                 | cv => cv
                 end) s.

(** models.py 871-880: one iteration of the loop of fista_for_elastic_net; [i] is the loop variable, the state is
    (coef, delta) *)
Definition fista_step (d : nat) (A : mat) (b : vec) (l1 l2 step_size : R) (fit_intercept : bool) (i : nat) (st : vec * vec) : vec * vec :=
  let (coef, delta) := st in
  let k := l2 * step_size + 1 in
  let threshold := l1 * step_size / k in
  let v := fun j => coef j + (INR i - 1) / (INR i + 2) * delta j in
  let g := fun j => v j - step_size * (fsum d (fun m => A j m * v m) - b j) in
  let coef' := fun j => if fit_intercept && Nat.eqb j 0 then g j else soft_thresholding (g j / k) threshold in
  (coef', fun j => coef' j - coef j).
(** models.py 870-883: the loop, [n] iterations left *)
Fixpoint fista_loop (d : nat) (A : mat) (b : vec) (l1 l2 step_size : R) (fit_intercept : bool) (tol : R) (n i : nat) (st : vec * vec) : vec :=
  match n with
  | O => fst st
  | S n' =>
      let st' := fista_step d A b l1 l2 step_size fit_intercept i st in
      if Rlt_dec (fsum d (fun j => Rabs (snd st' j))) tol then fst st'
      else fista_loop d A b l1 l2 step_size fit_intercept tol n' (S i) st'
  end.
(** models.py 827-883; [lam] is np.linalg.eigvals(x_t_x).max() *)
Definition fista (d : nat) (A : mat) (b : vec) (l1 l2 lam tol : R) (max_iter : nat) (fit_intercept : bool) (init : vec) : vec :=
  fista_loop d A b l1 l2 ((1 - / 1000000) / lam) fit_intercept tol max_iter 0 (init, fun _ => 0).

(** models.py 768-788 compute_coef_for_elastic_net; [init] is the random initial guess *)
Definition elastic_coefs (k : nat) (fit_intercept : bool) (l1 l2 tol : R) (max_iter : nat) (lam : R) (init : vec) (s : stats) : option (list R) :=
  let s' := if fit_intercept then center_x s k else s in
  match construct_matrix s' fit_intercept with
  | None => None
  | Some (d, A, b) =>
      let c := map (fista d A (fun i => nth i b 0) l1 l2 lam tol max_iter fit_intercept init) (seq 0 d) in
      Some (if fit_intercept
            then (or0 (get s KY) - dot (tl c) (map (fun i => or0 (get s (KX i))) (seq 0 k))) :: tl c
            else c)
  end.
(** models.py 890-918 compute_normalized_coef, with the queried norms and averages (385-396, 419-426) *)
Definition compute_normalized_coef (k : nat) (rows : list row) (w : list R) : list R :=
  let c := map (fun i => nth (S i) w 0 / sqrt (norm_squared (data_centered k rows) i)) (seq 0 k) in
  (avg resp rows - dot (map (fun i => avg (feat i) rows) (seq 0 k)) c) :: c.

(** models.py 736-765 ElasticNet.compute_on_sql_magic_mode on one slice; None is the ValueError.
    Lasso (664-677) calls it with l1_ratio = 1. *)
Definition elastic_magic (k : nat) (fit_intercept normalize : bool) (alpha l1_ratio tol : R) (max_iter : nat)
    (lam : R) (init : vec) (rows : list row) : option (list R) :=
  if Req_EM_T l1_ratio 0 then None
  else if Rle_dec 0 l1_ratio then if Rle_dec l1_ratio 1 then
    let l1 := l1_ratio * alpha in
    let l2 := (1 - l1_ratio) * alpha in
    if fit_intercept && normalize
    then match elastic_coefs k fit_intercept l1 l2 tol max_iter lam init (normalized_stats k rows) with
         | Some w => Some (compute_normalized_coef k rows w)
         | None => None
         end
    else elastic_coefs k fit_intercept l1 l2 tol max_iter lam init (suff_stats k fit_intercept false rows)
  else None else None.
Definition lasso_magic k fit_intercept normalize alpha tol max_iter lam init rows : option (list R) :=
  elastic_magic k fit_intercept normalize alpha 1 tol max_iter lam init rows.
