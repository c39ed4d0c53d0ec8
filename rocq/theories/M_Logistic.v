(** models.py 921-1407: logistic regression in magic mode.

    The table DataToFit with a slice label on each row; the label stands for the values of the split_by columns, and
    label equality for the conditions  c = "v" AND ...  (models.py 1120-1124).  Unsplit computation is the case of a
    single label.  Cells are exact reals, no NULLs. *)
From Coq Require Import Reals List Arith Bool.
From Verif Require Import M_Num M_Frame L_Fsum M_Models.
Import ListNotations.
Open Scope R_scope.
Open Scope list_scope.

(** models.py 1373-1381 sig_minus_b: the value of the SQL expression *)
Definition sig_minus_b (z b : R) : R :=
  if Rlt_dec z 0 then ((1 - b) * exp z - b) / (1 + exp z)
  else ((1 - b) - b * exp (- z)) / (1 + exp (- z)).
(** models.py 1186-1188 *)
Definition sig_z (z : R) : R := if Rlt_dec z 0 then exp z / (1 + exp z) else 1 / (1 + exp (- z)).

(** models.py 1070-1072: the regressors, and the constant 1 at the end when there is an intercept *)
Definition n_xs (k : nat) (fit_intercept : bool) : nat := if fit_intercept then S k else k.
Definition xs (k : nat) (i : nat) (r : row) : R := if Nat.ltb i k then feat i r else 1.
(** models.py 1181 *)
Definition z_of (k : nat) (fit_intercept : bool) (coef : list R) (r : row) : R :=
  fsum (n_xs k fit_intercept) (fun i => nth i coef 0 * xs k i r).

(** penalty = 'l2' with C = c, or the unregularized gradient (penalty None; also 'l1' and 'elasticnet') *)
Notation l2_penalty := (option R).
(** models.py 1182-1185, 1203-1205: the gradient columns over the rows of the slice *)
Definition grad_query (k : nat) (fit_intercept : bool) (pen : l2_penalty) (coef : list R) (rows : list row) : list R :=
  map (fun i => avg (fun r => xs k i r * sig_minus_b (z_of k fit_intercept coef r) (resp r)) rows
                + (match pen with
                   | Some c => if Nat.ltb i k then nth i coef 0 / INR (List.length rows) / c else 0
                   | None => 0 end))
      (seq 0 (n_xs k fit_intercept)).
(** models.py 1207-1208: arange(len(xs), len(xs) - k + 1, -1).cumsum() with 0 in front *)
Fixpoint cumsum (acc : nat) (l : list nat) : list nat :=
  match l with [] => [] | x :: l' => (acc + x)%nat :: cumsum (acc + x) l' end.
Definition hess_diag_idx (k m : nat) : list nat :=
  0%nat :: cumsum 0 (map (fun i => (m - i)%nat) (seq 0 (k - 1))).
(** models.py 1189-1196, 1209: the upper triangle of the Hessian, row by row *)
Definition hess_query (k : nat) (fit_intercept : bool) (pen : l2_penalty) (coef : list R) (rows : list row) : list R :=
  let m := n_xs k fit_intercept in
  let w := fun r => - sig_z (z_of k fit_intercept coef r) * sig_minus_b (z_of k fit_intercept coef r) 1 in
  let elements := map (fun p => avg (fun r => xs k (fst p) r * xs k (snd p) r * w r) rows) (triu m) in
  match pen with
  | None => elements
  | Some c => map (fun ie => snd ie + (if existsb (Nat.eqb (fst ie)) (hess_diag_idx k m)
                                       then 1 / (INR (List.length rows) * c) else 0))
                  (combine (seq 0 (List.length elements)) elements)
  end.

(** models.py 1236-1257: the intercept is reported first *)
Definition report (fit_intercept : bool) (coef : list R) : list R :=
  if fit_intercept then last coef 0 :: removelast coef else coef.

(** ** All slices at once *)
Section Slices.
  Variable L : Type.
  Variable label_eqb : L -> L -> bool.
  Notation table := (list (prod L (prod (list R) R))).
  (** AVG(IF(cond, x, NULL)) and COUNTIF(cond) read the rows that satisfy the condition *)
  Definition slice_rows (t : table) (c : L) : list row := map snd (filter (fun lr => label_eqb (fst lr) c) t).
  Variables (k : nat) (fit_intercept : bool) (pen : l2_penalty).
  Notation m := (n_xs k fit_intercept).

  Definition pending_columns (q : list R -> list row -> list R) (t : table) (conds : list L) (coef : list (list R)) (converged : list bool) : list R :=
    List.concat (map (fun ccd : L * list R * bool => if snd ccd then [] else q (snd (fst ccd)) (slice_rows t (fst (fst ccd))))
                     (combine (combine conds coef) converged)).
  (** models.py 1136-1142: the k first values go to the next slice that has not converged *)
  Fixpoint deal_grads (values : list R) (converged : list bool) : list (list R) * list R :=
    match converged with
    | [] => ([], values)
    | true :: rest => let (g, v) := deal_grads values rest in (repeat 0 m :: g, v)
    | false :: rest => let (g, v) := deal_grads (skipn m values) rest in (firstn m values :: g, v)
    end.
  (** models.py 1145-1153: reshape(-1, k(k+1)/2), pop(0) for each slice that has not converged *)
  Fixpoint deal_hess (values : list R) (converged : list bool) : list mat :=
    match converged with
    | [] => []
    | true :: rest => (fun _ _ => 0) :: deal_hess values rest
    | false :: rest =>
        let n := List.length (triu m) in
        (match symmetrize (firstn n values) with Some (_, h) => h | None => fun _ _ => 0 end)
        :: deal_hess (skipn n values) rest
    end.
  (** models.py 1088-1154 compute_grads_and_hess: one query, gradient columns first *)
  Definition compute_grads_and_hess (t : table) (conds : list L) (coef : list (list R)) (converged : list bool) (ignore_hess : bool)
      : list (list R) * list mat :=
    let values := pending_columns (grad_query k fit_intercept pen) t conds coef converged
                  ++ (if ignore_hess then [] else pending_columns (hess_query k fit_intercept pen) t conds coef converged) in
    let (g, rest) := deal_grads values converged in
    (g, if ignore_hess then [] else deal_hess rest converged).

  (** np.linalg.solve(h, j) *)
  Variable solve : nat -> mat -> list R -> list R.
  Variable tol : R.
  Definition lmax (l : list R) : R := fold_right (fun x acc => Rmax (Rabs x) acc) 0 l.
  Definition vsub (a b : list R) : list R := map (fun p => fst p - snd p) (combine a b).
  (** models.py 1392-1397: the body of the loop over slices *)
  Definition newton_slice (coef g : list R) (h : mat) (done : bool) : list R * bool :=
    if done then (coef, true)
    else let delta := solve m h g in (vsub coef delta, if Rlt_dec (lmax delta) tol then true else false).
  Fixpoint newton_slices (coefs gs : list (list R)) (hs : list mat) (converged : list bool) : list (list R) * list bool :=
    match coefs, gs, hs, converged with
    | c :: coefs', g :: gs', h :: hs', d :: converged' =>
        let (c', d') := newton_slice c g h d in
        let (cs, ds) := newton_slices coefs' gs' hs' converged' in (c' :: cs, d' :: ds)
    | _, _, _, _ => ([], [])
    end.
  (** models.py 1384-1407 newtons_method; [n] iterations left.  The answer comes with the flags of convergence (the
      warning names the slices that are not). *)
  Fixpoint newtons_method (t : table) (conds : list L) (n : nat) (coefs : list (list R)) (converged : list bool) : list (list R) * list bool :=
    match n with
    | O => (coefs, converged)
    | S n' =>
        let (gs, hs) := compute_grads_and_hess t conds coefs converged false in
        let (coefs', converged') := newton_slices coefs gs hs converged in
        if forallb (fun b => b) converged' then (coefs', converged')
        else newtons_method t conds n' coefs' converged'
    end.
  Definition newton_magic (t : table) (conds : list L) (max_iter : nat) (init : list (list R)) : list (list R) * list bool :=
    newtons_method t conds max_iter init (map (fun _ => false) init).

  (** *** 'l1' and 'elasticnet' penalties: models.py 1260-1370 fista_for_logistic_regression *)
  (** models.py 1304-1337: per slice (step_size, k, threshold).  [l1], [l2] are l1_ratio / C and (1 - l1_ratio) / C;
      [lam] is the largest eigenvalue of the slice's X'X / n. *)
  Definition slice_params (l1 l2 : R) (lam n_obs : R) : R * R * R :=
    let step := 3.999999 / lam in
    let kk := l2 / n_obs * step + 1 in
    (step, kk, l1 / n_obs * step / kk).
  (** state of a slice: coef, delta, converged *)
  Notation fstate := (list R * list R * bool)%type.
  Definition momentum (i : nat) (s : fstate) : list R :=
    let '(coef, delta, _) := s in map (fun p => fst p + (INR i - 1) / (INR i + 2) * snd p) (combine coef delta).
  (** models.py 1342-1356: one iteration of one slice, given the gradient at v *)
  Definition fista_slice (p : R * R * R) (i : nat) (s : fstate) (g : list R) : fstate :=
    let '(step, kk, thr) := p in
    let '(coef, delta, done) := s in
    if done then s
    else
      let v := momentum i s in
      let u := map (fun q => fst q - step * snd q) (combine v g) in
      let coef' := map (fun jx => if fit_intercept && Nat.eqb (fst jx) (m - 1) then snd jx
                                  else soft_thresholding (snd jx / kk) thr) (combine (seq 0 (List.length u)) u) in
      let delta' := vsub coef' coef in
      (coef', delta', if Rlt_dec (lmax delta') tol then true else false).
  Fixpoint fista_slices (ps : list (R * R * R)) (i : nat) (ss : list fstate) (gs : list (list R)) : list fstate :=
    match ps, ss, gs with
    | p :: ps', s :: ss', g :: gs' => fista_slice p i s g :: fista_slices ps' i ss' gs'
    | _, _, _ => []
    end.
  Fixpoint fista_logistic (t : table) (conds : list L) (ps : list (R * R * R)) (n i : nat) (ss : list fstate) : list fstate :=
    match n with
    | O => ss
    | S n' =>
        let gs := fst (compute_grads_and_hess t conds (map (momentum i) ss) (map snd ss) true) in
        let ss' := fista_slices ps i ss gs in
        if forallb snd ss' then ss' else fista_logistic t conds ps n' (S i) ss'
    end.
  Definition fista_magic (t : table) (conds : list L) (ps : list (R * R * R)) (max_iter : nat) (init : list (list R)) : list fstate :=
    fista_logistic t conds ps max_iter 0 (map (fun c => (c, map (fun _ => 0) c, false)) init).
End Slices.

(** models.py 1051-1060: the check of the labels: every slice has exactly two distinct values of y *)
Definition two_classes (rows : list row) : bool := Nat.eqb (List.length (nodup Req_EM_T (map resp rows))) 2.
