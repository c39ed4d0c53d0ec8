(** Displaying confidence intervals: confidence_interval_display.py 102-190 (_sorted_long_to_wide), 212-285
    (_pre_aggregate_df), 300-418 (MetricFormatter), 452-483 (_get_formatter), 486-523 (add_control_rows), 526-561
    (_add_is_control_and_control_id), 660-716 (get_formatted_df).  The dimension cells, the text of headers and the
    renaming of columns are left out. *)
From Coq Require Import String List Bool Reals.
From Verif Require Import M_Metric.
Import ListNotations.
Open Scope list_scope.
Open Scope string_scope.

(** A float that may be missing; infinities are left out. *)
Inductive num := NaN | Fin (r : R).
Definition isnull (x : num) : bool := match x with NaN => true | Fin _ => false end.
(** [x > 0] and [x < 0] are false on a missing value *)
Definition gt0 (x : num) : bool := match x with NaN => false | Fin r => if Rlt_dec 0 r then true else false end.
Definition lt0 (x : num) : bool := match x with NaN => false | Fin r => if Rlt_dec r 0 then true else false end.
Record quad := Quad { q_value : num; q_ratio : num; q_lower : num; q_upper : num }.
Record formats := Formats { f_value : string; f_ratio : string }.

Definition dq : string := String (Ascii.ascii_of_nat 34) "".
(** _div and _span, 289-298 *)
Definition div (s cls : string) : string := "<div class=" ++ dq ++ cls ++ dq ++ ">" ++ s ++ "</div>".
Definition div0 (s : string) : string := "<div>" ++ s ++ "</div>".
Definition span (s cls : string) : string := "<span class=" ++ dq ++ cls ++ dq ++ ">" ++ s ++ "</span>".
Definition line_break : string := "<div class=" ++ dq ++ "ci-display-flex-line-break" ++ dq ++ "></div>".
Definition join_lines (l : list string) : string := String.concat line_break l.

Section Format.
  (** val_format.format(val) *)
  Variable fmt : string -> R -> string.
  (** form_lookup.get(form, form) and unit_lookup.get(form, ''), 335-340 *)
  Definition val_format (form : string) : string :=
    if String.eqb form "percent" then "{:.2f}" else if String.eqb form "absolute" then "{:.4f}"
    else if String.eqb form "pp" then "{:.2f}" else form.
  Definition unit (form : string) : string :=
    if String.eqb form "percent" then "%" else if String.eqb form "pp" then "pp" else "".
  (** _format_value, 342-370 *)
  Definition format_value (v : num) (form : string) : string :=
    match v with NaN => "N/A" | Fin r => fmt (val_format form) r ++ unit form end.
  Definition format_bound (v : num) (form : string) : string :=
    match v with NaN => "N/A" | Fin r => fmt (val_format form) r end.
  Definition format_ci (lo hi : num) (form : string) : string :=
    let res := "[" ++ format_bound lo form ++ ", " ++ format_bound hi form ++ "]" in
    if String.eqb (unit form) "" then res else res ++ " " ++ unit form.
  (** MetricFormatter.__call__, 372-415 *)
  Definition metric_cell (f : formats) (flip hide_null_ctrl : bool) (x : quad) : string :=
    let value := if String.eqb (f_value f) "percent"
                 then match q_value x with NaN => NaN | Fin r => Fin (r * 100)%R end else q_value x in
    let value_formatted := format_value value (f_value f) in
    let ratio_formatted := span (format_value (q_ratio x) (f_ratio f)) "ci-display-ratio" in
    let ci_formatted := span (format_ci (q_lower x) (q_upper x) (f_ratio f)) "ci-display-ci-range" in
    if isnull (q_ratio x) then div value_formatted "ci-display-cell"
    else
      let res := div0 (join_lines
        (if isnull value then (if hide_null_ctrl then [ratio_formatted; ci_formatted]
                               else ["<div>-</div>"; ratio_formatted; ci_formatted])
         else [value_formatted; ratio_formatted; ci_formatted])) in
      if (gt0 (q_lower x) && negb flip) || (lt0 (q_upper x) && flip)
      then div res "ci-display-good-change ci-display-cell"
      else if (lt0 (q_upper x) && negb flip) || (gt0 (q_lower x) && flip)
      then div res "ci-display-bad-change ci-display-cell"
      else div res "ci-display-cell".
End Format.

(** ** The table *)
Open Scope list_scope.
(** A row of the long table: the dimensions, the experiment, the metric and its numbers. *)
Record lrow := LRow { l_dims : list cell; l_exp : cell; l_metric : string; l_quad : quad }.
(** ctrl_id: absent, one control, or a dict from controls to their experiments *)
Inductive control := CtrlNone | CtrlOne (c : cell) | CtrlMany (d : list (cell * list cell)).
(** the dict of 552-558; the last assignment to an experiment counts *)
Definition ctrl_assignments (d : list (cell * list cell)) : list (cell * cell) :=
  flat_map (fun p => map (fun e => (e, fst p)) (snd p) ++ [(fst p, fst p)]) d.
Definition ctrl_lookup (d : list (cell * list cell)) (e : cell) : cell :=
  match find (fun p => cell_eqb (fst p) e) (rev (ctrl_assignments d)) with Some p => snd p | None => CNull end.
Definition is_control (ctrl : control) (e : cell) : bool :=
  match ctrl with
  | CtrlNone => false
  | CtrlOne c => match e with CNull => false | _ => cell_eqb e c end
  | CtrlMany d => existsb (fun p => cell_eqb (fst p) e) d
  end.
Definition control_id (ctrl : control) (e : cell) : cell :=
  match ctrl with CtrlNone => CNull | CtrlOne c => c | CtrlMany d => ctrl_lookup d e end.
Definition cbool (b : bool) : cell := CNum (if b then 1 else 0)%Z.

(** 245-284: what is shown of the rows *)
Definition visible (ctrl : control) (show_control show_value : bool) (rows : list lrow) : list lrow :=
  if show_control then
    map (fun r => if is_control ctrl (l_exp r)
                  then LRow (l_dims r) (l_exp r) (l_metric r)
                         (Quad (q_value (l_quad r)) NaN (q_lower (l_quad r)) (q_upper (l_quad r)))
                  else r) rows
  else
    map (fun r => if show_value then r
                  else LRow (l_dims r) (l_exp r) (l_metric r)
                         (Quad NaN (q_ratio (l_quad r)) (q_lower (l_quad r)) (q_upper (l_quad r))))
        (filter (fun r => negb (is_control ctrl (l_exp r))) rows).

(** 124-130: the index columns of the wide table.  A Control_Id column without any value is dropped. *)
Definition no_control_ids (ctrl : control) (rows : list lrow) : bool :=
  forallb (fun r => match control_id ctrl (l_exp r) with CNull => true | _ => false end) rows.
Definition row_key (has_exp : bool) (ctrl : control) (drop_ids : bool) (r : lrow) : list cell :=
  l_dims r ++
  (if has_exp then
     match ctrl with
     | CtrlNone => [l_exp r]
     | _ => (if drop_ids then [] else [control_id ctrl (l_exp r)]) ++ [cbool (is_control ctrl (l_exp r)); l_exp r]
     end
   else []).
Definition null_key (k : list cell) : bool := existsb (fun c => match c with CNull => true | _ => false end) k.
Definition key_eqb (a b : list cell) : bool :=
  Nat.eqb (List.length a) (List.length b) && forallb (fun p => cell_eqb (fst p) (snd p)) (combine a b).
Fixpoint distinct {A} (eqb : A -> A -> bool) (l : list A) : list A :=
  match l with [] => [] | x :: r => x :: filter (fun y => negb (eqb x y)) (distinct eqb r) end.
(** agg('mean') skips missing values *)
Definition mean (l : list num) : num :=
  let v := flat_map (fun x => match x with NaN => [] | Fin r => [r] end) l in
  match v with [] => NaN | _ => Fin (fold_right Rplus 0%R v / INR (List.length v))%R end.
Definition mean_quad (l : list quad) : quad :=
  Quad (mean (map q_value l)) (mean (map q_ratio l)) (mean (map q_lower l)) (mean (map q_upper l)).

Section Table.
  Variable fmt : string -> R -> string.
  (** sort_values(sorting_cols, ascending), 150-170: stable, by a comparison that the user can choose *)
  Variable le : list cell -> list cell -> bool.
  Fixpoint insert_key (k : list cell) (l : list (list cell)) : list (list cell) :=
    match l with [] => [k] | k' :: r => if le k k' then k :: l else k' :: insert_key k r end.
  Definition sort_keys (l : list (list cell)) : list (list cell) := fold_right insert_key [] l.

  (** groupby(index + ['Metric']).agg('mean').unstack(-1), sorted: rows of the wide table *)
  Definition wide (keyed : list (list cell * lrow)) : list (list cell * list (string * quad)) :=
    let ok := filter (fun p => negb (null_key (fst p))) keyed in
    let keys := sort_keys (distinct key_eqb (map fst ok)) in
    let ms := distinct String.eqb (map (fun p => l_metric (snd p)) ok) in
    map (fun k => (k, map (fun m => (m, mean_quad (map (fun p => l_quad (snd p))
            (filter (fun p => key_eqb (fst p) k && String.eqb (l_metric (snd p)) m) ok)))) ms)) keys.

  Definition rendered (f : formats) (flip_color : list string) (hide : bool) (ms : list (string * quad)) : list (string * string) :=
    map (fun mq => (fst mq, metric_cell fmt f (existsb (String.eqb (fst mq)) flip_color) hide (snd mq))) ms.
  (** get_formatted_df: key of each row, then metric and HTML of its cells.  [metric_order]: [] when not given *)
  Definition formatted (has_exp : bool) (ctrl : control) (show_control show_value : bool) (f : formats)
      (flip_color metric_order : list string) (hide : bool) (rows : list lrow) : list (list cell * list (string * string)) :=
    let ctrl := if has_exp then ctrl else CtrlNone in
    let vis := visible ctrl show_control show_value rows in
    let keyed := map (fun r => (row_key has_exp ctrl (no_control_ids ctrl vis) r, r)) vis in
    map (fun kq => (fst kq, rendered f flip_color hide
           (match metric_order with
            | [] => snd kq
            | _ => flat_map (fun m => filter (fun mq => String.eqb (fst mq) m) (snd kq)) metric_order
            end))) (wide keyed).
End Table.

(** ** add_control_rows (486-523): values for control rows that are missing *)
Definition thresh : R := (/ 1 ^ 5)%R.   (* 1**-5 *)
Definition rmax (l : list R) : R := match l with [] => 0%R | x :: r => fold_left Rmax r x end.
Definition rmin (l : list R) : R := match l with [] => 0%R | x :: r => fold_left Rmin r x end.
(** the value filled in for one metric, control and slice, from the Control_Value of its experiments *)
Definition filled_control (vals : list R) : option R :=
  if Rlt_dec (rmax vals - rmin vals) thresh then Some (rmin vals) else None.
(** whether the warning about inconsistent control values is printed *)
Definition warns (vals : list R) : bool := if Rlt_dec thresh (rmax vals - rmin vals) then true else false.
